(* PropsGkp2.v: C36 for whole arrays: the summation range is that of the largest variance. *)
From Verif Require Import Base GkpModel PropsGkp.
Open Scope R_scope.

Lemma amax_spec l : forall v, In (amax v l) (v :: l) /\ forall w, In w (v :: l) -> w <= amax v l.
Proof.
  induction l as [|u l IH]; intros v; cbn [amax]; [split; [left; reflexivity|intros w [<-|[]]; lra]|]. destruct (IH u) as [I1 I2]. split.
  - unfold Rmax. destruct (Rle_dec v (amax u l)); [right; exact I1|left; reflexivity].
  - intros w [<-|Hw]; [apply Rmax_l|]. eapply Rle_trans; [apply I2; exact Hw|apply Rmax_r].
Qed.

(* C36.  Z_err of an array: for every variance one minus the probability of the bins of bit 0 numbered -c .. c, for one c that is taken from
   the largest variance of the array; an empty array is refused. *)
Theorem C36_z_err_array : forall erff vars var_num, (forall v, In v vars -> 0 < v) -> 0 <= var_num ->
  (vars = [] -> Z_err erff vars var_num = Err ValueError) /\
  (vars <> [] -> exists vmax c, In vmax vars /\ (forall v, In v vars -> v <= vmax) /\ (0 <= c)%Z /\ var_num * vmax <= IZR (2 * c + 1) /\ IZR (2 * c - 1) < var_num * vmax /\
     Z_err erff vars var_num = Ok (map (fun var =>
       1 - sumR (map (fun j => (1 + erff (IZR (4 * j + 1) * sqrt PI / 2 / var)) / 2 - (1 + erff (IZR (4 * j - 1) * sqrt PI / 2 / var)) / 2) (py_range (- c) (c + 1)))) vars)).
Proof.
  intros erff vars var_num Hpos Hn. split; [intros ->; reflexivity|]. intros Hne. destruct vars as [|v l]; [congruence|].
  destruct (amax_spec l v) as [A1 A2]. set (vmax := amax v l) in *.
  assert (H0 : 0 <= var_num * vmax) by (apply Rmult_le_pos; [exact Hn|]; specialize (Hpos vmax A1); lra).
  set (C := (ceilR (var_num * vmax) / 2)%Z).
  destruct (C36_z_err_is_missed_mass erff vmax var_num vmax (Hpos vmax A1) H0) as (c & C1 & C2 & C3 & _).
  exists vmax, c. split; [exact A1|]. split; [exact A2|]. split; [exact C1|]. split; [exact C2|]. split; [exact C3|].
  unfold Z_err. fold vmax. f_equal. apply map_ext_in. intros w Hw. destruct (C36_z_err_is_missed_mass erff w var_num vmax (Hpos w Hw) H0) as (c' & D1 & D2 & D3 & D4). rewrite D4.
  replace c' with c; [reflexivity|].
  assert (IZR (2 * c - 1) < IZR (2 * c' + 1)) by lra. assert (IZR (2 * c' - 1) < IZR (2 * c + 1)) by lra. apply lt_IZR in H, H1. lia.
Qed.
Print Assumptions C36_z_err_array.

Example C36_array_nonvacuous : (forall v, In v [1; 2] -> 0 < v) /\ [1; 2] <> [].
Proof. split; [|discriminate]. intros v [<-|[<-|[]]]; lra. Qed.
