(* PropsConverge.v: C80, the relative frequency of errors that a simulation reports converges to the failure rate. *)
From Coq Require Import String Reals Lra Lia.
From Verif Require Import Base Lattice RhgModel RhgSpec SurfaceModel SurfaceSpec SurfaceProofs StabGraphModel PropsSurface MwpmModel UfModel UfSpec UfInst PropsUfDist.
From Verif Require Import SimModel SimSpec SimProofs SimTrial PropsSim PropsSimUf CountDraws CvMacroGauge PropsCvMacro PropsIidRate PropsBinomial.
Open Scope nat_scope.

(* ---------- specification ---------- *)
(* j errors in T trials differ from the rate by eps or more *)
Definition far (eps rate : R) (T j : nat) : bool := if Rle_dec eps (Rabs (INR j / INR T - rate)) then true else false.

(* ---------- sums ---------- *)
Definition rs {A} (f : A -> R) (l : list A) : R := fold_right (fun x s => (f x + s)%R) 0%R l.
Lemma rs_app {A} (f : A -> R) l1 l2 : (rs f (l1 ++ l2) = rs f l1 + rs f l2)%R.
Proof. unfold rs. induction l1 as [|x l IH]; cbn [app fold_right]; [ring|]. rewrite IH. ring. Qed.
Lemma rs_map {A B} (f : B -> R) (g : A -> B) l : rs f (map g l) = rs (fun x => f (g x)) l.
Proof. induction l as [|x l IH]; [reflexivity|]. cbn. unfold rs in *. rewrite IH. reflexivity. Qed.
Lemma rs_flat {A B} (f : B -> R) (g : A -> list B) l : rs f (flat_map g l) = rs (fun x => rs f (g x)) l.
Proof. induction l as [|x l IH]; [reflexivity|]. cbn [flat_map]. rewrite rs_app, IH. reflexivity. Qed.
Lemma rs_ext {A} (f g : A -> R) l : (forall x, In x l -> f x = g x) -> rs f l = rs g l.
Proof. induction l as [|x l IH]; intros H; [reflexivity|]. cbn. rewrite (H x (or_introl eq_refl)). f_equal. apply IH. intros y Hy. apply H. right. exact Hy. Qed.
Lemma rs_plus {A} (f g : A -> R) l : (rs (fun x => f x + g x) l = rs f l + rs g l)%R.
Proof. unfold rs. induction l as [|x l IH]; cbn [fold_right]; [ring|]. rewrite IH. ring. Qed.
Lemma rs_scale {A} (f : A -> R) k l : (rs (fun x => k * f x) l = k * rs f l)%R.
Proof. unfold rs. induction l as [|x l IH]; cbn [fold_right]; [ring|]. rewrite IH. ring. Qed.
Lemma rs_const {A} k (l : list A) : (rs (fun _ => k) l = INR (List.length l) * k)%R.
Proof. unfold rs. induction l as [|x l IH]; cbn [List.length fold_right]; [cbn; ring|]. rewrite IH, S_INR. ring. Qed.
Lemma rs_indicator {A} (f : A -> bool) (x y : R) l : (rs (fun v => if f v then x else y) l = INR (count_if f l) * x + INR (List.length l - count_if f l) * y)%R.
Proof.
  assert (H : forall l : list A, count_if f l <= List.length l) by (intros m; unfold count_if; induction m as [|z m IH]; cbn; [lia|destruct (f z); cbn; lia]).
  induction l as [|z l IH]; [cbn; lra|]. cbn [rs fold_right]. unfold rs in *. rewrite IH. specialize (H l). unfold count_if in *. cbn [filter]. destruct (f z); cbn [List.length].
  - rewrite S_INR. replace (S (List.length l) - S (List.length (filter f l))) with (List.length l - List.length (filter f l)) by lia. lra.
  - replace (S (List.length l) - List.length (filter f l)) with (S (List.length l - List.length (filter f l))) by lia. rewrite S_INR. lra.
Qed.
Lemma rs_markov {A} (f : A -> R) (P : A -> bool) k l : (forall x, In x l -> 0 <= f x)%R -> (forall x, In x l -> P x = true -> k <= f x)%R -> (INR (count_if P l) * k <= rs f l)%R.
Proof.
  unfold count_if. induction l as [|x l IH]; intros H0 H1; [cbn; lra|]. specialize (IH (fun y Hy => H0 y (or_intror Hy)) (fun y Hy => H1 y (or_intror Hy))). cbn [rs fold_right filter]. unfold rs in *.
  pose proof (H0 x (or_introl eq_refl)) as Hx. destruct (P x) eqn:E; [cbn [List.length]; rewrite S_INR; pose proof (H1 x (or_introl eq_refl) E); lra|lra].
Qed.

(* counts depend on the distribution only *)
Lemma same_distribution {A} (g h : A -> nat) (P : nat -> bool) l :
  (forall j, count_if (fun x => Nat.eqb (g x) j) l = count_if (fun x => Nat.eqb (h x) j) l) -> count_if (fun x => P (g x)) l = count_if (fun x => P (h x)) l.
Proof.
  intros H. rewrite <- (count_map P g), <- (count_map P h). assert (HP : Permutation (map g l) (map h l)).
  { apply (Permutation_count_occ Nat.eq_dec). intros j.
    assert (K : forall f : A -> nat, count_occ Nat.eq_dec (map f l) j = count_if (fun x => Nat.eqb (f x) j) l).
    { intros f. unfold count_if. clear. induction l as [|x l IH]; [reflexivity|]. cbn [map count_occ filter]. destruct (Nat.eq_dec (f x) j) as [->|n]; [rewrite Nat.eqb_refl; cbn [List.length]; rewrite IH; reflexivity|].
      rewrite (proj2 (Nat.eqb_neq _ _) n). exact IH. }
    rewrite !K. apply H. }
  unfold count_if. clear H. induction HP; cbn [filter]; try destruct (P x); try destruct (P y); cbn [List.length]; congruence.
Qed.

Section Variance.
  Variables (M : nat) (p : R) (nodes : list point) (decode : (point -> bool) -> res ((point -> bool) * bool)) (A0 : node_attrs).
  Notation n := (List.length nodes).
  Notation trial := (gen_trial (grid M) p nodes decode).
  Notation nb := (nbad M p nodes decode A0).
  Notation F := (count_if (fails trial A0) (all_draws M n)).
  Notation K := (M ^ n).

  Lemma F_le : F <= K.
  Proof. pose proof (all_draws_len M n) as H. rewrite <- H. unfold count_if. generalize (all_draws M n) as l. induction l as [|z m IH]; cbn; [lia|]. destruct (fails trial A0 z); cbn; lia. Qed.

  Lemma nb_mean T : (rs (fun ds => INR K * INR (nb T ds) - INR T * INR F) (all_draws M (T * n)) = 0)%R.
  Proof.
    induction T as [|T IH]; [cbn; lra|]. cbn [Nat.mul]. rewrite all_draws_add, rs_flat.
    rewrite (rs_ext _ (fun u => if fails trial A0 u then (INR (List.length (all_draws M (T * n))) * (INR K - INR F))%R else (INR (List.length (all_draws M (T * n))) * (- INR F))%R)).
    - rewrite rs_indicator. rewrite (all_draws_len M n). pose proof F_le. rewrite minus_INR by assumption. ring.
    - intros u Hu. apply in_all_draws in Hu. destruct Hu as [Hu _]. rewrite rs_map.
      rewrite (rs_ext _ (fun v => ((INR K * INR (if fails trial A0 u then 1 else 0) - INR F) + (INR K * INR (nb T v) - INR T * INR F))%R)).
      + rewrite rs_plus, IH, rs_const. destruct (fails trial A0 u); cbn [INR]; ring.
      + intros v _. rewrite nb_cons by exact Hu. rewrite plus_INR, S_INR. ring.
  Qed.

  Lemma nb_variance T : (rs (fun ds => (INR K * INR (nb T ds) - INR T * INR F) ^ 2) (all_draws M (T * n)) = INR T * INR F * (INR K - INR F) * INR K ^ T)%R.
  Proof.
    induction T as [|T IH]; [cbn; lra|]. cbn [Nat.mul]. rewrite all_draws_add, rs_flat.
    set (W := (INR T * INR F * (INR K - INR F) * INR K ^ T)%R) in *.
    assert (HL : INR (List.length (all_draws M (T * n))) = (INR K ^ T)%R) by (rewrite all_draws_len, !pow_INR, <- pow_mult; f_equal; lia).
    rewrite (rs_ext _ (fun u => if fails trial A0 u then (INR K ^ T * (INR K - INR F) ^ 2 + W)%R else (INR K ^ T * (- INR F) ^ 2 + W)%R)).
    - rewrite rs_indicator. rewrite (all_draws_len M n). pose proof F_le. rewrite minus_INR by assumption. unfold W. rewrite S_INR. cbn [pow]. ring.
    - intros u Hu. apply in_all_draws in Hu. destruct Hu as [Hu _]. rewrite rs_map.
      set (x := (INR K * INR (if fails trial A0 u then 1 else 0) - INR F)%R).
      rewrite (rs_ext _ (fun v => (x ^ 2 + (2 * x * (INR K * INR (nb T v) - INR T * INR F) + (INR K * INR (nb T v) - INR T * INR F) ^ 2))%R)).
      + rewrite rs_plus, rs_plus, rs_scale, nb_mean, IH, rs_const, HL. unfold x. destruct (fails trial A0 u); cbn [INR]; ring.
      + intros v _. rewrite nb_cons by exact Hu. unfold x. rewrite plus_INR, S_INR. ring.
  Qed.

  Lemma nb_far T eps : 0 < M -> 0 < T -> (0 < eps)%R -> let rate := (INR F / INR K)%R in
    (INR (count_if (fun ds => far eps rate T (nb T ds)) (all_draws M (T * n))) / INR (M ^ (T * n)) <= rate * (1 - rate) / (INR T * eps ^ 2))%R.
  Proof.
    intros HM HT He rate. set (c := count_if _ _).
    assert (PK : (0 < INR K)%R) by (apply lt_0_INR, Nat.neq_0_lt_0, Nat.pow_nonzero; lia). assert (PT : (0 < INR T)%R) by (apply lt_0_INR; exact HT).
    assert (HC : (INR c * (INR K * INR T * eps) ^ 2 <= INR T * INR F * (INR K - INR F) * INR K ^ T)%R).
    { rewrite <- nb_variance. apply rs_markov.
      - intros ds _. apply pow2_ge_0.
      - intros ds _ Hf. unfold far in Hf. destruct (Rle_dec eps (Rabs (INR (nb T ds) / INR T - rate))) as [h|]; [|discriminate].
        replace (INR K * INR (nb T ds) - INR T * INR F)%R with (INR K * INR T * (INR (nb T ds) / INR T - rate))%R by (unfold rate; field; lra).
        rewrite !Rpow_mult_distr. apply Rmult_le_compat_l; [apply Rmult_le_pos; apply pow2_ge_0|].
        rewrite <- (pow2_abs (INR (nb T ds) / INR T - rate)). apply pow_incr. lra. }
    assert (EK : INR (M ^ (T * n)) = (INR K ^ T)%R) by (rewrite !pow_INR, <- pow_mult; f_equal; lia). rewrite EK.
    assert (PKT : (0 < INR K ^ T)%R) by (apply pow_lt; exact PK). assert (Pe : (0 < eps ^ 2)%R) by (apply pow_lt; exact He).
    apply Rmult_le_reg_r with (INR K ^ T * (INR K * INR T * eps) ^ 2)%R; [apply Rmult_lt_0_compat; [exact PKT|apply pow_lt; repeat apply Rmult_lt_0_compat; assumption]|].
    replace (INR c / INR K ^ T * (INR K ^ T * (INR K * INR T * eps) ^ 2))%R with (INR c * (INR K * INR T * eps) ^ 2)%R by (field; lra).
    eapply Rle_trans; [exact HC|]. right. unfold rate. cbn [pow] in *. field. lra.
  Qed.
End Variance.

Lemma rate_half x : (x * (1 - x) <= 1 / 4)%R.
Proof. pose proof (pow2_ge_0 (x - 1 / 2)). cbn [pow] in *. nra. Qed.

(* Of all (equally likely) draws for T trials, those for which errors / trials differs from the failure rate by eps or more are at
   most rate (1 - rate) / (T eps^2), so at most 1 / (4 T eps^2). *)
Theorem C80_estimate_converges : forall D e b pol c ch M p A A0 trial T eps, dims_ge2 D -> is_surface_code D e b pol c -> valid_choice (sc_stabs c) ch ->
  0 < M -> 0 < T -> (0 < eps)%R -> uniform_decoder (grid M) p c ch trial ->
  let n := List.length (node_list (sc_graph c)) in let rate := (INR (count_if (fails trial A0) (all_draws M n)) / INR (M ^ n)%nat)%R in
  exists errors : list nat -> nat,
    (forall ds, List.length ds = T * n -> exists st', mc_single trial (Z.of_nat T) 1 0 (A, ds) = (st', Ok (Z.of_nat (errors ds)))) /\
    (INR (count_if (fun ds => far eps rate T (errors ds)) (all_draws M (T * n))) / INR (M ^ (T * n)) <= rate * (1 - rate) / (INR T * eps ^ 2))%R /\
    (rate * (1 - rate) / (INR T * eps ^ 2) <= 1 / (4 * INR T * eps ^ 2))%R.
Proof.
  intros D e b pol c ch M p A A0 trial T eps HD HC Hch HM HT He Hdec n rate.
  destruct (C71_distribution D e b pol c ch M p A A0 trial T HD HC Hch Hdec) as (errors & H1 & H2). cbv zeta in H2. fold n in H1, H2. exists errors. split; [exact H1|].
  destruct (decoder_gen D e b pol c ch (grid M) p trial HD HC Hch Hdec) as (decode & -> & _).
  pose proof (nb_far M p (node_list (sc_graph c)) decode A0 T eps HM HT He) as HF. cbv zeta in HF. fold n in HF. fold rate in HF. split.
  - rewrite (same_distribution errors (nbad M p (node_list (sc_graph c)) decode A0 T) (far eps rate T)); [exact HF|]. intros j. rewrite H2. symmetry. apply (nb_dist M p (node_list (sc_graph c)) decode A0 T j).
  - pose proof (rate_half rate) as Hh. assert (PT : (0 < INR T)%R) by (apply lt_0_INR; exact HT). assert (Pe : (0 < eps ^ 2)%R) by (apply pow_lt; exact He).
    apply Rmult_le_reg_r with (INR T * eps ^ 2)%R; [apply Rmult_lt_0_compat; assumption|]. unfold Rdiv at 1. rewrite Rmult_assoc, Rinv_l, Rmult_1_r by (apply Rgt_not_eq, Rmult_lt_0_compat; assumption).
    replace (1 / (4 * INR T * eps ^ 2) * (INR T * eps ^ 2))%R with (1 / 4)%R by (field; lra). exact Hh.
Qed.

(* The same in an MPI world of any size, if the draws of the ranks are independent. *)
Theorem C80_mpi_estimate_converges : forall D e b pol c ch M p A0 trial T eps, dims_ge2 D -> is_surface_code D e b pol c -> valid_choice (sc_stabs c) ch ->
  0 < M -> 0 < T -> (0 < eps)%R -> uniform_decoder (grid M) p c ch trial ->
  let n := List.length (node_list (sc_graph c)) in let rate := (INR (count_if (fails trial A0) (all_draws M n)) / INR (M ^ n)%nat)%R in
  exists errors : list nat -> nat,
    (forall As dss, As <> [] -> List.length As = List.length dss -> rank_draws n T dss ->
       List.length (List.concat dss) = T * n /\ mc_mpi trial (Z.of_nat T) (combine As dss) 0 = Some (Ok (Z.of_nat (errors (List.concat dss))))) /\
    (INR (count_if (fun ds => far eps rate T (errors ds)) (all_draws M (T * n))) / INR (M ^ (T * n)) <= rate * (1 - rate) / (INR T * eps ^ 2))%R.
Proof.
  intros D e b pol c ch M p A0 trial T eps HD HC Hch HM HT He Hdec n rate.
  destruct (C71_mpi_distribution D e b pol c ch M p A0 trial T HD HC Hch Hdec) as (errors & H1 & H2). cbv zeta in H2. fold n in H1, H2. exists errors. split; [exact H1|].
  destruct (decoder_gen D e b pol c ch (grid M) p trial HD HC Hch Hdec) as (decode & -> & _).
  pose proof (nb_far M p (node_list (sc_graph c)) decode A0 T eps HM HT He) as HF. cbv zeta in HF. fold n in HF. fold rate in HF.
  rewrite (same_distribution errors (nbad M p (node_list (sc_graph c)) decode A0 T) (far eps rate T)); [exact HF|]. intros j. rewrite H2. symmetry. apply (nb_dist M p (node_list (sc_graph c)) decode A0 T j).
Qed.

(* a hundred thousand trials: at most one sequence of draws in forty is off by one percent *)
Example C80_nonvacuous : (1 / (4 * INR 100000 * (1 / 100) ^ 2) = 1 / 40)%R /\
  far (1 / 2) (1 / 4) 4 3 = true /\ far (1 / 2) (1 / 4) 4 2 = false /\
  forall c, let ch := fun i j => hd (0, 0, 0)%Z (shared (sc_stabs c) i j) in is_surface_code (3, 3, 3)%Z EcPrimal BdToric None c -> valid_choice (sc_stabs c) ch -> exists trial, uniform_decoder (grid 1000) (1 / 100) c ch trial.
Proof.
  split; [|split; [|split]].
  - assert (H1 : INR 100000 = 100000%R) by (rewrite INR_IZR_INZ; f_equal; reflexivity). rewrite H1. field.
  - unfold far. cbn [INR]. destruct (Rle_dec _ _) as [|n]; [reflexivity|]. exfalso. apply n. replace ((1 + 1 + 1) / (1 + 1 + 1 + 1) - 1 / 4)%R with (1 / 2)%R by field. rewrite Rabs_pos_eq; lra.
  - unfold far. cbn [INR]. destruct (Rle_dec _ _) as [h|]; [|reflexivity]. exfalso. replace ((1 + 1) / (1 + 1 + 1 + 1) - 1 / 4)%R with (1 / 4)%R in h by field. rewrite Rabs_pos_eq in h; lra.
  - intros c ch HC Hch. assert (HD : dims_ge2 (3, 3, 3)%Z) by (intros []; cbn; lia). destruct (C54_contracts_met (3, 3, 3)%Z EcPrimal BdToric None c ch HD HC Hch) as (lib & L1 & L2).
    pose (E := sg_edges (sc_stabs c) (sc_bound c) ch). exists (iid_uf_trial (grid 1000) (1 / 100) c ch (fun _ => false) lib id_sched (2 * List.length E + 2)).
    right. exists lib, id_sched, (2 * List.length E + 2). split; [exact L1|]. split; [exact L2|]. split; [exact id_sched_ok|]. split; [apply le_n|reflexivity].
Qed.
Print Assumptions C80_estimate_converges. Print Assumptions C80_mpi_estimate_converges.
