(* PropsGkp.v: C33 (integer and fractional part), C34 (binning), C35 (conditional phase error
   probability), C36 (phase error probability). *)
From Verif Require Import Base GkpModel.
Open Scope R_scope.

(* ------------------------------------------------------------------ *)
(* C33 *)
Lemma Int_part_spec x : IZR (Int_part x) <= x < IZR (Int_part x) + 1.
Proof. destruct (base_Int_part x). lra. Qed.

Theorem C33_integer_fractional :
  forall x alpha n f, 0 < alpha -> integer_fractional x alpha = (n, f) ->
  x = IZR n * alpha + f /\ Rabs f <= alpha / 2 /\
  (* the boundary goes to the upper end *)
  - alpha / 2 < f <= alpha / 2 /\
  (* and this determines the result *)
  forall n' f', x = IZR n' * alpha + f' -> - alpha / 2 < f' <= alpha / 2 -> n' = n /\ f' = f.
Proof.
  intros x alpha n f Ha H.
  assert (Hs : x = IZR n * alpha + f /\ - alpha / 2 < f <= alpha / 2).
  { unfold integer_fractional, divmod in H. cbv zeta in H. simpl fst in H. simpl snd in H.
    set (q := Int_part (x / alpha)) in *. pose proof (Int_part_spec (x / alpha)) as Hq. fold q in Hq.
    assert (Hx : x = x / alpha * alpha) by (field; lra).
    assert (Hr : 0 <= x - IZR q * alpha < alpha).
    { rewrite Hx at 1 2. replace (x / alpha * alpha - IZR q * alpha) with ((x / alpha - IZR q) * alpha) by ring. split.
      - apply Rmult_le_pos; lra.
      - rewrite <- (Rmult_1_l alpha) at 3. apply Rmult_lt_compat_r; lra. }
    unfold gt_int in H. destruct (Rlt_dec (alpha / 2) (x - IZR q * alpha)) as [Hl|Hl]; injection H as <- <-.
    - rewrite plus_IZR. split; [ring|]. lra.
    - rewrite Z.add_0_r. split; [ring|]. lra. }
  destruct Hs as [Hx Hf]. split; [assumption|]. split; [apply Rabs_le; lra|]. split; [assumption|].
  intros n' f' Hx' Hf'. assert (Hn : n' = n); [|split; [assumption|subst n'; lra]].
  assert (Hd : (IZR n' - IZR n) * alpha = f - f') by lra.
  assert (Hb : - 1 < IZR n' - IZR n < 1).
  { split; apply (Rmult_lt_reg_r alpha); try assumption; rewrite Hd; lra. }
  destruct Hb as [Hb1 Hb2]. rewrite <- minus_IZR in Hb1, Hb2.
  apply (lt_IZR (-1)) in Hb1. apply (lt_IZR _ 1) in Hb2. lia.
Qed.
Print Assumptions C33_integer_fractional.

Lemma IF_unique x alpha n f : 0 < alpha -> x = IZR n * alpha + f -> - alpha / 2 < f <= alpha / 2 -> integer_fractional x alpha = (n, f).
Proof.
  intros Ha Hx Hf. destruct (integer_fractional x alpha) as [n0 f0] eqn:E.
  destruct (C33_integer_fractional x alpha n0 f0 Ha E) as (_ & _ & _ & U). destruct (U n f Hx Hf) as [-> ->]. reflexivity.
Qed.

Example C33_example : integer_fractional (7/2) 2 = (2%Z, - (1/2)).
Proof. apply IF_unique; lra. Qed.

Lemma Int_part_unique x n : IZR n <= x < IZR n + 1 -> Int_part x = n.
Proof.
  intros H. pose proof (Int_part_spec x) as H'.
  assert (A : IZR (Int_part x) < IZR (n + 1)) by (rewrite plus_IZR; lra).
  assert (B : IZR n < IZR (Int_part x + 1)) by (rewrite plus_IZR; lra).
  apply lt_IZR in A, B. lia.
Qed.

(* The docstring allows any real alpha; for negative alpha the fractional part can exceed
   half of the absolute value of alpha. *)
Theorem C33_negative_alpha_refuted :
  exists n f, integer_fractional (1/4) (-1) = (n, f) /\ Rabs (-1) / 2 < Rabs f.
Proof.
  exists (-1)%Z, (- (3/4)). assert (Hq : Int_part (1 / 4 / -1) = (-1)%Z) by (apply Int_part_unique; lra).
  unfold integer_fractional, divmod. cbv zeta. rewrite Hq. simpl fst. simpl snd. unfold gt_int.
  destruct (Rlt_dec (-1 / 2) (1 / 4 - -1 * -1)) as [H|H]; [lra|]. split; [f_equal; lra|].
  rewrite Rabs_left by lra. rewrite Rabs_left by lra. lra.
Qed.

(* ------------------------------------------------------------------ *)
(* C34.  sqrt(pi)/2 is half a bin. *)
Local Opaque integer_fractional.
Lemma spi_pos : 0 < sqrt PI.
Proof. apply sqrt_lt_R0, PI_RGT_0. Qed.

Theorem C34_binning_partial :
  forall x,
  (* the bit is the parity of the multiple of sqrt(pi) nearest to x, the upper end of a bin included *)
  (exists k, - sqrt PI / 2 < x - IZR k * sqrt PI <= sqrt PI / 2 /\ fst (GKP_binner x) = (k mod 2)%Z /\ snd (GKP_binner x) = x - IZR k * sqrt PI) /\
  (* so the bit is 0 or 1, has period 2 sqrt(pi) and is flipped by a shift by sqrt(pi); the fractional part has period sqrt(pi) *)
  (fst (GKP_binner x) = 0%Z \/ fst (GKP_binner x) = 1%Z) /\
  GKP_binner (x + 2 * sqrt PI) = GKP_binner x /\
  GKP_binner (x + sqrt PI) = ((1 - fst (GKP_binner x))%Z, snd (GKP_binner x)) /\
  (* as documented: the open intervals around 0 and around sqrt(pi) *)
  (- sqrt PI / 2 < x < sqrt PI / 2 -> fst (GKP_binner x) = 0%Z) /\
  (sqrt PI / 2 < x < 3 * sqrt PI / 2 -> fst (GKP_binner x) = 1%Z).
Proof.
  intros x. pose proof spi_pos as Hp. unfold GKP_binner.
  destruct (integer_fractional x (sqrt PI)) as [n f] eqn:E. simpl fst. simpl snd.
  destruct (C33_integer_fractional x (sqrt PI) n f Hp E) as (Hx & _ & Hf & U).
  assert (Hk : forall k, integer_fractional (x + IZR k * sqrt PI) (sqrt PI) = ((n + k)%Z, f)).
  { intros k. apply IF_unique; [assumption|rewrite plus_IZR; lra|assumption]. }
  split; [exists n; split; [lra|split; [reflexivity|lra]]|].
  split; [lia|]. split; [rewrite (Hk 2%Z); simpl; f_equal; lia|].
  split; [replace (x + sqrt PI) with (x + IZR 1 * sqrt PI) by lra; rewrite (Hk 1%Z); simpl; f_equal; lia|].
  split; intros Hr.
  - destruct (U 0%Z x) as [<- _]; [lra|lra|reflexivity].
  - destruct (U 1%Z (x - sqrt PI)) as [<- _]; [lra|lra|reflexivity].
Qed.
Print Assumptions C34_binning_partial.

(* "Values on the boundary are binned to 0": every second boundary is binned to 1 *)
Theorem C34_boundary_to_0_refuted :
  fst (GKP_binner (- sqrt PI / 2)) = 1%Z /\ fst (GKP_binner (3 * sqrt PI / 2)) = 1%Z /\
  fst (GKP_binner (sqrt PI / 2)) = 0%Z.
Proof.
  pose proof spi_pos as Hp. unfold GKP_binner.
  rewrite (IF_unique (- sqrt PI / 2) (sqrt PI) (-1) (sqrt PI / 2)) by lra.
  rewrite (IF_unique (3 * sqrt PI / 2) (sqrt PI) 1 (sqrt PI / 2)) by lra.
  rewrite (IF_unique (sqrt PI / 2) (sqrt PI) 0 (sqrt PI / 2)) by lra.
  repeat split; reflexivity.
Qed.
Print Assumptions C34_boundary_to_0_refuted.

(* ------------------------------------------------------------------ *)
(* C35.  expf is exp or any non-negative, non-decreasing stand-in for it. *)
Definition exp_like (expf : R -> R) : Prop := (forall x, 0 <= expf x) /\ forall x y, x <= y -> expf x <= expf y.
Lemma exp_exp_like : exp_like exp.
Proof.
  split; [intros x; apply Rlt_le, exp_pos|]. intros x y [H| -> ]; [apply Rlt_le, exp_increasing; assumption|apply Rle_refl].
Qed.
(* an exp that underflows *)
Lemma underflow_exp_like : exp_like (fun x => if Rlt_dec x (-745) then 0 else exp x).
Proof.
  split; [intros x; destruct (Rlt_dec x (-745)); [lra|apply Rlt_le, exp_pos]|].
  intros x y H. destruct (Rlt_dec x (-745)), (Rlt_dec y (-745)); try lra; [apply Rlt_le, exp_pos|].
  apply exp_exp_like; assumption.
Qed.

Lemma sumR_nonneg l : (forall x, In x l -> 0 <= x) -> 0 <= sumR l.
Proof.
  induction l as [|x l IH]; intros H; [simpl; lra|]. unfold sumR; simpl; fold (sumR l).
  specialize (IH (fun y Hy => H y (or_intror Hy))). specialize (H x (or_introl eq_refl)). lra.
Qed.
Lemma sumR_le {A} (f g : A -> R) l : (forall x, In x l -> f x <= g x) -> sumR (map f l) <= sumR (map g l).
Proof.
  induction l as [|x l IH]; intros H; [simpl; lra|]. simpl map. unfold sumR; simpl; fold (sumR (map f l)); fold (sumR (map g l)).
  specialize (IH (fun y Hy => H y (or_intror Hy))). specialize (H x (or_introl eq_refl)). lra.
Qed.

Lemma sumR_ge l (f : Z -> R) n : In n l -> (forall m, 0 <= f m) -> f n <= sumR (map f l).
Proof.
  induction l as [|m l IH]; intros H Hf; [destruct H|]. simpl map. unfold sumR; simpl; fold (sumR (map f l)). destruct H as [->|H].
  - assert (0 <= sumR (map f l)) by (apply sumR_nonneg; intros x Hx; apply in_map_iff in Hx; destruct Hx as (? & <- & _); apply Hf). lra.
  - specialize (IH H Hf). specialize (Hf m). lra.
Qed.

(* each term of the numerator is at most the term of the denominator with half its index *)
Lemma term_le expf val var n : exp_like expf -> 0 < var -> - sqrt PI / 2 <= val <= sqrt PI / 2 ->
  ex_val expf val var (2 * n + 1) <= ex_val expf val var n.
Proof.
  intros [_ Hm] Hv Hval. unfold ex_val. apply Hm. pose proof spi_pos as Hp. set (s := sqrt PI) in *.
  rewrite plus_IZR, mult_IZR. set (k := IZR n).
  assert (Hk : (k <= -1) \/ (0 <= k)).
  { destruct (Z_le_gt_dec 0 n) as [H|H]; [right; apply (IZR_le 0); assumption|left; apply (IZR_le _ (-1)); lia]. }
  unfold Rdiv. apply Rmult_le_compat_r; [apply Rlt_le, Rinv_0_lt_compat; assumption|].
  assert (Hsq : (val - k * s) ^ 2 <= (val - (2 * k + 1) * s) ^ 2); [|lra].
  assert (Hd : (val - (2 * k + 1) * s) ^ 2 - (val - k * s) ^ 2 = ((k + 1) * s) * ((3 * k + 1) * s - 2 * val)) by ring.
  assert (Hc : 0 <= ((k + 1) * s) * ((3 * k + 1) * s - 2 * val)).
  { destruct Hk as [Hk|Hk].
    - assert (H1 : (k + 1) * s <= 0) by (assert (0 <= (- (k + 1)) * s) by (apply Rmult_le_pos; lra); lra).
      assert (H2 : (3 * k + 1) * s - 2 * val <= 0).
      { assert (0 <= (- (3 * k + 2)) * s) by (apply Rmult_le_pos; lra). lra. }
      replace ((k + 1) * s * ((3 * k + 1) * s - 2 * val)) with ((- ((k + 1) * s)) * (- ((3 * k + 1) * s - 2 * val))) by ring.
      apply Rmult_le_pos; lra.
    - apply Rmult_le_pos; [apply Rmult_le_pos; lra|]. assert (0 <= 3 * k * s) by (apply Rmult_le_pos; lra). lra. }
  lra.
Qed.

Lemma frac_bound x : - sqrt PI / 2 < snd (GKP_binner x) <= sqrt PI / 2.
Proof.
  unfold GKP_binner. destruct (integer_fractional x (sqrt PI)) as [n f] eqn:E. simpl.
  destruct (C33_integer_fractional x (sqrt PI) n f spi_pos E) as (_ & _ & H & _). assumption.
Qed.

Lemma ratio_prob a b : 0 <= a <= b -> b <> 0 -> 0 <= a / b <= 1.
Proof.
  intros H Hb. assert (0 < b) by lra. assert (0 < / b) by (apply Rinv_0_lt_compat; assumption). split.
  - apply Rmult_le_pos; lra.
  - apply (Rmult_le_reg_r b); [assumption|]. unfold Rdiv. rewrite Rmult_assoc, Rinv_l by lra. lra.
Qed.

Lemma zc_bounds expf nmax var hom : exp_like expf -> 0 < var ->
  0 <= zc_num expf nmax 1 (zc_val false hom) var <= zc_den expf nmax (zc_val false hom) var.
Proof.
  intros He Hv. pose proof (frac_bound hom) as Hf. change (zc_val false hom) with (snd (GKP_binner hom)). split.
  - apply sumR_nonneg. intros x Hx. apply in_map_iff in Hx. destruct Hx as (n & <- & _). apply He.
  - unfold zc_num, zc_den. apply sumR_le. intros n _. apply term_le; [assumption|assumption|lra].
Qed.

Theorem C35_probability_partial :
  forall expf var hom_val var_num r, exp_like expf -> 0 < var -> 0 <= r <= 1 ->
  exists p, Z_err_cond expf var hom_val var_num (RVal r) false = ZNum p /\ 0 <= p <= 1.
Proof.
  intros expf var hom nm r He Hv Hr. unfold Z_err_cond. cbv zeta. pose proof (zc_bounds expf nm var hom He Hv) as Hb.
  destruct (Req_EM_T _ 0) as [E|E]; [exists r; auto|]. eexists. split; [reflexivity|]. apply ratio_prob; assumption.
Qed.
Print Assumptions C35_probability_partial.

(* what the value is: the weight of the odd multiples of sqrt(pi) divided by the weight of all of
   them, at the offset f of the outcome from the nearest multiple (the numerator ranges over twice
   as many multiples as the denominator).  So the value does not change when the outcome is
   shifted by sqrt(pi). *)
Lemma sumR_app l l' : sumR (l ++ l') = sumR l + sumR l'.
Proof. induction l as [|x l IH]; simpl; [lra|]. unfold sumR in *; simpl; rewrite IH; lra. Qed.
Lemma odd_range m a : filter Z.odd (map (fun k => (2 * a + Z.of_nat k)%Z) (seq 0 (2 * m))) = map (fun k => (2 * (a + Z.of_nat k) + 1)%Z) (seq 0 m).
Proof.
  induction m as [|m IH]; [reflexivity|]. replace (2 * S m)%nat with (2 * m + 2)%nat by lia. rewrite seq_app, map_app, filter_app, IH.
  rewrite (seq_S m 0), map_app. f_equal. cbn [seq map filter].
  assert (E0 : Z.odd (2 * a + Z.of_nat (0 + 2 * m)) = false).
  { rewrite Zodd_mod. replace (2 * a + Z.of_nat (0 + 2 * m))%Z with ((a + Z.of_nat m) * 2)%Z by lia. rewrite Z_mod_mult. reflexivity. }
  assert (E1 : Z.odd (2 * a + Z.of_nat (S (0 + 2 * m))) = true).
  { rewrite Zodd_mod. replace (2 * a + Z.of_nat (S (0 + 2 * m)))%Z with (1 + (a + Z.of_nat m) * 2)%Z by lia. rewrite Z_mod_plus_full. reflexivity. }
  rewrite E0, E1. f_equal. lia.
Qed.
Lemma odd_py_range n : (0 <= n)%Z -> filter Z.odd (py_range (- (2 * n)) (2 * n)) = map (fun k => (2 * k + 1)%Z) (py_range (- n) n).
Proof.
  intros H. unfold py_range. rewrite map_map. replace (Z.to_nat (2 * n - - (2 * n))) with (2 * Z.to_nat (n - - n))%nat by lia.
  rewrite <- (odd_range _ (- n)). f_equal. apply map_ext. intros; lia.
Qed.
Theorem C35_value_partial :
  forall expf var f k var_num replace, (0 <= var_num)%Z -> - sqrt PI / 2 < f <= sqrt PI / 2 ->
  let weight n := expf (- (f - IZR n * sqrt PI) ^ 2 / var) in
  let all := sumR (map weight (py_range (- var_num) var_num)) in
  let odd := sumR (map weight (filter Z.odd (py_range (- (2 * var_num)) (2 * var_num)))) in
  all <> 0 -> Z_err_cond expf var (f + IZR k * sqrt PI) var_num replace false = ZNum (odd / all).
Proof.
  intros expf var f k nm replace Hn Hf weight all odd Hall. unfold Z_err_cond. cbv zeta.
  assert (Hv : zc_val false (f + IZR k * sqrt PI) = f).
  { unfold zc_val, GKP_binner. rewrite (IF_unique (f + IZR k * sqrt PI) (sqrt PI) k f); [reflexivity|apply spi_pos|lra|lra]. }
  rewrite Hv. change (zc_den expf nm f var) with all. destruct (Req_EM_T all 0) as [E|_]; [contradiction|]. do 2 f_equal.
  unfold odd. rewrite odd_py_range by assumption. rewrite map_map. reflexivity.
Qed.
Print Assumptions C35_value_partial.

(* the array version agrees with the scalar version entry by entry *)
Theorem C35_array_partial :
  forall expf vh var_num r, exp_like expf -> (forall v h, In (v, h) vh -> 0 < v) -> 0 <= r <= 1 ->
  exists ps, Z_err_cond_array expf vh var_num (RVal r) false = Ok ps /\
    map ZNum ps = map (fun x => Z_err_cond expf (fst x) (snd x) var_num (RVal r) false) vh /\
    forall p, In p ps -> 0 <= p <= 1.
Proof.
  intros expf vh nm r He Hv Hr. eexists. split; [reflexivity|]. split.
  - rewrite map_map. apply map_ext. intros [v h]. unfold Z_err_cond. cbv zeta. cbn [fst snd].
    destruct (Req_EM_T _ 0); reflexivity.
  - intros p Hp. apply in_map_iff in Hp. destruct Hp as ([v h] & <- & Hin). cbn [fst snd].
    pose proof (zc_bounds expf nm v h He (Hv v h Hin)) as Hb.
    destruct (Req_EM_T _ 0) as [E|E]; [assumption|]. apply ratio_prob; assumption.
Qed.
Print Assumptions C35_array_partial.

(* replace_undefined='bin_location' on arrays: the values are probabilities, at most 1/2 where
   the denominator vanishes *)
Theorem C35_bin_location_partial :
  forall expf vh var_num ps, exp_like expf -> (forall v h, In (v, h) vh -> 0 < v) ->
  Z_err_cond_array expf vh var_num RBin false = Ok ps -> forall p, In p ps -> 0 <= p <= 1.
Proof.
  intros expf vh nm ps He Hv H p Hp. unfold Z_err_cond_array in H. cbv zeta in H.
  destruct (_ || _) in H; [|discriminate]. injection H as <-.
  apply in_map_iff in Hp. destruct Hp as ([v h] & <- & Hin). cbn [fst snd].
  pose proof (zc_bounds expf nm v h He (Hv v h Hin)) as Hb.
  destruct (Req_EM_T _ 0) as [E|E]; [|apply ratio_prob; assumption].
  pose proof (frac_bound h) as Hf. change (zc_val false h) with (snd (GKP_binner h)). pose proof spi_pos as Hs.
  apply ratio_prob; [|lra]. split; [apply Rabs_pos|]. apply Rabs_le. change (snd (GKP_binner h)) with (snd (integer_fractional h (sqrt PI))) in Hf. lra.
Qed.
Print Assumptions C35_bin_location_partial.

(* With use_hom_val=True the result can exceed 1: at 19 sqrt(pi), variance 1 and the default
   10 terms, the numerator contains the multiple 18 sqrt(pi), which is beyond the range of
   the denominator. *)
Theorem C35_use_hom_val_refuted :
  exists p, Z_err_cond exp 1 (19 * sqrt PI) 10 (RVal 0) true = ZNum p /\ 1 < p.
Proof.
  assert (Hs : sqrt PI * sqrt PI = PI) by (apply sqrt_sqrt, Rlt_le, PI_RGT_0).
  assert (Hpi : 2 < PI) by (pose proof PI2_1; lra).
  assert (Hb : GKP_binner (19 * sqrt PI) = (1%Z, 0)).
  { unfold GKP_binner. pose proof spi_pos. rewrite (IF_unique (19 * sqrt PI) (sqrt PI) 19 0) by lra. reflexivity. }
  assert (Hex : forall n, ex_val exp (19 * sqrt PI) 1 n = exp (- ((19 - IZR n) ^ 2 * PI))).
  { intros n. unfold ex_val. f_equal.
    transitivity (- ((19 - IZR n) ^ 2 * (sqrt PI * sqrt PI))); [field|rewrite Hs; reflexivity]. }
  assert (Hden : zc_den exp 10 (19 * sqrt PI) 1 <= 20 * exp (- (100 * PI))).
  { unfold zc_den. assert (Hl : forall l (f : Z -> R) b, (forall n, In n l -> f n <= b) -> sumR (map f l) <= INR (length l) * b).
    { induction l as [|n l IH]; intros f b Hf; [simpl; lra|]. simpl map. simpl length. rewrite S_INR.
      unfold sumR; simpl; fold (sumR (map f l)). specialize (IH f b (fun m Hm => Hf m (or_intror Hm))).
      specialize (Hf n (or_introl eq_refl)). lra. }
    replace 20 with (INR (length (py_range (- (10)) 10))) by (rewrite length_py_range; simpl; lra).
    apply Hl. intros n Hn. apply in_py_range in Hn. rewrite Hex. apply exp_exp_like. apply Ropp_le_contravar.
    apply Rmult_le_compat_r; [lra|]. assert (Hle : IZR n <= 9) by (apply IZR_le; lia).
    replace 100 with (10 ^ 2) by ring. apply pow_incr. lra. }
  assert (Hpos : 0 < zc_den exp 10 (19 * sqrt PI) 1).
  { eapply Rlt_le_trans; [apply (exp_pos (- ((19 - IZR 0) ^ 2 * PI)))|]. rewrite <- Hex. unfold zc_den.
    apply sumR_ge; [apply in_py_range; lia|]. intros m. rewrite Hex. apply Rlt_le, exp_pos. }
  assert (Hnum : exp (- PI) <= zc_num exp 10 0 (19 * sqrt PI) 1).
  { unfold zc_num.
    replace (exp (- PI)) with (ex_val exp (19 * sqrt PI) 1 (2 * 9 + 0)) by (rewrite Hex; change (2 * 9 + 0)%Z with 18%Z; f_equal; lra).
    apply (sumR_ge _ (fun n => ex_val exp (19 * sqrt PI) 1 (2 * n + 0)) 9%Z); [apply in_py_range; lia|].
    intros m. rewrite Hex. apply Rlt_le, exp_pos. }
  unfold Z_err_cond, zc_factor, zc_val. cbv zeta. rewrite Hb. simpl fst. change (1 - 1)%Z with 0%Z.
  destruct (Req_EM_T _ 0) as [E|E]; [lra|]. eexists. split; [reflexivity|].
  apply (Rmult_lt_reg_r (zc_den exp 10 (19 * sqrt PI) 1)); [assumption|].
  unfold Rdiv. rewrite Rmult_assoc, Rinv_l by assumption. rewrite Rmult_1_r, Rmult_1_l.
  eapply Rle_lt_trans; [exact Hden|]. eapply Rlt_le_trans; [|exact Hnum].
  replace (- PI) with (- (100 * PI) + 99 * PI) by ring. rewrite exp_plus, (Rmult_comm 20).
  apply Rmult_lt_compat_l; [apply exp_pos|]. pose proof (exp_ineq1 (99 * PI)). lra.
Qed.
Print Assumptions C35_use_hom_val_refuted.

(* ------------------------------------------------------------------ *)
(* C36.  erff is erf or any non-decreasing function with values in [-1, 1]. *)
Definition erf_like (erff : R -> R) : Prop := (forall x, -1 <= erff x <= 1) /\ forall x y, x <= y -> erff x <= erff y.

(* the exact erf is one such function; so is any other antiderivative-like function, for
   instance linear interpolation between -1 and 1 *)
Lemma clamp_erf_like : erf_like (fun x => Rmax (-1) (Rmin 1 x)).
Proof.
  split.
  - intros x. split; [apply Rmax_l|]. apply Rmax_lub; [lra|apply Rmin_l].
  - intros x y H. apply Rmax_lub; [apply Rmax_l|]. eapply Rle_trans; [|apply Rmax_r]. apply Rmin_glb; [apply Rmin_l|].
    eapply Rle_trans; [apply Rmin_r|assumption].
Qed.

(* the error is 1 minus half the total increase of erf over the bins of 0: intervals
   [4j-1, 4j+1] in units of sqrt(pi) / 2 *)
Lemma bins_sum erff var : erf_like erff -> 0 < var ->
  forall m lo e, let g k := erff (IZR k * sqrt PI / (2 * var)) in
  e - 0.5 * (g (lo + 4 * Z.of_nat m)%Z - g lo) <=
  fold_left (fun e i => e - 0.5 * (g (i + 2)%Z - g i)) (map (fun k => (lo + 4 * Z.of_nat k)%Z) (seq 0 m)) e <= e.
Proof.
  intros [_ Hm] Hv m lo e g.
  assert (Hg : forall a b, (a <= b)%Z -> g a <= g b).
  { intros a b H. apply Hm. unfold Rdiv. apply Rmult_le_compat_r; [apply Rlt_le, Rinv_0_lt_compat; lra|].
    apply Rmult_le_compat_r; [apply Rlt_le, spi_pos|]. apply IZR_le; assumption. }
  revert e. induction m as [|m IH]; intros e.
  - simpl. replace (lo + 4 * 0)%Z with lo by lia. lra.
  - rewrite seq_S, map_app, fold_left_app. cbn [map fold_left]. rewrite Nat.add_0_l. specialize (IH e).
    set (r := fold_left _ _ e) in *.
    pose proof (Hg (lo + 4 * Z.of_nat m) (lo + 4 * Z.of_nat m + 2) ltac:(lia))%Z.
    pose proof (Hg (lo + 4 * Z.of_nat m + 2) (lo + 4 * Z.of_nat (S m)) ltac:(lia))%Z. lra.
Qed.

Theorem C36_z_err_probability :
  forall erff vars var_num, erf_like erff -> vars <> [] -> (forall v, In v vars -> 0 < v) ->
  exists ps, Z_err erff vars var_num = Ok ps /\ length ps = length vars /\ forall p, In p ps -> 0 <= p <= 1.
Proof.
  intros erff vars var_num He Hne Hpos. destruct vars as [|v l]; [congruence|]. unfold Z_err.
  eexists. split; [reflexivity|]. split; [apply map_length|]. intros p Hp. apply in_map_iff in Hp. destruct Hp as (w & <- & Hw).
  specialize (Hpos w Hw). unfold Z_err_entry, range_step, py_range. rewrite map_map.
  set (nm := n_max var_num (amax v l)). set (m := Z.to_nat _).
  rewrite (map_ext _ (fun k => (- nm + 4 * Z.of_nat k)%Z)) by (intros; lia).
  pose proof (bins_sum erff w He Hpos m (- nm)%Z 1) as H. cbv zeta in H.
  match type of H with _ <= ?f <= _ => set (x := f) in * end. destruct He as [Hb _].
  pose proof (Hb (IZR (- nm + 4 * Z.of_nat m) * sqrt PI / (2 * w))). pose proof (Hb (IZR (- nm) * sqrt PI / (2 * w))). lra.
Qed.
Print Assumptions C36_z_err_probability.

(* With at least zero standard deviations the range covers the bin around the origin. *)
Theorem C36_bins_are_those_of_bit_0 :
  forall var_num vmax i, In i (range_step (- n_max var_num vmax) (n_max var_num vmax) 4) ->
  (exists j, i = (4 * j - 1)%Z) /\
  forall x, IZR i * sqrt PI / 2 < x < IZR (i + 2) * sqrt PI / 2 -> fst (GKP_binner x) = 0%Z.
Proof.
  intros var_num vmax i Hi. unfold range_step in Hi. apply in_map_iff in Hi. destruct Hi as (k & <- & _).
  unfold n_max. set (c := (ceilR (var_num * vmax) / 2)%Z).
  assert (Hj : (- (c * 4 + 1) + 4 * k)%Z = (4 * (k - c) - 1)%Z) by lia. rewrite Hj. split; [eauto|]. intros x Hx.
  unfold GKP_binner. rewrite (IF_unique x (sqrt PI) (2 * (k - c)) (x - IZR (2 * (k - c)) * sqrt PI)); [|apply spi_pos|lra|].
  - simpl fst. lia.
  - replace (4 * (k - c) - 1 + 2)%Z with (2 * (2 * (k - c)) + 1)%Z in Hx by lia.
    replace (4 * (k - c) - 1)%Z with (2 * (2 * (k - c)) - 1)%Z in Hx by lia.
    rewrite plus_IZR, minus_IZR, mult_IZR in Hx. set (u := IZR (2 * (k - c))) in *. lra.
Qed.
Print Assumptions C36_bins_are_those_of_bit_0.

(* Z_err is one minus the probability, for a distribution with cumulative function
   (1 + erf(x / var)) / 2, of the bins of bit 0 numbered -c .. c, where 2c or 2c+1 is
   var_num * max(var) rounded up *)
Theorem C36_z_err_is_missed_mass :
  forall erff var var_num vmax, 0 < var -> 0 <= var_num * vmax ->
  let mass a b := (1 + erff (b / var)) / 2 - (1 + erff (a / var)) / 2 in
  exists c, (0 <= c)%Z /\ var_num * vmax <= IZR (2 * c + 1) /\ IZR (2 * c - 1) < var_num * vmax /\
  Z_err_entry erff (n_max var_num vmax) var =
    1 - sumR (map (fun j => mass (IZR (4 * j - 1) * sqrt PI / 2) (IZR (4 * j + 1) * sqrt PI / 2)) (py_range (- c) (c + 1))).
Proof.
  intros erff var var_num vmax Hv Hn mass. unfold n_max. exists (ceilR (var_num * vmax) / 2)%Z.
  set (C := ceilR (var_num * vmax)). set (c := (C / 2)%Z).
  assert (HC : var_num * vmax <= IZR C < var_num * vmax + 1).
  { unfold C, ceilR. rewrite opp_IZR. pose proof (Int_part_spec (- (var_num * vmax))). lra. }
  assert (HC0 : (0 <= C)%Z).
  { assert (IZR (-1) < IZR C) by (simpl; lra). apply lt_IZR in H. lia. }
  assert (Hc : (0 <= c)%Z) by (unfold c; lia). split; [assumption|].
  split; [apply Rle_trans with (IZR C); [lra|apply IZR_le; unfold c; lia]|].
  split.
  { assert (IZR (2 * c) <= IZR C) by (apply IZR_le; unfold c; lia). rewrite minus_IZR. lra. }
  unfold Z_err_entry, range_step.
  assert (Hl : ((c * 4 + 1 - - (c * 4 + 1) + 4 - 1) / 4 = 2 * c + 1)%Z) by lia. rewrite Hl.
  assert (Hr : map (fun k => (- (c * 4 + 1) + 4 * k)%Z) (py_range 0 (2 * c + 1)) = map (fun j => (4 * j - 1)%Z) (py_range (- c) (c + 1))).
  { unfold py_range. rewrite !map_map. replace (c + 1 - - c)%Z with (2 * c + 1 - 0)%Z by lia. apply map_ext. intros k. lia. }
  rewrite Hr. generalize (py_range (- c) (c + 1)) as l. intros l.
  assert (G : forall l e, fold_left (fun e i => e - 0.5 * (erff (IZR (i + 2) * sqrt PI / (2 * var)) - erff (IZR i * sqrt PI / (2 * var)))) (map (fun j => (4 * j - 1)%Z) l) e
    = e - sumR (map (fun j => mass (IZR (4 * j - 1) * sqrt PI / 2) (IZR (4 * j + 1) * sqrt PI / 2)) l)).
  { clear l. induction l as [|j l IH]; intros e; [simpl; lra|]. cbn [map fold_left]. rewrite IH. unfold sumR at 2. cbn [fold_right].
    match goal with |- context [fold_right Rplus 0 ?m] => fold (sumR m) end. unfold mass.
    replace (4 * j - 1 + 2)%Z with (4 * j + 1)%Z by lia.
    replace (IZR (4 * j + 1) * sqrt PI / 2 / var) with (IZR (4 * j + 1) * sqrt PI / (2 * var)) by (field; lra).
    replace (IZR (4 * j - 1) * sqrt PI / 2 / var) with (IZR (4 * j - 1) * sqrt PI / (2 * var)) by (field; lra). lra. }
  apply G.
Qed.
Print Assumptions C36_z_err_is_missed_mass.
