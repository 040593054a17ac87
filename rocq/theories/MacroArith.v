(* MacroArith.v: the rounding of displacements in macronize. *)
From Verif Require Import Base Lattice RhgModel EgraphModel MacroModel.
Open Scope Z_scope.

Lemma log_steps_spec fuel : forall a b, 0 < a <= b -> b < a * 10 ^ Z.of_nat fuel ->
  a * 10 ^ Z.of_nat (log_steps fuel a b) <= b < a * 10 ^ (Z.of_nat (log_steps fuel a b) + 1).
Proof.
  induction fuel as [|f IH]; intros a b Ha Hb.
  - simpl in Hb. lia.
  - cbn [log_steps]. destruct (Z.leb_spec (10 * a) b) as [H|H].
    + rewrite Nat2Z.inj_succ, <- Z.add_1_r in *. rewrite Z.pow_add_r in Hb by lia. change (10 ^ 1) with 10 in Hb.
      specialize (IH (10 * a) b ltac:(lia) ltac:(nia)). rewrite !Z.pow_add_r in * by lia. change (10 ^ 1) with 10 in *. nia.
    + simpl. lia.
Qed.
Lemma pow10_gt n : 0 <= n -> n < 10 ^ n.
Proof. intros H. apply Z.pow_gt_lin_r; lia. Qed.
Definition mag (a b : Z) : Z := Z.of_nat (log_steps (Z.to_nat b) a b).
Lemma mag_spec a b : 0 < a <= b -> 0 <= mag a b /\ a * 10 ^ mag a b <= b < a * 10 ^ (mag a b + 1).
Proof.
  intros H. unfold mag. split; [lia|]. apply log_steps_spec; [assumption|]. rewrite Z2Nat.id by lia. pose proof (pow10_gt b ltac:(lia)). nia.
Qed.
Lemma unit_mag a b : unit_of a b = 100 * 10 ^ mag a b.
Proof. unfold unit_of, decimals, mag. rewrite Nat2Z.inj_add. rewrite Z.pow_add_r by lia. reflexivity. Qed.
Lemma unit_pos a b : 100 <= unit_of a b.
Proof. rewrite unit_mag. pose proof (Z.pow_pos_nonneg 10 (mag a b) ltac:(lia) ltac:(unfold mag; lia)). lia. Qed.

Lemma round_sqrt_nonneg n d : 0 <= n -> 0 < d -> 0 <= round_sqrt n d.
Proof.
  intros Hn Hd. unfold round_sqrt. cbv zeta. pose proof (Z.sqrt_nonneg (4 * n / d)) as H. set (s := Z.sqrt _) in *. clearbody s.
  assert (0 <= s / 2) by (apply Z.div_pos; lia). destruct (Z.even s); [assumption|]. destruct (_ =? _); [destruct (Z.even _)|]; lia.
Qed.
Lemma round_sqrt_upper n d R : 0 <= n -> 0 < d -> 0 <= R -> 4 * n < (2 * R + 1) ^ 2 * d -> round_sqrt n d <= R.
Proof.
  intros Hn Hd HR H. assert (Hs : Z.sqrt (4 * n / d) <= 2 * R).
  { assert (4 * n / d < (2 * R + 1) ^ 2) by (apply Z.div_lt_upper_bound; lia). assert (0 <= 4 * n / d) by (apply Z.div_pos; lia).
    pose proof (Z.sqrt_spec (4 * n / d) ltac:(assumption)) as Hq. cbv zeta in Hq. pose proof (Z.sqrt_nonneg (4 * n / d)). nia. }
  unfold round_sqrt. cbv zeta. set (s := Z.sqrt _) in *. clearbody s. pose proof (Z.div_mod s 2 ltac:(lia)) as Hdm. pose proof (Zmod_even s) as Hm. destruct (Z.even s); [lia|].
  destruct (_ =? _); [destruct (Z.even _)|]; lia.
Qed.
Lemma round_sqrt_lower n d R : 0 <= n -> 0 < d -> 1 <= R -> (2 * R - 1) ^ 2 * d < 4 * n -> R <= round_sqrt n d.
Proof.
  intros Hn Hd HR H. assert (Hge : (2 * R - 1) ^ 2 <= 4 * n / d) by (apply Z.div_le_lower_bound; nia).
  assert (Hs : 2 * R - 1 <= Z.sqrt (4 * n / d)) by (apply Z.sqrt_le_square; [lia|lia|nia]).
  unfold round_sqrt. cbv zeta. set (s := Z.sqrt _) in *. clearbody s. pose proof (Z.div_mod s 2 ltac:(lia)) as Hdm. pose proof (Zmod_even s) as Hm. destruct (Z.even s); [lia|].
  destruct (Z.eqb_spec (s * s * d) (4 * n)); [|lia]. assert (s <> 2 * R - 1) by (intros ->; nia). destruct (Z.even _); lia.
Qed.

(* the size of a component of shortened_vec *)
Definition comp (a b n v : Z) : Z := round_sqrt ((a * unit_of a b * v) ^ 2) (b ^ 2 * n).
Section Disp.
  Variables (a b : Z).
  Hypothesis Ha : 0 < a.
  Hypothesis Hdisp : 1000 * a < 495 * b.
  Lemma b_pos : 0 < b. Proof. lia. Qed.
  Lemma aU : (mag a b = 0 /\ unit_of a b = 100) \/ (1 <= mag a b /\ unit_of a b >= 1000 /\ a * unit_of a b <= 100 * b).
  Proof.
    destruct (mag_spec a b ltac:(lia)) as (H0 & H1 & H2). rewrite unit_mag. destruct (Z.eq_dec (mag a b) 0) as [E|E].
    - left. rewrite E. split; reflexivity.
    - right. split; [lia|]. assert (Hp : 10 ^ mag a b >= 10) by (replace (mag a b) with (1 + (mag a b - 1)) by lia; rewrite Z.pow_add_r by lia; pose proof (Z.pow_pos_nonneg 10 (mag a b - 1) ltac:(lia) ltac:(lia)); lia).
      split; [lia|]. nia.
  Qed.
  Lemma aU_low : 10 * b < a * unit_of a b.
  Proof. destruct (mag_spec a b ltac:(lia)) as (H0 & H1 & H2). rewrite unit_mag. rewrite Z.pow_add_r in H2 by lia. change (10 ^ 1) with 10 in H2. nia. Qed.
  Lemma sq_le v n : v ^ 2 <= n -> 0 < n -> forall X Y, 0 <= X -> 0 < Y -> 2 * a * unit_of a b < X * b -> 4 * (a * unit_of a b * v) ^ 2 < X ^ 2 * (b ^ 2 * n).
  Proof.
    intros Hv Hn X _ HX _ H. pose proof (unit_pos a b) as HU. set (U := unit_of a b) in *. clearbody U.
    assert (E : 4 * (a * U * v) ^ 2 = (2 * a * U) ^ 2 * v ^ 2) by ring. rewrite E. replace (X ^ 2 * (b ^ 2 * n)) with ((X * b) ^ 2 * n) by ring.
    assert ((2 * a * U) ^ 2 < (X * b) ^ 2) by (apply Z.pow_lt_mono_l; [lia|]; split; [|assumption]; nia).
    assert (0 <= v ^ 2) by nia. assert (0 <= (2 * a * U) ^ 2) by nia. nia.
  Qed.
  Lemma comp_small n v : v ^ 2 <= n -> 0 < n -> 0 <= comp a b n v /\ 2 * comp a b n v < unit_of a b.
  Proof.
    intros Hv Hn. pose proof b_pos as Hb. assert (Hd : 0 < b ^ 2 * n) by (apply Z.mul_pos_pos; [apply Z.pow_pos_nonneg|]; lia).
    assert (HN : 0 <= (a * unit_of a b * v) ^ 2) by (apply Z.pow_even_nonneg; exists 1; reflexivity).
    split; [apply round_sqrt_nonneg; assumption|]. destruct aU as [(E & EU)|(E & EU & Hle)].
    - assert (comp a b n v <= 49); [|lia]. apply round_sqrt_upper; try assumption; try lia. change (2 * 49 + 1) with 99. apply sq_le with (Y := 1); try assumption; try lia.
    - assert (comp a b n v <= 100); [|lia]. apply round_sqrt_upper; try assumption; try lia. change (2 * 100 + 1) with 201. apply sq_le with (Y := 1); try assumption; nia.
  Qed.
  Lemma comp_pos v : v <> 0 -> 10 <= comp a b (v ^ 2) v.
  Proof.
    intros Hv. pose proof b_pos as Hb. assert (Hv2 : 0 < v ^ 2) by nia.
    assert (Hd : 0 < b ^ 2 * v ^ 2) by (apply Z.mul_pos_pos; [apply Z.pow_pos_nonneg|]; lia).
    assert (HN : 0 <= (a * unit_of a b * v) ^ 2) by (apply Z.pow_even_nonneg; exists 1; reflexivity).
    apply round_sqrt_lower; [assumption|assumption|lia|].
    pose proof aU_low as H. set (X := a * unit_of a b) in *. clearbody X. replace (4 * (X * v) ^ 2) with (4 * X ^ 2 * v ^ 2) by ring. replace ((2 * 10 - 1) ^ 2 * (b ^ 2 * v ^ 2)) with (361 * b ^ 2 * v ^ 2) by ring.
    assert (361 * b ^ 2 < 4 * X ^ 2) by nia. nia.
  Qed.
  Lemma comp_not_pad v : v <> 0 -> 10000 * a < 495 * b \/ 505 * b < 10000 * a -> comp a b (v ^ 2) v <> unit_of a b / 20.
  Proof.
    intros Hv Hp. pose proof b_pos as Hb. pose proof (comp_pos v Hv) as Hlow. assert (Hv2 : 0 < v ^ 2) by nia.
    assert (Hd : 0 < b ^ 2 * v ^ 2) by (apply Z.mul_pos_pos; [apply Z.pow_pos_nonneg|]; lia).
    assert (HN : 0 <= (a * unit_of a b * v) ^ 2) by (apply Z.pow_even_nonneg; exists 1; reflexivity).
    destruct aU as [(E & EU)|(E & EU & Hle)].
    - rewrite EU. change (100 / 20) with 5. lia.
    - assert (Hup : comp a b (v ^ 2) v <= 100) by (apply round_sqrt_upper; try assumption; try lia; change (2 * 100 + 1) with 201; apply sq_le with (Y := 1); try assumption; nia).
      destruct (Z.eq_dec (mag a b) 1) as [E1|E1].
      + assert (EU1 : unit_of a b = 1000) by (rewrite unit_mag, E1; reflexivity). rewrite EU1. change (1000 / 20) with 50. destruct Hp as [Hp|Hp].
        * assert (comp a b (v ^ 2) v <= 49); [|lia]. apply round_sqrt_upper; try assumption; try lia. change (2 * 49 + 1) with 99. apply sq_le with (Y := 1); lia.
        * assert (51 <= comp a b (v ^ 2) v); [|lia]. apply round_sqrt_lower; try assumption; try lia. rewrite EU1. replace (4 * (a * 1000 * v) ^ 2) with ((2000 * a) ^ 2 * v ^ 2) by ring.
          replace ((2 * 51 - 1) ^ 2 * (b ^ 2 * v ^ 2)) with ((101 * b) ^ 2 * v ^ 2) by ring. assert ((101 * b) ^ 2 < (2000 * a) ^ 2) by (apply Z.pow_lt_mono_l; lia). apply Z.mul_lt_mono_pos_r; assumption.
      + assert (unit_of a b / 20 >= 500); [|lia]. rewrite unit_mag. replace (mag a b) with (2 + (mag a b - 2)) by lia. rewrite Z.pow_add_r by lia.
        pose proof (Z.pow_pos_nonneg 10 (mag a b - 2) ltac:(lia) ltac:(lia)) as H10. change (10 ^ 2) with 100. set (P := 10 ^ (mag a b - 2)) in *. replace (100 * (100 * P)) with (500 * P * 20) by ring. rewrite Z.div_mul by lia. lia.
  Qed.
End Disp.
