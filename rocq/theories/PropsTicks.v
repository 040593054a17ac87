(* PropsTicks.v: C63, tick labels and tick positions of the plots. *)
From Coq Require Import String Ascii DecimalString DecimalZ.
From Verif Require Import Base GkpModel SimModel TickModel PropsGkp.
Open Scope R_scope.

(* ---------- specification ---------- *)
(* the usual way to write m times something *)
Definition coefficient (m : Z) : string := if (m =? 1)%Z then EmptyString else if (m =? -1)%Z then "-"%string else dec m.
(* k sqrt(pi) / 2 in lowest terms *)
Definition multiple_label (tex : bool) (k : Z) : string :=
  if (k =? 0)%Z then "0"%string
  else ((if tex then "$" else "") ++ coefficient (if Z.even k then k / 2 else k) ++ "\sqrt{\pi}" ++ (if Z.even k then "" else "/2") ++ (if tex then "$" else ""))%string.
(* the number that a string of decimal digits denotes *)
Definition is_digit (a : ascii) : Prop := (48 <= nat_of_ascii a <= 57)%nat.
Fixpoint all_digits (s : string) : Prop := match s with EmptyString => True | String a s' => is_digit a /\ all_digits s' end.
Fixpoint number (acc : Z) (s : string) : Z :=
  match s with EmptyString => acc | String a s' => number (10 * acc + (Z.of_nat (nat_of_ascii a) - 48)) s' end.

(* ---------- rounding ---------- *)
Lemma int_part_unique x z : IZR z <= x < IZR z + 1 -> Int_part x = z.
Proof. intros H. pose proof (base_Int_part x) as [H1 H2]. assert (IZR (Int_part x) < IZR (z + 1)) by (rewrite plus_IZR; lra). assert (IZR z < IZR (Int_part x + 1)) by (rewrite plus_IZR; lra).
  apply lt_IZR in H0, H3. lia. Qed.

Lemma py_round_near x k : Rabs (x - IZR k) < 1 / 2 -> py_round x = k.
Proof.
  intros H. apply Rabs_def2 in H. unfold py_round. destruct (Rle_dec (IZR k) x) as [L|L].
  - rewrite (int_part_unique x k) by lra. destruct (Rlt_dec (x - IZR k) (1 / 2)); [reflexivity|lra].
  - rewrite (int_part_unique x (k - 1)) by (rewrite minus_IZR; lra). rewrite minus_IZR.
    destruct (Rlt_dec (x - (IZR k - 1)) (1 / 2)); [lra|]. destruct (Rlt_dec (1 / 2) (x - (IZR k - 1))); [lia|lra].
Qed.

Lemma py_round_error x : Rabs (x - IZR (py_round x)) <= 1 / 2.
Proof.
  unfold py_round. pose proof (base_Int_part x) as [H1 H2]. assert (E : forall z, IZR (z + 1) = IZR z + 1) by (intros; rewrite plus_IZR; reflexivity).
  destruct (Rlt_dec (x - IZR (Int_part x)) (1 / 2)) as [L|L]; [apply Rabs_le; lra|].
  destruct (Rlt_dec (1 / 2) (x - IZR (Int_part x))) as [G|G]; [rewrite E; apply Rabs_le; lra|].
  destruct (Z.even (Int_part x)); [|rewrite E]; apply Rabs_le; lra.
Qed.

Lemma h_low : 17 / 20 < sqrt PI / 2.
Proof.
  pose proof PI2_3_2 as H. assert (17 / 10 < sqrt PI); [|lra].
  replace (17 / 10) with (sqrt (17 / 10 * (17 / 10))) by (rewrite sqrt_square; lra). apply sqrt_lt_1; lra.
Qed.

Lemma round_ratio x k : Rabs (x - IZR k * (sqrt PI / 2)) <= / 100000000 -> py_round (x / (sqrt PI / 2)) = k.
Proof.
  intros H. pose proof h_low as Hl. apply py_round_near. set (h := sqrt PI / 2) in *.
  replace (x / h - IZR k) with ((x - IZR k * h) * / h) by (field; lra). rewrite Rabs_mult, (Rabs_pos_eq (/ h)) by (left; apply Rinv_0_lt_compat; lra).
  apply (Rmult_lt_reg_r h); [lra|]. rewrite Rmult_assoc, Rinv_l by lra. lra.
Qed.

Lemma round_zero x k : Rabs (x - IZR k * (sqrt PI / 2)) <= / 100000000 -> (py_round x =? 0)%Z = (k =? 0)%Z.
Proof.
  intros H. pose proof h_low as Hl. set (h := sqrt PI / 2) in *.
  assert (B : - / 100000000 <= x - IZR k * h <= / 100000000). { unfold Rabs in H. destruct (Rcase_abs (x - IZR k * h)); lra. }
  destruct (Z.eqb_spec k 0) as [->|Hk].
  - apply Z.eqb_eq, py_round_near. apply Rabs_def1; lra.
  - apply Z.eqb_neq. intros E. pose proof (py_round_error x) as Er. rewrite E in Er.
    assert (B2 : - (1 / 2) <= x <= 1 / 2). { unfold Rabs in Er. destruct (Rcase_abs (x - 0)); lra. }
    destruct (Z_lt_le_dec 0 k) as [P|P].
    + assert (1 <= IZR k) by (apply IZR_le; lia). assert (h <= IZR k * h) by (rewrite <- (Rmult_1_l h) at 1; apply Rmult_le_compat_r; lra). lra.
    + assert (IZR k <= -1) by (apply IZR_le; lia). assert (IZR k * h <= (-1) * h) by (apply Rmult_le_compat_r; lra). lra.
Qed.

Lemma app_assoc_s (a b c : string) : ((a ++ b) ++ c = a ++ (b ++ c))%string.
Proof. induction a as [|x a IH]; [reflexivity|]. simpl. rewrite IH. reflexivity. Qed.

(* C63.  A value that is a multiple k of sqrt(pi)/2, up to the tolerance 1e-8, is labelled by k sqrt(pi)/2 in lowest terms. *)
Theorem C63_multiples : forall x k tex d, Rabs (x - IZR k * (sqrt PI / 2)) <= / 100000000 -> to_pi_string x tex d = multiple_label tex k.
Proof.
  intros x k tex d H. unfold to_pi_string, py_remainder. rewrite (round_ratio x k H), (round_zero x k H).
  replace (x - sqrt PI / 2 * IZR k) with (x - IZR k * (sqrt PI / 2)) by lra. unfold close_to_0. destruct (Rle_dec _ _) as [_|n]; [|contradiction].
  unfold multiple_label. destruct (Z.eqb_spec k 0) as [->|Hk]; [reflexivity|]. cbn [negb when]. change (""%string ++ ?s)%string with s. cbn [append].
  set (pref := Z.quot _ 2).
  assert (E : pref = (if Z.even k then (k / 2)%Z else k) /\ (k mod 2 =? 0)%Z = Z.even k).
  { unfold pref. clear. pose proof (Zmod_even k) as M. destruct (Z.even k) eqn:Ev; rewrite M; (split; [|reflexivity]).
    - apply Z.even_spec in Ev. destruct Ev as [j ->]. replace (2 * j * (1 - 0 + 2 * 0))%Z with (j * 2)%Z by lia. rewrite Z.quot_mul by lia. replace (2 * j)%Z with (j * 2)%Z by lia. rewrite Z.div_mul by lia. reflexivity.
    - replace (k * (1 - 1 + 2 * 1))%Z with (k * 2)%Z by lia. rewrite Z.quot_mul by lia. reflexivity. }
  destruct E as [E1 E2]. rewrite E2. rewrite E1. set (p := if Z.even k then (k / 2)%Z else k). unfold coefficient, when.
  destruct (Z.eqb_spec p 1) as [->|N1]; [cbn; destruct tex, (Z.even k); reflexivity|].
  destruct (Z.eqb_spec p (-1)) as [->|N2]; [cbn; destruct tex, (Z.even k); reflexivity|].
  replace (1 + p =? 0)%Z with false by (symmetry; apply Z.eqb_neq; lia). replace (1 - Z.abs p =? 0)%Z with false by (symmetry; apply Z.eqb_neq; lia).
  cbn [negb]. destruct tex, (Z.even k); reflexivity.
Qed.
Print Assumptions C63_multiples.

(* ---------- labels can be told apart ---------- *)
Fixpoint last_char (s : string) : option ascii := match s with EmptyString => None | String a EmptyString => Some a | String _ s' => last_char s' end.

Lemma app_inj_r (a b c : string) : (a ++ c = b ++ c)%string -> a = b.
Proof.
  assert (L : forall s t : string, String.length (s ++ t) = (String.length s + String.length t)%nat) by (induction s as [|x s IH]; intros t; [reflexivity|simpl; rewrite IH; reflexivity]).
  revert b. induction a as [|x a IH]; intros [|y b] H; [reflexivity| | |].
  - apply (f_equal String.length) in H. rewrite !L in H. simpl in H. lia.
  - apply (f_equal String.length) in H. rewrite !L in H. simpl in H. lia.
  - simpl in H. injection H as -> H. f_equal. apply IH. exact H.
Qed.
Lemma app_inj_l (a b c : string) : (c ++ a = c ++ b)%string -> a = b.
Proof. induction c as [|x c IH]; intros H; [exact H|]. simpl in H. injection H as H. auto. Qed.

Lemma to_int_not_nil z : Z.to_int z <> Decimal.Pos Decimal.Nil /\ Z.to_int z <> Decimal.Neg Decimal.Nil.
Proof.
  assert (N : Z.to_int z = Decimal.norm (Z.to_int z)) by (rewrite <- DecimalZ.to_of, DecimalZ.of_to; reflexivity).
  rewrite N. split; destruct (Z.to_int z) as [u|u]; cbn [Decimal.norm]; unfold Decimal.unorm; try destruct (Decimal.nzhead u); discriminate.
Qed.
Lemma dec_read z : NilZero.int_of_string (dec z) = Some (Z.to_int z).
Proof. destruct (to_int_not_nil z). apply NilZero.isi; assumption. Qed.
Lemma dec_inj a b : dec a = dec b -> a = b.
Proof. intros H. apply (f_equal NilZero.int_of_string) in H. rewrite !dec_read in H. injection H as H. apply DecimalZ.to_int_inj in H. exact H. Qed.
Lemma coefficient_inj a b : coefficient a = coefficient b -> a = b.
Proof.
  assert (N : forall z, dec z <> EmptyString /\ dec z <> "-"%string).
  { intros z. split; intros H; pose proof (dec_read z) as R; rewrite H in R; vm_compute in R; discriminate. }
  unfold coefficient. destruct (Z.eqb_spec a 1) as [->|]; destruct (Z.eqb_spec b 1) as [->|]; try reflexivity.
  - destruct (Z.eqb_spec b (-1)); [discriminate|]. intros H. destruct (N b). congruence.
  - destruct (Z.eqb_spec a (-1)); [discriminate|]. intros H. destruct (N a). congruence.
  - destruct (Z.eqb_spec a (-1)) as [->|]; destruct (Z.eqb_spec b (-1)) as [->|]; try reflexivity.
    + intros H. destruct (N b). congruence.
    + intros H. destruct (N a). congruence.
    + apply dec_inj.
Qed.
Lemma length_app_s (s t : string) : String.length (s ++ t)%string = (String.length s + String.length t)%nat.
Proof. induction s as [|x s IH]; [reflexivity|]. simpl. rewrite IH. reflexivity. Qed.
Lemma last_app s t a : last_char t = Some a -> last_char (s ++ t)%string = Some a.
Proof. intros H. induction s as [|x s IH]; [exact H|]. simpl. destruct (s ++ t)%string eqn:E; [destruct s; [simpl in E; subst t; discriminate|discriminate]|exact IH]. Qed.

(* different multiples have different labels *)
Theorem C63_labels_distinct : forall tex k k', multiple_label tex k = multiple_label tex k' -> k = k'.
Proof.
  assert (Z0 : forall tex k, k <> 0%Z -> multiple_label tex k <> "0"%string).
  { intros tex k Hk H. apply (f_equal String.length) in H. unfold multiple_label in H. destruct (Z.eqb_spec k 0); [contradiction|]. rewrite !length_app_s in H. change (String.length "\sqrt{\pi}") with 10%nat in H. change (String.length "0") with 1%nat in H. lia. }
  intros tex k k' H. destruct (Z.eq_dec k 0) as [->|Hk]; [destruct (Z.eq_dec k' 0) as [->|Hk']; [reflexivity|exfalso; apply (Z0 tex k' Hk'); symmetry; exact H]|].
  destruct (Z.eq_dec k' 0) as [->|Hk']; [exfalso; apply (Z0 tex k Hk); exact H|].
  unfold multiple_label in H. destruct (Z.eqb_spec k 0); [contradiction|]. destruct (Z.eqb_spec k' 0); [contradiction|]. apply app_inj_l in H.
  rewrite <- !app_assoc_s in H. apply app_inj_r in H.
  destruct (Z.even k) eqn:E1, (Z.even k') eqn:E2.
  - apply app_inj_r, app_inj_r, coefficient_inj in H. apply Z.even_spec in E1, E2. destruct E1 as [i ->], E2 as [j ->]. rewrite !(Z.mul_comm 2), !Z.div_mul in H by lia. lia.
  - exfalso. apply (f_equal last_char) in H. rewrite !app_assoc_s in H. rewrite (last_app _ ("\sqrt{\pi}" ++ "") "}"%char), (last_app _ ("\sqrt{\pi}" ++ "/2") "2"%char) in H by reflexivity. discriminate.
  - exfalso. apply (f_equal last_char) in H. rewrite !app_assoc_s in H. rewrite (last_app _ ("\sqrt{\pi}" ++ "") "}"%char), (last_app _ ("\sqrt{\pi}" ++ "/2") "2"%char) in H by reflexivity. discriminate.
  - apply app_inj_r, app_inj_r, coefficient_inj in H. exact H.
Qed.
Print Assumptions C63_labels_distinct.

(* ---------- decimal labels ---------- *)
Lemma digit_value z : (Z.of_nat (nat_of_ascii (digit z)) - 48 = z mod 10)%Z /\ is_digit (digit z).
Proof.
  pose proof (Z.mod_pos_bound z 10 ltac:(lia)) as B. unfold digit, is_digit. rewrite nat_ascii_embedding by lia. lia.
Qed.
Lemma number_snoc s c : forall acc, (number acc (s ++ String c EmptyString) = 10 * number acc s + (Z.of_nat (nat_of_ascii c) - 48))%Z.
Proof. induction s as [|a s IH]; intros acc; cbn [append number]; [reflexivity|]. apply IH. Qed.
Lemma all_digits_app s t : all_digits (s ++ t)%string <-> all_digits s /\ all_digits t.
Proof. induction s as [|a s IH]; simpl; [tauto|]. rewrite IH. tauto. Qed.
Lemma digits_ok n : forall z, (0 <= z)%Z -> all_digits (digits n z) /\ String.length (digits n z) = n /\ number 0 (digits n z) = (z mod 10 ^ Z.of_nat n)%Z.
Proof.
  induction n as [|n IH]; intros z Hz; cbn [digits].
  - split; [exact I|]. split; [reflexivity|]. cbn [number]. rewrite Z.mod_1_r. reflexivity.
  - destruct (IH (z / 10)%Z ltac:(apply Z.div_pos; lia)) as (I1 & I2 & I3). destruct (digit_value z) as [V1 V2]. split; [apply all_digits_app; split; [exact I1|split; [exact V2|exact I]]|].
    split; [rewrite length_app_s, I2; cbn; lia|]. rewrite number_snoc, I3, V1. rewrite Nat2Z.inj_succ, Z.pow_succ_r by lia.
    rewrite (Z.rem_mul_r z 10) by (try lia; apply Z.pow_pos_nonneg; lia). lia.
Qed.

(* Any other value is labelled by the decimal number with d decimals that is next to it. *)
Theorem C63_others : forall x tex d, (forall k, / 100000000 < Rabs (x - IZR k * (sqrt PI / 2))) ->
  exists n fp, (0 <= n)%Z /\ Rabs (Rabs x - IZR n / IZR (10 ^ Z.of_nat d)) <= / (2 * IZR (10 ^ Z.of_nat d)) /\
    all_digits fp /\ String.length fp = d /\ number 0 fp = (n mod 10 ^ Z.of_nat d)%Z /\
    to_pi_string x tex d = ((if Rlt_dec x 0 then "-" else "") ++ dec (n / 10 ^ Z.of_nat d) ++ (if (d =? 0)%nat then "" else "." ++ fp))%string.
Proof.
  intros x tex d H. unfold to_pi_string, py_remainder, close_to_0. destruct (Rle_dec _ _) as [L|_].
  { exfalso. specialize (H (py_round (x / (sqrt PI / 2)))). rewrite (Rmult_comm (sqrt PI / 2)) in L. lra. }
  unfold fmt_fixed. set (q := (10 ^ Z.of_nat d)%Z). assert (Hq : (0 < q)%Z) by (apply Z.pow_pos_nonneg; lia).
  assert (Hq' : 0 < IZR q) by (apply IZR_lt; exact Hq).
  set (n := Z.abs (py_round (x * IZR q))). destruct (digits_ok d n ltac:(lia)) as (D1 & D2 & D3).
  exists n, (digits d (n mod q)). destruct (digits_ok d (n mod q) ltac:(apply Z.mod_pos_bound; exact Hq)) as (E1 & E2 & E3).
  split; [unfold n; lia|]. split.
  - pose proof (py_round_error (x * IZR q)) as Er. unfold n. rewrite abs_IZR.
    replace (Rabs x - Rabs (IZR (py_round (x * IZR q))) / IZR q) with ((Rabs (x * IZR q) - Rabs (IZR (py_round (x * IZR q)))) * / IZR q).
    2: { rewrite Rabs_mult, (Rabs_pos_eq (IZR q)) by lra. field. lra. }
    rewrite Rabs_mult, (Rabs_pos_eq (/ IZR q)) by (left; apply Rinv_0_lt_compat; lra).
    replace (/ (2 * IZR q)) with (1 / 2 * / IZR q) by (field; lra). apply Rmult_le_compat_r; [left; apply Rinv_0_lt_compat; lra|].
    eapply Rle_trans; [apply Rabs_triang_inv2|exact Er].
  - split; [exact E1|]. split; [exact E2|]. split; [fold q in E3; rewrite Z.mod_mod in E3 by lia; exact E3|]. destruct d; reflexivity.
Qed.
Print Assumptions C63_others.

Lemma has_app c s t : has c (s ++ t)%string = has c s || has c t.
Proof. induction s as [|a s IH]; [reflexivity|]. simpl. rewrite IH, orb_assoc. reflexivity. Qed.
Lemma dec_no_dot z : has "."%char (dec z) = false.
Proof.
  unfold dec, NilZero.string_of_int. assert (U : forall u, has "."%char (NilEmpty.string_of_uint u) = false) by (induction u; simpl; auto).
  assert (U' : forall u, has "."%char (NilZero.string_of_uint u) = false) by (intros u; unfold NilZero.string_of_uint; destruct u; try reflexivity; apply U).
  destruct (Z.to_int z) as [u|u]; simpl; apply U'.
Qed.

(* With at least one decimal the two kinds of labels cannot be confused: the label is that of k sqrt(pi)/2 exactly if the value is,
   within the tolerance. *)
Theorem C63_exact : forall x tex d k, (1 <= d)%nat -> (to_pi_string x tex d = multiple_label tex k <-> Rabs (x - IZR k * (sqrt PI / 2)) <= / 100000000).
Proof.
  intros x tex d k Hd. split; [|apply C63_multiples]. intros H.
  destruct (Rle_dec (Rabs (x - IZR (py_round (x / (sqrt PI / 2))) * (sqrt PI / 2))) (/ 100000000)) as [L|L].
  - rewrite (C63_multiples x _ tex d L) in H. apply C63_labels_distinct in H. rewrite H in L. exact L.
  - exfalso. destruct (C63_others x tex d) as (n & fp & _ & _ & _ & _ & _ & E).
    + intros k'. apply Rnot_le_lt. intros K. apply L. rewrite (round_ratio x k' K). exact K.
    + rewrite E in H. apply (f_equal (has "."%char)) in H. rewrite !has_app in H. destruct (Nat.eqb_spec d 0); [lia|]. rewrite has_app in H.
      replace (has "."%char ".") with true in H by reflexivity. rewrite orb_true_l, !orb_true_r in H.
      unfold multiple_label, coefficient in H. destruct (k =? 0)%Z; [discriminate|]. rewrite !has_app in H.
      set (p := if Z.even k then (k / 2)%Z else k) in H.
      assert (Hc : has "."%char (if (p =? 1)%Z then "" else if (p =? -1)%Z then "-" else dec p) = false) by (destruct (p =? 1)%Z; [reflexivity|]; destruct (p =? -1)%Z; [reflexivity|apply dec_no_dot]).
      rewrite Hc in H. destruct tex, (Z.even k); discriminate.
Qed.
Print Assumptions C63_exact.

(* without decimals they can: 0.3 is labelled "0" *)
Theorem C63_no_decimals_refuted : to_pi_string (3 / 10) true 0 = "0"%string /\ ~ exists k, Rabs (3 / 10 - IZR k * (sqrt PI / 2)) <= / 100000000.
Proof.
  assert (N : forall k, ~ Rabs (3 / 10 - IZR k * (sqrt PI / 2)) <= / 100000000).
  { intros k L. pose proof (round_zero _ _ L) as Z. rewrite (py_round_near (3 / 10) 0) in Z by (apply Rabs_def1; lra). cbn in Z. symmetry in Z. apply Z.eqb_eq in Z. subst k.
    unfold Rabs in L. destruct (Rcase_abs _) in L; lra. }
  split; [|intros (k & L); exact (N k L)].
  destruct (C63_others (3 / 10) true 0) as (n & fp & H0 & H1 & _ & _ & _ & E); [intros k; apply Rnot_le_lt, N|]. rewrite E. destruct (Rlt_dec (3 / 10) 0); [lra|].
  change (10 ^ Z.of_nat 0)%Z with 1%Z in *. cbn [Nat.eqb]. rewrite Z.div_1_r. assert (n = 0%Z) as ->; [|reflexivity].
  rewrite (Rabs_pos_eq (3 / 10)) in H1 by lra. unfold Rdiv in H1. rewrite Rinv_1 in H1. assert (IZR n < 1). { unfold Rabs in H1. destruct (Rcase_abs _) in H1; lra. }
  assert (n < 1)%Z by (apply lt_IZR; assumption). lia.
Qed.

(* ---------- positions of the ticks ---------- *)
Theorem C63_ticks : forall (xs : list R) alpha x0 x1, 0 < alpha -> hd_error xs = Some x0 -> last xs x0 = x1 -> x0 <= x1 ->
  let a := Int_part (x0 / alpha) in let b := Int_part (x1 / alpha) in
  (* the ticks are the consecutive multiples of alpha from the last one not above the first value to the first one above the last value *)
  x_ticks xs alpha = Ok (map (fun m => IZR m * alpha) (py_range a (b + 2))) /\
  IZR a * alpha <= x0 < IZR (a + 1) * alpha /\ IZR b * alpha <= x1 < IZR (b + 1) * alpha /\
  (forall x, x0 <= x <= x1 -> IZR a * alpha <= x < IZR (b + 1) * alpha).
Proof.
  intros xs alpha x0 x1 Ha Hh Hl Hle a b.
  assert (F : forall x, IZR (Int_part (x / alpha)) * alpha <= x < IZR (Int_part (x / alpha) + 1) * alpha).
  { intros x. pose proof (base_Int_part (x / alpha)) as [B1 B2]. rewrite plus_IZR. assert (E : x / alpha * alpha = x) by (field; lra). split.
    - rewrite <- E at 2. apply Rmult_le_compat_r; lra.
    - rewrite <- E at 1. apply Rmult_lt_compat_r; lra. }
  assert (Hab : (a <= b)%Z).
  { destruct (F x0) as [A1 _], (F x1) as [_ B2]. fold a in A1. fold b in B2. assert (IZR a < IZR (b + 1)) by (apply (Rmult_lt_reg_r alpha); lra). apply lt_IZR in H. lia. }
  split; [|split; [apply F|split; [apply F|]]].
  2: { intros x [X1 X2]. destruct (F x0) as [A1 _], (F x1) as [_ B2]. fold a in A1. fold b in B2. lra. }
  unfold x_ticks. destruct xs as [|y l]; [discriminate|]. injection Hh as ->. rewrite Hl. unfold floordiv. fold a b.
  replace (alpha * IZR b + alpha - alpha * IZR a) with (IZR (b + 1 - a) * alpha) by (rewrite minus_IZR, plus_IZR; lra).
  replace (IZR (b + 1 - a) * alpha / alpha) with (IZR (b + 1 - a)) by (field; lra).
  rewrite !(int_part_unique (IZR (b + 1 - a)) (b + 1 - a)) by lra. unfold linspace. destruct (Z.ltb_spec (b + 1 - a + 1) 0); [lia|]. f_equal.
  replace (b + 1 - a + 1 - 1)%Z with (b + 1 - a)%Z by lia.
  replace (alpha * IZR b + alpha - alpha * IZR a) with (IZR (b + 1 - a) * alpha) by (rewrite minus_IZR, plus_IZR; lra).
  assert (P : 0 < IZR (b + 1 - a)) by (apply IZR_lt; lia).
  unfold py_range. rewrite !map_map. replace (b + 1 - a + 1 - 0)%Z with (b + 2 - a)%Z by lia. apply map_ext. intros k.
  rewrite !plus_IZR. field. lra.
Qed.
Print Assumptions C63_ticks.

(* for GKP plots, alpha = sqrt(pi), the tick m alpha is labelled m sqrt(pi) *)
Theorem C63_tick_labels : forall m tex d, to_pi_string (IZR m * sqrt PI) tex d = multiple_label tex (2 * m).
Proof.
  intros m tex d. apply C63_multiples. rewrite mult_IZR. replace (IZR m * sqrt PI - 2 * IZR m * (sqrt PI / 2)) with 0 by lra. rewrite Rabs_R0. lra.
Qed.

(* the values have to be in ascending order: otherwise there may be no plot at all *)
Theorem C63_unsorted_refuted : x_ticks [5; 0] 1 = Err ValueError.
Proof.
  unfold x_ticks, floordiv. cbn [last]. replace (5 / 1) with 5 by lra. replace (0 / 1) with 0 by lra. rewrite (int_part_unique 5 5), (int_part_unique 0 0) by lra.
  replace ((1 * 0 + 1 - 1 * 5) / 1) with (-4) by lra. rewrite !(int_part_unique (-4) (-4)) by lra. reflexivity.
Qed.

Example C63_nonvacuous : multiple_label true (-1) = "$-\sqrt{\pi}/2$"%string /\ multiple_label true 6 = "$3\sqrt{\pi}$"%string /\ multiple_label false (-7) = "-7\sqrt{\pi}/2"%string /\
  (forall k, / 100000000 < Rabs (3 / 10 - IZR k * (sqrt PI / 2))).
Proof. split; [reflexivity|]. split; [reflexivity|]. split; [reflexivity|]. intros k. apply Rnot_le_lt. intros L. apply (proj2 C63_no_decimals_refuted). eauto. Qed.

(* The y ticks of plot_fractional_part are the seven multiples of alpha/6 from -alpha/2 to alpha/2; the ticks of plot_Z_err_cond without
   use_hom_val are the two ends -alpha/2 and alpha/2 of the central bin. *)
Theorem C63_fixed_ticks : forall alpha, 0 < alpha ->
  frac_y_ticks alpha = Ok (map (fun k => IZR k * (alpha / 6)) [-3; -2; -1; 0; 1; 2; 3]%Z) /\
  central_ticks alpha = Ok [- alpha / 2; alpha / 2].
Proof.
  intros alpha Ha. split.
  - unfold frac_y_ticks, linspace. cbn [Z.ltb Z.compare]. change (py_range 0 7) with [0; 1; 2; 3; 4; 5; 6]%Z. cbn [map]. apply (f_equal (@Ok _)). change (7 - 1)%Z with 6%Z. repeat (apply (f_equal2 (@cons R)); [lra|]). reflexivity.
  - unfold central_ticks, floordiv. replace ((alpha / 2 - - alpha / 2) / alpha) with (IZR 1) by (field; lra).
    assert (I1 : Int_part (IZR 1) = 1%Z) by (pose proof (base_Int_part (IZR 1)) as [B1 B2]; assert (L1 : IZR (Int_part (IZR 1)) < IZR 2) by lra; assert (L2 : IZR 0 < IZR (Int_part (IZR 1))) by lra; apply lt_IZR in L1; apply lt_IZR in L2; lia).
    rewrite I1, I1. unfold linspace. cbn [Z.ltb Z.compare Z.add]. change (py_range 0 (1 + 1)) with [0; 1]%Z. cbn [map]. change (1 + 1 - 1)%Z with 1%Z. apply (f_equal (@Ok _)). apply (f_equal2 (@cons R)); [lra|]. apply (f_equal2 (@cons R)); [lra|reflexivity].
Qed.
Print Assumptions C63_fixed_ticks.
