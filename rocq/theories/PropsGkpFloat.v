(* PropsGkpFloat.v: C74, integer_fractional and GKP_binner on floating-point numbers. *)
From Coq Require Import Reals Lra.
From Flocq Require Import Core Div_sqrt_error Sterbenz Relative.
From Verif Require Import Base GkpModel PropsGkp GkpFloat GraphStateProofs.
Open Scope R_scope.

(* ---------- lemmas ---------- *)
Lemma rn_0 : rn 0 = 0.
Proof. apply rn_id, generic_format_0. Qed.
Lemma rn_minus : forall y z, double y -> double z -> z / 2 <= y <= 2 * z -> rn (y - z) = y - z.
Proof. intros y z Hy Hz H. apply rn_id. apply sterbenz; assumption || apply dexp_valid || apply dexp_mono. Qed.

Section Fl.
  Variables x a : R.
  Hypothesis Hx : double x.
  Hypothesis Ha : double a.
  Hypothesis Hlow : bpow radix2 (-1000) <= a.
  Hypothesis Hsize : Rabs x <= 2 ^ 48 * a.
  Let fm := c_fmod x a.
  Let Hp : 0 < a := a_pos a Hlow.

  Lemma rem_value : - a < fm < a /\ x - IZR (Zfloor (x / a)) * a = (if Rle_dec 0 fm then fm else fm + a).
  Proof.
    pose proof (x_split x a) as Hs. fold fm in Hs. set (k := Ztrunc (x / a)) in *.
    assert (Hb : - a < fm < a).
    { destruct (Rle_lt_dec 0 x) as [H|H]; [destruct (fmod_nonneg x a Hlow H) as [H1 _]|destruct (fmod_nonpos x a Hlow ltac:(lra)) as [H1 _]]; fold fm in H1; lra. }
    split; [exact Hb|].
    assert (Hq : x / a = IZR k + fm / a) by (rewrite Hs at 1; field; lra).
    assert (Hinv : 0 < / a) by (apply Rinv_0_lt_compat; lra).
    assert (H1 : - 1 < fm / a) by (assert (- a * / a < fm * / a) by (apply Rmult_lt_compat_r; lra); rewrite <- Ropp_mult_distr_l, Rinv_r in H by lra; unfold Rdiv; lra).
    assert (H2 : fm / a < 1) by (assert (fm * / a < a * / a) by (apply Rmult_lt_compat_r; lra); rewrite Rinv_r in H by lra; unfold Rdiv; lra).
    destruct (Rle_dec 0 fm) as [H|H].
    - assert (0 <= fm / a) by (apply Rmult_le_pos; lra). rewrite (Zfloor_imp k) by (rewrite plus_IZR; lra). lra.
    - assert (fm / a < 0) by (assert (fm * / a < 0 * / a) by (apply Rmult_lt_compat_r; lra); unfold Rdiv; lra). rewrite (Zfloor_imp (k - 1)) by (rewrite plus_IZR, minus_IZR; lra).
      rewrite minus_IZR. lra.
  Qed.

  Lemma fm_double : double fm.
  Proof. apply fmod_double; assumption. Qed.
  Lemma half_double : double (a / 2).
  Proof. apply double_half; assumption. Qed.

  (* the shifted remainder stays above the middle *)
  Lemma shift_above : (forall e, a <> bpow radix2 e) -> - a / 2 < fm < 0 -> a / 2 < rn (fm + a).
  Proof.
    intros Hnp Hfm. set (e := mag radix2 a : Z). pose proof (bpow_mag_gt radix2 a) as H1. pose proof (bpow_mag_le radix2 a ltac:(lra)) as H2. fold e in H1, H2. rewrite Rabs_pos_eq in H1, H2 by lra.
    assert (H3 : bpow radix2 (e - 1) < a) by (destruct H2 as [H2|H2]; [exact H2|destruct (Hnp (e - 1)%Z); auto]).
    assert (He : (-1000 < e)%Z) by (apply mag_gt_bpow; rewrite Rabs_pos_eq; lra).
    assert (B1 : bpow radix2 e = 2 * bpow radix2 (e - 1)) by (replace e with (1 + (e - 1))%Z at 1 by lia; rewrite bpow_plus; reflexivity).
    assert (B2 : bpow radix2 (e - 1) = 2 * bpow radix2 (e - 2)) by (replace (e - 1)%Z with (1 + (e - 2))%Z by lia; rewrite bpow_plus; reflexivity).
    (* a double in between is enough *)
    assert (K : forall y, double y -> a / 2 < y -> y <= fm + a -> a / 2 < rn (fm + a)).
    { intros y Hy Hlt Hle. apply Rlt_le_trans with y; [exact Hlt|]. rewrite <- (rn_id y Hy). apply rn_le, Hle. }
    destruct (Rle_lt_dec (bpow radix2 (e - 1)) (fm + a)) as [Hb|Hb].
    { apply (K (bpow radix2 (e - 1))); [apply double_bpow; lia|lra|exact Hb]. }
    destruct (double_multiple a (e - 54) Ha) as [ma Hma].
    { rewrite Rabs_pos_eq by lra. replace (e - 54 + 52)%Z with (e - 2)%Z by lia. pose proof (bpow_gt_0 radix2 (e - 2)). lra. }
    assert (M : forall m, 0 < IZR m * bpow radix2 (e - 54) < bpow radix2 (e - 1) -> double (IZR m * bpow radix2 (e - 54))).
    { intros m Hm. apply double_scaled; [|lia]. apply lt_IZR. rewrite abs_IZR. apply (Rmult_lt_reg_r (bpow radix2 (e - 54))); [apply bpow_gt_0|].
      change (IZR (2 ^ 53)) with (IZR (Zpower radix2 53)). rewrite IZR_Zpower by lia. rewrite <- bpow_plus. replace (53 + (e - 54))%Z with (e - 1)%Z by lia.
      rewrite <- (Rabs_pos_eq (bpow radix2 (e - 54))) by apply bpow_ge_0. rewrite <- Rabs_mult, Rabs_pos_eq by lra. lra. }
    destruct (Rle_lt_dec (bpow radix2 (e - 2)) (Rabs fm)) as [Hc|Hc].
    - destruct (double_multiple fm (e - 54) fm_double) as [mf Hmf]. { replace (e - 54 + 52)%Z with (e - 2)%Z by lia. exact Hc. }
      apply (K (fm + a)); [|lra|lra]. replace (fm + a) with (IZR (mf + ma) * bpow radix2 (e - 54)) by (rewrite plus_IZR; lra). apply M. rewrite plus_IZR. lra.
    - rewrite Rabs_left in Hc by lra. apply (K (a - bpow radix2 (e - 2))); [|lra|lra].
      assert (Hm2 : bpow radix2 (e - 2) = IZR (2 ^ 52) * bpow radix2 (e - 54)). { change (IZR (2 ^ 52)) with (IZR (Zpower radix2 52)). rewrite IZR_Zpower by lia. rewrite <- bpow_plus. f_equal. lia. }
      assert (HE : a - bpow radix2 (e - 2) = IZR (ma - 2 ^ 52) * bpow radix2 (e - 54)) by (rewrite minus_IZR; lra). rewrite HE. apply M. rewrite <- HE. lra.
  Qed.

  Lemma fl_result : 0 <= x \/ (forall e, a <> bpow radix2 e) ->
    exists f, integer_fractional_fl x a = (fst (integer_fractional x a), f) /\ double f /\ Rabs f <= a / 2 /\
      Rabs (f - snd (integer_fractional x a)) <= bpow radix2 (-53) * a /\ (0 <= x -> f = snd (integer_fractional x a)).
  Proof.
    intros Hnp. pose proof rem_value as [Hb Hr]. pose proof half_double as Hh. pose proof fm_double as Hd.
    unfold integer_fractional_fl, integer_fractional. rewrite divmod_fl by assumption. fold fm. unfold divmod. change (Int_part (x / a)) with (Zfloor (x / a)). cbv zeta. cbn [fst snd]. rewrite Hr, Ztrunc_IZR, (rn_id (a / 2)) by assumption.
    pose proof (bpow_ge_0 radix2 (-53)) as Hb53. assert (Hz : 0 <= bpow radix2 (-53) * a) by (apply Rmult_le_pos; lra).
    assert (Hone : rn (a * 1) = a) by (rewrite Rmult_1_r; apply rn_id; assumption).
    assert (Hzero : rn (a * 0) = 0) by (rewrite Rmult_0_r; apply rn_0).
    unfold gt_int. destruct (Rle_dec 0 fm) as [H|H].
    - destruct (Rlt_dec (a / 2) fm) as [L|L].
      + eexists. split; [reflexivity|]. rewrite Hone, rn_minus by (assumption || lra). rewrite Rmult_1_r.
        split; [apply sterbenz; assumption || apply dexp_valid || apply dexp_mono || lra|]. split; [rewrite Rabs_left by lra; lra|]. split; [|reflexivity]. rewrite Rminus_diag_eq, Rabs_R0 by reflexivity. exact Hz.
      + eexists. split; [reflexivity|]. rewrite Hzero, Rmult_0_r, Rminus_0_r, rn_id by assumption. split; [assumption|]. split; [rewrite Rabs_pos_eq by lra; lra|]. split; [|reflexivity]. rewrite Rminus_diag_eq, Rabs_R0 by reflexivity. exact Hz.
    - assert (Hneg : ~ 0 <= x). { intros H0. destruct (fmod_nonneg x a Hlow H0) as [H1 _]. fold fm in H1. lra. }
      assert (Hnp' : forall e, a <> bpow radix2 e) by (destruct Hnp as [H0|H0]; [lra|exact H0]).
      destruct (Rle_lt_dec fm (- a / 2)) as [L|L].
      + assert (E : rn (fm + a) = fm + a).
        { replace (fm + a) with (a - - fm) by ring. apply rn_minus; [assumption|apply double_opp; assumption|lra]. }
        rewrite E. destruct (Rlt_dec (a / 2) (fm + a)); [lra|]. eexists. split; [reflexivity|]. rewrite Hzero, Rmult_0_r, Rminus_0_r, <- E, (rn_id (rn _)) by apply rn_double. rewrite E.
        split; [rewrite <- E; apply rn_double|]. split; [rewrite Rabs_pos_eq by lra; lra|]. split; [|reflexivity]. rewrite Rminus_diag_eq, Rabs_R0 by reflexivity. exact Hz.
      + pose proof (shift_above Hnp' ltac:(lra)) as Hup.
        assert (Hle : rn (fm + a) <= a) by (rewrite <- (rn_id a Ha) at 2; apply rn_le; lra).
        destruct (Rlt_dec (a / 2) (fm + a)); [|lra]. destruct (Rlt_dec (a / 2) (rn (fm + a))); [|lra]. eexists. split; [reflexivity|].
        rewrite Hone, rn_minus by (apply rn_double || assumption || lra). rewrite Rmult_1_r.
        split; [apply sterbenz; apply rn_double || assumption || apply dexp_valid || apply dexp_mono || lra|]. split; [rewrite Rabs_minus_sym, Rabs_pos_eq by lra; lra|]. split; [|intros; lra].
        replace (rn (fm + a) - a - (fm + a - a)) with (rn (fm + a) - (fm + a)) by ring.
        assert (HR : Rabs (rn (fm + a) - (fm + a)) <= / 2 * bpow radix2 (-53 + 1) * Rabs (fm + a)).
        { apply (relative_error_N_FLT radix2 (-1074) 53 eq_refl). rewrite Rabs_pos_eq by lra.
          assert (bpow radix2 (-1074 + 53 - 1) <= bpow radix2 (-1001)) by (apply bpow_le; discriminate).
          assert (bpow radix2 (-1000) = 2 * bpow radix2 (-1001)) by (change (-1000)%Z with (1 + -1001)%Z; rewrite bpow_plus; reflexivity). lra. }
        rewrite (Rabs_pos_eq (fm + a)) in HR by lra. assert (HB : bpow radix2 (-53 + 1) = 2 * bpow radix2 (-53)) by (change (-53 + 1)%Z with (1 + -53)%Z; rewrite bpow_plus; reflexivity).
        rewrite HB in HR. eapply Rle_trans; [exact HR|]. replace (/ 2 * (2 * bpow radix2 (-53)) * (fm + a)) with (bpow radix2 (-53) * (fm + a)) by lra. apply Rmult_le_compat_l; lra.
  Qed.
End Fl.

(* ---------- the width used by the program ---------- *)
Lemma rn_half_ulp : forall v e, (-1022 <= e)%Z -> bpow radix2 e <= v -> v < bpow radix2 (e + 1) -> Rabs (rn v - v) <= bpow radix2 (e - 53).
Proof.
  intros v e He H1 H2. pose proof (bpow_gt_0 radix2 e) as Hp. eapply Rle_trans; [apply error_le_half_ulp; apply dexp_valid|].
  assert (Hm : (mag radix2 v : Z) = (e + 1)%Z). { apply mag_unique. rewrite Rabs_pos_eq by lra. replace (e + 1 - 1)%Z with e by lia. split; assumption. }
  rewrite ulp_neq_0 by lra. unfold cexp. rewrite Hm. unfold dexp, FLT_exp. rewrite Z.max_l by lia. replace (e + 1 - 53)%Z with (1 + (e - 53))%Z by lia. rewrite bpow_plus. change (bpow radix2 1) with 2. lra.
Qed.
Lemma alpha_facts : double alpha_fl /\ 17 / 10 < alpha_fl < 18 / 10 /\ Rabs (alpha_fl - sqrt PI) <= bpow radix2 (-52) /\ 17 / 10 < sqrt PI < 18 / 10.
Proof.
  pose proof PI_bounds as HP.
  assert (B : forall k : positive, bpow radix2 (Zneg k) = / IZR (Z.pow_pos 2 k)) by reflexivity.
  assert (H1 : Rabs (rn PI - PI) <= bpow radix2 (-52)).
  { apply (rn_half_ulp PI 1); [discriminate| |]; [change (bpow radix2 1) with 2|change (bpow radix2 (1 + 1)) with 4]; lra. }
  assert (B52 : bpow radix2 (-52) = / 4503599627370496) by reflexivity. assert (B53 : bpow radix2 (-53) = / 9007199254740992) by reflexivity.
  apply Rabs_le_inv in H1. set (p := rn PI) in *. assert (Hp : 3.14 < p < 3.15) by lra.
  assert (S : forall v, 3.14 < v < 3.15 -> 17 / 10 + / 100 < sqrt v < 18 / 10 - / 100).
  { intros v Hv. split.
    - rewrite <- (sqrt_square (17 / 10 + / 100)) by lra. apply sqrt_lt_1_alt. lra.
    - rewrite <- (sqrt_square (18 / 10 - / 100)) by lra. apply sqrt_lt_1_alt. lra. }
  pose proof (S p Hp) as Sp. pose proof (S PI ltac:(lra)) as SP.
  assert (H2 : Rabs (rn (sqrt p) - sqrt p) <= bpow radix2 (-53)).
  { apply (rn_half_ulp (sqrt p) 0); [discriminate| |]; [change (bpow radix2 0) with 1|change (bpow radix2 (0 + 1)) with 2]; lra. }
  apply Rabs_le_inv in H2. unfold alpha_fl. fold p.
  assert (H3 : Rabs (sqrt p - sqrt PI) <= bpow radix2 (-53)).
  { assert (E : (sqrt p - sqrt PI) * (sqrt p + sqrt PI) = p - PI).
    { replace ((sqrt p - sqrt PI) * (sqrt p + sqrt PI)) with (sqrt p * sqrt p - sqrt PI * sqrt PI) by ring. rewrite !sqrt_sqrt by lra. reflexivity. }
    apply Rabs_le. split.
    - apply Rnot_lt_le. intros L. assert ((sqrt p - sqrt PI) * (sqrt p + sqrt PI) <= - bpow radix2 (-53) * (sqrt p + sqrt PI)) by (apply Rmult_le_compat_r; lra).
      assert (- bpow radix2 (-53) * (sqrt p + sqrt PI) <= - bpow radix2 (-53) * 3). { rewrite B53. lra. } rewrite B53 in *. lra.
    - apply Rnot_lt_le. intros L. assert (bpow radix2 (-53) * (sqrt p + sqrt PI) <= (sqrt p - sqrt PI) * (sqrt p + sqrt PI)) by (apply Rmult_le_compat_r; lra).
      assert (bpow radix2 (-53) * 3 <= bpow radix2 (-53) * (sqrt p + sqrt PI)). { rewrite B53. lra. } rewrite B53 in *. lra. }
  apply Rabs_le_inv in H3. split; [apply rn_double|]. rewrite B53 in *. split; [lra|]. split; [|lra]. apply Rabs_le. rewrite B52. lra.
Qed.
Lemma alpha_low : bpow radix2 (-1000) <= alpha_fl.
Proof. destruct alpha_facts as (_ & H & _). assert (bpow radix2 (-1000) <= bpow radix2 0) by (apply bpow_le; discriminate). change (bpow radix2 0) with 1 in *. lra. Qed.
Lemma alpha_not_power : forall e, alpha_fl <> bpow radix2 e.
Proof.
  intros e E. destruct alpha_facts as (_ & H & _). rewrite E in H. destruct (Z_le_gt_dec e 0) as [L|L].
  - assert (bpow radix2 e <= bpow radix2 0) by (apply bpow_le; exact L). change (bpow radix2 0) with 1 in *. lra.
  - assert (bpow radix2 1 <= bpow radix2 e) by (apply bpow_le; lia). change (bpow radix2 1) with 2 in *. lra.
Qed.

(* ---------- the theorems ---------- *)
(* integer_fractional on doubles: the integer part is exactly the one of the real numbers x and alpha, and the
   fractional part is exact for x >= 0 and off by at most 2^-53 alpha otherwise. *)
Theorem C74_integer_fractional_partial : forall x alpha, double x -> double alpha -> bpow radix2 (-1000) <= alpha -> Rabs x <= 2 ^ 48 * alpha ->
  0 <= x \/ (forall e, alpha <> bpow radix2 e) ->
  exists n f f0, integer_fractional_fl x alpha = (n, f) /\ x = IZR n * alpha + f0 /\ - alpha / 2 < f0 <= alpha / 2 /\
    double f /\ Rabs f <= alpha / 2 /\ Rabs (f - f0) <= bpow radix2 (-53) * alpha /\ (0 <= x -> f = f0).
Proof.
  intros x a Hx Ha Hl Hs Hc. destruct (fl_result x a Hx Ha Hl Hs Hc) as (f & E & Hd & H1 & H2 & H3).
  pose proof (a_pos a Hl) as Hp. destruct (integer_fractional x a) as [n f0] eqn:EI. destruct (C33_integer_fractional x a n f0 Hp EI) as (K1 & _ & K2 & _). cbn [fst snd] in *.
  exists n, f, f0. repeat split; auto; lra.
Qed.

(* Refuted for a power of two and x < 0: integer_fractional(-(0.5 - 2^-54), 1.0) = (-1, 0.5), although 0 is nearer. *)
Theorem C74_power_of_two_refuted : let x := - (/ 2 - bpow radix2 (-54)) in
  double x /\ double 1 /\ integer_fractional_fl x 1 = ((-1)%Z, / 2) /\ integer_fractional x 1 = (0%Z, x) /\ Rabs x < / 2.
Proof.
  intros x. assert (B : bpow radix2 (-54) = / 18014398509481984) by reflexivity.
  assert (Hx : double x). { unfold x. replace (- (/ 2 - bpow radix2 (-54))) with (IZR (-9007199254740991) * bpow radix2 (-54)) by (rewrite B; lra). apply double_scaled; [reflexivity|discriminate]. }
  assert (H1 : double 1) by (apply double_Z; reflexivity). split; [exact Hx|]. split; [exact H1|].
  assert (Hb : - / 2 < x < 0) by (unfold x; rewrite B; lra).
  assert (Hl : bpow radix2 (-1000) <= 1) by (change 1 with (bpow radix2 0); apply bpow_le; discriminate).
  assert (Hq : x / 1 = x) by field.
  assert (Hf : c_fmod x 1 = x). { unfold c_fmod. rewrite Hq. rewrite Ztrunc_ceil by lra. rewrite (Zceil_imp 0) by (rewrite minus_IZR; lra). ring. }
  assert (Hfl : Zfloor x = (-1)%Z) by (apply Zfloor_imp; rewrite plus_IZR; lra).
  assert (Hm : rn (x + 1) = / 2).
  { unfold rn, round. assert (Hc : cexp radix2 dexp (x + 1) = (-53)%Z).
    { unfold cexp. assert (Hmm : (mag radix2 (x + 1) : Z) = 0%Z). { apply mag_unique. rewrite Rabs_pos_eq by lra. change (bpow radix2 (0 - 1)) with (/ 2). change (bpow radix2 0) with 1. lra. } rewrite Hmm. reflexivity. }
    unfold scaled_mantissa. rewrite Hc.
    assert (Hs : (x + 1) * bpow radix2 (- -53) = IZR 4503599627370496 + / 2). { change (bpow radix2 (- -53)) with (IZR 9007199254740992). unfold x. rewrite B. lra. }
    rewrite Hs. unfold Znearest. rewrite (Zfloor_imp 4503599627370496) by (rewrite plus_IZR; lra). rewrite Rcompare_Eq by lra. cbn -[IZR bpow]. unfold F2R. cbn [Fnum Fexp]. change (bpow radix2 (-53)) with (/ IZR 9007199254740992). lra. }
  split; [|split].
  - unfold integer_fractional_fl. rewrite divmod_fl; try assumption; [|rewrite Rabs_left by lra; lra]. rewrite Hf, Hq, Hfl. cbv zeta. cbn [fst snd]. destruct (Rle_dec 0 x); [lra|]. rewrite Hm, Ztrunc_IZR.
    assert (Hh : rn (1 / 2) = / 2) by (replace (1 / 2) with (IZR 4 / 8) by lra; rewrite rn_id by (apply double_eighth; reflexivity); lra). rewrite Hh. unfold gt_int. destruct (Rlt_dec (/ 2) (/ 2)); [lra|].
    f_equal. rewrite Rmult_0_r, rn_0, Rminus_0_r. rewrite <- Hh at 1. rewrite (rn_id (rn _)) by apply rn_double. exact Hh.
  - unfold integer_fractional, divmod. cbv zeta. change (Int_part (x / 1)) with (Zfloor (x / 1)). rewrite Hq, Hfl. cbn [fst snd]. unfold gt_int. destruct (Rlt_dec (1 / 2) (x - -1 * 1)); [|lra]. f_equal. ring.
  - rewrite Rabs_left by lra. lra.
Qed.

(* GKP_binner on doubles: exact binning with bins of width alpha_fl, which is within 2^-52 of sqrt(pi) *)
Theorem C74_bins : Rabs (alpha_fl - sqrt PI) <= bpow radix2 (-52) /\
  forall x, double x -> Rabs x <= 2 ^ 48 ->
  exists n, - alpha_fl / 2 < x - IZR n * alpha_fl <= alpha_fl / 2 /\ fst (GKP_binner_fl x) = (n mod 2)%Z /\
    double (snd (GKP_binner_fl x)) /\ Rabs (snd (GKP_binner_fl x) - (x - IZR n * alpha_fl)) <= bpow radix2 (-52) /\
    (0 <= x -> snd (GKP_binner_fl x) = x - IZR n * alpha_fl).
Proof.
  destruct alpha_facts as (Ha & Hb & Hd & _). split; [exact Hd|]. intros x Hx Hs.
  destruct (C74_integer_fractional_partial x alpha_fl Hx Ha alpha_low) as (n & f & f0 & E & K1 & K2 & K3 & _ & K4 & K5).
  { assert (2 ^ 48 * 1 <= 2 ^ 48 * alpha_fl) by (apply Rmult_le_compat_l; [apply pow_le|]; lra). lra. }
  { right. apply alpha_not_power. }
  exists n. unfold GKP_binner_fl. rewrite E. cbv zeta. cbn [fst snd]. replace (x - IZR n * alpha_fl) with f0 by lra. split; [exact K2|]. split; [reflexivity|]. split; [exact K3|]. split; [|exact K5].
  eapply Rle_trans; [exact K4|]. assert (HB : bpow radix2 (-52) = bpow radix2 (-53) * 2) by (change (-52)%Z with (-53 + 1)%Z; rewrite bpow_plus; reflexivity). rewrite HB. apply Rmult_le_compat_l; [apply bpow_ge_0|lra].
Qed.

(* Hence the documented bit for every outcome that is not too close to a boundary (an odd multiple of sqrt(pi)/2), and the
   documented fractional part up to the same margin. *)
Theorem C74_documented_bit : forall x, double x -> Rabs x <= 2 ^ 48 ->
  let margin := (Rabs x + 1) * bpow radix2 (-52) in
  (forall j, margin < Rabs (x - IZR (2 * j + 1) * (sqrt PI / 2))) ->
  fst (GKP_binner_fl x) = fst (GKP_binner x) /\ Rabs (snd (GKP_binner_fl x) - snd (GKP_binner x)) <= 2 * margin.
Proof.
  intros x Hx Hs margin Hfar. destruct C74_bins as [Hd HB]. destruct (HB x Hx Hs) as (n & Hn & Eb & _ & Ef & _). destruct alpha_facts as (_ & Hal & _ & Hsp).
  destruct (C34_binning_partial x) as [(N & HN & Eb' & Ef') _].
  apply Rabs_le_inv in Hd. set (u := bpow radix2 (-52)) in *. assert (Hu : 0 < u) by apply bpow_gt_0. set (s := sqrt PI) in *. set (al := alpha_fl) in *.
  assert (HA : Rabs x <= 2 ^ 48) by exact Hs. clear Hs.
  assert (Hx1 : - Rabs x <= x <= Rabs x) by (apply Rabs_le_inv; lra).
  assert (HNs : Rabs (IZR N) <= Rabs x * (10 / 17) + / 2).
  { assert (Q : forall m, - s / 2 <= x - m * s <= s / 2 -> m <= Rabs x * (10 / 17) + / 2).
    { intros m Hm. apply Rnot_lt_le. intros L. assert (17 / 10 * (m - / 2) <= s * (m - / 2)). { apply Rmult_le_compat_r; [|lra]. pose proof (Rabs_pos x). lra. } lra. }
    apply Rabs_le. split; [|apply Q; lra]. assert (- IZR N <= Rabs x * (10 / 17) + / 2); [|lra].
    apply Rnot_lt_le. intros L. assert (17 / 10 * (- IZR N - / 2) <= s * (- IZR N - / 2)). { apply Rmult_le_compat_r; [|lra]. pose proof (Rabs_pos x). lra. } lra. }
  assert (HD : forall t, Rabs t <= Rabs x + 1 -> Rabs (t * (al - s)) <= margin).
  { intros t Ht. rewrite Rabs_mult. unfold margin. apply Rmult_le_compat; try apply Rabs_pos; [exact Ht|]. apply Rabs_le. lra. }
  assert (HNN : N = n).
  { pose proof (Hfar N) as F1. pose proof (Hfar (N - 1)%Z) as F2.
    replace (IZR (2 * N + 1)) with (2 * IZR N + 1) in F1 by (rewrite plus_IZR, mult_IZR; reflexivity).
    replace (IZR (2 * (N - 1) + 1)) with (2 * IZR N - 1) in F2 by (rewrite plus_IZR, mult_IZR, minus_IZR; lra).
    rewrite Rabs_left1 in F1 by lra. rewrite Rabs_pos_eq in F2 by lra.
    assert (D1 : Rabs ((IZR N + / 2) * (al - s)) <= margin). { apply HD. eapply Rle_trans; [apply Rabs_triang|]. rewrite (Rabs_pos_eq (/ 2)) by lra. pose proof (Rabs_pos x). lra. }
    assert (D2 : Rabs ((IZR N - / 2) * (al - s)) <= margin). { apply HD. eapply Rle_trans; [apply Rabs_triang|]. rewrite Rabs_Ropp, (Rabs_pos_eq (/ 2)) by lra. pose proof (Rabs_pos x). lra. }
    apply Rabs_le_inv in D1. apply Rabs_le_inv in D2.
    assert (L1 : x < (IZR N + / 2) * al) by lra. assert (L2 : (IZR N - / 2) * al < x) by lra.
    assert (A1 : (n - 1 < N)%Z). { apply lt_IZR. rewrite minus_IZR. apply (Rmult_lt_reg_r al); lra. }
    assert (A2 : (N < n + 1)%Z). { apply lt_IZR. rewrite plus_IZR. apply (Rmult_lt_reg_r al); lra. }
    lia. }
  rewrite Eb, Eb', Ef', HNN. split; [reflexivity|].
  assert (D : Rabs (IZR n * (al - s)) <= margin). { apply HD. rewrite <- HNN. pose proof (Rabs_pos x). lra. }
  apply Rabs_le_inv in D. apply Rabs_le_inv in Ef. assert (u <= margin). { unfold margin. rewrite <- (Rmult_1_l u) at 1. apply Rmult_le_compat_r; [lra|]. pose proof (Rabs_pos x). lra. }
  apply Rabs_le. lra.
Qed.

(* The caution in the code about multiples of sqrt(pi): n * np.sqrt(np.pi), computed in floating point, has bit n mod 2 and a
   fractional part of at most |n| 2^-52, for every |n| <= 2^47. *)
Theorem C74_multiples : forall n, (Z.abs n <= 2 ^ 47)%Z ->
  let x := rn (IZR n * alpha_fl) in
  fst (GKP_binner_fl x) = (n mod 2)%Z /\ Rabs (snd (GKP_binner_fl x)) <= (Rabs (IZR n) + 1) * bpow radix2 (-52).
Proof.
  intros n Hn x. destruct alpha_facts as (Ha & Hal & _). set (u := bpow radix2 (-52)). assert (Hu : u = / 4503599627370496) by reflexivity.
  assert (HA : Rabs (IZR n) <= 2 ^ 47). { rewrite <- abs_IZR. replace (2 ^ 47) with (IZR (2 ^ 47)) by (rewrite pow_IZR; reflexivity). apply IZR_le. exact Hn. }
  assert (P47 : 2 ^ 47 = 140737488355328) by lra. assert (P48 : 2 ^ 48 = 281474976710656) by lra.
  assert (Herr : Rabs (x - IZR n * alpha_fl) <= u * Rabs (IZR n)).
  { destruct (Z.eq_dec n 0) as [E|E]. { unfold x. rewrite E, Rmult_0_l, rn_0, Rminus_0_r, Rabs_R0. lra. }
    assert (H1 : 1 <= Rabs (IZR n)) by (rewrite <- abs_IZR; apply IZR_le; lia).
    assert (HR : Rabs (x - IZR n * alpha_fl) <= / 2 * bpow radix2 (-53 + 1) * Rabs (IZR n * alpha_fl)).
    { apply (relative_error_N_FLT radix2 (-1074) 53 eq_refl). rewrite Rabs_mult, (Rabs_pos_eq alpha_fl) by lra. assert (1 * 1 <= Rabs (IZR n) * alpha_fl) by (apply Rmult_le_compat; lra).
      assert (bpow radix2 (-1074 + 53 - 1) <= bpow radix2 0) by (apply bpow_le; discriminate). change (bpow radix2 0) with 1 in *. lra. }
    rewrite Rabs_mult, (Rabs_pos_eq alpha_fl) in HR by lra. change (bpow radix2 (-53 + 1)) with u in HR. eapply Rle_trans; [exact HR|].
    assert (u * Rabs (IZR n) * alpha_fl <= u * Rabs (IZR n) * 2). { apply Rmult_le_compat_l; [apply Rmult_le_pos; lra|lra]. } lra. }
  assert (Herr' : Rabs (x - IZR n * alpha_fl) <= / 32) by (rewrite Hu in Herr; lra).
  assert (Hxs : Rabs x <= 2 ^ 48).
  { replace x with ((x - IZR n * alpha_fl) + IZR n * alpha_fl) by ring. eapply Rle_trans; [apply Rabs_triang|]. rewrite Rabs_mult, (Rabs_pos_eq alpha_fl) by lra.
    assert (Rabs (IZR n) * alpha_fl <= 2 ^ 47 * (18 / 10)) by (apply Rmult_le_compat; try apply Rabs_pos; lra). lra. }
  destruct C74_bins as [_ HB]. destruct (HB x (rn_double _) Hxs) as (N & HN & Eb & _ & Ef & _). apply Rabs_le_inv in Herr'.
  assert (N = n). { assert (n - 1 < N < n + 1)%Z; [|lia]. split; apply lt_IZR; rewrite ?minus_IZR, ?plus_IZR; apply (Rmult_lt_reg_r alpha_fl); lra. }
  subst N. split; [exact Eb|]. fold u in Ef. replace (snd (GKP_binner_fl x)) with ((snd (GKP_binner_fl x) - (x - IZR n * alpha_fl)) + (x - IZR n * alpha_fl)) by ring.
  eapply Rle_trans; [apply Rabs_triang|]. lra.
Qed.

(* The hypotheses are met: 1.0 and -100.0 are far enough from every boundary. *)
Theorem C74_nonvacuous : double 1 /\ double (-100) /\ Rabs (-100) <= 2 ^ 48 /\ (forall j, (Rabs 1 + 1) * bpow radix2 (-52) < Rabs (1 - IZR (2 * j + 1) * (sqrt PI / 2))) /\
  fst (GKP_binner_fl 1) = 1%Z /\ fst (GKP_binner_fl 0) = 0%Z.
Proof.
  destruct alpha_facts as (_ & Hal & _ & Hsp).
  split; [apply double_Z; reflexivity|]. split; [apply double_Z; reflexivity|]. split; [rewrite Rabs_left by lra; lra|]. split; [|split].
  - intros j. rewrite (Rabs_pos_eq 1) by lra. replace (bpow radix2 (-52)) with (/ 4503599627370496) by reflexivity.
    assert (Hs : 17 / 20 < sqrt PI / 2 < 9 / 10) by lra. set (t := sqrt PI / 2) in *.
    destruct (Z_le_gt_dec j (-1)) as [L|L]; [|destruct (Z.eq_dec j 0) as [->|]].
    + assert (IZR (2 * j + 1) <= -1) by (apply IZR_le; lia). assert (IZR (2 * j + 1) * t <= -1 * t) by (apply Rmult_le_compat_r; lra). rewrite Rabs_pos_eq by lra. lra.
    + change (IZR (2 * 0 + 1)) with 1. rewrite Rabs_pos_eq by lra. lra.
    + assert (3 <= IZR (2 * j + 1)) by (apply IZR_le; lia). assert (3 * t <= IZR (2 * j + 1) * t) by (apply Rmult_le_compat_r; lra). rewrite Rabs_left by lra. lra.
  - destruct C74_bins as [_ HB]. destruct (HB 1 ltac:(apply double_Z; reflexivity) ltac:(rewrite Rabs_pos_eq by lra; lra)) as (N & HN & Eb & _). rewrite Eb.
    assert (N = 1)%Z as ->; [|reflexivity]. assert (0 < N < 2)%Z; [|lia]. split; apply lt_IZR; apply (Rmult_lt_reg_r alpha_fl); lra.
  - destruct (C74_multiples 0 ltac:(discriminate)) as [H _]. rewrite Rmult_0_l, rn_0 in H. exact H.
Qed.

(* In machine arithmetic too, the two ends of the central bin are treated differently (compare C34_boundary_to_0_refuted). *)
Theorem C74_boundary_to_0_refuted : double (alpha_fl / 2) /\ double (- alpha_fl / 2) /\
  fst (GKP_binner_fl (alpha_fl / 2)) = 0%Z /\ fst (GKP_binner_fl (- alpha_fl / 2)) = 1%Z.
Proof.
  destruct alpha_facts as (Ha & Hal & _). assert (Hh : double (alpha_fl / 2)) by (apply double_half; [exact Ha|apply alpha_low]).
  assert (Hm : double (- alpha_fl / 2)) by (replace (- alpha_fl / 2) with (- (alpha_fl / 2)) by lra; apply double_opp; exact Hh).
  split; [exact Hh|]. split; [exact Hm|]. destruct C74_bins as [_ HB]. split.
  - destruct (HB _ Hh ltac:(rewrite Rabs_pos_eq by lra; lra)) as (N & HN & -> & _). assert (N = 0)%Z as ->; [|reflexivity].
    assert (-1 < N < 1)%Z; [|lia]. split; apply lt_IZR; apply (Rmult_lt_reg_r alpha_fl); lra.
  - destruct (HB _ Hm ltac:(rewrite Rabs_left by lra; lra)) as (N & HN & -> & _). assert (N = -1)%Z as ->; [|reflexivity].
    assert (-2 < N < 0)%Z; [|lia]. split; apply lt_IZR; apply (Rmult_lt_reg_r alpha_fl); lra.
Qed.
