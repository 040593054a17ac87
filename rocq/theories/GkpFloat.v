(* GkpFloat.v: integer_fractional and GKP_binner (flamingpy/cv/gkp.py 19-63) in the arithmetic of the machine: numpy's
   float64, i.e. binary floating point with 53 bits, rounding to nearest, ties to even, gradual underflow from 2^-1074.
   Overflow is not modelled (the theorems bound the arguments), nor are nan and the signs of zeros. *)
From Coq Require Import Reals Lra.
From Flocq Require Import Core Div_sqrt_error Sterbenz Relative.
From Verif Require Import Base GkpModel.
Open Scope R_scope.

Definition dexp : Z -> Z := FLT_exp (-1074) 53.
(* the numbers of the machine, and the rounding of every operation *)
Definition double (x : R) : Prop := generic_format radix2 dexp x.
Definition rn (x : R) : R := round radix2 dexp ZnearestE x.

(* fmod of the C library: exact, the sign of the result is that of x *)
Definition c_fmod (x a : R) : R := x - IZR (Ztrunc (x / a)) * a.

(* npy_divmod, numpy/core/src/npymath/npy_math_internal.h.src, which np.divmod (gkp.py 29) calls for every entry:
     mod = fmod(a, b); div = (a - mod) / b;
     if (mod) { if ((b < 0) != (mod < 0)) { mod += b; div -= 1.0; } } else mod = copysign(0, b);
     if (div) { floordiv = floor(div); if (div - floordiv > 0.5) floordiv += 1.0; } else floordiv = copysign(0, a/b);   *)
Definition ltb0 (x : R) : bool := if Rlt_dec x 0 then true else false.
Definition npy_divmod (x a : R) : R * R :=
  let mod0 := c_fmod x a in
  let div0 := rn (rn (x - mod0) / a) in
  let '(mod1, div1) :=
    if Req_EM_T mod0 0 then (0, div0)
    else if xorb (ltb0 a) (ltb0 mod0) then (rn (mod0 + a), rn (div0 - 1)) else (mod0, div0) in
  let floordiv :=
    if Req_EM_T div1 0 then 0
    else let fl := IZR (Zfloor div1) in if Rlt_dec 0.5 (rn (div1 - fl)) then rn (fl + 1) else fl in
  (floordiv, mod1).

(* integer_fractional, gkp.py 29-34; .astype(int) cuts off the fractional part *)
Definition integer_fractional_fl (x alpha : R) : Z * R :=
  let int_frac := npy_divmod x alpha in
  let large_frac := gt_int (snd int_frac) (rn (alpha / 2)) in
  let f := rn (snd int_frac - rn (alpha * IZR large_frac)) in
  let n := (Ztrunc (fst int_frac) + large_frac)%Z in
  (n, f).

(* np.sqrt(np.pi), gkp.py 55: np.pi is the double next to pi, the square root is rounded *)
Definition alpha_fl : R := rn (sqrt (rn PI)).
(* GKP_binner, gkp.py 54-63 *)
Definition GKP_binner_fl (x : R) : Z * R :=
  let int_frac := integer_fractional_fl x alpha_fl in
  ((fst int_frac mod 2)%Z, snd int_frac).

(* ---------- facts about doubles ---------- *)
Global Instance prec53 : Prec_gt_0 53. Proof. reflexivity. Qed.
Global Instance dexp_valid : Valid_exp dexp := FLT_exp_valid (-1074) 53.
Global Instance dexp_mono : Monotone_exp dexp := FLT_exp_monotone (-1074) 53.

Lemma rn_double : forall x, double (rn x).
Proof. intros x. apply generic_format_round; [apply dexp_valid|apply valid_rnd_N]. Qed.
Lemma rn_id : forall x, double x -> rn x = x.
Proof. intros x H. apply round_generic; [apply valid_rnd_N|exact H]. Qed.
Lemma rn_le : forall x y, x <= y -> rn x <= rn y.
Proof. intros x y H. apply round_le; [apply dexp_valid|apply valid_rnd_N|exact H]. Qed.
Lemma rn_between : forall lo hi x, double lo -> double hi -> lo <= x <= hi -> lo <= rn x <= hi.
Proof. intros lo hi x Hl Hh H. rewrite <- (rn_id lo Hl) at 1. rewrite <- (rn_id hi Hh). split; apply rn_le; lra. Qed.

(* m 2^k with m of at most 53 bits *)
Lemma double_scaled : forall m k, (Z.abs m < 2 ^ 53)%Z -> (-1074 <= k)%Z -> double (IZR m * bpow radix2 k).
Proof.
  intros m k Hm Hk. apply generic_format_FLT. exists (Float radix2 m k); [reflexivity|exact Hm|exact Hk].
Qed.
Lemma double_bpow : forall k, (-1074 <= k)%Z -> double (bpow radix2 k).
Proof. intros k Hk. rewrite <- (Rmult_1_l (bpow radix2 k)). apply (double_scaled 1 k); [reflexivity|exact Hk]. Qed.
Lemma double_Z : forall m, (Z.abs m < 2 ^ 53)%Z -> double (IZR m).
Proof. intros m Hm. rewrite <- (Rmult_1_r (IZR m)). change 1 with (bpow radix2 0). apply double_scaled; [exact Hm|discriminate]. Qed.
Lemma double_opp : forall x, double x -> double (- x).
Proof. intros x. apply generic_format_opp. Qed.
Lemma double_eighth : forall m, (Z.abs m < 2 ^ 53)%Z -> double (IZR m / 8).
Proof. intros m Hm. replace (IZR m / 8) with (IZR m * bpow radix2 (-3)). apply double_scaled; [exact Hm|discriminate]. change (bpow radix2 (-3)) with (/ 8). lra. Qed.

(* a double is a multiple of 2^k when it is not smaller than 2^(k+52) *)
Lemma double_multiple : forall x k, double x -> bpow radix2 (k + 52) <= Rabs x -> exists m, x = IZR m * bpow radix2 k.
Proof.
  intros x k Hx Hk. assert (Hc : (k <= cexp radix2 dexp x)%Z).
  { unfold cexp, dexp, FLT_exp. assert (k + 52 < mag radix2 x)%Z. { apply mag_gt_bpow. exact Hk. } lia. }
  rewrite Hx. unfold F2R. cbn [Fnum Fexp]. set (c := cexp radix2 dexp x) in *.
  exists (Ztrunc (scaled_mantissa radix2 dexp x) * 2 ^ (c - k))%Z. rewrite mult_IZR.
  change (IZR (2 ^ (c - k))) with (IZR (Zpower radix2 (c - k))). rewrite IZR_Zpower by lia. rewrite Rmult_assoc, <- bpow_plus. do 2 f_equal. lia.
Qed.

(* halves *)
Lemma double_half : forall a, double a -> bpow radix2 (-1000) <= a -> double (a / 2).
Proof.
  intros a Ha Hb. assert (Hp : 0 < a) by (pose proof (bpow_gt_0 radix2 (-1000)); lra).
  set (e := mag radix2 a : Z). pose proof (bpow_mag_gt radix2 a) as H1. pose proof (bpow_mag_le radix2 a ltac:(lra)) as H2. fold e in H1, H2. rewrite Rabs_pos_eq in H1, H2 by lra.
  assert (He : (-1000 < e)%Z) by (apply mag_gt_bpow; rewrite Rabs_pos_eq; lra).
  destruct (double_multiple a (e - 53) Ha) as [m Hm]. { rewrite Rabs_pos_eq by lra. replace (e - 53 + 52)%Z with (e - 1)%Z by lia. exact H2. }
  replace (a / 2) with (IZR m * bpow radix2 (e - 54)).
  - apply double_scaled; [|lia]. apply lt_IZR. rewrite abs_IZR. apply (Rmult_lt_reg_r (bpow radix2 (e - 53))); [apply bpow_gt_0|].
    change (IZR (2 ^ 53)) with (IZR (Zpower radix2 53)). rewrite IZR_Zpower by lia. rewrite <- bpow_plus. replace (53 + (e - 53))%Z with e by lia.
    rewrite <- (Rabs_pos_eq (bpow radix2 (e - 53))) by apply bpow_ge_0. rewrite <- Rabs_mult, <- Hm, Rabs_pos_eq by lra. exact H1.
  - rewrite Hm. replace (e - 53)%Z with (e - 54 + 1)%Z by lia. rewrite bpow_plus. change (bpow radix2 1) with 2. lra.
Qed.

Lemma fmod_double : forall x a, double x -> double a -> double (c_fmod x a).
Proof. intros x a Hx Ha. apply format_REM_ZR; assumption || apply dexp_valid || apply dexp_mono. Qed.

Section Divmod.
  Variables x a : R.
  Hypothesis Hx : double x.
  Hypothesis Ha : double a.
  Hypothesis Hlow : bpow radix2 (-1000) <= a.
  Hypothesis Hsize : Rabs x <= 2 ^ 48 * a.

  Lemma a_pos : 0 < a.
  Proof. pose proof (bpow_gt_0 radix2 (-1000)). lra. Qed.
  Let k := Ztrunc (x / a).

  Lemma x_split : x = IZR k * a + c_fmod x a.
  Proof. unfold c_fmod, k. ring. Qed.
  Lemma k_size : (Z.abs k <= 2 ^ 48)%Z.
  Proof.
    unfold k. rewrite <- Ztrunc_abs. rewrite Ztrunc_floor by apply Rabs_pos. apply le_IZR. eapply Rle_trans; [apply Zfloor_lb|].
    pose proof a_pos. unfold Rdiv. rewrite Rabs_mult, Rabs_inv, (Rabs_pos_eq a) by lra. apply (Rmult_le_reg_r a); [assumption|]. rewrite Rmult_assoc, Rinv_l by lra.
    replace (IZR (2 ^ 48)) with (2 ^ 48) by (rewrite pow_IZR; reflexivity). lra.
  Qed.
  Lemma fmod_nonneg : 0 <= x -> 0 <= c_fmod x a < a /\ k = Zfloor (x / a).
  Proof.
    intros H. pose proof a_pos. assert (Hq : 0 <= x / a) by (apply Rmult_le_pos; [assumption|left; apply Rinv_0_lt_compat; assumption]).
    assert (Hk : k = Zfloor (x / a)) by (apply Ztrunc_floor; exact Hq). split; [|exact Hk].
    pose proof (Zfloor_lb (x / a)) as H1. pose proof (Zfloor_ub (x / a)) as H2. rewrite <- Hk in H1, H2. pose proof x_split as H3.
    assert (H4 : x = x / a * a) by (field; lra). split.
    - assert (IZR k * a <= x / a * a) by (apply Rmult_le_compat_r; lra). lra.
    - assert (x / a * a < (IZR k + 1) * a) by (apply Rmult_lt_compat_r; lra). lra.
  Qed.
  Lemma fmod_nonpos : x <= 0 -> - a < c_fmod x a <= 0 /\ k = Zceil (x / a).
  Proof.
    intros H. pose proof a_pos. assert (Hq : x / a <= 0). { assert (0 <= - x / a) by (apply Rmult_le_pos; [lra|left; apply Rinv_0_lt_compat; assumption]). unfold Rdiv in *. lra. }
    assert (Hk : k = Zceil (x / a)) by (apply Ztrunc_ceil; exact Hq). split; [|exact Hk].
    pose proof (Zceil_ub (x / a)) as H1. pose proof (Zceil_lb (x / a)) as H2. rewrite <- Hk in H1, H2. pose proof x_split as H3.
    assert (H4 : x = x / a * a) by (field; lra). split.
    - assert ((IZR k - 1) * a < x / a * a) by (apply Rmult_lt_compat_r; lra). lra.
    - assert (x / a * a <= IZR k * a) by (apply Rmult_le_compat_r; lra). lra.
  Qed.

  Lemma near_int : forall q v, (Z.abs q <= 2 ^ 48 + 1)%Z -> IZR q - 1 / 8 <= v <= IZR q + 1 / 8 -> IZR q - 1 / 8 <= rn v <= IZR q + 1 / 8.
  Proof.
    intros q v Hq Hv. apply rn_between; [| |exact Hv].
    - replace (IZR q - 1 / 8) with (IZR (8 * q - 1) / 8) by (rewrite minus_IZR, mult_IZR; lra). apply double_eighth. lia.
    - replace (IZR q + 1 / 8) with (IZR (8 * q + 1) / 8) by (rewrite plus_IZR, mult_IZR; lra). apply double_eighth. lia.
  Qed.

  Lemma quotient_near : IZR k - 1 / 8 <= rn (rn (x - c_fmod x a) / a) <= IZR k + 1 / 8.
  Proof.
    pose proof a_pos as Hp. pose proof k_size as Hk. apply near_int; [lia|].
    replace (x - c_fmod x a) with (IZR k * a) by (rewrite x_split at 1; ring).
    destruct (Z.eq_dec k 0) as [E|E].
    - rewrite E. replace (0 * a) with 0 by ring. rewrite (rn_id 0) by (apply generic_format_0). unfold Rdiv. rewrite Rmult_0_l. lra.
    - assert (H1 : 1 <= Rabs (IZR k)) by (rewrite <- abs_IZR; apply IZR_le; lia).
      assert (H2 : Rabs (IZR k) <= 2 ^ 48). { rewrite <- abs_IZR. replace (2 ^ 48) with (IZR (2 ^ 48)) by (rewrite pow_IZR; reflexivity). apply IZR_le. exact Hk. }
      assert (H3 : Rabs (rn (IZR k * a) - IZR k * a) <= / 2 * bpow radix2 (-53 + 1) * Rabs (IZR k * a)).
      { apply (relative_error_N_FLT radix2 (-1074) 53 eq_refl). rewrite Rabs_mult, (Rabs_pos_eq a) by lra.
        assert (bpow radix2 (-1074 + 53 - 1) <= bpow radix2 (-1000)) by (apply bpow_le; discriminate).
        assert (1 * a <= Rabs (IZR k) * a) by (apply Rmult_le_compat_r; lra). lra. }
      rewrite Rabs_mult, (Rabs_pos_eq a) in H3 by lra.
      assert (H4 : Rabs (rn (IZR k * a) - IZR k * a) <= / 8 * a).
      { eapply Rle_trans; [exact H3|]. rewrite <- Rmult_assoc. apply Rmult_le_compat_r; [lra|]. 
        replace (/ 8) with (/ 2 * bpow radix2 (-53 + 1) * 2 ^ 50).
        - apply Rmult_le_compat_l; [pose proof (bpow_ge_0 radix2 (-53 + 1)); lra|]. eapply Rle_trans; [exact H2|]. apply Rle_pow; [lra|lia].
        - change (bpow radix2 (-53 + 1)) with (/ IZR 4503599627370496). replace (2 ^ 50) with (IZR 1125899906842624) by (rewrite pow_IZR; reflexivity). lra. }
      assert (H5 : Rabs (rn (IZR k * a) / a - IZR k) <= / 8).
      { replace (rn (IZR k * a) / a - IZR k) with ((rn (IZR k * a) - IZR k * a) * / a) by (field; lra). rewrite Rabs_mult, Rabs_inv, (Rabs_pos_eq a) by lra.
        apply (Rmult_le_reg_r a); [lra|]. rewrite Rmult_assoc, Rinv_l by lra. lra. }
      apply Rabs_le_inv in H5. lra.
  Qed.

  (* rounding of the quotient to the nearest integer *)
  Lemma snap : forall q v, (Z.abs q <= 2 ^ 48 + 1)%Z -> IZR q - 1 / 8 <= v <= IZR q + 1 / 8 ->
    (if Req_EM_T v 0 then 0 else let fl := IZR (Zfloor v) in if Rlt_dec 0.5 (rn (v - fl)) then rn (fl + 1) else fl) = IZR q.
  Proof.
    intros q v Hq Hv. destruct (Req_EM_T v 0) as [E|E].
    - f_equal. assert (-1 < q < 1)%Z by (split; apply lt_IZR; lra). lia.
    - cbv zeta. assert (Hh : double (IZR 4 / 8)) by (apply double_eighth; reflexivity). assert (Hh7 : double (IZR 7 / 8)) by (apply double_eighth; reflexivity).
      assert (H0 : double 0) by apply generic_format_0. assert (H1 : double 1) by (apply double_Z; reflexivity).
      destruct (Rle_lt_dec (IZR q) v) as [H|H].
      + rewrite (Zfloor_imp q v) by (rewrite plus_IZR; lra). pose proof (rn_between 0 (IZR 4 / 8) (v - IZR q) H0 Hh ltac:(lra)). destruct (Rlt_dec 0.5 _); [lra|reflexivity].
      + rewrite (Zfloor_imp (q - 1) v) by (rewrite plus_IZR, minus_IZR; lra). rewrite minus_IZR. pose proof (rn_between (IZR 7 / 8) 1 (v - (IZR q - 1)) Hh7 H1 ltac:(lra)).
        destruct (Rlt_dec 0.5 _); [|lra]. replace (IZR q - 1 + 1) with (IZR q) by ring. apply rn_id, double_Z. lia.
  Qed.

  Lemma xor_pos : forall m, xorb (ltb0 a) (ltb0 m) = ltb0 m.
  Proof. intros m. pose proof a_pos. unfold ltb0 at 1. destruct (Rlt_dec a 0); [lra|]. apply Bool.xorb_false_l. Qed.

  (* the exact integer part; the remainder is rounded only when it had to be shifted *)
  Lemma divmod_fl : npy_divmod x a = (IZR (Zfloor (x / a)), if Rle_dec 0 (c_fmod x a) then c_fmod x a else rn (c_fmod x a + a)).
  Proof.
    pose proof a_pos as Hp. unfold npy_divmod. cbv zeta. pose proof quotient_near as HQ. set (d := rn (rn (x - c_fmod x a) / a)) in *. pose proof k_size as Hk.
    destruct (Req_EM_T (c_fmod x a) 0) as [E|E].
    - rewrite snap with (q := k) by (lia || lra). destruct (Rle_dec 0 (c_fmod x a)); [|lra]. rewrite E. f_equal. f_equal.
      symmetry. replace (x / a) with (IZR k). apply Zfloor_IZR. rewrite x_split at 1. rewrite E. field. lra.
    - rewrite xor_pos. unfold ltb0. destruct (Rlt_dec (c_fmod x a) 0) as [H|H].
      + destruct (Rle_dec 0 (c_fmod x a)); [lra|]. assert (Hn : x <= 0) by (destruct (Rle_lt_dec x 0); [assumption|destruct (fmod_nonneg ltac:(lra)); lra]).
        destruct (fmod_nonpos Hn) as [H1 H2]. rewrite snap with (q := (k - 1)%Z).
        * f_equal. f_equal. symmetry. apply Zfloor_imp. rewrite plus_IZR, minus_IZR.
          assert (H4 : x / a = IZR k + c_fmod x a / a) by (rewrite x_split at 1; field; lra). rewrite H4.
          assert (- a * / a < c_fmod x a / a) by (apply Rmult_lt_compat_r; [apply Rinv_0_lt_compat|]; lra). rewrite <- Ropp_mult_distr_l, Rinv_r in H0 by lra.
          assert (c_fmod x a / a < 0 * / a) by (apply Rmult_lt_compat_r; [apply Rinv_0_lt_compat|]; lra). lra.
        * lia.
        * rewrite minus_IZR. assert (HH : IZR (k - 1) - 1 / 8 <= rn (d - 1) <= IZR (k - 1) + 1 / 8) by (apply near_int; [lia|rewrite minus_IZR; lra]). rewrite minus_IZR in HH. exact HH.
      + destruct (Rle_dec 0 (c_fmod x a)); [|lra]. rewrite snap with (q := k) by (lia || lra). f_equal. f_equal.
        assert (Hn : 0 <= x) by (destruct (Rle_lt_dec 0 x); [assumption|destruct (fmod_nonpos ltac:(lra)); lra]). apply (fmod_nonneg Hn).
  Qed.
End Divmod.
