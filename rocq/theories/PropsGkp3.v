(* PropsGkp3.v: C35 with use_hom_val=True.  The value is a probability exactly as long as the
   multiple of sqrt(pi) nearest to the outcome is one of those in the denominator. *)
From Verif Require Import Base GkpModel PropsGkp.
Open Scope R_scope.

Lemma sumR_cons x l : sumR (x :: l) = x + sumR l.
Proof. reflexivity. Qed.
Lemma sumR_perm l l' : Permutation l l' -> sumR l = sumR l'.
Proof. induction 1; rewrite ?sumR_cons in *; lra. Qed.

(* a list of distinct members of D can be completed to a permutation of D *)
Lemma complete_perm (E D : list Z) : NoDup E -> incl E D -> exists rest, Permutation D (E ++ rest).
Proof.
  intros HN. revert D. induction E as [|x E IH]; intros D Hi; [exists D; apply Permutation_refl|].
  apply NoDup_cons_iff in HN. destruct HN as [Hx HN].
  destruct (in_split x D (Hi x (or_introl eq_refl))) as (l1 & l2 & ->).
  destruct (IH HN (l1 ++ l2)) as [rest Hr].
  - intros y Hy. specialize (Hi y (or_intror Hy)). apply in_app_iff in Hi. destruct Hi as [Hi|[Hi|Hi]].
    + apply in_app_iff. left. exact Hi.
    + subst y. contradiction.
    + apply in_app_iff. right. exact Hi.
  - exists rest. apply Permutation_trans with (x :: l1 ++ l2); [apply Permutation_sym, Permutation_middle|].
    apply perm_skip. exact Hr.
Qed.

Lemma sumR_all_le (w : Z -> R) L : forall D, (forall p, 0 <= w p) -> (length L <= length D)%nat -> (forall m p, In m L -> In p D -> w m <= w p) ->
  sumR (map w L) <= sumR (map w D).
Proof.
  induction L as [|m L IH]; intros D Hw Hl H.
  - apply sumR_nonneg. intros x Hx. apply in_map_iff in Hx. destruct Hx as (p & <- & _). apply Hw.
  - destruct D as [|p D]; [simpl in Hl; lia|]. cbn [map]. rewrite !sumR_cons.
    specialize (IH D Hw ltac:(simpl in Hl; lia) (fun m p Hm Hp => H m p (or_intror Hm) (or_intror Hp))).
    specialize (H m p (or_introl eq_refl) (or_introl eq_refl)). lra.
Qed.

Lemma dominated (w : Z -> R) (phi : Z -> Z) L1 L2 D : (forall p, 0 <= w p) ->
  NoDup (map phi L1) -> incl (map phi L1) D -> (length L1 + length L2 <= length D)%nat ->
  (forall m, In m L1 -> w m <= w (phi m)) -> (forall m p, In m L2 -> In p D -> w m <= w p) ->
  sumR (map w L1) + sumR (map w L2) <= sumR (map w D).
Proof.
  intros Hw HN Hi Hl H1 H2. destruct (complete_perm _ D HN Hi) as [rest Hr].
  pose proof (Permutation_length Hr) as HL. rewrite app_length, map_length in HL.
  rewrite (sumR_perm (map w D) (map w (map phi L1 ++ rest))) by (apply Permutation_map; exact Hr).
  rewrite map_app, sumR_app, map_map. apply Rplus_le_compat; [apply sumR_le; exact H1|].
  apply sumR_all_le; [exact Hw|lia|]. intros m p Hm Hp. apply H2; [exact Hm|].
  apply (Permutation_in _ (Permutation_sym Hr)). apply in_app_iff. right. exact Hp.
Qed.

Lemma sum_split (w : Z -> R) b L : sumR (map w L) = sumR (map w (filter (fun m => negb (b m)) L)) + sumR (map w (filter b L)).
Proof.
  induction L as [|m L IH]; [simpl; lra|]. cbn [map filter]. destruct (b m); cbn [negb map]; rewrite !sumR_cons, IH; lra.
Qed.
Lemma length_split {A} (b : A -> bool) L : (length (filter (fun m => negb (b m)) L) + length (filter b L) = length L)%nat.
Proof. induction L as [|m L IH]; [reflexivity|]. cbn [filter length]. destruct (b m); cbn [negb length]; lia. Qed.

(* the purely combinatorial part: multiples of one parity from -2n to 2n against all from -n to n *)
Section Comb.
  Variable (w : Z -> R) (n k c : Z).
  Hypothesis Hw : forall m, 0 <= w m.
  (* w decreases with the distance from a point within 1/2 of k *)
  Hypothesis Hclose : forall m p, ((p <= m /\ 2 * k + 1 <= m + p) \/ (m <= p /\ m + p <= 2 * k - 1))%Z -> w m <= w p.
  Hypothesis Hk : (- n <= k < n)%Z.
  Hypothesis Hc : (c = 1 - k mod 2)%Z.
  Let L := map (fun i => (2 * i + c)%Z) (py_range (- n) n).
  Let D := py_range (- n) n.

  Lemma in_L m : In m L <-> exists i, (m = 2 * i + c /\ - n <= i < n)%Z.
  Proof.
    unfold L. rewrite in_map_iff. split.
    - intros (i & <- & Hi). apply in_py_range in Hi. exists i. split; [reflexivity|exact Hi].
    - intros (i & -> & Hi). exists i. split; [reflexivity|]. apply in_py_range. exact Hi.
  Qed.
  Lemma L_NoDup : NoDup L.
  Proof. unfold L. apply FinFun.Injective_map_NoDup; [intros i j Hij; lia|apply NoDup_py_range]. Qed.
  Lemma LD_length : length L = length D.
  Proof. unfold L, D. apply map_length. Qed.

  Lemma nodup_phi (phi : Z -> Z) (b : Z -> bool) : (forall x y, In x L -> In y L -> b x = true -> b y = true -> phi x = phi y -> x = y) ->
    NoDup (map phi (filter b L)).
  Proof.
    intros H. assert (HN : NoDup (filter b L)) by (apply NoDup_filter, L_NoDup).
    assert (Hs : forall x y, In x (filter b L) -> In y (filter b L) -> phi x = phi y -> x = y).
    { intros x y Hx Hy. apply filter_In in Hx, Hy. destruct Hx, Hy. apply H; assumption. }
    clear H. induction (filter b L) as [|x l IH]; [constructor|]. apply NoDup_cons_iff in HN. destruct HN as [Hx HN].
    cbn [map]. constructor.
    - intros Hin. apply in_map_iff in Hin. destruct Hin as (y & Hy & Hin).
      assert (E : y = x) by (apply Hs; [right; exact Hin|left; reflexivity|exact Hy]). subst y. contradiction.
    - apply IH; [exact HN|]. intros a b' Ha Hb. apply Hs; right; assumption.
  Qed.

  Lemma comb_le : sumR (map w L) <= sumR (map w D).
  Proof.
    destruct (Z_le_gt_dec (2 * k) (n - 1)) as [Ha|Hb]; [destruct (Z_le_gt_dec (- n - 1) (2 * k)) as [Ha'|Hcc]|].
    - (* in the middle: shift by about n *)
      set (cR := (if Z.odd n then n else if (c =? 1)%Z then n + 1 else n - 1)%Z).
      set (cL := (if Z.odd n then n else if (c =? 1)%Z then n - 1 else n + 1)%Z).
      set (phi := fun m => (if n <=? m then m - cR else if m <? - n then m + cL else m)%Z).
      assert (HR : ((n mod 2 = 1 /\ cR = n /\ cL = n) \/ (n mod 2 = 0 /\ c = 1 /\ cR = n + 1 /\ cL = n - 1) \/ (n mod 2 = 0 /\ c = 0 /\ cR = n - 1 /\ cL = n + 1))%Z).
      { unfold cR, cL. rewrite Zodd_mod. destruct (Zeq_bool (n mod 2) 1) eqn:En.
        - apply Zeq_bool_eq in En. left. auto.
        - apply Zeq_bool_neq in En. right. destruct (Z.eqb_spec c 1) as [E|E]; [left|right]; repeat split; lia. }
      clearbody cR cL.
      pose proof (dominated w phi (filter (fun m => negb false) L) (filter (fun m => false) L) D Hw) as Hd.
      rewrite (sum_split w (fun _ => false)). apply Hd; clear Hd.
      + apply nodup_phi. intros x y Hx Hy _ _. apply in_L in Hx, Hy. destruct Hx as (i & -> & Hi), Hy as (j & -> & Hj). unfold phi.
        destruct (Z.leb_spec n (2 * i + c)), (Z.leb_spec n (2 * j + c)), (Z.ltb_spec (2 * i + c) (- n)), (Z.ltb_spec (2 * j + c) (- n)); lia.
      + intros y Hy. apply in_map_iff in Hy. destruct Hy as (m & <- & Hm). apply filter_In in Hm. destruct Hm as [Hm _].
        apply in_L in Hm. destruct Hm as (i & -> & Hi). apply in_py_range. unfold phi.
        destruct (Z.leb_spec n (2 * i + c)), (Z.ltb_spec (2 * i + c) (- n)); lia.
      + rewrite (length_split (fun _ => false)), LD_length. apply le_n.
      + intros m Hm. apply filter_In in Hm. destruct Hm as [Hm _]. apply in_L in Hm. destruct Hm as (i & -> & Hi). unfold phi.
        destruct (Z.leb_spec n (2 * i + c)); [apply Hclose; lia|].
        destruct (Z.ltb_spec (2 * i + c) (- n)); [apply Hclose; lia|apply Rle_refl].
      + intros m p Hm. apply filter_In in Hm. destruct Hm as [_ Hm]. discriminate Hm.
    - (* near the lower end: reflect the multiples below -n *)
      set (b := fun m => (n <=? m)%Z). set (phi := fun m => (if m <? - n then 2 * k - m - 1 else m)%Z).
      pose proof (dominated w phi (filter (fun m => negb (b m)) L) (filter b L) D Hw) as Hd.
      rewrite (sum_split w b). apply Hd; clear Hd; unfold b.
      + apply nodup_phi. intros x y Hx Hy Hbx Hby. apply in_L in Hx, Hy. destruct Hx as (i & -> & Hi), Hy as (j & -> & Hj). unfold phi.
        destruct (Z.leb_spec n (2 * i + c)); [discriminate Hbx|]. destruct (Z.leb_spec n (2 * j + c)); [discriminate Hby|].
        destruct (Z.ltb_spec (2 * i + c) (- n)), (Z.ltb_spec (2 * j + c) (- n)); lia.
      + intros y Hy. apply in_map_iff in Hy. destruct Hy as (m & <- & Hm). apply filter_In in Hm. destruct Hm as [Hm Hbm].
        apply in_L in Hm. destruct Hm as (i & -> & Hi). apply in_py_range. unfold phi.
        destruct (Z.leb_spec n (2 * i + c)); [discriminate Hbm|]. destruct (Z.ltb_spec (2 * i + c) (- n)); lia.
      + pose proof (length_split (fun m => (n <=? m)%Z) L) as HL. rewrite LD_length in HL. rewrite HL. apply le_n.
      + intros m Hm. apply filter_In in Hm. destruct Hm as [Hm Hbm]. apply in_L in Hm. destruct Hm as (i & -> & Hi). unfold phi.
        destruct (Z.ltb_spec (2 * i + c) (- n)); [apply Hclose; lia|apply Rle_refl].
      + intros m p Hm Hp. apply filter_In in Hm. destruct Hm as [_ Hm]. apply Z.leb_le in Hm. apply in_py_range in Hp. apply Hclose. lia.
    - (* near the upper end *)
      set (b := fun m => (m <? - n)%Z). set (phi := fun m => (if n <=? m then 2 * k - m + 1 else m)%Z).
      pose proof (dominated w phi (filter (fun m => negb (b m)) L) (filter b L) D Hw) as Hd.
      rewrite (sum_split w b). apply Hd; clear Hd; unfold b.
      + apply nodup_phi. intros x y Hx Hy Hbx Hby. apply in_L in Hx, Hy. destruct Hx as (i & -> & Hi), Hy as (j & -> & Hj). unfold phi.
        destruct (Z.ltb_spec (2 * i + c) (- n)); [discriminate Hbx|]. destruct (Z.ltb_spec (2 * j + c) (- n)); [discriminate Hby|].
        destruct (Z.leb_spec n (2 * i + c)), (Z.leb_spec n (2 * j + c)); lia.
      + intros y Hy. apply in_map_iff in Hy. destruct Hy as (m & <- & Hm). apply filter_In in Hm. destruct Hm as [Hm Hbm].
        apply in_L in Hm. destruct Hm as (i & -> & Hi). apply in_py_range. unfold phi.
        destruct (Z.ltb_spec (2 * i + c) (- n)); [discriminate Hbm|]. destruct (Z.leb_spec n (2 * i + c)); lia.
      + pose proof (length_split (fun m => (m <? - n)%Z) L) as HL. rewrite LD_length in HL. rewrite HL. apply le_n.
      + intros m Hm. apply filter_In in Hm. destruct Hm as [Hm Hbm]. apply in_L in Hm. destruct Hm as (i & -> & Hi). unfold phi.
        destruct (Z.leb_spec n (2 * i + c)); [apply Hclose; lia|apply Rle_refl].
      + intros m p Hm Hp. apply filter_In in Hm. destruct Hm as [_ Hm]. apply Z.ltb_lt in Hm. apply in_py_range in Hp. apply Hclose. lia.
  Qed.
End Comb.

(* the weight of a multiple does not increase with its distance from the outcome *)
Lemma weight_close expf var f k : exp_like expf -> 0 < var -> - sqrt PI / 2 < f <= sqrt PI / 2 ->
  forall m p, ((p <= m /\ 2 * k + 1 <= m + p) \/ (m <= p /\ m + p <= 2 * k - 1))%Z ->
  ex_val expf (f + IZR k * sqrt PI) var m <= ex_val expf (f + IZR k * sqrt PI) var p.
Proof.
  intros [_ Hm] Hv Hf m p H. unfold ex_val. apply Hm. pose proof spi_pos as Hs. set (s := sqrt PI) in *.
  unfold Rdiv. apply Rmult_le_compat_r; [apply Rlt_le, Rinv_0_lt_compat; assumption|]. apply Ropp_le_contravar.
  assert (E : (f + IZR k * s - IZR m * s) ^ 2 - (f + IZR k * s - IZR p * s) ^ 2 = ((IZR m - IZR p) * s) * ((IZR m + IZR p) * s - 2 * (f + IZR k * s))) by ring.
  assert (Hc : 0 <= ((IZR m - IZR p) * s) * ((IZR m + IZR p) * s - 2 * (f + IZR k * s))); [|lra].
  destruct H as [[H1 H2]|[H1 H2]].
  - apply IZR_le in H1, H2. rewrite !plus_IZR, mult_IZR in H2.
    assert (A : 0 <= (IZR m - IZR p) * s) by (apply Rmult_le_pos; lra).
    assert (B : 0 <= (IZR m + IZR p - 2 * IZR k - 1) * s) by (apply Rmult_le_pos; lra).
    apply Rmult_le_pos; lra.
  - apply IZR_le in H1, H2. rewrite !plus_IZR, minus_IZR, mult_IZR in H2.
    assert (A : 0 <= (IZR p - IZR m) * s) by (apply Rmult_le_pos; lra).
    assert (B : 0 <= (2 * IZR k - 1 - IZR m - IZR p) * s) by (apply Rmult_le_pos; lra).
    replace (((IZR m - IZR p) * s) * ((IZR m + IZR p) * s - 2 * (f + IZR k * s)))
      with (((IZR p - IZR m) * s) * (2 * (f + IZR k * s) - (IZR m + IZR p) * s)) by ring.
    apply Rmult_le_pos; lra.
Qed.

Lemma binner_at f k : - sqrt PI / 2 < f <= sqrt PI / 2 -> GKP_binner (f + IZR k * sqrt PI) = ((k mod 2)%Z, f).
Proof. intros Hf. unfold GKP_binner. rewrite (IF_unique (f + IZR k * sqrt PI) (sqrt PI) k f); [reflexivity|apply spi_pos|lra|lra]. Qed.

(* Every outcome is f + k sqrt(pi) for one multiple k and one f in the half-open interval (C33). *)
Theorem C35_use_hom_val_partial :
  forall expf var f k var_num r, exp_like expf -> 0 < var -> 0 <= r <= 1 ->
  - sqrt PI / 2 < f <= sqrt PI / 2 -> (- var_num <= k < var_num)%Z ->
  exists p, Z_err_cond expf var (f + IZR k * sqrt PI) var_num (RVal r) true = ZNum p /\ 0 <= p <= 1.
Proof.
  intros expf var f k n r He Hv Hr Hf Hk. unfold Z_err_cond, zc_factor, zc_val. cbv zeta. rewrite (binner_at f k Hf). cbn [fst].
  destruct (Req_EM_T _ 0) as [E|E]; [exists r; auto|]. eexists. split; [reflexivity|]. apply ratio_prob; [|exact E]. split.
  - apply sumR_nonneg. intros x Hx. apply in_map_iff in Hx. destruct Hx as (m & <- & _). apply He.
  - unfold zc_num, zc_den.
    rewrite <- (map_map (fun i => (2 * i + (1 - k mod 2))%Z) (ex_val expf (f + IZR k * sqrt PI) var)).
    apply (comb_le _ n k); [intros m; apply He|apply weight_close; assumption|exact Hk|reflexivity].
Qed.
Print Assumptions C35_use_hom_val_partial.

(* What the value is: the weight of the multiples of the wrong parity between -2 var_num and
   2 var_num, divided by the weight of all multiples between -var_num and var_num. *)
Lemma parity_range n c : (0 <= n)%Z -> (c = 0 \/ c = 1)%Z ->
  Permutation (map (fun i => (2 * i + c)%Z) (py_range (- n) n)) (filter (fun m => (m mod 2 =? c)%Z) (py_range (- (2 * n)) (2 * n))).
Proof.
  intros Hn Hc. apply NoDup_Permutation.
  - apply FinFun.Injective_map_NoDup; [intros i j Hij; lia|apply NoDup_py_range].
  - apply NoDup_filter, NoDup_py_range.
  - intros m. rewrite in_map_iff, filter_In, in_py_range, Z.eqb_eq. split.
    + intros (i & <- & Hi). apply in_py_range in Hi. lia.
    + intros [Hm E]. exists (m / 2)%Z. rewrite in_py_range. lia.
Qed.
Theorem C35_use_hom_val_value_partial :
  forall expf var f k var_num replace, (0 <= var_num)%Z -> - sqrt PI / 2 < f <= sqrt PI / 2 ->
  let outcome := f + IZR k * sqrt PI in
  let weight m := expf (- (outcome - IZR m * sqrt PI) ^ 2 / var) in
  let all := sumR (map weight (py_range (- var_num) var_num)) in
  let wrong := sumR (map weight (filter (fun m => negb (Z.even (m - k))) (py_range (- (2 * var_num)) (2 * var_num)))) in
  all <> 0 -> Z_err_cond expf var outcome var_num replace true = ZNum (wrong / all).
Proof.
  intros expf var f k n replace Hn Hf outcome weight all wrong Hall. unfold Z_err_cond, zc_factor, zc_val. cbv zeta.
  rewrite (binner_at f k Hf : GKP_binner outcome = _). cbn [fst].
  change (zc_den expf n outcome var) with all. destruct (Req_EM_T all 0) as [E|_]; [contradiction|].
  do 2 f_equal. unfold zc_num, wrong.
  rewrite <- (map_map (fun i => (2 * i + (1 - k mod 2))%Z) weight). apply sumR_perm, Permutation_map.
  eapply Permutation_trans; [apply parity_range; [exact Hn|lia]|].
  rewrite (filter_ext (fun m => negb (Z.even (m - k))) (fun m => (m mod 2 =? 1 - k mod 2)%Z)); [apply Permutation_refl|]. intros m.
  rewrite Zeven_mod. destruct (Z.eqb_spec (m mod 2) (1 - k mod 2)) as [E|E];
    destruct (Zeq_bool ((m - k) mod 2) 0) eqn:E2; try reflexivity; exfalso.
  - apply Zeq_bool_eq in E2. lia.
  - apply Zeq_bool_neq in E2. lia.
Qed.
Print Assumptions C35_use_hom_val_value_partial.

(* Sharpness: one multiple further the value exceeds 1, for every number of terms (at least two). *)
Theorem C35_use_hom_val_sharp_refuted :
  forall n, (2 <= n)%Z -> exists var p, 0 < var /\ Z_err_cond exp var (IZR n * sqrt PI) n (RVal 0) true = ZNum p /\ 1 < p.
Proof.
  intros n Hn. assert (Hn' : 2 <= IZR n) by (apply (IZR_le 2); exact Hn). set (var := / IZR n). assert (Hv : 0 < var) by (apply Rinv_0_lt_compat; lra).
  set (w := fun m : Z => exp (- (0 + IZR n * sqrt PI - IZR m * sqrt PI) ^ 2 / var)).
  assert (Hw : forall m, w m = exp (- ((IZR (n - m)) ^ 2 * (PI * IZR n)))).
  { intros m. unfold w. f_equal. unfold var. rewrite minus_IZR.
    replace (- (0 + IZR n * sqrt PI - IZR m * sqrt PI) ^ 2 / / IZR n) with (- ((IZR n - IZR m) ^ 2 * (sqrt PI * sqrt PI) * IZR n)) by (field; lra).
    rewrite sqrt_sqrt by (apply Rlt_le, PI_RGT_0). ring. }
  assert (Hpos : forall m, 0 < w m) by (intros m; apply exp_pos).
  pose proof PI_RGT_0 as HP. assert (HPi : 2 < PI) by (pose proof PI2_1; lra). set (x := PI * IZR n) in *.
  assert (Hx : 4 <= x). { unfold x. apply Rle_trans with (2 * 2); [lra|]. apply Rmult_le_compat; lra. }
  assert (Hxn : IZR n * 2 <= x). { unfold x. rewrite Rmult_comm. apply Rmult_le_compat_r; lra. }
  set (all := sumR (map w (py_range (- n) n))).
  set (wrong := sumR (map w (filter (fun m => negb (Z.even (m - n))) (py_range (- (2 * n)) (2 * n))))).
  assert (Hall : all <= exp (- x) + (2 * IZR n) * exp (- (4 * x))).
  { unfold all. assert (Hp : Permutation (py_range (- n) n) ((n - 1)%Z :: py_range (- n) (n - 1))).
    { apply NoDup_Permutation.
      - apply NoDup_py_range.
      - constructor; [rewrite in_py_range; lia|apply NoDup_py_range].
      - intros m. rewrite in_py_range. cbn [In]. rewrite in_py_range. lia. }
    rewrite (sumR_perm _ _ (Permutation_map w Hp)). cbn [map]. rewrite sumR_cons. apply Rplus_le_compat.
    - rewrite Hw. replace (n - (n - 1))%Z with 1%Z by lia. apply exp_exp_like. lra.
    - assert (Hl : forall l b, (forall m, In m l -> w m <= b) -> sumR (map w l) <= INR (length l) * b).
      { induction l as [|m l IH]; intros b Hf; [simpl; lra|]. cbn [map length]. rewrite S_INR, sumR_cons.
        specialize (IH b (fun m Hm => Hf m (or_intror Hm))). specialize (Hf m (or_introl eq_refl)). lra. }
      eapply Rle_trans; [apply (Hl _ (exp (- (4 * x))))|].
      + intros m Hm. apply in_py_range in Hm. rewrite Hw. apply exp_exp_like. apply Ropp_le_contravar. apply Rmult_le_compat_r; [lra|].
        assert (2 <= IZR (n - m)) by (apply (IZR_le 2); lia). replace 4 with (2 ^ 2) by ring. apply pow_incr. lra.
      + apply Rmult_le_compat_r; [apply Rlt_le, exp_pos|]. rewrite length_py_range, INR_IZR_INZ, Z2Nat.id by lia.
        rewrite <- mult_IZR. apply IZR_le. lia. }
  assert (Hwr : 2 * exp (- x) <= wrong).
  { unfold wrong. assert (Hi : incl [(n - 1)%Z; (n + 1)%Z] (filter (fun m => negb (Z.even (m - n))) (py_range (- (2 * n)) (2 * n)))).
    { intros m Hm. apply filter_In. rewrite in_py_range. destruct Hm as [<-|[<-|[]]].
      - split; [lia|]. replace (n - 1 - n)%Z with (-1)%Z by lia. reflexivity.
      - split; [lia|]. replace (n + 1 - n)%Z with 1%Z by lia. reflexivity. }
    destruct (complete_perm [(n - 1)%Z; (n + 1)%Z] _ ltac:(repeat constructor; cbn [In]; lia) Hi) as [rest Hr].
    rewrite (sumR_perm _ _ (Permutation_map w Hr)). cbn [app map]. rewrite !sumR_cons.
    assert (0 <= sumR (map w rest)).
    { apply sumR_nonneg. intros y Hy. apply in_map_iff in Hy. destruct Hy as (m & <- & _). apply Rlt_le, Hpos. }
    rewrite !Hw. replace (n - (n - 1))%Z with 1%Z by lia. replace (n - (n + 1))%Z with (-1)%Z by lia.
    replace (1 ^ 2 * x) with x by ring. replace (IZR (-1) ^ 2 * x) with x by ring. lra. }
  assert (Hlt : all < wrong).
  { eapply Rle_lt_trans; [exact Hall|]. eapply Rlt_le_trans; [|exact Hwr].
    assert (2 * IZR n * exp (- (4 * x)) < exp (- x)); [|lra].
    replace (- x) with (- (4 * x) + 3 * x) by ring. rewrite exp_plus, (Rmult_comm (2 * IZR n)).
    apply Rmult_lt_compat_l; [apply exp_pos|]. pose proof (exp_ineq1 (3 * x)). lra. }
  assert (Ha0 : 0 < all).
  { unfold all. eapply Rlt_le_trans; [apply (Hpos 0%Z)|]. apply sumR_ge; [apply in_py_range; lia|]. intros m. apply Rlt_le, Hpos. }
  exists var, (wrong / all). split; [exact Hv|]. split.
  - pose proof spi_pos as Hs. pose proof (C35_use_hom_val_value_partial exp var 0 n n (RVal 0)) as H. cbv zeta in H.
    rewrite <- (Rplus_0_l (IZR n * sqrt PI)). apply H; [lia|lra|]. change (all <> 0). lra.
  - apply (Rmult_lt_reg_r all); [exact Ha0|]. unfold Rdiv. rewrite Rmult_assoc, Rinv_l by lra. lra.
Qed.
Print Assumptions C35_use_hom_val_sharp_refuted.

(* the default ten terms, an outcome near nine multiples, any variance *)
Example C35_use_hom_val_nonvacuous : exists p, Z_err_cond exp (1/10) (1/3 + IZR 9 * sqrt PI) 10 (RVal 0) true = ZNum p /\ 0 <= p <= 1.
Proof.
  assert (Hs : 1 < sqrt PI) by (rewrite <- sqrt_1; apply sqrt_lt_1; pose proof PI2_1; lra).
  apply C35_use_hom_val_partial; [apply exp_exp_like|lra|lra|lra|lia].
Qed.
