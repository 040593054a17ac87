(* CvMacroMath.v: what the reduction computes. *)
From Coq Require Import String Lra.
From Verif Require Import Base Lattice GkpModel OpsModel EgraphModel PropsOps PropsGkp CvModel CvSpec CvProofs CvNoise CvMacroModel CvMacroLists CvMacroSpec CvMacroProofs CvMacroTrial CvMacroReduce.
Open Scope nat_scope.

Lemma binner_shift n x : fst (GKP_binner (IZR n * sqrt PI + x)) = ((n + fst (GKP_binner x)) mod 2)%Z.
Proof.
  destruct (C34_binning_partial x) as ((k & Hk & E1 & _) & _). rewrite E1. unfold GKP_binner.
  rewrite (IF_unique (IZR n * sqrt PI + x) (sqrt PI) (n + k) (x - IZR k * sqrt PI)); [|apply spi_pos|rewrite plus_IZR; lra|lra]. cbn [fst]. rewrite Zplus_mod_idemp_r. reflexivity.
Qed.
Lemma binner_range x : fst (GKP_binner x) = 0%Z \/ fst (GKP_binner x) = 1%Z.
Proof. unfold GKP_binner. cbn [fst]. pose proof (Z.mod_pos_bound (fst (integer_fractional x (sqrt PI))) 2). lia. Qed.
Lemma binner_small x : (- sqrt PI / 2 < x < sqrt PI / 2)%R -> fst (GKP_binner x) = 0%Z.
Proof. intros H. destruct (C34_binning_partial x) as (_ & _ & _ & _ & H1 & _). apply H1. exact H. Qed.
Lemma binner_mult b : b = 0%Z \/ b = 1%Z -> fst (GKP_binner (IZR b * sqrt PI)) = b.
Proof. intros H. rewrite <- (Rplus_0_r (IZR b * sqrt PI)), binner_shift, binner_small by (pose proof spi_pos; lra). destruct H; subst; reflexivity. Qed.

Section Math.
  Variables (c : cv) (n : nat) (P : list nat) (nbi : nat -> option nat) (wt q : nat -> R) (d : draws).
  Hypothesis Hw : forall i y, i < 4 * n -> nbi i = Some y -> y < 4 * n /\ (wt i = 1%R \/ (wt i = (-1)%R /\ ~ In y P)).
  Hypothesis Hq : positions_ok (4 * n) P d q.
  Hypothesis Hbit : forall k, d_bit d k = 0%Z \/ d_bit d k = 1%Z.
  Hypothesis Hstar : forall k, k < n -> ~ In (pi P k 0) P.
  Definition qbit (i : nat) : Z := fst (GKP_binner (q i)).
  Lemma qbit_ok i : i < 4 * n -> ~ In i P -> q i = (IZR (qbit i) * sqrt PI)%R.
  Proof. intros Hi Hp. destruct (proj1 Hq i Hi Hp) as (b & Hb & E). unfold qbit. rewrite E, binner_mult; [reflexivity|]. destruct Hb as [Hb|(k & ->)]; auto. Qed.
  Definition sbit (k : nat) : Z := qbit (pi P k 0).
  Lemma star_ok k : k < n -> q (pi P k 0) = (IZR (sbit k) * sqrt PI)%R.
  Proof. intros Hk. apply qbit_ok; [|apply Hstar; assumption]. pose proof (pi_range P k 0 ltac:(lia)). lia. Qed.
  Definition nb_sbit (k a : nat) : Z := match nbi (pi P k a) with Some y => sbit (y / 4) | None => 0%Z end.
  Lemma zval_ok y : zval P (hq_of c P q d) y = (q y - q (pi P (y / 4) 0) + znoise c P d y)%R.
  Proof using Type.
    clear Hw Hq Hbit Hstar nbi wt n.
    destruct (place_ok P y) as [Hp E]. unfold zval, znoise, hq_of. destruct (place P y) as [|[|[|[|x]]]]; [idtac| | | |lia]; cbv iota beta.
    - rewrite E. lra.
    - replace (q y) with (q (pi P (y / 4) 1)) by (rewrite E; reflexivity). lra.
    - replace (q y) with (q (pi P (y / 4) 2)) by (rewrite E; reflexivity). lra.
    - replace (q y) with (q (pi P (y / 4) 3)) by (rewrite E; reflexivity). lra.
  Qed.
  Lemma one_arm k a : k < n -> a < 4 -> exists o,
    (kick nbi wt q (pi P k a) - pz P nbi (hq_of c P q d) k a = IZR o * sqrt PI - pnoise c P nbi d k a)%R /\
    ((o + gbit P nbi (hq_of c P q d) k a) mod 2 = (nb_sbit k a + gnoise c P nbi d k a) mod 2)%Z.
  Proof.
    intros Hk Ha. pose proof (pi_range P k a Ha) as Hr. unfold kick, pz, gbit, pnoise, gnoise, nb_sbit. destruct (nbi (pi P k a)) as [y|] eqn:E; [|exists 0%Z; split; [lra|reflexivity]].
    destruct (Hw (pi P k a) y ltac:(lia) E) as [Hy Hwt]. assert (Hk' : y / 4 < n) by (apply Nat.div_lt_upper_bound; lia). rewrite !zval_ok, (star_ok (y / 4) Hk'). destruct (memn y P) eqn:Em.
    - assert (Hin : In y P) by (apply memn_In; assumption). destruct Hwt as [->|[_ Hn]]; [|contradiction]. exists (sbit (y / 4)). split; [lra|reflexivity].
    - assert (Hin : ~ In y P) by (intros H; apply memn_In in H; congruence). rewrite (qbit_ok y Hy Hin).
      replace (IZR (qbit y) * sqrt PI - IZR (sbit (y / 4)) * sqrt PI + znoise c P d y)%R with (IZR (qbit y - sbit (y / 4)) * sqrt PI + znoise c P d y)%R by (rewrite minus_IZR; lra). rewrite binner_shift.
      destruct Hwt as [->|[-> _]].
      + exists (qbit y). split; [lra|]. rewrite Zplus_mod_idemp_r. replace (qbit y + (qbit y - sbit (y / 4) + fst (GKP_binner (znoise c P d y))))%Z with (sbit (y / 4) + fst (GKP_binner (znoise c P d y)) + (qbit y - sbit (y / 4)) * 2)%Z by lia. apply Z_mod_plus_full.
      + exists (- qbit y)%Z. split; [rewrite opp_IZR; lra|]. rewrite Zplus_mod_idemp_r. replace (- qbit y + (qbit y - sbit (y / 4) + fst (GKP_binner (znoise c P d y))))%Z with (sbit (y / 4) + fst (GKP_binner (znoise c P d y)) + (- sbit (y / 4)) * 2)%Z by lia. apply Z_mod_plus_full.
  Qed.
  Lemma red_bit_ok k : k < n -> red_bit P nbi (hp_of c P nbi wt q d) (hq_of c P q d) k = ((nb_sbit k 0 + nb_sbit k 1 + nb_sbit k 2 + nb_sbit k 3 + noise_bit c P nbi d k) mod 2)%Z.
  Proof.
    intros Hk. destruct (one_arm k 0 Hk ltac:(lia)) as (o0 & A0 & B0). destruct (one_arm k 1 Hk ltac:(lia)) as (o1 & A1 & B1). destruct (one_arm k 2 Hk ltac:(lia)) as (o2 & A2 & B2). destruct (one_arm k 3 Hk ltac:(lia)) as (o3 & A3 & B3).
    unfold red_bit, outcome. set (hq := hq_of c P q d) in *.
    replace (2 * hp_of c P nbi wt q d k - pz P nbi hq k 0 - pz P nbi hq k 1 - pz P nbi hq k 2 - pz P nbi hq k 3)%R
      with (IZR (o0 + o1 + o2 + o3) * sqrt PI + (2 * nu c P d k 0 - pnoise c P nbi d k 0 - pnoise c P nbi d k 1 - pnoise c P nbi d k 2 - pnoise c P nbi d k 3))%R.
    2: { rewrite !plus_IZR. unfold hp_of. lra. }
    rewrite binner_shift. unfold noise_bit. rewrite Zplus_mod_idemp_l.
    set (g0 := gbit P nbi hq k 0) in *. set (g1 := gbit P nbi hq k 1) in *. set (g2 := gbit P nbi hq k 2) in *. set (g3 := gbit P nbi hq k 3) in *. set (N := fst (GKP_binner _)). clearbody g0 g1 g2 g3 N. clear - B0 B1 B2 B3. lia.
  Qed.
End Math.
(* small noise in a macronode and in those of its neighbours *)
Lemma noise_local c n P nbi d k : (forall i y, i < 4 * n -> nbi i = Some y -> y < 4 * n) -> k < n ->
  (forall a, a < 4 -> (Rabs (nu c P d k a) < sqrt PI / 20)%R) ->
  (forall i y a, 4 * k <= i < 4 * k + 4 -> nbi i = Some y -> a < 4 -> (Rabs (nu c P d (y / 4) a) < sqrt PI / 20)%R) -> noise_bit c P nbi d k = 0%Z.
Proof.
  intros Hn Hk Hs Hsn. pose proof spi_pos as Hp.
  assert (Hz : forall i y, 4 * k <= i < 4 * k + 4 -> nbi i = Some y -> (- sqrt PI / 10 < znoise c P d y < sqrt PI / 10)%R).
  { intros i y Hi Hy. pose proof (Rabs_def2 _ _ (Hsn i y 1 Hi Hy ltac:(lia))). pose proof (Rabs_def2 _ _ (Hsn i y 2 Hi Hy ltac:(lia))). pose proof (Rabs_def2 _ _ (Hsn i y 3 Hi Hy ltac:(lia))). unfold znoise. destruct (place P y) as [|[|[|[|x]]]]; lra. }
  assert (Hpn : forall a, a < 4 -> (- sqrt PI / 10 < pnoise c P nbi d k a < sqrt PI / 10)%R).
  { intros a Ha. unfold pnoise. destruct (nbi (pi P k a)) as [y|] eqn:E; [|lra]. destruct (memn y P); [|lra]. apply (Hz (pi P k a)); [|assumption]. pose proof (pi_range P k a Ha). lia. }
  assert (Hgn : forall a, a < 4 -> gnoise c P nbi d k a = 0%Z).
  { intros a Ha. unfold gnoise. destruct (nbi (pi P k a)) as [y|] eqn:E; [|reflexivity]. destruct (memn y P); [reflexivity|]. apply binner_small. pose proof (pi_range P k a Ha). specialize (Hz (pi P k a) y ltac:(lia) E). lra. }
  unfold noise_bit. rewrite !Hgn by lia. rewrite binner_small; [reflexivity|]. pose proof (Rabs_def2 _ _ (Hs 0 ltac:(lia))). pose proof (Hpn 0 ltac:(lia)). pose proof (Hpn 1 ltac:(lia)). pose proof (Hpn 2 ltac:(lia)). pose proof (Hpn 3 ltac:(lia)). lra.
Qed.

(* a single p-squeezed micronode y behind an edge of weight -1, no noise, all GKP states at position 0 *)
Lemma negative_arm c n nbi wt q d x y : x < 4 * n -> y < 4 * n -> nbi x = Some y -> (forall i, i < 4 * n -> nbi i = Some y -> i = x) -> wt x = (-1)%R ->
  (forall i, i < 4 * n -> i <> y -> q i = 0%R) -> q y = (sqrt PI / 2)%R -> (forall k a, nu c [y] d k a = 0%R) -> (forall i i', i < 4 * n -> nbi i = Some i' -> i' < 4 * n) ->
  forall k, k < n -> red_bit [y] nbi (hp_of c [y] nbi wt q d) (hq_of c [y] q d) k = if Nat.eqb k (x / 4) then 1%Z else 0%Z.
Proof.
  intros Hx Hy Ex Hu Hw Hq0 Hqy Hn Hnb k Hk. set (P := [y]).
  assert (Hstar : forall k, k < n -> q (pi P k 0) = 0%R).
  { intros k0 Hk0. pose proof (pi_range P k0 0 ltac:(lia)) as Hr. apply Hq0; [lia|]. intros E. assert (Hi : In (pi P k0 0) P) by (left; symmetry; assumption). rewrite (proj1 (star_spec P k0)) in Hi. pose proof (Hi 0 ltac:(lia)) as [H0|[]]. pose proof (Hi 1 ltac:(lia)) as [H1|[]]. lia. }
  assert (Hz : forall i, i < 4 * n -> zval P (hq_of c P q d) i = q i).
  { intros i Hi. rewrite zval_ok. rewrite Hstar by (apply Nat.div_lt_upper_bound; lia). unfold znoise. fold P in Hn. rewrite !Hn. destruct (place P i) as [|[|[|[|]]]]; lra. }
  assert (Harm : forall a, a < 4 -> (kick nbi wt q (pi P k a) - pz P nbi (hq_of c P q d) k a = if Nat.eqb (pi P k a) x then - sqrt PI else 0)%R /\ gbit P nbi (hq_of c P q d) k a = 0%Z).
  { intros a Ha. pose proof (pi_range P k a Ha) as Hr. unfold kick, pz, gbit. destruct (nbi (pi P k a)) as [i|] eqn:E.
    - pose proof (Hnb (pi P k a) i ltac:(lia) E) as Hi. rewrite Hz by assumption. destruct (Nat.eq_dec i y) as [->|Hne].
      + assert (E' : pi P k a = x) by (apply Hu; [lia|assumption]). rewrite E', Nat.eqb_refl, Hw, Hqy. unfold P at 1 2. unfold memn. cbn [existsb]. rewrite Nat.eqb_refl. cbn [orb]. split; [lra|reflexivity].
      + assert (Em : memn i P = false) by (apply memn_false; intros [H|[]]; congruence). rewrite Em, (Hq0 i Hi Hne). split.
        * destruct (Nat.eqb_spec (pi P k a) x) as [E'|_]; [|lra]. rewrite E' in E. congruence.
        * apply binner_small. pose proof spi_pos. lra.
    - split; [|reflexivity]. destruct (Nat.eqb_spec (pi P k a) x) as [E'|_]; [|lra]. rewrite E' in E. congruence. }
  destruct (Harm 0 ltac:(lia)) as [A0 B0]. destruct (Harm 1 ltac:(lia)) as [A1 B1]. destruct (Harm 2 ltac:(lia)) as [A2 B2]. destruct (Harm 3 ltac:(lia)) as [A3 B3].
  unfold red_bit, outcome. fold P. rewrite B0, B1, B2, B3.
  set (S := fun a => if Nat.eqb (pi P k a) x then 1%Z else 0%Z).
  assert (ES : forall a, (if Nat.eqb (pi P k a) x then - sqrt PI else 0)%R = (IZR (- S a) * sqrt PI)%R) by (intros a; unfold S; cbv beta; destruct (Nat.eqb (pi P k a) x); cbn [Z.opp]; lra).
  replace (2 * hp_of c P nbi wt q d k - pz P nbi (hq_of c P q d) k 0 - pz P nbi (hq_of c P q d) k 1 - pz P nbi (hq_of c P q d) k 2 - pz P nbi (hq_of c P q d) k 3)%R with (IZR (- (S 0%nat + S 1%nat + S 2%nat + S 3%nat)) * sqrt PI + 0)%R.
  2: { rewrite ES in A0, A1, A2, A3. rewrite opp_IZR, !plus_IZR. rewrite opp_IZR in A0, A1, A2, A3. unfold hp_of. change [y] with P in Hn. rewrite Hn. set (k0 := kick nbi wt q (pi P k 0)) in *. set (k1 := kick nbi wt q (pi P k 1)) in *. set (k2 := kick nbi wt q (pi P k 2)) in *. set (k3 := kick nbi wt q (pi P k 3)) in *. lra. }
  rewrite binner_shift, binner_small by (pose proof spi_pos; lra). cbn [Z.add]. rewrite !Z.add_0_r, Zmod_mod.
  assert (HS : (S 0%nat + S 1%nat + S 2%nat + S 3%nat)%Z = if Nat.eqb k (x / 4) then 1%Z else 0%Z); [|rewrite HS; destruct (Nat.eqb k (x / 4)); reflexivity].
  unfold S. pose proof (Nat.div_mod x 4 ltac:(lia)) as Hd. pose proof (Nat.mod_upper_bound x 4 ltac:(lia)) as Hm. destruct (Nat.eqb_spec k (x / 4)) as [Ek|Ek].
  - destruct (pi_surj P k (x mod 4) Hm) as (a & Ha & Ea). rewrite <- Ek in Hd. rewrite <- Hd in Ea.
    assert (Hi : forall a', a' < 4 -> Nat.eqb (pi P k a') x = Nat.eqb a' a). { intros a' Ha'. destruct (Nat.eqb_spec (pi P k a') x) as [E|E]; destruct (Nat.eqb_spec a' a) as [E'|E']; try reflexivity; [|subst; congruence]. rewrite <- Ea in E. apply pi_inj in E; [|assumption|assumption]. lia. }
    rewrite !Hi by lia. destruct a as [|[|[|[|a]]]]; [reflexivity|reflexivity|reflexivity|reflexivity|lia].
  - assert (Hi : forall a', a' < 4 -> Nat.eqb (pi P k a') x = false). { intros a' Ha'. apply Nat.eqb_neq. intros E. pose proof (pi_range P k a' Ha'). apply Ek. apply (Nat.div_unique x 4 k (x - 4 * k)); lia. }
    rewrite !Hi by lia. reflexivity.
Qed.
