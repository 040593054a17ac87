(* CvMacroReduce.v: the reduction of macronodes, and one trial of CVMacroLayer as a whole. *)
From Coq Require Import String.
From Verif Require Import Base Lattice GkpModel OpsModel EgraphModel EgraphSpec EgraphProofs PropsOps PropsGkp CvModel CvSpec CvProofs CvNoise CvMacroModel CvMacroLists CvMacroSpec CvMacroProofs CvMacroTrial.
Open Scope nat_scope.

Lemma place_ok P i : place P i < 4 /\ pi P (i / 4) (place P i) = i.
Proof.
  unfold place, pi. assert (H : first_pos i (blk P (i / 4)) < List.length (blk P (i / 4)) /\ nth (first_pos i (blk P (i / 4))) (blk P (i / 4)) 0 = i); [|rewrite blk_length in H; exact H]. apply first_pos_in. apply blk_in. pose proof (Nat.div_mod i 4 ltac:(lia)). pose proof (Nat.mod_upper_bound i 4 ltac:(lia)). lia.
Qed.
Lemma place_pi P k a : a < 4 -> place P (pi P k a) = a /\ pi P k a / 4 = k.
Proof.
  intros Ha. destruct (place_ok P (pi P k a)) as [H1 H2]. apply pi_inj in H2; [|assumption|assumption]. destruct H2 as [H2 H3]. split; [exact H3|exact H2].
Qed.

Lemma map_nth_seq {A} (l : list A) d : map (fun k => nth k l d) (seq 0 (List.length l)) = l.
Proof. induction l as [|x l IH]; [reflexivity|]. cbn [List.length seq map nth]. f_equal. rewrite <- seq_shift, map_map. exact IH. Qed.
Lemma red_prob_ext P nbi hp hp' hq hq' expf delta k : (forall k, hp k = hp' k) -> (forall k a, hq k a = hq' k a) -> red_prob P nbi hp hq expf delta k = red_prob P nbi hp' hq' expf delta k.
Proof.
  intros Hp Hq. assert (Hz : forall i, zval P hq i = zval P hq' i) by (intros i; unfold zval; destruct (place P i) as [|[|[|[|]]]]; rewrite ?Hq; reflexivity).
  assert (Ha : forall a, perr_at P nbi hq expf delta k a = perr_at P nbi hq' expf delta k a) by (intros a; unfold perr_at; destruct (nbi _) as [y|]; [destruct (memn y P); rewrite ?Hz|]; reflexivity).
  assert (Hb : forall a, pz P nbi hq k a = pz P nbi hq' k a) by (intros a; unfold pz; destruct (nbi _) as [y|]; [destruct (memn y P); rewrite ?Hz|]; reflexivity).
  unfold red_prob, outcome. rewrite !Ha, !Hb, Hp. reflexivity.
Qed.
Lemma red_bit_ext P nbi hp hp' hq hq' k : (forall k, hp k = hp' k) -> (forall k a, hq k a = hq' k a) -> red_bit P nbi hp hq k = red_bit P nbi hp' hq' k.
Proof.
  intros H1 H2. assert (Z : forall i, zval P hq i = zval P hq' i) by (intros i; unfold zval; rewrite !H2; reflexivity).
  assert (Hz : forall a, pz P nbi hq k a = pz P nbi hq' k a) by (intros a; unfold pz; destruct (nbi (pi P k a)) as [y|]; [rewrite Z|]; reflexivity).
  assert (Hg : forall a, gbit P nbi hq k a = gbit P nbi hq' k a) by (intros a; unfold gbit; destruct (nbi (pi P k a)) as [y|]; [rewrite Z|]; reflexivity).
  unfold red_bit, outcome. rewrite !Hz, !Hg, H1. reflexivity.
Qed.
Section Reduce.
  Variable expf : R -> R.
  Variables (w : cvm) (V : list point) (mic : nat -> point) (nbi : nat -> option nat) (wt : nat -> R).
  Hypothesis L : layout w V mic nbi wt.
  Notation n := (List.length V).
  Variables (P : list nat) (hp : nat -> R) (hq : nat -> nat -> R).
  Notation perm := (perm_of P n).
  Notation at_ i := (v_attr (w_cv w) (mic i)).
  Hypothesis Hstate : forall i, i < 4 * n -> a_state (at_ i) = Some (if memn i P then "p"%string else "GKP"%string).
  Hypothesis Hbody : forall k a, k < n -> a < 4 -> a_body (at_ (pi P k a)) = Some (a + 1).
  Hypothesis Hhp : forall k, k < n -> a_homp (at_ (pi P k 0)) = Some (hp k).
  Hypothesis Hhq : forall k a, k < n -> 1 <= a < 4 -> a_homq (at_ (pi P k a)) = Some (hq k a).
  Lemma body_at i : i < 4 * n -> a_body (at_ i) = Some (place P i + 1).
  Proof.
    intros Hi. destruct (place_ok P i) as [H1 H2]. rewrite <- H2 at 1. apply Hbody; [apply Nat.div_lt_upper_bound; lia|assumption].
  Qed.
  Lemma to_pt_mic i : i < 4 * n -> to_pt (w_cv w) i = Ok (mic i).
  Proof. intros Hi. unfold to_pt. pose proof (ly_mic _ _ _ _ _ L i Hi) as H. unfold node_at in H. rewrite H. reflexivity. Qed.
  Lemma pi_lt k a : k < n -> a < 4 -> pi P k a < 4 * n.
  Proof. intros Hk Ha. pose proof (pi_range P k a Ha). lia. Qed.
  Lemma neighbor_ok k a : k < n -> a < 4 -> neighbor w perm (4 * k) a = Ok (option_map (fun y => (mic y, place P y + 1)) (nbi (pi P k a))).
  Proof.
    intros Hk Ha. unfold neighbor. rewrite perm_nth by assumption. pose proof (pi_lt k a Hk Ha) as Hlt. rewrite to_pt_mic by assumption. cbn [bind]. rewrite (ly_nbr _ _ _ _ _ L _ Hlt).
    destruct (nbi (pi P k a)) as [y|] eqn:E; [|reflexivity]. cbn [option_map]. rewrite body_at by (apply (ly_nbi _ _ _ _ _ L _ _ Hlt E)). reflexivity.
  Qed.
  Lemma hom_fold k l : forall m0, k < n -> (forall i, In i l -> i < 4 * n /\ i / 4 = k) -> NoDup l ->
    exists m, foldR (fun m y => match a_body (v_attr (w_cv w) y) with
                                | None => Err KeyError
                                | Some b => if Nat.eqb b 1 then Ok m else match a_homq (v_attr (w_cv w) y) with None => Err KeyError | Some h => Ok (fun k => if Nat.eqb k b then h else m k) end
                                end) m0 (map mic l) = Ok m /\
      (forall i, In i l -> place P i <> 0 -> m (place P i + 1) = hq k (place P i)) /\ (forall b, (forall i, In i l -> b <> place P i + 1) -> m b = m0 b).
  Proof.
    induction l as [|i l IH]; intros m0 Hk Hl Hn; [exists m0; split; [reflexivity|]; split; [intros i []|reflexivity]|]. apply NoDup_cons_iff in Hn. destruct Hn as [Hi Hn].
    destruct (Hl i (or_introl eq_refl)) as [Hlt Hd]. cbn [map foldR]. rewrite body_at by assumption. destruct (place_ok P i) as [Hp1 Hp2]. rewrite Hd in Hp2.
    assert (Hinj : forall j, In j l -> place P j + 1 <> place P i + 1).
    { intros j Hj E. destruct (Hl j (or_intror Hj)) as [_ Hdj]. destruct (place_ok P j) as [_ Hj2]. rewrite Hdj in Hj2. assert (place P j = place P i) by lia. rewrite H, Hp2 in Hj2. subst j. contradiction. }
    destruct (Nat.eqb_spec (place P i + 1) 1) as [E0|E0].
    - cbn [bind]. destruct (IH m0 Hk (fun j Hj => Hl j (or_intror Hj)) Hn) as (m & E & H1 & H2). exists m. split; [exact E|]. split.
      + intros j [<-|Hj] Hpj; [lia|auto].
      + intros b Hb. apply H2. intros j Hj. apply Hb. right. assumption.
    - rewrite <- Hp2, (Hhq k (place P i)) by (try assumption; lia). cbn [bind].
      destruct (IH (fun k0 => if Nat.eqb k0 (place P i + 1) then hq k (place P i) else m0 k0) Hk (fun j Hj => Hl j (or_intror Hj)) Hn) as (m & E & H1 & H2). rewrite Hp2. exists m. split; [exact E|]. split.
      + intros j [<-|Hj] Hpj; [|auto]. rewrite H2 by (intros j Hj E'; apply (Hinj j Hj); congruence). rewrite Nat.eqb_refl. reflexivity.
      + intros b Hb. rewrite H2 by (intros j Hj; apply Hb; right; assumption). destruct (Nat.eqb_spec b (place P i + 1)); [|reflexivity]. exfalso. apply (Hb i (or_introl eq_refl)). assumption.
  Qed.
  Lemma hom_outcomes_ok y : y < 4 * n -> exists m, hom_outcomes w (Some (mic y)) = Ok m /\ process m (Some (place P y + 1)) = Some (zval P hq y).
  Proof.
    intros Hy. set (k := y / 4). assert (Hk : k < n) by (apply Nat.div_lt_upper_bound; lia). pose proof (Nat.div_mod y 4 ltac:(lia)) as Hd. pose proof (Nat.mod_upper_bound y 4 ltac:(lia)) as Hm. fold k in Hd.
    assert (Hc : centre (w_U w) (mic y) = nth k V (0, 0, 0)%Z) by (pose proof (ly_centre _ _ _ _ _ L k (y mod 4) Hk Hm) as Hc; rewrite <- Hd in Hc; exact Hc).
    unfold hom_outcomes. rewrite Hc, (ly_dict _ _ _ _ _ L k Hk).
    change [mic (4 * k); mic (4 * k + 1); mic (4 * k + 2); mic (4 * k + 3)] with (map mic [4 * k; 4 * k + 1; 4 * k + 2; 4 * k + 3]).
    destruct (hom_fold k [4 * k; 4 * k + 1; 4 * k + 2; 4 * k + 3] (fun _ => 0%R) Hk) as (m & E & H1 & _).
    { intros i Hi. assert (Hi' : exists j, j < 4 /\ i = 4 * k + j) by (simpl in Hi; destruct Hi as [<-|[<-|[<-|[<-|[]]]]]; [exists 0|exists 1|exists 2|exists 3]; lia). destruct Hi' as (j & Hj & ->). split; [lia|]. apply div4. assumption. }
    { repeat constructor; simpl; lia. }
    assert (Hm' : forall a, 1 <= a < 4 -> m (a + 1) = hq k a).
    { intros a Ha. pose proof (pi_range P k a ltac:(lia)) as Hr. destruct (place_pi P k a ltac:(lia)) as [Ep _]. rewrite <- Ep. apply H1; [|lia].
      assert (pi P k a = 4 * k \/ pi P k a = 4 * k + 1 \/ pi P k a = 4 * k + 2 \/ pi P k a = 4 * k + 3) as [->|[->|[->| ->]]] by lia; simpl; auto. }
    exists m. split; [exact E|]. unfold zval. fold k. destruct (place_ok P y) as [Hpl _]. pose proof (Hm' 1 ltac:(lia)) as M1. pose proof (Hm' 2 ltac:(lia)) as M2. pose proof (Hm' 3 ltac:(lia)) as M3. cbn [Nat.add] in M1, M2, M3.
    destruct (place P y) as [|[|[|[|p]]]]; try lia; cbn [Nat.add process]; rewrite ?M1, ?M2, ?M3; reflexivity.
  Qed.
  (* the entries of Z_arr of GKP neighbours *)
  Definition gz (k a : nat) : list R := match nbi (pi P k a) with Some y => if memn y P then [] else [zval P hq y] | None => [] end.
  Definition types (k a : nat) : option string := match nbi (pi P k a) with Some y => Some (if memn y P then "p"%string else "GKP"%string) | None => None end.
  Definition zarr (k a : nat) : option R := match nbi (pi P k a) with Some y => Some (zval P hq y) | None => None end.
  Lemma z_err_wrong var h : z_err expf var h = wrong_bit expf var h.
  Proof. unfold z_err, Z_err_cond, wrong_bit. cbv zeta. change (zc_val true h) with h. change (zc_factor true h) with (1 - fst (GKP_binner h))%Z. change (zc_den expf 10 h var) with (sumR (map (fun n : Z => expf (- (h - IZR n * sqrt PI) ^ 2 / var)%R) (py_range (-10) 10))).
    destruct (Req_EM_T _ 0); reflexivity. Qed.
  Lemma step_ok delta k a perr nump out zs : reduce_step expf delta (perr, nump, out, zs) (types k a, zarr k a) =
    Ok ((if Rlt_dec 0 delta then perr + perr_at P nbi hq expf delta k a else perr)%R, nump + np_at P nbi k a, (out - pz P nbi hq k a)%R, zs ++ gz k a).
  Proof.
    unfold reduce_step, types, zarr, pz, gz, perr_at, np_at. cbn [fst snd]. destruct (nbi (pi P k a)) as [y|].
    - destruct (memn y P); cbn [String.eqb Ascii.eqb Bool.eqb].
      + rewrite app_nil_r, Nat.add_1_r, Rplus_0_r. destruct (Rlt_dec 0 delta); reflexivity.
      + rewrite Nat.add_0_r, Rminus_0_r, z_err_wrong. reflexivity.
    - rewrite app_nil_r, Rminus_0_r, Nat.add_0_r, Rplus_0_r. destruct (Rlt_dec 0 delta); reflexivity.
  Qed.
  Lemma gz_sum k a : fold_right Z.add 0%Z (map (fun z => fst (GKP_binner z)) (gz k a)) = gbit P nbi hq k a.
  Proof. unfold gz, gbit. destruct (nbi (pi P k a)) as [y|]; [|reflexivity]. destruct (memn y P); [reflexivity|]. simpl. lia. Qed.
  Lemma fold_add_app l l' : fold_right Z.add 0%Z (l ++ l') = (fold_right Z.add 0 l + fold_right Z.add 0 l')%Z.
  Proof. induction l as [|x l IH]; simpl; [reflexivity|]. rewrite IH. lia. Qed.
  Lemma red_prob_range delta k : (0 <= red_prob P nbi hp hq expf delta k <= 1 / 2)%R.
  Proof. unfold red_prob. destruct (Rlt_dec 0 delta); [|lra]. split; [apply Rmax_r|]. apply Rmax_lub; [apply Rmin_r|lra]. Qed.
  Lemma reduced_ok k : k < n -> reduced_values expf w perm (4 * k) = Ok (nth k V (0, 0, 0)%Z, red_bit P nbi hp hq k, red_prob P nbi hp hq expf (v_delta (w_cv w)) k).
  Proof.
    intros Hk. unfold reduced_values. cbv zeta. assert (E0 : nth (4 * k) perm 0 = pi P k 0) by (rewrite <- (Nat.add_0_r (4 * k)); apply perm_nth; lia). rewrite E0. rewrite to_pt_mic by (apply pi_lt; lia). cbn [bind].
    rewrite (mapR_total _ (fun a => option_map (fun y => (mic y, place P y + 1)) (nbi (pi P k a)))).
    2: { intros a Ha. apply in_seq in Ha. apply neighbor_ok; lia. }
    cbn [bind]. cbn [seq map].
    assert (Hh : forall a, a < 4 -> exists m, hom_outcomes w (match option_map (fun y => (mic y, place P y + 1)) (nbi (pi P k a)) with Some (y, _) => Some y | None => None end) = Ok m /\
        process m (match option_map (fun y => (mic y, place P y + 1)) (nbi (pi P k a)) with Some (_, b) => Some b | None => None end) = zarr k a).
    { intros a Ha. unfold zarr. destruct (nbi (pi P k a)) as [y|] eqn:E; cbn [option_map].
      - apply hom_outcomes_ok. apply (ly_nbi _ _ _ _ _ L (pi P k a)); [apply pi_lt; assumption|assumption].
      - eexists. split; reflexivity. }
    assert (Ht : forall a, a < 4 -> (match option_map (fun y => (mic y, place P y + 1)) (nbi (pi P k a)) with None => Ok None | Some (y, _) => match a_state (v_attr (w_cv w) y) with Some s => Ok (Some s) | None => Err KeyError end end) = Ok (types k a)).
    { intros a Ha. unfold types. destruct (nbi (pi P k a)) as [y|] eqn:E; cbn [option_map]; [|reflexivity]. rewrite Hstate; [reflexivity|]. apply (ly_nbi _ _ _ _ _ L (pi P k a)); [apply pi_lt; assumption|assumption]. }
    destruct (Hh 0 ltac:(lia)) as (m0 & A0 & B0). destruct (Hh 1 ltac:(lia)) as (m1 & A1 & B1). destruct (Hh 2 ltac:(lia)) as (m2 & A2 & B2). destruct (Hh 3 ltac:(lia)) as (m3 & A3 & B3).
    unfold mapR at 1. rewrite A0. cbn [bind]. rewrite A1. cbn [bind]. rewrite A2. cbn [bind]. rewrite A3. cbn [bind].
    rewrite Hhp by assumption. unfold mapR. rewrite (Ht 0), (Ht 1), (Ht 2), (Ht 3) by lia. cbn [bind]. cbn [combine map fst snd]. rewrite B0, B1, B2, B3. cbn [foldR].
    rewrite !step_ok. cbn [bind]. rewrite !step_ok. cbn [bind]. rewrite !step_ok. cbn [bind]. rewrite !step_ok. cbn [bind].
    rewrite !z_err_wrong. f_equal. f_equal; [f_equal|].
    - pose proof (pi_range P k 0 ltac:(lia)). replace (pi P k 0) with (4 * k + (pi P k 0 - 4 * k)) by lia. apply L; [assumption|lia].
    - unfold red_bit. f_equal. f_equal. cbn [app]. rewrite !map_app, !fold_add_app, !gz_sum. lia.
    - unfold red_prob. cbn [Nat.add]. destruct (Rlt_dec 0 (v_delta (w_cv w))) as [Hpos|Hn].
      + f_equal. f_equal. rewrite Rplus_0_l. reflexivity.
      + rewrite Rmin_left by lra. apply Rmax_left. lra.
  Qed.
End Reduce.

(* ---------------- the whole trial ---------------- *)
Section Whole.
  Variable expf : R -> R.
  Variables (V : list point) (mic : nat -> point) (nbi : nat -> option nat) (wt : nat -> R).
  Notation n := (List.length V).
  Definition macro_live (w0 w : cvm) : Prop := layout w V mic nbi wt /\ live (w_cv w0) (w_cv w).
  Lemma lift_ok {A} w (x : cv * res A) c r : x = (c, r) -> lift_cv w x = (set_cv w c, r).
  Proof. intros ->. reflexivity. Qed.
  Lemma macro_trial_full w0 w d : fresh_layer (w_cv w0) -> macro_live w0 w -> draws_ok (v_N (w_cv w0)) d ->
    let P := trial_p (w_cv w0) d in
    exists w' q, apply_noise_macro expf w d = (w', Ok tt) /\ macro_live w0 w' /\ positions_ok (4 * n) P d q /\ w_rnodes w' = w_rnodes w /\
      (forall i p, node_at (w_cv w0) i p -> a_state (v_attr (w_cv w') p) = Some (if memn i P then "p"%string else "GKP"%string)) /\
      (forall k a, k < n -> a < 4 -> a_body (v_attr (w_cv w') (mic (pi P k a))) = Some (a + 1)) /\
      (forall p, ~ In p V -> w_red w' p = w_red w p) /\
      forall k, k < n -> let r := w_red w' (nth k V (0, 0, 0)%Z) in
        r_state r = Some (if memn (pi P k 0) P then "p"%string else "GKP"%string) /\
        r_bit r = Some (red_bit P nbi (hp_of (w_cv w0) P nbi wt q d) (hq_of (w_cv w0) P q d) k) /\
        r_prob r = Some (red_prob P nbi (hp_of (w_cv w0) P nbi wt q d) (hq_of (w_cv w0) P q d) expf (v_delta (w_cv w0)) k) /\
        a_homp (v_attr (w_cv w') (mic (pi P k 0))) = Some (hp_of (w_cv w0) P nbi wt q d k) /\
        (forall a, 1 <= a < 4 -> a_homq (v_attr (w_cv w') (mic (pi P k a))) = Some (hq_of (w_cv w0) P q d k a)).
  Proof.
    intros HF [HL HLv] HD P. destruct (populate_ok (w_cv w0) (w_cv w) d HF HLv HD) as (c1 & x & G & Ep & HL1 & Es & Ex & Hx & _ & HGn & HG & Hlab). fold P in Ex, HG.
    pose proof (lv_static _ _ HLv) as HS0. pose proof (lv_static _ _ HL1) as HS1. pose proof HS0 as (S01 & _). pose proof HS1 as (S11 & S12 & S13 & S14 & S15 & S16 & S17 & _).
    assert (HSw : static (w_cv w) c1).
    { destruct HS0 as (A1 & A2 & A3 & A4 & A5 & A6 & A7 & A8 & A9), HS1 as (B1 & B2 & B3 & B4 & B5 & B6 & B7 & B8 & B9). repeat split; congruence. }
    unfold apply_noise_macro. rewrite (lift_ok w _ c1 (Ok tt) Ep). cbn [andthen]. set (w1 := set_cv w c1). pose proof (layout_cv w V mic nbi wt c1 HL HSw) as L1. fold w1 in L1.
    change (w_cv w1) with c1 in *. pose proof (ly_N _ _ _ _ _ L1) as EN. change (w_cv w1) with c1 in EN.
    assert (Hnode : forall i, i < 4 * n -> node_at (w_cv w0) i (mic i)). { intros i Hi. apply (static_pts (w_cv w0) c1 _ _ HS1). apply (ly_mic _ _ _ _ _ L1 i Hi). }
    assert (Hlab1 : forall i, i < 4 * n -> a_state (v_attr c1 (mic i)) = Some (if memn i P then "p"%string else "GKP"%string)) by (intros i Hi; rewrite (Hlab i (mic i) (Hnode i Hi)), Ex; reflexivity).
    rewrite (permute_star_inds_ok c1 P n EN (ly_pos _ _ _ _ _ L1)).
    2: { intros i Hi. rewrite EN in Hi. unfold is_gkp, to_pt. pose proof (ly_mic _ _ _ _ _ L1 i Hi) as Hm. unfold node_at in Hm. change (w_cv w1) with c1 in Hm. rewrite Hm. cbn [bind]. rewrite Hlab1 by assumption. destruct (memn i P); reflexivity. }
    (* labels *)
    unfold apply_labels. destruct (label_bodies_ok (perm_of P n) c1 (ly_num _ _ _ _ _ L1) (perm_nodup P n)) as (c2 & E2 & K2 & B2 & _).
    { intros i Hi. apply perm_in in Hi. rewrite EN. assumption. }
    change (w_cv w1) with c1. rewrite (lift_ok w1 _ c2 (Ok tt) E2). cbn [andthen]. set (w2 := set_cv w1 c2). pose proof K2 as (HS2 & Es2 & Hst2). pose proof (layout_cv w1 V mic nbi wt c2 L1 HS2) as L2. fold w2 in L2.
    assert (Hb2 : forall k a, k < n -> a < 4 -> a_body (v_attr c2 (mic (pi P k a))) = Some (a + 1)).
    { intros k a Hk Ha. rewrite (B2 (4 * k + a) (mic (pi P k a))); [f_equal; f_equal; apply div4; assumption|rewrite perm_length; lia|]. rewrite perm_nth by assumption. apply (ly_mic _ _ _ _ _ L1). pose proof (pi_range P k a Ha). lia. }
    assert (Hlab2 : forall i, i < 4 * n -> a_state (v_attr c2 (mic i)) = Some (if memn i P then "p"%string else "GKP"%string)) by (intros i Hi; rewrite Hst2; auto).
    assert (Hkey : forall k, k < n -> centre (w_U w) (mic (pi P k 0)) = nth k V (0, 0, 0)%Z).
    { intros k Hk. pose proof (pi_range P k 0 ltac:(lia)). replace (pi P k 0) with (4 * k + (pi P k 0 - 4 * k)) by lia. apply (ly_centre _ _ _ _ _ HL); [assumption|lia]. }
    destruct (red_loop label_reduced (fun i => centre (w_U w) (mic i)) (fun i r => {| r_state := Some (if memn i P then "p"%string else "GKP"%string); r_bit := r_bit r; r_prob := r_prob r |}) w2 (stars (perm_of P n))) with (w := w2) as (w3 & E3 & R3 & V3 & O3).
    { intros w' i Hi (A1 & A2 & A3 & A4 & A5 & A6). apply in_stars in Hi. destruct Hi as (k & Hk & ->). pose proof (pi_range P k 0 ltac:(lia)) as Hr. unfold label_reduced, to_pt. rewrite A1, A2, A6. change (w_cv w2) with c2. pose proof (ly_mic _ _ _ _ _ L2 (pi P k 0) ltac:(lia)) as Hm. unfold node_at in Hm. change (w_cv w2) with c2 in Hm. rewrite Hm. cbn [bind].
      rewrite Hlab2 by lia. change (w_U w2) with (w_U w). rewrite (proj2 (pmem_In _ _)); [reflexivity|]. rewrite Hkey by assumption. change (w_rnodes w2) with (w_rnodes w). apply (ly_red _ _ _ _ _ HL). apply nth_In. assumption. }
    { rewrite stars_ok, map_map. apply (NoDup_nth _ (0, 0, 0)%Z). rewrite map_length, seq_length. intros i j Hi Hj E.
      rewrite !(nth_indep _ (0, 0, 0)%Z (centre (w_U w) (mic (pi P 0 0)))) in E by (rewrite map_length, seq_length; assumption). rewrite !(map_nth (fun k => centre (w_U w) (mic (pi P k 0)))), !seq_nth, !Nat.add_0_l in E by assumption.
      rewrite !Hkey in E by assumption. apply (proj1 (NoDup_nth V (0, 0, 0)%Z) (ly_V _ _ _ _ _ HL)); assumption. }
    { apply but_red_refl. }
    rewrite E3. cbn [andthen]. pose proof (layout_red w2 w3 V mic nbi wt L2 R3) as L3. assert (C3 : w_cv w3 = c2) by apply R3.
    (* entangling *)
    destruct (entangle_ok w3 V mic nbi wt L3 P x G d) as (q & quads & E4 & Hq & Hquads).
    { rewrite C3, Es2. exact Es. } { rewrite C3, (proj1 HS2), S11. exact Hx. } { rewrite C3, (proj1 HS2), S11. intros i Hi. apply HG in Hi. rewrite Ex. tauto. } { apply HD. }
    rewrite E4. destruct (measure_ok w3 V mic nbi wt L3 P d q quads Hquads) as (c4 & E5 & K5 & B5 & HP5 & HQ5). rewrite (lift_ok w3 _ c4 (Ok tt) E5). cbn [andthen].
    set (w4 := set_cv w3 c4). pose proof K5 as (HS5 & _ & Hst5). pose proof (layout_cv w3 V mic nbi wt c4 L3 HS5) as L4. fold w4 in L4. rewrite C3 in *.
    assert (Hlab4 : forall i, i < 4 * n -> a_state (v_attr (w_cv w4) (mic i)) = Some (if memn i P then "p"%string else "GKP"%string)) by (intros i Hi; change (w_cv w4) with c4; rewrite Hst5; auto).
    assert (Hb4 : forall k a, k < n -> a < 4 -> a_body (v_attr (w_cv w4) (mic (pi P k a))) = Some (a + 1)) by (intros k a Hk Ha; change (w_cv w4) with c4; rewrite B5; auto).
    set (hp := hp_of c2 P nbi wt q d) in *. set (hq := hq_of c2 P q d) in *.
    pose proof (fun k => reduced_ok expf w4 V mic nbi wt L4 P hp hq Hlab4 Hb4 HP5 HQ5 k) as Hred.
    (* reduction *)
    set (val := fun (j : nat) (r : rattrs) => match reduced_values expf w4 (perm_of P n) j with Ok (_, b, p) => {| r_state := r_state r; r_bit := Some b; r_prob := Some p |} | Err _ => r end).
    assert (EN4 : v_N (w_cv w4) = 4 * n) by apply L4. assert (E4n : v_N (w_cv w4) / 4 = n) by (rewrite EN4, Nat.mul_comm; apply Nat.div_mul; lia).
    destruct (red_loop (reduce_macronode expf (perm_of P n)) (fun j => nth (j / 4) V (0, 0, 0)%Z) val w4 (macro_starts (v_N (w_cv w4)))) with (w := w4) as (w5 & E6 & R6 & V6 & O6).
    { intros w' j Hj (A1 & A2 & A3 & A4 & A5 & A6). unfold macro_starts in Hj. rewrite E4n in Hj. apply in_map_iff in Hj. destruct Hj as (k & <- & Hk). apply in_seq in Hk. pose proof (Hred k ltac:(lia)) as Er.
      unfold reduce_macronode. assert (Er' : reduced_values expf w' (perm_of P n) (4 * k) = reduced_values expf w4 (perm_of P n) (4 * k)) by (unfold reduced_values, neighbor, hom_outcomes; rewrite A1, A2, A3, A4; reflexivity).
      rewrite Er', Er, A6. rewrite (proj2 (pmem_In _ _)) by (apply (ly_red _ _ _ _ _ L4); apply nth_In; lia). replace (4 * k / 4) with k by (symmetry; rewrite Nat.mul_comm; apply Nat.div_mul; lia).
      unfold val. rewrite Er. reflexivity. }
    { unfold macro_starts. rewrite E4n, map_map. assert (EV : map (fun x => nth (4 * x / 4) V (0, 0, 0)%Z) (seq 0 n) = V); [|rewrite EV; exact (ly_V _ _ _ _ _ HL)].
      rewrite <- (map_nth_seq V (0, 0, 0)%Z) at 2. apply map_ext. intros k. f_equal. rewrite Nat.mul_comm. apply Nat.div_mul. lia. }
    { apply but_red_refl. }
    exists w5, q. split; [exact E6|]. assert (C5 : w_cv w5 = c4) by apply R6.
    assert (Hsig : forall i, sigma c2 i = sigma (w_cv w0) i). { intros i. destruct HS2 as (_ & _ & _ & T4 & T5 & _). unfold sigma. rewrite T4, T5, S14, S15. reflexivity. }
    assert (Hdel : v_delta c4 = v_delta (w_cv w0)) by (destruct HS5 as (_ & _ & _ & _ & D5 & _), HS2 as (_ & _ & _ & _ & D2 & _); congruence).
    assert (Hhpe : forall k, hp k = hp_of (w_cv w0) P nbi wt q d k) by (intros; unfold hp, hp_of, nu; rewrite !Hsig; reflexivity).
    assert (Hhqe : forall k a, hq k a = hq_of (w_cv w0) P q d k a) by (intros; unfold hq, hq_of, nu; rewrite !Hsig; reflexivity).
    split; [|split; [|split; [|split; [|split; [|split]]]]].
    - split; [apply (layout_red w4 w5); assumption|]. rewrite C5. apply (live_kept (w_cv w0) c1); [assumption|]. apply (same_states_trans c1 c2 c4); assumption.
    - rewrite <- Ex. rewrite <- (ly_N _ _ _ _ _ L3), C3. exact Hq.
    - destruct R6 as (_ & _ & _ & _ & _ & ->). change (w_rnodes w4) with (w_rnodes w3). destruct R3 as (_ & _ & _ & _ & _ & ->). reflexivity.
    - intros i p Hp. rewrite C5, Hst5, Hst2, (Hlab i p Hp), Ex. reflexivity.
    - intros k a Hk Ha. rewrite C5. apply Hb4; assumption.
    - intros p Hp. rewrite O6.
      + change (w_red w4) with (w_red w3). rewrite O3; [reflexivity|]. intros H. apply in_map_iff in H. destruct H as (i & <- & Hi). apply in_stars in Hi. destruct Hi as (k & Hk & ->). apply Hp. rewrite Hkey by assumption. apply nth_In. assumption.
      + intros H. apply in_map_iff in H. destruct H as (j & <- & Hj). unfold macro_starts in Hj. rewrite E4n in Hj. apply in_map_iff in Hj. destruct Hj as (k & <- & Hk). apply in_seq in Hk. apply Hp. apply nth_In. rewrite Nat.mul_comm, Nat.div_mul by lia. lia.
    - intros k Hk. set (r := w_red w5 (nth k V (0%Z, 0%Z, 0%Z))). pose proof (Hred k Hk) as Er. assert (Ek : 4 * k / 4 = k) by (rewrite Nat.mul_comm; apply Nat.div_mul; lia).
      assert (Hr : r = val (4 * k) (w_red w4 (nth k V (0, 0, 0)%Z))).
      { unfold r. specialize (V6 (4 * k)). rewrite Ek in V6. apply V6. unfold macro_starts. rewrite E4n. apply in_map_iff. exists k. split; [reflexivity|apply in_seq; lia]. }
      rewrite Hr. unfold val. rewrite Er. cbn [r_state r_bit r_prob]. split; [|split].
      + change (w_red w4) with (w_red w3). pose proof (V3 (pi P k 0)) as V3'. rewrite Hkey in V3' by assumption. rewrite V3'; [reflexivity|]. apply in_stars. exists k. auto.
      + f_equal. apply red_bit_ext; intros; [apply Hhpe|apply Hhqe].
      + split; [|split].
        * f_equal. change (v_delta (w_cv w4)) with (v_delta c4). rewrite Hdel. apply red_prob_ext; intros; [apply Hhpe|apply Hhqe].
        * rewrite C5. change c4 with (w_cv w4). rewrite HP5 by assumption. f_equal. apply Hhpe.
        * intros a Ha. rewrite C5. change c4 with (w_cv w4). rewrite HQ5 by assumption. f_equal. apply Hhqe.
  Qed.
  Lemma macro_trial w0 w d : fresh_layer (w_cv w0) -> macro_live w0 w -> draws_ok (v_N (w_cv w0)) d ->
    let P := trial_p (w_cv w0) d in
    exists w' q, apply_noise_macro expf w d = (w', Ok tt) /\ macro_live w0 w' /\ positions_ok (4 * n) P d q /\ w_rnodes w' = w_rnodes w /\
      (forall i p, node_at (w_cv w0) i p -> a_state (v_attr (w_cv w') p) = Some (if memn i P then "p"%string else "GKP"%string)) /\
      (forall k a, k < n -> a < 4 -> a_body (v_attr (w_cv w') (mic (pi P k a))) = Some (a + 1)) /\
      (forall p, ~ In p V -> w_red w' p = w_red w p) /\
      forall k, k < n -> let r := w_red w' (nth k V (0, 0, 0)%Z) in
        r_state r = Some (if memn (pi P k 0) P then "p"%string else "GKP"%string) /\
        r_bit r = Some (red_bit P nbi (hp_of (w_cv w0) P nbi wt q d) (hq_of (w_cv w0) P q d) k) /\ exists p, r_prob r = Some p /\ (0 <= p <= 1 / 2)%R.
  Proof.
    intros HF HL HD P. destruct (macro_trial_full w0 w d HF HL HD) as (w' & q & H1 & H2 & H3 & H4 & H5 & H6 & H7 & H8). exists w', q. do 7 (split; [assumption|]).
    intros k Hk. destruct (H8 k Hk) as (K1 & K2 & K3 & _). split; [exact K1|]. split; [exact K2|]. eexists. split; [exact K3|]. apply red_prob_range.
  Qed.
End Whole.
