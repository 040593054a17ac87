(* PropsMacroValues.v: C66, the bits and error probabilities that CVMacroLayer leaves on the code, from the homodyne values it has recorded. *)
From Coq Require Import String.
From Verif Require Import Base Lattice RhgModel RhgSpec RhgProofs RhgDegree SurfaceModel SurfaceSpec SurfaceProofs SurfaceIncidence SurfaceTheorems PropsSurface
  GkpModel OpsModel EgraphModel EgraphSpec EgraphProofs EgraphInv PropsEgraph MacroModel MacroSpec MacroMain PropsMacro PropsGkp
  CvModel CvSpec CvProofs PropsCv CvSurface CvMacroModel CvMacroLists CvMacroSpec CvMacroProofs CvMacroTrial CvMacroReduce CvMacroMath CvMacroSurface CvMacroInit CvMacroCode CvMacroGauge PropsCvMacro.
Open Scope nat_scope.

Definition joined (w : cvm) (x y : point) : Prop := exists z, In (x, y, z) (w_edges w) \/ In (y, x, z) (w_edges w).
Definition body (w : cvm) (x : point) : option nat := a_body (v_attr (w_cv w) x).
Definition state_of (w : cvm) (x : point) : option string := a_state (v_attr (w_cv w) x).
(* what the macronode l of micronode y, with the position outcomes h2, h3, h4 at the body indices 2, 3, 4, tells about y *)
Definition told (w : cvm) (y : point) (r : R) : Prop :=
  exists u l x2 x3 x4 h2 h3 h4, In (u, l) (w_dict w) /\ In y l /\ In x2 l /\ In x3 l /\ In x4 l /\
    body w x2 = Some 2 /\ body w x3 = Some 3 /\ body w x4 = Some 4 /\
    a_homq (v_attr (w_cv w) x2) = Some h2 /\ a_homq (v_attr (w_cv w) x3) = Some h3 /\ a_homq (v_attr (w_cv w) x4) = Some h4 /\
    ((body w y = Some 1 /\ r = 0%R) \/ (body w y = Some 2 /\ r = (h2 - h4)%R) \/ (body w y = Some 3 /\ r = (h3 - h4)%R) \/ (body w y = Some 4 /\ r = (h2 + h3)%R)).
Definition total (l : list R) : R := fold_right Rplus 0%R l.
Definition bits (l : list R) : Z := fold_right Z.add 0%Z (map (fun z => fst (GKP_binner z)) l).

(* the reduced values of the vertex v: l are the micronodes of v, x0 is its star (body index 1) and h0 the momentum outcome of x0; ys are
   the micronodes joined to those of v, and z y is what y's macronode tells about y.  The p-squeezed among ys correct the outcome by z y;
   each GKP state among them adds the binned z y to the bit, and its own error probability, with variance 2 delta, to the probability; the
   outcome itself has variance 2 (2 + number of p-squeezed among ys) delta. *)
Definition reduced_node (expf : R -> R) (delta : R) (w' : cvm) (v : point) : Prop := exists l x0 h0 ys z,
  In (v, l) (w_dict w') /\ List.length l = 4 /\ In x0 l /\ body w' x0 = Some 1 /\ a_homp (v_attr (w_cv w') x0) = Some h0 /\
  NoDup ys /\ (forall y, In y ys <-> exists x, In x l /\ joined w' x y) /\
  (forall y, In y ys -> told w' y (z y) /\ (state_of w' y = Some "p"%string \/ state_of w' y = Some "GKP"%string)) /\
  let ps := map z (filter (state_is w' "p") ys) in
  let gs := map z (filter (state_is w' "GKP") ys) in
  let outcome := (2 * h0 - total ps)%R in
  (state_of w' x0 = Some "p"%string \/ state_of w' x0 = Some "GKP"%string) /\ r_state (w_red w' v) = state_of w' x0 /\
  r_bit (w_red w' v) = Some ((fst (GKP_binner outcome) + bits gs) mod 2)%Z /\
  r_prob (w_red w' v) = Some (if Rlt_dec 0 delta
    then Rmax (Rmin (total (map (wrong_bit expf (2 * delta)) gs) + wrong_bit expf (2 * (2 + INR (List.length ps)) * delta) outcome) (1 / 2)) 0 else 0%R).

Lemma macro_values_step D e b pol c es perf states p_swap a0 r0 delta trans expf : macro_input D e b pol c es perf states p_swap ->
  exists m w, macro_layer e b c es perf a0 r0 delta None states p_swap trans = Ok w /\ fresh_layer (w_cv w) /\ macro_live (verts m) (mic_of m) (nbi_of m) (wt_of m) w w /\
    forall w1 d, macro_live (verts m) (mic_of m) (nbi_of m) (wt_of m) w w1 -> same_frame w w1 -> draws_ok (v_N (w_cv w)) d ->
      exists w', apply_noise_macro expf w1 d = (w', Ok tt) /\ macro_live (verts m) (mic_of m) (nbi_of m) (wt_of m) w w' /\ same_frame w w' /\
        forall v, In v (node_list (sc_graph c)) -> reduced_node expf delta w' v.
Proof.
  intros HI.
  destruct (code_macro_step D e b pol c es perf states p_swap a0 r0 delta trans expf HI) as (m & w & Em & Hm & H4 & Hne & Ew & HL & Hed & Hdi & HF & Hde & HN & HP & Hpf & Hrn & Ht).
  assert (HU : (0 < unit_of 1 10)%Z) by reflexivity.
  exists m, w. split; [exact Ew|]. split; [exact HF|]. split; [split; [exact HL|apply fresh_live]|]. intros w1 d HL1 Hf1 Hd.
  destruct (Ht w1 d HL1 Hd) as (w' & q & E & HL' & Hfr & Hq & Hs & Hbd & _ & Hk). exists w'. split; [exact E|]. split; [exact HL'|].
  pose proof (frame_trans _ _ _ Hf1 Hfr) as Hfw. split; [exact Hfw|]. destruct Hfw as (FU & FD & FE & _). rewrite Hed in FE.
  set (P := trial_p (w_cv w) d) in *. set (hp := hp_of (w_cv w) P (nbi_of m) (wt_of m) q d) in *. set (hq := hq_of (w_cv w) P q d) in *.
  set (n := List.length (verts m)) in *.
  pose proof (ly_nbi _ _ _ _ _ HL) as Hnlt. fold n in Hnlt.
  assert (Hinj : forall i j, i < 4 * n -> j < 4 * n -> mic_of m i = mic_of m j -> i = j).
  { intros i j Hi Hj Eij. pose proof (ly_mic _ _ _ _ _ HL i Hi) as A. pose proof (ly_mic _ _ _ _ _ HL j Hj) as B. rewrite Eij in A. apply (proj2 (ly_num _ _ _ _ _ HL) i j _ A B). }
  assert (Hstate : forall i, i < 4 * n -> state_of w' (mic_of m i) = Some (if memn i P then "p"%string else "GKP"%string)) by (intros i Hi; apply Hs, (ly_mic _ _ _ _ _ HL), Hi).
  assert (Hdict : forall k, k < n -> In (nth k (verts m) (0, 0, 0)%Z, map (mic_of m) (seq (4 * k) 4)) (w_dict w')).
  { intros k Hk'. pose proof (ly_dict _ _ _ _ _ (proj1 HL') k Hk') as Hx. apply (dget_In peqb peqb_true) in Hx.
    replace (map (mic_of m) (seq (4 * k) 4)) with [mic_of m (4 * k); mic_of m (4 * k + 1); mic_of m (4 * k + 2); mic_of m (4 * k + 3)]; [exact Hx|]. cbn [seq map]. repeat f_equal; lia. }
  assert (Hbody : forall i, i < 4 * n -> body w' (mic_of m i) = Some (place P i + 1)).
  { intros i Hi. destruct (place_ok P i) as [Hp Ep]. unfold body. rewrite <- Ep at 1. apply Hbd; [apply Nat.div_lt_upper_bound; lia|exact Hp]. }
  assert (Htold : forall y, y < 4 * n -> told w' (mic_of m y) (zval P hq y)).
  { intros y Hy. set (k := y / 4). assert (Hk4 : k < n) by (apply Nat.div_lt_upper_bound; lia).
    assert (Hin : forall i, 4 * k <= i < 4 * k + 4 -> In (mic_of m i) (map (mic_of m) (seq (4 * k) 4))) by (intros i Hi; apply in_map, in_seq; lia).
    pose proof (pi_range P k 1 ltac:(lia)) as R1. pose proof (pi_range P k 2 ltac:(lia)) as R2. pose proof (pi_range P k 3 ltac:(lia)) as R3.
    destruct (Hk k Hk4) as (_ & _ & _ & _ & Hhq).
    exists (nth k (verts m) (0, 0, 0)%Z), (map (mic_of m) (seq (4 * k) 4)), (mic_of m (pi P k 1)), (mic_of m (pi P k 2)), (mic_of m (pi P k 3)), (hq k 1), (hq k 2), (hq k 3).
    split; [apply Hdict, Hk4|]. pose proof (Nat.div_mod y 4 ltac:(lia)) as Hdm. pose proof (Nat.mod_upper_bound y 4 ltac:(lia)) as Hmm. fold k in Hdm.
    split; [apply Hin; lia|]. do 3 (split; [apply Hin; lia|]). split; [apply (Hbd k 1); lia|]. split; [apply (Hbd k 2); lia|]. split; [apply (Hbd k 3); lia|]. do 3 (split; [apply Hhq; lia|]).
    rewrite (Hbody y Hy). unfold zval. fold k. destruct (place_ok P y) as [Hp _]. destruct (place P y) as [|[|[|[|p]]]]; [left|right; left|right; right; left|right; right; right|lia]; split; reflexivity. }
  intros v Hv. apply (Permutation_in _ (Permutation_sym HP)) in Hv. destruct (pos_in_ok v (verts m) (0, 0, 0)%Z Hv) as [Hlt Ev]. set (k := pos_in v (verts m)) in *. fold n in Hlt.
  destruct (Hk k Hlt) as (K1 & K2 & K3 & K4 & _). rewrite Ev in K1, K2, K3.
  pose proof (pi_range P k 0 ltac:(lia)) as Hr0.
  set (yi := flat_map (fun a => match nbi_of m (pi P k a) with Some y => [y] | None => [] end) (seq 0 4)).
  assert (Hyi : forall y, In y yi <-> exists a, a < 4 /\ nbi_of m (pi P k a) = Some y).
  { intros y. unfold yi. rewrite in_flat_map. split.
    - intros (a & Ha & Hy). apply in_seq in Ha. exists a. split; [lia|]. destruct (nbi_of m (pi P k a)); [destruct Hy as [->|[]]; reflexivity|destruct Hy].
    - intros (a & Ha & Hy). exists a. split; [apply in_seq; lia|]. rewrite Hy. left. reflexivity. }
  assert (Hpilt : forall a, a < 4 -> pi P k a < 4 * n) by (intros a Ha; pose proof (pi_range P k a Ha); lia).
  assert (Hylt : forall y, In y yi -> y < 4 * n). { intros y Hy. apply Hyi in Hy. destruct Hy as (a & Ha & Hy). apply (Hnlt (pi P k a)); [apply Hpilt, Ha|exact Hy]. }
  set (zf := fun p => zval P hq (pos_in p (order m))).
  assert (Hzf : forall y, y < 4 * n -> zf (mic_of m y) = zval P hq y).
  { intros y Hy. unfold zf. rewrite (pos_mic (unit_of 1 10) (sc_graph c) es (padded e b) m HU Hm H4 Hne y Hy). reflexivity. }
  exists (map (mic_of m) (seq (4 * k) 4)), (mic_of m (pi P k 0)), (hp k), (map (mic_of m) yi), zf.
  split; [rewrite <- Ev; apply Hdict, Hlt|]. split; [rewrite map_length, seq_length; reflexivity|]. split; [apply in_map, in_seq; lia|]. split; [apply (Hbd k 0); lia|]. split; [exact K4|].

  split; [|split; [|split]].
  - apply NoDup_map_inj; [intros y1 y2 Hy1 Hy2; apply Hinj; apply Hylt; assumption|]. apply NoDup_flat_map.
    + apply seq_NoDup.
    + intros a _. destruct (nbi_of m (pi P k a)); repeat constructor; intros [].
    + intros a1 a2 y Ha1 Ha2 Hy1 Hy2. apply in_seq in Ha1, Ha2. destruct (nbi_of m (pi P k a1)) as [y1|] eqn:N1; [|destruct Hy1]. destruct (nbi_of m (pi P k a2)) as [y2|] eqn:N2; [|destruct Hy2]. destruct Hy1 as [->|[]], Hy2 as [->|[]].
      destruct (nbi_sym (unit_of 1 10) (sc_graph c) es (padded e b) m HU Hm H4 Hne _ _ (Hpilt a1 ltac:(lia)) N1) as [S1 _]. destruct (nbi_sym (unit_of 1 10) (sc_graph c) es (padded e b) m HU Hm H4 Hne _ _ (Hpilt a2 ltac:(lia)) N2) as [S2 _].
      rewrite S1 in S2. injection S2 as S2. apply pi_inj in S2; lia.
  - intros y. split.
    + intros Hy. apply in_map_iff in Hy. destruct Hy as (i & <- & Hi). apply Hyi in Hi. destruct Hi as (a & Ha & Hi). exists (mic_of m (pi P k a)). pose proof (pi_range P k a Ha). split; [apply in_map, in_seq; lia|].
      destruct (nbi_some (unit_of 1 10) (sc_graph c) es (padded e b) m HU Hm H4 Hne _ _ (Hpilt a Ha) Hi) as (_ & [[x1 x2] z] & He & Hx & Eo & _). exists z. rewrite FE, Eo. unfold other. unfold ends in Hx. cbn [fst snd In] in *.
      destruct Hx as [Hx|[Hx|[]]]; rewrite <- Hx; [rewrite peqb_refl; left; exact He|]. destruct (peqb x1 x2) eqn:E12; [apply peqb_true in E12; rewrite E12 in He; left; exact He|right; exact He].
    + intros (x & Hx & z & Hz). apply in_map_iff in Hx. destruct Hx as (i & <- & Hi). apply in_seq in Hi. rewrite FE in Hz. assert (Hi4 : i < 4 * n) by lia.
      destruct (pi_surj P k (i - 4 * k) ltac:(lia)) as (a & Ha & Ea). replace (4 * k + (i - 4 * k)) with i in Ea by lia.
      assert (He : exists e', In e' (medges m) /\ In (mic_of m i) (ends e') /\ other e' (mic_of m i) = y).
      { pose proof (medges_single (unit_of 1 10) (sc_graph c) es (padded e b) m HU Hm H4 Hne) as Hsg. destruct Hz as [Hz|Hz]; eexists; (split; [exact Hz|]); unfold ends, other; cbn [fst snd].
        - rewrite peqb_refl. split; [left; reflexivity|reflexivity].
        - pose proof (single_ends _ Hsg _ Hz) as Hd'. cbn [fst snd] in Hd'. rewrite (proj2 (peqb_false _ _) Hd'). split; [right; left; reflexivity|reflexivity]. }
      destruct He as (e' & He1 & He2 & He3). destruct (mic_pos (unit_of 1 10) (sc_graph c) es (padded e b) m HU Hm H4 Hne y) as [Q1 Q2].
      { apply (medges_in (unit_of 1 10) (sc_graph c) es (padded e b) m HU Hm H4 Hne e' y He1). rewrite <- He3. apply other_ends, He2. }
      destruct (nbi_intro (unit_of 1 10) (sc_graph c) es (padded e b) m HU Hm H4 Hne i _ e' Hi4 Q1 He1 He2) as [Q3 _]; [rewrite Q2; symmetry; exact He3|].
      rewrite <- Q2. apply in_map. apply Hyi. exists a. split; [exact Ha|]. rewrite Ea. exact Q3.
  - intros y Hy. apply in_map_iff in Hy. destruct Hy as (i & <- & Hi). pose proof (Hylt i Hi) as Hil. rewrite Hzf by exact Hil. split; [apply Htold, Hil|]. rewrite Hstate by exact Hil. destruct (memn i P); auto.
  - cbv zeta. assert (Hst : forall i, i < 4 * n -> state_is w' "p" (mic_of m i) = memn i P /\ state_is w' "GKP" (mic_of m i) = negb (memn i P)).
    { intros i Hi. pose proof (Hstate i Hi) as Hx. unfold state_of in Hx. unfold state_is. rewrite Hx. destruct (memn i P); split; reflexivity. }
    assert (Sums : forall l, (forall a, In a l -> a < 4) -> let ys := map (mic_of m) (flat_map (fun a => match nbi_of m (pi P k a) with Some y => [y] | None => [] end) l) in
      total (map zf (filter (state_is w' "p") ys)) = total (map (pz P (nbi_of m) hq k) l) /\
      bits (map zf (filter (state_is w' "GKP") ys)) = fold_right Z.add 0%Z (map (gbit P (nbi_of m) hq k) l) /\
      total (map (wrong_bit expf (2 * delta)) (map zf (filter (state_is w' "GKP") ys))) = total (map (perr_at P (nbi_of m) hq expf delta k) l) /\
      List.length (map zf (filter (state_is w' "p") ys)) = list_sum (map (np_at P (nbi_of m) k) l)).
    { induction l as [|a l IH]; intros Hl; [repeat split|]. specialize (IH (fun x Hx => Hl x (or_intror Hx))). cbv zeta in IH |- *. destruct IH as (I1 & I2 & I3 & I4).
      cbn [flat_map]. rewrite map_app. cbn [map]. change (total (?x :: ?r)) with (x + total r)%R. cbn [fold_right list_sum]. unfold pz at 1, gbit at 1, perr_at at 1, np_at at 1.
      pose proof (Hpilt a (Hl a (or_introl eq_refl))) as Hla. destruct (nbi_of m (pi P k a)) as [y|] eqn:Ey.
      - pose proof (Hnlt _ _ Hla Ey) as Hy. destruct (Hst y Hy) as [S1 S2]. cbn [map app filter]. rewrite S1, S2. destruct (memn y P); cbn [negb map]; rewrite ?Hzf by exact Hy.
        + change (total (?x :: ?r)) with (x + total r)%R. cbn [List.length]. rewrite I1, I2, I3, I4. split; [reflexivity|]. split; [reflexivity|]. split; [rewrite Rplus_0_l; reflexivity|reflexivity].
        + change (total (?x :: ?r)) with (x + total r)%R. rewrite I1, I3, I4. split; [rewrite Rplus_0_l; reflexivity|]. split; [unfold bits in *; cbn [map fold_right]; rewrite I2; reflexivity|]. split; reflexivity.
      - cbn [map app]. rewrite I1, I2, I3, I4. split; [rewrite Rplus_0_l; reflexivity|]. split; [reflexivity|]. split; [rewrite Rplus_0_l; reflexivity|reflexivity]. }
    specialize (Sums (seq 0 4) ltac:(intros a Ha; apply in_seq in Ha; lia)). cbv zeta in Sums. fold yi in Sums. destruct Sums as (S1 & S2 & S3 & S4). rewrite S1, S2, S3, S4. clear S1 S2 S3 S4.
    unfold total. cbn [seq map fold_right list_sum]. rewrite K1, K2, K3. split; [rewrite Hstate by lia; destruct (memn (pi P k 0) P); auto|]. split; [symmetry; apply Hstate; lia|].
    assert (Eo : (2 * hp k - (pz P (nbi_of m) hq k 0 + (pz P (nbi_of m) hq k 1 + (pz P (nbi_of m) hq k 2 + (pz P (nbi_of m) hq k 3 + 0)))))%R = outcome P (nbi_of m) hp hq k) by (unfold outcome; lra).
    rewrite Eo. split.
    + f_equal. unfold red_bit. f_equal. lia.
    + f_equal. unfold red_prob. destruct (Rlt_dec 0 delta); [|reflexivity]. f_equal. f_equal. f_equal; [lra|]. f_equal. do 4 f_equal. lia.
Qed.

(* C66.  After any number of trials, every vertex of the code has the reduced values. *)
Theorem C66_reduced_values : forall D e b pol c es perf states p_swap a0 r0 delta trans expf, macro_input D e b pol c es perf states p_swap -> (0 <= delta)%R ->
  exists w, macro_layer e b c es perf a0 r0 delta None states p_swap trans = Ok w /\
    forall ds d, Forall (draws_ok (v_N (w_cv w))) (ds ++ [d]) -> exists w', trials_macro expf w (ds ++ [d]) = (w', Ok tt) /\
      forall v, In v (node_list (sc_graph c)) -> reduced_node expf delta w' v.
Proof.
  intros D e b pol c es perf states p_swap a0 r0 delta trans expf HI _.
  destruct (macro_values_step D e b pol c es perf states p_swap a0 r0 delta trans expf HI) as (m & w & Ew & HF & HLw & Ht).
  exists w. split; [exact Ew|]. intros ds d Hd. apply Forall_app in Hd. destruct Hd as [Hds Hd]. apply Forall_inv in Hd.
  destruct (macro_trials expf _ _ _ _ w ds HF Hds w HLw) as (w1 & E1 & HL1 & _). destruct (Ht w1 d HL1 (trials_frame expf ds w w1 E1) Hd) as (w' & E & _ & _ & Hv). exists w'.
  split; [unfold trials_macro in *; rewrite for_each_app, E1; cbn [for_each]; rewrite E; reflexivity|exact Hv].
Qed.
Print Assumptions C66_reduced_values.

(* the theorem applies, e.g., to the (3, 2, 4) open code with two p-squeezed micronodes and exp as in numpy; the draws are arbitrary but legal *)
Example C66_nonvacuous : let D := (3, 2, 4)%Z in let c := mk_code D EcPrimal BdOpen None in
  let d := {| d_p := []; d_unif := fun _ => (1 / 2)%R; d_bit := fun k => (Z.of_nat k mod 2)%Z; d_z := fun k => INR k; d_z2 := fun k => INR k; d_list := fun l => rev l |} in
  exists perf w w', macro_layer EcPrimal BdOpen c (gedges (sc_graph c)) (Some perf) (fun _ => no_attrs) (fun _ => {| r_state := None; r_bit := None; r_prob := None |}) (1 / 10)%R None (Some [("p"%string, arr [1; 6])]) None None = Ok w /\
    trials_macro exp w [d; d] = (w', Ok tt) /\ exists v b, r_bit (w_red w' v) = Some b.
Proof.
  intros D c d. assert (Hd : forall n, draws_ok n d).
  { clear. intros n. split; [constructor|]. split; [intros i []|]. split; [intros k; cbn [d_unif d]; lra|]. split; [intros k; cbn [d_bit d]; pose proof (Z.mod_pos_bound (Z.of_nat k) 2 ltac:(lia)); lia|].
    intros l _. apply Permutation_sym, Permutation_rev. }
  assert (HD : dims_ge2 D) by (intros []; simpl; lia). pose proof (proj1 C52_witness D EcPrimal BdOpen HD) as X. exists [hd (0, 0, 0)%Z (node_list (sc_graph c))].
  destruct (C66_reduced_values D EcPrimal BdOpen None c _ _ _ _ (fun _ => no_attrs) (fun _ => {| r_state := None; r_bit := None; r_prob := None |}) (1 / 10)%R None exp X ltac:(lra)) as (w & Ew & K).
  exists w. destruct (K [d] d) as (w' & Et & Kv).
  - constructor; [exact (Hd _)|constructor; [exact (Hd _)|constructor]].
  - exists w'. split; [exact Ew|]. split; [exact Et|].
    assert (Hne : exists v, In v (node_list (sc_graph c))). { destruct (node_list (sc_graph c)) as [|v l] eqn:El; [exfalso; revert El; vm_compute; discriminate|exists v; left; reflexivity]. }
    destruct Hne as (v & Hv). destruct (Kv v Hv) as (l & x0 & h0 & ys & z & _ & _ & _ & _ & _ & _ & _ & _ & Kf). cbv zeta in Kf. destruct Kf as (_ & _ & Kf & _). exists v. eexists. exact Kf.
Qed.
