(* PropsCvMacro.v: CVMacroLayer (C41, C47, C51, C52). *)
From Coq Require Import String.
From Verif Require Import Base Lattice RhgModel RhgSpec RhgProofs RhgDegree SurfaceModel SurfaceSpec SurfaceProofs SurfaceIncidence SurfaceTheorems PropsSurface
  GkpModel OpsModel EgraphModel EgraphSpec EgraphProofs EgraphInv PropsEgraph MacroModel MacroSpec MacroMain PropsMacro PropsGkp
  CvModel CvSpec CvProofs PropsCv CvSurface CvMacroModel CvMacroLists CvMacroSpec CvMacroProofs CvMacroTrial CvMacroReduce CvMacroMath CvMacroSurface CvMacroInit CvMacroCode CvMacroGauge.
Open Scope nat_scope.

(* CVMacroLayer(code, delta=delta, bs_network=bs, p_swap=p_swap, states=states, translator=trans), the
   code's lattice having its edges in the order es and the perfect points perf; a0 and r0 are whatever
   attributes the nodes have at that time *)
Definition macro_layer (e : ecx) (b : bdk) (c : scode) (es : list ((point * point) * eattr)) (perf : option (list point)) (a0 : point -> attrs) (r0 : point -> rattrs)
    (delta : R) (bs : option mat) (states : option (list (string * idxs))) (p_swap : option R) (trans : option (R -> Z)) : res cvm :=
  cvm_init (sc_graph c) es a0 r0 perf (padded e b) delta bs states p_swap None trans.
Definition with_bs (w : cvm) (b : option mat) : cvm :=
  {| w_cv := w_cv w; w_U := w_U w; w_dict := w_dict w; w_edges := w_edges w; w_bs := b; w_rnodes := w_rnodes w; w_red := w_red w |}.

Lemma code_macro_layer D e b pol c es perf states p_swap a0 r0 delta bs trans : macro_input D e b pol c es perf states p_swap ->
  exists m w, macronize (sc_graph c) es perf (padded e b) 1 10 = Ok m /\ macronized (unit_of 1 10) (sc_graph c) es (padded e b) m /\ (forall v l, In (v, l) (m_dict m) -> List.length l = 4) /\ node_list (sc_graph c) <> [] /\
    macro_layer e b c es perf a0 r0 delta bs states p_swap trans = Ok w /\ layout (with_bs w (Some bs_network)) (verts m) (mic_of m) (nbi_of m) (wt_of m) /\
    w_bs w = (match bs with None => Some bs_network | Some _ => None end) /\ w_rnodes w = node_list (sc_graph c) /\ w_edges w = medges m /\ w_dict w = m_dict m /\
    fresh_layer (w_cv w) /\ v_delta (w_cv w) = delta /\ v_N (w_cv w) = 4 * List.length (node_list (sc_graph c)) /\ Permutation (verts m) (node_list (sc_graph c)) /\
    match perf, v_perf (w_cv w) with
    | Some ps, Some l => forall i, In i l <-> i < 4 * List.length (verts m) /\ In (vx m i) ps
    | None, None => True
    | _, _ => False
    end.
Proof.
  intros HI. destruct (code_macronize D e b pol c es perf states p_swap HI) as (m & Em & Hm & H4 & Hne & Hpm & Hnb & Hpp). destruct HI as (HD & HC & He & Hp & Hst).
  destruct (macro_init (sc_graph c) es (padded e b) perf m Em Hm H4 Hne Hpm a0 r0 delta bs states p_swap trans) as (w & Ew & HL & Hb & Hr & Hred & Hde & Hps & Hs & Hpf).
  { intros Hn s Es. unfold documented_states in Hst. destruct p_swap; [|congruence]. destruct Hst as (_ & [-> | [-> | ->]] & H); [discriminate|congruence|]. injection Es as <-. exists (arr []). auto. }
  exists m, w. split; [assumption|]. split; [assumption|]. split; [assumption|]. split; [assumption|]. split; [exact Ew|]. split; [exact HL|]. split; [exact Hb|]. split; [exact Hr|].
  assert (HU : (0 < unit_of 1 10)%Z) by reflexivity.
  assert (HP : Permutation (verts m) (node_list (sc_graph c))).
  { apply NoDup_Permutation; [apply (verts_nodup (unit_of 1 10) (sc_graph c) es (padded e b)); assumption| |intros x; apply (verts_in (unit_of 1 10) (sc_graph c) es (padded e b)); assumption].
    destruct (code_lattice D e b pol c HC) as (vs & Hvs & ->). apply (rhg_exact_lattice D (code_bnds e b) pol vs (ge2_ok D _ HD) Hvs). }
  assert (HN : v_N (w_cv w) = 4 * List.length (node_list (sc_graph c))) by (rewrite <- (Permutation_length HP); apply (ly_N _ _ _ _ _ HL)).
  assert (Hed : w_edges w = medges m /\ w_dict w = m_dict m).
  { unfold cvm_init in Ew. rewrite Em in Ew. cbn [bind] in Ew. destruct (snd (cv_init _ _ _ _ _ _ _ _ _)) as [v|]; [|discriminate]. cbn [bind] in Ew. destruct (match bs with None => _ | Some _ => _ end) as [bb|]; [|discriminate]. cbn [bind] in Ew. injection Ew as <-. split; reflexivity. }
  split; [apply Hed|]. split; [apply Hed|]. split; [|split; [exact Hde|split; [exact HN|split; [exact HP|]]]].
  - split; [apply (ly_num _ _ _ _ _ HL)|]. split.
    + assert (Hx : exists l, v_states (w_cv w) = [("p"%string, arr l)] /\ forall i, In i l -> i < v_N (w_cv w)); [|destruct Hx as (l & Hl & Hl2); exists (arr l); split; [exact Hl|exact Hl2]].
      rewrite Hs, HN. unfold documented_states in Hst. destruct p_swap as [x|].
      * destruct Hst as (_ & [->|[->| ->]] & _); exists []; (split; [reflexivity|intros i []]).
      * destruct Hst as [->|[->|(l & -> & Hl)]]; [exists []; split; [reflexivity|intros i []]|exists []; split; [reflexivity|intros i []]|exists l; split; [reflexivity|exact Hl]].
    + rewrite Hps. unfold documented_states in Hst. destruct p_swap; [apply Hst|exact I].
  - destruct perf as [ps|], (m_perf m) as [ps'|]; try contradiction; destruct (v_perf (w_cv w)) as [l|]; try contradiction; [|exact I]. intros i. rewrite Hpf. split; intros [Hi H]; (split; [assumption|]).
    + destruct (vert_of (unit_of 1 10) (sc_graph c) es (padded e b) m HU Hm H4 Hne i Hi) as (_ & _ & Hv). apply Hpp in H. destruct H as (v & Hv1 & Hv2). unfold vx. rewrite (micro_same (unit_of 1 10) (sc_graph c) es (padded e b) m HU Hm H4 Hne _ _ _ Hv Hv2). assumption.
    + apply Hpp. exists (vx m i). split; [assumption|]. apply (vert_of (unit_of 1 10) (sc_graph c) es (padded e b) m HU Hm H4 Hne i Hi).
Qed.
Lemma with_bs_same w b : w_bs w = b -> with_bs w b = w.
Proof. intros <-. destruct w. reflexivity. Qed.
Lemma macro_trials expf V mic nbi wt w0 ds : fresh_layer (w_cv w0) -> Forall (draws_ok (v_N (w_cv w0))) ds -> forall w, macro_live V mic nbi wt w0 w ->
  exists w', trials_macro expf w ds = (w', Ok tt) /\ macro_live V mic nbi wt w0 w' /\ w_rnodes w' = w_rnodes w.
Proof.
  intros HF. induction ds as [|d ds IH]; intros Hd w HL; [exists w; split; [reflexivity|auto]|]. apply Forall_cons_iff in Hd. destruct Hd as [Hd Hds].
  destruct (macro_trial expf V mic nbi wt w0 w d HF HL Hd) as (w1 & q & E & HL1 & _ & Hr & _). destruct (IH Hds w1 HL1) as (w' & E' & HL' & Hr'). exists w'. split; [|split; [assumption|congruence]].
  unfold trials_macro in *. cbn [for_each]. rewrite E. exact E'.
Qed.

(* what apply_noise never touches, even when it fails *)
Definition same_frame (w w' : cvm) : Prop := w_U w' = w_U w /\ w_dict w' = w_dict w /\ w_edges w' = w_edges w /\ w_bs w' = w_bs w /\ w_rnodes w' = w_rnodes w.
Lemma frame_refl w : same_frame w w.
Proof. repeat split. Qed.
Lemma frame_trans w1 w2 w3 : same_frame w1 w2 -> same_frame w2 w3 -> same_frame w1 w3.
Proof. intros (A1 & A2 & A3 & A4 & A5) (B1 & B2 & B3 & B4 & B5). repeat split; congruence. Qed.
Lemma for_each_frame {A} (f : cvm -> A -> cvm * res unit) l : (forall w x, same_frame w (fst (f w x))) -> forall w, same_frame w (fst (for_each f w l)).
Proof.
  intros Hf. induction l as [|x l IH]; intros w; [apply frame_refl|]. cbn [for_each]. pose proof (Hf w x) as H. destruct (f w x) as [w1 [u|er]]; cbn [fst] in *; [eapply frame_trans; [exact H|apply IH]|exact H].
Qed.
Lemma apply_noise_frame expf w d : same_frame w (fst (apply_noise_macro expf w d)).
Proof.
  assert (H1 : forall w i, same_frame w (fst (label_reduced w i))) by (intros w1 i; unfold label_reduced; destruct (bind _ _) as [[p s]|]; [destruct (pmem _ _)|]; repeat split).
  assert (H2 : forall perm w i, same_frame w (fst (reduce_macronode expf perm w i))) by (intros perm w1 i; unfold reduce_macronode; destruct (reduced_values _ _ _ _) as [[[v bb] pp]|]; [destruct (pmem _ _)|]; repeat split).
  unfold apply_noise_macro, lift_cv. destruct (populate_states (w_cv w) d) as [c1 [u|er]]; cbn [fst snd andthen]; [|repeat split]. destruct (permute_star_inds _) as [perm|]; [|repeat split]. unfold apply_labels, lift_cv. destruct (label_bodies perm _) as [c2 [u2|er]]; cbn [fst snd andthen]; [|repeat split].
  pose proof (for_each_frame label_reduced (stars perm) H1 (set_cv (set_cv w c1) c2)) as H. change (same_frame w (fst (for_each label_reduced (set_cv (set_cv w c1) c2) (stars perm)))) in H.
  destruct (for_each label_reduced _ _) as [w3 [u3|er]]; cbn [fst snd andthen] in *; [|exact H]. destruct (entangle_states w3 perm d) as [[qs qp]|er]; [|exact H]. destruct (measure_macro _ _ _ _ _) as [c4 [u4|er]]; cbn [fst snd andthen]; [|exact H].
  eapply frame_trans; [exact H|]. change (same_frame w3 (fst (for_each (reduce_macronode expf perm) (set_cv w3 c4) (macro_starts (v_N (w_cv (set_cv w3 c4))))))). apply (for_each_frame (reduce_macronode expf perm) _ (H2 perm) (set_cv w3 c4)).
Qed.

(* everything about one trial, from any state that trials lead to *)
Lemma code_macro_step D e b pol c es perf states p_swap a0 r0 delta trans expf : macro_input D e b pol c es perf states p_swap ->
  exists m w, macronize (sc_graph c) es perf (padded e b) 1 10 = Ok m /\ macronized (unit_of 1 10) (sc_graph c) es (padded e b) m /\ (forall v l, In (v, l) (m_dict m) -> List.length l = 4) /\ node_list (sc_graph c) <> [] /\
    macro_layer e b c es perf a0 r0 delta None states p_swap trans = Ok w /\ layout w (verts m) (mic_of m) (nbi_of m) (wt_of m) /\
    w_edges w = medges m /\ w_dict w = m_dict m /\
    fresh_layer (w_cv w) /\ v_delta (w_cv w) = delta /\ v_N (w_cv w) = 4 * List.length (node_list (sc_graph c)) /\ Permutation (verts m) (node_list (sc_graph c)) /\
    match perf, v_perf (w_cv w) with
    | Some ps, Some l => forall i, In i l <-> i < 4 * List.length (verts m) /\ In (vx m i) ps
    | None, None => True
    | _, _ => False
    end /\ w_rnodes w = node_list (sc_graph c) /\
    forall w1 d, macro_live (verts m) (mic_of m) (nbi_of m) (wt_of m) w w1 -> draws_ok (v_N (w_cv w)) d ->
      let P := trial_p (w_cv w) d in
      exists w' q, apply_noise_macro expf w1 d = (w', Ok tt) /\ macro_live (verts m) (mic_of m) (nbi_of m) (wt_of m) w w' /\ same_frame w1 w' /\ positions_ok (4 * List.length (verts m)) P d q /\
        (forall i p, node_at (w_cv w) i p -> a_state (v_attr (w_cv w') p) = Some (if memn i P then "p"%string else "GKP"%string)) /\
        (forall k a, k < List.length (verts m) -> a < 4 -> a_body (v_attr (w_cv w') (mic_of m (pi P k a))) = Some (a + 1)) /\
        (forall p, ~ In p (verts m) -> w_red w' p = w_red w1 p) /\
        forall k, k < List.length (verts m) -> let r := w_red w' (nth k (verts m) (0, 0, 0)%Z) in
          let hp := hp_of (w_cv w) P (nbi_of m) (wt_of m) q d in
          let hq := hq_of (w_cv w) P q d in
          r_state r = Some (if memn (pi P k 0) P then "p"%string else "GKP"%string) /\
          r_bit r = Some (red_bit P (nbi_of m) hp hq k) /\ r_prob r = Some (red_prob P (nbi_of m) hp hq expf delta k) /\
          a_homp (v_attr (w_cv w') (mic_of m (pi P k 0))) = Some (hp k) /\ (forall a, 1 <= a < 4 -> a_homq (v_attr (w_cv w') (mic_of m (pi P k a))) = Some (hq k a)).
Proof.
  intros HI. destruct (code_macro_layer D e b pol c es perf states p_swap a0 r0 delta None trans HI) as (m & w & Em & Hm & H4 & Hne & Ew & HL & Hb & Hr & Hed & Hdi & HF & Hde & HN & HP & Hpf).
  exists m, w. rewrite (with_bs_same w _ Hb) in HL. do 14 (split; [assumption|]). intros w1 d HL1 Hd P.
  destruct (macro_trial_full expf _ _ _ _ w w1 d HF HL1 Hd) as (w' & q & E & HL' & Hq & _ & Hs & Hbd & Ho & Hk). exists w', q. split; [exact E|]. split; [exact HL'|].
  split; [pose proof (apply_noise_frame expf w1 d) as F; rewrite E in F; exact F|]. rewrite Hde in Hk. auto.
Qed.

(* everything about the last of any number of trials *)
Lemma code_macro_trial D e b pol c es perf states p_swap a0 r0 delta trans expf : macro_input D e b pol c es perf states p_swap ->
  exists m w, macronize (sc_graph c) es perf (padded e b) 1 10 = Ok m /\ macronized (unit_of 1 10) (sc_graph c) es (padded e b) m /\ (forall v l, In (v, l) (m_dict m) -> List.length l = 4) /\ node_list (sc_graph c) <> [] /\
    macro_layer e b c es perf a0 r0 delta None states p_swap trans = Ok w /\ layout w (verts m) (mic_of m) (nbi_of m) (wt_of m) /\
    w_edges w = medges m /\ w_dict w = m_dict m /\
    fresh_layer (w_cv w) /\ v_delta (w_cv w) = delta /\ v_N (w_cv w) = 4 * List.length (node_list (sc_graph c)) /\ Permutation (verts m) (node_list (sc_graph c)) /\
    match perf, v_perf (w_cv w) with
    | Some ps, Some l => forall i, In i l <-> i < 4 * List.length (verts m) /\ In (vx m i) ps
    | None, None => True
    | _, _ => False
    end /\
    forall ds d, Forall (draws_ok (v_N (w_cv w))) (ds ++ [d]) ->
      let P := trial_p (w_cv w) d in
      exists w' q, trials_macro expf w (ds ++ [d]) = (w', Ok tt) /\ layout w' (verts m) (mic_of m) (nbi_of m) (wt_of m) /\ w_rnodes w' = node_list (sc_graph c) /\ positions_ok (4 * List.length (verts m)) P d q /\
        (forall i p, node_at (w_cv w) i p -> a_state (v_attr (w_cv w') p) = Some (if memn i P then "p"%string else "GKP"%string)) /\
        (forall k a, k < List.length (verts m) -> a < 4 -> a_body (v_attr (w_cv w') (mic_of m (pi P k a))) = Some (a + 1)) /\
        forall k, k < List.length (verts m) -> let r := w_red w' (nth k (verts m) (0, 0, 0)%Z) in
          r_state r = Some (if memn (pi P k 0) P then "p"%string else "GKP"%string) /\
          r_bit r = Some (red_bit P (nbi_of m) (hp_of (w_cv w) P (nbi_of m) (wt_of m) q d) (hq_of (w_cv w) P q d) k) /\ exists p, r_prob r = Some p /\ (0 <= p <= 1 / 2)%R.
Proof.
  intros HI. destruct (code_macro_layer D e b pol c es perf states p_swap a0 r0 delta None trans HI) as (m & w & Em & Hm & H4 & Hne & Ew & HL & Hb & Hr & Hed & Hdi & HF & Hde & HN & HP & Hpf).
  exists m, w. rewrite (with_bs_same w _ Hb) in HL. do 13 (split; [assumption|]). intros ds d Hd P. apply Forall_app in Hd. destruct Hd as [Hds Hd]. apply Forall_inv in Hd.
  assert (HLV : macro_live (verts m) (mic_of m) (nbi_of m) (wt_of m) w w) by (split; [assumption|apply fresh_live]).
  destruct (macro_trials expf _ _ _ _ w ds HF Hds w HLV) as (w1 & E1 & HL1 & Hr1). destruct (macro_trial expf _ _ _ _ w w1 d HF HL1 Hd) as (w' & q & E & HL' & Hq & Hr' & Hs & Hbd & _ & Hk). fold P in Hq, Hs, Hbd, Hk.
  exists w', q. split; [unfold trials_macro in *; rewrite for_each_app, E1; cbn [for_each]; rewrite E; reflexivity|]. split; [apply HL'|]. split; [congruence|]. auto.
Qed.

(* ------------------------------------------------------------------ *)
(* C41.  After every trial each macronode has four distinct micronodes, each labelled GKP or p.  Listed
   with the GKP states first, each kind in the order of the macronode, they have the body indices 1 to
   4; the vertex of the reduced graph has the state of the first, so it is GKP as soon as one
   micronode is. *)
Definition state_is (w : cvm) (s : string) (x : point) : bool := match a_state (v_attr (w_cv w) x) with Some t => String.eqb t s | None => false end.
Theorem C41_star_selection : forall D e b pol c es perf states p_swap a0 r0 delta trans expf, macro_input D e b pol c es perf states p_swap -> (0 <= delta)%R ->
  exists w, macro_layer e b c es perf a0 r0 delta None states p_swap trans = Ok w /\
    forall ds d, Forall (draws_ok (v_N (w_cv w))) (ds ++ [d]) -> exists w', trials_macro expf w (ds ++ [d]) = (w', Ok tt) /\
      forall v, In v (node_list (sc_graph c)) -> exists l, dget peqb (w_dict w') v = Some l /\ NoDup l /\ List.length l = 4 /\
        (forall x, In x l -> a_state (v_attr (w_cv w') x) = Some "p"%string \/ a_state (v_attr (w_cv w') x) = Some "GKP"%string) /\
        map (fun x => a_body (v_attr (w_cv w') x)) (filter (state_is w' "GKP") l ++ filter (state_is w' "p") l) = [Some 1; Some 2; Some 3; Some 4] /\
        r_state (w_red w' v) = Some (if existsb (state_is w' "GKP") l then "GKP"%string else "p"%string).
Proof.
  intros D e b pol c es perf states p_swap a0 r0 delta trans expf HI _. destruct (code_macro_trial D e b pol c es perf states p_swap a0 r0 delta trans expf HI) as (m & w & _ & Hm & H4 & Hne & Ew & HL & _ & _ & HF & _ & HN & HP & _ & Ht).
  exists w. split; [exact Ew|]. intros ds d Hd. destruct (Ht ds d Hd) as (w' & q & E & HL' & _ & _ & Hs & Hbd & Hk). set (P := trial_p (w_cv w) d) in *. exists w'. split; [exact E|]. intros v Hv.
  apply (Permutation_in _ (Permutation_sym HP)) in Hv. apply (@In_nth point _ _ (0, 0, 0)%Z) in Hv. destruct Hv as (k & Hlt & <-).
  set (I4 := [4 * k; 4 * k + 1; 4 * k + 2; 4 * k + 3]). assert (EI : I4 = seq (4 * k) 4) by (unfold I4; cbn [seq]; repeat (f_equal; try lia)).
  exists (map (mic_of m) I4). split; [apply (ly_dict _ _ _ _ _ HL' k Hlt)|].
  assert (Hmem : forall i, In i I4 -> i < 4 * List.length (verts m)) by (intros i Hi; rewrite EI in Hi; apply in_seq in Hi; lia).
  assert (Hst : forall i, In i I4 -> a_state (v_attr (w_cv w') (mic_of m i)) = Some (if memn i P then "p"%string else "GKP"%string)) by (intros i Hi; apply Hs, (ly_mic _ _ _ _ _ HL), Hmem, Hi).
  split; [|split; [reflexivity|split; [|split]]].
  - assert (HU : (0 < unit_of 1 10)%Z) by reflexivity. rewrite EI in *. assert (G : forall l, NoDup l -> (forall i, In i l -> i < 4 * List.length (verts m)) -> NoDup (map (mic_of m) l)); [|apply G; [apply seq_NoDup|exact Hmem]].
    induction l as [|i l IH]; intros Hn Hl; [constructor|]. apply NoDup_cons_iff in Hn. destruct Hn as [Hi Hn]. cbn [map]. constructor; [|apply IH; [assumption|intros; apply Hl; right; assumption]].
    intros H. apply in_map_iff in H. destruct H as (j & Ej & Hj). apply (mic_inj (unit_of 1 10) (sc_graph c) es (padded e b) m HU Hm H4 Hne) in Ej; [|apply Hl; right; assumption|apply Hl; left; reflexivity]. congruence.
  - intros x Hx. apply in_map_iff in Hx. destruct Hx as (i & <- & Hi). rewrite Hst by assumption. destruct (memn i P); auto.
  - assert (EF : filter (state_is w' "GKP") (map (mic_of m) I4) ++ filter (state_is w' "p") (map (mic_of m) I4) = map (mic_of m) (blk P k)).
    { unfold blk. rewrite map_app, <- EI. f_equal.
      - clear - Hst. induction I4 as [|i l IH]; [reflexivity|]. cbn [map filter]. unfold state_is at 1. rewrite Hst by (left; reflexivity). rewrite IH by (intros; apply Hst; right; assumption). destruct (memn i P); reflexivity.
      - clear - Hst. induction I4 as [|i l IH]; [reflexivity|]. cbn [map filter]. unfold state_is at 1. rewrite Hst by (left; reflexivity). rewrite IH by (intros; apply Hst; right; assumption). destruct (memn i P); reflexivity. }
    rewrite EF, blk_list. cbn [map]. rewrite !Hbd by lia. reflexivity.
  - destruct (Hk k Hlt) as (-> & _). f_equal. destruct (star_spec P k) as [S1 S2].
    destruct (memn (pi P k 0) P) eqn:Em.
    + apply memn_In in Em. rewrite S1 in Em. assert (Ex : existsb (state_is w' "GKP") (map (mic_of m) I4) = false); [|rewrite Ex; reflexivity]. destruct (existsb _ _) eqn:Ex; [|reflexivity]. exfalso. apply existsb_exists in Ex. destruct Ex as (x & Hx & Hx2). apply in_map_iff in Hx. destruct Hx as (i & <- & Hi). unfold state_is in Hx2. rewrite Hst in Hx2 by assumption.
      rewrite EI in Hi. apply in_seq in Hi. assert (Hp : In i P) by (replace i with (4 * k + (i - 4 * k)) by lia; apply Em; lia). apply memn_In in Hp. rewrite Hp in Hx2. discriminate.
    + assert (Hpi : In (pi P k 0) I4) by (rewrite EI; apply in_seq; pose proof (pi_range P k 0 ltac:(lia)); lia). rewrite (proj2 (existsb_exists _ _)); [reflexivity|]. exists (mic_of m (pi P k 0)). split; [apply in_map; exact Hpi|]. unfold state_is. rewrite Hst by exact Hpi. rewrite Em. reflexivity.
Qed.
Print Assumptions C41_star_selection.

(* ------------------------------------------------------------------ *)
(* C51.  Every number of trials succeeds whatever is drawn, and after each every vertex of the code has a
   state, a bit and an error probability between 0 and 1/2. *)
Theorem C51_every_trial_succeeds : forall D e b pol c es perf states p_swap a0 r0 delta trans expf, macro_input D e b pol c es perf states p_swap -> (0 <= delta)%R ->
  exists w, macro_layer e b c es perf a0 r0 delta None states p_swap trans = Ok w /\ v_N (w_cv w) = 4 * List.length (node_list (sc_graph c)) /\
    forall ds d, Forall (draws_ok (v_N (w_cv w))) (ds ++ [d]) -> exists w', trials_macro expf w (ds ++ [d]) = (w', Ok tt) /\
      forall v, In v (node_list (sc_graph c)) -> exists s x p, w_red w' v = {| r_state := Some s; r_bit := Some x; r_prob := Some p |} /\ (s = "p"%string \/ s = "GKP"%string) /\ (x = 0%Z \/ x = 1%Z) /\ (0 <= p <= 1 / 2)%R.
Proof.
  intros D e b pol c es perf states p_swap a0 r0 delta trans expf HI _. destruct (code_macro_trial D e b pol c es perf states p_swap a0 r0 delta trans expf HI) as (m & w & Em & Hm & H4 & Hne & Ew & HL & _ & _ & HF & _ & HN & HP & _ & Ht).
  exists w. split; [exact Ew|]. split; [exact HN|]. intros ds d Hd. destruct (Ht ds d Hd) as (w' & q & E & _ & _ & _ & _ & _ & Hk). exists w'. split; [exact E|]. intros v Hv.
  apply (Permutation_in _ (Permutation_sym HP)) in Hv. apply (@In_nth point _ _ (0, 0, 0)%Z) in Hv. destruct Hv as (k & Hlt & <-). destruct (Hk k Hlt) as (A & B & p & C & Hp). destruct (w_red w' _) as [s x pr]. cbn [r_state r_bit r_prob] in *. subst s x pr.
  eexists _, _, p. split; [reflexivity|]. split; [destruct (memn _ _); auto|]. split; [|exact Hp]. unfold red_bit. set (z := (_ + _)%Z). pose proof (Z.mod_pos_bound z 2). lia.
Qed.
Print Assumptions C51_every_trial_succeeds.

(* ------------------------------------------------------------------ *)
(* C47.  A layer constructed with a beam splitter network never applies noise: every network given is
   discarded, and the first call of apply_noise raises AttributeError, on every code. *)
Lemma label_bs b l : forall w, for_each label_reduced (with_bs w b) l = (with_bs (fst (for_each label_reduced w l)) b, snd (for_each label_reduced w l)).
Proof.
  induction l as [|i l IH]; intros w; [reflexivity|]. cbn [for_each]. unfold label_reduced at 1 3 5. cbn [with_bs w_cv w_U w_rnodes].
  destruct (bind (to_pt (w_cv w) i) _) as [[p s]|er]; [|reflexivity]. destruct (pmem _ _); [|reflexivity]. rewrite <- IH. reflexivity.
Qed.
Lemma no_network expf w d w' : apply_noise_macro expf (with_bs w (Some bs_network)) d = (w', Ok tt) -> w_bs w = None -> snd (apply_noise_macro expf w d) = Err AttributeError.
Proof.
  intros E Hb. unfold apply_noise_macro in *. unfold lift_cv in *. cbn [with_bs w_cv] in E. destruct (populate_states (w_cv w) d) as [c1 [u|er]]; cbn [fst snd andthen] in *; [|discriminate].
  change (w_cv (set_cv (with_bs w (Some bs_network)) c1)) with c1 in E. change (w_cv (set_cv w c1)) with c1. destruct (permute_star_inds c1) as [perm|er]; [|discriminate].
  unfold apply_labels, lift_cv in *. change (w_cv (set_cv (with_bs w (Some bs_network)) c1)) with c1 in E. change (w_cv (set_cv w c1)) with c1. destruct (label_bodies perm c1) as [c2 [u2|er]]; cbn [fst snd andthen] in *; [|discriminate].
  change (set_cv (set_cv (with_bs w (Some bs_network)) c1) c2) with (with_bs (set_cv (set_cv w c1) c2) (Some bs_network)) in E. rewrite label_bs in E.
  assert (Hk : forall l v, w_bs v = None -> w_bs (fst (for_each label_reduced v l)) = None).
  { clear. induction l as [|i l IH]; intros v Hv; [exact Hv|]. cbn [for_each]. destruct (label_reduced v i) as [v' [u|er]] eqn:El; [apply IH|cbn [fst]]; unfold label_reduced in El; (destruct (bind _ _) as [[p s]|]; [destruct (pmem _ _)|]); injection El as <-; try discriminate; exact Hv. }
  specialize (Hk (stars perm) (set_cv (set_cv w c1) c2) Hb). destruct (for_each label_reduced (set_cv (set_cv w c1) c2) (stars perm)) as [w3 [u3|er]]; cbn [fst snd andthen] in *; [|discriminate].
  unfold entangle_states in *. cbn [with_bs w_cv w_bs] in E. cbv zeta in *. destruct (means_sampler (w_cv w3) true d) as [m|er]; cbn [bind] in *; [|discriminate]. rewrite Hk. reflexivity.
Qed.
Theorem C47_custom_network_refuted : forall D e b pol c es perf states p_swap a0 r0 delta trans expf T, macro_input D e b pol c es perf states p_swap -> (0 <= delta)%R ->
  exists w, macro_layer e b c es perf a0 r0 delta (Some T) states p_swap trans = Ok w /\
    forall d ds, draws_ok (v_N (w_cv w)) d -> snd (trials_macro expf w (d :: ds)) = Err AttributeError.
Proof.
  intros D e b pol c es perf states p_swap a0 r0 delta trans expf T HI _. destruct (code_macro_layer D e b pol c es perf states p_swap a0 r0 delta (Some T) trans HI) as (m & w & _ & _ & _ & _ & Ew & HL & Hb & _ & _ & _ & HF & _).
  exists w. split; [exact Ew|]. intros d ds Hd. set (w0 := with_bs w (Some bs_network)) in *.
  destruct (macro_trial expf _ _ _ _ w0 w0 d HF (conj HL (fresh_live _)) Hd) as (w' & q & E & _). unfold trials_macro. cbn [for_each]. pose proof (no_network expf w d w' E Hb) as H. destruct (apply_noise_macro expf w d) as [w1 [u|er]]; cbn [snd] in H; [discriminate|]. cbn [snd]. exact H.
Qed.
Print Assumptions C47_custom_network_refuted.
(* Without the argument the network is the four-splitter one, and the layer works (C51).  Missing for the
   full statement: any other network. *)
Theorem C47_default_network_partial : forall D e b pol c es perf states p_swap a0 r0 delta trans, macro_input D e b pol c es perf states p_swap -> (0 <= delta)%R ->
  exists w T, macro_layer e b c es perf a0 r0 delta None states p_swap trans = Ok w /\ splitter_symp 4 = Ok T /\ w_bs w = Some T.
Proof.
  intros D e b pol c es perf states p_swap a0 r0 delta trans HI _. destruct (code_macro_layer D e b pol c es perf states p_swap a0 r0 delta None trans HI) as (m & w & _ & _ & _ & _ & Ew & _ & Hb & _).
  exists w, bs_network. split; [exact Ew|]. split; [reflexivity|exact Hb].
Qed.
Print Assumptions C47_default_network_partial.

(* ------------------------------------------------------------------ *)
(* C52.  What the noise does to the code.  obs is the assignment of bits on which the decoder works. *)
Definition obs (w : cvm) (v : point) : bool := match r_bit (w_red w v) with Some x => Z.odd x | None => false end.
(* after the trial every macronode has a GKP state, and every edge between micronodes has weight 1, or
   weight -1 and no p-squeezed state at its ends *)
Definition all_stars_gkp (c : scode) (w : cvm) : Prop := forall v, In v (node_list (sc_graph c)) -> r_state (w_red w v) = Some "GKP"%string.
Definition weights_fit (w : cvm) : Prop := forall x y z, In (x, y, z) (w_edges w) -> z = 1%Z \/ (z = (-1)%Z /\ state_is w "GKP" x = true /\ state_is w "GKP" y = true).
Definition small_noise (delta : R) (z : nat -> R) : Prop := forall k, (Rabs (sqrt (delta / 2) * z k) < sqrt PI / 20)%R.

Lemma xsum_sum {A} (f : A -> bool) l : Z.odd (fold_right Z.add 0%Z (map (fun x => Z.b2z (f x)) l)) = xsum f l.
Proof. induction l as [|x l IH]; [reflexivity|]. cbn [map fold_right xsum]. rewrite Z.odd_add, IH. f_equal. destruct (f x); reflexivity. Qed.
Lemma sum_perm l l' : Permutation l l' -> fold_right Z.add 0%Z l = fold_right Z.add 0%Z l'.
Proof. induction 1; cbn [fold_right]; lia. Qed.
Lemma bit_of_mod z : (z mod 2)%Z = Z.b2z (Z.odd z).
Proof. rewrite Zmod_odd. destruct (Z.odd z); reflexivity. Qed.

Lemma trials_frame expf : forall ds w w', trials_macro expf w ds = (w', Ok tt) -> same_frame w w'.
Proof.
  intros ds w w' E. pose proof (for_each_frame (apply_noise_macro expf) ds (apply_noise_frame expf) w) as H. unfold trials_macro in E. rewrite E in H. exact H.
Qed.
Lemma trials_edges expf : forall ds w w', trials_macro expf w ds = (w', Ok tt) -> w_edges w' = w_edges w.
Proof. intros ds w w' E. apply (trials_frame expf ds w w' E). Qed.

(* pos numbers the macronodes: the micronodes of v have the indices 4 pos v, ..., 4 pos v + 3 *)
Definition macro_index (c : scode) (w : cvm) (pos : point -> nat) : Prop :=
  (forall v, In v (node_list (sc_graph c)) -> pos v < List.length (node_list (sc_graph c)) /\
     forall j, j < 4 -> exists p, node_at (w_cv w) (4 * pos v + j) p /\ centre (w_U w) p = v) /\
  (forall u v, In u (node_list (sc_graph c)) -> In v (node_list (sc_graph c)) -> pos u = pos v -> u = v).
(* v is perfect, or the noise in the four measurements of its macronode is small: z k is the draw for the star of
   macronode k, z2 (3 k), ..., z2 (3 k + 2) those for its planets *)
Definition quiet (delta : R) (perf : option (list point)) (pos : point -> nat) (z z2 : nat -> R) (v : point) : Prop :=
  (exists l, perf = Some l /\ In v l) \/
  ((Rabs (sqrt (delta / 2) * z (pos v)) < sqrt PI / 20)%R /\ forall a, a < 3 -> (Rabs (sqrt (delta / 2) * z2 (3 * pos v + a)%nat) < sqrt PI / 20)%R).

Lemma macro_bits_step D e b pol c es perf states p_swap a0 r0 delta trans expf : macro_input D e b pol c es perf states p_swap ->
  exists w pos (err : list nat -> (nat -> R) -> (nat -> R) -> point -> bool) (m : macro), macro_layer e b c es perf a0 r0 delta None states p_swap trans = Ok w /\ macro_index c w pos /\
    (forall P z z2 v, In v (node_list (sc_graph c)) -> quiet delta perf pos z z2 v -> (forall u, In u (nbrs (sc_graph c) v) -> quiet delta perf pos z z2 u) -> err P z z2 v = false) /\
    fresh_layer (w_cv w) /\ macro_live (verts m) (mic_of m) (nbi_of m) (wt_of m) w w /\
    forall w1 d, macro_live (verts m) (mic_of m) (nbi_of m) (wt_of m) w w1 -> same_frame w w1 -> draws_ok (v_N (w_cv w)) d ->
      exists w', apply_noise_macro expf w1 d = (w', Ok tt) /\ macro_live (verts m) (mic_of m) (nbi_of m) (wt_of m) w w' /\ same_frame w w' /\
      (forall v, In v (node_list (sc_graph c)) -> r_bit (w_red w' v) <> None) /\
      (pol = None -> weights_fit w') /\
      ((forall k, k < List.length (node_list (sc_graph c)) -> exists j, j < 4 /\ ~ In (4 * k + j) (trial_p (w_cv w) d)) -> all_stars_gkp c w') /\
      (all_stars_gkp c w' -> weights_fit w' -> exists s, forall v, In v (node_list (sc_graph c)) ->
         r_bit (w_red w' v) = Some (Z.b2z (xorb (xsum s (nbrs (sc_graph c) v)) (err (trial_p (w_cv w) d) (d_z d) (d_z2 d) v)))).
Proof.
  intros HI. destruct (code_macro_step D e b pol c es perf states p_swap a0 r0 delta trans expf HI) as (m & w & Em & Hm & H4 & Hne & Ew & HL & Hed & Hdi & HF & Hde & HN & HP & Hpf & Hrn & Ht).
  destruct (code_macronize D e b pol c es perf states p_swap HI) as (_ & _ & _ & _ & _ & _ & Hnb & _). destruct HI as (HD & HC & He & Hp & Hst). assert (HU : (0 < unit_of 1 10)%Z) by reflexivity.
  set (dr := fun z z2 => {| d_p := []; d_unif := fun _ => 0%R; d_bit := fun _ => 0%Z; d_z := z; d_z2 := z2; d_list := fun l => l |}).
  exists w, (fun v => pos_in v (verts m)), (fun P z z2 v => Z.odd (noise_bit (w_cv w) P (nbi_of m) (dr z z2) (pos_in v (verts m)))), m. split; [exact Ew|].
  assert (Hpos : forall v, In v (node_list (sc_graph c)) -> pos_in v (verts m) < List.length (verts m) /\ nth (pos_in v (verts m)) (verts m) (0, 0, 0)%Z = v) by (intros v Hv; apply pos_in_ok; apply (Permutation_in _ (Permutation_sym HP)); assumption).
  assert (Hnlt : forall i y, i < 4 * List.length (verts m) -> nbi_of m i = Some y -> y < 4 * List.length (verts m)) by (intros i y; apply (ly_nbi _ _ _ _ _ HL)).
  split; [|split; [|split; [exact HF|split; [split; [exact HL|apply fresh_live]|]]]].
  - split.
    + intros v Hv. destruct (Hpos v Hv) as [Hlt Ev]. split; [rewrite <- (Permutation_length HP); exact Hlt|]. intros j Hj. exists (mic_of m (4 * pos_in v (verts m) + j)). split; [apply (ly_mic _ _ _ _ _ HL); lia|].
      rewrite (ly_centre _ _ _ _ _ HL) by assumption. exact Ev.
    + intros u v Hu Hv Huv. rewrite <- (proj2 (Hpos u Hu)), <- (proj2 (Hpos v Hv)), Huv. reflexivity.
  - intros P z z2 v Hv Hq Hqn. destruct (Hpos v Hv) as [Hlt Ev].
    assert (Hqu : forall k a, k < List.length (verts m) -> a < 4 -> quiet delta perf (fun v => pos_in v (verts m)) z z2 (nth k (verts m) (0, 0, 0)%Z) -> (Rabs (nu (w_cv w) P (dr z z2) k a) < sqrt PI / 20)%R).
    { intros k a Hk Ha Hqk. unfold nu, sigma. rewrite Hde. cbn [dr d_z d_z2].
      assert (H0 : forall r, (Rabs (0 * r) < sqrt PI / 20)%R) by (intros r; rewrite Rmult_0_l, Rabs_R0; pose proof spi_pos; lra).
      assert (Ek : pos_in (nth k (verts m) (0, 0, 0)%Z) (verts m) = k).
      { destruct (pos_in_ok (nth k (verts m) (0, 0, 0)%Z) (verts m) (0, 0, 0)%Z (nth_In _ _ Hk)) as [A1 A2]. apply (proj1 (NoDup_nth (verts m) (0, 0, 0)%Z) (verts_nodup (unit_of 1 10) (sc_graph c) es (padded e b) m HU Hm H4 Hne)); assumption. }
      destruct Hqk as [(l & El & Hl)|[Q1 Q2]].
      - rewrite El in Hpf. destruct (v_perf (w_cv w)) as [l'|]; [|contradiction]. rewrite (proj2 (memn_In _ _)); [apply H0|].
        apply Hpf. pose proof (pi_range P k a Ha) as Hr. split; [lia|]. unfold vx. replace (pi P k a / 4) with k; [exact Hl|]. apply (Nat.div_unique _ 4 k (pi P k a - 4 * k)); lia.
      - rewrite Ek in Q1, Q2. assert (Hx : (Rabs (sqrt (delta / 2) * (if Nat.eqb a 0 then z k else z2 (3 * k + (a - 1))%nat)) < sqrt PI / 20)%R) by (destruct (Nat.eqb_spec a 0); [exact Q1|apply Q2; lia]).
        destruct (v_perf (w_cv w)) as [l'|]; [destruct (memn _ l'); [apply H0|]|]; exact Hx. }
    rewrite (noise_local (w_cv w) (List.length (verts m)) P (nbi_of m) (dr z z2) (pos_in v (verts m)) Hnlt Hlt); [reflexivity| |].
    + intros a Ha. apply Hqu; [exact Hlt|exact Ha|]. rewrite Ev. exact Hq.
    + intros i y a Hi Hy Ha. assert (Hi' : i < 4 * List.length (verts m)) by lia. pose proof (Hnlt i y Hi' Hy) as Hyl.
      apply Hqu; [apply Nat.div_lt_upper_bound; lia|exact Ha|]. change (nth (y / 4) (verts m) (0, 0, 0)%Z) with (vx m y). apply Hqn.
      destruct (nb_attr (unit_of 1 10) (sc_graph c) es (padded e b) m HU Hm H4 Hne He Hnb i y Hi' Hy) as (t & Et & _). apply nbrs_iff.
      assert (Evi : vx m i = v) by (unfold vx; replace (i / 4) with (pos_in v (verts m)); [exact Ev|apply (Nat.div_unique _ 4 _ (i - 4 * pos_in v (verts m))); lia]).
      rewrite <- Evi, Et. discriminate.
  - intros w1 d HL1 HF1 Hd. destruct (Ht w1 d HL1 Hd) as (w' & q & E & HL' & Hfr & Hq & Hs & Hbd & _ & Hk). set (P := trial_p (w_cv w) d) in *. exists w'. split; [exact E|]. split; [exact HL'|]. split; [eapply frame_trans; eassumption|].
    split. { intros v Hv. destruct (Hpos v Hv) as [Hlt Ev]. destruct (Hk _ Hlt) as (_ & B & _). rewrite Ev in B. rewrite B. discriminate. }
    assert (Fe : w_edges w' = medges m) by (rewrite <- Hed; destruct HF1 as (_ & _ & F1 & _), Hfr as (_ & _ & F2 & _); congruence).
    split. { intros Epol x y z Hin. left. rewrite Fe in Hin. destruct (edges_match (unit_of 1 10) (sc_graph c) es (padded e b) m HU Hm H4 Hne _ Hin) as ([[u v] t] & Hf & _ & _ & Ez). cbn [fst snd] in Ez. rewrite Ez.
      destruct (code_lattice D e b pol c HC) as (vs & Hvs & EG). rewrite EG in He. destruct (rhg_exact_lattice D (code_bnds e b) pol vs (ge2_ok D _ HD) Hvs) as (_ & _ & _ & _ & _ & _ & H1). apply (H1 Epol u v). apply He. left. exact Hf. }
    split. { intros Hg v Hv. destruct (Hpos v Hv) as [Hlt Ev]. destruct (Hk _ Hlt) as (A & _). rewrite Ev in A. rewrite A.
      set (k := pos_in v (verts m)) in *. assert (Em' : memn (pi P k 0) P = false); [|rewrite Em'; reflexivity]. apply memn_false. intros Hin. rewrite (proj1 (star_spec P k)) in Hin. destruct (Hg k) as (j & Hj & Hj'); [rewrite <- (Permutation_length HP); exact Hlt|]. apply Hj'. apply Hin. exact Hj. }
    intros HG HW.
    assert (Hstate : forall i, i < 4 * List.length (verts m) -> a_state (v_attr (w_cv w') (mic_of m i)) = Some (if memn i P then "p"%string else "GKP"%string)) by (intros i Hi; apply Hs, (ly_mic _ _ _ _ _ HL), Hi).
    assert (Hed' : w_edges w' = medges m) by (rewrite <- Hed; destruct HF1 as (_ & _ & F1 & _), Hfr as (_ & _ & F2 & _); congruence).
    assert (Hw : forall i y, i < 4 * List.length (verts m) -> nbi_of m i = Some y -> y < 4 * List.length (verts m) /\ (wt_of m i = 1%R \/ (wt_of m i = (-1)%R /\ ~ In y P))).
    { intros i y Hi Hy. destruct (nbi_some (unit_of 1 10) (sc_graph c) es (padded e b) m HU Hm H4 Hne i y Hi Hy) as (Hlt & [[x1 x2] z] & Hin & Hend & Eo & ->). split; [assumption|]. cbn [snd]. destruct (HW x1 x2 z ltac:(rewrite Hed'; assumption)) as [-> |(-> & G1 & G2)]; [left; reflexivity|]. right. split; [reflexivity|].
      intros Hin'. apply memn_In in Hin'. assert (Hx : mic_of m y = x1 \/ mic_of m y = x2) by (rewrite Eo; unfold other; cbn [fst snd]; destruct (peqb x1 (mic_of m i)); auto).
      pose proof (Hstate y Hlt) as Hsy. rewrite Hin' in Hsy. unfold state_is in G1, G2. destruct Hx as [Hx|Hx]; rewrite Hx in Hsy; [rewrite Hsy in G1|rewrite Hsy in G2]; discriminate. }
    assert (Hbit : forall k, d_bit d k = 0%Z \/ d_bit d k = 1%Z). { apply Hd. }
    assert (Hstar : forall k, k < List.length (verts m) -> ~ In (pi P k 0) P).
    { intros k Hlt Hin. apply memn_In in Hin. destruct (Hk k Hlt) as (A & _). rewrite Hin in A. specialize (HG (nth k (verts m) (0, 0, 0)%Z)). cbv zeta in A. rewrite HG in A; [discriminate|]. apply (Permutation_in _ HP). apply nth_In. assumption. }
    exists (fun u => Z.odd (sbit P q (pos_in u (verts m)))). intros v Hv. destruct (Hpos v Hv) as [Hlt Ev]. set (k := pos_in v (verts m)) in *. destruct (Hk k Hlt) as (_ & B & _). rewrite Ev in B. rewrite B.
    rewrite (red_bit_ok (w_cv w) (List.length (verts m)) P (nbi_of m) (wt_of m) q d Hw Hq Hbit Hstar k Hlt). rewrite bit_of_mod, Z.odd_add. f_equal. f_equal. f_equal.
    pose proof (nb_perm (unit_of 1 10) (sc_graph c) es (padded e b) m HU Hm H4 Hne He Hnb k Hlt) as HPn. rewrite Ev in HPn. rewrite <- (xsum_perm _ _ _ HPn).
    rewrite <- xsum_sum.
    (* the sum over places is the sum over neighbours *)
    set (f := fun i => match nbi_of m i with Some y => sbit P q (y / 4) | None => 0%Z end).
    assert (E1 : (nb_sbit P (nbi_of m) q k 0 + nb_sbit P (nbi_of m) q k 1 + nb_sbit P (nbi_of m) q k 2 + nb_sbit P (nbi_of m) q k 3)%Z = fold_right Z.add 0%Z (map f (blk P k))) by (rewrite blk_list; cbn [map fold_right]; unfold nb_sbit, f; lia).
    rewrite E1, (sum_perm _ (map f (seq (4 * k) 4)) (Permutation_map _ (blk_perm P k))).
    unfold nb_list. replace (seq (4 * k) 4) with (map (fun j => 4 * k + j) (seq 0 4)) by (cbn [map seq]; repeat (f_equal; try lia)).
    assert (Hj : forall j, In j (seq 0 4) -> 4 * k + j < 4 * List.length (verts m)) by (intros j Hj; apply in_seq in Hj; lia).
    clear - Hj Hnlt HU Hm H4 Hne. induction (seq 0 4) as [|j l IH]; [reflexivity|]. cbn [map fold_right flat_map].
    rewrite Z.odd_add, IH by (intros; apply Hj; right; assumption). unfold f at 1. destruct (nbi_of m (4 * k + j)) as [y|] eqn:Ey; [|cbn [app]; change (Z.odd 0) with false; apply xorb_false_l]. cbn [app map fold_right]. rewrite Z.odd_add. f_equal.
    assert (Hy : y < 4 * List.length (verts m)) by (apply (Hnlt (4 * k + j)); [apply Hj; left; reflexivity|assumption]). destruct (vert_of (unit_of 1 10) (sc_graph c) es (padded e b) m HU Hm H4 Hne y Hy) as (Hy4 & Hyv & _).
    assert (Ep : pos_in (vx m y) (verts m) = y / 4). { unfold vx. destruct (pos_in_ok _ _ (0, 0, 0)%Z Hyv) as [A1 A2]. apply (proj1 (NoDup_nth (verts m) (0, 0, 0)%Z) (verts_nodup (unit_of 1 10) (sc_graph c) es (padded e b) m HU Hm H4 Hne)); assumption. }
    rewrite Ep. destruct (Z.odd (sbit P q (y / 4))); reflexivity.
Qed.

Theorem C52_bits : forall D e b pol c es perf states p_swap a0 r0 delta trans expf, macro_input D e b pol c es perf states p_swap -> (0 <= delta)%R ->
  exists w pos (err : list nat -> (nat -> R) -> (nat -> R) -> point -> bool), macro_layer e b c es perf a0 r0 delta None states p_swap trans = Ok w /\ macro_index c w pos /\
    (* the error of v is caused by large noise in v or in a neighbour of v *)
    (forall P z z2 v, In v (node_list (sc_graph c)) -> quiet delta perf pos z z2 v -> (forall u, In u (nbrs (sc_graph c) v) -> quiet delta perf pos z z2 u) -> err P z z2 v = false) /\
    forall ds d, Forall (draws_ok (v_N (w_cv w))) (ds ++ [d]) -> exists w', trials_macro expf w (ds ++ [d]) = (w', Ok tt) /\
      (all_stars_gkp c w' -> weights_fit w' -> exists s, forall v, In v (node_list (sc_graph c)) ->
         r_bit (w_red w' v) = Some (Z.b2z (xorb (xsum s (nbrs (sc_graph c) v)) (err (trial_p (w_cv w) d) (d_z d) (d_z2 d) v)))).
Proof.
  intros D e b pol c es perf states p_swap a0 r0 delta trans expf HI _. destruct (macro_bits_step D e b pol c es perf states p_swap a0 r0 delta trans expf HI) as (w & pos & err & m & Ew & Hi & Hl & HF & HL & Ht).
  exists w, pos, err. split; [exact Ew|]. split; [exact Hi|]. split; [exact Hl|]. intros ds d Hd. apply Forall_app in Hd. destruct Hd as [Hds Hd]. apply Forall_inv in Hd.
  destruct (macro_trials expf _ _ _ _ w ds HF Hds w HL) as (w1 & E1 & HL1 & _). destruct (Ht w1 d HL1 (trials_frame expf ds w w1 E1) Hd) as (w' & E & _ & _ & _ & _ & _ & Hb). exists w'.
  split; [unfold trials_macro in *; rewrite for_each_app, E1; cbn [for_each]; rewrite E; reflexivity|exact Hb].
Qed.
Print Assumptions C52_bits.

Lemma verdict_false D e b pol c : dims_ge2 D -> is_surface_code D e b pol c -> forall sanity, check_correction c (fun _ => false) sanity = Ok true.
Proof.
  intros HD HC s. rewrite (check_correction_eq D e b pol c HD HC). f_equal. induction (logical_axes e b) as [|a l IH]; [reflexivity|]. cbn [forallb]. rewrite IH, andb_true_r. apply negb_true_iff. unfold plane. apply xsum_all_false. intros; apply andb_false_r || reflexivity.
Qed.
Lemma obs_bit w' x v : r_bit (w_red w' v) = Some (Z.b2z x) -> obs w' v = x.
Proof. unfold obs. intros ->. destruct x; reflexivity. Qed.
Lemma syn_in_nodes D e b pol c : dims_ge2 D -> is_surface_code D e b pol c -> forall q, In q (sc_syn c) -> In q (node_list (sc_graph c)).
Proof. intros HD HC q Hq. destruct (C05_qubits_checked_once_or_twice D e b pol c HD HC) as (_ & H & _). apply H in Hq. apply Hq. Qed.

(* Trials without noise, or with noise so small that no outcome leaves its bin, and trials whose points
   are all perfect: every stabilizer is even, and there is no logical error. *)
Theorem C52_small_noise_is_harmless : forall D e b pol c es perf states p_swap a0 r0 delta trans expf, macro_input D e b pol c es perf states p_swap -> (0 <= delta)%R ->
  exists w, macro_layer e b c es perf a0 r0 delta None states p_swap trans = Ok w /\
    forall ds d, Forall (draws_ok (v_N (w_cv w))) (ds ++ [d]) -> exists w', trials_macro expf w (ds ++ [d]) = (w', Ok tt) /\
      (all_stars_gkp c w' -> weights_fit w' ->
       (small_noise delta (d_z d) /\ small_noise delta (d_z2 d)) \/ (exists l, perf = Some l /\ incl (node_list (sc_graph c)) l) ->
       (forall st, In st (sc_stabs c) -> stab_parity (obs w') st = false) /\ forall sanity, check_correction c (obs w') sanity = Ok true).
Proof.
  intros D e b pol c es perf states p_swap a0 r0 delta trans expf HI Hde. destruct (C52_bits D e b pol c es perf states p_swap a0 r0 delta trans expf HI Hde) as (w & pos & err & Ew & [_ _] & Hloc & Ht). exists w. split; [exact Ew|].
  intros ds d Hd. destruct (Ht ds d Hd) as (w' & E & Hs). exists w'. split; [exact E|]. intros HG HW Hc. destruct (Hs HG HW) as (s & Hb). destruct HI as (HD & HC & _).
  assert (H0 : forall v, In v (node_list (sc_graph c)) -> err (trial_p (w_cv w) d) (d_z d) (d_z2 d) v = false).
  { assert (Hq : forall u, In u (node_list (sc_graph c)) -> quiet delta perf pos (d_z d) (d_z2 d) u).
    { intros u Hu. destruct Hc as [[H1 H2]|(l & H1 & H2)]; [right; split; [apply H1|intros a _; apply H2]|left; exists l; split; [exact H1|apply H2, Hu]]. }
    intros v Hv. apply Hloc; [exact Hv|apply Hq, Hv|]. intros u Hu. apply Hq. destruct (code_lattice D e b pol c HC) as (vs & Hvs & EG). rewrite EG in *. apply nbrs_iff in Hu. eapply rhg_ends; [apply ge2_ok, HD|exact Hvs|]. rewrite edge_attr_sym. exact Hu. }
  assert (SV : same_verdict c (obs w') (fun _ => false)).
  { eapply verdict_trans; [|apply (verdict_gauge D e b pol c HD HC s (fun _ => false))]. apply (verdict_ext D e b pol c HD HC). intros q Hq. apply obs_bit. pose proof (syn_in_nodes D e b pol c HD HC q Hq) as Hn. rewrite Hb, H0 by assumption. reflexivity. }
  destruct SV as [S1 S2]. split; [intros st Hst; rewrite S1 by assumption; apply xsum_all_false; reflexivity|]. intros sanity. rewrite S2. apply (verdict_false D e b pol c HD HC).
Qed.
Print Assumptions C52_small_noise_is_harmless.

(* The drawn states are irrelevant: two trials, each after any others, with the same p-squeezed locations
   and the same measurement noise have the same syndrome and the same verdict, whatever the values of
   the GKP states and the positions of the p-squeezed states. *)
Theorem C52_only_noise_matters : forall D e b pol c es perf states p_swap a0 r0 delta trans expf, macro_input D e b pol c es perf states p_swap -> (0 <= delta)%R ->
  exists w, macro_layer e b c es perf a0 r0 delta None states p_swap trans = Ok w /\
    forall ds d ds' d', Forall (draws_ok (v_N (w_cv w))) (ds ++ [d]) -> Forall (draws_ok (v_N (w_cv w))) (ds' ++ [d']) ->
      d_p d = d_p d' -> (forall k, d_z d k = d_z d' k) -> (forall k, d_z2 d k = d_z2 d' k) ->
      exists w1 w2, trials_macro expf w (ds ++ [d]) = (w1, Ok tt) /\ trials_macro expf w (ds' ++ [d']) = (w2, Ok tt) /\
        (all_stars_gkp c w1 -> weights_fit w1 -> all_stars_gkp c w2 -> weights_fit w2 ->
         (forall st, In st (sc_stabs c) -> stab_parity (obs w1) st = stab_parity (obs w2) st) /\ forall sanity, check_correction c (obs w1) sanity = check_correction c (obs w2) sanity).
Proof.
  intros D e b pol c es perf states p_swap a0 r0 delta trans expf HI Hde. destruct (C52_bits D e b pol c es perf states p_swap a0 r0 delta trans expf HI Hde) as (w & pos & err & Ew & _ & _ & Ht). exists w. split; [exact Ew|].
  intros ds d ds' d' Hd Hd' Ep Ez Ez2. destruct (Ht ds d Hd) as (w1 & E1 & Hs1). destruct (Ht ds' d' Hd') as (w2 & E2 & Hs2). exists w1, w2. split; [exact E1|]. split; [exact E2|]. intros G1 W1 G2 W2. destruct (Hs1 G1 W1) as (s1 & B1). destruct (Hs2 G2 W2) as (s2 & B2). destruct HI as (HD & HC & _).
  assert (EP : trial_p (w_cv w) d = trial_p (w_cv w) d') by (unfold trial_p; rewrite Ep; reflexivity).
  assert (EZ : d_z d = d_z d') by (apply FunctionalExtensionality.functional_extensionality; assumption). assert (EZ2 : d_z2 d = d_z2 d') by (apply FunctionalExtensionality.functional_extensionality; assumption). rewrite EP, EZ, EZ2 in B1.
  set (er := err (trial_p (w_cv w) d') (d_z d') (d_z2 d')) in *.
  assert (G : forall w' s, (forall v, In v (node_list (sc_graph c)) -> r_bit (w_red w' v) = Some (Z.b2z (xorb (xsum s (nbrs (sc_graph c) v)) (er v)))) -> same_verdict c (obs w') er).
  { intros w' s B. eapply verdict_trans; [|apply (verdict_gauge D e b pol c HD HC s er)]. apply (verdict_ext D e b pol c HD HC). intros q Hq. apply obs_bit. apply B. apply (syn_in_nodes D e b pol c HD HC q Hq). }
  destruct (G w1 s1 B1) as [A1 A2]. destruct (G w2 s2 B2) as [A3 A4]. split; [intros st Hst; rewrite A1, A3 by assumption; reflexivity|intros sn; rewrite A2, A4; reflexivity].
Qed.
Print Assumptions C52_only_noise_matters.

(* Edge weights of -1 break this.  For every code with an edge of weight -1 (for instance with the
   alternating polarity) from a qubit v there is one micronode such that, when it is p-squeezed, trials
   without any noise, in which every macronode still has a GKP state, can flip exactly the bit of v: a
   random error reported by the syndrome. *)
Theorem C52_negative_weights_refuted : forall D e b pol c es perf a0 r0 delta trans expf v u t,
  macro_input D e b pol c es perf None None -> (0 <= delta)%R -> edge_attr (sc_graph c) v u = Some t -> eweight t = (-1)%Z ->
  exists y w d, macro_layer e b c es perf a0 r0 delta None (Some [("p"%string, arr [y])]) None trans = Ok w /\ draws_ok (v_N (w_cv w)) d /\
    (forall k, d_z d k = 0%R /\ d_z2 d k = 0%R) /\
    exists w', trials_macro expf w [d] = (w', Ok tt) /\ all_stars_gkp c w' /\
      (forall q, In q (node_list (sc_graph c)) -> obs w' q = peqb q v) /\
      (forall st, In st (sc_stabs c) -> stab_parity (obs w') st = pmem v st).
Proof.
  intros D e b pol c es perf a0 r0 delta trans expf v u t HI _ Ht Hwt.
  destruct (code_macronize D e b pol c es perf None None HI) as (m & Em & Hm & H4 & Hne & _ & Hnb & _).
  pose proof HI as (HD & HC & He & Hp & _). assert (HU : (0 < unit_of 1 10)%Z) by reflexivity.
  destruct (code_macro_layer D e b pol c es perf None None a0 r0 delta None trans HI) as (m1 & w1 & Em1 & _ & _ & _ & _ & _ & _ & _ & _ & _ & _ & _ & _ & HP & _). assert (m1 = m) by congruence. subst m1.
  assert (Hvn : In v (node_list (sc_graph c))). { destruct (code_lattice D e b pol c HC) as (vs & Hvs & EG). rewrite EG in *. apply (rhg_ends D (code_bnds e b) pol vs v u (ge2_ok D _ HD) Hvs). congruence. }
  assert (Hv : In v (verts m)) by (apply (Permutation_in _ (Permutation_sym HP)); assumption). destruct (pos_in_ok v (verts m) (0, 0, 0)%Z Hv) as [Hlt Ev]. set (k := pos_in v (verts m)) in *.
  assert (Hu : In u (nb_list m k)). { apply (Permutation_in _ (Permutation_sym (nb_perm (unit_of 1 10) (sc_graph c) es (padded e b) m HU Hm H4 Hne He Hnb k Hlt))). rewrite Ev. apply nbrs_iff. congruence. }
  unfold nb_list in Hu. apply in_flat_map in Hu. destruct Hu as (j & Hj & Hu). apply in_seq in Hj. set (x := 4 * k + j) in *. destruct (nbi_of m x) as [y|] eqn:Ey; [|destruct Hu]. destruct Hu as [Hu|[]].
  assert (Hx : x < 4 * List.length (verts m)) by (unfold x; lia). assert (Hxk : x / 4 = k) by (apply div4; lia).
  destruct (nbi_some (unit_of 1 10) (sc_graph c) es (padded e b) m HU Hm H4 Hne x y Hx Ey) as (Hy & _).
  destruct (nb_attr (unit_of 1 10) (sc_graph c) es (padded e b) m HU Hm H4 Hne He Hnb x y Hx Ey) as (t' & Et & Ew). rewrite Hu in Et. assert (Evx : vx m x = v) by (unfold vx; rewrite Hxk; exact Ev). rewrite Evx, Ht in Et. injection Et as <-. rewrite Hwt in Ew.
  assert (HI' : macro_input D e b pol c es perf (Some [("p"%string, arr [y])]) None).
  { split; [exact HD|]. split; [exact HC|]. split; [exact He|]. split; [exact Hp|]. right. right. exists [y]. split; [reflexivity|]. intros i [<-|[]]. rewrite <- (Permutation_length HP). exact Hy. }
  destruct (code_macro_trial D e b pol c es perf (Some [("p"%string, arr [y])]) None a0 r0 delta trans expf HI') as (m2 & w & Em2 & _ & _ & _ & El & HL & _ & _ & HF & _ & HN & _ & _ & Htr). assert (m2 = m) by congruence. subst m2.
  set (d := {| d_p := []; d_unif := fun _ => (1 / 4)%R; d_bit := fun _ => 0%Z; d_z := fun _ => 0%R; d_z2 := fun _ => 0%R; d_list := fun l => l |}).
  assert (Hd : draws_ok (v_N (w_cv w)) d) by (split; [constructor|]; split; [intros i []|]; split; [intros; cbn; lra|]; split; [left; reflexivity|]; intros l _; apply Permutation_refl).
  exists y, w, d. split; [exact El|]. split; [exact Hd|]. split; [split; reflexivity|].
  destruct (Htr [] d ltac:(constructor; [exact Hd|constructor])) as (w' & q & Etr & HL' & _ & Hq & Hs & Hbd & Hk). exists w'. split; [exact Etr|].
  assert (EP : trial_p (w_cv w) d = [y]).
  { unfold trial_p. assert (Hps : v_pswap (w_cv w) = None /\ v_states (w_cv w) = [("p"%string, arr [y])]). 
    { unfold macro_layer, cvm_init in El. rewrite Em in El. cbn [bind] in El. destruct (cv_init (macro_egraph (unit_of 1 10) m) a0 (m_perf m) None delta (Some [("p"%string, arr [y])]) None (Some "two-step"%string) trans) as (g & r) eqn:Ec. cbn [snd] in El. destruct r as [cc|]; [|discriminate]. cbn [bind] in El. injection El as <-. cbn [w_cv].
      unfold cv_init in Ec. destruct (adj_generator _ _) as [g1 ra]. destruct ra as [rows|er]; cbn [bind] in Ec; [|discriminate]. destruct (match m_perf m with None => _ | Some ps => _ end) as [pinds|er]; cbn [bind] in Ec; [|discriminate]. injection Ec as _ <-. split; reflexivity. }
    destruct Hps as [-> Hps]. unfold inds_of. rewrite Hps. reflexivity. }
  rewrite EP in *.
  assert (Hred : forall k0, k0 < List.length (verts m) -> r_bit (w_red w' (nth k0 (verts m) (0, 0, 0)%Z)) = Some (if Nat.eqb k0 k then 1%Z else 0%Z)).
  { intros k0 Hk0. destruct (Hk k0 Hk0) as (_ & B & _). rewrite B. f_equal. rewrite <- Hxk. apply (negative_arm (w_cv w) (List.length (verts m)) (nbi_of m) (wt_of m) q d x y Hx Hy Ey); try assumption.
    - intros i Hi Ei. destruct (nbi_sym (unit_of 1 10) (sc_graph c) es (padded e b) m HU Hm H4 Hne i y Hi Ei) as [E1 _]. destruct (nbi_sym (unit_of 1 10) (sc_graph c) es (padded e b) m HU Hm H4 Hne x y Hx Ey) as [E2 _]. congruence.
    - intros i Hi Hn. destruct (proj1 Hq i Hi) as (bb & Hbb & ->); [intros [H|[]]; congruence|]. destruct Hbb as [->|(kk & ->)]; cbn [d d_bit]; lra.
    - destruct (proj2 Hq y (or_introl eq_refl)) as (kk & _ & ->). cbn [d d_unif]. lra.
    - intros k1 a1. unfold nu. cbn [d d_z d_z2]. destruct (Nat.eqb a1 0); lra.
    - intros i i' Hi Hi'. apply (ly_nbi _ _ _ _ _ HL i i' Hi Hi'). }
  assert (Hobs : forall q0, In q0 (node_list (sc_graph c)) -> obs w' q0 = peqb q0 v).
  { intros q0 Hq0. apply (Permutation_in _ (Permutation_sym HP)) in Hq0. destruct (pos_in_ok q0 (verts m) (0, 0, 0)%Z Hq0) as [H1 H2]. unfold obs. rewrite <- H2 at 1. rewrite Hred by assumption. destruct (Nat.eqb_spec (pos_in q0 (verts m)) k) as [E|E].
    - rewrite E, Ev in H2. subst q0. rewrite peqb_refl. reflexivity.
    - symmetry. apply peqb_false. intros ->. apply E. reflexivity. }
  split; [|split; [exact Hobs|]].
  - intros q0 Hq0. apply (Permutation_in _ (Permutation_sym HP)) in Hq0. destruct (pos_in_ok q0 (verts m) (0, 0, 0)%Z Hq0) as [H1 H2]. destruct (Hk (pos_in q0 (verts m)) H1) as (A & _). rewrite H2 in A. rewrite A.
    assert (Em' : memn (pi [y] (pos_in q0 (verts m)) 0) [y] = false); [|rewrite Em'; reflexivity]. apply memn_false. intros Hi. rewrite (proj1 (star_spec [y] _)) in Hi. pose proof (Hi 0 ltac:(lia)) as [Ha|[]]. pose proof (Hi 1 ltac:(lia)) as [Hb|[]]. lia.
  - intros st Hst. unfold stab_parity. pose proof (surface_code_facts D e b pol c (ge2_ok D (code_bnds e b) HD) HC) as CF.
    assert (Hnd : NoDup st) by (pose proof (cf_stabs _ _ _ _ _ CF) as HFF; clear - HFF Hst; induction HFF as [|a0 s l l' [H _] _ IH]; [destruct Hst|]; destruct Hst as [->|Hst]; auto).
    rewrite (xsum_ext _ (fun q0 => peqb q0 v)) by (intros q0 Hq0; apply Hobs; apply (syn_in_nodes D e b pol c HD HC), (stab_syn D e b pol c HD HC st); assumption).
    clear - Hnd. induction st as [|a st IH]; [reflexivity|]. apply NoDup_cons_iff in Hnd. destruct Hnd as [Ha Hnd]. cbn [xsum pmem existsb]. rewrite (IH Hnd). change (existsb (peqb v) st) with (pmem v st). destruct (peqb a v) eqn:E.
    + apply peqb_true in E. subst a. rewrite peqb_refl. apply pmem_false in Ha. rewrite Ha. reflexivity.
    + assert (E' : peqb v a = false) by (apply peqb_false; apply peqb_false in E; congruence). rewrite E'. destruct (pmem v st); reflexivity.
Qed.
Print Assumptions C52_negative_weights_refuted.

(* The hypotheses of these theorems: with the default polarity the weights fit after every trial, and
   every macronode has a GKP state unless its four indices are all among the p-squeezed ones. *)
Theorem C52_default_polarity : forall D e b c es perf states p_swap a0 r0 delta trans expf, macro_input D e b None c es perf states p_swap -> (0 <= delta)%R ->
  exists w, macro_layer e b c es perf a0 r0 delta None states p_swap trans = Ok w /\
    forall ds d, Forall (draws_ok (v_N (w_cv w))) (ds ++ [d]) -> exists w', trials_macro expf w (ds ++ [d]) = (w', Ok tt) /\ weights_fit w' /\
      ((forall k, k < List.length (node_list (sc_graph c)) -> exists j, j < 4 /\ ~ In (4 * k + j) (trial_p (w_cv w) d)) -> all_stars_gkp c w').
Proof.
  intros D e b c es perf states p_swap a0 r0 delta trans expf HI _. destruct (code_macro_trial D e b None c es perf states p_swap a0 r0 delta trans expf HI) as (m & w & _ & Hm & H4 & Hne & Ew & HL & Hed & _ & HF & _ & HN & HP & _ & Ht).
  exists w. split; [exact Ew|]. intros ds d Hd. destruct (Ht ds d Hd) as (w' & q & E & _ & _ & _ & _ & _ & Hk). exists w'. split; [exact E|]. assert (HU : (0 < unit_of 1 10)%Z) by reflexivity. destruct HI as (HD & HC & He & _). split.
  - intros x y z Hin. left. rewrite (trials_edges expf _ _ _ E), Hed in Hin. destruct (edges_match (unit_of 1 10) (sc_graph c) es (padded e b) m HU Hm H4 Hne _ Hin) as ([[u v] t] & Hf & _ & _ & Ez). cbn [fst snd] in Ez. rewrite Ez.
    destruct (code_lattice D e b None c HC) as (vs & Hvs & EG). rewrite EG in He. destruct (rhg_exact_lattice D (code_bnds e b) None vs (ge2_ok D _ HD) Hvs) as (_ & _ & _ & _ & _ & _ & H1). apply (H1 eq_refl u v). apply He. left. exact Hf.
  - intros Hg v Hv. apply (Permutation_in _ (Permutation_sym HP)) in Hv. destruct (pos_in_ok v (verts m) (0, 0, 0)%Z Hv) as [Hlt Ev]. destruct (Hk _ Hlt) as (A & _). rewrite Ev in A. rewrite A.
    set (P := trial_p (w_cv w) d) in *. set (k := pos_in v (verts m)) in *. assert (Em : memn (pi P k 0) P = false); [|rewrite Em; reflexivity]. apply memn_false. intros Hin. rewrite (proj1 (star_spec P k)) in Hin. destruct (Hg k) as (j & Hj & Hj'); [rewrite <- (Permutation_length HP); exact Hlt|]. apply Hj'. apply Hin. exact Hj.
Qed.
Print Assumptions C52_default_polarity.
(* concrete inputs: a code with some perfect points and some p-squeezed states, and the alternating
   polarity, which has edges of weight -1 *)
Example C52_witness :
  (forall D e b, dims_ge2 D -> macro_input D e b None (mk_code D e b None) (gedges (sc_graph (mk_code D e b None))) (Some [hd (0, 0, 0)%Z (node_list (sc_graph (mk_code D e b None)))]) (Some [("p"%string, arr [1; 6])]) None) /\
  (forall D e b, dims_ge2 D -> macro_input D e b (Some apol) (mk_code D e b (Some apol)) (gedges (sc_graph (mk_code D e b (Some apol)))) None None None) /\
  exists u t, edge_attr (sc_graph (mk_code (2, 2, 2)%Z EcPrimal BdOpen (Some apol))) (1, 1, 2)%Z u = Some t /\ eweight t = (-1)%Z.
Proof.
  assert (G : forall D e b pol, dims_ge2 D -> edge_enum (sc_graph (mk_code D e b pol)) (gedges (sc_graph (mk_code D e b pol))) /\ In (1, 1, 2)%Z (node_list (sc_graph (mk_code D e b pol))) /\ In (1, 2, 1)%Z (node_list (sc_graph (mk_code D e b pol)))).
  { intros D e b pol HD. destruct (code_lattice D e b pol (mk_code D e b pol) (mk_code_ok _ _ _ _)) as (vs & Hvs & ->). split; [apply rhg_edge_enum; [apply ge2_ok; assumption|assumption]|].
    destruct (rhg_exact_lattice D (code_bnds e b) pol vs (ge2_ok D _ HD) Hvs) as (_ & EN & _). split; apply EN; left; (split; [|reflexivity]); intros a; pose proof (HD a) as Ha; unfold in_range; destruct a; cbn [co get] in *; destruct (get _ (code_bnds e b)); simpl; lia. }
  split; [|split].
  - intros D e b HD. destruct (G D e b None HD) as (G1 & G2 & G3). split; [assumption|]. split; [apply mk_code_ok|]. split; [assumption|]. split.
    + intros x [<-|[]]. destruct (node_list (sc_graph (mk_code D e b None))); [destruct G2|left; reflexivity].
    + right. right. exists [1; 6]. split; [reflexivity|]. assert (Hl : 2 <= List.length (node_list (sc_graph (mk_code D e b None)))). { destruct (node_list (sc_graph (mk_code D e b None))) as [|x [|y l]]; [destruct G2|destruct G2 as [->|[]]; destruct G3 as [G3|[]]; discriminate|simpl; lia]. } intros i [<-|[<-|[]]]; lia.
  - intros D e b HD. destruct (G D e b (Some apol) HD) as (G1 & _). split; [assumption|]. split; [apply mk_code_ok|]. split; [assumption|]. split; [exact I|]. left. reflexivity.
  - assert (E : exists u, In u (nbrs (sc_graph (mk_code (2, 2, 2)%Z EcPrimal BdOpen (Some apol))) (1, 1, 2)%Z) /\ has_weight (sc_graph (mk_code (2, 2, 2)%Z EcPrimal BdOpen (Some apol))) (-1) (1, 1, 2)%Z u = true).
    { apply existsb_exists. vm_compute. reflexivity. }
    destruct E as (u & _ & Hw). unfold has_weight in Hw. exists u. destruct (edge_attr _ _ _) as [t|]; [|discriminate]. exists t. split; [reflexivity|]. apply Z.eqb_eq. exact Hw.
Qed.
