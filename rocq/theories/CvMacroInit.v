(* CvMacroInit.v: the constructor of CVMacroLayer. *)
From Coq Require Import String.
From Verif Require Import Base Lattice RhgModel RhgDegree GkpModel OpsModel EgraphModel EgraphSpec EgraphProofs EgraphInv PropsEgraph MacroModel MacroSpec MacroMain PropsMacro
  CvModel CvSpec CvProofs PropsCv CvMacroModel CvMacroLists CvMacroSpec CvMacroSurface.
Open Scope nat_scope.

Section Init.
  Variables (g : egr) (es : list ((point * point) * eattr)) (pad : bool) (perf : option (list point)) (m : macro).
  Notation U := (unit_of 1 10).
  Hypothesis Hmac : macronize g es perf pad 1 10 = Ok m.
  Hypothesis Hm : macronized U g es pad m.
  Hypothesis H4 : forall v l, In (v, l) (m_dict m) -> List.length l = 4.
  Hypothesis Hne : node_list g <> [].
  Hypothesis Hperf : match m_perf m with Some l => incl l (node_list (m_graph m)) | None => True end.
  Notation n := (List.length (verts m)).
  Lemma U_pos : (0 < U)%Z.
  Proof. reflexivity. Qed.
  Lemma macro_adj : exists g1 rows, adj_generator (macro_egraph U m) true = (g1, Ok rows) /\ current g1 rows /\ e_edges g1 = medges m /\ List.length (e_nodes g1) = 4 * n /\
    (forall p i, pnt g1 i = Some p <-> nth_error (order m) i = Some p) /\ (forall p, In p (node_list (m_graph m)) -> exists d i, e_idx g1 = Some d /\ dget peqb d p = Some i /\ nth_error (order m) i = Some p).
  Proof.
    set (h := macro_egraph U m). destruct (C32_macro_egraph U g es pad m U_pos Hm) as (Hf & Hcov & _). fold h in Hf, Hcov. pose proof Hf as (Hg & (Hu1 & Hu2) & Ha).
    destruct (C28_macronode_indices h _ Hg (conj Hu1 Hu2) eq_refl eq_refl) as (gi & d & Ei & Ed & Hsi & _ & Hlt & _).
    { intros p Hp. destruct (Hcov p Hp) as (k & mm & l & E & H1 & H2). injection E as <-. eauto. }
    destruct (index_generator_ok h gi d Hg Hu1 Ei) as (HP & _ & _ & _ & I1 & I2).
    assert (EO : order_of h = order m) by (apply (order_is U g es pad m U_pos Hm H4 Hne)). rewrite EO in *.
    destruct (adj_generator h true) as (g1 & ra) eqn:Ea. destruct (C30_adjacency_current_partial 1 h h true g1 ra ltac:(lia) Hf (HNil _ _) Ea) as (HS1 & Hr).
    assert (Hp1 : e_pts g1 = e_pts gi /\ e_idx g1 = e_idx gi).
    { unfold adj_generator in Ea. rewrite Ha, Hu2, Ei in Ea. cbn [bind] in Ea. destruct (bind _ _); injection Ea as <- _; auto. }
    destruct Hp1 as [Ep Ex]. assert (Hpnt : forall i, pnt g1 i = pnt gi i) by (intros i; unfold pnt; rewrite Ep; reflexivity).
    destruct (order_spec U g es pad m U_pos Hm H4 Hne) as [HL _]. assert (HN : List.length (e_nodes g1) = 4 * n). { destruct HS1 as (-> & _). rewrite <- HL. symmetry. apply Permutation_length. exact HP. }
    destruct ra as [rows|er].
    - exists g1, rows. split; [reflexivity|]. split; [apply Hr|]. split; [destruct HS1 as (_ & -> & _); reflexivity|]. split; [assumption|]. split; [intros p i; rewrite Hpnt; apply I2|].
      intros p Hp. apply (Permutation_in _ (Permutation_sym HP)), In_nth_error in Hp. destruct Hp as (i & Hp). exists d, i. rewrite Ex, Ed. split; [reflexivity|]. split; [|assumption]. apply I1 in Hp. unfold idx in Hp. rewrite Ed in Hp. exact Hp.
    - exfalso. destruct Hr as [(_ & i & Hi & Hn)|[(_ & Hn)|(_ & _ & Hn)]].
      + rewrite Hpnt in Hn. assert (Hi' : i < List.length (order m)) by (rewrite HL, <- HN; destruct HS1 as (-> & _); assumption). destruct (nth_error (order m) i) as [p|] eqn:En; [apply I2 in En; congruence|]. apply nth_error_None in En. lia.
      + destruct HS1 as (HS1 & _). rewrite HS1, Hn in HN. pose proof (verts_pos U g es pad m U_pos Hm H4 Hne). simpl in HN. lia.
      + unfold h in Hn. cbn [macro_egraph new_egraph e_m2m] in Hn. destruct Hn as (p & Hp & Hn). apply Hn. destruct (Hcov p Hp) as (k & mm & l & E & H1 & H2). injection E as <-. apply in_concat. exists l. split; [apply (in_map snd _ _ H1)|assumption].
  Qed.
  Lemma macro_init a0 r0 delta bs states p_swap trans :
    (p_swap <> None -> forall s, states = Some s -> exists x, dget String.eqb s "p"%string = Some x /\ x_l x = []) ->
    exists w, cvm_init g es a0 r0 perf pad delta bs states p_swap None trans = Ok w /\
      layout {| w_cv := w_cv w; w_U := w_U w; w_dict := w_dict w; w_edges := w_edges w; w_bs := Some bs_network; w_rnodes := w_rnodes w; w_red := w_red w |} (verts m) (mic_of m) (nbi_of m) (wt_of m) /\
      w_bs w = (match bs with None => Some bs_network | Some _ => None end) /\ w_rnodes w = node_list g /\ w_red w = r0 /\
      v_delta (w_cv w) = delta /\ v_pswap (w_cv w) = p_swap /\
      v_states (w_cv w) = match states with Some (_ :: _) => match states with Some s => s | None => [] end | _ => [("p"%string, arr [])] end /\
      match m_perf m, v_perf (w_cv w) with
      | Some ps, Some l => forall i, In i l <-> i < 4 * n /\ In (mic_of m i) ps
      | None, None => True
      | _, _ => False
      end.
  Proof.
    intros Hs. destruct macro_adj as (g1 & rows & Ea & Hcur & Eed & HN & Hpnt & Hidx). destruct (C32_macro_egraph U g es pad m U_pos Hm) as (Hf & _).
    unfold cvm_init. rewrite Hmac. cbn [bind]. destruct (cv_init (macro_egraph U m) a0 (m_perf m) None delta states p_swap (Some "two-step"%string) trans) as (g' & r) eqn:E.
    assert (exists v, r = Ok v) as (v & ->).
    { unfold cv_init in E. rewrite Ea in E. cbn [bind] in E. destruct (match m_perf m with None => _ | Some ps => _ end) as [pinds|er] eqn:Ep.
      - cbn [bind] in E. destruct p_swap as [ps|]; [|injection E as _ <-; eauto]. destruct states as [s|]; [|injection E as _ <-; eauto]. destruct (Hs ltac:(discriminate) s eq_refl) as (x & Ex & Ex2). rewrite Ex, Ex2 in E. injection E as _ <-. eauto.
      - exfalso. destruct (m_perf m) as [ps|]; [|discriminate]. clear E. assert (G : exists pl, mapR (fun p => match e_idx g1 with Some d => match dget peqb d p with Some i => Ok i | None => Err KeyError end | None => Err TypeError end) ps = Ok pl).
        { clear Ep. revert Hperf Hidx. clear. intros Hp Hidx. induction ps as [|p ps IH]; [exists []; reflexivity|]. destruct IH as (pl & E); [intros x Hx; apply Hp; right; assumption|]. cbn [mapR]. destruct (Hidx p (Hp p (or_introl eq_refl))) as (d & i & E1 & E2 & _). rewrite E1, E2 in *. cbn [bind]. rewrite E. cbn [bind]. eauto. }
        destruct G as (pl & G). rewrite G in Ep. discriminate. }
    destruct (C39_constructor U _ _ a0 (m_perf m) None delta states p_swap (Some "two-step"%string) trans g' v U_pos Hf (HNil _ _) E) as (C1 & C2 & C3 & C4 & C5 & (rw & C6 & C6') & C7 & C8 & C9 & C10 & C11 & C12 & _).
    assert (g' = g1) by (unfold cv_init in E; rewrite Ea in E; injection E as <- _; reflexivity). subst g'.
    cbn [bind snd]. 
    assert (Eb : exists b, (match bs with None => bind (splitter_symp 4) (fun T => Ok (Some T)) | Some _ => Ok None end) = Ok b /\ b = (match bs with None => Some bs_network | Some _ => None end)) by (destruct bs; eexists; split; reflexivity).
    destruct Eb as (b & Eb & Eb'). rewrite Eb. cbn [bind]. eexists. split; [reflexivity|]. cbn [w_cv w_U w_dict w_edges w_bs w_rnodes w_red].
    assert (Hat : forall i p, node_at v i p <-> nth_error (order m) i = Some p) by (intros i p; rewrite C5; apply Hpnt).
    assert (Hmic : forall i, i < 4 * n -> node_at v i (mic_of m i)). { intros i Hi. apply Hat. unfold mic_of. apply nth_error_nth'. rewrite (proj1 (order_spec U g es pad m U_pos Hm H4 Hne)). assumption. }
    split; [|split; [assumption|split; [reflexivity|split; [reflexivity|split; [assumption|split; [assumption|split; [assumption|]]]]]]].
    - split; cbn [w_cv w_U w_dict w_edges w_bs w_rnodes w_red].
      + apply (verts_pos U g es pad m U_pos Hm H4 Hne).
      + rewrite C3. destruct C1 as (C1 & _). rewrite <- C1. exact HN.
      + exact C4.
      + exact Hmic.
      + apply (verts_nodup U g es pad m U_pos Hm H4 Hne).
      + intros v0 Hv. apply (verts_in U g es pad m U_pos Hm H4 Hne). assumption.
      + intros k j Hk Hj. apply (micro_centre U g es pad m U_pos Hm H4 Hne). destruct (vert_of U g es pad m U_pos Hm H4 Hne (4 * k + j) ltac:(lia)) as (_ & _ & H). rewrite (proj1 (div4 k j Hj)) in H. exact H.
      + intros k Hk. destruct (dict_at U g es pad m U_pos Hm H4 Hne (nth k (verts m) (0, 0, 0)%Z)) as (l & _ & Eg & El & Hl); [apply nth_In; assumption|]. rewrite Eg. f_equal.
        destruct (order_spec U g es pad m U_pos Hm H4 Hne) as [_ HO]. unfold mic_of. rewrite <- (Nat.add_0_r (4 * k)) at 1. rewrite !HO by lia. rewrite El. apply (list4 l). assumption.
      + intros i Hi. rewrite first_nbr_other. unfold nbi_of. fold (medges m). destruct (edge_at (medges m) (mic_of m i)) as [e|] eqn:Ee; [|reflexivity]. cbn [option_map]. f_equal. symmetry. destruct (edge_at_some _ _ _ Ee) as [H1 H2].
        apply (mic_pos U g es pad m U_pos Hm H4 Hne). apply (medges_in U g es pad m U_pos Hm H4 Hne e); [assumption|]. apply other_ends. assumption.
      + intros i i' Hi H. apply (nbi_some U g es pad m U_pos Hm H4 Hne i i' Hi H).
      + intros i i' Hi Hi'. rewrite C6'. destruct C6 as (_ & _ & C6). specialize (C6 i i' (mic_of m i) (mic_of m i')). rewrite HN in C6. specialize (C6 Hi Hi' (proj1 (C5 _ _) (Hmic i Hi)) (proj1 (C5 _ _) (Hmic i' Hi'))).
        assert (Hj : forall wgt, joined g1 (mic_of m i) (mic_of m i') wgt -> nbi_of m i = Some i' /\ wt_of m i = IZR wgt).
        { intros wgt H. unfold joined in H. rewrite Eed in H. assert (Hd : forall e, In e (medges m) -> fst (fst e) <> snd (fst e)) by (apply single_ends; apply (medges_single U g es pad m U_pos Hm H4 Hne)). destruct H as [H|H].
          - destruct (nbi_intro U g es pad m U_pos Hm H4 Hne i i' _ Hi Hi' H) as [N1 N2]; [left; reflexivity|unfold other; cbn [fst snd]; rewrite peqb_refl; reflexivity|auto].
          - pose proof (Hd _ H) as Hd'. cbn [fst snd] in Hd'. destruct (nbi_intro U g es pad m U_pos Hm H4 Hne i i' _ Hi Hi' H) as [N1 N2]; [right; left; reflexivity|unfold other; cbn [fst snd]; rewrite (proj2 (peqb_false _ _) Hd'); reflexivity|auto]. }
        destruct C6 as [H|[H1 H2]].
        * destruct (Hj _ H) as [-> ->]. rewrite Nat.eqb_refl. reflexivity.
        * rewrite H1. destruct (nbi_of m i) as [i1|] eqn:En; [|reflexivity]. destruct (Nat.eqb_spec i1 i') as [->|]; [|reflexivity]. exfalso.
          destruct (nbi_some U g es pad m U_pos Hm H4 Hne i i' Hi En) as (_ & e & He & Hx & Eo & _). apply (H2 (snd e)). unfold joined. rewrite Eed. destruct e as [[e1 e2] we]. cbn [snd]. unfold other in Eo. cbn [fst snd] in Eo. destruct Hx as [Hx|[Hx|[]]]; cbn [fst snd] in Hx.
          -- left. rewrite <- Hx in *. rewrite peqb_refl in Eo. rewrite Eo. exact He.
          -- right. pose proof (single_ends _ (medges_single U g es pad m U_pos Hm H4 Hne) _ He) as Hd. cbn [fst snd] in Hd. rewrite <- Hx in *. rewrite (proj2 (peqb_false _ _) Hd) in Eo. rewrite Eo. exact He.
      + exact C11.
      + reflexivity.
    - destruct (m_perf m) as [ps|], (v_perf v) as [l|]; try exact C7. intros i. rewrite C7. split.
      + intros (p & Hp & Hi). apply Hpnt in Hi. assert (Hlt : i < 4 * n) by (rewrite <- (proj1 (order_spec U g es pad m U_pos Hm H4 Hne)); apply nth_error_Some; congruence). split; [assumption|]. unfold mic_of. rewrite (nth_error_nth _ _ _ Hi). assumption.
      + intros (Hi & Hp). exists (mic_of m i). split; [assumption|]. apply C5. apply Hmic. assumption.
  Qed.
End Init.
