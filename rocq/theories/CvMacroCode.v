(* CvMacroCode.v: CVMacroLayer on a SurfaceCode. *)
From Coq Require Import String.
From Verif Require Import Base Lattice RhgModel RhgSpec RhgProofs RhgDegree SurfaceModel SurfaceSpec SurfaceProofs SurfaceTheorems PropsSurface
  GkpModel OpsModel EgraphModel EgraphSpec EgraphProofs EgraphInv PropsEgraph MacroModel MacroSpec MacroMain PropsMacro
  CvModel CvSpec CvProofs PropsCv CvSurface CvMacroModel CvMacroLists CvMacroSpec CvMacroProofs CvMacroTrial CvMacroReduce CvMacroSurface CvMacroInit.
Open Scope nat_scope.

(* code.bound_str != "periodic", cv.py 371 *)
Definition padded (e : ecx) (b : bdk) : bool := match bound_str (ec_str e) (bd_str b) with Ok s => negb (String.eqb s "periodic") | Err _ => true end.
(* the arguments of CVMacroLayer(code, delta, p_swap=..., states=...): a surface code with its edges in
   any order, perfect points among its nodes, documented states *)
Definition macro_input (D : dims) (e : ecx) (b : bdk) (pol : option (point * point -> Z)) (c : scode) (es : list ((point * point) * eattr)) (perf : option (list point))
    (states : option (list (string * idxs))) (p_swap : option R) : Prop :=
  dims_ge2 D /\ is_surface_code D e b pol c /\ edge_enum (sc_graph c) es /\ match perf with Some l => incl l (node_list (sc_graph c)) | None => True end /\
  documented_states (4 * List.length (node_list (sc_graph c))) states p_swap.

Lemma code_macronize D e b pol c es perf states p_swap : macro_input D e b pol c es perf states p_swap ->
  exists m, macronize (sc_graph c) es perf (padded e b) 1 10 = Ok m /\ macronized (unit_of 1 10) (sc_graph c) es (padded e b) m /\
    (forall v l, In (v, l) (m_dict m) -> List.length l = 4) /\ node_list (sc_graph c) <> [] /\
    match m_perf m with Some l => incl l (node_list (m_graph m)) | None => True end /\ (forall v, NoDup (nbrs (sc_graph c) v)) /\
    match perf, m_perf m with
    | Some l, Some l' => forall x, In x l' <-> exists v, In v l /\ micronode m v x
    | None, None => True
    | _, _ => False
    end.
Proof.
  intros (HD & HC & He & Hp & _). destruct (code_lattice D e b pol c HC) as (vs & Hvs & EG). set (B := code_bnds e b) in *. pose proof (ge2_ok D B HD) as HO. rewrite EG in *.
  destruct (C32_macronize_partial D B pol vs es perf (padded e b) 1 10 HO Hvs He Hp ltac:(lia) ltac:(lia) ltac:(intros; lia)) as (m & E & Hm & Hpf).
  exists m. split; [assumption|]. split; [assumption|]. split; [|split; [|split; [|split]]].
  - intros v l Hl. destruct (mz_size _ _ _ _ _ Hm v l Hl) as [_ ->]. assert (Hv : In v (node_list (rhg_graph D B pol vs))) by (apply (mz_keys _ _ _ _ _ Hm); apply (in_map fst _ _ Hl)).
    destruct (padded e b) eqn:Eb; [assert (List.length (nbrs (rhg_graph D B pol vs) v) <= 4) by (eapply degree_le_4; eassumption); lia|]. destruct b; try (destruct e; discriminate). assert (EB : B = (BPeriodic, BPeriodic, BPeriodic)) by (unfold B; destruct e; reflexivity). clearbody B. subst B.
    apply (periodic_size_and_degree D pol vs HD Hvs). assumption.
  - destruct (rhg_exact_lattice D B pol vs HO Hvs) as (_ & EN & _). assert (HX : In (1, 1, 2)%Z (node_list (rhg_graph D B pol vs))). { apply EN. left. split; [|reflexivity]. intros a. pose proof (HD a) as Ha. unfold in_range. destruct a; cbn [co get] in *; destruct (get _ B); simpl; lia. } intros E0. rewrite E0 in HX. destruct HX.
  - destruct (m_perf m) as [l'|]; [|exact I]. destruct perf as [l|]; [|contradiction]. intros x Hx. apply Hpf in Hx. destruct Hx as (v & _ & Hx). apply (mz_nodes _ _ _ _ _ Hm). eauto.
  - intros v. apply G_nbrs_NoDup.
  - exact Hpf.
Qed.
