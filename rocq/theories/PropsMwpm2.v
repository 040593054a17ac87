(* PropsMwpm2.v: properties C17 (paths to a boundary stay on one side) and C18 (lemon
   backend) of the MWPM decoder. *)
From Verif Require Import Base Lattice RhgModel RhgSpec SurfaceModel SurfaceSpec SurfaceProofs
  SurfaceTheorems SurfaceGauge StabGraphModel Complex Paths SurfaceComplex PropsSurface MwpmModel MwpmProofs
  MwpmInst MwpmSides MwpmLemon PropsMwpm.
Open Scope Z_scope.

(* ------------------------------------------------------------------ *)
(* C18 *)
Lemma cost_bound stabs bp ch w p : (forall q, 0 <= w q) -> 0 <= cost (sg_edges stabs bp ch) w p.
Proof.
  intros Hw. unfold cost. apply sumZ_nonneg. intros [u v] _. unfold wt.
  destruct (find _ _) as [[[x y] [q|]]|]; unfold sedge_weight; simpl; auto; lia.
Qed.

(* On the matching graph of a code, whatever perfect matching of maximum inverse weight the
   C++ library returns for the adjacency matrix, min_weight_matching returns a matching of
   maximum cardinality and minimum weight.  Condition: some perfect matching of the graph
   weighs less than 2^64 - 1, the absolute value of the entry used for missing edges. *)
Theorem C18_lemon_matching_is_best :
  forall D e b pol c ch rp w o bit mg virt nodes L,
  dims_ge2 D -> is_surface_code D e b pol c -> valid_choice (sc_stabs c) ch ->
  oracle_ok (sg_edges (sc_stabs c) (sc_bound c) ch) w o ->
  match_graph rp (sg_edges (sc_stabs c) (sc_bound c) ch) w o (odd_stabs (sc_stabs c) bit)
    (has_bound_points (sc_bound c)) = Ok (mg, virt) ->
  (forall x, In x mg -> 0 <= me_w x) ->
  (* nodes lists the nodes of the matching graph, in any order *)
  Permutation nodes (map MStab (odd_stabs (sc_stabs c) bit) ++ virt) ->
  (exists M, is_matching mg M /\ Permutation (endpoints M) nodes /\ total_weight mg M < 2 ^ 64 - 1) ->
  lemon_best (adjacency mg nodes) (length nodes) L ->
  best_matching mg (lemon_matching nodes L) /\ Permutation (endpoints (lemon_matching nodes L)) nodes.
Proof.
  intros D e b pol c ch rp w o bit mg virt nodes L H2 HC Hch Ho Hmg Hpos Hnodes (M0 & HM0 & HP0 & HW0) HL.
  destruct (C16_matching_graph D e b pol c ch rp w o bit H2 HC Hch Ho) as (mg' & virt' & Hmg' & _ & Hnd & Hends & _).
  rewrite Hmg in Hmg'. injection Hmg' as <- <-.
  assert (Hn : NoDup nodes) by (eapply Permutation_NoDup; [apply Permutation_sym; exact Hnodes|exact Hnd]).
  destruct (lemon_ok mg nodes Hn Hpos M0 L HM0 HP0 HW0 HL) as (HM & HP & Hmin).
  split; [|exact HP].
  apply (perfect_is_best mg nodes); [|exact HM|exact HP|exact Hmin].
  intros x Hx.
  assert (Hin : In (me_u x, me_v x) (map (fun x => (me_u x, me_v x)) mg)) by (apply in_map_iff; eauto).
  rewrite Hends in Hin.
  assert (G : In (me_u x) (map MStab (odd_stabs (sc_stabs c) bit) ++ virt) /\ In (me_v x) (map MStab (odd_stabs (sc_stabs c) bit) ++ virt)).
  { rewrite !in_app_iff in *. destruct Hin as [Hin|[Hin|Hin]].
    - apply in_combs in Hin. tauto.
    - split; [left; eapply in_combine_l; eassumption|right; eapply in_combine_r; eassumption].
    - apply in_combs in Hin. tauto. }
  destruct G as [G1 G2]. split; (eapply Permutation_in; [apply Permutation_sym; exact Hnodes|assumption]).
Qed.
Print Assumptions C18_lemon_matching_is_best.

(* the hypotheses on weights are met by non-negative weights of reasonable size *)
Lemma reported_nonneg rp E w p : (forall x, 0 <= x -> 0 <= rp x) -> (forall q, 0 <= w q) -> 0 <= reported rp E w p.
Proof.
  intros Hr Hw. unfold reported. apply sumZ_nonneg. intros [u v] _. apply Hr. unfold wt.
  destruct (find _ _) as [[[x y] [q|]]|]; unfold sedge_weight; simpl; auto; lia.
Qed.
Lemma C18_weights_nonneg :
  forall D e b pol c ch rp w o bit mg virt,
  dims_ge2 D -> is_surface_code D e b pol c -> valid_choice (sc_stabs c) ch ->
  oracle_ok (sg_edges (sc_stabs c) (sc_bound c) ch) w o ->
  (forall q, 0 <= w q) -> (rp = nx_report \/ exists units, 0 < units /\ rp = rx_report units) ->
  match_graph rp (sg_edges (sc_stabs c) (sc_bound c) ch) w o (odd_stabs (sc_stabs c) bit)
    (has_bound_points (sc_bound c)) = Ok (mg, virt) ->
  forall x, In x mg -> 0 <= me_w x.
Proof.
  intros D e b pol c ch rp w o bit mg virt H2 HC Hch Ho Hw Hrp Hmg x Hx.
  assert (Hr : forall y, 0 <= y -> 0 <= rp y).
  { intros y Hy. destruct Hrp as [-> |(u & Hu & ->)]; [exact Hy|]. apply Z.quot_pos; lia. }
  destruct (match_graph_inv _ _ _ _ _ _ _ _ Hmg x Hx) as [(ab & _ & He)|[[_ (ki & _ & He)]|[_ (ab & _ & ->)]]].
  - unfold mid_edge in He. destruct (sp_mid _ _ _); [|discriminate]. injection He as <-. apply reported_nonneg; assumption.
  - unfold bound_edge in He. destruct (sp_low _ _); [|discriminate]. destruct (sp_high _ _); [|discriminate].
    destruct (if _ <=? _ then l else l0) as [|y [|z r]]; try discriminate. injection He as <-. apply reported_nonneg; assumption.
  - simpl. lia.
Qed.

(* a concrete run: one odd stabilizer, hence two nodes and one edge *)
Example C18_nonvacuous :
  let mg := [{| me_u := MStab 0; me_v := MVirt (NPt (0, 1, 1)) 0; me_w := 1; me_path := [NPt (0, 1, 1); NStab 0] |}] in
  let nodes := [MStab 0; MVirt (NPt (0, 1, 1)) 0] in
  lemon_best (adjacency mg nodes) 2 [(0%nat, 1%nat)] /\ lemon_matching nodes [(0%nat, 1%nat)] = [(MStab 0, MVirt (NPt (0, 1, 1)) 0)].
Proof.
  split; [|reflexivity]. split; [apply Permutation_refl|].
  intros L' HL. unfold perfect in HL. pose proof (Permutation_length HL) as Hl. simpl in Hl.
  unfold endpoints in *. destruct L' as [|[i j] [|? ?]]; simpl in Hl; try discriminate.
  simpl in HL. apply Permutation_length_2_inv in HL. destruct HL as [E|E]; injection E as <- <-; vm_compute; discriminate.
Qed.

(* ------------------------------------------------------------------ *)
(* C17, positive part: positive weights and exact path lengths (networkx always; rustworkx
   when all weights are integers).  The paths of the matching graph never run through the
   connectors, so every step has a qubit as common vertex.  Shortest paths are taken without
   repeated nodes, as Dijkstra's algorithm returns them. *)
Theorem C17_paths_stay_inside_partial :
  forall D e b pol c ch rp k w o bit mg virt,
  dims_ge2 D -> is_surface_code D e b pol c -> valid_choice (sc_stabs c) ch ->
  oracle_ok (sg_edges (sc_stabs c) (sc_bound c) ch) w o -> oracle_simple o ->
  exact k rp w -> (forall q, 0 < w q) ->
  match_graph rp (sg_edges (sc_stabs c) (sc_bound c) ch) w o (odd_stabs (sc_stabs c) bit)
    (has_bound_points (sc_bound c)) = Ok (mg, virt) ->
  forall x, In x mg ->
  (forall u, In u (me_path x) -> is_real u) /\
  (forall u v, In (u, v) (pairs (me_path x)) ->
     exists q, edge_cv (sg_edges (sc_stabs c) (sc_bound c) ch) u v = Ok (Some q)).
Proof.
  intros D e b pol c ch rp k w o bit mg virt H2 HC Hch Ho Hs Hex Hw Hmg x Hx.
  pose proof (surface_wf D e b pol c H2 HC) as WF.
  assert (R : forall u, real u = true -> is_real u) by (intros []; simpl; try discriminate; split; discriminate).
  destruct (match_graph_inv _ _ _ _ _ _ _ _ Hmg x Hx) as [(ab & Hab & He)|[[_ (ki & _ & He)]|[_ (ab & _ & ->)]]].
  - unfold mid_edge in He. destruct (sp_mid o _ _) as [p|] eqn:Hp; [|discriminate]. injection He as <-. simpl.
    destruct Ho as (Ho & _).
    assert (Hne : NStab (fst ab) <> NStab (snd ab)).
    { destruct ab as [i j]. simpl. intros F. injection F as ->. eapply in_combs_neq in Hab; [congruence|apply odd_nd]. }
    specialize (Ho (NStab (fst ab)) (NStab (snd ab)) eq_refl Hne). rewrite Hp in Ho. destruct Ho as [Ho _].
    assert (Hr : forall u, In u p -> real u = true).
    { clear -Ho. apply ipath_of in Ho. remember (NStab (fst ab)) as u0 eqn:Eu.
      assert (real u0 = true) by (subst; reflexivity). clear Eu.
      induction Ho as [u|u y v p Huy Hp Hi IH]; intros z Hz.
      - destruct Hz as [<-|[]]. assumption.
      - destruct Hz as [<-|Hz]; [assumption|]. apply IH; [apply Huy|assumption]. }
    split; [auto|]. intros u v Huv. apply (real_pairs _ _ ch (NStab (fst ab)) (NStab (snd ab)) p); [|exact Hr|exact Huv].
    eapply is_path_impl; [exact Ho|]. intros ? ? _ _ []. assumption.
  - pose proof (bound_edge_real _ _ ch WF rp w o k Hw Hex Ho Hs ki x He) as Hr. split; [auto|].
    intros u v Huv. unfold bound_edge in He. destruct Ho as (_ & Hl & Hh).
    specialize (Hl (NStab (snd ki)) ltac:(discriminate)). specialize (Hh (NStab (snd ki)) ltac:(discriminate)).
    destruct (sp_low o _) as [pl|]; [|discriminate]. destruct (sp_high o _) as [ph|]; [|discriminate].
    assert (G : exists cc, is_path (gadj (sg_edges (sc_stabs c) (sc_bound c) ch)) cc (NStab (snd ki)) (if reported rp (sg_edges (sc_stabs c) (sc_bound c) ch) w pl <=? reported rp (sg_edges (sc_stabs c) (sc_bound c) ch) w ph then pl else ph)).
    { destruct (_ <=? _); [exists NLow|exists NHigh]; [apply Hl|apply Hh]. }
    destruct G as (cc & G). destruct (if _ <=? _ then pl else ph) as [|y [|z r]]; try discriminate.
    injection He as <-. simpl in *.
    apply is_path_inv in G. destruct G as [[G _]|(y' & p' & Ep & _ & G)]; [discriminate|].
    injection Ep as _ <-.
    assert (y' = z) as -> by (destruct G as (_ & G & _); simpl in G; congruence).
    apply (real_pairs _ _ ch z (NStab (snd ki)) (z :: r)); assumption.
  - simpl. split; [intros u []|intros u v []].
Qed.
Print Assumptions C17_paths_stay_inside_partial.

Example C17_nonvacuous :
  let c := mk_code (2, 2, 2) EcPrimal BdOpen None in
  let ch i j := hd (0, 0, 0) (shared (sc_stabs c) i j) in
  let E := sg_edges (sc_stabs c) (sc_bound c) ch in
  let o := search_oracle E (fun _ => 1) in
  is_surface_code (2, 2, 2) EcPrimal BdOpen None c /\ valid_choice (sc_stabs c) ch /\
  oracle_ok E (fun _ => 1) o /\ oracle_simple o /\ exact 1 nx_report (fun _ => 1) /\ length (sc_bound c) = 8%nat.
Proof.
  split; [apply mk_code_ok|]. split; [apply first_choice_valid|].
  destruct (search_oracle_ok (sg_edges (sc_stabs (mk_code (2, 2, 2) EcPrimal BdOpen None))
    (sc_bound (mk_code (2, 2, 2) EcPrimal BdOpen None))
    (fun i j => hd (0, 0, 0) (shared (sc_stabs (mk_code (2, 2, 2) EcPrimal BdOpen None)) i j))) (fun _ => 1)) as [H1 H2];
    [intros; lia|].
  split; [exact H1|]. split; [exact H2|]. split; [apply nx_exact|]. vm_compute. reflexivity.
Qed.

(* C17, the general claim is false for rustworkx with fractional weights: each weight is
   truncated to an integer before path lengths are compared, so a path from "low" that crosses
   the whole code and the "high" connector can be preferred.  Below, weights are 0.9 and 0.1
   (units of 0.1), one qubit next to the high boundary is flipped, and the decoder applies a
   logical operator although the exact lengths (networkx) lead to the right correction. *)
Lemma potential E w (phi : snode -> Z) :
  forallb (fun e => let d := phi (snd (fst e)) - phi (fst (fst e)) in
     (d <=? wt E w (fst (fst e)) (snd (fst e))) && (- d <=? wt E w (fst (fst e)) (snd (fst e)))) E = true ->
  forall u v p, is_path (gadj E) u v p -> phi v - phi u <= cost E w p.
Proof.
  intros HF u v p Hp. rewrite forallb_forall in HF. apply ipath_of in Hp.
  induction Hp as [u|u x v p Hux Hp Hi IH]; [unfold cost; simpl; lia|].
  unfold cost. rewrite (pairs_cons u x p) by apply Hp.
  change (phi v - phi u <= wt E w u x + cost E w p).
  assert (phi x - phi u <= wt E w u x); [|lia].
  destruct Hux as (cv & [H|H]); apply HF in H; apply andb_true_iff in H; cbn [fst snd] in H; destruct H as [H1 H2];
    apply Z.leb_le in H1; apply Z.leb_le in H2; [lia|]. rewrite wt_sym. lia.
Qed.

Lemma pathb_ok E u v p : forallb (fun xy => gadjb E (fst xy) (snd xy)) (pairs p) = true ->
  hd_error p = Some u -> last p u = v -> is_path (gadj E) u v p.
Proof.
  intros H H1 H2. split; [|split; assumption]. clear H1 H2. induction p as [|x p IH]; [exact I|].
  destruct p as [|y p]; [exact I|]. change (forallb (fun xy => gadjb E (fst xy) (snd xy)) ((x, y) :: pairs (y :: p)) = true) in H.
  cbn [forallb fst snd] in H. apply andb_true_iff in H. destruct H as [H1 H2]. split; [apply gadjb_iff; assumption|].
  apply IH. assumption.
Qed.

(* an oracle with given answers for one node *)
Definition override (o : sp_oracle) (v0 : snode) (pl ph : list snode) : sp_oracle :=
  {| sp_mid := fun u v => sp_mid o u v;
     sp_low := fun v => if snode_eq_dec v v0 then Some pl else sp_low o v;
     sp_high := fun v => if snode_eq_dec v v0 then Some ph else sp_high o v |}.
Lemma override_ok E w o v0 pl ph : oracle_ok E w o -> oracle_simple o ->
  shortest (gadj E) (cost E w) NLow v0 (Some pl) -> shortest (gadj E) (cost E w) NHigh v0 (Some ph) ->
  NoDup pl -> NoDup ph -> oracle_ok E w (override o v0 pl ph) /\ oracle_simple (override o v0 pl ph).
Proof.
  intros (H1 & H2 & H3) (S1 & S2 & S3) Hl Hh Nl Nh.
  split; [split; [exact H1|split]|split; [exact S1|split]]; unfold override; cbn [sp_low sp_high].
  - intros v Hv. destruct (snode_eq_dec v v0) as [-> |_]; [exact Hl|apply H2; assumption].
  - intros v Hv. destruct (snode_eq_dec v v0) as [-> |_]; [exact Hh|apply H3; assumption].
  - intros v p Hv Hp. destruct (snode_eq_dec v v0) as [-> |_]; [injection Hp as <-; exact Nl|eapply S2; eassumption].
  - intros v p Hv Hp. destruct (snode_eq_dec v v0) as [-> |_]; [injection Hp as <-; exact Nh|eapply S3; eassumption].
Qed.

Module Refute17.
  Definition c := mk_code (2, 2, 2) EcPrimal BdOpen None.
  Definition ch i j := hd (0, 0, 0) (shared (sc_stabs c) i j).
  Definition E := sg_edges (sc_stabs c) (sc_bound c) ch.
  Definition w (q : point) : Z := if pmem q [(0, 3, 3); (1, 2, 3); (1, 3, 2)] then 9 else 1.
  Definition bit : point -> bool := peqb (2, 3, 3).
  Definition plow : list snode :=
    [NLow; NPt (0, 1, 1); NStab 0; NPt (2, 1, 1); NHigh; NPt (2, 3, 3); NStab 3].
  Definition phigh : list snode := [NHigh; NPt (2, 3, 3); NStab 3].
  Definition o : sp_oracle := override (search_oracle E w) (NStab 3) plow phigh.
  Definition philow (u : snode) : Z :=
    match u with
    | NLow => 0 | NHigh => 2 | NStab 3 => 3 | NStab _ => 1
    | NPt p => co AX p
    end.
  Definition phihigh (u : snode) : Z :=
    match u with
    | NLow => 2 | NHigh => 0 | NStab _ => 1
    | NPt p => 2 - co AX p
    end.
  Lemma w_pos q : 0 < w q.
  Proof. unfold w. destruct (pmem _ _); lia. Qed.

  Lemma low_ok : shortest (gadj E) (cost E w) NLow (NStab 3) (Some plow).
  Proof.
    split; [apply pathb_ok; vm_compute; reflexivity|]. intros p' Hp.
    pose proof (potential E w philow ltac:(vm_compute; reflexivity) _ _ _ Hp) as H.
    assert (Ec : cost E w plow = 3) by (vm_compute; reflexivity). rewrite Ec. exact H.
  Qed.
  Lemma high_ok : shortest (gadj E) (cost E w) NHigh (NStab 3) (Some phigh).
  Proof.
    split; [apply pathb_ok; vm_compute; reflexivity|]. intros p' Hp.
    pose proof (potential E w phihigh ltac:(vm_compute; reflexivity) _ _ _ Hp) as H.
    assert (Ec : cost E w phigh = 1) by (vm_compute; reflexivity). rewrite Ec. exact H.
  Qed.
  Lemma o_ok : oracle_ok E w o /\ oracle_simple o.
  Proof.
    pose proof (search_oracle_ok E w (fun q => Z.lt_le_incl _ _ (w_pos q))) as [H1 H2].
    apply override_ok; [exact H1|exact H2|exact low_ok|exact high_ok| |];
      apply (nodupb_iff snode_eq_dec); vm_compute; reflexivity.
  Qed.
End Refute17.

Theorem C17_rustworkx_fractional_weights_refuted :
  exists c ch w o pick bit,
    is_surface_code (2, 2, 2) EcPrimal BdOpen None c /\ valid_choice (sc_stabs c) ch /\
    oracle_ok (sg_edges (sc_stabs c) (sc_bound c) ch) w o /\ oracle_simple o /\
    (forall mg, best_matching mg (pick mg)) /\ (forall q, 0 < w q) /\
    (* one error *)
    filter bit (sc_syn c) = [(2, 3, 3)] /\
    (* rustworkx: a path of the matching graph runs through "high", and correction fails *)
    (exists mg virt x, match_graph (rx_report 10) (sg_edges (sc_stabs c) (sc_bound c) ch) w o
       (odd_stabs (sc_stabs c) bit) (has_bound_points (sc_bound c)) = Ok (mg, virt) /\ In x mg /\ In NHigh (me_path x)) /\
    (exists bit', correct_mwpm (rx_report 10) c ch w o pick bit true = Ok (bit', false)) /\
    (* networkx, same weights and same shortest paths: correction succeeds *)
    (exists bit', correct_mwpm nx_report c ch w o pick bit true = Ok (bit', true)).
Proof.
  exists Refute17.c, Refute17.ch, Refute17.w, Refute17.o, search_match, Refute17.bit.
  split; [apply mk_code_ok|]. split; [apply first_choice_valid|].
  split; [apply Refute17.o_ok|]. split; [apply Refute17.o_ok|]. split; [apply search_match_ok|].
  split; [apply Refute17.w_pos|]. split; [vm_compute; reflexivity|]. split; [|split].
  - eexists. eexists. eexists. split; [vm_compute; reflexivity|]. split; [left; reflexivity|]. simpl. tauto.
  - eexists. vm_compute. reflexivity.
  - eexists. vm_compute. reflexivity.
Qed.
Print Assumptions C17_rustworkx_fractional_weights_refuted.
