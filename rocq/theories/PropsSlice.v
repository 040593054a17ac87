(* PropsSlice.v: C60, slices of a graph, and the macronode dictionary of a new EGraph. *)
From Coq Require Import Sorting.Sorted Sorting.Permutation.
From Verif Require Import Base Lattice RhgModel RhgSpec RhgProofs RhgDegree SurfaceModel SurfaceSpec SurfaceProofs SurfaceTheorems PropsSurface
  EgraphModel EgraphSpec EgraphProofs EgraphInv PropsEgraph CvSurface.
Open Scope Z_scope.

Lemma filter_partition {A} (key : A -> Z) (ns : list Z) (l : list A) :
  NoDup ns -> (forall x, In x l -> In (key x) ns) -> Permutation (flat_map (fun n => filter (fun x => key x =? n) l) ns) l.
Proof.
  intros Hn. induction l as [|x l IH]; intros H.
  - clear Hn H. induction ns; simpl; auto.
  - assert (HI : Permutation (flat_map (fun n => filter (fun x => key x =? n) l) ns) l) by (apply IH; intros; apply H; right; assumption).
    assert (Hx : In (key x) ns) by (apply H; left; reflexivity).
    apply in_split in Hx. destruct Hx as (n1 & n2 & ->).
    assert (Hsk : forall k, ~ In (key x) k -> flat_map (fun n => filter (fun x => key x =? n) (x :: l)) k = flat_map (fun n => filter (fun x => key x =? n) l) k).
    { intros k Hk. rewrite !flat_map_concat_map. f_equal. apply map_ext_in. intros n Hin. cbn [filter].
      destruct (Z.eqb_spec (key x) n) as [E|E]; [exfalso; apply Hk; rewrite E; assumption|reflexivity]. }
    apply NoDup_remove_2 in Hn. rewrite flat_map_app. cbn [flat_map].
    rewrite Hsk by (intros F; apply Hn, in_app_iff; left; assumption).
    rewrite (Hsk n2) by (intros F; apply Hn, in_app_iff; right; assumption).
    cbn [filter]. rewrite Z.eqb_refl.
    rewrite flat_map_app in HI. cbn [flat_map] in HI. symmetry. apply Permutation_cons_app. symmetry. exact HI.
Qed.

(* C60.  At every moment of the life of an EGraph, slice_coords(plane, number) lists every node
   with that coordinate once and nothing else, and the slices of one direction contain every node
   exactly once. *)
Theorem C60_slices :
  forall U g0 g a, 0 < U -> fresh g0 -> history U g0 g ->
  (forall n, NoDup (slice_coords g a n) /\ forall p, In p (slice_coords g a n) <-> In p (e_nodes g) /\ co a p = n) /\
  (forall numbers, NoDup numbers -> (forall p, In p (e_nodes g) -> In (co a p) numbers) ->
     Permutation (flat_map (slice_coords g a) numbers) (e_nodes g)).
Proof.
  intros U g0 g a HU Hf Hh. destruct (C29_dictionaries_survive U g0 g HU Hf Hh) as ((Hn & _) & _). split.
  - intros n. split; [apply NoDup_filter; assumption|]. intros p. unfold slice_coords. rewrite filter_In, Z.eqb_eq. tauto.
  - intros numbers Hnn Hcov. apply (filter_partition (co a)); assumption.
Qed.

(* the graph of a surface code: the slice is non-empty exactly for the coordinates in range (the
   documentation of slice_coords says from 0 to the number of slices, which is true of primal and
   periodic boundaries; with dual boundaries the first slice is 1) *)
Theorem C60_code_slices :
  forall D e b pol c a n, dims_ge2 D -> is_surface_code D e b pol c ->
  (slice_coords (code_egraph c) a n <> [] <-> in_range (get a (documented_bnds e b)) (get a D) n) /\
  (forall p, In p (slice_coords (code_egraph c) a n) <->
     (primal_vertex D (documented_bnds e b) p \/ dual_vertex D (documented_bnds e b) p) /\ co a p = n).
Proof.
  intros D e b pol c a n HD HC. assert (EB : code_bnds e b = documented_bnds e b) by (destruct e, b; reflexivity). rewrite <- EB.
  destruct (code_lattice D e b pol c HC) as (vs & Hvs & EG). pose proof (ge2_ok D (code_bnds e b) HD) as HO.
  destruct (rhg_exact_lattice D (code_bnds e b) pol vs HO Hvs) as (_ & Hin & _).
  destruct (C60_slices 1 (lattice_egraph c) (code_egraph c) a ltac:(lia) (code_fresh D e b pol c HD HC) (code_history c)) as (Hs & _).
  destruct (code_indexed D e b pol c HD HC) as (_ & _ & _ & (En & _) & _).
  assert (K : forall p, In p (slice_coords (code_egraph c) a n) <-> (primal_vertex D (code_bnds e b) p \/ dual_vertex D (code_bnds e b) p) /\ co a p = n).
  { intros p. rewrite (proj2 (Hs n) p), En. unfold lattice_egraph, new_egraph. cbn [e_nodes]. rewrite EG, <- Hin. tauto. }
  split; [|exact K]. split.
  - intros Hne. destruct (slice_coords (code_egraph c) a n) as [|p l]; [congruence|]. destruct (proj1 (K p) (or_introl eq_refl)) as [[[Hp _]|[Hp _]] <-]; apply Hp.
  - intros Hr. cut (exists p, site D (code_bnds e b) p /\ (nodd p = 1 \/ nodd p = 2) /\ co a p = n).
    { intros (p & Hp & Hnp & Ec). assert (F : In p (slice_coords (code_egraph c) a n)).
      { apply K. split; [|exact Ec]. destruct Hnp; [right|left]; split; assumption. }
      intros F0. rewrite F0 in F. destruct F. }
    (* one odd and one even coordinate along the other two axes *)
    assert (Hrange : forall x, in_range (get x (code_bnds e b)) (get x D) 1 /\ in_range (get x (code_bnds e b)) (get x D) 2).
    { intros x. specialize (HD x). destruct (get x (code_bnds e b)); simpl; lia. }
    assert (Hmod : n mod 2 = 0 \/ n mod 2 = 1) by (pose proof (Z.mod_pos_bound n 2 ltac:(lia)); lia).
    destruct a.
    + exists (n, 1, 2). split; [intros []; [exact Hr|apply Hrange|apply Hrange]|]. split; [|reflexivity].
      change (nodd (n, 1, 2)) with (n mod 2 + 1 + 0). lia.
    + exists (1, n, 2). split; [intros []; [apply Hrange|exact Hr|apply Hrange]|]. split; [|reflexivity].
      change (nodd (1, n, 2)) with (1 + n mod 2 + 0). lia.
    + exists (1, 2, n). split; [intros []; [apply Hrange|apply Hrange|exact Hr]|]. split; [|reflexivity].
      change (nodd (1, 2, n)) with (1 + 0 + n mod 2). lia.
Qed.

(* EGraph(graph) of a networkx graph with a macro_dict, without macronodes=True: the dictionary is
   ignored, the micronodes are ordinary nodes sorted by their own coordinates, and no qubit can be
   added to a macronode. *)
Theorem C60_macronodes_flag :
  forall U ns es md, NoDup ns -> (forall u v w, In (u, v, w) es -> In u ns /\ In v ns) -> 
  let g := new_egraph ns es false md in
  (exists g' d, index_generator g = (g', Ok d) /\ 
     exists l, Permutation l ns /\ StronglySorted plt l /\ forall p i, idx g' p = Some i <-> nth_error l i = Some p) /\
  (forall p nb, ~ In p ns -> add_qubit U g (QTuple p) nb true = (g, Err ValueError)).
Proof.
  intros U ns es md Hn He g. assert (Hg : graph_ok g) by (split; [assumption|split; [assumption|exact I]]). split.
  - destruct (C28_indices_sorted_bijection g Hg ltac:(split; reflexivity) eq_refl) as (g' & d & E & _ & _ & (l & H1 & H2 & H3 & _) & _).
    exists g', d. split; [exact E|]. exists l. auto.
  - intros p nb Hp. unfold add_qubit, place, has_n. rewrite (proj2 (pmem_false p (e_nodes g)) Hp). reflexivity.
Qed.
Print Assumptions C60_slices.
Print Assumptions C60_code_slices.
Print Assumptions C60_macronodes_flag.

Example C60_nonvacuous :
  slice_coords line3 AX 1 = [(1, 0, 0)] /\ slice_coords line3 AY 0 = e_nodes line3 /\
  length (slice_coords (lattice_egraph (mk_code (2, 2, 2) EcPrimal BdOpen None)) AX 0) = 8%nat.
Proof. vm_compute. auto. Qed.
