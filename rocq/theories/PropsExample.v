(* PropsExample.v: C85, the example program illustrate_surface_code. *)
From Coq Require Import String.
From Verif Require Import Base Lattice RhgModel RhgSpec RhgProofs RhgDegree PropsRhg SurfaceModel SurfaceSpec SurfaceProofs SurfaceIncidence SurfaceTheorems StabGraphModel Complex SurfaceComplex PropsSurface
  MwpmModel MwpmProofs SimModel PropsSim VizModel PropsViz PropsViz2 ExampleModel.
Open Scope Z_scope.

(* ---------- specification ---------- *)
(* a vertex on the first or the last layer of some axis, when every axis has 2 n layers numbered from 0 *)
Definition on_border (n : Z) (p : point) : Prop := exists a, co a p = 0 \/ co a p = 2 * n - 1.

Lemma default_stabs stabs : mapM (pick_stab stabs) (map Z.of_nat (seq 0 (List.length stabs))) = Ok stabs.
Proof.
  assert (K : forall k, (k <= List.length stabs)%nat -> mapM (pick_stab stabs) (map Z.of_nat (seq (List.length stabs - k) k)) = Ok (skipn (List.length stabs - k) stabs)).
  { induction k as [|k IH]; intros Hk.
    - rewrite Nat.sub_0_r, skipn_all. reflexivity.
    - cbn [seq map mapM]. replace (S (List.length stabs - S k)) with (List.length stabs - k)%nat by lia. rewrite IH by lia.
      assert (E : pick_stab stabs (Z.of_nat (List.length stabs - S k)) = Ok (nth (List.length stabs - S k) stabs [])).
      { unfold pick_stab. replace (0 <=? Z.of_nat (List.length stabs - S k)) with true by (symmetry; apply Z.leb_le; lia).
        replace (Z.of_nat (List.length stabs - S k) <? Z.of_nat (List.length stabs)) with true by (symmetry; apply Z.ltb_lt; lia). cbn [andb]. rewrite Nat2Z.id. reflexivity. }
      rewrite E. cbn [bind]. f_equal. clear IH E.
      assert (X : forall (l : list (list point)) m, (m < List.length l)%nat -> nth m l [] :: skipn (S m) l = skipn m l).
      { induction l as [|x l IHl]; intros m Hm; [cbn in Hm; lia|]. destruct m; [reflexivity|]. cbn [nth]. cbn in Hm. exact (IHl m ltac:(lia)). }
      replace (List.length stabs - k)%nat with (S (List.length stabs - S k)) by lia. apply X. lia. }
  specialize (K (List.length stabs) ltac:(lia)). rewrite Nat.sub_diag in K. exact K.
Qed.
Lemma border_in g last p : In p (node_list g) -> (pmem p (all_boundaries g last) = true <-> exists a, co a p = 0 \/ co a p = last).
Proof.
  intros Hp. rewrite pmem_In. unfold all_boundaries. change example_planes with [AX; AY; AZ]. rewrite in_flat_map.
  assert (SL : forall a i, In p (slice_coords g a i) <-> co a p = i).
  { intros a i. unfold slice_coords. rewrite filter_In, Z.eqb_eq. tauto. }
  split.
  - intros (a & _ & H). exists a. rewrite in_flat_map in H. destruct H as (i & [<- |[<- |[]]] & H); apply SL in H; auto.
  - intros (a & H). exists a. split; [destruct a; cbn; auto|]. rewrite in_flat_map. destruct H as [H|H]; [exists 0|exists last]; (split; [cbn; auto|apply SL; assumption]).
Qed.

(* C85.  With an integer size, the program draws the vertices on the first and last layers of all axes with the edges between
   them, for toric and periodic codes only, and every edge that closes a periodic axis is drawn; then it marks, for each cell
   of the code, one point per qubit. *)
Theorem C85_example :
  forall n e b pol c, 2 <= n -> is_surface_code (n, n, n) e b pol c ->
  exists pics, illustrate (SizeInt n) b c None = Ok pics /\
    (b = BdOpen -> ep_border pics = None) /\
    (b <> BdOpen -> exists nodes edges, ep_border pics = Some (nodes, edges) /\ NoDup nodes /\
       (forall p, In p nodes <-> In p (node_list (sc_graph c)) /\ on_border n p) /\
       (forall p q, In (p, q) edges <-> In (p, q) (map fst (gedges (sc_graph c))) /\ on_border n p /\ on_border n q) /\
       (forall p q a, edge_attr (sc_graph c) p q = Some a -> eperiodic a = true -> In (p, q) edges \/ In (q, p) edges)) /\
    exists cells, NoDup cells /\ (forall x, In x cells <-> cell (n, n, n) e (documented_bnds e b) x) /\
      Forall2 (fun x l => NoDup l /\ forall v, In v l <-> on_cell (n, n, n) e (documented_bnds e b) x v) cells (ep_marks pics).
Proof.
  intros n e b pol c Hn HC. assert (HD : dims_ge2 (n, n, n)) by (intros []; cbn; lia).
  assert (EM : map (map mark) (sc_stabs c) = sc_stabs c).
  { rewrite <- (map_id (sc_stabs c)) at 2. apply map_ext. intros l. rewrite <- (map_id l) at 2. apply map_ext. intros [[x y] z]. reflexivity. }
  set (last := 2 * n - 1).
  exists {| ep_border := match b with BdOpen => None | _ => Some (subgraph (sc_graph c) (all_boundaries (sc_graph c) last)) end; ep_marks := sc_stabs c |}.
  split; [|split; [|split]].
  - unfold illustrate. rewrite default_stabs. destruct b; cbn [last_index bind]; rewrite EM; reflexivity.
  - intros ->. reflexivity.
  - intros Hb. exists (fst (subgraph (sc_graph c) (all_boundaries (sc_graph c) last))), (snd (subgraph (sc_graph c) (all_boundaries (sc_graph c) last))).
    split; [cbn [ep_border]; destruct b; [congruence|reflexivity|reflexivity]|].
    pose proof (code_nodes_NoDup _ e b pol c HD HC) as ND. split; [apply NoDup_filter; exact ND|].
    destruct HC as (_ & _ & _ & (vs & Hvs & EG) & _). pose proof (ge2_ok _ (code_bnds e b) HD) as HO.
    destruct (C01_rhg_exact_lattice _ (code_bnds e b) pol vs HO Hvs) as (_ & CN & _ & _ & CE & CW & _). rewrite <- EG in CN, CE, CW.
    assert (ENDS : forall p q, In (p, q) (map fst (gedges (sc_graph c))) -> In p (node_list (sc_graph c)) /\ In q (node_list (sc_graph c))).
    { intros p q H. assert (K : edge_attr (sc_graph c) p q <> None).
      { apply in_map_iff in H. destruct H as ([[p' q'] a] & E & H). cbn in E. injection E as -> ->. unfold edge_attr.
        destruct (find _ (gedges (sc_graph c))) as [[e0 a0]|] eqn:F; [discriminate|]. pose proof (find_none _ _ F _ H) as X. unfold same_edge in X. cbn [fst snd] in X. rewrite !peqb_refl in X. discriminate X. }
      apply CE in K. rewrite !CN. destruct K as [(? & ? & _)|(? & ? & _)]; auto. }
    split; [|split].
    + intros p. unfold subgraph. cbn [fst]. rewrite filter_In. split; intros [H1 H2]; (split; [assumption|]); apply (border_in _ last p H1); assumption.
    + intros p q. unfold subgraph. cbn [snd]. rewrite filter_In. cbn [fst snd]. rewrite andb_true_iff. split.
      * intros (H & H1 & H2). destruct (ENDS p q H) as [Np Nq]. split; [assumption|]. split; [apply (border_in _ last p Np)|apply (border_in _ last q Nq)]; assumption.
      * intros (H & H1 & H2). destruct (ENDS p q H) as [Np Nq]. split; [assumption|]. split; [apply (border_in _ last p Np)|apply (border_in _ last q Nq)]; assumption.
    + intros p q a Ha Hper. pose proof (proj1 (CW p q a Ha) Hper) as (i & (_ & Hi) & _).
      assert (BO : forall j, get j (n, n, n) = n) by (intros []; reflexivity). rewrite BO in Hi.
      assert (Bp : on_border n p) by (exists i; lia). assert (Bq : on_border n q) by (exists i; lia).
      assert (M : In (p, q) (map fst (gedges (sc_graph c))) \/ In (q, p) (map fst (gedges (sc_graph c)))).
      { unfold edge_attr in Ha. destruct (find _ (gedges (sc_graph c))) as [[[p' q'] a']|] eqn:F; [|discriminate Ha]. apply find_some in F. destruct F as [F1 F2]. unfold same_edge in F2. cbn [fst snd] in F2.
        apply orb_true_iff in F2. destruct F2 as [F2|F2]; apply andb_true_iff in F2; destruct F2 as [X Y]; apply peqb_true in X; apply peqb_true in Y; subst; [left|right];
          apply in_map_iff; eexists; (split; [|exact F1]); reflexivity. }
      destruct M as [M|M]; [left|right]; destruct (ENDS _ _ M) as [Np Nq]; unfold subgraph; cbn [snd]; rewrite filter_In; cbn [fst snd]; rewrite andb_true_iff;
        (split; [exact M|split; [apply (border_in _ last _ Np)|apply (border_in _ last _ Nq)]; assumption]).
  - cbn [ep_marks]. destruct (proj1 (C04_stabilizers_are_cube_faces _ e b pol c HD HC)) as (xs & N & I & _ & F). exists xs. auto.
Qed.
Print Assumptions C85_example.

(* ... but the points are marked in coordinates in which the code is not drawn: draw() shows the vertex (x, y, z) at
   (x, z, y), the marks are at (x, y, z).  Every stabilizer of every code has a qubit whose mark is not where the qubit is drawn. *)
Theorem C85_marks_refuted :
  forall D e b pol c d inds pics l, dims_ge2 D -> is_surface_code D e b pol c -> illustrate d b c (Some inds) = Ok pics -> In l (ep_marks pics) ->
  exists st q, In st (sc_stabs c) /\ l = map mark st /\ In q st /\ mark q <> exchange q.
Proof.
  intros D e b pol c d inds pics l HD HC H Hl.
  assert (Hst : exists st, In st (sc_stabs c) /\ l = map mark st).
  { unfold illustrate in H. destruct (match b with BdOpen => Ok None | _ => _ end) as [border|]; [|discriminate H]. cbn [bind] in H.
    destruct (mapM (pick_stab (sc_stabs c)) inds) as [sts|] eqn:E; [|discriminate H]. cbn [bind] in H. injection H as <-. cbn [ep_marks] in Hl.
    apply in_map_iff in Hl. destruct Hl as (st & <- & Hst). exists st. split; [|reflexivity]. apply mapM_inv in E.
    assert (X : exists i, pick_stab (sc_stabs c) i = Ok st). { clear - E Hst. induction E as [|i s li ls K E IH]; [destruct Hst|]. destruct Hst as [<- |Hst]; eauto. }
    destruct X as (i & X). unfold pick_stab in X.
    destruct ((0 <=? i) && (i <? Z.of_nat (List.length (sc_stabs c)))) eqn:E1.
    - injection X as <-. apply nth_In. lia.
    - destruct ((- Z.of_nat (List.length (sc_stabs c)) <=? i) && (i <? 0)) eqn:E2; [|discriminate X]. injection X as <-. apply nth_In. lia. }
  destruct Hst as (st & Hst & ->). exists st.
  assert (Hx : exists x, cell D e (documented_bnds e b) x /\ forall q, In q st <-> on_cell D e (documented_bnds e b) x q).
  { destruct (proj1 (C04_stabilizers_are_cube_faces D e b pol c HD HC)) as (xs & _ & I & _ & F).
    assert (I' : forall x, In x xs -> cell D e (documented_bnds e b) x) by (intros; apply I; assumption). clear - F I' Hst.
    induction F as [|x s l1 l2 [_ K] F IH]; [destruct Hst|]. destruct Hst as [<- |Hst].
    - exists x. split; [apply I'; left; reflexivity|exact K].
    - apply IH; [exact Hst|]. intros; apply I'; right; assumption. }
  destruct Hx as (x & [Sx Nx] & Hq). set (B := documented_bnds e b) in *.
  set (hi := match get AY B with BPrimal => 2 * get AY D - 2 | _ => 2 * get AY D - 1 end).
  set (y := if co AY x + 1 <=? hi then co AY x + 1 else co AY x - 1).
  exists (co AX x, y, co AZ x). split; [exact Hst|]. split; [reflexivity|].
  pose proof (Sx AX) as R1. pose proof (Sx AY) as R2. pose proof (Sx AZ) as R3. pose proof (HD AY) as D2.
  assert (Hy : in_range (get AY B) (get AY D) y /\ (y = co AY x + 1 \/ y = co AY x - 1)).
  { unfold y, hi, in_range in *. destruct (get AY B); match goal with |- context [?u <=? ?v] => destruct (Z.leb_spec u v) end; lia. }
  destruct Hy as [Hy1 Hy2].
  assert (Sq : site D B (co AX x, y, co AZ x)) by (intros []; cbn [co get fst snd]; assumption).
  assert (Par : co AY x mod 2 = co AZ x mod 2 /\ nodd (co AX x, y, co AZ x) = match e with EcPrimal => 2 | EcDual => 1 end).
  { clear - Nx Hy2. destruct x as [[x1 x2] x3]. unfold nodd in *. cbn [co get fst snd] in *. destruct e; Z.div_mod_to_equations; lia. }
  split.
  - apply Hq. split.
    + destruct e; split; [exact Sq|apply Par|exact Sq|apply Par].
    + exists AY. split; [unfold step1; cbn [co get fst snd]; tauto|]. intros [] Hb; [reflexivity|congruence|reflexivity].
  - unfold mark, exchange. cbn [co get fst snd]. intros E. injection E as E. destruct Par as [Par _]. clear - E Par Hy2.
    Z.div_mod_to_equations; lia.
Qed.
Print Assumptions C85_marks_refuted.

(* a sequence of three sizes, which the documentation of the parameter allows, fails for toric and periodic codes *)
Theorem C85_sizes_refuted : forall D b c inds, (b = BdOpen -> False) -> illustrate (SizeSeq D) b c inds = Err TypeError.
Proof. intros D b c inds Hb. destruct b; [destruct (Hb eq_refl)|reflexivity|reflexivity]. Qed.
Print Assumptions C85_sizes_refuted.

(* for toric codes, too, the layers of the third axis are drawn, which are not periodic *)
Theorem C85_toric_refuted :
  forall n e pol c, 2 <= n -> is_surface_code (n, n, n) e BdToric pol c ->
  exists pics nodes edges p, illustrate (SizeInt n) BdToric c None = Ok pics /\ ep_border pics = Some (nodes, edges) /\ In p nodes /\
    forall a, get a (documented_bnds e BdToric) = BPeriodic -> co a p <> 0 /\ co a p <> 2 * n - 1.
Proof.
  intros n e pol c Hn HC. destruct (C85_example n e BdToric pol c Hn HC) as (pics & E & _ & H & _).
  destruct (H ltac:(discriminate)) as (nodes & edges & Eb & _ & Hin & _). exists pics, nodes, edges.
  exists (match e with EcPrimal => (1, 2, 2 * n - 1) | EcDual => (1, 2, 0) end). split; [exact E|]. split; [exact Eb|]. split.
  - apply Hin. assert (HD : dims_ge2 (n, n, n)) by (intros []; cbn; lia). destruct HC as (_ & _ & _ & (vs & Hvs & EG) & _).
    destruct (C01_rhg_exact_lattice _ (code_bnds e BdToric) pol vs (ge2_ok _ _ HD) Hvs) as (_ & CN & _). rewrite <- EG in CN. rewrite CN, code_bnds_eq. split.
    + destruct e; [left|right]; (split; [intros []; cbn; lia|]); unfold nodd; cbn [co get fst snd]; Z.div_mod_to_equations; lia.
    + exists AZ. destruct e; cbn; lia.
  - destruct e; intros [] Ha; cbn in Ha |- *; try discriminate Ha; lia.
Qed.
Print Assumptions C85_toric_refuted.

(* the hypotheses are met *)
Example C85_nonvacuous : exists c, is_surface_code (2, 2, 2) EcDual BdToric None c /\ exists pics, illustrate (SizeInt 2) BdToric c (Some [-1; 0]) = Ok pics /\ List.length (ep_marks pics) = 2%nat.
Proof. exists (mk_code (2, 2, 2) EcDual BdToric None). split; [apply mk_code_ok|]. eexists. split; [vm_compute; reflexivity|reflexivity]. Qed.
