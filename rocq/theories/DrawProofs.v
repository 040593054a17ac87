(* DrawProofs.v: lemmas for C58 (DrawModel.v). *)
From Verif Require Import Base Lattice RhgModel RhgSpec SurfaceModel SurfaceSpec SurfaceProofs StabGraphModel BackendModel BackendSpec BackendProofs
  Complex SurfaceComplex PropsBackend MwpmModel UfModel DrawModel.
Open Scope nat_scope.

Lemma filter_filter {A} (f g : A -> bool) l : filter f (filter g l) = filter (fun x => g x && f x) l.
Proof. induction l as [|x l IH]; [reflexivity|]. cbn [filter]. destruct (g x) eqn:G; cbn [filter andb]; [destruct (f x)|]; rewrite IH; reflexivity. Qed.
Lemma filter_map {A B} (f : B -> bool) (g : A -> B) l : filter f (map g l) = map g (filter (fun x => f (g x)) l).
Proof. induction l as [|x l IH]; [reflexivity|]. cbn [map filter]. destruct (f (g x)); cbn [map]; rewrite IH; reflexivity. Qed.
Lemma filter_split {A} (f : A -> bool) l : forall a x b, filter f l = a ++ x :: b -> exists a' b', l = a' ++ x :: b' /\ filter f a' = a /\ filter f b' = b.
Proof.
  induction l as [|y l IH]; intros a x b H; cbn [filter] in H; [destruct a; discriminate|].
  destruct (f y) eqn:F.
  - destruct a as [|z a]; cbn [app] in H.
    + injection H as -> H. exists [], l. auto.
    + injection H as -> H. destruct (IH _ _ _ H) as (a' & b' & -> & <- & <-). exists (z :: a'), b'. cbn [filter app]. rewrite F. auto.
  - destruct (IH _ _ _ H) as (a' & b' & -> & <- & <-). exists (y :: a'), b'. cbn [filter app]. rewrite F. auto.
Qed.

Definition nc := not_connector.
Lemma nc_two u : nc u = negb (sneqb u NLow) && negb (sneqb u NHigh).
Proof. destruct u; reflexivity. Qed.

Section W.
Context {W : Type}.
Definition re (e : dedge W) : bool := nc (fst (fst e)) && nc (snd (fst e)).
(* the graph without "low" and "high" *)
Definition strip (g : nxg W) : nxg W :=
  {| nx_adj := map (fun x => (fst x, filter nc (snd x))) (filter (fun x => nc (fst x)) (nx_adj g)); nx_data := filter re (nx_data g) |}.

Lemma remove_spec order g : Permutation [NLow; NHigh] order -> nx_remove_nodes order g = strip g.
Proof.
  intros HP. apply Permutation_length_2_inv in HP. unfold nx_remove_nodes, strip.
  assert (K : forall a b', (forall u, nc u = negb (sneqb u a) && negb (sneqb u b')) ->
    nx_remove_node (nx_remove_node g a) b' = {| nx_adj := map (fun x => (fst x, filter nc (snd x))) (filter (fun x => nc (fst x)) (nx_adj g)); nx_data := filter re (nx_data g) |}).
  { intros a b' H. unfold nx_remove_node. cbn [nx_adj nx_data]. f_equal.
    - rewrite filter_map, filter_filter, map_map. cbn [fst snd].
      rewrite (filter_ext (fun x : snode * list snode => nc (fst x)) (fun x => negb (sneqb (fst x) a) && negb (sneqb (fst x) b'))) by (intros x; apply H).
      apply map_ext. intros x. rewrite filter_filter. f_equal. apply filter_ext. intros v. symmetry. apply H.
    - rewrite filter_filter. apply filter_ext. intros x. unfold re. rewrite !H.
      destruct (sneqb (fst (fst x)) a), (sneqb (fst (fst x)) b'), (sneqb (snd (fst x)) a), (sneqb (snd (fst x)) b'); reflexivity. }
  destruct HP as [-> | ->]; cbn [fold_left]; apply K; intros u; rewrite nc_two; [reflexivity|apply andb_comm].
Qed.

Lemma strip_nodes g : nx_nodes (strip g) = filter nc (nx_nodes g).
Proof. unfold nx_nodes, strip. cbn [nx_adj]. rewrite map_map, filter_map. reflexivity. Qed.
Lemma strip_strip g : strip (strip g) = strip g.
Proof.
  unfold strip. cbn [nx_adj nx_data]. f_equal.
  - rewrite filter_map, filter_filter, map_map. cbn [fst snd]. rewrite (filter_ext (fun x : snode * list snode => nc (fst x) && nc (fst x)) (fun x => nc (fst x))); [|intros x; destruct (nc (fst x)); reflexivity].
    apply map_ext. intros x. cbn [fst snd]. rewrite filter_filter. f_equal. apply filter_ext. intros v. destruct (nc v); reflexivity.
  - rewrite filter_filter. apply filter_ext. intros x. destruct (re x); reflexivity.
Qed.
Lemma joined_filter E u v : nc u = true -> nc v = true -> joined (filter re E) u v <-> joined E u v.
Proof.
  intros Hu Hv. split; intros (e & He & P).
  - apply filter_In in He. exists e. tauto.
  - exists e. split; [|assumption]. apply filter_In. split; [assumption|]. unfold re. destruct P as [P|P]; rewrite P; cbn [fst snd]; rewrite Hu, Hv; reflexivity.
Qed.
Lemma joined_filter_nc E u v : joined (filter re E) u v -> nc u = true /\ nc v = true.
Proof. intros (e & He & P). apply filter_In in He. destruct He as [_ He]. unfold re in He. apply andb_true_iff in He. destruct P as [P|P]; rewrite P in He; cbn [fst snd] in He; tauto. Qed.
Lemma strip_simple N E : simple N E -> simple (filter nc N) (filter re E).
Proof.
  intros [S1 S2 S3]. split.
  - apply NoDup_filter. assumption.
  - intros u v d H. apply filter_In in H. destruct H as [H R]. destruct (S2 u v d H) as (Hu & Hv & Hn). unfold re in R. cbn [fst snd] in R. apply andb_true_iff in R. rewrite !filter_In. tauto.
  - intros E1 e E2 u v H P. destruct (filter_split _ _ _ _ _ H) as (E1' & E2' & -> & <- & <-). destruct (S3 E1' e E2' u v eq_refl P) as [A B]. split; intros (x & Hx & Q); apply filter_In in Hx; [apply A|apply B]; exists x; tauto.
Qed.
Lemma strip_inv N E g : nx_inv N E g -> nx_inv (filter nc N) (filter re E) (strip g).
Proof.
  intros [I1 I2 I3 I4]. split.
  - rewrite strip_nodes, I1. reflexivity.
  - cbn. rewrite I2. reflexivity.
  - intros u nb H. cbn [strip nx_adj] in H. apply in_map_iff in H. destruct H as ([u' nb'] & Q & H). apply filter_In in H. cbn [fst snd] in *. injection Q as <- <-. apply NoDup_filter. apply (I3 u'). tauto.
  - intros u nb v H. cbn [strip nx_adj] in H. apply in_map_iff in H. destruct H as ([u' nb'] & Q & H). apply filter_In in H. cbn [fst snd] in *. injection Q as <- <-. destruct H as [H Hu]. rewrite filter_In, (I4 u' nb' v H). split.
    + intros [J Hv]. apply joined_filter; assumption.
    + intros J. destruct (joined_filter_nc _ _ _ J) as [_ Hv]. split; [|assumption]. exact (proj1 (joined_filter E u' v Hu Hv) J).
Qed.
Lemma strip_iter a : forall seen seen', (forall v, nc v = true -> smem v seen' = smem v seen) ->
  nx_edge_iter seen' (map (fun x => (fst x, filter nc (snd x))) (filter (fun x => nc (fst x)) a)) = real_edges (nx_edge_iter seen a).
Proof.
  unfold real_edges. fold nc. induction a as [|[n nb] a IH]; intros seen seen' Hs; [reflexivity|]. cbn [filter fst nx_edge_iter]. rewrite filter_app, filter_map, filter_filter. cbn [fst snd]. destruct (nc n) eqn:Hn.
  - cbn [map fst snd nx_edge_iter]. f_equal.
    + f_equal. rewrite filter_filter. apply filter_ext. intros v. cbn [andb]. destruct (nc v) eqn:Hv; [rewrite (Hs v Hv)|]; cbn [andb]; [rewrite andb_true_r; reflexivity|rewrite andb_false_r; reflexivity].
    + apply IH. intros v Hv. unfold smem in *. cbn [existsb]. rewrite (Hs v Hv). reflexivity.
  - rewrite (filter_ext (fun x => negb (smem x seen) && (false && nc x)) (fun _ => false)); [|intros v; cbn [andb]; apply andb_false_r].
    assert (Q : filter (fun _ : snode => false) nb = []) by (clear; induction nb; auto). rewrite Q. cbn [map app]. apply IH. intros v Hv. rewrite (Hs v Hv). unfold smem. cbn [existsb].
    destruct (sneqb v n) eqn:F; [|reflexivity]. apply sneqb_true in F. congruence.
Qed.
Lemma strip_edges g : nx_edges (strip g) = real_edges (nx_edges g).
Proof. apply strip_iter. reflexivity. Qed.
Lemma find_filter_re E u v : nc u = true -> nc v = true -> find (same_pair u v) (filter re E) = find (same_pair u v) E.
Proof.
  intros Hu Hv. induction E as [|e E IH]; [reflexivity|]. cbn [filter find]. destruct (re e) eqn:R; cbn [find].
  - destruct (same_pair u v e); [reflexivity|exact IH].
  - destruct (same_pair u v e) eqn:F; [|exact IH]. apply same_pair_true in F. unfold re in R. destruct F as [F|F]; rewrite F in R; cbn [fst snd] in R; rewrite Hu, Hv in R; discriminate.
Qed.
Lemma find_filter_no E u v : nc u && nc v = false -> find (same_pair u v) (filter re E) = None.
Proof.
  intros H. apply find_joined. intros J. apply joined_filter_nc in J. destruct J as [Hu Hv]. rewrite Hu, Hv in H. discriminate.
Qed.
Lemma strip_data g u v : nx_edge_data (strip g) u v = if nc u && nc v then nx_edge_data g u v else Err KeyError.
Proof.
  unfold nx_edge_data. cbn [strip nx_data]. destruct (nc u && nc v) eqn:H; [|rewrite find_filter_no by assumption; reflexivity].
  apply andb_true_iff in H. rewrite find_filter_re by tauto. reflexivity.
Qed.
Lemma strip_neighbors g u : nx_neighbors (strip g) u = if nc u then match nx_neighbors g u with Ok l => Ok (filter nc l) | Err x => Err x end else Err NetworkXError.
Proof.
  unfold nx_neighbors. cbn [strip nx_adj].
  assert (H : find (fun x => sneqb (fst x) u) (map (fun x => (fst x, filter nc (snd x))) (filter (fun x => nc (fst x)) (nx_adj g))) =
    if nc u then match find (fun x => sneqb (fst x) u) (nx_adj g) with Some x => Some (fst x, filter nc (snd x)) | None => None end else None).
  { induction (nx_adj g) as [|[n nb] a IH]; [destruct (nc u); reflexivity|]. cbn [filter fst find map]. destruct (nc n) eqn:Hn; cbn [map find fst snd].
    - destruct (sneqb n u) eqn:F; [|exact IH]. apply sneqb_true in F. subst n. rewrite Hn. reflexivity.
    - destruct (sneqb n u) eqn:F; [|exact IH]. apply sneqb_true in F. subst n. rewrite Hn in IH |- *. exact IH. }
  rewrite H. clear H. destruct (nc u); [|reflexivity]. destruct (find _ (nx_adj g)) as [[n nb]|]; reflexivity.
Qed.

(* assign_weights leaves the adjacency alone *)
Lemma assign_adj zero node_w L : forall g g', fold_left (nx_assign1 zero node_w) L (Ok g) = Ok g' -> nx_adj g' = nx_adj (W := W) g.
Proof.
  induction L as [|e L IH]; intros g g' H; cbn [fold_left] in H; [injection H as <-; reflexivity|].
  destruct (nx_assign1 zero node_w (Ok g) e) as [g1|x] eqn:Q; [|rewrite fold_err_nx in H; discriminate].
  apply IH in H. rewrite H. unfold nx_assign1 in Q. cbn [bind] in Q. destruct (nx_edge_data g (fst e) (snd e)); [|discriminate]. cbn [bind] in Q.
  destruct (weight_of _ _ _ _ _) as [[w|]|]; [| |discriminate]; cbn [bind] in Q; injection Q as <-; reflexivity.
Qed.

(* assigning weights commutes with removing the connectors *)
Lemma assign_strip zero node_w N E g g' : (forall q x, node_w q = Err x -> x = KeyError) -> simple N E -> nx_inv N E g ->
  nx_assign_weights zero node_w g = Ok g' -> nx_assign_weights zero node_w (strip g) = Ok (strip g').
Proof.
  intros Hk S I H. pose proof (nx_assign_spec zero node_w Hk N E g S I) as Q. destruct (forallb (fine zero node_w) E) eqn:F; [|congruence].
  destruct Q as (g1 & Q & I1). rewrite H in Q. injection Q as <-.
  pose proof (nx_assign_spec zero node_w Hk _ _ _ (strip_simple _ _ S) (strip_inv _ _ _ I)) as Q.
  assert (F' : forallb (fine zero node_w) (filter re E) = true).
  { apply forallb_forall. intros e He. apply filter_In in He. apply (proj1 (forallb_forall _ _) F). tauto. }
  rewrite F' in Q. destruct Q as (g2 & Q & I2). rewrite Q. f_equal.
  pose proof (assign_adj zero node_w _ _ _ H) as A1. pose proof (assign_adj zero node_w _ _ _ Q) as A2.
  destruct g2 as [a2 d2]. pose proof (ni_data _ _ _ I2) as D2. pose proof (ni_data _ _ _ I1) as D1. cbn [nx_adj nx_data] in *. subst a2 d2.
  unfold strip. rewrite A1, D1. cbn [nx_adj]. f_equal. rewrite filter_map. f_equal. apply filter_ext. intros e. unfold re. rewrite assigned_fst. reflexivity.
Qed.
End W.

(* ---------------- union-find reads only the real edges and the real neighbours ---------------- *)
Lemma foldM_ext {A S} (f g : S -> A -> res S) l : (forall s x, f s x = g s x) -> forall s, foldM f s l = foldM g s l.
Proof. intros H. induction l as [|x l IH]; intros s; [reflexivity|]. cbn [foldM]. rewrite H. destruct (g s x); cbn [bind]; [apply IH|reflexivity]. Qed.
Lemma mapM_ext {A B} (f g : A -> res B) l : (forall x, f x = g x) -> mapM f l = mapM g l.
Proof. intros H. induction l as [|x l IH]; [reflexivity|]. cbn [mapM]. rewrite H, IH. reflexivity. Qed.
Section Ext.
  Variables (E E' : list sedge) (oe oe' : snode -> list snode) (er : point -> bool) (sp : nat -> bool) (sch : sched) (fuel : nat).
  Hypothesis HE : RE E = RE E'.
  Hypothesis Ho : forall n, real n = true -> filter real (oe n) = filter real (oe' n).
  Lemma key_ext u v : key E u v = key E' u v.
  Proof. unfold key. rewrite HE. reflexivity. Qed.
  Lemma out_ext n : filter real (if real n then oe n else []) = filter real (if real n then oe' n else []).
  Proof. destruct (real n) eqn:H; [apply Ho; assumption|reflexivity]. Qed.
  Lemma on_boundary_ext st n : on_boundary E oe st n = on_boundary E' oe' st n.
  Proof. unfold on_boundary. rewrite out_ext. rewrite (mapM_ext _ (fun v => match key E' n v with Some e => Ok (negb (grownb (st e))) | None => Err KeyError end)); [reflexivity|]. intros v. rewrite key_ext. reflexivity. Qed.
  Lemma filterM_ext f g l : (forall x, f x = g x) -> filterM f l = filterM g l.
  Proof. intros H. induction l as [|x l IH]; [reflexivity|]. cbn [filterM]. rewrite H, IH. reflexivity. Qed.
  Lemma walk_ext h st root : forall n node visited acc,
    boundary_walk E oe sch fuel n h st root node visited acc = boundary_walk E' oe' sch fuel n h st root node visited acc.
  Proof.
    induction n as [|n IH]; intros node visited acc; cbn [boundary_walk]; destruct (find_child sch fuel h visited node) as [x|]; cbn [bind]; try reflexivity; rewrite on_boundary_ext; destruct (on_boundary E' oe' st x); cbn [bind]; try reflexivity; destruct (snode_eq_dec x root); try reflexivity. destruct (h_par h x); try reflexivity. apply IH.
  Qed.
  Lemma grow_ext s uv : grow E s uv = grow E' s uv.
  Proof. unfold grow. destruct s as [st fl]. rewrite key_ext. reflexivity. Qed.
  Lemma grow_calls_ext k s odd : grow_calls oe sch k s odd = grow_calls oe' sch k s odd.
  Proof.
    unfold grow_calls. rewrite (mapM_ext _ (fun c => match u_bd s c with None => Err KeyError | Some l => Ok (flat_map (fun n => map (pair n) (filter real (if real n then oe' n else []))) (sc_nodes sch k c l)) end)); [reflexivity|].
    intros x. destruct (u_bd s x) as [l|]; [|reflexivity]. f_equal. apply flat_map_ext. intros n. rewrite out_ext. reflexivity.
  Qed.
  Lemma fuse_ext s uv : fuse E oe fuel s uv = fuse E' oe' fuel s uv.
  Proof.
    unfold fuse. destruct (find_root fuel (u_heap s) (fst uv)) as [r0|]; [|reflexivity]. cbn [bind]. destruct (find_root fuel (snd r0) (snd uv)) as [r1|]; [|reflexivity]. cbn [bind].
    destruct (fst r0), (fst r1); try reflexivity. destruct (union (snd r1) s0 s1) as [h' [[big small]|]]; [|reflexivity]. destruct (u_bd s big), (u_bd s small); try reflexivity.
    unfold prune. rewrite (filterM_ext _ (on_boundary E' oe' (u_st s))); [reflexivity|]. intros x. apply on_boundary_ext.
  Qed.
  Lemma round_ext k s odd : round E oe sch fuel k s odd = round E' oe' sch fuel k s odd.
  Proof.
    unfold round. rewrite grow_calls_ext. destruct (grow_calls oe' sch k s odd) as [calls|]; [|reflexivity]. cbn [bind]. rewrite (foldM_ext (grow E) (grow E') _ grow_ext). destruct (foldM (grow E') (u_st s, []) calls) as [sf|]; [|reflexivity]. cbn [bind].
    rewrite (foldM_ext (fuse E oe fuel) (fuse E' oe' fuel) _ fuse_ext). reflexivity.
  Qed.
  Lemma union_find_ext : forall n k s odd, union_find E oe sch fuel n k s odd = union_find E' oe' sch fuel n k s odd.
  Proof. induction n as [|n IH]; intros k s odd; destruct odd as [|x odd]; try reflexivity. cbn [union_find]. rewrite round_ext. destruct (round E' oe' sch fuel k s (x :: odd)); [|reflexivity]. cbn [bind]. apply IH. Qed.
  Lemma grow_clusters_ext n comps : grow_clusters E er sp oe sch fuel n comps = grow_clusters E' er sp oe' sch fuel n comps.
  Proof.
    unfold grow_clusters. destruct (initialize sp comps) as [[[h trees] odd]|]; [|reflexivity]. cbn [bind].
    rewrite (foldM_ext _ (fun bd c => bind (boundary_init E' oe' sch fuel h (init_status er) c) (fun l => Ok (supd bd c (Some l))))); [|intros bd c; unfold boundary_init; rewrite walk_ext; reflexivity].
    destruct (foldM _ (fun _ => None) trees); [|reflexivity]. cbn [bind]. apply union_find_ext.
  Qed.
End Ext.
Lemma uf_decoder_ext E E' er sp lib lib' sch fuel : RE E = RE E' -> (forall n, real n = true -> filter real (l_out lib n) = filter real (l_out lib' n)) ->
  l_nodes lib = l_nodes lib' -> l_comps lib = l_comps lib' -> l_mst lib = l_mst lib' -> uf_decoder E er sp lib sch fuel = uf_decoder E' er sp lib' sch fuel.
Proof.
  intros HE Ho Hn Hc Hm. unfold uf_decoder. rewrite (grow_clusters_ext E E' _ _ er sp sch fuel HE Ho). unfold grown_edges. rewrite HE, Hn, Hc, Hm. reflexivity.
Qed.
