(* PropsBackend2.v: C46, add_edge and add_node called again for what is already there. *)
From Verif Require Import Base Lattice RhgModel SurfaceModel StabGraphModel BackendModel BackendSpec BackendProofs.
Open Scope nat_scope.

(* e is the last call of add_edge that joins u and v, in either direction *)
Definition last_call (u v : snode) (cv : option point) (E : list sedge) : Prop :=
  exists E1 a b E2, E = E1 ++ (a, b, cv) :: E2 /\ (a = u /\ b = v \/ a = v /\ b = u) /\
    forall x, ~ In (u, v, x) E2 /\ ~ In (v, u, x) E2.
Definition ever_joined (u v : snode) (E : list sedge) : Prop := exists x, In (u, v, x) E \/ In (v, u, x) E.

Section W.
Context {W : Type}.
Record loose (N : snode -> Prop) (E : list sedge) (g : nxg W) : Prop := {
  lo_nd : NoDup (nx_nodes g);
  lo_nodes : forall u, In u (nx_nodes g) <-> N u;
  lo_nbr : forall u nb, In (u, nb) (nx_adj g) -> NoDup nb /\ forall v, In v nb <-> ever_joined u v E;
  lo_end : forall u v, ever_joined u v E -> N u;
  lo_data : forall u v e, find (same_pair u v) (nx_data g) = Some e -> ed_w (snd e) = None /\ last_call u v (ed_cv (snd e)) E;
  lo_none : forall u v, find (same_pair u v) (nx_data g) = None -> ~ ever_joined u v E
}.
Lemma same_pair_pts {A} x y u v (d : A) : same_pair x y (u, v, d) = true <-> (u = x /\ v = y \/ u = y /\ v = x).
Proof. unfold same_pair. cbn [fst snd]. rewrite orb_true_iff, !andb_true_iff, !sneqb_true. reflexivity. Qed.
Lemma loose_add_node N E g u : loose N E g -> loose (fun x => N x \/ x = u) E (nx_add_node u g).
Proof.
  intros [H1 H2 H3 H4 H5 H6]. unfold nx_add_node. destruct (smem u (nx_nodes g)) eqn:F.
  - apply smem_In in F. split; try assumption.
    + intros x. change (nx_nodes _) with (nx_nodes g). rewrite H2. split; [auto|]. intros [H| ->]; [assumption|]. apply H2. assumption.
    + intros x v H. left. apply (H4 x v H).
  - apply smem_false in F. unfold nx_nodes in *. split; unfold nx_nodes; cbn [nx_adj nx_data]; try assumption.
    + rewrite map_app. cbn [map fst]. apply NoDup_app_intro; [assumption|repeat constructor; intros []|]. intros x Hx [<-|[]]. contradiction.
    + intros x. rewrite map_app, in_app_iff, H2. cbn [map fst In]. split; [intros [H|[H|[]]]; auto|intros [H| ->]; auto].
    + intros x nb H. apply in_app_or in H. destruct H as [H|[H|[]]]; [apply H3; assumption|]. injection H as <- <-. split; [constructor|]. intros v. split; [intros []|]. intros J. exfalso. apply F. apply H2. apply (H4 u v J).
    + intros x v H. left. apply (H4 x v H).
Qed.
Lemma nx_upd_find u v a b cv (l : list (dedge W)) :
  find (same_pair u v) (nx_upd a b cv l) =
  if same_pair u v (a, b, tt) then Some (match find (same_pair u v) l with Some e => (fst e, {| ed_cv := cv; ed_w := ed_w (snd e) |}) | None => (a, b, new_data cv) end)
  else find (same_pair u v) l.
Proof.
  assert (HS : forall e : dedge W, same_pair u v (a, b, tt) = true -> same_pair a b e = same_pair u v e).
  { intros [[x y] d] H. apply same_pair_pts in H. unfold same_pair. cbn [fst snd]. destruct H as [[-> ->]|[-> ->]]; [reflexivity|]. apply orb_comm. }
  assert (HD : forall e : dedge W, same_pair a b e = true -> same_pair u v e = same_pair u v (a, b, tt)).
  { intros [[x y] d] H. apply same_pair_pts in H. unfold same_pair. cbn [fst snd]. destruct H as [[-> ->]|[-> ->]]; [reflexivity|]. rewrite orb_comm, (andb_comm (sneqb b v)), (andb_comm (sneqb b u)). reflexivity. }
  induction l as [|e l IH].
  - cbn [nx_upd find]. change (same_pair u v (a, b, new_data (W := W) cv)) with (same_pair u v (a, b, tt)). destruct (same_pair u v (a, b, tt)); reflexivity.
  - cbn [nx_upd]. destruct (same_pair a b e) eqn:F.
    + cbn [find]. pose proof (HD e F) as Q. assert (Q' : same_pair u v (fst e, {| ed_cv := cv; ed_w := ed_w (snd e) |}) = same_pair u v (a, b, tt)) by (rewrite <- Q; reflexivity). rewrite Q', Q. destruct (same_pair u v (a, b, tt)); reflexivity.
    + cbn [find]. destruct (same_pair u v e) eqn:G.
      * destruct (same_pair u v (a, b, tt)) eqn:K; [|reflexivity]. rewrite (HS e eq_refl) in F. congruence.
      * exact IH.
Qed.
Lemma last_call_here u v a b cv E : (a = u /\ b = v \/ a = v /\ b = u) -> last_call u v cv (E ++ [(a, b, cv)]).
Proof. intros H. exists E, a, b, []. split; [reflexivity|]. split; [assumption|]. intros x. split; intros []. Qed.
Lemma last_call_later u v cv a b cv' E : ~ (a = u /\ b = v \/ a = v /\ b = u) -> last_call u v cv E -> last_call u v cv (E ++ [(a, b, cv')]).
Proof.
  intros Hn (E1 & c & d & E2 & -> & H & Hl). exists E1, c, d, (E2 ++ [(a, b, cv')]). split; [rewrite <- app_assoc; reflexivity|]. split; [assumption|].
  intros x. destruct (Hl x) as [L1 L2]. split; intros Hi; apply in_app_or in Hi; destruct Hi as [Hi|[Hi|[]]]; try contradiction; injection Hi as -> -> _; apply Hn; auto.
Qed.
Lemma ever_app u v a b cv E : ever_joined u v (E ++ [(a, b, cv)]) <-> ever_joined u v E \/ (a = u /\ b = v \/ a = v /\ b = u).
Proof.
  unfold ever_joined. split.
  - intros (x & [H|H]); apply in_app_or in H; destruct H as [H|[H|[]]]; [left; eauto|injection H as -> -> _; auto|left; eauto|injection H as -> -> _; auto].
  - intros [(x & [H|H])|[[-> ->]|[-> ->]]]; [exists x; left|exists x; right|exists cv; left|exists cv; right]; apply in_or_app; cbn [In]; auto.
Qed.
Lemma nx_link_nodup u v (a : list (snode * list snode)) : (forall x nb, In (x, nb) a -> NoDup nb) -> forall x nb, In (x, nb) (nx_link u v a) -> NoDup nb.
Proof.
  intros H x nb Hi. apply in_map_iff in Hi. destruct Hi as ((y & nb') & E & Hi). cbn [fst snd] in E. destruct (sneqb y u).
  - injection E as <- <-. destruct (smem v nb') eqn:F; [apply (H y); assumption|]. apply smem_false in F. apply NoDup_app_intro; [apply (H y); assumption|repeat constructor; intros []|]. intros z Hz [<-|[]]. contradiction.
  - injection E as <- <-. apply (H y); assumption.
Qed.
Lemma nx_link_in u v (a : list (snode * list snode)) x nb : In (x, nb) (nx_link u v a) -> exists nb', In (x, nb') a /\ forall y, In y nb <-> In y nb' \/ (x = u /\ y = v).
Proof.
  intros Hi. apply in_map_iff in Hi. destruct Hi as ((z & nb') & E & Hi). cbn [fst snd] in E. exists nb'. destruct (sneqb z u) eqn:F.
  - apply sneqb_true in F. subst z. injection E as <- <-. split; [assumption|]. intros y. destruct (smem v nb') eqn:G; [apply smem_In in G; split; [auto|intros [H|[_ ->]]; assumption]|]. rewrite in_app_iff. cbn [In]. split; [intros [H|[<-|[]]]; auto|intros [H|[_ ->]]; auto].
  - apply sneqb_false in F. injection E as <- <-. split; [assumption|]. intros y. split; [auto|intros [H|[-> _]]; [assumption|congruence]].
Qed.
Lemma loose_add_edge N E g u v cv : loose N E g -> loose (fun x => (N x \/ x = u) \/ x = v) (E ++ [(u, v, cv)]) (nx_add_edge u v cv g).
Proof.
  intros H. apply loose_add_node with (u := u) in H. apply loose_add_node with (u := v) in H. unfold nx_add_edge. set (g' := nx_add_node v (nx_add_node u g)) in *. clearbody g'.
  destruct H as [H1 H2 H3 H4 H5 H6]. unfold nx_nodes in *.
  assert (HP : forall x y, same_pair x y (u, v, tt) = true <-> (u = x /\ v = y \/ u = y /\ v = x)) by (intros x y; apply same_pair_pts).
  split; unfold nx_nodes; cbn [nx_adj nx_data].
  - rewrite !nx_link_keys. assumption.
  - intros x. rewrite !nx_link_keys. apply H2.
  - intros x nb Hi. split; [revert x nb Hi; apply nx_link_nodup, nx_link_nodup; intros x nb Hi; apply (H3 x nb Hi)|].
    intros y. apply nx_link_in in Hi. destruct Hi as (nb1 & Hi & Q1). apply nx_link_in in Hi. destruct Hi as (nb2 & Hi & Q2). rewrite Q1, Q2, (proj2 (H3 x nb2 Hi) y), ever_app. intuition congruence.
  - intros x y J. apply ever_app in J. destruct J as [J|[[-> ->]|[-> ->]]]; [apply (H4 x y J)|left; right; reflexivity|right; reflexivity].
  - intros x y e He. rewrite nx_upd_find in He. destruct (same_pair x y (u, v, tt)) eqn:F.
    + apply HP in F. destruct (find (same_pair x y) (nx_data g')) as [e'|] eqn:G; injection He as <-; cbn [fst snd ed_cv ed_w new_data]; (split; [|apply last_call_here; assumption]); [|reflexivity]. apply (H5 x y e' G).
    + destruct (H5 x y e He) as [Hw Hl]. split; [assumption|]. apply last_call_later; [|assumption]. intros Q. apply HP in Q. congruence.
  - intros x y He. rewrite nx_upd_find in He. destruct (same_pair x y (u, v, tt)) eqn:F; [discriminate|]. intros J. apply ever_app in J. destruct J as [J|J]; [apply (H6 x y He J)|]. apply HP in J. congruence.
Qed.
Lemma loose_ext N N' E g : (forall u, N u <-> N' u) -> loose N E g -> loose N' E g.
Proof. intros HN [H1 H2 H3 H4 H5 H6]. split; try assumption; [intros u; rewrite H2; apply HN|intros u v J; apply HN; apply (H4 u v J)]. Qed.
Lemma hist_nodes_app a b : hist_nodes (a ++ b) = hist_nodes a ++ hist_nodes b.
Proof. induction a as [|[u|e] a IH]; [reflexivity|cbn; rewrite IH; reflexivity|cbn; exact IH]. Qed.
Lemma hist_edges_app a b : hist_edges (a ++ b) = hist_edges a ++ hist_edges b.
Proof. induction a as [|[u|e] a IH]; [reflexivity|cbn; exact IH|cbn; rewrite IH; reflexivity]. Qed.
Definition mentioned (calls : list scall) (u : snode) : Prop := In u (hist_nodes calls) \/ exists v, ever_joined u v (hist_edges calls).
Lemma loose_build calls : loose (mentioned calls) (hist_edges calls) (nx_build (W := W) calls).
Proof.
  induction calls as [|c calls IH] using rev_ind.
  - split; cbn.
    + constructor.
    + intros u. split; [intros []|]. intros [[]|(v & x & [[]|[]])].
    + intros u nb [].
    + intros u v (x & [[]|[]]).
    + intros u v e. discriminate.
    + intros u v _ (x & [[]|[]]).
  - unfold nx_build. rewrite fold_left_app. cbn [fold_left]. fold (nx_build (W := W) calls). rewrite hist_edges_app. destruct c as [u|[[u v] cv]]; cbn [nx_call hist_edges].
    + rewrite app_nil_r. apply (loose_ext (fun x => mentioned calls x \/ x = u)); [|apply loose_add_node; assumption].
      intros x. unfold mentioned. rewrite hist_nodes_app, hist_edges_app, app_nil_r, in_app_iff. cbn [hist_nodes In hist_edges]. split; [intros [[H|H]| ->]; auto|intros [[H|[-> |[]]]|H]; auto].
    + apply (loose_ext (fun x => (mentioned calls x \/ x = u) \/ x = v)); [|apply loose_add_edge; assumption].
      intros x. unfold mentioned. rewrite hist_nodes_app, hist_edges_app. cbn [hist_nodes hist_edges]. rewrite app_nil_r. setoid_rewrite ever_app. split.
      * intros [[[H|(y & H)]| ->]| ->]; [auto|right; exists y; auto|right; exists v; auto|right; exists u; auto].
      * intros [H|(y & [H|[[-> ->]|[-> ->]]])]; [auto|left; left; right; eauto|auto|auto].
Qed.
End W.

(* Any history of calls, with nodes and edges added again and edges between nodes never added: on networkx, the edge data
   are those of the last call for the pair, every node and every neighbour is listed once. *)
Theorem C46_networkx_any_calls : forall W calls, let n := nx_build (W := W) calls in
  NoDup (nx_nodes n) /\ (forall u, In u (nx_nodes n) <-> In u (hist_nodes calls) \/ exists v, ever_joined u v (hist_edges calls)) /\
  (forall u, In u (nx_nodes n) -> exists l, nx_neighbors n u = Ok l /\ NoDup l /\ forall v, In v l <-> ever_joined u v (hist_edges calls)) /\
  (forall u v, ever_joined u v (hist_edges calls) -> exists cv, last_call u v cv (hist_edges calls) /\ nx_edge_data n u v = Ok {| ed_cv := cv; ed_w := None |}) /\
  (forall u v, ~ ever_joined u v (hist_edges calls) -> nx_edge_data n u v = Err KeyError).
Proof.
  intros W calls n. pose proof (loose_build (W := W) calls) as [H1 H2 H3 H4 H5 H6]. fold n in H1, H2, H3, H5, H6. split; [assumption|]. split; [exact H2|]. split; [|split].
  - intros u Hu. unfold nx_neighbors. destruct (find (fun x => sneqb (fst x) u) (nx_adj n)) as [[x nb]|] eqn:F.
    + apply find_some in F. destruct F as [F1 F2]. cbn [fst] in F2. apply sneqb_true in F2. subst x. exists nb. split; [reflexivity|]. apply (H3 u nb F1).
    + exfalso. unfold nx_nodes in Hu. apply in_map_iff in Hu. destruct Hu as ((x & nb) & E & Hi). cbn [fst] in E. subst x. pose proof (find_none _ _ F _ Hi) as Q. cbn [fst] in Q. rewrite sneqb_refl in Q. discriminate.
  - intros u v J. unfold nx_edge_data. destruct (find (same_pair u v) (nx_data n)) as [e|] eqn:F; [|exfalso; apply (H6 u v F J)]. destruct (H5 u v e F) as [Hw Hl]. exists (ed_cv (snd e)). split; [assumption|]. destruct (snd e) as [c w]. cbn [ed_cv ed_w] in *. subst w. reflexivity.
  - intros u v J. unfold nx_edge_data. destruct (find (same_pair u v) (nx_data n)) as [e|] eqn:F; [|reflexivity]. exfalso. apply J. destruct (H5 u v e F) as [_ (E1 & a & b & E2 & E & [[-> ->]|[-> ->]] & _)]; exists (ed_cv (snd e)); rewrite E; [left|right]; apply in_elt.
Qed.
Print Assumptions C46_networkx_any_calls.

(* the two backends disagree after add_edge is called twice for a pair: rustworkx keeps two edges, networkx one, and
   rustworkx lists a second node for a node added twice *)
Theorem C46_repeated_calls_refuted : forall W p q, p <> q ->
  let calls := [CNode NLow; CNode NHigh; CEdge (NLow, NHigh, Some p); CEdge (NHigh, NLow, Some q)] in
  exists r, rx_build (W := W) calls = Ok r /\ length (rx_edges r) = 2 /\ length (nx_edges (nx_build (W := W) calls)) = 1 /\
    nx_edge_data (nx_build (W := W) calls) NLow NHigh = Ok {| ed_cv := Some q; ed_w := None |} /\
    exists r', rx_build (W := W) [CNode NLow; CNode NLow] = Ok r' /\ length (rx_nodes r') = 2 /\ length (nx_nodes (nx_build (W := W) [CNode NLow; CNode NLow])) = 1.
Proof. intros W p q Hpq calls. eexists. split; [reflexivity|]. repeat split. eexists. split; [reflexivity|]. split; reflexivity. Qed.
Print Assumptions C46_repeated_calls_refuted.
