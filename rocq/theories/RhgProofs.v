(* RhgProofs.v: the graph built by rhg_graph is the lattice of RhgSpec.v. *)
From Verif Require Import Base Lattice RhgModel RhgSpec.
Open Scope Z_scope.

(* ------------------------------------------------------------------ *)
(* The graph library *)

Lemma has_key_In p l : has_key p l = true <-> In p (map fst l).
Proof.
  unfold has_key. rewrite existsb_exists, in_map_iff. split.
  - intros [e [He Hp]]. apply peqb_true in Hp. exists e; auto.
  - intros [e [He Hp]]. exists e. split; auto. apply peqb_true; assumption.
Qed.

Lemma has_node_In g p : has_node g p = true <-> In p (node_list g).
Proof. apply has_key_In. Qed.

Lemma upd_node_keys p t l q :
  In q (map fst (upd_node p t l)) <-> q = p \/ In q (map fst l).
Proof.
  induction l as [|[r t'] l IH]; simpl.
  - intuition.
  - destruct (peqb r p) eqn:E; simpl.
    + apply peqb_true in E. subst. intuition.
    + rewrite IH. intuition.
Qed.

Lemma upd_node_NoDup p t l : NoDup (map fst l) -> NoDup (map fst (upd_node p t l)).
Proof.
  induction l as [|[r t'] l IH]; simpl; intros H.
  - repeat constructor; simpl; auto.
  - inversion H; subst. destruct (peqb r p) eqn:E; simpl; constructor; auto.
    rewrite upd_node_keys. apply peqb_false in E. intuition.
Qed.

Lemma ensure_node_keys p l q :
  In q (map fst (ensure_node p l)) <-> q = p \/ In q (map fst l).
Proof.
  unfold ensure_node. destruct (has_key p l) eqn:E.
  - apply has_key_In in E. split; [auto|]. intros [->|?]; assumption.
  - rewrite map_app, in_app_iff. simpl. intuition.
Qed.

Lemma ensure_node_NoDup p l : NoDup (map fst l) -> NoDup (map fst (ensure_node p l)).
Proof.
  unfold ensure_node. destruct (has_key p l) eqn:E; auto.
  intros H. rewrite map_app. apply NoDup_app_intro; auto.
  - repeat constructor; simpl; auto.
  - intros x Hx [<-|[]]. simpl in Hx. apply has_key_In in Hx. congruence.
Qed.

Definition type_of (l : list (point * option ntyp)) (p : point) : option ntyp :=
  match find (fun e => peqb (fst e) p) l with Some (_, t) => t | None => None end.

Lemma type_of_upd p t l q :
  type_of (upd_node p t l) q = if peqb p q then Some t else type_of l q.
Proof.
  unfold type_of. induction l as [|[r t'] l IH]; simpl.
  - destruct (peqb p q); reflexivity.
  - destruct (peqb r p) eqn:E; simpl.
    + apply peqb_true in E. subst. destruct (peqb p q); reflexivity.
    + destruct (peqb r q) eqn:E2.
      * apply peqb_true in E2. subst. apply peqb_false in E.
        destruct (peqb p q) eqn:E3; [apply peqb_true in E3; congruence|reflexivity].
      * exact IH.
Qed.

Lemma type_of_ensure p l q : type_of (ensure_node p l) q = type_of l q.
Proof.
  unfold type_of, ensure_node. destruct (has_key p l) eqn:E; auto.
  induction l as [|[r t'] l IH]; simpl.
  - destruct (peqb p q); reflexivity.
  - simpl in E. apply orb_false_iff in E. destruct E as [_ E].
    destruct (peqb r q); auto.
Qed.

(* Operations touching a node *)
Definition op_node (o : gop) (p : point) : Prop :=
  match o with OpNode q _ => q = p | OpEdge u v _ _ => u = p \/ v = p end.

Lemma apply_op_nodes g o p :
  In p (node_list (apply_op g o)) <-> In p (node_list g) \/ op_node o p.
Proof.
  unfold node_list. destruct o as [q t|u v w per]; simpl.
  - rewrite upd_node_keys. intuition.
  - rewrite !ensure_node_keys. intuition.
Qed.

Lemma fold_nodes ops g p :
  In p (node_list (fold_left apply_op ops g)) <->
  In p (node_list g) \/ exists o, In o ops /\ op_node o p.
Proof.
  revert g; induction ops as [|o ops IH]; simpl; intros g.
  - firstorder.
  - rewrite IH, apply_op_nodes. split.
    + intros [[H|H]|[o' [Ho H]]]; [auto|right; exists o; auto|right; exists o'; auto].
    + intros [H|[o' [[->|Ho] H]]]; [auto|auto|right; exists o'; auto].
Qed.

Lemma fold_nodes_NoDup ops g :
  NoDup (node_list g) -> NoDup (node_list (fold_left apply_op ops g)).
Proof.
  revert g; induction ops as [|o ops IH]; simpl; intros g H; auto.
  apply IH. unfold node_list. destruct o; simpl.
  - apply upd_node_NoDup; assumption.
  - apply ensure_node_NoDup, ensure_node_NoDup; assumption.
Qed.

Lemma node_type_op g o p :
  node_type (apply_op g o) p =
  match o with
  | OpNode q t => if peqb q p then Some t else node_type g p
  | OpEdge _ _ _ _ => node_type g p
  end.
Proof.
  unfold node_type. change (type_of (gnodes (apply_op g o)) p =
    match o with OpNode q t => if peqb q p then Some t else type_of (gnodes g) p
               | OpEdge _ _ _ _ => type_of (gnodes g) p end).
  destruct o as [q t|u v w per]; simpl.
  - apply type_of_upd.
  - rewrite !type_of_ensure; reflexivity.
Qed.

Lemma fold_type (tf : point -> ntyp) ops g p :
  (forall q t, In (OpNode q t) ops -> t = tf q) ->
  (node_type g p = Some (tf p) \/ exists t, In (OpNode p t) ops) ->
  node_type (fold_left apply_op ops g) p = Some (tf p).
Proof.
  revert g; induction ops as [|o ops IH]; simpl; intros g Ht H.
  - destruct H as [?|[? []]]; assumption.
  - apply IH; [intros; apply Ht; auto|].
    rewrite node_type_op. destruct o as [q t|u v w per].
    + destruct (peqb q p) eqn:E.
      * apply peqb_true in E; subst. left. f_equal. apply Ht; auto.
      * destruct H as [?|[t' [H|H]]]; [auto| |eauto].
        injection H as -> ->. rewrite peqb_refl in E; discriminate.
    + destruct H as [?|[t' [H|H]]]; [auto|discriminate|eauto].
Qed.

Lemma same_edge_true u v e :
  same_edge u v e = true <-> e = (u, v) \/ e = (v, u).
Proof.
  destruct e as [a b]. unfold same_edge. simpl.
  rewrite orb_true_iff, !andb_true_iff, !peqb_true.
  split; intros [H|H]; [left|right|left|right]; try (injection H as -> ->); auto;
    destruct H; congruence.
Qed.

Lemma same_edge_sym u v e : same_edge u v e = same_edge v u e.
Proof. unfold same_edge. apply orb_comm. Qed.

Lemma same_edge_swap u v a b : same_edge u v (a, b) = same_edge a b (u, v).
Proof.
  apply eq_true_iff_eq. rewrite !same_edge_true.
  split; intros [H|H]; injection H as -> ->; auto.
Qed.

Definition attr_of (l : list ((point * point) * eattr)) u v : option eattr :=
  match find (fun e => same_edge u v (fst e)) l with Some (_, a) => Some a | None => None end.

Lemma attr_of_upd u v w per l p q :
  attr_of (upd_edge u v w per l) p q =
  if same_edge p q (u, v) then
    Some {| eweight := w;
            eperiodic := per || match attr_of l p q with Some a => eperiodic a | None => false end |}
  else attr_of l p q.
Proof.
  unfold attr_of. induction l as [|[e a] l IH]; simpl.
  - destruct (same_edge p q (u, v)); [rewrite orb_false_r|]; reflexivity.
  - destruct (same_edge u v e) eqn:E; simpl.
    + assert (H : same_edge p q e = same_edge p q (u, v)).
      { apply same_edge_true in E. destruct E as [->| ->]; [reflexivity|].
        rewrite !(same_edge_swap p q). apply same_edge_sym. }
      rewrite H. destruct (same_edge p q (u, v)); reflexivity.
    + destruct (same_edge p q e) eqn:E2.
      * destruct (same_edge p q (u, v)) eqn:E3; [|reflexivity]. exfalso.
        apply same_edge_true in E2, E3.
        assert (same_edge u v e = true); [|congruence].
        apply same_edge_true.
        destruct E2 as [->| ->], E3 as [E3|E3]; injection E3 as -> ->; auto.
      * exact IH.
Qed.

Lemma edge_attr_op g o p q :
  edge_attr (apply_op g o) p q =
  match o with
  | OpNode _ _ => edge_attr g p q
  | OpEdge u v w per =>
      if same_edge p q (u, v) then
        Some {| eweight := w;
                eperiodic := per || match edge_attr g p q with Some a => eperiodic a | None => false end |}
      else edge_attr g p q
  end.
Proof.
  destruct o; [reflexivity|]. unfold edge_attr at 1. simpl. apply attr_of_upd.
Qed.

Lemma edge_attr_sym g p q : edge_attr g p q = edge_attr g q p.
Proof.
  unfold edge_attr. replace (find (fun e => same_edge p q (fst e)) (gedges g))
    with (find (fun e => same_edge q p (fst e)) (gedges g)); [reflexivity|].
  induction (gedges g) as [|e l IH]; simpl; [reflexivity|].
  rewrite (same_edge_sym p q), IH. reflexivity.
Qed.

Definition per_flag (o : option eattr) : bool :=
  match o with Some a => eperiodic a | None => false end.

(* existence and periodic flag of an edge *)
Lemma fold_edge ops g p q :
  (edge_attr (fold_left apply_op ops g) p q <> None <->
   edge_attr g p q <> None \/
   exists u v w per, In (OpEdge u v w per) ops /\ same_edge p q (u, v) = true) /\
  (per_flag (edge_attr (fold_left apply_op ops g) p q) = true <->
   per_flag (edge_attr g p q) = true \/
   exists u v w, In (OpEdge u v w true) ops /\ same_edge p q (u, v) = true).
Proof.
  revert g; induction ops as [|o ops IH]; simpl; intros g.
  - split; firstorder.
  - destruct (IH (apply_op g o)) as [H1 H2]. clear IH. rewrite H1, H2. clear H1 H2.
    rewrite edge_attr_op. destruct o as [r t|u v w per].
    + split; (split; [intros [H|H]; [auto|right]; firstorder eauto|
        intros [H|H]; [auto|right]; firstorder (try discriminate; eauto)]).
    + destruct (same_edge p q (u, v)) eqn:E.
      * split.
        -- split; [|intros _; left; discriminate].
           intros _. right. exists u, v, w, per. auto.
        -- simpl. rewrite orb_true_iff. split.
           ++ intros [[->|H]|(u' & v' & w' & Hin & Hs)].
              ** right. exists u, v, w. auto.
              ** left. exact H.
              ** right. exists u', v', w'. auto.
           ++ intros [H|(u' & v' & w' & [Hin|Hin] & Hs)].
              ** left. right. exact H.
              ** injection Hin as -> -> -> ->. left. left. reflexivity.
              ** right. exists u', v', w'. auto.
      * split; (split; [intros [H|H]; [auto|right]; firstorder eauto|
          intros [H|H]; [auto|]; right]).
        -- destruct H as (u' & v' & w' & per' & [Hin|Hin] & Hs); [|eauto 8].
           injection Hin as -> -> -> ->. congruence.
        -- destruct H as (u' & v' & w' & [Hin|Hin] & Hs); [|eauto 8].
           injection Hin as -> -> -> ->. congruence.
Qed.

(* weight of an edge all of whose insertions agree *)
Lemma fold_weight ops g p q W :
  (forall u v w per, In (OpEdge u v w per) ops -> same_edge p q (u, v) = true -> w = W) ->
  (forall a, edge_attr g p q = Some a -> eweight a = W) ->
  forall a, edge_attr (fold_left apply_op ops g) p q = Some a -> eweight a = W.
Proof.
  revert g; induction ops as [|o ops IH]; simpl; intros g Ho Hg a Ha; [auto|].
  eapply IH; [| |exact Ha]; [intros; eapply Ho; eauto|].
  intros a' Ha'. rewrite edge_attr_op in Ha'. destruct o as [r t|u v w per]; [auto|].
  destruct (same_edge p q (u, v)) eqn:E; [|auto].
  injection Ha' as <-. simpl. eapply Ho; eauto.
Qed.

(* ------------------------------------------------------------------ *)
(* Geometry, one axis at a time *)

(* the three-axis condition 206-210 for one coordinate *)
Definition bey1 (b : bnd) (d c : Z) : Prop :=
  match b with
  | BPrimal => False
  | BDual => c = 0 \/ c = 2 * d
  | BPeriodic => c <> 0 /\ c = 2 * d
  end.

Lemma nonempty_true {A} (l : list A) : nonempty l = true <-> exists x, In x l.
Proof.
  destruct l as [|x l]; simpl; split; intros H; try discriminate; auto.
  - destruct H as [? []].
  - exists x; auto.
Qed.

Lemma in_inter a l m : In a (inter_axes l m) <-> In a l /\ In a m.
Proof.
  unfold inter_axes. rewrite filter_In. destruct (in_dec axis_eq_dec a m); intuition congruence.
Qed.

Lemma in_where_0 a p : In a (where_0 p) <-> co a p = 0.
Proof. unfold where_0. rewrite filter_In, Z.eqb_eq. pose proof (axes_all a). tauto. Qed.

Lemma in_where_max a D p : In a (where_max D p) <-> co a p <> 0 /\ co a p = 2 * get a D.
Proof.
  unfold where_max. rewrite filter_In. pose proof (axes_all a).
  rewrite andb_true_iff, negb_true_iff, Z.eqb_eq, Z.eqb_neq. tauto.
Qed.

Lemma bnd_eqb_true a b : bnd_eqb a b = true <-> a = b.
Proof. destruct a, b; simpl; split; congruence. Qed.

Lemma in_axes_of a b B : In a (axes_of b B) <-> get a B = b.
Proof. unfold axes_of. rewrite filter_In, bnd_eqb_true. pose proof (axes_all a). tauto. Qed.

Lemma beyond_true D B p :
  beyond D B p = true <-> exists a, bey1 (get a B) (get a D) (co a p).
Proof.
  unfold beyond. rewrite !orb_true_iff, !nonempty_true. split.
  - intros [[[a H]|[a H]]|[a H]]; exists a; apply in_inter in H; destruct H as [H1 H2];
      apply in_axes_of in H2; rewrite H2; simpl;
      first [apply in_where_max in H1 | apply in_where_0 in H1]; tauto.
  - intros [a H]. unfold bey1 in H. destruct (get a B) eqn:E; [contradiction| |].
    + destruct (Z.eq_dec (co a p) 0).
      * left. right. exists a. apply in_inter. rewrite in_where_0, in_axes_of. auto.
      * left. left. exists a. apply in_inter. rewrite in_where_max, in_axes_of. intuition.
    + right. exists a. apply in_inter. rewrite in_where_max, in_axes_of. auto.
Qed.

Lemma beyond_false D B p :
  beyond D B p = false <-> forall a, ~ bey1 (get a B) (get a D) (co a p).
Proof.
  rewrite <- not_true_iff_false, beyond_true. firstorder.
Qed.

(* coordinates reached by the cubes along one axis *)
Definition cube_range (b : bnd) (d c : Z) : Prop := 0 <= c <= 2 * (d - rhg_max b).

Lemma in_product3 l1 l2 l3 x y z :
  In (x, y, z) (product3 l1 l2 l3) <-> In x l1 /\ In y l2 /\ In z l3.
Proof.
  unfold product3. rewrite in_flat_map. split.
  - intros [i [Hi H]]. apply in_flat_map in H. destruct H as [j [Hj H]].
    apply in_map_iff in H. destruct H as [k [E Hk]]. injection E as <- <- <-. auto.
  - intros (Hx & Hy & Hz). exists x. split; auto. apply in_flat_map. exists y. split; auto.
    apply in_map_iff. exists z; auto.
Qed.

Lemma in_rhg_inds D B i j k :
  In (i, j, k) (rhg_inds D B) <->
  0 <= i < get AX D - rhg_max (get AX B) /\
  0 <= j < get AY D - rhg_max (get AY B) /\
  0 <= k < get AZ D - rhg_max (get AZ B).
Proof. unfold rhg_inds. rewrite in_product3, !in_py_range. reflexivity. Qed.

Lemma half_index (c n : Z) :
  0 <= c <= 2 * n -> 1 <= n -> c mod 2 = 0 ->
  exists i, 0 <= i < n /\ (c = 2 * i \/ c = 2 * i + 2).
Proof.
  intros. destruct (Z.eq_dec c (2 * n)).
  - exists (n - 1). lia.
  - exists (c / 2). lia.
Qed.

Lemma in_six_body_points D B p :
  (forall a, 1 <= get a D - rhg_max (get a B)) ->
  In p (six_body_points D B) <->
  nodd p = 2 /\ forall a, cube_range (get a B) (get a D) (co a p).
Proof.
  intros Hd. unfold six_body_points, primal_cubes. rewrite in_concat. split.
  - intros [cube [Hc Hp]]. apply in_map_iff in Hc. destruct Hc as [[[i j] k] [<- Hin]].
    apply in_rhg_inds in Hin. destruct Hin as (Hi & Hj & Hk).
    unfold nodd, cube_range.
    simpl in Hp. decompose [or] Hp; clear Hp; try contradiction; subst p;
      (split; [simpl; lia|intros a; destruct a; simpl; simpl in *; lia]).
  - intros [Hn Hr]. destruct p as [[x y] z].
    pose proof (Hr AX) as Hx; pose proof (Hr AY) as Hy; pose proof (Hr AZ) as Hz.
    pose proof (Hd AX) as Dx; pose proof (Hd AY) as Dy; pose proof (Hd AZ) as Dz.
    unfold nodd, cube_range in *. simpl in Hn, Hx, Hy, Hz.
    destruct (Z.eq_dec (x mod 2) 0) as [Ex|Ex]; [|destruct (Z.eq_dec (y mod 2) 0) as [Ey|Ey]].
    + destruct (half_index x _ Hx Dx Ex) as [i [Hi Hxi]].
      exists (primal_six (i, y / 2, z / 2)). split.
      * apply in_map. apply in_rhg_inds. lia.
      * destruct Hxi as [-> | ->]; [left|do 3 right; left]; f_equal; try f_equal; lia.
    + destruct (half_index y _ Hy Dy Ey) as [i [Hi Hxi]].
      exists (primal_six (x / 2, i, z / 2)). split.
      * apply in_map. apply in_rhg_inds. lia.
      * destruct Hxi as [-> | ->]; [right; left|do 4 right; left]; f_equal; try f_equal; lia.
    + assert (Ez : z mod 2 = 0) by lia.
      destruct (half_index z _ Hz Dz Ez) as [i [Hi Hxi]].
      exists (primal_six (x / 2, y / 2, i)). split.
      * apply in_map. apply in_rhg_inds. lia.
      * destruct Hxi as [-> | ->]; [do 2 right; left|do 5 right; left]; f_equal; try f_equal; lia.
Qed.

Definition unit_step (p q : point) : Prop :=
  exists a, (co a q = co a p + 1 \/ co a q = co a p - 1) /\ forall b, b <> a -> co b q = co b p.

Lemma axis_point p q a :
  (forall b, b <> a -> co b q = co b p) <-> q = setco a (co a q) p.
Proof.
  split.
  - intros H. apply point_ext. intros b. destruct (axis_eq_dec a b) as [->|n].
    + rewrite co_setco_same; reflexivity.
    + rewrite co_setco_other by assumption. apply H. congruence.
  - intros -> b Hb. apply co_setco_other. congruence.
Qed.

Lemma in_dual_neighbours v nb :
  nodd v = 2 -> (In nb (dual_neighbours v 1) <-> nodd nb = 1 /\ unit_step v nb).
Proof.
  intros Hv. split.
  - intros H. destruct v as [[x y] z].
    unfold nodd, co in *; cbn [get] in *.
    unfold dual_neighbours in H.
    destruct (z mod 2 =? 0) eqn:Ez; cbn [negb] in H;
      [|destruct (x mod 2 =? 0) eqn:Ex; cbn [negb] in H];
      cbn [In] in H; decompose [or] H; clear H; try contradiction; subst nb; cbn [get];
      (split; [lia|]).
    all: unfold unit_step, co; 
      first [ (exists AX; cbn [get]; split; [lia|intros [] Hb; try congruence; reflexivity])
            | (exists AY; cbn [get]; split; [lia|intros [] Hb; try congruence; reflexivity])
            | (exists AZ; cbn [get]; split; [lia|intros [] Hb; try congruence; reflexivity]) ].
  - intros [Hn [a [Hc Ho]]]. apply axis_point in Ho.
    destruct v as [[x y] z].
    unfold dual_neighbours.
    unfold nodd, co in *.
    destruct (z mod 2 =? 0) eqn:Ez; cbn [negb];
      [|destruct (x mod 2 =? 0) eqn:Ex; cbn [negb]];
      destruct a; cbn [get setco] in *; rewrite Ho in *; cbn [get] in *;
      destruct Hc as [Hc|Hc]; rewrite Hc in *; first [exfalso; lia | cbn [In]; tauto].
Qed.

Section Geometry.
  Variables (D : dims) (B : bnds).
  Hypothesis HD : dims_ok D B.

  Lemma dims_rhg_max a : 1 <= get a D - rhg_max (get a B).
  Proof.
    destruct (HD a) as [H1 H2].
    destruct (get a B); simpl in *; try specialize (H2 ltac:(discriminate)); lia.
  Qed.

  Lemma primal_vertex_iff p :
    primal_vertex D B p <-> In p (six_body_points D B) /\ beyond D B p = false.
  Proof.
    unfold primal_vertex, site.
    rewrite (in_six_body_points D B p dims_rhg_max), beyond_false.
    split.
    - intros [Hs Hn]. split; [split; [assumption|]|]; intros a;
        specialize (Hs a); pose proof (HD a) as [H1 H2];
        unfold cube_range, bey1; destruct (get a B); simpl in *; lia.
    - intros [[Hn Hc] Hb]. split; [|assumption].
      intros a; specialize (Hc a); specialize (Hb a); pose proof (HD a) as [H1 H2];
        unfold cube_range, bey1 in *; destruct (get a B); simpl in *; lia.
  Qed.

  Lemma step_parity p q a :
    (co a q = co a p + 1 \/ co a q = co a p - 1) -> (forall b, b <> a -> co b q = co b p) ->
    co a p mod 2 + nodd q = co a q mod 2 + nodd p.
  Proof.
    intros Hc Ho. unfold nodd.
    destruct a; [rewrite (Ho AY), (Ho AZ) by discriminate
                | rewrite (Ho AX), (Ho AZ) by discriminate
                | rewrite (Ho AX), (Ho AY) by discriminate]; lia.
  Qed.

  Lemma dual_vertex_iff v nb :
    primal_vertex D B v -> nodd nb = 1 -> unit_step v nb ->
    (beyond D B nb = false <-> dual_vertex D B nb).
  Proof.
    intros [Hs Hn] Hnb [a [Hc Ho]].
    pose proof (step_parity v nb a Hc Ho) as Hp.
    rewrite beyond_false. unfold dual_vertex, site. split.
    - intros Hb. split; [|assumption]. intros b.
      destruct (axis_eq_dec b a) as [->|n].
      + specialize (Hb a); specialize (Hs a); pose proof (HD a) as [H1 H2].
        unfold bey1 in *; destruct (get a B); simpl in *; lia.
      + rewrite Ho by assumption. apply Hs.
    - intros [Hd _] b. specialize (Hd b). pose proof (HD b) as [H1 H2].
      unfold bey1. destruct (get b B); simpl in *; lia.
  Qed.

  (* The node operations performed *)
  Variable pol : option (point * point -> Z).
  Variable vs : list point.
  Hypothesis Hvs : set_enum (six_body_points D B) vs.

  Let ops := flat_map (vertex_ops D B pol) vs.

  (* the pairs handled by the two loops *)
  Lemma ops_iff o :
    In o ops <-> exists v nb, primal_vertex D B v /\ dual_vertex D B nb /\ unit_step v nb /\
      (o = OpNode v Primal \/ o = OpNode nb Dual \/ o = OpEdge v nb (edge_weight pol (v, nb)) false \/
       exists ind, get ind B = BPeriodic /\ co ind nb = 0 /\
         (o = OpNode (setco ind (2 * get ind D - 1) nb) Primal \/
          o = OpEdge nb (setco ind (2 * get ind D - 1) nb)
                (edge_weight pol (nb, setco ind (2 * get ind D - 1) nb)) true)).
  Proof.
    unfold ops. rewrite in_flat_map. split.
    - intros [v [Hv Ho]]. apply (proj2 Hvs) in Hv. unfold vertex_ops in Ho.
      destruct (beyond D B v) eqn:Eb; [destruct Ho|].
      assert (Hpv : primal_vertex D B v) by (apply primal_vertex_iff; auto).
      apply in_flat_map in Ho. destruct Ho as [nb [Hnb Ho]].
      apply in_dual_neighbours in Hnb; [|apply Hpv]. destruct Hnb as [Hn1 Hst].
      destruct (beyond D B nb) eqn:Eb2; [destruct Ho|].
      assert (Hdv : dual_vertex D B nb) by (apply (dual_vertex_iff v); auto).
      exists v, nb. split; [assumption|]. split; [assumption|]. split; [assumption|].
      apply in_app_iff in Ho. destruct Ho as [[Ho|[Ho|[Ho|[]]]]|Ho]; [auto|auto|auto|].
      do 3 right. unfold periodic_ops in Ho. apply in_flat_map in Ho.
      destruct Ho as [ind [Hi Ho]]. apply in_inter in Hi. destruct Hi as [Hi1 Hi2].
      apply in_where_0 in Hi1. apply in_axes_of in Hi2.
      exists ind. split; [assumption|]. split; [assumption|].
      destruct Ho as [Ho|[Ho|[]]]; auto.
    - intros (v & nb & Hv & Hd & Hst & Ho). exists v. split.
      + apply (proj2 Hvs). apply primal_vertex_iff in Hv. apply Hv.
      + unfold vertex_ops. destruct (proj1 (primal_vertex_iff v) Hv) as [_ Eb]. rewrite Eb.
        apply in_flat_map. exists nb. split.
        * apply in_dual_neighbours; [apply Hv|]. split; [apply Hd|assumption].
        * rewrite (proj2 (dual_vertex_iff v nb Hv (proj2 Hd) Hst) Hd).
          apply in_app_iff. destruct Ho as [Ho|[Ho|[Ho|Ho]]]; [left; simpl; auto..|].
          right. destruct Ho as (ind & H1 & H2 & Ho). unfold periodic_ops. apply in_flat_map.
          exists ind. split; [apply in_inter; rewrite in_where_0, in_axes_of; auto|].
          destruct Ho as [Ho|Ho]; simpl; auto.
  Qed.

  Definition ntyp_of (p : point) : ntyp := if nodd p =? 2 then Primal else Dual.

  Lemma nodd_setco a c p : nodd (setco a c p) = nodd p - co a p mod 2 + c mod 2.
  Proof. destruct p as [[x y] z], a; unfold nodd; simpl; lia. Qed.

  (* replacing a 0 of a dual vertex by 2d-1 on a periodic axis *)
  Lemma wrap_primal nb ind :
    dual_vertex D B nb -> get ind B = BPeriodic -> co ind nb = 0 ->
    primal_vertex D B (setco ind (2 * get ind D - 1) nb).
  Proof.
    intros [Hs Hn] Hp H0. split.
    - intros b. destruct (axis_eq_dec ind b) as [<-|n].
      + rewrite co_setco_same, Hp. pose proof (HD ind). simpl. lia.
      + rewrite co_setco_other by assumption. apply Hs.
    - rewrite nodd_setco, H0, Hn. lia.
  Qed.

  Lemma unit_primal nb ind :
    dual_vertex D B nb -> get ind B = BPeriodic -> co ind nb = 0 ->
    primal_vertex D B (setco ind 1 nb) /\ unit_step (setco ind 1 nb) nb.
  Proof.
    intros [Hs Hn] Hp H0. split; [split|].
    - intros b. destruct (axis_eq_dec ind b) as [<-|n].
      + rewrite co_setco_same, Hp. pose proof (HD ind). simpl. lia.
      + rewrite co_setco_other by assumption. apply Hs.
    - rewrite nodd_setco, H0, Hn. reflexivity.
    - exists ind. rewrite co_setco_same. split; [lia|].
      intros b Hb. rewrite co_setco_other by congruence. reflexivity.
  Qed.

  Lemma wrap_setco p q :
    wrap D B p q <-> exists a, wrap1 (get a B) (get a D) (co a p) (co a q) /\ q = setco a (co a q) p.
  Proof.
    unfold wrap. split; intros [a [H1 H2]]; exists a; (split; [assumption|]); apply axis_point; assumption.
  Qed.

  (* the edges inserted *)
  Lemma ops_edges_iff p q :
    (exists w per, In (OpEdge p q w per) ops) <->
    (primal_vertex D B p /\ dual_vertex D B q /\ unit_step p q) \/
    (dual_vertex D B p /\ primal_vertex D B q /\ wrap D B p q).
  Proof.
    split.
    - intros (w & per & H). apply ops_iff in H.
      destruct H as (v & nb & Hv & Hd & Hst & [H|[H|[H|H]]]); try discriminate.
      + injection H as -> -> -> ->. auto.
      + destruct H as (ind & Hp & H0 & [H|H]); [discriminate|].
        injection H as -> -> -> ->. right. split; [assumption|].
        split; [apply wrap_primal; assumption|].
        exists ind. rewrite co_setco_same, Hp. split; [split; auto|].
        intros b Hb. apply co_setco_other. congruence.
    - intros [(Hp & Hd & Hst)|(Hd & Hp & Hw)].
      + exists (edge_weight pol (p, q)), false. apply ops_iff. exists p, q. auto 8.
      + apply wrap_setco in Hw. destruct Hw as [a [[Hper Hw] Hq]].
        destruct Hw as [[H0 H1]|[H1 H0]].
        * rewrite H1 in Hq. subst q.
          exists (edge_weight pol (p, setco a (2 * get a D - 1) p)), true.
          apply ops_iff. destruct (unit_primal p a Hd Hper H0) as [Hu1 Hu2].
          exists (setco a 1 p), p. do 3 (split; [assumption|]). do 3 right.
          exists a. auto.
        * exfalso. destruct Hd as [_ Hd]. destruct Hp as [_ Hp].
          rewrite Hq, nodd_setco, Hd in Hp. rewrite H1, H0 in Hp. lia.
  Qed.

  Lemma ops_per_iff p q :
    (exists w, In (OpEdge p q w true) ops) <->
    (dual_vertex D B p /\ primal_vertex D B q /\ wrap D B p q).
  Proof.
    split.
    - intros (w & H). apply ops_iff in H.
      destruct H as (v & nb & Hv & Hd & Hst & [H|[H|[H|H]]]); try discriminate.
      destruct H as (ind & Hp & H0 & [H|H]); [discriminate|].
      injection H as -> -> ->. split; [assumption|].
      split; [apply wrap_primal; assumption|].
      exists ind. rewrite co_setco_same, Hp. split; [split; auto|].
      intros b Hb. apply co_setco_other. congruence.
    - intros (Hd & Hp & Hw).
      apply wrap_setco in Hw. destruct Hw as [a [[Hper Hw] Hq]].
      destruct Hw as [[H0 H1]|[H1 H0]].
      * rewrite H1 in Hq. subst q.
        exists (edge_weight pol (p, setco a (2 * get a D - 1) p)).
        apply ops_iff. destruct (unit_primal p a Hd Hper H0) as [Hu1 Hu2].
        exists (setco a 1 p), p. do 3 (split; [assumption|]). do 3 right.
        exists a. auto.
      * exfalso. destruct Hd as [_ Hd]. destruct Hp as [_ Hp].
        rewrite Hq, nodd_setco, Hd in Hp. rewrite H1, H0 in Hp. lia.
  Qed.

  Lemma wrap_sym p q : wrap D B p q -> wrap D B q p.
  Proof.
    intros [a [[Hp H] Ho]]. exists a. split.
    - split; [assumption|]. tauto.
    - intros b Hb. symmetry. auto.
  Qed.

  Lemma step_split p q : step D B p q <-> unit_step p q \/ wrap D B p q.
  Proof.
    split.
    - intros [a [[H|[H|H]] Ho]]; [left|left|right]; exists a; auto.
    - intros [[a [H Ho]]|[a [H Ho]]]; exists a; (split; [|assumption]); unfold step1; tauto.
  Qed.

  Lemma step_sym p q : step D B p q -> step D B q p.
  Proof.
    intros [a [H Ho]]. exists a. split; [|intros; symmetry; auto].
    unfold step1, wrap1 in *. destruct H as [H|[H|[H1 H]]]; [right; left; lia|left; lia|].
    right; right. split; auto. lia.
  Qed.

  Let G := rhg_graph D B pol vs.

  Lemma G_edges p q :
    edge_attr G p q <> None <-> lattice_edge D B p q \/ lattice_edge D B q p.
  Proof.
    unfold G, rhg_graph. fold ops.
    rewrite (proj1 (fold_edge ops empty_graph p q)). unfold lattice_edge.
    rewrite !step_split. split.
    - intros [H|(u & v & w & per & Hin & Hs)]; [exfalso; apply H; reflexivity|].
      assert (He : exists w per, In (OpEdge u v w per) ops) by eauto.
      apply ops_edges_iff in He. apply same_edge_true in Hs.
      destruct Hs as [Hs|Hs]; injection Hs as -> ->;
        destruct He as [(H1 & H2 & H3)|(H1 & H2 & H3)]; auto 8 using wrap_sym.
    - intros [(Hp & Hd & [H|H])|(Hp & Hd & [H|H])]; right.
      + destruct (proj2 (ops_edges_iff p q)) as (w & per & Hin); [auto|].
        exists p, q, w, per. split; [assumption|]. apply same_edge_true. auto.
      + destruct (proj2 (ops_edges_iff q p)) as (w & per & Hin); [auto using wrap_sym|].
        exists q, p, w, per. split; [assumption|]. apply same_edge_true. auto.
      + destruct (proj2 (ops_edges_iff q p)) as (w & per & Hin); [auto|].
        exists q, p, w, per. split; [assumption|]. apply same_edge_true. auto.
      + destruct (proj2 (ops_edges_iff p q)) as (w & per & Hin); [auto using wrap_sym|].
        exists p, q, w, per. split; [assumption|]. apply same_edge_true. auto.
  Qed.

  Lemma G_periodic p q a :
    edge_attr G p q = Some a -> (eperiodic a = true <-> wrap D B p q).
  Proof.
    intros Ha.
    assert (He : lattice_edge D B p q \/ lattice_edge D B q p).
    { apply G_edges. congruence. }
    change (eperiodic a) with (per_flag (Some a)). rewrite <- Ha.
    unfold G, rhg_graph. fold ops. rewrite (proj2 (fold_edge ops empty_graph p q)). split.
    - intros [H|(u & v & w & Hin & Hs)]; [discriminate|].
      assert (He' : exists w, In (OpEdge u v w true) ops) by eauto.
      apply ops_per_iff in He'. destruct He' as (_ & _ & Hw).
      apply same_edge_true in Hs. destruct Hs as [Hs|Hs]; injection Hs as -> ->; auto using wrap_sym.
    - intros Hw. right. destruct He as [(Hp & Hd & _)|(Hp & Hd & _)].
      + destruct (proj2 (ops_per_iff q p)) as (w & Hin); [auto using wrap_sym|].
        exists q, p, w. split; [assumption|]. apply same_edge_true; auto.
      + destruct (proj2 (ops_per_iff p q)) as (w & Hin); [auto|].
        exists p, q, w. split; [assumption|]. apply same_edge_true; auto.
  Qed.

  (* every vertex has a neighbour *)
  Lemma vertex_has_neighbour p :
    (primal_vertex D B p -> exists q, dual_vertex D B q /\ unit_step p q) /\
    (dual_vertex D B p -> exists q, primal_vertex D B q /\ unit_step q p).
  Proof.
    split.
    - intros [Hs Hn].
      (* two odd axes; on an odd coordinate c of any axis, c-1 or c+1 is in range *)
      assert (exists a, co a p mod 2 = 1) as [a Ha].
      { unfold nodd in Hn. destruct (Z.eq_dec (co AX p mod 2) 1); [eauto|].
        exists AY. lia. }
      assert (exists c, in_range (get a B) (get a D) c /\ (c = co a p + 1 \/ c = co a p - 1)) as [c [Hc1 Hc2]].
      { pose proof (HD a) as [H1 H2]. specialize (Hs a).
        destruct (get a B); simpl in *.
        - exists (co a p - 1). lia.
        - specialize (H2 ltac:(discriminate)).
          destruct (Z.eq_dec (co a p) 1); [exists (co a p + 1)|exists (co a p - 1)]; lia.
        - exists (co a p - 1). lia. }
      exists (setco a c p). split; [split|].
      + intros b. destruct (axis_eq_dec a b) as [<-|n].
        * rewrite co_setco_same. assumption.
        * rewrite co_setco_other by assumption. apply Hs.
      + rewrite nodd_setco, Hn. lia.
      + exists a. rewrite co_setco_same. split; [assumption|].
        intros b Hb. apply co_setco_other. congruence.
    - intros [Hs Hn].
      assert (exists a, co a p mod 2 = 0) as [a Ha].
      { unfold nodd in Hn. destruct (Z.eq_dec (co AX p mod 2) 0); [eauto|].
        exists AY. lia. }
      assert (exists c, in_range (get a B) (get a D) c /\ (c = co a p + 1 \/ c = co a p - 1)) as [c [Hc1 Hc2]].
      { pose proof (HD a) as [H1 H2]. specialize (Hs a).
        destruct (get a B); simpl in *.
        - specialize (H2 ltac:(discriminate)).
          destruct (Z.eq_dec (co a p) 0); [exists (co a p + 1)|exists (co a p - 1)]; lia.
        - exists (co a p - 1). lia.
        - destruct (Z.eq_dec (co a p) 0); [exists (co a p + 1)|exists (co a p - 1)]; lia. }
      exists (setco a c p). split; [split|].
      + intros b. destruct (axis_eq_dec a b) as [<-|n].
        * rewrite co_setco_same. assumption.
        * rewrite co_setco_other by assumption. apply Hs.
      + rewrite nodd_setco, Hn. lia.
      + exists a. rewrite co_setco_same. split; [lia|].
        intros b Hb. symmetry. apply co_setco_other. congruence.
  Qed.

  Lemma ops_type q t : In (OpNode q t) ops -> t = ntyp_of q /\ (primal_vertex D B q \/ dual_vertex D B q).
  Proof.
    intros H. apply ops_iff in H. unfold ntyp_of.
    destruct H as (v & nb & Hv & Hd & Hst & [H|[H|[H|H]]]); try discriminate.
    - injection H as -> ->. split; [|auto]. rewrite (proj2 Hv). reflexivity.
    - injection H as -> ->. split; [|auto]. rewrite (proj2 Hd). reflexivity.
    - destruct H as (ind & Hp & H0 & [H|H]); [|discriminate].
      injection H as -> ->.
      pose proof (wrap_primal nb ind Hd Hp H0) as Hw. split; [|auto]. rewrite (proj2 Hw). reflexivity.
  Qed.

  Lemma ops_nodes p : primal_vertex D B p \/ dual_vertex D B p -> exists t, In (OpNode p t) ops.
  Proof.
    intros [H|H].
    - destruct (proj1 (vertex_has_neighbour p) H) as [q [Hq Hst]].
      exists Primal. apply ops_iff. exists p, q. auto 8.
    - destruct (proj2 (vertex_has_neighbour p) H) as [q [Hq Hst]].
      exists Dual. apply ops_iff. exists q, p. auto 8.
  Qed.

  Lemma G_nodes p : In p (node_list G) <-> primal_vertex D B p \/ dual_vertex D B p.
  Proof.
    unfold G, rhg_graph. fold ops. rewrite fold_nodes. split.
    - intros [[]|[o [Hin Ho]]]. destruct o as [q t|u v w per].
      + simpl in Ho. subst. apply ops_type in Hin. apply Hin.
      + assert (He : exists w per, In (OpEdge u v w per) ops) by eauto.
        apply ops_edges_iff in He. simpl in Ho. intuition (subst; auto).
    - intros H. right. destruct (ops_nodes p H) as [t Ht]. eexists; split; [exact Ht|reflexivity].
  Qed.

  Lemma G_NoDup : NoDup (node_list G).
  Proof. apply fold_nodes_NoDup. constructor. Qed.

  Lemma G_type p : primal_vertex D B p \/ dual_vertex D B p -> node_type G p = Some (ntyp_of p).
  Proof.
    intros H. unfold G, rhg_graph. fold ops. apply fold_type.
    - intros q t Hq. apply ops_type in Hq. apply Hq.
    - right. apply ops_nodes; assumption.
  Qed.

  (* with every axis of size >= 2 an edge is never both a unit and a wrap edge *)
  Lemma unit_not_wrap p q : dims_ge2 D -> unit_step p q -> wrap D B p q -> False.
  Proof.
    intros H2 [a [Ha Hoa]] [b [[Hp Hb] Hob]]. specialize (H2 b).
    destruct (axis_eq_dec a b) as [->|n]; [lia|].
    rewrite (Hoa b) in Hb by congruence. lia.
  Qed.

  Lemma G_weight p q a :
    dims_ge2 D -> lattice_edge D B p q -> edge_attr G p q = Some a ->
    (wrap D B p q -> eweight a = edge_weight pol (q, p)) /\
    (~ wrap D B p q -> eweight a = edge_weight pol (p, q)).
  Proof.
    intros H2 (Hp & Hd & Hst) Ha.
    assert (Hdir : forall u v w per, In (OpEdge u v w per) ops -> same_edge p q (u, v) = true ->
      w = edge_weight pol (u, v) /\
      ((u, v) = (p, q) /\ ~ wrap D B p q \/ (u, v) = (q, p) /\ wrap D B p q)).
    { intros u v w per Hin Hs. apply same_edge_true in Hs.
      assert (Hw : w = edge_weight pol (u, v)).
      { apply ops_iff in Hin. destruct Hin as (v' & nb & Hv & Hd' & Hst' & [H|[H|[H|H]]]); try discriminate.
        - injection H as -> -> -> ->. reflexivity.
        - destruct H as (ind & Hper & H0 & [H|H]); [discriminate|]. injection H as -> -> -> ->. reflexivity. }
      split; [assumption|].
      assert (He : exists w per, In (OpEdge u v w per) ops) by eauto.
      apply ops_edges_iff in He.
      pose proof (proj2 Hp) as Np. pose proof (proj2 Hd) as Nd.
      destruct Hs as [Hs|Hs]; injection Hs as -> ->; destruct He as [(H1 & H3 & H4)|(H1 & H3 & H4)];
        pose proof (proj2 H1) as N1; pose proof (proj2 H3) as N3; try (exfalso; lia).
      - left. split; [reflexivity|]. intros Hwr. eapply unit_not_wrap; eauto.
      - right. split; [reflexivity|]. apply wrap_sym; assumption. }
    unfold G, rhg_graph in Ha. fold ops in Ha.
    split; intros Hwr; eapply fold_weight; try exact Ha; try (intros; discriminate);
      intros u v w per Hin Hs; destruct (Hdir u v w per Hin Hs) as [-> [[E N]|[E N]]];
      try contradiction; rewrite E; reflexivity.
  Qed.
End Geometry.
