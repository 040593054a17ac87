(* MacroProofs.v: macronize as a list of (vertex, micronode) pairs. *)
From Verif Require Import Base Lattice RhgModel RhgSpec RhgProofs RhgDegree EgraphModel EgraphProofs MacroModel MacroSpec MacroArith.
Open Scope Z_scope.

Lemma NoDup_app_l {A} (l m : list A) : NoDup (l ++ m) -> NoDup l.
Proof. induction l as [|x l IH]; simpl; intros H; [constructor|]. inversion H; subst. constructor; [|auto]. intros Hx. apply H2. apply in_or_app. auto. Qed.
(* grouping a list of pairs in a dictionary *)
Definition group (h : list (point * point)) : list (point * list point) := fold_left (fun d e => dappend d (fst e) (snd e)) h [].
Definition at_vertex (v : point) (h : list (point * point)) : list point := map snd (filter (fun e => peqb (fst e) v) h).
Lemma at_vertex_app v h h' : at_vertex v (h ++ h') = at_vertex v h ++ at_vertex v h'.
Proof. unfold at_vertex. rewrite filter_app, map_app. reflexivity. Qed.
Lemma in_at_vertex v h x : In x (at_vertex v h) <-> In (v, x) h.
Proof.
  unfold at_vertex. rewrite in_map_iff. split.
  - intros ((u & y) & E & H). apply filter_In in H. cbn [fst snd] in *. destruct H as [H1 H2]. apply peqb_true in H2. subst. assumption.
  - intros H. exists (v, x). split; [reflexivity|]. apply filter_In. split; [assumption|apply peqb_refl].
Qed.
Lemma group_app h e : group (h ++ [e]) = dappend (group h) (fst e) (snd e).
Proof. unfold group. rewrite fold_left_app. reflexivity. Qed.
Lemma group_get h v : dget peqb (group h) v = match at_vertex v h with [] => None | l => Some l end.
Proof.
  induction h as [|e h IH] using rev_ind; [reflexivity|]. rewrite group_app. unfold dappend. rewrite (dget_dset peqb peqb_true), at_vertex_app. destruct e as [u x]. cbn [fst snd].
  unfold at_vertex at 2. cbn [filter fst]. destruct (peqb u v) eqn:E.
  - apply peqb_true in E. subst u. cbn [map snd]. rewrite IH. destruct (at_vertex v h); reflexivity.
  - cbn [map]. rewrite app_nil_r. assumption.
Qed.
Lemma dset_nodup' (m : list (point * list point)) k l : NoDup (map fst m) -> NoDup (map fst (dset peqb m k l)).
Proof.
  intros H. rewrite dset_keys. destruct (existsb _ _) eqn:E; [assumption|]. apply NoDup_app_intro; [assumption|repeat constructor; intros []|]. intros x Hx [->|[]].
  assert (existsb (fun x0 => peqb x0 x) (map fst m) = true) by (apply existsb_exists; exists x; split; [assumption|apply peqb_refl]). congruence.
Qed.
Lemma group_nodup h : NoDup (map fst (group h)).
Proof. induction h as [|e h IH] using rev_ind; [constructor|]. rewrite group_app. apply dset_nodup'. assumption. Qed.
Lemma group_in h v l : In (v, l) (group h) <-> l = at_vertex v h /\ l <> [].
Proof.
  split.
  - intros H. apply (In_dget peqb peqb_true) in H; [|apply group_nodup]. rewrite group_get in H. destruct (at_vertex v h) eqn:E; [discriminate|]. injection H as <-. split; [reflexivity|discriminate].
  - intros [-> H]. apply (dget_In peqb peqb_true). rewrite group_get. destruct (at_vertex v h); [congruence|reflexivity].
Qed.
Lemma group_keys h v : In v (map fst (group h)) <-> at_vertex v h <> [].
Proof.
  rewrite in_map_iff. split.
  - intros ((u & l) & E & H). cbn [fst] in E. subst u. apply group_in in H. destruct H as [-> H]. assumption.
  - intros H. exists (v, at_vertex v h). split; [reflexivity|]. apply group_in. auto.
Qed.

(* the graph: distinct points are appended *)
Lemma upd_node_new p t l : ~ In p (map fst l) -> upd_node p t l = l ++ [(p, Some t)].
Proof.
  induction l as [|(q & t') l IH]; simpl; intros H; [reflexivity|]. destruct (peqb q p) eqn:E; [apply peqb_true in E; tauto|]. rewrite IH by tauto. reflexivity.
Qed.
Lemma put_node_new p t g : ~ In p (node_list g) -> put_node p t g = {| gnodes := gnodes g ++ [(p, t)]; gedges := gedges g |}.
Proof.
  intros H. unfold put_node. destruct t as [t|]; [rewrite upd_node_new by assumption; reflexivity|]. unfold ensure_node. destruct (has_key p (gnodes g)) eqn:E; [apply has_key_In in E; contradiction|reflexivity].
Qed.
Lemma upd_edge_new u v w per l : (forall e, In e l -> same_edge u v (fst e) = false) -> upd_edge u v w per l = l ++ [((u, v), {| eweight := w; eperiodic := per |})].
Proof.
  induction l as [|(e & t) l IH]; simpl; intros H; [reflexivity|]. pose proof (H (e, t) (or_introl eq_refl)) as He. cbn [fst] in He. rewrite He. rewrite IH by (intros e' He'; apply H; auto). reflexivity.
Qed.
Lemma ensure_node_old p l : In p (map fst l) -> ensure_node p l = l.
Proof. intros H. unfold ensure_node. apply has_key_In in H. rewrite H. reflexivity. Qed.

Section Core.
  Variables (g : egr) (a b : Z).
  Notation U := (unit_of a b).
  Definition halves (es : list ((point * point) * eattr)) : list (point * point) :=
    flat_map (fun e => [(fst (fst e), new_point_1 a b e); (snd (fst e), new_point_2 a b e)]) es.
  Definition typed (h : list (point * point)) : list (point * option ntyp) := map (fun e => (snd e, node_type g (fst e))) h.
  Definition new_edges (es : list ((point * point) * eattr)) : list ((point * point) * eattr) := map (fun e => ((new_point_1 a b e, new_point_2 a b e), snd e)) es.
  Definition state (es : list ((point * point) * eattr)) (h : list (point * point)) : egr * list (point * list point) :=
    ({| gnodes := typed h; gedges := new_edges es |}, group h).
  Lemma typed_fst h : map fst (typed h) = map snd h.
  Proof. unfold typed. rewrite map_map. reflexivity. Qed.
  Lemma typed_app h h' : typed (h ++ h') = typed h ++ typed h'.
  Proof. apply map_app. Qed.
  Lemma put_half es h v x : ~ In x (map snd h) ->
    (put_node x (node_type g v) (fst (state es h)), dappend (snd (state es h)) v x) = state es (h ++ [(v, x)]).
  Proof.
    intros H. unfold state. cbn [fst snd]. rewrite put_node_new by (unfold node_list; cbn [gnodes]; rewrite typed_fst; assumption). rewrite group_app, typed_app. reflexivity.
  Qed.
  Lemma halves_edge es x : In x (flat_map (fun e : (point * point) * eattr => [fst (fst e); snd (fst e)]) (new_edges es)) <-> In x (map snd (halves es)).
  Proof.
    unfold new_edges, halves. induction es as [|e es IH]; simpl; [reflexivity|]. rewrite IH. tauto.
  Qed.
  Lemma split_step es h e : (forall x, In x (map snd (halves es)) -> In x (map snd h)) -> NoDup (map snd (h ++ halves [e])) ->
    split_edge g a b (state es h) e = state (es ++ [e]) (h ++ halves [e]).
  Proof.
    intros Hes Hd. unfold halves in Hd. cbn [flat_map] in Hd. rewrite app_nil_r in Hd. cbn [app] in Hd.
    set (x1 := new_point_1 a b e) in *. set (x2 := new_point_2 a b e) in *. set (v1 := fst (fst e)) in *. set (v2 := snd (fst e)) in *.
    assert (H1 : ~ In x1 (map snd h)).
    { intros H. rewrite map_app in Hd. apply NoDup_remove_2 in Hd. apply Hd. apply in_or_app. left. assumption. }
    assert (H2 : ~ In x2 (map snd (h ++ [(v1, x1)]))).
    { intros H. replace (h ++ [(v1, x1); (v2, x2)]) with ((h ++ [(v1, x1)]) ++ [(v2, x2)]) in Hd by (rewrite <- app_assoc; reflexivity). rewrite map_app in Hd. cbn [map snd] in Hd. apply NoDup_remove_2 in Hd. apply Hd. rewrite app_nil_r. assumption. }
    pose proof (put_half es h v1 x1 H1) as E1. pose proof (put_half es (h ++ [(v1, x1)]) v2 x2 H2) as E2.
    pose proof (f_equal fst E1) as E1a. pose proof (f_equal snd E1) as E1b. pose proof (f_equal fst E2) as E2a. pose proof (f_equal snd E2) as E2b.
    unfold split_edge. fold x1 x2 v1 v2. destruct (state es h) as (mg, d) eqn:Est. cbn [fst snd] in E1a, E1b, E2a, E2b. rewrite E1a, E1b, E2a, E2b. rewrite <- app_assoc.
    assert (Hh : h ++ halves [e] = h ++ [(v1, x1)] ++ [(v2, x2)]) by reflexivity. rewrite Hh. unfold state, add_edge. cbn [fst snd gnodes gedges].
    assert (Hin : forall x, x = x1 \/ x = x2 -> In x (map fst (typed (h ++ [(v1, x1)] ++ [(v2, x2)])))).
    { intros x Hx. rewrite typed_fst, map_app. apply in_or_app. right. simpl. destruct Hx; auto. }
    f_equal. f_equal.
    - rewrite (ensure_node_old x1) by (apply Hin; auto). apply ensure_node_old. apply Hin. auto.
    - rewrite upd_edge_new.
      + unfold new_edges. rewrite map_app. cbn [map]. destruct (snd e); reflexivity.
      + intros e' He'. destruct (same_edge x1 x2 (fst e')) eqn:Es; [|reflexivity]. exfalso. apply same_edge_true in Es. apply H1. apply Hes. apply halves_edge. apply in_flat_map. exists e'. split; [assumption|].
        destruct Es as [-> | ->]; simpl; auto.
  Qed.
  Lemma fold_split es' : forall es h, (forall x, In x (map snd (halves es)) -> In x (map snd h)) -> NoDup (map snd (h ++ halves es')) ->
    fold_left (split_edge g a b) es' (state es h) = state (es ++ es') (h ++ halves es').
  Proof.
    induction es' as [|e es' IH]; intros es h Hes Hd; [cbn [fold_left halves flat_map]; rewrite !app_nil_r; reflexivity|]. cbn [fold_left].
    replace (halves (e :: es')) with (halves [e] ++ halves es') in * by reflexivity. rewrite app_assoc in *.
    rewrite (split_step es h e); [| assumption |].
    - rewrite IH; [rewrite <- app_assoc; reflexivity| |assumption]. intros x. unfold halves at 1. rewrite flat_map_app, map_app. rewrite !in_app_iff. rewrite map_app, in_app_iff. intros [H|H]; [left; auto|right; exact H].
    - rewrite map_app in Hd. apply NoDup_app_l in Hd. assumption.
  Qed.
  (* padding *)
  Definition pads (h : list (point * point)) (v : point) : list (point * point) := map (fun i => (v, pad_point U v i)) (firstn (4 - length (at_vertex v h)) axes).
  Lemma fold_pad es v t l : forall h, t = node_type g v -> NoDup (map snd (h ++ map (fun i => (v, pad_point U v i)) l)) ->
    fold_left (fun st i => (put_node (pad_point U v i) t (fst st), dappend (snd st) v (pad_point U v i))) l (state es h) = state es (h ++ map (fun i => (v, pad_point U v i)) l).
  Proof.
    induction l as [|i l IH]; intros h Ht Hd; [cbn [fold_left map]; rewrite app_nil_r; reflexivity|]. cbn [fold_left map] in *. rewrite Ht at 1. rewrite put_half.
    - rewrite IH; [rewrite <- app_assoc; reflexivity|assumption|]. rewrite <- app_assoc. exact Hd.
    - intros H. rewrite map_app in Hd. cbn [map snd] in Hd. apply NoDup_remove_2 in Hd. apply Hd. apply in_or_app. left. assumption.
  Qed.
  Lemma pad_entries_at u v l : at_vertex v (map (fun i => (u, pad_point U u i)) l) = if peqb u v then map (pad_point U u) l else [].
  Proof.
    unfold at_vertex. induction l as [|i l IH]; [simpl; destruct (peqb u v); reflexivity|]. cbn [map filter fst]. destruct (peqb u v); cbn [map snd]; [f_equal|]; assumption.
  Qed.
  Lemma pad_all_state es vs : forall h h0, NoDup (map fst vs) -> (forall v t, In (v, t) vs -> t = node_type g v /\ at_vertex v h = at_vertex v h0 /\ at_vertex v h0 <> []) ->
    NoDup (map snd (h ++ flat_map (pads h0) (map fst vs))) ->
    pad_all U (state es h) vs = Ok (state es (h ++ flat_map (pads h0) (map fst vs))).
  Proof.
    induction vs as [|(v & t) vs IH]; intros h h0 Hn Hv Hd; [simpl; rewrite app_nil_r; reflexivity|]. cbn [pad_all map fst flat_map] in *. inversion Hn as [|? ? Hn1 Hn2]; subst.
    destruct (Hv v t ltac:(left; reflexivity)) as (Ht & Ha & Hne). unfold pad_vertex. cbn [fst snd]. unfold state at 1. cbn [snd]. rewrite group_get, Ha.
    destruct (at_vertex v h0) as [|x l] eqn:E; [congruence|]. rewrite <- E in *. cbn [bind]. rewrite app_assoc in Hd.
    rewrite (fold_pad es v t _ h Ht); [|unfold pads in Hd; rewrite map_app in Hd; apply NoDup_app_l in Hd; exact Hd].
    fold (pads h0 v). rewrite (IH _ h0).
    - rewrite app_assoc. reflexivity.
    - assumption.
    - intros u t' Hu. destruct (Hv u t' ltac:(right; assumption)) as (H1 & H2 & H3). split; [assumption|]. split; [|assumption]. rewrite at_vertex_app. unfold pads. rewrite pad_entries_at.
      destruct (peqb v u) eqn:Evu; [|rewrite app_nil_r; assumption]. apply peqb_true in Evu. subst u. exfalso. apply Hn1. apply (in_map fst) in Hu. exact Hu.
    - exact Hd.
  Qed.
End Core.
