(* PropsGraphState.v: C45, the named graph states. *)
From Coq Require Import String Reals Lra.
From Verif Require Import Base SimModel WeightModel GraphStateModel GraphStateSpec GraphStateProofs.
Open Scope Z_scope.

Lemma fold_left_map {A B C} (h : A -> B -> A) (k : C -> B) l : forall a, fold_left h (map k l) a = fold_left (fun a x => h a (k x)) l a.
Proof. induction l as [|x l IH]; intros a; [reflexivity|]. cbn [map fold_left]. apply IH. Qed.
Lemma fold_left_flat {A B C} (h : A -> B -> A) (k : C -> list B) l : forall a, fold_left h (flat_map k l) a = fold_left (fun a x => fold_left h (k x) a) l a.
Proof. induction l as [|x l IH]; intros a; [reflexivity|]. cbn [flat_map fold_left]. rewrite fold_left_app. apply IH. Qed.

Lemma generic_ok v n : is_int v n -> 1 <= n -> generic_graph_state v = Ok n.
Proof. intros [->|(b & -> & ->)] H; cbn [generic_graph_state]; match goal with |- context [?x <? 1] => destruct (Z.ltb_spec x 1) as [X|X]; [lia|reflexivity] end. Qed.

(* C45: everything but an integer >= 1 (True counts as 1, False as 0) is refused *)
Theorem C45_arguments : forall v, (forall n, is_int v n -> n < 1) ->
  linear_cluster v = Err ValueError /\ ring_graph v = Err ValueError /\ star_graph v = Err ValueError /\ complete_graph v = Err ValueError.
Proof.
  intros v H. assert (E : generic_graph_state v = Err ValueError).
  { destruct v as [|b|z| | | | | |]; try reflexivity; cbn [generic_graph_state].
    - specialize (H (Z.b2z b) (or_intror (ex_intro _ b (conj eq_refl eq_refl)))). destruct (Z.ltb_spec (Z.b2z b) 1); [reflexivity|lia].
    - specialize (H z (or_introl eq_refl)). destruct (Z.ltb_spec z 1); [reflexivity|lia]. }
  unfold linear_cluster, ring_graph, star_graph, complete_graph. rewrite E. auto.
Qed.
Print Assumptions C45_arguments.

Lemma single f edge : (~ edge 0 0) -> f 0 = (0, 0, 0)%R -> represents (add_node empty_rgraph (0, 0, 0)%R) 1 f edge.
Proof.
  intros He Hf. unfold represents, add_node, put_node, adjacent. cbn [rg_nodes rg_edges empty_rgraph app]. destruct (in_dec rpoint_eq_dec _ []) as [[]|_].
  cbn [app List.length In]. split; [repeat constructor; intros []|]. split; [reflexivity|]. split; [|split; [intros; lia|split; [|split; [constructor|intros p q []]]]].
  - intros p. split; [intros [<-|[]]; exists 0; split; [lia|exact Hf]|intros (i & Hi & <-); left; replace i with 0 by lia; symmetry; exact Hf].
  - intros p q. split; [intros [[]|[]]|]. intros (i & j & Hi & Hj & Hij & _). exfalso. apply He. replace i with 0 in Hij by lia. replace j with 0 in Hij by lia. exact Hij.
Qed.

(* the linear cluster: vertex i at (i, 0, 0) *)
Theorem C45_linear_cluster : forall v n, is_int v n -> 1 <= n ->
  exists g, linear_cluster v = Ok g /\ represents g n (fun i => (IZR i, 0, 0)%R) path_edge.
Proof.
  intros v n Hv Hn. unfold linear_cluster. rewrite (generic_ok v n Hv Hn). cbn [bind]. eexists. split; [reflexivity|].
  destruct (Z.eqb_spec n 1) as [->|Hn1].
  { apply single; [unfold path_edge; lia|reflexivity]. }
  set (f := fun i : Z => (IZR i, 0, 0)%R). set (L := map (fun i => (i, i + 1)) (py_range 0 (n - 1))).
  replace (fold_left _ _ _) with (build (map (fun e => (f (fst e), f (snd e))) L)) by (unfold build, L; rewrite !fold_left_map; reflexivity).
  assert (HL : forall i j, In (i, j) L <-> j = i + 1 /\ 0 <= i < n - 1).
  { intros i j. unfold L. rewrite in_map_iff. split; [intros (k & E & Hk); injection E as <- <-; apply in_py_range in Hk; lia|intros [-> Hi]; exists i; split; [reflexivity|apply in_py_range; lia]]. }
  apply represents_build; [lia| | | |].
  - intros i j _ _ E. unfold f in E. injection E as E. apply eq_IZR. exact E.
  - intros i j H. apply HL in H. lia.
  - intros i Hi. destruct (Z.eq_dec i (n - 1)) as [->|Hne]; [exists (n - 2); right|exists (i + 1); left]; apply HL; lia.
  - intros i j Hi Hj. rewrite !HL. unfold path_edge. lia.
Qed.
Print Assumptions C45_linear_cluster.

(* the star: the centre is vertex 0 *)
Theorem C45_star_graph : forall v n, is_int v n -> 1 <= n ->
  exists g f, star_graph v = Ok g /\ represents g n f star_edge.
Proof.
  intros v n Hv Hn. unfold star_graph. rewrite (generic_ok v n Hv Hn). cbn [bind]. eexists. exists (fun i => if i =? 0 then (0, 0, 0)%R else on_circle (turn (i - 1) (n - 1))). split; [reflexivity|].
  destruct (Z.eqb_spec n 1) as [->|Hn1].
  { apply single; [unfold star_edge; lia|reflexivity]. }
  set (f := fun i => if i =? 0 then (0, 0, 0)%R else on_circle (turn (i - 1) (n - 1))). set (L := map (fun i => (0, i + 1)) (py_range 0 (n - 1))).
  replace (fold_left _ _ _) with (build (map (fun e => (f (fst e), f (snd e))) L)).
  2:{ unfold build, L. rewrite !fold_left_map. cbn [fst snd]. assert (G : forall l g, (forall i, In i l -> 0 <= i) -> fold_left (fun a x => add_edge a (f 0) (f (x + 1))) l g = fold_left (fun g i => add_edge g (0, 0, 0)%R (on_circle (turn i (n - 1)))) l g).
      { induction l as [|x l IH]; intros g Hl; [reflexivity|]. cbn [fold_left]. rewrite IH by (intros; apply Hl; right; assumption). f_equal. f_equal. unfold f.
        specialize (Hl x (or_introl eq_refl)). destruct (Z.eqb_spec (x + 1) 0); [lia|]. do 2 f_equal. lia. }
      apply G. intros i Hi. apply in_py_range in Hi. lia. }
  assert (HL : forall i j, In (i, j) L <-> i = 0 /\ 1 <= j < n).
  { intros i j. unfold L. rewrite in_map_iff. split; [intros (k & E & Hk); injection E as <- <-; apply in_py_range in Hk; lia|intros [-> Hj]; exists (j - 1); split; [f_equal; lia|apply in_py_range; lia]]. }
  assert (H0 : forall t, on_circle t <> (0, 0, 0)%R).
  { intros t E. unfold on_circle in E. injection E as E1 E2. pose proof (sin2_cos2 t) as H. rewrite E1, E2 in H. unfold Rsqr in H. lra. }
  apply represents_build; [lia| | | |].
  - intros i j Hi Hj E. unfold f in E. destruct (Z.eqb_spec i 0), (Z.eqb_spec j 0); try lia.
    + exfalso. symmetry in E. apply H0 in E. exact E.
    + exfalso. apply H0 in E. exact E.
    + apply circle_inj in E; lia.
  - intros i j H. apply HL in H. lia.
  - intros i Hi. destruct (Z.eq_dec i 0) as [->|Hne]; [exists 1; left|exists 0; right]; apply HL; lia.
  - intros i j Hi Hj. rewrite !HL. unfold star_edge. lia.
Qed.
Print Assumptions C45_star_graph.

(* ---------- ring and complete graphs: coordinates rounded to five decimals ---------- *)
Definition cf (n i : Z) : rpoint := if n =? 1 then (0, 0, 0)%R else rounded (turn i n).
Definition ring_list (n : Z) : list (Z * Z) := map (fun i => (i - 1, i mod n)) (py_range 1 (n + 1)).
Definition complete_list (n : Z) : list (Z * Z) := flat_map (fun i => map (fun j => (i, j + i)) (py_range 1 (n - i))) (py_range 0 n).

Lemma turn_full n : 0 < n -> cos (turn n n) = cos 0 /\ sin (turn n n) = sin 0.
Proof.
  intros Hn. assert (E : turn n n = (2 * PI)%R) by (unfold turn; assert (0 < IZR n)%R by (apply IZR_lt; exact Hn); field; lra).
  rewrite E, cos_2PI, sin_2PI, cos_0, sin_0. auto.
Qed.
Lemma turn_zero n : turn 0 n = 0%R.
Proof. unfold turn, Rdiv. ring. Qed.

Lemma ring_build v n : is_int v n -> 2 <= n -> ring_graph v = Ok (build (map (fun e => (rounded (turn (fst e) n), rounded (turn (snd e) n))) (ring_list n))).
Proof.
  intros Hv Hn. unfold ring_graph. rewrite (generic_ok v n Hv ltac:(lia)). cbn [bind]. destruct (Z.eqb_spec n 1) as [|_]; [lia|]. f_equal.
  unfold build, ring_list. rewrite !fold_left_map. cbn [fst snd].
  set (h := fun (st : rgraph * (R * R)) i => let '(g, (x, y)) := st in (add_edge g (round5 x, round5 y, 0%R) (round5 (cos (turn i n)), round5 (sin (turn i n)), 0%R), (cos (turn i n), sin (turn i n)))).
  assert (G : forall m k g, 0 <= k -> k + Z.of_nat m <= n ->
    fold_left h (map (fun x => k + 1 + Z.of_nat x) (seq 0 m)) (g, (cos (turn k n), sin (turn k n))) =
    (fold_left (fun a x => add_edge a (rounded (turn (x - 1) n)) (rounded (turn (x mod n) n))) (map (fun x => k + 1 + Z.of_nat x) (seq 0 m)) g, (cos (turn (k + Z.of_nat m) n), sin (turn (k + Z.of_nat m) n)))).
  { induction m as [|m IH]; intros k g Hk Hm.
    - cbn [seq map fold_left]. rewrite Z.add_0_r. reflexivity.
    - cbn [seq map fold_left]. rewrite <- seq_shift, map_map.
      assert (Em : map (fun x => k + 1 + Z.of_nat (Datatypes.S x)) (seq 0 m) = map (fun x => (k + 1) + 1 + Z.of_nat x) (seq 0 m)) by (apply map_ext; intros; lia). rewrite Em.
      replace (k + 1 + Z.of_nat 0) with (k + 1) by lia. unfold h at 2. rewrite (IH (k + 1) _ ltac:(lia) ltac:(lia)).
      replace (k + 1 + Z.of_nat m) with (k + Z.of_nat (Datatypes.S m)) by lia. f_equal. f_equal. f_equal.
      + unfold rounded. replace (k + 1 - 1) with k by lia. reflexivity.
      + destruct (Z.eq_dec (k + 1) n) as [E|E].
        * rewrite E, Z_mod_same_full. unfold rounded. rewrite turn_zero. destruct (turn_full n ltac:(lia)) as [-> ->]. reflexivity.
        * rewrite Z.mod_small by lia. reflexivity. }
  specialize (G (Z.to_nat n) 0 empty_rgraph ltac:(lia) ltac:(lia)). rewrite turn_zero in G.
  assert (Er : py_range 1 (n + 1) = map (fun x => 0 + 1 + Z.of_nat x) (seq 0 (Z.to_nat n))).
  { unfold py_range. replace (n + 1 - 1) with n by lia. apply map_ext. intros; lia. }
  rewrite Er. fold h. rewrite G. reflexivity.
Qed.

Lemma complete_build v n : is_int v n -> 2 <= n -> complete_graph v = Ok (build (map (fun e => (rounded (turn (fst e) n), rounded (turn (snd e) n))) (complete_list n))).
Proof.
  intros Hv Hn. unfold complete_graph. rewrite (generic_ok v n Hv ltac:(lia)). cbn [bind]. destruct (Z.eqb_spec n 1) as [|_]; [lia|]. f_equal.
  unfold build, complete_list. rewrite fold_left_map, fold_left_flat. cbn [fst snd].
  assert (Ht : forall i j, turn (j + i) n = (turn j n + turn i n)%R).
  { intros i j. unfold turn. rewrite plus_IZR. assert (0 < IZR n)%R by (apply IZR_lt; lia). field. lra. }
  generalize empty_rgraph. induction (py_range 0 n) as [|i l IH]; intros g; [reflexivity|]. cbn [fold_left]. rewrite IH. f_equal. rewrite fold_left_map.
  generalize g. induction (py_range 1 (n - i)) as [|j m IHm]; intros g'; [reflexivity|]. cbn [fold_left fst snd]. rewrite IHm, Ht. reflexivity.
Qed.

Lemma in_ring_list n i j : 2 <= n -> (In (i, j) (ring_list n) <-> 0 <= i < n /\ j = (i + 1) mod n).
Proof.
  intros Hn. unfold ring_list. rewrite in_map_iff. split.
  - intros (k & E & Hk). injection E as <- <-. apply in_py_range in Hk. replace (k - 1 + 1) with k by lia. split; [lia|reflexivity].
  - intros [Hi ->]. exists (i + 1). split; [f_equal; lia|apply in_py_range; lia].
Qed.
Lemma in_complete_list n i j : In (i, j) (complete_list n) <-> 0 <= i < j /\ j < n.
Proof.
  unfold complete_list. rewrite in_flat_map. split.
  - intros (k & Hk & H). apply in_map_iff in H. destruct H as (m & E & Hm). injection E as <- <-. apply in_py_range in Hk, Hm. lia.
  - intros H. exists i. split; [apply in_py_range; lia|]. apply in_map_iff. exists (j - i). split; [f_equal; lia|apply in_py_range; lia].
Qed.
Lemma succ_mod n i : 2 <= n -> 0 <= i < n -> (i + 1) mod n = if i =? n - 1 then 0 else i + 1.
Proof. intros Hn Hi. destruct (Z.eqb_spec i (n - 1)) as [->|H]; [replace (n - 1 + 1) with n by lia; apply Z_mod_same_full|apply Z.mod_small; lia]. Qed.

(* the ring, up to 444288 vertices *)
Theorem C45_ring_graph_partial : forall v n, is_int v n -> 1 <= n <= 444288 ->
  exists g f, ring_graph v = Ok g /\ represents g n f (ring_edge n).
Proof.
  intros v n Hv Hn. destruct (Z.eq_dec n 1) as [->|Hn1].
  { unfold ring_graph. rewrite (generic_ok v 1 Hv ltac:(lia)). cbn [bind]. eexists. exists (fun _ => (0, 0, 0)%R). split; [reflexivity|]. apply single; [unfold ring_edge; lia|reflexivity]. }
  eexists. exists (fun i => rounded (turn i n)). split; [apply ring_build; [exact Hv|lia]|].
  apply (represents_build n (fun i => rounded (turn i n)) (ring_list n)); [lia| | | |].
  - intros i j Hi Hj E. apply (rounded_inj n); [lia|assumption..].
  - intros i j H. apply in_ring_list in H; [|lia]. destruct H as [Hi ->]. rewrite succ_mod by lia. destruct (Z.eqb_spec i (n - 1)); lia.
  - intros i Hi. exists ((i + 1) mod n). left. apply in_ring_list; [lia|]. auto.
  - intros i j Hi Hj. rewrite !in_ring_list by lia. unfold ring_edge. rewrite !succ_mod by lia. destruct (Z.eqb_spec i (n - 1)), (Z.eqb_spec j (n - 1)); lia.
Qed.
Print Assumptions C45_ring_graph_partial.

(* the complete graph, up to 444288 vertices *)
Theorem C45_complete_graph_partial : forall v n, is_int v n -> 1 <= n <= 444288 ->
  exists g f, complete_graph v = Ok g /\ represents g n f complete_edge.
Proof.
  intros v n Hv Hn. destruct (Z.eq_dec n 1) as [->|Hn1].
  { unfold complete_graph. rewrite (generic_ok v 1 Hv ltac:(lia)). cbn [bind]. eexists. exists (fun _ => (0, 0, 0)%R). split; [reflexivity|]. apply single; [unfold complete_edge; lia|reflexivity]. }
  eexists. exists (fun i => rounded (turn i n)). split; [apply complete_build; [exact Hv|lia]|].
  apply (represents_build n (fun i => rounded (turn i n)) (complete_list n)); [lia| | | |].
  - intros i j Hi Hj E. apply (rounded_inj n); [lia|assumption..].
  - intros i j H. apply in_complete_list in H. lia.
  - intros i Hi. destruct (Z.eq_dec i 0) as [->|H0]; [exists 1; left|exists 0; right]; apply in_complete_list; lia.
  - intros i j Hi Hj. rewrite !in_complete_list. unfold complete_edge. lia.
Qed.
Print Assumptions C45_complete_graph_partial.

(* the nodes of a graph built from edges, whether or not ends coincide *)
Lemma build_nodes ops : NoDup (rg_nodes (build ops)) /\ (forall x, In x (rg_nodes (build ops)) <-> exists e, In e ops /\ (x = fst e \/ x = snd e)).
Proof.
  unfold build.
  assert (G : forall l g, NoDup (rg_nodes g) -> let g' := fold_left (fun g e => add_edge g (fst e) (snd e)) l g in NoDup (rg_nodes g') /\ forall x, In x (rg_nodes g') <-> In x (rg_nodes g) \/ exists e, In e l /\ (x = fst e \/ x = snd e)).
  { induction l as [|e l IH]; intros g Hg; cbn [fold_left].
    - split; [exact Hg|]. intros x. split; [auto|]. intros [H|(e & [] & _)]. exact H.
    - destruct (IH (add_edge g (fst e) (snd e))) as [H1 H2]; [unfold add_edge; cbn [rg_nodes]; apply put_node_NoDup, put_node_NoDup, Hg|]. split; [exact H1|].
      intros x. rewrite H2. unfold add_edge. cbn [rg_nodes]. rewrite !put_node_In. split.
      + intros [[[H|H]|H]|(e' & H & Hx)]; [auto|right; exists e; cbn [In]; auto|right; exists e; cbn [In]; auto|right; exists e'; cbn [In]; auto].
      + intros [H|(e' & [<-|H] & Hx)]; [auto|tauto|right; exists e'; auto]. }
  destruct (G ops empty_rgraph) as [H1 H2]; [constructor|]. split; [exact H1|]. intros x. rewrite H2. cbn. tauto.
Qed.

(* From 630000 vertices on two points get the same coordinates: fewer than n nodes. *)
Lemma filter_drop {A} (f : A -> bool) (x : A) l : In x l -> f x = false -> (List.length (filter f l) < List.length l)%nat.
Proof.
  induction l as [|y l IH]; intros Hi Hf; [destruct Hi|]. assert (Hle : forall l, (List.length (filter f l) <= List.length l)%nat) by (clear; induction l as [|z l IH]; cbn; [lia|destruct (f z); cbn; lia]).
  cbn [filter]. destruct Hi as [->|Hi]; [rewrite Hf; specialize (Hle l); cbn; lia|]. destruct (f y); cbn; specialize (IH Hi Hf); lia.
Qed.
Theorem C45_large_refuted : forall v n, is_int v n -> 630000 <= n -> forall g, ring_graph v = Ok g \/ complete_graph v = Ok g ->
  (Z.of_nat (List.length (rg_nodes g)) < n) /\ ~ exists f edge, represents g n f edge.
Proof.
  intros v n Hv Hn g Hg. destruct (rounded_collision n Hn) as (i0 & j0 & Hij0 & Hj0 & E0).
  assert (Hlen : Z.of_nat (List.length (rg_nodes g)) < n).
  { assert (Hsub : NoDup (rg_nodes g) /\ incl (rg_nodes g) (map (fun i => rounded (turn i n)) (filter (fun i => negb (i =? j0)) (py_range 0 n)))).
    { assert (Hr : forall i, 0 <= i < n -> In (rounded (turn i n)) (map (fun i => rounded (turn i n)) (filter (fun i => negb (i =? j0)) (py_range 0 n)))).
      { intros i Hi. apply in_map_iff. destruct (Z.eq_dec i j0) as [->|H0]; [exists i0; split; [symmetry; exact E0|]|exists i; split; [reflexivity|]]; (apply filter_In; split; [apply in_py_range; lia|]); apply negb_true_iff, Z.eqb_neq; lia. }
      assert (G : forall L, (forall i j, In (i, j) L -> 0 <= i < n /\ 0 <= j < n) ->
        NoDup (rg_nodes (build (map (fun e => (rounded (turn (fst e) n), rounded (turn (snd e) n))) L))) /\ incl (rg_nodes (build (map (fun e => (rounded (turn (fst e) n), rounded (turn (snd e) n))) L))) (map (fun i => rounded (turn i n)) (filter (fun i => negb (i =? j0)) (py_range 0 n)))).
      { intros L HL. destruct (build_nodes (map (fun e => (rounded (turn (fst e) n), rounded (turn (snd e) n))) L)) as [H1 H2]. split; [exact H1|]. intros x Hx. apply H2 in Hx. destruct Hx as (e & He & Hx).
        apply in_map_iff in He. destruct He as ([i j] & <- & Hij). destruct (HL i j Hij) as [Hi Hj]. cbn [fst snd] in Hx. destruct Hx as [-> | -> ]; apply Hr; assumption. }
      destruct Hg as [Hg|Hg].
      - rewrite (ring_build v n Hv ltac:(lia)) in Hg. injection Hg as <-. apply G. intros i j H. apply in_ring_list in H; [|lia]. destruct H as [Hi ->]. split; [exact Hi|]. apply Z.mod_pos_bound. lia.
      - rewrite (complete_build v n Hv ltac:(lia)) in Hg. injection Hg as <-. apply G. intros i j H. apply in_complete_list in H. lia. }
    destruct Hsub as [H1 H2]. pose proof (NoDup_incl_length H1 H2) as H. rewrite map_length in H.
    assert (Hf : (List.length (filter (fun i => negb (i =? j0)%Z) (py_range 0 n)) < List.length (py_range 0 n))%nat).
    { apply filter_drop with (x := j0); [apply in_py_range; lia|rewrite Z.eqb_refl; reflexivity]. }
    rewrite length_py_range in Hf. lia. }
  split; [exact Hlen|]. intros (f & edge & _ & H & _). lia.
Qed.
Print Assumptions C45_large_refuted.

Theorem C45_bell : exists g, bell = Ok g /\ rg_nodes g = [(0, 0, 0); (1, 0, 0)]%R /\ rg_edges g = [((0, 0, 0), (1, 0, 0))]%R.
Proof.
  eexists. split; [reflexivity|]. change (2 =? 1)%Z with false. change (py_range 0 (2 - 1)) with [0%Z]. cbn [fold_left]. unfold add_edge, put_node. cbn [rg_nodes rg_edges empty_rgraph app].
  change (0 + 1)%Z with 1%Z.
  repeat match goal with |- context [in_dec ?d ?x ?l] => let H := fresh "H" in destruct (in_dec d x l) as [H|H]; cbn [In app] in *; try contradiction end.
  all: try (match goal with H : _ \/ False |- _ => destruct H as [H|[]]; injection H as H; lra end).
  split; reflexivity.
Qed.
Print Assumptions C45_bell.

Example C45_nonvacuous : is_int (VInt 5) 5 /\ is_int (VBool true) 1 /\ ring_edge 5 4 0 /\ ~ ring_edge 5 4 1 /\ ring_edge 2 0 1 /\ forall n, is_int (VFloat "2.5") n -> n < 1.
Proof.
  split; [left; reflexivity|]. split; [right; exists true; auto|]. unfold ring_edge. cbn. repeat split; try lia. intros n [H|(b & H & _)]; discriminate.
Qed.
