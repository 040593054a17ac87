(* PropsEgraph.v: C28-C31, indices, dictionaries and adjacency matrix of an EGraph. *)
From Coq Require Import Sorting.Sorted Sorting.Permutation.
From Verif Require Import Base Lattice EgraphModel EgraphSpec EgraphProofs EgraphInv.
Open Scope Z_scope.

(* ------------------------------------------------------------------ *)
(* C28 *)
Lemma flat_map_at {A B} (f : A -> list B) ks1 k ks2 j x : nth_error (f k) j = Some x ->
  nth_error (flat_map f (ks1 ++ k :: ks2)) (length (flat_map f ks1) + j) = Some x.
Proof.
  intros H. rewrite flat_map_app. simpl. rewrite nth_error_app2 by lia. replace (_ + j - _)%nat with j by lia.
  rewrite nth_error_app1; [assumption|]. apply nth_error_Some. congruence.
Qed.
Lemma sorted_split l k k' : StronglySorted plt l -> In k l -> In k' l -> plt k k' -> exists l1 l2, l = l1 ++ k :: l2 /\ In k' l2.
Proof.
  intros Hs. induction Hs as [|a l Hs IH Hf]; intros Hk Hk' Hlt; [destruct Hk|]. rewrite Forall_forall in Hf. destruct Hk as [->|Hk].
  - exists [], l. split; [reflexivity|]. destruct Hk' as [->|Hk']; [exfalso; apply (plt_irrefl k'); assumption|assumption].
  - destruct Hk' as [->|Hk'].
    + exfalso. apply (plt_irrefl k'). apply (plt_trans k' k k'); [apply Hf; assumption|assumption].
    + destruct (IH Hk Hk' Hlt) as (l1 & l2 & -> & Hi). exists (a :: l1), l2. auto.
Qed.

(* For every graph with distinct nodes and no indices yet: the i-th smallest node gets index i, the two
   dictionaries are inverse, the graph is unchanged and a second call changes nothing. *)
Theorem C28_indices_sorted_bijection : forall g, graph_ok g -> unindexed g -> e_macro g = false ->
  exists g' d, index_generator g = (g', Ok d) /\ e_idx g' = Some d /\ same_graph g g' /\
    (exists l, Permutation l (e_nodes g) /\ StronglySorted plt l /\
       (forall p i, idx g' p = Some i <-> nth_error l i = Some p) /\ (forall p i, pnt g' i = Some p <-> nth_error l i = Some p)) /\
    index_generator g' = (g', Ok d).
Proof.
  intros g Hg (Hi & Hp) Hm. destruct (index_generator g) as (g', r) eqn:E. assert (exists d, r = Ok d) as [d ->].
  { unfold index_generator, ind_dict in E. rewrite Hi, Hm in E. simpl in E. injection E as _ <-. eauto. }
  exists g', d. destruct (index_generator_ok g g' d Hg Hi E) as (HP & Es & E1 & E2 & H1 & H2). split; [reflexivity|]. split; [assumption|].
  pose proof (index_generator_graph g) as HS. rewrite E in HS. split; [apply HS|]. split.
  - exists (order_of g). split; [assumption|]. split; [|split; assumption]. unfold order_of. rewrite Hm. apply sorted_sorted. apply Hg.
  - unfold index_generator. rewrite E1. reflexivity.
Qed.
(* For a macronode graph whose dictionary lists every node once: the indices are 0 .. N-1, those of one
   macronode are consecutive, in the order of its list, and macronodes are ordered by their centres. *)
Theorem C28_macronode_indices : forall g m, graph_ok g -> unindexed g -> e_macro g = true -> e_m2m g = Some m ->
  (forall p, In p (e_nodes g) -> exists k l, In (k, l) m /\ In p l) ->
  exists g' d, index_generator g = (g', Ok d) /\ e_idx g' = Some d /\ same_graph g g' /\ indexed g' /\
    (forall i, (exists p, pnt g' i = Some p) <-> (i < length (e_nodes g))%nat) /\
    (forall k l, In (k, l) m -> exists base, forall j x, nth_error l j = Some x -> idx g' x = Some (base + j)%nat) /\
    (forall k l k' l' x x' i i', In (k, l) m -> In (k', l') m -> plt k k' -> In x l -> In x' l' -> idx g' x = Some i -> idx g' x' = Some i' -> (i < i')%nat) /\
    index_generator g' = (g', Ok d).
Proof.
  intros g m Hg (Hi & Hp) Hm Em Hcov. pose proof Hg as (G1 & _ & G3). rewrite Em in G3. destruct G3 as (M1 & M2 & M3).
  set (f := fun v => match dget peqb m v with Some l => l | None => [] end). set (pts := flat_map f (sorted (map fst m))).
  pose proof (macro_points_perm m M1) as HP0. change (Permutation pts (concat (map snd m))) in HP0.
  assert (HLge : (length (e_nodes g) <= length pts)%nat).
  { apply NoDup_incl_length; [assumption|]. intros p Hin. apply (Permutation_in _ (Permutation_sym HP0)). destruct (Hcov p Hin) as (k & l & H1 & H2). apply in_concat. exists l.
    split; [apply (in_map snd _ _ H1)|assumption]. }
  destruct (index_generator g) as (g', r) eqn:E. assert (exists d, r = Ok d) as [d ->].
  { unfold index_generator, ind_dict in E. rewrite Hi, Hm, Em in E. simpl in E. fold f in E. fold pts in E. destruct (Nat.ltb_spec (length pts) (length (e_nodes g))); [lia|]. injection E as _ <-. eauto. }
  exists g', d. destruct (index_generator_ok g g' d Hg Hi E) as (HP & Es & E1 & E2 & H1 & H2). split; [reflexivity|]. split; [assumption|].
  pose proof (index_generator_graph g) as HS. rewrite E in HS. split; [apply HS|]. split; [apply (index_generator_indexed g g' d); assumption|].
  assert (Ho : order_of g = pts) by (unfold order_of; rewrite Hm, Em; reflexivity). rewrite Ho in *.
  assert (Hnd : NoDup pts) by (apply (Permutation_NoDup (Permutation_sym HP)); assumption).
  assert (Hf : forall k l, In (k, l) m -> f k = l) by (intros k l H; unfold f; rewrite (In_dget peqb peqb_true _ _ _ M1 H); reflexivity).
  assert (Hk : forall k l, In (k, l) m -> In k (sorted (map fst m))) by (intros k l H; apply sorted_in; apply (in_map fst _ _ H)).
  split; [|split; [|split]].
  - intros i. rewrite <- (Permutation_length HP), <- nth_error_Some. destruct (nth_error pts i) as [p|] eqn:En.
    + split; [discriminate|]. intros _. exists p. apply H2. assumption.
    + split; [|congruence]. intros (p & Hpi). apply H2 in Hpi. congruence.
  - intros k l Hkl. destruct (in_split _ _ (Hk k l Hkl)) as (k1 & k2 & Ek). exists (length (flat_map f k1)). intros j x Hx. apply H1. unfold pts. rewrite Ek.
    apply flat_map_at. rewrite (Hf k l Hkl). assumption.
  - intros k l k' l' x x' i i' Hkl Hkl' Hlt Hx Hx' Ex Ex'.
    destruct (sorted_split _ k k' (sorted_sorted _ M1) (Hk k l Hkl) (Hk k' l' Hkl') Hlt) as (k1 & k2 & Ek & Hin2).
    apply in_split in Hin2. destruct Hin2 as (k3 & k4 & ->). apply In_nth_error in Hx. destruct Hx as (j & Hj). apply In_nth_error in Hx'. destruct Hx' as (j' & Hj').
    assert (Ei : idx g' x = Some (length (flat_map f k1) + j)%nat).
    { apply H1. unfold pts. rewrite Ek. apply flat_map_at. rewrite (Hf k l Hkl). assumption. }
    assert (Ei' : idx g' x' = Some (length (flat_map f (k1 ++ k :: k3)) + j')%nat).
    { apply H1. unfold pts. rewrite Ek. replace (k1 ++ k :: k3 ++ k' :: k4) with ((k1 ++ k :: k3) ++ k' :: k4) by (rewrite <- app_assoc; reflexivity). apply flat_map_at. rewrite (Hf k' l' Hkl'). assumption. }
    rewrite flat_map_app, app_length in Ei'. simpl in Ei'. rewrite app_length, (Hf k l Hkl) in Ei'. assert (j < length l)%nat by (apply nth_error_Some; congruence).
    rewrite Ei in Ex. rewrite Ei' in Ex'. injection Ex as <-. injection Ex' as <-. lia.
  - unfold index_generator. rewrite E1. reflexivity.
Qed.
Definition line3 : eg := new_egraph [(2, 0, 0); (0, 0, 0); (1, 0, 0)] [((0, 0, 0), (1, 0, 0), 1); ((1, 0, 0), (2, 0, 0), -1)] false None.
Lemma line3_fresh : fresh line3.
Proof.
  split; [split; [|split]|split; [split; reflexivity|reflexivity]].
  - repeat constructor; simpl; intuition congruence.
  - intros u v w [H|[H|[]]]; injection H as <- <- <-; simpl; tauto.
  - exact I.
Qed.
Example C28_witness : snd (index_generator line3) = Ok [((0, 0, 0), 0%nat); ((1, 0, 0), 1%nat); ((2, 0, 0), 2%nat)].
Proof. reflexivity. Qed.
(* two macronodes with two micronodes each (units of a tenth) *)
Definition macro2 : eg := new_egraph [(1, 0, 0); (9, 0, 0); (10, 1, 0); (0, 1, 0)] [((1, 0, 0), (9, 0, 0), 1)] true
  (Some [((10, 0, 0), [(9, 0, 0); (10, 1, 0)]); ((0, 0, 0), [(1, 0, 0); (0, 1, 0)])]).
Example C28_witness_macro : graph_ok macro2 /\ snd (index_generator macro2) = Ok [((1, 0, 0), 0%nat); ((0, 1, 0), 1%nat); ((9, 0, 0), 2%nat); ((10, 1, 0), 3%nat)].
Proof.
  split; [|reflexivity]. split; [|split].
  - repeat constructor; simpl; intuition congruence.
  - intros u v w [H|[]]; injection H as <- <- <-; simpl; tauto.
  - split; [|split].
    + repeat constructor; simpl; intuition congruence.
    + repeat constructor; simpl; intuition congruence.
    + intros p; simpl; tauto.
Qed.

(* ------------------------------------------------------------------ *)
(* C29 *)
Lemma inv_indexed g : inv g -> indexed g -> indexed_ok g.
Proof. intros (_ & [(H & _)|H] & _) (Hx & _); [congruence|assumption]. Qed.
(* After every history of calls (any order of add_qubit, remove_qubit, index_generator and
   adj_generator; neighbours given as positions are nodes) starting from a new graph: the nodes are
   distinct, edges join nodes, macronode lists are disjoint lists of nodes, and the dictionaries are
   either both absent or inverse bijections between the nodes and a set of indices; once generated
   they stay so, and a node keeps its index as long as it is in the graph. *)
Theorem C29_dictionaries_survive : forall U g0 g, 0 < U -> fresh g0 -> history U g0 g ->
  graph_ok g /\ (unindexed g \/ indexed g) /\
  (indexed g -> forall g', history U g g' -> indexed g') /\
  (indexed g -> forall p g', history_keeping U p g g' -> idx g' p = idx g p).
Proof.
  intros U g0 g HU Hf Hh. destruct (history_inv U g0 g HU (fresh_inv g0 Hf) Hh) as [HI _]. split; [apply HI|]. split.
  - destruct HI as (_ & [H|H] & _); [left; assumption|right; apply indexed_ok_indexed; assumption].
  - split; intros Hx.
    + intros g' Hg'. apply indexed_ok_indexed. apply (history_inv U g g' HU HI Hg'). apply inv_indexed; assumption.
    + intros p g' Hk. apply (history_keeping_idx U p g g' HU HI); [apply inv_indexed; assumption|assumption].
Qed.
(* the nodes after each call: add_qubit appends the requested position, or one step beyond the
   largest x; remove_qubit removes exactly one node; the others leave the nodes alone *)
Theorem C29_nodes : forall U g0 g o g', 0 < U -> fresh g0 -> history U g0 g -> known_neighbors g o -> run U g o = (g', Ok tt) ->
  match o with
  | OAdd q _ _ => exists p, ~ In p (e_nodes g) /\ e_nodes g' = e_nodes g ++ [p] /\
      match q with QTuple p' => p = p' | QNone => co AY p = 0 /\ co AZ p = 0 /\ (forall r, In r (e_nodes g) -> co AX r <= co AX p - U) /\ exists r, In r (e_nodes g) /\ co AX r = co AX p - U | _ => False end
  | ORemove r => exists p, In p (e_nodes g) /\ (forall x, In x (e_nodes g') <-> In x (e_nodes g) /\ x <> p) /\
      match r with RTuple p' => p = p' | RInt i => 0 <= i /\ pnt g (Z.to_nat i) = Some p | ROther => False end
  | _ => same_graph g g'
  end.
Proof.
  intros U g0 g o g' HU Hf Hh Hk Hr. destruct (history_inv U g0 g HU (fresh_inv g0 Hf) Hh) as [HI _]. destruct o as [q n m|r| |s]; cbn [run] in Hr.
  - destruct (add_qubit_inv U g q n m g' HU HI Hk Hr) as (_ & (p & Hp & En) & _). exists p. split; [apply (place_new U g q p HU Hp)|]. split; [assumption|].
    destruct q; simpl in Hp; try discriminate.
    + destruct (has_n g p0); [discriminate|]. congruence.
    + destruct (map (co AX) (e_nodes g)) as [|x xs] eqn:Ex; [discriminate|]. injection Hp as <-. split; [reflexivity|]. split; [reflexivity|].
      change (co AX (fold_right Z.max x xs + U, 0, 0)) with (fold_right Z.max x xs + U). split.
      * intros r Hr0. apply (in_map (co AX)) in Hr0. rewrite Ex in Hr0. assert (co AX r <= fold_right Z.max x xs); [|lia].
        clear - Hr0. destruct Hr0 as [<-|Hc].
        -- induction xs as [|y xs IH]; simpl; lia.
        -- induction xs as [|y xs IH]; simpl; [destruct Hc|]. destruct Hc as [<-|Hc]; [lia|]. specialize (IH Hc). lia.
      * assert (Hm : In (fold_right Z.max x xs) (x :: xs)).
        { clear. induction xs as [|y xs IH]; simpl; [tauto|]. destruct (Z.max_spec y (fold_right Z.max x xs)) as [[_ ->]|[_ ->]]; [destruct IH; tauto|tauto]. }
        rewrite <- Ex in Hm. apply in_map_iff in Hm. destruct Hm as (r & Er & Hr0). exists r. split; [assumption|lia].
  - unfold remove_qubit in Hr. cbv zeta in Hr.
    assert (Hgoal : forall p, In p (e_nodes g) -> e_nodes g' = filter (fun x => negb (peqb x p)) (e_nodes g) -> forall x, In x (e_nodes g') <-> In x (e_nodes g) /\ x <> p).
    { intros p _ -> x. rewrite filter_In, negb_true_iff, peqb_false. reflexivity. }
    destruct (e_idx g) as [ti|] eqn:Ei.
    + destruct r as [p|i|]; [| |discriminate].
      * destruct (has_n g p) eqn:Eh; [|discriminate]. cbn [negb] in Hr. destruct (dget peqb ti p); [|discriminate]. injection Hr as <-. exists p. apply pmem_In in Eh. auto.
      * destruct (e_pts g) as [tp|] eqn:Et; [|discriminate]. destruct (Z.ltb_spec i 0); [discriminate|]. unfold pnt. rewrite Et. destruct (dget Nat.eqb tp (Z.to_nat i)) as [p|]; [|discriminate].
        destruct (has_n g p) eqn:Eh; [|discriminate]. cbn [negb] in Hr. destruct (dget peqb ti p); [|discriminate]. injection Hr as <-. exists p. apply pmem_In in Eh. auto.
    + destruct r as [p| |]; [|discriminate|discriminate]. destruct (has_n g p) eqn:Eh; [|discriminate]. injection Hr as <-. exists p. apply pmem_In in Eh. auto.
  - destruct (index_generator g) as (g1, r1) eqn:E. injection Hr as <- _. apply (index_generator_inv' g g1 r1 HI E).
  - destruct (adj_generator g s) as (g1, r1) eqn:E. injection Hr as <- _. apply (adj_generator_inv g s g1 r1 HI E).
Qed.
(* the edges after each call: the new qubit is joined, with weight 1, exactly to the given neighbours;
   a removed qubit loses its edges; all other edges stay *)
Lemma add_e_joined g a b u v w : joined (add_e g a b) u v w -> joined g u v w \/ (w = 1 /\ ((u = a /\ v = b) \/ (u = b /\ v = a))).
Proof.
  unfold joined, add_e. cbn [e_edges set_graph]. destruct (existsb _ _); [tauto|]. rewrite !in_app_iff. simpl.
  intros [[H|[H|[]]]|[H|[H|[]]]]; try tauto; injection H as <- <- <-; tauto.
Qed.
Lemma add_e_old g a b u v w : joined g u v w -> joined (add_e g a b) u v w.
Proof. unfold joined, add_e. cbn [e_edges set_graph]. destruct (existsb _ _); [tauto|]. rewrite !in_app_iff. tauto. Qed.
Lemma add_e_new g a b : exists w, joined (add_e g a b) a b w /\ (w = 1 \/ joined g a b w).
Proof.
  unfold add_e. destruct (existsb (is_edge a b) (e_edges g)) eqn:E.
  - apply existsb_exists in E. destruct E as ((uv & w) & Hi & He). apply is_edge_true in He. cbn [fst] in He. exists w.
    assert (joined g a b w) by (destruct He as [-> | ->]; [left|right]; assumption). split; [exact H|right; assumption].
  - exists 1. split; [|left; reflexivity]. left. cbn [e_edges set_graph]. apply in_or_app. right. left. reflexivity.
Qed.
Lemma connect_joined q l : forall g, (forall x w, ~ joined g q x w) ->
  forall u v w, joined (connect g q l) u v w <-> joined g u v w \/ (w = 1 /\ ((u = q /\ In v l) \/ (v = q /\ In u l))).
Proof.
  intros g Hno u v w. unfold connect.
  assert (Hgen : forall l g0 seen, (forall u v w, joined g0 u v w <-> joined g u v w \/ (w = 1 /\ ((u = q /\ In v seen) \/ (v = q /\ In u seen)))) ->
    forall u v w, joined (fold_left (fun g nb => add_e g nb q) l g0) u v w <-> joined g u v w \/ (w = 1 /\ ((u = q /\ In v (seen ++ l)) \/ (v = q /\ In u (seen ++ l))))).
  { clear u v w l. induction l as [|nb l IH]; intros g0 seen H0 u v w; simpl; [rewrite app_nil_r; apply H0|]. rewrite (IH _ (seen ++ [nb])).
    - rewrite <- app_assoc. reflexivity.
    - clear u v w IH. intros u v w. split.
      + intros H. apply add_e_joined in H. rewrite H0 in H. rewrite !in_app_iff. simpl. destruct H as [[H|(-> & [(-> & H)|(-> & H)])]|(-> & [(-> & ->)|(-> & ->)])]; tauto.
      + intros H. destruct H as [H|(-> & H)].
        * apply add_e_old. apply H0. left. assumption.
        * rewrite !in_app_iff in H. simpl in H.
          assert (Hold : (u = q /\ In v seen) \/ (v = q /\ In u seen) -> joined (add_e g0 nb q) u v 1) by (intros Ho; apply add_e_old; apply H0; right; auto).
          assert (Hnew : joined (add_e g0 nb q) nb q 1).
          { destruct (add_e_new g0 nb q) as (w & H1 & [-> |H2]); [assumption|]. apply H0 in H2. destruct H2 as [H2|(-> & _)]; [|assumption].
            exfalso. apply (Hno nb w). destruct H2; [right|left]; assumption. }
          destruct H as [(-> & [H|[H|[]]])|(-> & [H|[H|[]]])]; [apply Hold; tauto| |apply Hold; tauto|]; subst; [destruct Hnew; [right|left]; assumption|assumption]. }
  specialize (Hgen l g []). apply Hgen. intros u0 v0 w0. simpl. tauto.
Qed.
Lemma update_attributes_edges U g q m g2 r : update_attributes U g q m = (g2, r) -> e_edges g2 = e_edges g.
Proof.
  destruct q as [[x y] z]. unfold update_attributes. cbv zeta. match goal with |- context [match e_idx ?G with _ => _ end] => assert (H1 : e_edges G = e_edges g); [|set (g1 := G) in *] end.
  { destruct m; [|reflexivity]. destruct (e_m2m g); reflexivity. }
  destruct (e_idx g1); [|intros E; injection E as <- <-; assumption]. destruct (e_pts g1); [|intros E; injection E as <- <-; assumption].
  destruct (map fst l0); intros E; injection E as <- <-; assumption.
Qed.
Definition neighbor_of (g : eg) (n : narg) (x : point) : Prop :=
  match n with NTuples l => In x l | NInts l => exists i, In i l /\ 0 <= i /\ pnt g (Z.to_nat i) = Some x | _ => False end.
Lemma int_points_spec g l ps x : int_points g l = Ok ps -> (In x ps <-> exists i, In i l /\ 0 <= i /\ pnt g (Z.to_nat i) = Some x).
Proof.
  unfold int_points, pnt. destruct (e_pts g) as [tp|]; [|discriminate]. intros E. apply mapR_ok in E. induction E as [|i y l ps Hy _ IH].
  - split; [intros []|]. intros (i & [] & _).
  - destruct (Z.ltb_spec i 0); [discriminate|]. destruct (dget Nat.eqb tp (Z.to_nat i)) as [p|] eqn:Ed; [|discriminate]. injection Hy as <-. simpl. rewrite IH. split.
    + intros [<-|(j & H1 & H2)]; [exists i; auto|exists j; tauto].
    + intros (j & [<-|H1] & H2 & H3); [left; congruence|right; exists j; auto].
Qed.
Theorem C29_edges : forall U g0 g o g', 0 < U -> fresh g0 -> history U g0 g -> known_neighbors g o -> run U g o = (g', Ok tt) ->
  match o with
  | OAdd q n m => exists p, In p (e_nodes g') /\ ~ In p (e_nodes g) /\
      forall u v w, joined g' u v w <-> joined g u v w \/ (w = 1 /\ ((u = p /\ neighbor_of g' n v) \/ (v = p /\ neighbor_of g' n u)))
  | ORemove r => exists p, In p (e_nodes g) /\ ~ In p (e_nodes g') /\ forall u v w, joined g' u v w <-> joined g u v w /\ u <> p /\ v <> p
  | _ => forall u v w, joined g' u v w <-> joined g u v w
  end.
Proof.
  intros U g0 g o g' HU Hf Hh Hk Hr. destruct (history_inv U g0 g HU (fresh_inv g0 Hf) Hh) as [HI _]. destruct o as [q n m|r| |s]; cbn [run] in Hr.
  - destruct (add_qubit_inv U g q n m g' HU HI Hk Hr) as (_ & (p & Hp & En) & _). exists p. split; [rewrite En; apply in_or_app; right; left; reflexivity|].
    pose proof (place_new U g q p HU Hp) as Hnew. split; [assumption|]. unfold add_qubit in Hr. rewrite Hp in Hr. destruct (m && _); [discriminate|]. cbv zeta in Hr.
    destruct (update_attributes U _ p m) as (g2, r2) eqn:E2. destruct r2 as [[]|]; [|discriminate]. pose proof (update_attributes_edges _ _ _ _ _ _ E2) as Ee. cbn [e_edges set_graph] in Ee.
    assert (Hno : forall x w, ~ joined g2 p x w).
    { intros x w Hj. unfold joined in Hj. rewrite Ee in Hj. destruct HI as ((_ & G2 & _) & _). destruct Hj as [Hj|Hj]; apply G2 in Hj; tauto. }
    assert (Hj2 : forall u v w, joined g2 u v w <-> joined g u v w) by (intros u v w; unfold joined; rewrite Ee; reflexivity).
    assert (Hnone : forall u v w, joined (set_adj g2 None) u v w <-> joined g u v w \/ (w = 1 /\ ((u = p /\ False) \/ (v = p /\ False)))) by (intros u v w; change (joined (set_adj g2 None) u v w) with (joined g2 u v w); rewrite Hj2; tauto).
    destruct n as [|[|i l]|[|t l]|]; cbn [update_neighbors] in Hr; try discriminate.
    + injection Hr as <-. exact Hnone.
    + injection Hr as <-. intros u v w. rewrite Hnone. unfold neighbor_of. split; [tauto|]. intros [H|(_ & [(_ & (i & [] & _))|(_ & (i & [] & _))])]; tauto.
    + destruct (match e_pts g2 with None => _ | Some _ => _ end) as (g3, r3) eqn:E3. destruct r3 as [[]|]; [|discriminate].
      assert (Ee3 : e_edges g3 = e_edges g2).
      { destruct (e_pts g2); [injection E3 as <-; reflexivity|]. pose proof (index_generator_graph g2) as HS. destruct (index_generator g2) as (g4, r4). injection E3 as <- _. apply HS. }
      destruct (int_points g3 (i :: l)) as [ps|] eqn:Ei; [|discriminate]. injection Hr as <-. intros u v w.
      change (joined (set_adj (connect g3 p ps) None) u v w) with (joined (connect g3 p ps) u v w). rewrite connect_joined.
      2:{ intros x w0 Hj. apply (Hno x w0). unfold joined in *. rewrite Ee3 in Hj. assumption. }
      assert (Hj3 : joined g3 u v w <-> joined g u v w) by (unfold joined; rewrite Ee3, Ee; reflexivity). rewrite Hj3.
      assert (Hpn : forall j, pnt (set_adj (connect g3 p ps) None) j = pnt g3 j).
      { intros j. unfold pnt. cbn [e_pts set_adj]. assert (Hc : e_pts (connect g3 p ps) = e_pts g3); [|rewrite Hc; reflexivity].
        unfold connect. generalize g3. clear. induction ps as [|x ps IH]; intros g; simpl; [reflexivity|]. rewrite IH. reflexivity. }
      assert (Hnb : forall x, In x ps <-> neighbor_of (set_adj (connect g3 p ps) None) (NInts (i :: l)) x).
      { intros x. rewrite (int_points_spec _ _ _ x Ei). unfold neighbor_of. split; intros (j & H1 & H2 & H3); exists j; (split; [assumption|split; [assumption|]]); rewrite Hpn in *; assumption. }
      rewrite !Hnb. reflexivity.
    + injection Hr as <-. exact Hnone.
    + assert (Eg' : g' = set_adj (connect g2 p (t :: l)) None) by congruence. rewrite Eg'. intros u v w. change (joined (set_adj (connect g2 p (t :: l)) None) u v w) with (joined (connect g2 p (t :: l)) u v w). rewrite (connect_joined p (t :: l) g2 Hno).
      rewrite Hj2. reflexivity.
  - assert (Hgoal : forall p G, e_edges G = filter (fun e => negb (peqb (fst (fst e)) p) && negb (peqb (snd (fst e)) p)) (e_edges g) ->
      forall u v w, joined G u v w <-> joined g u v w /\ u <> p /\ v <> p).
    { intros p G E u v w. unfold joined. rewrite E, !filter_In. cbn [fst snd]. rewrite !andb_true_iff, !negb_true_iff, !peqb_false. tauto. }
    assert (Hout : forall p G, e_nodes G = filter (fun q => negb (peqb q p)) (e_nodes g) -> ~ In p (e_nodes G)) by (intros p G -> H; apply filter_In in H; rewrite peqb_refl in H; destruct H; discriminate).
    unfold remove_qubit in Hr. cbv zeta in Hr. destruct (e_idx g) as [ti|] eqn:Ei.
    + match type of Hr with context [match ?T with Ok p => _ | Err e => (g, Err e) end] => destruct T as [p|e] end; [|discriminate].
      destruct (has_n g p) eqn:Eh; cbn [negb] in Hr; [|discriminate]. apply pmem_In in Eh. destruct (dget peqb ti p); [|discriminate]. injection Hr as <-. exists p. split; [assumption|]. split; [apply Hout; reflexivity|apply Hgoal; reflexivity].
    + destruct r as [p| |]; [|discriminate|discriminate]. destruct (has_n g p) eqn:Eh; [|discriminate]. apply pmem_In in Eh. injection Hr as <-. exists p. split; [assumption|]. split; [apply Hout; reflexivity|apply Hgoal; reflexivity].
  - destruct (index_generator g) as (g1, r1) eqn:E. injection Hr as <- _. destruct (index_generator_inv' g g1 r1 HI E) as (_ & _ & (_ & S2 & _) & _). intros u v w. unfold joined. rewrite S2. reflexivity.
  - destruct (adj_generator g s) as (g1, r1) eqn:E. injection Hr as <- _. destruct (adj_generator_inv g s g1 r1 HI E) as (_ & (_ & S2 & _) & _). intros u v w. unfold joined. rewrite S2. reflexivity.
Qed.
(* the macronode dictionary: a qubit added to a macronode is listed under its nearest integer point;
   a removed qubit is listed nowhere; all other entries stay *)
Lemma round_to_nearest U c : 0 < U -> nearest U c (round_to U c).
Proof.
  intros HU. unfold round_to, nearest. cbv zeta. pose proof (Z.div_mod c U ltac:(lia)) as Hd. pose proof (Z.mod_pos_bound c U HU) as Hb. set (q := c / U) in *. set (r := c mod U) in *. clearbody q r.
  destruct (Z.ltb_spec (2 * r) U); [exists q; split; [reflexivity|]; subst c; replace (U * q + r - U * q) with r by lia; rewrite Z.abs_eq by lia; split; [lia|lia]|].
  destruct (Z.ltb_spec U (2 * r)).
  - exists (q + 1). split; [reflexivity|]. subst c. replace (U * q + r - U * (q + 1)) with (- (U - r)) by lia. rewrite Z.abs_opp, Z.abs_eq by lia. split; lia.
  - destruct (Z.eqb_spec (q mod 2) 0) as [E|E].
    + exists q. split; [reflexivity|]. subst c. replace (U * q + r - U * q) with r by lia. rewrite Z.abs_eq by lia. split; [lia|]. intros _. rewrite Zeven_mod, E. reflexivity.
    + exists (q + 1). split; [reflexivity|]. subst c. replace (U * q + r - U * (q + 1)) with (- (U - r)) by lia. rewrite Z.abs_opp, Z.abs_eq by lia. split; [lia|]. intros _.
      rewrite Z.even_add. rewrite Zeven_mod. destruct (Zeq_bool (q mod 2) 0) eqn:E2; [apply Zeq_bool_eq in E2; lia|reflexivity].
Qed.
Lemma dget_micro (m : list (point * list point)) k x : NoDup (map fst m) -> ((exists l, In (k, l) m /\ In x l) <-> exists l, dget peqb m k = Some l /\ In x l).
Proof.
  intros Hd. split; intros (l & H1 & H2); exists l; (split; [|assumption]).
  - apply (In_dget peqb peqb_true); assumption.
  - apply (dget_In peqb peqb_true). assumption.
Qed.
Lemma dset_nodup (m : list (point * list point)) k l : NoDup (map fst m) -> NoDup (map fst (dset peqb m k l)).
Proof.
  intros H. rewrite dset_keys. destruct (existsb _ _) eqn:E; [assumption|]. apply NoDup_app_intro; [assumption|repeat constructor; intros []|]. intros x Hx [->|[]].
  assert (existsb (fun x0 => peqb x0 x) (map fst m) = true) by (apply existsb_exists; exists x; split; [assumption|apply peqb_refl]). congruence.
Qed.
Lemma strip_in p (m : list (point * list point)) k l : NoDup (concat (map snd m)) -> NoDup (map fst m) -> forall x, (In (k, l) (strip p m) -> In x l -> x <> p /\ exists l', In (k, l') m /\ In x l').
Proof.
  intros Hc Hf x H1 H2. destruct (strip_ok p m Hf Hc) as (_ & _ & _ & A4). split.
  - apply (A4 x). apply in_concat. exists l. split; [apply (in_map snd _ _ H1)|assumption].
  - unfold strip in H1. apply in_flat_map in H1. destruct H1 as ((k' & l') & Hi & H1). cbn [fst snd] in H1. destruct (pmem p l').
    + destruct (remove_first p l') as [|y l''] eqn:Er; [destruct H1|]. destruct H1 as [H1|[]]. injection H1 as <- <-. exists l'. split; [assumption|]. apply (remove_first_in p). rewrite Er. assumption.
    + destruct H1 as [H1|[]]. injection H1 as <- <-. exists l'. auto.
Qed.
Lemma remove_first_keep p l x : In x l -> x <> p -> In x (remove_first p l).
Proof. induction l as [|q l IH]; simpl; intros H Hne; [tauto|]. destruct (peqb q p) eqn:E; [apply peqb_true in E; destruct H; [congruence|assumption]|]. destruct H as [->|H]; [left; reflexivity|right; auto]. Qed.
Lemma strip_keep p (m : list (point * list point)) k l x : In (k, l) m -> In x l -> x <> p -> exists l', In (k, l') (strip p m) /\ In x l'.
Proof.
  intros H1 H2 Hne. pose proof (remove_first_keep p l x H2 Hne) as H3. exists (if pmem p l then remove_first p l else l). split; [|destruct (pmem p l); assumption].
  unfold strip. apply in_flat_map. exists (k, l). split; [assumption|]. cbn [fst snd]. destruct (pmem p l); [|left; reflexivity]. destruct (remove_first p l); [destruct H3|left; reflexivity].
Qed.
Theorem C29_macronodes : forall U g0 g o g', 0 < U -> fresh g0 -> history U g0 g -> known_neighbors g o -> run U g o = (g', Ok tt) ->
  match o with
  | OAdd q n m => exists p c, In p (e_nodes g') /\ ~ In p (e_nodes g) /\ (forall a, nearest U (co a p) (co a c)) /\
      (m = true -> e_m2m g <> None) /\ (forall k x, micro g' k x <-> micro g k x \/ (m = true /\ k = c /\ x = p))
  | ORemove r => exists p, In p (e_nodes g) /\ ~ In p (e_nodes g') /\ forall k x, micro g' k x <-> micro g k x /\ x <> p
  | _ => forall k x, micro g' k x <-> micro g k x
  end.
Proof.
  intros U g0 g o g' HU Hf Hh Hk Hr. destruct (history_inv U g0 g HU (fresh_inv g0 Hf) Hh) as [HI _]. destruct o as [q n m|r| |s]; cbn [run] in Hr.
  - destruct (add_qubit_inv U g q n m g' HU HI Hk Hr) as (_ & (p & Hp & En) & _). pose proof (place_new U g q p HU Hp) as Hnew.
    destruct p as [[px py] pz] eqn:Epp. rewrite <- Epp in *. set (c := (round_to U px, round_to U py, round_to U pz)). exists p, c.
    split; [rewrite En; apply in_or_app; right; left; reflexivity|]. split; [assumption|].
    split; [intros a; rewrite Epp; unfold c; destruct a; apply round_to_nearest; assumption|].
    unfold add_qubit in Hr. rewrite Hp in Hr. destruct (m && _) eqn:Em; [discriminate|]. cbv zeta in Hr.
    split; [intros ->; destruct (e_m2m g); [discriminate|discriminate]|].
    destruct (update_attributes U _ p m) as (g2, r2) eqn:E2. destruct r2 as [[]|]; [|discriminate].
    assert (Hm' : e_m2m g' = e_m2m g2).
    { assert (Hcon : forall ps g, e_m2m (connect g p ps) = e_m2m g) by (clear; unfold connect; induction ps as [|x ps IH]; intros g; simpl; [reflexivity|rewrite IH; reflexivity]).
      destruct n as [|[|i l]|[|t l]|]; cbn [update_neighbors] in Hr; try discriminate.
      - injection Hr as <-. reflexivity.
      - injection Hr as <-. reflexivity.
      - destruct (match e_pts g2 with None => _ | Some _ => _ end) as (g3, r3) eqn:E3. destruct r3 as [[]|]; [|discriminate].
        assert (Ee3 : e_m2m g3 = e_m2m g2).
        { destruct (e_pts g2); [injection E3 as <-; reflexivity|]. pose proof (index_generator_graph g2) as HS. destruct (index_generator g2) as (g4, r4). injection E3 as <- _. apply HS. }
        destruct (int_points g3 (i :: l)) as [ps|]; [|discriminate]. injection Hr as <-. cbn [e_m2m set_adj]. rewrite Hcon. assumption.
      - injection Hr as <-. reflexivity.
      - injection Hr as <-. cbn [e_m2m set_adj]. rewrite Hcon. reflexivity. }
    assert (Hm2 : e_m2m g2 = match m, e_m2m g with true, Some mm => Some (match dget peqb mm c with Some l => dset peqb mm c (l ++ [p]) | None => dset peqb mm c [p] end) | _, x => x end).
    { unfold update_attributes in E2. rewrite Epp in E2 at 1. cbv zeta in E2. fold c in E2.
      match type of E2 with context [match e_idx ?G with _ => _ end] => set (g1 := G) in * end.
      assert (Hg1 : e_m2m g1 = match m, e_m2m g with true, Some mm => Some (match dget peqb mm c with Some l => dset peqb mm c (l ++ [p]) | None => dset peqb mm c [p] end) | _, x => x end).
      { unfold g1. destruct m; [|reflexivity]. cbn [e_m2m set_graph]. destruct (e_m2m g) eqn:Eg; [reflexivity|]. cbn [e_m2m set_graph]. exact Eg. }
      rewrite <- Hg1. clearbody g1. destruct (e_idx g1); [|injection E2 as <-; reflexivity]. destruct (e_pts g1); [|discriminate]. destruct (map fst l0); [discriminate|]. injection E2 as <-. reflexivity. }
    assert (HG : graph_ok g) by apply HI. destruct HG as (_ & _ & G3).
    intros k x. unfold micro. rewrite Hm', Hm2. destruct m.
    + destruct (e_m2m g) as [mm|]; [|discriminate]. destruct G3 as (M1 & M2 & M3).
      assert (HS : forall M, (exists m l, Some M = Some m /\ In (k, l) m /\ In x l) <-> exists l, In (k, l) M /\ In x l).
      { intros M. split; [intros (m & l & E & H); injection E as <-; eauto|intros (l & H); eauto]. }
      rewrite !HS. rewrite (dget_micro mm) by assumption.
      assert (Hcases : (exists l, In (k, l) (match dget peqb mm c with Some l0 => dset peqb mm c (l0 ++ [p]) | None => dset peqb mm c [p] end) /\ In x l) <->
        exists l, dget peqb (match dget peqb mm c with Some l0 => dset peqb mm c (l0 ++ [p]) | None => dset peqb mm c [p] end) k = Some l /\ In x l).
      { apply dget_micro. destruct (dget peqb mm c); apply dset_nodup; assumption. }
      rewrite Hcases. destruct (dget peqb mm c) as [l0|] eqn:Ec.
      * setoid_rewrite (dget_dset peqb peqb_true). destruct (peqb c k) eqn:Eck.
        -- apply peqb_true in Eck. subst k. rewrite Ec. split.
           ++ intros (l & El & Hx). injection El as <-. apply in_app_or in Hx. destruct Hx as [Hx|[<-|[]]]; [left; exists l0; auto|right; auto].
           ++ intros [(l & El & Hx)|(_ & _ & ->)]; [injection El as <-|]; eexists; (split; [reflexivity|]); apply in_or_app; [left; assumption|right; left; reflexivity].
        -- apply peqb_false in Eck. split; [intros H; left; assumption|]. intros [H|(_ & H & _)]; [assumption|congruence].
      * setoid_rewrite (dget_dset peqb peqb_true). destruct (peqb c k) eqn:Eck.
        -- apply peqb_true in Eck. subst k. rewrite Ec. split.
           ++ intros (l & El & Hx). injection El as <-. destruct Hx as [<-|[]]. right. auto.
           ++ intros [(l & El & Hx)|(_ & _ & ->)]; [discriminate|]. eexists. split; [reflexivity|]. left. reflexivity.
        -- apply peqb_false in Eck. split; [intros H; left; assumption|]. intros [H|(_ & H & _)]; [assumption|congruence].
    + split; [intros H; left; destruct (e_m2m g); assumption|]. intros [H|(H & _)]; [destruct (e_m2m g); assumption|discriminate].
  - assert (HG : graph_ok g) by apply HI. destruct HG as (_ & _ & G3).
    assert (Hgoal : forall p G, e_m2m G = (match e_m2m g with Some m => Some (strip p m) | None => None end) -> forall k x, micro G k x <-> micro g k x /\ x <> p).
    { intros p G E k x. unfold micro. rewrite E. destruct (e_m2m g) as [m|].
      - destruct G3 as (M1 & M2 & M3). split.
        + intros (m' & l & Em & H1 & H2). injection Em as <-. destruct (strip_in p m k l M2 M1 x H1 H2) as (H3 & l' & H4 & H5). split; [eauto 6|assumption].
        + intros ((m' & l & Em & H1 & H2) & Hne). injection Em as <-. destruct (strip_keep p m k l x H1 H2 Hne) as (l' & H4 & H5). eauto 6.
      - split; [intros (m & l & H & _); discriminate|intros ((m & l & H & _) & _); discriminate]. }
    assert (Hout : forall p G, e_nodes G = filter (fun q => negb (peqb q p)) (e_nodes g) -> ~ In p (e_nodes G)) by (intros p G -> H; apply filter_In in H; rewrite peqb_refl in H; destruct H; discriminate).
    unfold remove_qubit in Hr. cbv zeta in Hr. destruct (e_idx g) as [ti|] eqn:Ei.
    + match type of Hr with context [match ?T with Ok p => _ | Err e => (g, Err e) end] => destruct T as [p|e] end; [|discriminate].
      destruct (has_n g p) eqn:Eh; cbn [negb] in Hr; [|discriminate]. apply pmem_In in Eh. destruct (dget peqb ti p); [|discriminate]. injection Hr as <-. exists p. split; [assumption|]. split; [apply Hout; reflexivity|apply Hgoal; reflexivity].
    + destruct r as [p| |]; [|discriminate|discriminate]. destruct (has_n g p) eqn:Eh; [|discriminate]. apply pmem_In in Eh. injection Hr as <-. exists p. split; [assumption|]. split; [apply Hout; reflexivity|apply Hgoal; reflexivity].
  - destruct (index_generator g) as (g1, r1) eqn:E. injection Hr as <- _. destruct (index_generator_inv' g g1 r1 HI E) as (_ & _ & (_ & _ & _ & S4) & _). intros k x. unfold micro. rewrite S4. reflexivity.
  - destruct (adj_generator g s) as (g1, r1) eqn:E. injection Hr as <- _. destruct (adj_generator_inv g s g1 r1 HI E) as (_ & (_ & _ & _ & S4) & _). intros k x. unfold micro. rewrite S4. reflexivity.
Qed.
Example C29_witness : exists g1 g2 g3, run 1 line3 OIndex = (g1, Ok tt) /\ run 1 g1 (OAdd QNone (NInts [0; 2]) false) = (g2, Ok tt) /\ run 1 g2 (ORemove (RInt 1)) = (g3, Ok tt) /\
  e_nodes g3 = [(2, 0, 0); (0, 0, 0); (3, 0, 0)] /\ idx g3 (3, 0, 0) = Some 3%nat /\ idx g3 (0, 0, 0) = Some 0%nat.
Proof. eexists _, _, _. repeat split; reflexivity. Qed.

(* ------------------------------------------------------------------ *)
(* C30 *)
Lemma nodupb_ok l : nodupb l = true <-> NoDup l.
Proof.
  induction l as [|p l IH]; simpl; [split; [constructor|reflexivity]|]. rewrite andb_true_iff, negb_true_iff, IH, pmem_false. split; [intros [H1 H2]; constructor; assumption|].
  intros H. inversion H; auto.
Qed.
Lemma missing_or_incl (l m : list point) : incl l m \/ exists p, In p l /\ ~ In p m.
Proof.
  induction l as [|p l IH]; [left; intros x []|]. destruct (pmem p m) eqn:E.
  - apply pmem_In in E. destruct IH as [IH|(q & H1 & H2)]; [left; intros x [<-|Hx]; auto|right; exists q; split; [right; assumption|assumption]].
  - right. exists p. split; [left; reflexivity|apply pmem_false; assumption].
Qed.
(* After every such history: if adj_generator returns a matrix, it is the adjacency matrix of the
   current graph ordered by index, cached or not.  It fails only if some number below the number of
   nodes is not an index, if the graph has no nodes, or, when indices have to be generated first, if
   some node of a macronode graph is in no macronode.  Missing for the full property: the first case
   does happen after removals (refuted below). *)
Theorem C30_adjacency_current_partial : forall U g0 g s g' r, 0 < U -> fresh g0 -> history U g0 g -> adj_generator g s = (g', r) ->
  same_graph g g' /\
  match r with
  | Ok a => indexed g' /\ current g' a
  | Err _ => (indexed g' /\ exists i, (i < length (e_nodes g))%nat /\ pnt g' i = None) \/ (s = true /\ e_nodes g = []) \/
      (unindexed g /\ e_macro g = true /\ match e_m2m g with None => True | Some m => exists p, In p (e_nodes g) /\ ~ In p (concat (map snd m)) end)
  end.
Proof.
  intros U g0 g s g' r HU Hf Hh E. destruct (history_inv U g0 g HU (fresh_inv g0 Hf) Hh) as [HI _].
  destruct (adj_generator_inv g s g' r HI E) as (HI' & HS & _ & Hok). split; [assumption|]. destruct r as [a|e].
  - destruct (Hok a eq_refl). split; [apply indexed_ok_indexed; assumption|assumption].
  - unfold adj_generator in E. destruct (e_adj g) as [a|]; [discriminate|].
    destruct (match e_pts g with None => _ | Some _ => _ end) as (g1, r1) eqn:E1. destruct r1 as [[]|e1].
    + assert (Hx : indexed_ok g1 /\ same_graph g g1).
      { destruct (e_pts g) as [tp|] eqn:Ep.
        - injection E1 as <-. split; [|repeat split]. destruct HI as (_ & [(_ & H)|H] & _); [congruence|assumption].
        - destruct (index_generator g) as (g2, r2) eqn:E2. destruct (index_generator_inv' g g2 r2 HI E2) as (A1 & A2 & A3 & A4). destruct r2 as [d|]; [|discriminate].
          injection E1 as <-. split; [apply (A2 d eq_refl)|assumption]. }
      destruct Hx as (Hx & S1 & _). destruct (bind _ _) as [a|e0] eqn:Eb; [discriminate|]. injection E as <- <-.
      destruct (mapR _ _) as [ps|e'] eqn:Em in Eb.
      * simpl in Eb. apply mapR_ok in Em. right. left. unfold to_array in Eb. destruct (s && _) eqn:Es.
        -- apply andb_true_iff in Es. destruct Es as [-> Es]. split; [reflexivity|]. apply Nat.eqb_eq in Es. pose proof (F2_length _ _ _ Em) as HL. rewrite seq_length, Es, S1 in HL.
           destruct (e_nodes g); [reflexivity|discriminate].
        -- exfalso. destruct Hx as (ti & tp & X1 & X2 & D1 & D2 & D3 & D4). rewrite X2 in Em.
           assert (Hsome : Forall2 (fun i p => In (i, p) tp) (seq 0 (length (e_nodes g1))) ps).
           { clear - Em. induction Em as [|i p l m Hip _ IH]; constructor; [|assumption]. destruct (dget Nat.eqb tp i) as [p'|] eqn:Ed; [|discriminate]. injection Hip as <-. apply (dget_In Nat.eqb nateqb_ok). assumption. }
           assert (Hin : forallb (has_n g1) ps = true).
           { apply forallb_forall. intros p Hp. apply pmem_In. apply D4. clear - Hsome Hp D3. induction Hsome as [|i q l m Hq _ IH]; [destruct Hp|]. destruct Hp as [->|Hp]; [|auto]. apply D3 in Hq. apply (in_map fst _ _ Hq). }
           assert (Hnd : NoDup ps).
           { pose proof (seq_NoDup (length (e_nodes g1)) 0) as Hseq. clear - Hsome D1 D3 Hseq. induction Hsome as [|i q l m Hq Hr IH]; [constructor|]. inversion Hseq as [|? ? Hni Hseq']; subst. constructor; [|auto].
             intros Hi. assert (exists j, In j l /\ In (j, q) tp) as (j & Hj & Hjq).
             { clear - Hr Hi. induction Hr as [|j y l m Hy _ IH]; [destruct Hi|]. destruct Hi as [->|Hi]; [exists j; split; [left; reflexivity|assumption]|]. destruct (IH Hi) as (j' & H1 & H2). exists j'. split; [right; assumption|assumption]. }
             apply D3 in Hq. apply D3 in Hjq. apply (In_dget peqb peqb_true _ _ _ D1) in Hq. apply (In_dget peqb peqb_true _ _ _ D1) in Hjq. assert (i = j) by congruence. subst. contradiction. }
           rewrite Hin, (proj2 (nodupb_ok ps) Hnd) in Eb. discriminate.
      * simpl in Eb. left. split; [apply indexed_ok_indexed; assumption|]. apply mapR_err in Em. destruct Em as (i & Hi & Ei). apply in_seq in Hi. rewrite S1 in Hi. exists i. split; [lia|].
        unfold pnt. destruct (e_pts g1); [|reflexivity]. destruct (dget Nat.eqb l i); [discriminate|reflexivity].
    + right. right. destruct (e_pts g) as [tp|] eqn:Ep; [discriminate|]. destruct (index_generator g) as (g2, r2) eqn:E2. destruct r2 as [d|e2]; [discriminate|].
      unfold index_generator in E2. destruct (e_idx g) as [ti|] eqn:Ei; [discriminate|]. split; [split; assumption|]. destruct (ind_dict g) as [d|e3] eqn:Ed; [discriminate|].
      unfold ind_dict in Ed. destruct (e_macro g); [|discriminate]. split; [reflexivity|]. cbn [negb] in Ed. destruct (e_m2m g) as [m|] eqn:Em; [|trivial]. cbv zeta in Ed.
      destruct HI as ((G1 & _ & G3) & _). rewrite Em in G3. destruct G3 as (M1 & M2 & M3). pose proof (macro_points_perm m M1) as HP.
      destruct (missing_or_incl (e_nodes g) (concat (map snd m))) as [Hin|Hex]; [|assumption]. exfalso. pose proof (NoDup_incl_length G1 Hin) as HL.
      rewrite <- (Permutation_length HP) in HL. match type of Ed with (if ?b then _ else _) = _ => destruct b eqn:Eb end; [|discriminate]. apply Nat.ltb_lt in Eb. lia.
Qed.
(* the full property fails: generate the indices, remove the first qubit, and adj_generator raises KeyError *)
Theorem C30_adjacency_refuted : exists g0 g g', fresh g0 /\ history 1 g0 g /\ adj_generator g true = (g', Err KeyError).
Proof.
  exists line3. eexists _, _. split; [apply line3_fresh|]. split.
  - eapply (HStep _ _ OIndex); [split; [exact I|]; exists (Ok tt); split; [exact eq_refl|left; reflexivity]|].
    eapply (HStep _ _ (ORemove (RTuple (0, 0, 0)))); [split; [exact I|]; exists (Ok tt); split; [exact eq_refl|left; reflexivity]|]. apply HNil.
  - reflexivity.
Qed.
Example C30_witness : exists g g', history 1 line3 g /\ length (e_nodes g) = 4%nat /\ adj_generator g false = (g', Ok [[0; 1; 0; 1]; [1; 0; -1; 0]; [0; -1; 0; 1]; [1; 0; 1; 0]]).
Proof.
  eexists _, _. split.
  - eapply (HStep _ _ (OAdj true)); [split; [exact I|]; exists (Ok tt); split; [exact eq_refl|left; reflexivity]|].
    eapply (HStep _ _ (OAdd QNone (NInts [0; 2]) false)); [split; [exact I|]; exists (Ok tt); split; [exact eq_refl|left; reflexivity]|]. apply HNil.
  - split; reflexivity.
Qed.

(* ------------------------------------------------------------------ *)
(* C31 *)
(* A failing add_qubit changes nothing if the failure is found before the node is added (position
   taken or of the wrong form, no macronodes).  Otherwise the only trace is the new isolated node
   (with its entries in the dictionaries); this happens only when neighbours are given as indices or as
   objects of an unsupported type, or when all indexed nodes had been removed. *)
Theorem C31_add_failure_partial : forall U g q n m g' e, 0 < U -> add_qubit U g q n m = (g', Err e) ->
  g' = g \/
  exists p, place U g q = Ok p /\ ~ In p (e_nodes g) /\ e_nodes g' = e_nodes g ++ [p] /\ e_edges g' = e_edges g /\ e_adj g' = e_adj g /\
    (n = NOther \/ (exists i l, n = NInts (i :: l)) \/ (e_idx g <> None /\ (e_pts g = Some [] \/ e_pts g = None))).
Proof.
  intros U g q n m g' e HU. unfold add_qubit. destruct (place U g q) as [p|] eqn:Ep; [|intros E; injection E as <- _; left; reflexivity].
  pose proof (place_new U g q p HU Ep) as Hp. destruct (m && _); [intros E; injection E as <- _; left; reflexivity|]. cbv zeta. rewrite add_n_new by assumption.
  destruct (update_attributes U _ p m) as (g2, r2) eqn:E2.
  assert (H2 : e_nodes g2 = e_nodes g ++ [p] /\ e_edges g2 = e_edges g /\ e_adj g2 = e_adj g /\ (r2 <> Ok tt -> e_idx g <> None /\ (e_pts g = Some [] \/ e_pts g = None))).
  { destruct p as [[x y] z]. unfold update_attributes in E2. cbv zeta in E2.
    match type of E2 with context [match e_idx ?G with _ => _ end] => assert (H1 : e_nodes G = e_nodes g ++ [(x, y, z)] /\ e_edges G = e_edges g /\ e_adj G = e_adj g /\ e_idx G = e_idx g /\ e_pts G = e_pts g); [|set (g1 := G) in *] end.
    { destruct m; [|repeat split]. cbn [e_m2m set_graph]. destruct (e_m2m g); repeat split. }
    destruct H1 as (A1 & A2 & A3 & A4 & A5). clearbody g1. rewrite A4, A5 in E2. destruct (e_idx g) as [ti|].
    - destruct (e_pts g) as [tp|].
      + destruct (map fst tp) as [|k ks] eqn:Ek.
        * injection E2 as <- <-. repeat (split; [assumption|]). intros _. split; [discriminate|]. left. destruct tp; [reflexivity|discriminate].
        * injection E2 as <- <-. repeat (split; [assumption|]). intros H. exfalso. apply H. reflexivity.
      + injection E2 as <- <-. repeat (split; [assumption|]). intros _. split; [discriminate|right; reflexivity].
    - injection E2 as <- <-. repeat (split; [assumption|]). intros H. exfalso. apply H. reflexivity. }
  destruct H2 as (N2 & Ed2 & A2 & X2). destruct r2 as [[]|e2].
  2:{ intros E. injection E as <- _. right. exists p. split; [reflexivity|]. split; [assumption|]. split; [assumption|]. split; [assumption|]. split; [assumption|]. right. right. apply X2. discriminate. }
  intros E. right. exists p. split; [reflexivity|]. split; [assumption|]. destruct n as [|[|i l]|[|t l]|]; cbn [update_neighbors] in E; try discriminate.
  - assert (H3 : e_nodes g' = e_nodes g2 /\ e_edges g' = e_edges g2 /\ e_adj g' = e_adj g2).
    { destruct (e_pts g2) as [tp|].
      - destruct (int_points g2 (i :: l)); [discriminate|]. injection E as <- _. auto.
      - pose proof (index_generator_graph g2) as HS. destruct (index_generator g2) as (g3, r3). cbn [fst] in HS. destruct HS as ((S1 & S2 & _) & S5).
        destruct r3 as [d|]; cbn [bind] in E; [|injection E as <- _; auto]. destruct (int_points g3 (i :: l)); [discriminate|]. injection E as <- _. auto. }
    destruct H3 as (-> & -> & ->). split; [assumption|]. split; [assumption|]. split; [assumption|]. right. left. eauto.
  - injection E as <- _. split; [assumption|]. split; [assumption|]. split; [assumption|]. left. reflexivity.
Qed.
(* the full property fails: an unknown neighbour index leaves the qubit in the graph *)
Theorem C31_add_failure_refuted : exists g0 q n g', fresh g0 /\ add_qubit 1 g0 q n false = (g', Err KeyError) /\ e_nodes g' <> e_nodes g0 /\ e_idx g' <> e_idx g0.
Proof.
  exists line3, (QTuple (5, 5, 5)), (NInts [7]). eexists. split; [apply line3_fresh|]. split; [reflexivity|]. split; discriminate.
Qed.
(* and a matrix cached before the failing call is returned although it has one row too few *)
Theorem C31_stale_matrix : exists g0 g1 g2 a, fresh g0 /\ adj_generator g0 true = (g1, Ok a) /\ add_qubit 1 g1 (QTuple (5, 5, 5)) (NInts [7]) false = (g2, Err KeyError) /\
  adj_generator g2 true = (g2, Ok a) /\ length (e_nodes g2) = 4%nat /\ length a = 3%nat.
Proof. exists line3. eexists _, _, _. split; [apply line3_fresh|]. repeat split; reflexivity. Qed.
