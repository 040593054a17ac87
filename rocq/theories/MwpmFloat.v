(* MwpmFloat.v: model of the lemon backend (flamingpy/decoders/mwpm/lemon.py 25-42 and
   flamingpy/cpp/lemonpy.cpp) with the conversion of the adjacency matrix to single precision,
   lemonpy.cpp 49 (py::array_t<float, forcecast>) and 17, 27 (EdgeMap<float>). *)
From Verif Require Import Base Lattice RhgModel SurfaceModel StabGraphModel Paths Complex MwpmModel MwpmProofs MwpmInst MwpmLemon.
Open Scope Z_scope.

(* Conversion of a number to float: a significand of 24 bits, to nearest, ties to even.  A weight
   is an integer number of units 2^-u; scaling by a power of two does not change the significand,
   so the conversion acts on the integer.  Overflow (from 2^128) and subnormal numbers (below
   2^-126) are not modelled. *)
Definition f32_abs (m : Z) : Z :=
  let k := Z.log2 m - 23 in
  if k <=? 0 then m
  else
    let q := m / 2 ^ k in
    let r := m mod 2 ^ k in
    if (r <? 2 ^ (k - 1)) || ((r =? 2 ^ (k - 1)) && Z.even q) then q * 2 ^ k else (q + 1) * 2 ^ k.
Definition f32 (x : Z) : Z := if x <? 0 then - f32_abs (- x) else f32_abs x.

(* list(G_match.nodes()), lemon.py 36: add_edge creates missing nodes, in the order of the calls
   (matching.py 195-196) *)
Definition graph_nodes (mg : list medge) : list mnode :=
  fold_left (fun ns e =>
      let ns := if mmem (me_u e) ns then ns else ns ++ [me_u e] in
      if mmem (me_v e) ns then ns else ns ++ [me_v e]) mg [].

(* the matrix passed to the C++ library: nx.to_numpy_array(G_match, weight="inverse_weight",
   nonedge=-(2**64) + 1), lemon.py 32, converted to float.  u: the weights are multiples of 2^-u. *)
Definition adjacency32 (u : nat) (mg : list medge) (nodes : list mnode) (i j : nat) : Z :=
  f32 (match find (same_match (nth i nodes (MStab 0)) (nth j nodes (MStab 0))) mg with
       | Some e => - me_w e
       | None => 2 ^ Z.of_nat u * nonedge
       end).

(* LemonMatchingGraph.min_weight_perfect_matching, matching.py 215-216 and lemon.py 25-42; lemon is
   the C++ function mwpm: matrix and number of nodes to matched pairs.  The result is a set. *)
Definition lemon_min_weight (u : nat) (lemon : (nat -> nat -> Z) -> nat -> list (nat * nat)) (mg : list medge) (M : list (mnode * mnode)) : Prop :=
  let nodes := graph_nodes mg in
  Permutation M (lemon_matching nodes (lemon (adjacency32 u mg nodes) (length nodes))).

(* the contract of the C++ library: a perfect matching of maximum weight of the complete graph, if
   the number of nodes is even.  (The library itself computes in single precision: further
   rounding inside it is not modelled.) *)
Definition lemon_contract (lemon : (nat -> nat -> Z) -> nat -> list (nat * nat)) : Prop :=
  forall A n, Nat.even n = true -> lemon_best A n (lemon A n).

(* ------------------------------------------------------------------ *)
(* rounding *)
Lemma f32_abs_small m : m < 2 ^ 24 -> f32_abs m = m.
Proof.
  intros H. unfold f32_abs. assert (Z.log2 m - 23 <= 0).
  { destruct (Z_le_gt_dec m 0) as [Hm|Hm]; [rewrite Z.log2_nonpos; lia|].
    assert (Z.log2 m < 24); [apply Z.log2_lt_pow2; lia|lia]. }
  rewrite (proj2 (Z.leb_le _ _) H0). reflexivity.
Qed.

Lemma f32_abs_err m : 0 <= m -> 2 ^ 24 * Z.abs (f32_abs m - m) <= m.
Proof.
  intros Hm. unfold f32_abs. destruct (Z.leb_spec (Z.log2 m - 23) 0) as [Hk|Hk]; [rewrite Z.sub_diag; simpl; lia|].
  set (k := Z.log2 m - 23) in *.
  assert (Hpos : 0 < m). { destruct (Z.eq_dec m 0) as [->|]; [simpl in *; lia|lia]. }
  assert (Hl : 2 ^ Z.log2 m <= m) by (apply Z.log2_spec; assumption).
  replace (Z.log2 m) with (23 + k) in Hl by (unfold k; lia). rewrite Z.pow_add_r in Hl by lia.
  assert (Hh : 2 ^ k = 2 * 2 ^ (k - 1)). { rewrite <- Z.pow_succ_r by lia. f_equal. lia. }
  assert (Hp : 0 < 2 ^ (k - 1)) by (apply Z.pow_pos_nonneg; lia).
  pose proof (Z.div_mod m (2 ^ k) ltac:(lia)) as Hd.
  pose proof (Z.mod_pos_bound m (2 ^ k) ltac:(lia)) as Hr.
  set (q := m / 2 ^ k) in *. set (r := m mod 2 ^ k) in *.
  assert (G : Z.abs ((if (r <? 2 ^ (k - 1)) || ((r =? 2 ^ (k - 1)) && Z.even q) then q * 2 ^ k else (q + 1) * 2 ^ k) - m) <= 2 ^ (k - 1)).
  { destruct (Z.ltb_spec r (2 ^ (k - 1))); cbn [orb]; [nia|].
    destruct (Z.eqb_spec r (2 ^ (k - 1))); cbn [andb]; [destruct (Z.even q)|]; nia. }
  rewrite Hh in Hl. change (2 ^ 24) with (2 ^ 23 * 2). nia.
Qed.
Lemma f32_abs_nonneg m : 0 <= m -> 0 <= f32_abs m.
Proof. intros H. pose proof (f32_abs_err m H). destruct (Z.lt_ge_cases (f32_abs m) 0); [|assumption]. lia. Qed.

Lemma f32_opp x : 0 <= x -> f32 (- x) = - f32_abs x.
Proof.
  intros H. unfold f32. destruct (Z.ltb_spec (- x) 0) as [K|K]; [rewrite Z.opp_involutive; reflexivity|].
  assert (x = 0) by lia. subst. reflexivity.
Qed.

(* the entry of a missing edge: -2^64 *)
Lemma f32_nonedge u : f32 (2 ^ Z.of_nat u * nonedge) = - 2 ^ (64 + Z.of_nat u).
Proof.
  unfold nonedge. replace (2 ^ Z.of_nat u * (- 2 ^ 64 + 1)) with (- (2 ^ Z.of_nat u * (2 ^ 64 - 1))) by ring.
  assert (Hu : 0 < 2 ^ Z.of_nat u) by (apply Z.pow_pos_nonneg; lia).
  rewrite f32_opp by lia. f_equal. unfold f32_abs.
  assert (Hl : Z.log2 (2 ^ Z.of_nat u * (2 ^ 64 - 1)) = 63 + Z.of_nat u).
  { apply Z.log2_unique; [lia|]. rewrite <- Z.add_succ_l, !Z.pow_add_r by lia. split; nia. }
  rewrite Hl. replace (63 + Z.of_nat u - 23) with (40 + Z.of_nat u) by lia.
  rewrite (proj2 (Z.leb_gt _ _)) by lia.
  assert (Hk : 2 ^ (40 + Z.of_nat u) = 2 ^ 40 * 2 ^ Z.of_nat u) by (rewrite Z.pow_add_r; lia).
  assert (Hq : 2 ^ Z.of_nat u * (2 ^ 64 - 1) / 2 ^ (40 + Z.of_nat u) = 2 ^ 24 - 1).
  { rewrite Hk, (Z.mul_comm (2 ^ 40)), Z.div_mul_cancel_l by lia. reflexivity. }
  assert (Hr : 2 ^ Z.of_nat u * (2 ^ 64 - 1) mod 2 ^ (40 + Z.of_nat u) = 2 ^ Z.of_nat u * (2 ^ 40 - 1)).
  { rewrite Hk, (Z.mul_comm (2 ^ 40)), Z.mul_mod_distr_l by lia. reflexivity. }
  rewrite Hq, Hr.
  assert (Hk1 : 2 ^ (40 + Z.of_nat u - 1) = 2 ^ 39 * 2 ^ Z.of_nat u).
  { replace (40 + Z.of_nat u - 1) with (39 + Z.of_nat u) by lia. rewrite Z.pow_add_r; lia. }
  rewrite Hk1. rewrite (proj2 (Z.ltb_ge _ _)) by nia. rewrite (proj2 (Z.eqb_neq _ _)) by nia. cbn [orb andb].
  rewrite Hk, Z.pow_add_r by lia. change (2 ^ 64) with (2 ^ 24 * 2 ^ 40). ring.
Qed.

(* ------------------------------------------------------------------ *)
(* matchings of the rounded matrix *)
Section Lemon32.
  Variables (u : nat) (mg : list medge) (nodes : list mnode).
  Hypothesis Hnd : NoDup nodes.
  Hypothesis Hpos : forall e, In e mg -> 0 <= me_w e.
  Notation A := (adjacency32 u mg nodes).
  Notation nd := (fun i => nth i nodes (MStab 0)).
  Notation edge_ok := (edge_ok mg).

  Lemma edge_wt_nonneg uv : 0 <= edge_wt mg uv.
  Proof. unfold edge_wt. destruct (find _ mg) as [e|] eqn:F; [|lia]. apply find_some in F. apply Hpos. tauto. Qed.
  Lemma total_nonneg M : 0 <= total_weight mg M.
  Proof. apply sumZ_nonneg. intros. apply edge_wt_nonneg. Qed.

  Lemma adj32_edge i j : edge_ok (nd i, nd j) -> A i j = - f32_abs (edge_wt mg (nd i, nd j)).
  Proof.
    intros (e & He & Hs). pose proof (edge_wt_nonneg (nd i, nd j)) as Hp. revert Hp. unfold adjacency32, edge_wt. cbn [fst snd] in *.
    destruct (find (same_match (nd i) (nd j)) mg) eqn:F; [|rewrite (find_none _ _ F e He) in Hs; discriminate].
    intros Hp. apply f32_opp. exact Hp.
  Qed.
  Lemma adj32_nonpos i j : A i j <= 0.
  Proof.
    unfold adjacency32. destruct (find (same_match (nd i) (nd j)) mg) as [e|] eqn:F.
    - apply find_some in F. specialize (Hpos e (proj1 F)). rewrite f32_opp by assumption. pose proof (f32_abs_nonneg _ Hpos). lia.
    - rewrite f32_nonedge. pose proof (Z.pow_nonneg 2 (64 + Z.of_nat u)). lia.
  Qed.

  (* on edges of the graph, the rounded total is within the relative error of the total *)
  Lemma sum32_edges L : (forall ij, In ij L -> edge_ok (nd (fst ij), nd (snd ij))) ->
    2 ^ 24 * Z.abs (- sumZ (fun ij => A (fst ij) (snd ij)) L - total_weight mg (lemon_matching nodes L)) <= total_weight mg (lemon_matching nodes L).
  Proof.
    unfold total_weight, lemon_matching. induction L as [|[i j] L IH]; intros H; [simpl; lia|]. cbn [map sumZ fold_right fst snd].
    pose proof (H (i, j) (or_introl eq_refl)) as H1. cbn [fst snd] in H1. rewrite (adj32_edge i j H1).
    pose proof (IH (fun x Hx => H x (or_intror Hx))) as H2. unfold sumZ in *.
    pose proof (f32_abs_err _ (edge_wt_nonneg (nd i, nd j))). lia.
  Qed.

  Lemma sum32_nonedge L ij : In ij L -> ~ edge_ok (nd (fst ij), nd (snd ij)) -> sumZ (fun ij => A (fst ij) (snd ij)) L <= - 2 ^ (64 + Z.of_nat u).
  Proof.
    intros Hin Hno. assert (Ha : A (fst ij) (snd ij) = - 2 ^ (64 + Z.of_nat u)).
    { unfold adjacency32. destruct (find (same_match (nd (fst ij)) (nd (snd ij))) mg) as [e|] eqn:F; [|apply f32_nonedge].
      exfalso. apply Hno. apply find_some in F. exists e. assumption. }
    induction L as [|x L IH]; [destruct Hin|]. cbn [sumZ fold_right]. destruct Hin as [->|Hin].
    - rewrite Ha. assert (sumZ (fun ij => A (fst ij) (snd ij)) L <= 0).
      { clear - Hpos. induction L as [|y L IH]; [simpl; lia|]. cbn [sumZ fold_right].
        pose proof (adj32_nonpos (fst y) (snd y)). unfold sumZ in *. lia. }
      unfold sumZ in *. lia.
    - specialize (IH Hin). pose proof (adj32_nonpos (fst x) (snd x)). unfold sumZ in *. lia.
  Qed.

  Theorem lemon32_ok M0 L :
    is_matching mg M0 -> Permutation (endpoints M0) nodes -> total_weight mg M0 <= 2 ^ (63 + Z.of_nat u) ->
    lemon_best A (length nodes) L ->
    let M := lemon_matching nodes L in
    is_matching mg M /\ Permutation (endpoints M) nodes /\
    forall M', is_matching mg M' -> Permutation (endpoints M') nodes -> (2 ^ 24 - 1) * total_weight mg M <= (2 ^ 24 + 1) * total_weight mg M'.
  Proof.
    intros HM0 HP0 HW [HL Hmax] M.
    assert (HPM : Permutation (endpoints M) nodes) by (apply lemon_ends; assumption).
    assert (Hcmp : forall M', is_matching mg M' -> Permutation (endpoints M') nodes ->
      - (2 ^ 24 + 1) * total_weight mg M' <= 2 ^ 24 * sumZ (fun ij => A (fst ij) (snd ij)) L).
    { intros M' [_ HM'] HP'. destruct (back nodes Hnd M' HP') as (L' & HL' & E').
      assert (H1 : forall ij, In ij L' -> edge_ok (nd (fst ij), nd (snd ij))).
      { intros ij Hij. apply HM'. rewrite <- E'. apply (in_map (fun ij => (nd (fst ij), nd (snd ij)))). assumption. }
      pose proof (sum32_edges L' H1) as H2. rewrite E' in H2. pose proof (Hmax L' HL') as H3. lia. }
    assert (Hall : forall ij, In ij L -> edge_ok (nd (fst ij), nd (snd ij))).
    { intros ij Hij. destruct (edge_ok_dec mg (nd (fst ij), nd (snd ij))) as [|Hno]; [assumption|]. exfalso.
      pose proof (sum32_nonedge L ij Hij Hno) as H1. pose proof (Hcmp M0 HM0 HP0) as H2.
      replace (64 + Z.of_nat u) with (Z.succ (63 + Z.of_nat u)) in H1 by lia. rewrite Z.pow_succ_r in H1 by lia.
      assert (0 < 2 ^ (63 + Z.of_nat u)) by (apply Z.pow_pos_nonneg; lia). nia. }
    split.
    - split; [apply (Permutation_NoDup (l := nodes)); [symmetry; assumption|assumption]|].
      intros uv Huv. apply in_map_iff in Huv. destruct Huv as (ij & <- & Hij). apply (Hall ij Hij).
    - split; [assumption|]. intros M' HM' HP'. pose proof (Hcmp M' HM' HP'). pose proof (sum32_edges L Hall) as H1. fold M in H1. lia.
  Qed.
End Lemon32.

(* ------------------------------------------------------------------ *)
(* the nodes of the matching graph *)
Definition add_node (ns : list mnode) (x : mnode) : list mnode := if mmem x ns then ns else ns ++ [x].
Lemma add_node_spec ns x : NoDup ns -> NoDup (add_node ns x) /\ forall y, In y (add_node ns x) <-> In y ns \/ y = x.
Proof.
  intros Hn. unfold add_node. destruct (mmem x ns) eqn:F.
  - assert (Hx : In x ns). { unfold mmem in F. apply existsb_exists in F. destruct F as (z & Hz & E). unfold mneqb in E. destruct (mnode_eq_dec x z); [subst; assumption|discriminate]. }
    split; [assumption|]. intros y. split; [auto|intros [H| ->]; assumption].
  - assert (Hx : ~ In x ns).
    { intros Hx. assert (mmem x ns = true); [|congruence]. unfold mmem. apply existsb_exists. exists x. split; [assumption|].
      unfold mneqb. destruct (mnode_eq_dec x x); congruence. }
    split.
    + apply NoDup_app_intro; [assumption|repeat constructor; intros []|]. intros y H1 [<-|[]]. contradiction.
    + intros y. rewrite in_app_iff. simpl. intuition.
Qed.
Lemma graph_nodes_spec mg : NoDup (graph_nodes mg) /\ forall x, In x (graph_nodes mg) <-> exists e, In e mg /\ (x = me_u e \/ x = me_v e).
Proof.
  assert (G : forall mg ns, NoDup ns -> let r := fold_left (fun ns e => add_node (add_node ns (me_u e)) (me_v e)) mg ns in
    NoDup r /\ forall x, In x r <-> In x ns \/ exists e, In e mg /\ (x = me_u e \/ x = me_v e)).
  { clear mg. induction mg as [|e mg IH]; intros ns Hn r.
    - split; [assumption|]. intros x. split; [auto|]. intros [H|(e & [] & _)]; assumption.
    - destruct (add_node_spec ns (me_u e) Hn) as [N1 I1]. destruct (add_node_spec _ (me_v e) N1) as [N2 I2].
      destruct (IH _ N2) as [N3 I3]. split; [exact N3|]. intros x. unfold r. cbn [fold_left]. rewrite I3, I2, I1. split.
      + intros [[[H|H]|H]|(e' & He & H)]; [auto|right; exists e; simpl; auto|right; exists e; simpl; auto|right; exists e'; simpl; auto].
      + intros [H|(e' & [<-|He] & H)]; [auto|destruct H; auto|right; exists e'; auto]. }
  destruct (G mg [] (NoDup_nil _)) as [N I]. split; [exact N|]. intros x. etransitivity; [apply I|]. split; [intros [[]|H]; exact H|auto].
Qed.

(* an instance of the contract: exhaustive search *)
Definition all_pairs (n : nat) : list (nat * nat) := list_prod (seq 0 n) (seq 0 n).
Definition perfects (n : nat) : list (list (nat * nat)) :=
  filter (fun L => nodupb Nat.eq_dec (endpoints L) && Nat.eqb (2 * length L) n) (words (all_pairs n) n).
Definition search_lemon (A : nat -> nat -> Z) (n : nat) : list (nat * nat) :=
  match best (fun L => - sumZ (fun ij => A (fst ij) (snd ij)) L) (perfects n) with Some L => L | None => [] end.

Lemma in_all_pairs n i j : In (i, j) (all_pairs n) <-> (i < n)%nat /\ (j < n)%nat.
Proof. unfold all_pairs. rewrite in_prod_iff, !in_seq. lia. Qed.
Lemma perfects_iff n L : In L (perfects n) <-> perfect n L.
Proof.
  unfold perfects, perfect. rewrite filter_In, andb_true_iff, nodupb_iff, Nat.eqb_eq. split.
  - intros (Hw & Hn & Hl). apply words_incl in Hw. apply NoDup_Permutation_bis.
    + assumption.
    + rewrite endpoints_length, seq_length. lia.
    + intros x Hx. unfold endpoints in Hx. apply in_flat_map in Hx. destruct Hx as ([i j] & Hij & Hx). apply Hw, in_all_pairs in Hij.
      apply in_seq. cbn [fst snd] in Hx. destruct Hx as [<-|[<-|[]]]; lia.
  - intros HP. assert (Hn : NoDup (endpoints L)) by (eapply Permutation_NoDup; [apply Permutation_sym; exact HP|apply seq_NoDup]).
    pose proof (Permutation_length HP) as Hl. rewrite endpoints_length, seq_length in Hl. split; [|auto].
    apply in_words; [|lia]. intros [i j] Hij. apply in_all_pairs.
    assert (G : forall x, In x (endpoints L) -> (x < n)%nat) by (intros x Hx; apply (Permutation_in _ HP), in_seq in Hx; lia).
    split; apply G; unfold endpoints; apply in_flat_map; exists (i, j); simpl; auto.
Qed.
Lemma perfect_ex n : Nat.even n = true -> exists L, perfect n L.
Proof.
  intros H. apply Nat.even_spec in H. destruct H as (m & ->).
  exists (map (fun i => (2 * i, 2 * i + 1)%nat) (seq 0 m)). unfold perfect.
  induction m as [|m IH]; [reflexivity|]. rewrite seq_S, map_app. unfold endpoints in *. rewrite flat_map_app.
  replace (2 * S m)%nat with (2 * m + 2)%nat by lia. rewrite seq_app. apply Permutation_app; [exact IH|]. simpl.
  replace (m + (m + 0) + 1)%nat with (S (m + (m + 0))) by lia. reflexivity.
Qed.
Lemma search_lemon_ok : lemon_contract search_lemon.
Proof.
  intros A n Hn. unfold search_lemon. destruct (best _ (perfects n)) as [L|] eqn:B.
  - apply best_some in B. destruct B as [B1 B2]. apply perfects_iff in B1. split; [assumption|].
    intros L' HL'. apply perfects_iff in HL'. specialize (B2 L' HL'). simpl in B2. lia.
  - apply best_none in B. destruct (perfect_ex n Hn) as (L & HL). apply perfects_iff in HL. rewrite B in HL. destruct HL.
Qed.
