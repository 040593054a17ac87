(* MwpmLemon.v: model of the lemon backend, flamingpy/decoders/mwpm/lemon.py 25-42 and
   flamingpy/cpp/lemonpy.cpp 13-41, and its correctness. *)
From Verif Require Import Base Lattice RhgModel SurfaceModel StabGraphModel Paths Complex MwpmModel MwpmProofs MwpmInst.
Open Scope Z_scope.

(* nonedge=-(2**64) + 1, lemon.py 32 *)
Definition nonedge : Z := - 2 ^ 64 + 1.

(* nx.to_numpy_array(G_match, weight="inverse_weight", nonedge=...), lemon.py 32; nodes is
   list(G_match.nodes()).  Weights here are integers that are represented
   exactly; the conversion to float32 (lemonpy.cpp 49) is modelled in MwpmFloat.v. *)
Definition adjacency (mg : list medge) (nodes : list mnode) (i j : nat) : Z :=
  match find (same_match (nth i nodes (MStab 0)) (nth j nodes (MStab 0))) mg with
  | Some e => - me_w e
  | None => nonedge
  end.

(* MaxWeightedPerfectMatching on the complete graph with n nodes, lemonpy.cpp 15-38, seen as
   an oracle: the matched pairs, a perfect matching of maximum total weight. *)
Definition perfect (n : nat) (L : list (nat * nat)) : Prop := Permutation (endpoints L) (seq 0 n).
Definition lemon_best (A : nat -> nat -> Z) (n : nat) (L : list (nat * nat)) : Prop :=
  perfect n L /\ forall L', perfect n L' -> sumZ (fun ij => A (fst ij) (snd ij)) L' <= sumZ (fun ij => A (fst ij) (snd ij)) L.

(* min_weight_matching, lemon.py 35-41 *)
Definition lemon_matching (nodes : list mnode) (L : list (nat * nat)) : list (mnode * mnode) :=
  map (fun ij => (nth (fst ij) nodes (MStab 0), nth (snd ij) nodes (MStab 0))) L.

Lemma map_nth_seq' {A} (l : list A) d : map (fun i => nth i l d) (seq 0 (length l)) = l.
Proof.
  assert (G : forall k, map (fun i => nth (i - k) l d) (seq k (length l)) = l).
  { induction l as [|x l IH]; intros k; [reflexivity|]. simpl. rewrite Nat.sub_diag. f_equal.
    rewrite <- (IH (S k)) at 2. apply map_ext_in. intros i Hi. apply in_seq in Hi.
    replace (i - k)%nat with (S (i - S k)) by lia. reflexivity. }
  rewrite <- (G 0%nat) at 2. apply map_ext. intros i. rewrite Nat.sub_0_r. reflexivity.
Qed.

Lemma endpoints_map {A B} (f : A -> B) M : endpoints (map (fun ij => (f (fst ij), f (snd ij))) M) = map f (endpoints M).
Proof. unfold endpoints. induction M as [|[x y] M IH]; [reflexivity|]. simpl. rewrite IH. reflexivity. Qed.

Section Lemon.
  Variables (mg : list medge) (nodes : list mnode).
  Hypothesis Hnd : NoDup nodes.
  Hypothesis Hpos : forall e, In e mg -> 0 <= me_w e.
  Notation A := (adjacency mg nodes).
  Notation nd := (fun i => nth i nodes (MStab 0)).

  Definition idx (x : mnode) : nat :=
    match find (fun i => mneqb (nd i) x) (seq 0 (length nodes)) with Some i => i | None => 0%nat end.

  Lemma idx_spec x : In x nodes -> (idx x < length nodes)%nat /\ nd (idx x) = x.
  Proof.
    intros Hx. unfold idx. destruct (find (fun i => mneqb (nd i) x) (seq 0 (length nodes))) as [i|] eqn:F.
    - apply find_some in F. destruct F as [Hi He]. apply in_seq in Hi. split; [lia|].
      unfold mneqb in He. destruct (mnode_eq_dec (nd i) x); [assumption|discriminate].
    - exfalso. apply In_nth with (d := MStab 0) in Hx. destruct Hx as (i & Hi & Hx).
      assert (Hin : In i (seq 0 (length nodes))) by (apply in_seq; lia).
      apply (find_none _ _ F) in Hin. unfold mneqb in Hin. destruct (mnode_eq_dec (nd i) x); [discriminate|contradiction].
  Qed.
  Lemma idx_nd i : (i < length nodes)%nat -> idx (nd i) = i.
  Proof.
    intros Hi. destruct (idx_spec (nd i) (nth_In _ _ Hi)) as [H1 H2].
    apply (proj1 (NoDup_nth nodes (MStab 0)) Hnd); assumption.
  Qed.

  Lemma perfect_range L ij : perfect (length nodes) L -> In ij L -> (fst ij < length nodes)%nat /\ (snd ij < length nodes)%nat.
  Proof.
    intros HP Hin. assert (forall i, In i (endpoints L) -> (i < length nodes)%nat).
    { intros i Hi. apply (Permutation_in _ HP) in Hi. apply in_seq in Hi. lia. }
    split; apply H; unfold endpoints; apply in_flat_map; exists ij; simpl; auto.
  Qed.

  Lemma lemon_ends L : perfect (length nodes) L -> Permutation (endpoints (lemon_matching nodes L)) nodes.
  Proof.
    intros HP. unfold lemon_matching. rewrite (endpoints_map nd L).
    rewrite (Permutation_map nd HP), map_nth_seq'. reflexivity.
  Qed.

  Lemma back M : Permutation (endpoints M) nodes -> exists L, perfect (length nodes) L /\ lemon_matching nodes L = M.
  Proof.
    intros HP. exists (map (fun uv => (idx (fst uv), idx (snd uv))) M). split.
    - unfold perfect. rewrite (endpoints_map idx M), (Permutation_map idx HP).
      rewrite <- (map_nth_seq' nodes (MStab 0)) at 1. rewrite map_map.
      rewrite (map_ext_in _ (fun i => i)), map_id; [reflexivity|]. intros i Hi. apply in_seq in Hi. apply idx_nd. lia.
    - unfold lemon_matching. rewrite map_map. rewrite <- (map_id M) at 2. apply map_ext_in. intros [u v] Huv. simpl.
      assert (Hu : In u nodes) by (apply (Permutation_in _ HP); apply in_flat_map; exists (u, v); simpl; auto).
      assert (Hv : In v nodes) by (apply (Permutation_in _ HP); apply in_flat_map; exists (u, v); simpl; auto).
      rewrite (proj2 (idx_spec u Hu)), (proj2 (idx_spec v Hv)). reflexivity.
  Qed.

  Definition edge_ok (uv : mnode * mnode) : Prop := exists e, In e mg /\ same_match (fst uv) (snd uv) e = true.

  Lemma adj_edge i j : edge_ok (nd i, nd j) -> A i j = - edge_wt mg (nd i, nd j).
  Proof.
    intros (e & He & Hs). unfold adjacency, edge_wt. simpl in *.
    destruct (find (same_match (nd i) (nd j)) mg) eqn:F; [reflexivity|]. rewrite (find_none _ _ F e He) in Hs. discriminate.
  Qed.
  Lemma adj_nonpos i j : A i j <= 0.
  Proof.
    unfold adjacency. destruct (find (same_match (nd i) (nd j)) mg) as [e|] eqn:F.
    - apply find_some in F. specialize (Hpos e (proj1 F)). lia.
    - unfold nonedge. lia.
  Qed.

  Lemma sum_edges L : (forall ij, In ij L -> edge_ok (nd (fst ij), nd (snd ij))) ->
    sumZ (fun ij => A (fst ij) (snd ij)) L = - total_weight mg (lemon_matching nodes L).
  Proof.
    unfold total_weight, lemon_matching. induction L as [|[i j] L IH]; intros H; [reflexivity|]. cbn [map sumZ fold_right fst snd].
    pose proof (H (i, j) (or_introl eq_refl)) as H1. simpl in H1. rewrite (adj_edge i j H1).
    pose proof (IH (fun x Hx => H x (or_intror Hx))) as H2. unfold sumZ in *. lia.
  Qed.

  Lemma edge_ok_dec uv : {edge_ok uv} + {~ edge_ok uv}.
  Proof.
    destruct (existsb (same_match (fst uv) (snd uv)) mg) eqn:F.
    - left. apply existsb_exists in F. exact F.
    - right. intros H. apply existsb_exists in H. congruence.
  Qed.

  Lemma sum_nonedge L ij : In ij L -> ~ edge_ok (nd (fst ij), nd (snd ij)) -> sumZ (fun ij => A (fst ij) (snd ij)) L <= nonedge.
  Proof.
    intros Hin Hno. assert (Ha : A (fst ij) (snd ij) = nonedge).
    { unfold adjacency. destruct (find (same_match (nd (fst ij)) (nd (snd ij))) mg) as [e|] eqn:F; [|reflexivity].
      exfalso. apply Hno. apply find_some in F. exists e. assumption. }
    induction L as [|x L IH]; [destruct Hin|]. cbn [sumZ fold_right]. destruct Hin as [->|Hin].
    - rewrite Ha. assert (sumZ (fun ij => A (fst ij) (snd ij)) L <= 0).
      { clear - Hpos. induction L as [|y L IH]; [simpl; lia|]. cbn [sumZ fold_right].
        pose proof (adj_nonpos (fst y) (snd y)). unfold sumZ in *. lia. }
      unfold sumZ in *. lia.
    - specialize (IH Hin). pose proof (adj_nonpos (fst x) (snd x)). unfold sumZ in *. lia.
  Qed.

  Theorem lemon_ok M0 L :
    is_matching mg M0 -> Permutation (endpoints M0) nodes -> total_weight mg M0 < 2 ^ 64 - 1 ->
    lemon_best A (length nodes) L ->
    let M := lemon_matching nodes L in
    is_matching mg M /\ Permutation (endpoints M) nodes /\
    forall M', is_matching mg M' -> Permutation (endpoints M') nodes -> total_weight mg M <= total_weight mg M'.
  Proof.
    intros HM0 HP0 HW [HL Hmax] M.
    assert (HPM : Permutation (endpoints M) nodes) by (apply lemon_ends; assumption).
    assert (Hcmp : forall M', is_matching mg M' -> Permutation (endpoints M') nodes ->
      - total_weight mg M' <= sumZ (fun ij => A (fst ij) (snd ij)) L).
    { intros M' [_ HM'] HP'. destruct (back M' HP') as (L' & HL' & E'). rewrite <- E'.
      rewrite <- (sum_edges L'); [apply Hmax; assumption|]. intros ij Hij. apply HM'. rewrite <- E'.
      apply (in_map (fun ij => (nd (fst ij), nd (snd ij)))). assumption. }
    assert (Hall : forall ij, In ij L -> edge_ok (nd (fst ij), nd (snd ij))).
    { intros ij Hij. destruct (edge_ok_dec (nd (fst ij), nd (snd ij))) as [|Hno]; [assumption|]. exfalso.
      pose proof (sum_nonedge L ij Hij Hno). pose proof (Hcmp M0 HM0 HP0). unfold nonedge in *. lia. }
    split.
    - split; [apply (Permutation_NoDup (l := nodes)); [symmetry; assumption|assumption]|].
      intros uv Huv. apply in_map_iff in Huv. destruct Huv as (ij & <- & Hij). apply (Hall ij Hij).
    - split; [assumption|]. intros M' HM' HP'. pose proof (Hcmp M' HM' HP'). rewrite (sum_edges L Hall) in H. fold M in H. lia.
  Qed.

  (* a perfect matching of minimum weight is what the other backends are asked for *)
  Lemma perfect_is_best M : (forall e, In e mg -> In (me_u e) nodes /\ In (me_v e) nodes) ->
    is_matching mg M -> Permutation (endpoints M) nodes ->
    (forall M', is_matching mg M' -> Permutation (endpoints M') nodes -> total_weight mg M <= total_weight mg M') ->
    best_matching mg M.
  Proof.
    intros Hin HM HP Hmin. split; [assumption|].
    assert (Hincl : forall M', is_matching mg M' -> incl (endpoints M') nodes).
    { intros M' [_ HM'] x Hx. apply in_flat_map in Hx. destruct Hx as ([u v] & Huv & Hx).
      destruct (HM' _ Huv) as (e & He & Hs). apply same_match_iff' in Hs. destruct (Hin e He). simpl in *.
      destruct Hs as [[<- <-]|[<- <-]]; destruct Hx as [<-|[<-|[]]]; assumption. }
    assert (Hlen : (2 * length M)%nat = length nodes) by (rewrite <- endpoints_length; apply Permutation_length; assumption).
    split.
    - intros M' HM'. pose proof (NoDup_incl_length (proj1 HM') (Hincl M' HM')). rewrite endpoints_length in H. lia.
    - intros M' HM' El. apply Hmin; [assumption|]. apply NoDup_Permutation_bis; [apply HM'| |apply Hincl; assumption].
      rewrite endpoints_length. lia.
  Qed.
End Lemon.
