(* PropsLcNamed.v: C69, the answers of is_lc_equivalent for stars, complete graphs, linear clusters and rings of every size. *)
From Coq Require Import String Reals Lra Permutation.
From Verif Require Import Base SimModel WeightModel GraphStateModel GraphStateSpec GraphStateProofs PropsGraphState LinModel LinSpec LinProofs LinNull LinLc PropsLin LcPivot LcGraphs LcGraphs2 LcNamedModel LcNamedSpec.
Open Scope nat_scope.

(* ---------- the order of the nodes ---------- *)
Lemma rinsert_perm p l : Permutation (p :: l) (rinsert p l).
Proof. induction l as [|q l IH]; cbn [rinsert]; [reflexivity|]. destruct (rltb p q); [reflexivity|]. rewrite <- IH. constructor. Qed.
Lemma rsorted_perm l : Permutation l (rsorted l).
Proof.
  unfold rsorted. assert (G : forall l acc, Permutation (l ++ acc) (fold_left (fun acc p => rinsert p acc) l acc)).
  { clear. induction l as [|p l IH]; intros acc; [reflexivity|]. cbn [fold_left app]. rewrite <- IH, <- rinsert_perm. apply Permutation_middle. }
  rewrite <- (app_nil_r l) at 1. apply G.
Qed.
Lemma adjacency_length g : List.length (adjacency g) = nodes g.
Proof. unfold adjacency. rewrite map_length. symmetry. apply Permutation_length, rsorted_perm. Qed.
Lemma adjacency_ent g i j : i < nodes g -> j < nodes g ->
  ent (adjacency g) i j = true <-> adjacent g (nth i (rsorted (rg_nodes g)) (0, 0, 0)%R) (nth j (rsorted (rg_nodes g)) (0, 0, 0)%R).
Proof.
  intros Hi Hj. assert (L : List.length (rsorted (rg_nodes g)) = nodes g) by (symmetry; apply Permutation_length, rsorted_perm).
  unfold ent, adjacency. set (l := rsorted (rg_nodes g)) in *. rewrite (nth_indep _ [] (map (fun q => if in_dec pair_eq_dec ((0, 0, 0)%R, q) (rg_edges g) then true else if in_dec pair_eq_dec (q, (0, 0, 0)%R) (rg_edges g) then true else false) l)) by (rewrite map_length; lia).
  rewrite (map_nth (fun p => map (fun q => if in_dec pair_eq_dec (p, q) (rg_edges g) then true else if in_dec pair_eq_dec (q, p) (rg_edges g) then true else false) l)).
  set (p := nth i l (0, 0, 0)%R). rewrite (nth_indep _ false (if in_dec pair_eq_dec (p, (0, 0, 0)%R) (rg_edges g) then true else if in_dec pair_eq_dec ((0, 0, 0)%R, p) (rg_edges g) then true else false)) by (rewrite map_length; lia).
  rewrite (map_nth (fun q => if in_dec pair_eq_dec (p, q) (rg_edges g) then true else if in_dec pair_eq_dec (q, p) (rg_edges g) then true else false)).
  set (q := nth j l (0, 0, 0)%R). unfold adjacent. destruct (in_dec pair_eq_dec (p, q) (rg_edges g)) as [I|I]; [split; auto|]. destruct (in_dec pair_eq_dec (q, p) (rg_edges g)) as [I'|I']; [split; auto|].
  split; [discriminate|]. intros [H|H]; contradiction.
Qed.

(* the adjacency matrix of a graph that represents n f edge, up to the order of the nodes *)
Lemma labelled g n f edge : represents g n f edge -> (forall i j, edge i j -> edge j i) -> (forall i, ~ edge i i) ->
  Z.of_nat (nodes g) = n /\ graph_matrix (nodes g) (adjacency g) /\
  exists lab : nat -> Z, (forall i, i < nodes g -> (0 <= lab i < n)%Z) /\ (forall i j, i < nodes g -> j < nodes g -> lab i = lab j -> i = j) /\
    (forall z, (0 <= z < n)%Z -> exists i, i < nodes g /\ lab i = z) /\ (forall i j, i < nodes g -> j < nodes g -> ent (adjacency g) i j = true <-> edge (lab i) (lab j)).
Proof.
  intros (ND & Hlen & Hnodes & Hinj & Hadj & _ & _) Hsym Hirr. split; [exact Hlen|]. set (l := rsorted (rg_nodes g)).
  assert (P : Permutation (rg_nodes g) l) by apply rsorted_perm. assert (L : List.length l = nodes g) by (symmetry; apply Permutation_length, P).
  assert (NDl : NoDup l) by (apply (Permutation_NoDup P), ND).
  assert (Hl : forall i, i < nodes g -> exists z, (0 <= z < n)%Z /\ f z = nth i l (0, 0, 0)%R).
  { intros i Hi. apply Hnodes. apply (Permutation_in _ (Permutation_sym P)). apply nth_In. lia. }
  assert (Hlab : exists lab : nat -> Z, forall i, i < nodes g -> (0 <= lab i < n)%Z /\ f (lab i) = nth i l (0, 0, 0)%R).
  { assert (Q : forall m, m <= nodes g -> exists lab : nat -> Z, forall i, i < m -> (0 <= lab i < n)%Z /\ f (lab i) = nth i l (0, 0, 0)%R).
    { induction m as [|m IH]; intros Hm; [exists (fun _ => 0%Z); intros; lia|]. destruct (IH ltac:(lia)) as (lab & Hlab). destruct (Hl m ltac:(lia)) as (z & Hz & Ez).
      exists (fun i => if i =? m then z else lab i). intros i Hi. destruct (Nat.eqb_spec i m) as [->|Hne]; [split; assumption|apply Hlab; lia]. }
    apply (Q (nodes g)). lia. }
  destruct Hlab as (lab & Hlab).
  assert (He : forall i j, i < nodes g -> j < nodes g -> ent (adjacency g) i j = true <-> edge (lab i) (lab j)).
  { intros i j Hi Hj. rewrite (adjacency_ent g i j Hi Hj). fold l. destruct (Hlab i Hi) as [Zi Ei]. destruct (Hlab j Hj) as [Zj Ej]. rewrite <- Ei, <- Ej, Hadj. split.
    - intros (a & b & Ha & Hb & E & Ea & Eb). apply Hinj in Ea, Eb; try assumption. subst. exact E.
    - intros E. exists (lab i), (lab j). auto. }
  split.
  - split; [apply adjacency_length|]. split; [|split].
    + intros r Hr. unfold adjacency in Hr. apply in_map_iff in Hr. destruct Hr as (p & <- & _). rewrite map_length. exact L.
    + intros i j Hi Hj. apply Bool.eq_true_iff_eq. rewrite !He by assumption. split; apply Hsym.
    + intros i Hi. apply not_true_iff_false. rewrite He by assumption. apply Hirr.
  - exists lab. split; [intros i Hi; apply Hlab, Hi|]. split; [|split; [|exact He]].
    + intros i j Hi Hj E. destruct (Hlab i Hi) as [_ Ei]. destruct (Hlab j Hj) as [_ Ej]. rewrite E in Ei. rewrite Ei in Ej. apply (NoDup_nth l (0, 0, 0)%R); [exact NDl|lia|lia|congruence].
    + intros z Hz. assert (I : In (f z) l) by (apply (Permutation_in _ P), Hnodes; eauto). destruct (In_nth l (f z) (0, 0, 0)%R I) as (i & Hi & Ei). exists i. split; [lia|].
      destruct (Hlab i ltac:(lia)) as [Zi Fi]. apply Hinj; [exact Zi|exact Hz|congruence].
Qed.

(* ---------- answers ---------- *)
Lemma answer_yes g h : nodes g = nodes h -> graph_matrix (nodes g) (adjacency g) -> graph_matrix (nodes h) (adjacency h) ->
  (forall form, form <> FOther -> exists c, are_lc_equivalent (adjacency g) (adjacency h) form = Ok (true, Some c)) -> says_equivalent g h.
Proof.
  intros E HG HH Hyes. rewrite <- E in HH. destruct (Hyes FGlobal ltac:(discriminate)) as (c & Ec). pose proof (C26_lc_sound _ _ _ FGlobal _ _ HG HH Ec) as S. destruct c as [Q|m]; [destruct S as [S _]; discriminate|].
  destruct S as (_ & Q & HQ & HM & ET & HA). exists Q, m. auto.
Qed.

(* small matrices *)
Lemma matrix_2 (G : bmat) : graph_matrix 2 G -> ent G 0 1 = true -> G = [[false; true]; [true; false]].
Proof.
  intros (L & W & HS & HD) E. destruct G as [|r [|r' [|]]]; try discriminate. pose proof (W r (or_introl eq_refl)) as W1. pose proof (W r' (or_intror (or_introl eq_refl))) as W2.
  destruct r as [|a [|b [|]]]; try discriminate. destruct r' as [|a' [|b' [|]]]; try discriminate. pose proof (HS 0 1 ltac:(lia) ltac:(lia)) as E1. pose proof (HD 0 ltac:(lia)) as E2. pose proof (HD 1 ltac:(lia)) as E3.
  unfold ent in *. cbn in *. subst. reflexivity.
Qed.
Lemma matrix_1 (G : bmat) : graph_matrix 1 G -> G = [[false]].
Proof.
  intros (L & W & _ & HD). destruct G as [|r [|]]; try discriminate. pose proof (W r (or_introl eq_refl)) as W1. destruct r as [|a [|]]; try discriminate. pose proof (HD 0 ltac:(lia)) as E2. unfold ent in E2. cbn in E2. subst. reflexivity.
Qed.
Lemma small_yes g h : nodes g = nodes h -> graph_matrix (nodes g) (adjacency g) -> graph_matrix (nodes h) (adjacency h) ->
  nodes g = 1 \/ (nodes g = 2 /\ ent (adjacency g) 0 1 = true /\ ent (adjacency h) 0 1 = true) -> says_equivalent g h.
Proof.
  intros E HG HH Hs. apply answer_yes; try assumption. intros form Hform. rewrite <- E in HH. destruct Hs as [Es|(Es & E1 & E2)]; rewrite Es in HG, HH.
  - rewrite (matrix_1 _ HG), (matrix_1 _ HH). destruct form; [eexists; vm_compute; reflexivity|eexists; vm_compute; reflexivity|congruence].
  - rewrite (matrix_2 _ HG E1), (matrix_2 _ HH E2). destruct form; [eexists; vm_compute; reflexivity|eexists; vm_compute; reflexivity|congruence].
Qed.

(* ---------- the matrices of the named graphs ---------- *)
Lemma star_labelled g n f : represents g n f star_edge -> Z.of_nat (nodes g) = n /\ graph_matrix (nodes g) (adjacency g) /\ ((1 <= n)%Z -> exists c, is_star (nodes g) c (adjacency g)).
Proof.
  intros R. destruct (labelled g n f star_edge R) as (Hn & HM & lab & Hr & Hi & Hs & He); [unfold star_edge; lia|unfold star_edge; lia|]. split; [exact Hn|]. split; [exact HM|]. intros H1.
  destruct (Hs 0%Z ltac:(lia)) as (c & Hc & Ec). exists c. split; [exact Hc|]. intros i j Hii Hjj. apply Bool.eq_true_iff_eq. rewrite (He i j Hii Hjj).
  assert (Q : forall i, i < nodes g -> (lab i = 0%Z <-> i = c)) by (intros k Hk; split; [intros E; apply Hi; [exact Hk|exact Hc|congruence]|intros ->; exact Ec]).
  pose proof (Q i Hii) as Qi. pose proof (Q j Hjj) as Qj. unfold star_edge. destruct (Nat.eqb_spec i c) as [E1|E1]; destruct (Nat.eqb_spec j c) as [E2|E2]; cbn [xorb]; (split; [|discriminate || reflexivity || idtac]); try (intros _; reflexivity).
  - intros [[_ H]|[_ H]]; [apply Qj in E2; contradiction|apply Qi in E1; contradiction].
  - intros _. left. split; [apply Qi, E1|intros H; apply E2, Qj, H].
  - intros _. right. split; [apply Qj, E2|intros H; apply E1, Qi, H].
  - intros [[H _]|[H _]]; [apply Qi in H; contradiction|apply Qj in H; contradiction].
Qed.
Lemma complete_labelled g n f : represents g n f complete_edge -> Z.of_nat (nodes g) = n /\ graph_matrix (nodes g) (adjacency g) /\ is_complete (nodes g) (adjacency g).
Proof.
  intros R. destruct (labelled g n f complete_edge R) as (Hn & HM & lab & Hr & Hi & Hs & He); [unfold complete_edge; auto|unfold complete_edge; auto|]. split; [exact Hn|]. split; [exact HM|].
  intros i j Hii Hjj. apply Bool.eq_true_iff_eq. rewrite (He i j Hii Hjj). unfold complete_edge. rewrite negb_true_iff, Nat.eqb_neq. split; intros H E; apply H; [congruence|apply Hi; assumption].
Qed.

(* star_graph(n) and complete_graph(n) are found equivalent, in both directions, for every n *)
Theorem C69_star_complete : forall v n, is_int v n -> (1 <= n <= 444288)%Z ->
  exists g h, star_graph v = Ok g /\ complete_graph v = Ok h /\ says_equivalent g h /\ says_equivalent h g /\ says_equivalent h h.
Proof.
  intros v n Hv Hn. destruct (C45_star_graph v n Hv ltac:(lia)) as (g & f & Eg & Rg). destruct (C45_complete_graph_partial v n Hv Hn) as (h & f' & Eh & Rh). exists g, h. split; [exact Eg|]. split; [exact Eh|].
  destruct (star_labelled g n f Rg) as (Ng & Mg & Sg). destruct (complete_labelled h n f' Rh) as (Nh & Mh & Kh). destruct (Sg ltac:(lia)) as (c & Sc). clear Sg. assert (E : nodes g = nodes h) by lia.
  destruct (le_lt_dec 3 (nodes g)) as [L|L].
  - assert (Mh' := Mh). assert (Kh' := Kh). rewrite <- E in Mh', Kh'. split; [|split]; (apply answer_yes; [congruence|assumption|assumption|]); intros form Hform.
    + apply (star_to_complete (nodes g) c); assumption.
    + apply (complete_to_star (nodes g) c); assumption.
    + apply (complete_self (nodes h)); [lia|assumption..].
  - assert (Hs : nodes g = 1 \/ (nodes g = 2 /\ ent (adjacency g) 0 1 = true /\ ent (adjacency h) 0 1 = true)).
    { assert (C : nodes g = 1 \/ nodes g = 2) by lia. destruct C as [C|C]; [left; exact C|right]. split; [exact C|]. destruct Sc as [Hc Sc]. split; [rewrite Sc by lia|rewrite Kh by lia; reflexivity].
      assert (Q : c = 0 \/ c = 1) by lia. destruct Q as [-> | -> ]; reflexivity. }
    split; [|split]; apply small_yes; try assumption; try congruence.
    + destruct Hs as [Hs|(H1 & H2 & H3)]; [left; lia|right; rewrite <- E; auto].
    + destruct Hs as [Hs|(H1 & H2 & H3)]; [left; lia|right; rewrite <- E; auto].
Qed.
Print Assumptions C69_star_complete.

(* a connected bipartite graph on at least two qubits is found equivalent to itself, whatever the order of its nodes *)
Theorem C69_bipartite_self : forall n G form, 2 <= n -> graph_matrix n G -> connected n G -> bipartite n G -> form <> FOther ->
  exists c, are_lc_equivalent G G form = Ok (true, Some c).
Proof. intros n G form H2 HG HC HB Hf. apply (bipartite_self n G ltac:(lia) HG form H2 HC HB Hf). Qed.
Print Assumptions C69_bipartite_self.

(* ---------- walks on the labels ---------- *)
Inductive zwalk (n : Z) (edge : Z -> Z -> Prop) : nat -> Z -> Z -> Prop :=
| zwalk_0 a : (0 <= a < n)%Z -> zwalk n edge 0 a a
| zwalk_S l a b c : zwalk n edge l a b -> (0 <= c < n)%Z -> edge b c -> zwalk n edge (S l) a c.
Lemma zwalk_app n edge l a b : zwalk n edge l a b -> forall l' c, zwalk n edge l' b c -> zwalk n edge (l' + l) a c.
Proof. intros H l' c H'. induction H' as [b Hb|l' b c d H' IH Hd E]; [exact H|]. cbn [Nat.add]. apply (zwalk_S n edge _ a c d); [apply IH, H|exact Hd|exact E]. Qed.

Section Walks.
  Variable g : rgraph. Variable n : Z. Variable edge : Z -> Z -> Prop. Variable lab : nat -> Z.
  Hypothesis Hr : forall i, i < nodes g -> (0 <= lab i < n)%Z.
  Hypothesis Hi : forall i j, i < nodes g -> j < nodes g -> lab i = lab j -> i = j.
  Hypothesis Hs : forall z, (0 <= z < n)%Z -> exists i, i < nodes g /\ lab i = z.
  Hypothesis He : forall i j, i < nodes g -> j < nodes g -> ent (adjacency g) i j = true <-> edge (lab i) (lab j).
  Lemma lift l a b : zwalk n edge l a b -> forall i, i < nodes g -> lab i = a -> exists j, j < nodes g /\ lab j = b /\ walk (nodes g) (adjacency g) l i j.
  Proof.
    intros W. induction W as [a Ha|l a b c W IH Hc E]; intros i Hin Ei; [exists i; repeat split; [exact Hin|exact Ei|constructor; exact Hin]|].
    destruct (IH i Hin Ei) as (j & Hj & Ej & Wj). destruct (Hs c Hc) as (k & Hk & Ek). exists k. split; [exact Hk|]. split; [exact Ek|]. apply (walk_S _ _ l i j k); [exact Wj|exact Hk|]. apply He; [exact Hj|exact Hk|congruence].
  Qed.
  Lemma lift_to l i j : i < nodes g -> j < nodes g -> zwalk n edge l (lab i) (lab j) -> walk (nodes g) (adjacency g) l i j.
  Proof. intros Hin Hjn W. destruct (lift l _ _ W i Hin eq_refl) as (k & Hk & Ek & Wk). rewrite (Hi k j Hk Hjn Ek) in Wk. exact Wk. Qed.
  Lemma lift_connected : (forall a b, (0 <= a < n)%Z -> (0 <= b < n)%Z -> exists l, zwalk n edge l a b) -> connected (nodes g) (adjacency g).
  Proof. intros HC i j Hin Hjn. destruct (HC (lab i) (lab j) (Hr i Hin) (Hr j Hjn)) as (l & W). exists l. apply lift_to; assumption. Qed.
  Lemma lift_bipartite (colour : Z -> bool) : (forall a b, (0 <= a < n)%Z -> (0 <= b < n)%Z -> edge a b -> colour a <> colour b) -> bipartite (nodes g) (adjacency g).
  Proof. intros HB. exists (fun i => colour (lab i)). intros i j Hin Hjn E. apply HB; [apply Hr, Hin|apply Hr, Hjn|apply He; assumption]. Qed.
End Walks.

Lemma bipartite_yes g n f edge (colour : Z -> bool) : represents g n f edge -> (2 <= n)%Z -> (forall i j, edge i j -> edge j i) -> (forall i, ~ edge i i) ->
  (forall a b, (0 <= a < n)%Z -> (0 <= b < n)%Z -> exists l, zwalk n edge l a b) -> (forall a b, (0 <= a < n)%Z -> (0 <= b < n)%Z -> edge a b -> colour a <> colour b) -> says_equivalent g g.
Proof.
  intros R H2 Hsym Hirr HC HB. destruct (labelled g n f edge R Hsym Hirr) as (Hn & HM & lab & Hr & Hi & Hs & He). apply answer_yes; [reflexivity|exact HM|exact HM|]. intros form Hform.
  apply C69_bipartite_self with (n := nodes g); [lia|exact HM| | |exact Hform].
  - apply (lift_connected g n edge lab Hr Hi Hs He HC).
  - apply (lift_bipartite g n edge lab Hr He colour HB).
Qed.

Lemma path_walk n : forall k a, (0 <= a)%Z -> (a + Z.of_nat k < n)%Z -> zwalk n path_edge k a (a + Z.of_nat k).
Proof.
  induction k as [|k IH]; intros a Ha Hk; [replace (a + Z.of_nat 0)%Z with a by lia; constructor; lia|]. apply (zwalk_S n path_edge k a (a + Z.of_nat k)); [apply IH; lia|lia|unfold path_edge; lia].
Qed.
Lemma path_back n : forall k a, (a < n)%Z -> (0 <= a - Z.of_nat k)%Z -> zwalk n path_edge k a (a - Z.of_nat k).
Proof.
  induction k as [|k IH]; intros a Ha Hk; [replace (a - Z.of_nat 0)%Z with a by lia; constructor; lia|]. apply (zwalk_S n path_edge k a (a - Z.of_nat k)); [apply IH; lia|lia|unfold path_edge; lia].
Qed.
Lemma path_connected n a b : (0 <= a < n)%Z -> (0 <= b < n)%Z -> exists l, zwalk n path_edge l a b.
Proof.
  intros Ha Hb. destruct (Z.le_ge_cases a b) as [L|L].
  - exists (Z.to_nat (b - a)). replace b with (a + Z.of_nat (Z.to_nat (b - a)))%Z at 2 by lia. apply path_walk; lia.
  - exists (Z.to_nat (a - b)). replace b with (a - Z.of_nat (Z.to_nat (a - b)))%Z at 2 by lia. apply path_back; lia.
Qed.
Lemma star_connected n a b : (0 <= a < n)%Z -> (0 <= b < n)%Z -> exists l, zwalk n star_edge l a b.
Proof.
  intros Ha Hb. assert (W : forall a b, (0 <= a < n)%Z -> (0 <= b < n)%Z -> star_edge a b -> zwalk n star_edge 1 a b) by (clear; intros a b Ha Hb E; apply (zwalk_S n star_edge 0 a a b); [constructor; exact Ha|exact Hb|exact E]).
  destruct (Z.eq_dec a b) as [->|N]; [exists 0; constructor; exact Hb|]. destruct (Z.eq_dec a 0) as [->|Na]; [exists 1; apply W; [lia|lia|unfold star_edge; lia]|].
  destruct (Z.eq_dec b 0) as [->|Nb]; [exists 1; apply W; [lia|lia|unfold star_edge; lia]|]. exists (1 + 1). apply (zwalk_app n star_edge 1 a 0%Z); apply W; unfold star_edge; lia.
Qed.
Lemma ring_edge_iff n i j : (3 <= n)%Z -> (0 <= i < n)%Z -> (0 <= j < n)%Z -> ring_edge n i j <-> (j = i + 1 \/ i = j + 1 \/ (i = 0 /\ j = n - 1) \/ (j = 0 /\ i = n - 1))%Z.
Proof.
  intros Hn Hi Hj. unfold ring_edge. assert (S : forall k, (0 <= k < n)%Z -> ((k + 1) mod n = if k =? n - 1 then 0 else k + 1)%Z).
  { intros k Hk. destruct (Z.eqb_spec k (n - 1)) as [->|Hne]; [replace (n - 1 + 1)%Z with n by lia; apply Z.mod_same; lia|apply Z.mod_small; lia]. }
  rewrite !S by assumption. destruct (Z.eqb_spec i (n - 1)); destruct (Z.eqb_spec j (n - 1)); lia.
Qed.
Lemma ring_walk n : (3 <= n)%Z -> forall k a, (0 <= a < n)%Z -> zwalk n (ring_edge n) k a ((a + Z.of_nat k) mod n).
Proof.
  intros Hn. induction k as [|k IH]; intros a Ha; [rewrite Z.add_0_r, Z.mod_small by exact Ha; constructor; exact Ha|].
  pose proof (Z.mod_pos_bound (a + Z.of_nat k) n ltac:(lia)) as B. apply (zwalk_S n (ring_edge n) k a ((a + Z.of_nat k) mod n)); [apply IH, Ha|apply Z.mod_pos_bound; lia|].
  assert (E : ((a + Z.of_nat (S k)) mod n = ((a + Z.of_nat k) mod n + 1) mod n)%Z) by (rewrite Zplus_mod_idemp_l; f_equal; lia). rewrite E. unfold ring_edge. split; [|left; reflexivity].
  set (b := ((a + Z.of_nat k) mod n)%Z) in *. destruct (Z.eq_dec b (n - 1)) as [->|Nb]; [replace (n - 1 + 1)%Z with n by lia; rewrite Z.mod_same by lia; lia|rewrite Z.mod_small by lia; lia].
Qed.
Lemma ring_steps n a b : (3 <= n)%Z -> (0 <= a < n)%Z -> (0 <= b < n)%Z -> zwalk n (ring_edge n) (Z.to_nat (b - a + n)) a b.
Proof.
  intros Hn Ha Hb. pose proof (ring_walk n Hn (Z.to_nat (b - a + n)) a Ha) as W. replace ((a + Z.of_nat (Z.to_nat (b - a + n))) mod n)%Z with b in W; [exact W|].
  rewrite Z2Nat.id by lia. replace (a + (b - a + n))%Z with (b + 1 * n)%Z by lia. rewrite Z.mod_add, Z.mod_small by lia. reflexivity.
Qed.
Lemma ring_sym n i j : ring_edge n i j -> ring_edge n j i.
Proof. unfold ring_edge. intros [H [H1|H1]]; split; auto. Qed.
Lemma ring_irr n i : ~ ring_edge n i i.
Proof. unfold ring_edge. tauto. Qed.

(* linear clusters, stars and rings of even length are found equivalent to themselves *)
Theorem C69_self : forall v n, is_int v n -> (1 <= n)%Z ->
  (exists g, linear_cluster v = Ok g /\ says_equivalent g g) /\ (exists g, star_graph v = Ok g /\ says_equivalent g g) /\
  ((n <= 444288)%Z -> Z.even n = true -> exists g, ring_graph v = Ok g /\ says_equivalent g g).
Proof.
  intros v n Hv Hn. split; [|split].
  - destruct (C45_linear_cluster v n Hv Hn) as (g & Eg & R). exists g. split; [exact Eg|]. destruct (Z.eq_dec n 1) as [->|N1].
    + destruct (labelled g 1 _ path_edge R) as (Hm & HM & _); [unfold path_edge; lia|unfold path_edge; lia|]. apply small_yes; try assumption; [reflexivity|left; lia].
    + apply (bipartite_yes g n _ path_edge Z.odd R); [lia|unfold path_edge; lia|unfold path_edge; lia|apply path_connected|]. intros a b _ _ [-> | ->]; rewrite Z.add_1_r, Z.odd_succ, <- Z.negb_odd; [destruct (Z.odd a)|destruct (Z.odd b)]; discriminate.
  - destruct (C45_star_graph v n Hv Hn) as (g & f & Eg & R). exists g. split; [exact Eg|]. destruct (Z.eq_dec n 1) as [->|N1].
    + destruct (labelled g 1 _ star_edge R) as (Hm & HM & _); [unfold star_edge; lia|unfold star_edge; lia|]. apply small_yes; try assumption; [reflexivity|left; lia].
    + apply (bipartite_yes g n _ star_edge (fun z => (z =? 0)%Z) R); [lia|unfold star_edge; lia|unfold star_edge; lia|apply star_connected|]. intros a b _ _ E. unfold star_edge in E. destruct (Z.eqb_spec a 0), (Z.eqb_spec b 0); congruence || lia.
  - intros Hu Hev. destruct (C45_ring_graph_partial v n Hv ltac:(lia)) as (g & f & Eg & R). exists g. split; [exact Eg|]. assert (N1 : n <> 1%Z) by (intros ->; discriminate). destruct (Z.eq_dec n 2) as [->|N2].
    + destruct (labelled g 2 _ (ring_edge 2) R (ring_sym 2) (ring_irr 2)) as (Hm & HM & lab & Hr & Hi & Hs & He). apply small_yes; try assumption; [reflexivity|right]. split; [lia|].
      assert (E : ent (adjacency g) 0 1 = true); [|auto]. apply He; [lia|lia|]. pose proof (Hr 0 ltac:(lia)) as A. pose proof (Hr 1 ltac:(lia)) as B. assert (D : lab 0 <> lab 1) by (intros D; apply Hi in D; lia).
      unfold ring_edge. split; [exact D|]. left. assert (Q : (lab 0%nat = 0 /\ lab 1%nat = 1 \/ lab 0%nat = 1 /\ lab 1%nat = 0)%Z) by lia. destruct Q as [[-> ->]|[-> ->]]; reflexivity.
    + apply (bipartite_yes g n _ (ring_edge n) Z.odd R); [lia|apply ring_sym|apply ring_irr|intros a b Ha Hb; exists (Z.to_nat (b - a + n)); apply ring_steps; [lia|assumption..]|].
      intros a b Ha Hb E. apply ring_edge_iff in E; [|lia|exact Ha|exact Hb]. assert (O : Z.odd (n - 1) = true) by (rewrite Z.sub_1_r, Z.odd_pred; exact Hev).
      destruct E as [->|[->|[[-> ->]|[-> ->]]]]; [rewrite Z.add_1_r, Z.odd_succ, <- Z.negb_odd; destruct (Z.odd a); discriminate|rewrite Z.add_1_r, Z.odd_succ, <- Z.negb_odd; destruct (Z.odd b); discriminate|rewrite O; discriminate|rewrite O; discriminate].
Qed.
Print Assumptions C69_self.

(* from four qubits on, stars are rightly said to differ from linear clusters and rings *)
Theorem C69_star_differs : forall v n, is_int v n -> (4 <= n)%Z ->
  exists g, star_graph v = Ok g /\
  (exists h, linear_cluster v = Ok h /\ says_different g h /\ ~ states_equivalent g h) /\
  ((n <= 444288)%Z -> exists h, ring_graph v = Ok h /\ says_different g h /\ ~ states_equivalent g h).
Proof.
  intros v n Hv Hn. destruct (C45_star_graph v n Hv ltac:(lia)) as (g & f & Eg & Rg). exists g. split; [exact Eg|]. destruct (star_labelled g n f Rg) as (Ng & Mg & Sg). destruct (Sg ltac:(lia)) as (c & Sc). clear Sg. destruct (Sc) as [Hc _].
  assert (Main : forall h fh edge, represents h n fh edge -> (forall i j, edge i j -> edge j i) -> (forall i, ~ edge i i) ->
    (forall z, (0 <= z < n)%Z -> exists a b, (0 <= a < n)%Z /\ (0 <= b < n)%Z /\ a <> z /\ b <> z /\ edge a b) -> (forall z, (0 <= z < n)%Z -> exists a, (0 <= a < n)%Z /\ edge z a) ->
    (forall y z, (0 <= y < n)%Z -> (0 <= z < n)%Z -> edge y z -> exists a, (0 <= a < n)%Z /\ a <> y /\ a <> z /\ ~ edge a z) -> says_different g h /\ ~ states_equivalent g h).
  { intros h fh edge R Hsym Hirr P1 P2 P3. destruct (labelled h n fh edge R Hsym Hirr) as (Nh & Mh & lab & Hr & Hi & Hs & He). assert (E : nodes g = nodes h) by lia. rewrite <- E in *.
    assert (X1 : exists j k, j < nodes g /\ k < nodes g /\ j <> c /\ k <> c /\ ent (adjacency h) j k = true).
    { destruct (P1 (lab c) (Hr c Hc)) as (a & b & Ha & Hb & Na & Nb & Eab). destruct (Hs a Ha) as (j & Hj & Ej). destruct (Hs b Hb) as (k & Hk & Ek). exists j, k. repeat split; try assumption; [congruence|congruence|]. apply He; [exact Hj|exact Hk|congruence]. }
    assert (X2 : exists k, k < nodes g /\ ent (adjacency h) c k = true).
    { destruct (P2 (lab c) (Hr c Hc)) as (a & Ha & Ea). destruct (Hs a Ha) as (k & Hk & Ek). exists k. split; [exact Hk|]. apply He; [exact Hc|exact Hk|congruence]. }
    assert (X3 : forall k, k < nodes g -> ent (adjacency h) c k = true -> exists j, j < nodes g /\ j <> k /\ j <> c /\ ent (adjacency h) j k = false).
    { intros k Hk Eck. destruct (P3 (lab c) (lab k) (Hr c Hc) (Hr k Hk) (proj1 (He c k Hc Hk) Eck)) as (a & Ha & N1 & N2 & Ea). destruct (Hs a Ha) as (j & Hj & Ej). exists j. repeat split; try assumption; [congruence|congruence|]. apply not_true_iff_false. rewrite (He j k Hj Hk), Ej. exact Ea. }
    destruct (star_other (nodes g) c _ _ FTensor Mg Mh Sc X1 X2 X3 ltac:(discriminate)) as [Hno A1]. destruct (star_other (nodes g) c _ _ FGlobal Mg Mh Sc X1 X2 X3 ltac:(discriminate)) as [_ A2]. split; [split; assumption|]. intros [_ Q]. contradiction. }
  split.
  - destruct (C45_linear_cluster v n Hv ltac:(lia)) as (h & Eh & Rh). exists h. split; [exact Eh|]. apply (Main h _ path_edge Rh); unfold path_edge.
    + lia.
    + lia.
    + intros z Hz. destruct (Z.le_gt_cases z 1); [exists 2%Z, 3%Z; lia|exists 0%Z, 1%Z; lia].
    + intros z Hz. destruct (Z.eq_dec z 0) as [->|N]; [exists 1%Z; lia|exists (z - 1)%Z; lia].
    + intros y z Hy Hz Ey. destruct (Z.le_gt_cases z 1) as [L|L]; [exists (if y =? 3 then 2 else 3)%Z|exists (if y =? 0 then 1 else 0)%Z].
      * destruct (Z.eqb_spec y 3); lia.
      * destruct (Z.eqb_spec y 0); [lia|]. destruct (Z.eq_dec z 2) as [->|]; lia.
  - intros Hu. destruct (C45_ring_graph_partial v n Hv ltac:(lia)) as (h & fh & Eh & Rh). exists h. split; [exact Eh|].
    assert (Q : forall i j, (0 <= i < n)%Z -> (0 <= j < n)%Z -> (ring_edge n i j <-> (j = i + 1 \/ i = j + 1 \/ (i = 0 /\ j = n - 1) \/ (j = 0 /\ i = n - 1))%Z)) by (intros; apply ring_edge_iff; lia).
    apply (Main h _ (ring_edge n) Rh); [apply ring_sym|apply ring_irr| | |].
    + intros z Hz. destruct (Z.le_gt_cases z 1); [exists 2%Z, 3%Z|exists 0%Z, 1%Z]; rewrite Q by lia; lia.
    + intros z Hz. destruct (Z.eq_dec z 0) as [->|N]; [exists 1%Z; rewrite Q by lia; lia|exists (z - 1)%Z; rewrite Q by lia; lia].
    + intros y z Hy Hz Ey. rewrite Q in Ey by assumption.
      assert (C : exists a, (0 <= a < n)%Z /\ a <> y /\ a <> z /\ ~ (z = a + 1 \/ a = z + 1 \/ (a = 0 /\ z = n - 1) \/ (z = 0 /\ a = n - 1))%Z).
      { assert (D : (z = 0 \/ z = 1 \/ z = n - 1 \/ z = n - 2 \/ 2 <= z <= n - 3)%Z) by lia. destruct D as [->|[->|[->|[->|D]]]].
        - exists 2%Z. lia.
        - exists 3%Z. lia.
        - exists 1%Z. lia.
        - exists (n - 4)%Z. lia.
        - destruct (Z.eq_dec z 2) as [->|]; [exists 4%Z; lia|exists (z - 2)%Z; lia]. }
      destruct C as (a & Ha & N1 & N2 & N3). exists a. rewrite Q by assumption. auto.
Qed.
Print Assumptions C69_star_differs.

(* rings of odd length from five qubits on are declared inequivalent to themselves *)
Theorem C69_odd_ring_refuted : forall v n, is_int v n -> (5 <= n <= 444288)%Z -> Z.odd n = true ->
  exists g, ring_graph v = Ok g /\ says_different g g /\ states_equivalent g g.
Proof.
  intros v n Hv Hn Hodd. destruct (C45_ring_graph_partial v n Hv ltac:(lia)) as (g & f & Eg & R). exists g. split; [exact Eg|].
  destruct (labelled g n f (ring_edge n) R (ring_sym n) (ring_irr n)) as (Ng & Mg & lab & Hr & Hi & Hs & He).
  assert (Q : forall i j, i < nodes g -> j < nodes g -> (ent (adjacency g) i j = true <-> (lab j = lab i + 1 \/ lab i = lab j + 1 \/ (lab i = 0 /\ lab j = n - 1) \/ (lab j = 0 /\ lab i = n - 1))%Z)).
  { intros i j Hin Hjn. rewrite (He i j Hin Hjn). apply ring_edge_iff; [lia|apply Hr, Hin|apply Hr, Hjn]. }
  assert (Main : forall form, are_lc_equivalent (adjacency g) (adjacency g) form = Ok (false, None)).
  { intros form. apply (rigid_self (nodes g) (adjacency g)); [lia|exact Mg| | |].
    - intros i j k Hin Hjn Hkn E1 E2. apply not_true_iff_false. rewrite Q in * by assumption. pose proof (Hr i Hin). pose proof (Hr j Hjn). pose proof (Hr k Hkn). lia.
    - intros i j Hin Hjn. pose proof (ring_steps n (lab i) (lab j) ltac:(lia) (Hr i Hin) (Hr j Hjn)) as W.
      assert (W' : exists l, zwalk n (ring_edge n) (2 * l) (lab i) (lab j)).
      { set (k := Z.to_nat (lab j - lab i + n)) in *. destruct (Nat.Even_or_Odd k) as [[l El]|[l El]]; [exists l; rewrite <- El; exact W|].
        pose proof (ring_steps n (lab j) (lab j) ltac:(lia) (Hr j Hjn) (Hr j Hjn)) as W2. pose proof (zwalk_app _ _ _ _ _ W _ _ W2) as W3. apply Z.odd_spec in Hodd. destruct Hodd as [m Em].
        exists (l + Z.to_nat m + 1). replace (2 * (l + Z.to_nat m + 1)) with (Z.to_nat (lab j - lab j + n) + k) by lia. exact W3. }
      destruct W' as (l & W'). exists l. apply (lift_to g n (ring_edge n) lab Hi Hs He); assumption.
    - intros i Hin. pose proof (Hr i Hin) as Bi.
      assert (C : exists a b, (0 <= a < n)%Z /\ (0 <= b < n)%Z /\ ((a = lab i - 1 /\ b = lab i + 1) \/ (lab i = 0 /\ a = n - 1 /\ b = 1) \/ (lab i = n - 1 /\ a = n - 2 /\ b = 0))%Z).
      { destruct (Z.eq_dec (lab i) 0) as [E|N]; [exists (n - 1)%Z, 1%Z; lia|]. destruct (Z.eq_dec (lab i) (n - 1)) as [E|N']; [exists (n - 2)%Z, 0%Z; lia|]. exists (lab i - 1)%Z, (lab i + 1)%Z. lia. }
      destruct C as (a & b & Ha & Hb & C). destruct (Hs a Ha) as (j & Hj & Ej). destruct (Hs b Hb) as (k & Hk & Ek). exists j, k. split; [exact Hj|]. split; [exact Hk|].
      split; [intros ->; lia|]. split; [apply not_true_iff_false; rewrite Q by assumption; lia|]. split; [rewrite Q by assumption; lia|]. split; [rewrite Q by assumption; lia|].
      intros i' Hi' E1 E2. rewrite Q in E1, E2 by assumption. apply Hi; [exact Hi'|exact Hin|]. pose proof (Hr i' Hi'). lia. }
  split; [split; apply Main|]. split; [reflexivity|]. apply lc_refl, Mg.
Qed.
Print Assumptions C69_odd_ring_refuted.

(* for very large n the complete graph has lost nodes (C45), so the star and the complete graph of the same n are said to differ *)
Theorem C69_large_refuted : forall v n, is_int v n -> (630000 <= n)%Z -> forall g h, star_graph v = Ok g -> complete_graph v = Ok h -> says_different g h /\ nodes g <> nodes h.
Proof.
  intros v n Hv Hn g h Eg Eh. destruct (C45_star_graph v n Hv ltac:(lia)) as (g' & f & Eg' & R). rewrite Eg in Eg'. injection Eg' as <-. destruct (C45_large_refuted v n Hv Hn h (or_intror Eh)) as [Hlt _].
  destruct (star_labelled g n f R) as (Ng & _). assert (N : nodes g <> nodes h) by (unfold nodes in *; lia). split; [|exact N].
  assert (A : forall form, are_lc_equivalent (adjacency g) (adjacency h) form = Ok (false, None)).
  { intros form. unfold are_lc_equivalent. rewrite !adjacency_length. destruct (_ || _); [reflexivity|]. rewrite (proj2 (Nat.eqb_neq _ _) N). reflexivity. }
  split; apply A.
Qed.
Print Assumptions C69_large_refuted.

Lemma rltb_x x y z x' y' z' : (x < x')%R -> rltb (x, y, z) (x', y', z') = true /\ rltb (x', y', z') (x, y, z) = false.
Proof. intros H. unfold rltb. destruct (Rlt_dec x x') as [A|A]; [|lra]. destruct (Rlt_dec x' x) as [B|B]; [lra|]. auto. Qed.
Lemma star_3 : star_graph (VInt 3) = Ok {| rg_nodes := [(0, 0, 0); (1, 0, 0); (-1, 0, 0)]%R; rg_edges := [((0, 0, 0), (1, 0, 0)); ((0, 0, 0), (-1, 0, 0))]%R |}.
Proof.
  unfold star_graph. cbn [generic_graph_state bind]. change (3 <? 1)%Z with false. cbn [bind]. change (3 =? 1)%Z with false. cbv iota. change (py_range 0 (3 - 1)) with [0%Z; 1%Z]. cbn [fold_left].
  replace (on_circle (turn 0 (3 - 1))) with (1, 0, 0)%R.
  2:{ unfold on_circle, turn. replace (2 * PI * 0 / IZR (3 - 1))%R with 0%R by (unfold Rdiv; ring). rewrite cos_0, sin_0. reflexivity. }
  replace (on_circle (turn 1 (3 - 1))) with (-1, 0, 0)%R.
  2:{ unfold on_circle, turn. change (3 - 1)%Z with 2%Z. replace (2 * PI * 1 / 2)%R with PI by field. rewrite cos_PI, sin_PI. reflexivity. }
  unfold add_edge, put_node, empty_rgraph. cbn [rg_nodes rg_edges].
  repeat match goal with |- context [in_dec ?d ?x ?l] => let H := fresh "H" in destruct (in_dec d x l) as [H|H]; cbn [In app rg_nodes rg_edges] in *;
    repeat match goal with H : _ \/ _ |- _ => destruct H as [H|H] | H : False |- _ => destruct H | H : (_, _) = (_, _) |- _ => injection H; intros; clear H end; try (exfalso; lra); try (exfalso; tauto) end.
  reflexivity.
Qed.
Lemma linear_3 : linear_cluster (VInt 3) = Ok {| rg_nodes := [(0, 0, 0); (1, 0, 0); (2, 0, 0)]%R; rg_edges := [((0, 0, 0), (1, 0, 0)); ((1, 0, 0), (2, 0, 0))]%R |}.
Proof.
  unfold linear_cluster. cbn [generic_graph_state bind]. change (3 <? 1)%Z with false. cbn [bind]. change (3 =? 1)%Z with false. cbv iota. change (py_range 0 (3 - 1)) with [0%Z; 1%Z]. cbn [fold_left].
  change (0 + 1)%Z with 1%Z. change (1 + 1)%Z with 2%Z.
  unfold add_edge, put_node, empty_rgraph. cbn [rg_nodes rg_edges].
  repeat match goal with |- context [in_dec ?d ?x ?l] => let H := fresh "H" in destruct (in_dec d x l) as [H|H]; cbn [In app rg_nodes rg_edges] in *;
    repeat match goal with H : _ \/ _ |- _ => destruct H as [H|H] | H : False |- _ => destruct H | H : (_, _) = (_, _) |- _ => injection H; intros; clear H end; try (exfalso; lra); try (exfalso; tauto) end.
  reflexivity.
Qed.
Lemma path_matrix (h : rgraph) a b c : rsorted (rg_nodes h) = [a; b; c] -> a <> b -> b <> c -> a <> c ->
  (forall p q, adjacent h p q <-> (p = a /\ q = b) \/ (p = b /\ q = a) \/ (p = b /\ q = c) \/ (p = c /\ q = b)) -> adjacency h = [[false; true; false]; [true; false; true]; [false; true; false]].
Proof.
  intros Es N1 N2 N3 He. assert (L : nodes h = 3) by (unfold nodes; rewrite (Permutation_length (rsorted_perm _)), Es; reflexivity).
  assert (Hent : forall i j x, i < 3 -> j < 3 -> (x = true <-> adjacent h (nth i [a; b; c] (0, 0, 0)%R) (nth j [a; b; c] (0, 0, 0)%R)) -> ent (adjacency h) i j = x).
  { intros i j x Hi Hj Hx. apply Bool.eq_true_iff_eq. rewrite Hx, <- Es. apply adjacency_ent; lia. }
  assert (W : forall r, In r (adjacency h) -> List.length r = 3).
  { intros r Hr. unfold adjacency in Hr. apply in_map_iff in Hr. destruct Hr as (p & <- & _). rewrite map_length, Es. reflexivity. }
  pose proof (adjacency_length h) as LA. rewrite L in LA. destruct (adjacency h) as [|r0 [|r1 [|r2 [|]]]] eqn:EA; try discriminate. rewrite <- EA in Hent.
  assert (E : forall r, In r [r0; r1; r2] -> exists x y z, r = [x; y; z]) by (intros r Hr; pose proof (W r Hr) as Q; destruct r as [|x [|y [|z [|]]]]; try discriminate; eauto).
  destruct (E r0 ltac:(cbn; auto)) as (x0 & y0 & z0 & ->). destruct (E r1 ltac:(cbn; auto)) as (x1 & y1 & z1 & ->). destruct (E r2 ltac:(cbn; auto)) as (x2 & y2 & z2 & ->).
  assert (V : forall i j x, i < 3 -> j < 3 -> (x = true <-> adjacent h (nth i [a; b; c] (0, 0, 0)%R) (nth j [a; b; c] (0, 0, 0)%R)) -> ent [[x0; y0; z0]; [x1; y1; z1]; [x2; y2; z2]] i j = x) by (rewrite <- EA; exact Hent).
  pose proof (V 0 0 false ltac:(lia) ltac:(lia)) as A00. pose proof (V 0 1 true ltac:(lia) ltac:(lia)) as A01. pose proof (V 0 2 false ltac:(lia) ltac:(lia)) as A02.
  pose proof (V 1 0 true ltac:(lia) ltac:(lia)) as A10. pose proof (V 1 1 false ltac:(lia) ltac:(lia)) as A11. pose proof (V 1 2 true ltac:(lia) ltac:(lia)) as A12.
  pose proof (V 2 0 false ltac:(lia) ltac:(lia)) as A20. pose proof (V 2 1 true ltac:(lia) ltac:(lia)) as A21. pose proof (V 2 2 false ltac:(lia) ltac:(lia)) as A22.
  unfold ent in *. cbn [nth] in *. rewrite A00, A01, A02, A10, A11, A12, A20, A21, A22; [reflexivity|..]; rewrite He; (split; [intros ?; try discriminate; auto 6|]); intros H; try reflexivity; exfalso; clear - H N1 N2 N3; destruct H as [[H1 H2]|[[H1 H2]|[[H1 H2]|[H1 H2]]]]; congruence.
Qed.
(* examples/lc_equivalence.py: with three qubits the star is found equivalent to the complete graph, the linear cluster and the ring *)
Theorem C69_example : exists g k l r, star_graph (VInt 3) = Ok g /\ complete_graph (VInt 3) = Ok k /\ linear_cluster (VInt 3) = Ok l /\ ring_graph (VInt 3) = Ok r /\
  says_equivalent g k /\ says_equivalent g l /\ says_equivalent g r.
Proof.
  assert (Hv : is_int (VInt 3) 3) by (left; reflexivity).
  destruct (C69_star_complete _ 3 Hv ltac:(lia)) as (g & k & Eg & Ek & S1 & _). destruct (C69_self _ 3 Hv ltac:(lia)) as ((l & El & Sl) & _). destruct (C45_ring_graph_partial _ 3 Hv ltac:(lia)) as (r & fr & Er & Rr).
  exists g, k, l, r. split; [exact Eg|]. split; [exact Ek|]. split; [exact El|]. split; [exact Er|]. split; [exact S1|].
  destruct (C45_star_graph _ 3 Hv ltac:(lia)) as (g' & f & Eg' & Rg). rewrite Eg in Eg'. injection Eg' as <-. destruct (star_labelled g 3 f Rg) as (Ng & Mg & Sg). destruct (Sg ltac:(lia)) as (c & Sc). split.
  - assert (A : adjacency g = adjacency l).
    { rewrite star_3 in Eg. injection Eg as <-. rewrite linear_3 in El. injection El as <-.
      rewrite (path_matrix _ (-1, 0, 0)%R (0, 0, 0)%R (1, 0, 0)%R), (path_matrix _ (0, 0, 0)%R (1, 0, 0)%R (2, 0, 0)%R); [reflexivity|..];
        try (intros H; injection H; intros; lra); cbn [rg_nodes].
      - unfold rsorted. cbn [fold_left rinsert]. rewrite (proj2 (rltb_x 0 0 0 1 0 0 ltac:(lra))). cbn [rinsert]. rewrite (proj2 (rltb_x 0 0 0 2 0 0 ltac:(lra))), (proj2 (rltb_x 1 0 0 2 0 0 ltac:(lra))). reflexivity.
      - intros p q. unfold adjacent. cbn [rg_edges In]. split; [intros [[H|[H|[]]]|[H|[H|[]]]]; injection H as <- <-; auto 6|]. intros [[-> ->]|[[-> ->]|[[-> ->]|[-> ->]]]]; auto 6.
      - unfold rsorted. cbn [fold_left rinsert]. rewrite (proj2 (rltb_x 0 0 0 1 0 0 ltac:(lra))). cbn [rinsert]. rewrite (proj1 (rltb_x (-1) 0 0 0 0 0 ltac:(lra))). reflexivity.
      - intros p q. unfold adjacent. cbn [rg_edges In]. split; [intros [[H|[H|[]]]|[H|[H|[]]]]; injection H as <- <-; auto 6|]. intros [[-> ->]|[[-> ->]|[[-> ->]|[-> ->]]]]; auto 6. }
    destruct Sl as (Q & m & A1 & A2 & A3 & A4 & A5). assert (En : nodes g = nodes l) by (rewrite <- !adjacency_length, A; reflexivity). exists Q, m. unfold is_lc_equivalent in *. rewrite A, En. auto 6.
  - assert (Rk : represents r 3 fr complete_edge).
    { destruct Rr as (H1 & H2 & H3 & H4 & H5 & H6 & H7). repeat (split; [assumption|]). split; [|split; assumption]. intros p q. rewrite (H5 p q). split; intros (i & j & Hi & Hj & E & Ep & Eq); exists i, j; repeat (split; [assumption|]); (split; [|split; assumption]).
      - apply ring_edge_iff in E; [unfold complete_edge; lia|lia|exact Hi|exact Hj].
      - apply ring_edge_iff; [lia|exact Hi|exact Hj|]. unfold complete_edge in E. lia. }
    destruct (complete_labelled r 3 fr Rk) as (Nr & Mr & Kr). assert (E : nodes g = nodes r) by lia. apply answer_yes; [exact E|exact Mg|exact Mr|]. intros form Hform. rewrite <- E in Mr, Kr. apply (star_to_complete (nodes g) c); [lia|exact Sc|exact Kr|exact Mg|exact Mr|exact Hform].
Qed.
Print Assumptions C69_example.
