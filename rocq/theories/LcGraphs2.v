(* LcGraphs2.v: a graph compared with itself, and the star compared with graphs that are neither stars nor complete. *)
From Verif Require Import Base LinModel LinSpec LinProofs LinNull LinLc PropsLin LcPivot LcGraphs.
Open Scope nat_scope.

(* walks along the edges of a graph given by its matrix *)
Inductive walk (n : nat) (G : bmat) : nat -> nat -> nat -> Prop :=
| walk_0 i : i < n -> walk n G 0 i i
| walk_S l i j k : walk n G l i j -> k < n -> ent G j k = true -> walk n G (S l) i k.
Definition connected (n : nat) (G : bmat) : Prop := forall i j, i < n -> j < n -> exists l, walk n G l i j.
Definition bipartite (n : nat) (G : bmat) : Prop := exists colour : nat -> bool, forall i j, i < n -> j < n -> ent G i j = true -> colour i <> colour j.
Definition triangle_free (n : nat) (G : bmat) : Prop := forall i j k, i < n -> j < n -> k < n -> ent G i j = true -> ent G j k = true -> ent G i k = false.

Lemma walk_end n G l i j : walk n G l i j -> i < n /\ j < n.
Proof. induction 1; tauto. Qed.
Lemma walk_app n G l i j : walk n G l i j -> forall l' k, walk n G l' j k -> walk n G (l' + l) i k.
Proof. intros H l' k H'. induction H' as [j Hj|l' j k k' H' IH Hk E]; [exact H|]. cbn [Nat.add]. apply (walk_S n G _ i k k'); [apply IH, H|exact Hk|exact E]. Qed.

Section Self.
  Variable n : nat. Variable G : bmat.
  Hypothesis Hn : n <> 0. Hypothesis HG : graph_matrix n G.
  Lemma adj_ad f j k : triangle_free n G -> solves n G G f -> j < n -> k < n -> ent G j k = true -> f 0 k = f 3 j.
  Proof.
    intros HT Hf Hj Hk E. pose proof (Hf j k Hj Hk) as F. rewrite E in F. rewrite bsum_zero in F.
    - assert (N : (k =? j) = false). { apply Nat.eqb_neq. intros ->. destruct HG as (_ & _ & _ & HD). rewrite (HD j Hj) in E. discriminate. } rewrite N in F. cbn in F. destruct (f 0 k), (f 3 j); cbn in F; congruence.
    - intros i Hi. destruct HG as (_ & _ & HSym & _). destruct (ent G i j) eqn:E1; [|reflexivity]. rewrite (HT i j k Hi Hj Hk E1 E). reflexivity.
  Qed.
  Lemma walk_ad f l i j : triangle_free n G -> solves n G G f -> walk n G l i j ->
    if Nat.odd l then f 0 j = f 3 i /\ f 3 j = f 0 i else f 0 j = f 0 i /\ f 3 j = f 3 i.
  Proof.
    intros HT Hf W. induction W as [i Hi|l i j k W IH Hk E]; [split; reflexivity|]. pose proof (walk_end _ _ _ _ _ W) as [_ Hj].
    pose proof (adj_ad f j k HT Hf Hj Hk E) as A1. destruct HG as (_ & _ & HSym & _). rewrite (HSym j k Hj Hk) in E. pose proof (adj_ad f k j HT Hf Hk Hj E) as A2.
    rewrite Nat.odd_succ, <- Nat.negb_odd. destruct (Nat.odd l); cbn [negb]; destruct IH as [I1 I2]; split; congruence.
  Qed.
  Lemma id_solves : solves n G G (fun m _ => (m =? 0) || (m =? 3)).
  Proof. intros j k Hj Hk. rewrite bsum_zero by (intros; cbn; apply andb_false_r). cbn. destruct (ent G j k), (k =? j); reflexivity. Qed.

  (* a connected bipartite graph with an edge is found equivalent to itself *)
  Theorem bipartite_self form : 2 <= n -> connected n G -> bipartite n G -> form <> FOther -> exists q, are_lc_equivalent G G form = Ok (true, Some q).
  Proof.
    intros H2 HC [col Hcol] Hform.
    assert (HT : triangle_free n G).
    { intros i j k Hi Hj Hk E1 E2. destruct (ent G i k) eqn:E3; [exfalso|reflexivity]. pose proof (Hcol _ _ Hi Hj E1). pose proof (Hcol _ _ Hj Hk E2). pose proof (Hcol _ _ Hi Hk E3). destruct (col i), (col j), (col k); congruence. }
    assert (Hw : forall l i j, walk n G l i j -> col j = xorb (col i) (Nat.odd l)).
    { intros l i j W. induction W as [i Hi|l i j k W IH Hk E]; [symmetry; apply xorb_false_r|]. pose proof (walk_end _ _ _ _ _ W) as [_ Hj]. pose proof (Hcol _ _ Hj Hk E) as N. rewrite Nat.odd_succ, <- Nat.negb_odd.
      rewrite IH in N. destruct (col i), (Nat.odd l), (col k); cbn in *; congruence. }
    (* the first vertex of the other colour *)
    assert (Hx : exists x, x < n /\ col x <> col 0 /\ forall i, i < x -> col i = col 0).
    { assert (Hex : exists x, x < n /\ col x <> col 0).
      { destruct (HC 0 1 ltac:(lia) ltac:(lia)) as (l & W). assert (Hone : exists k, k < n /\ ent G 0 k = true).
        { assert (Q : forall l i j, walk n G l i j -> i <> j -> exists k, k < n /\ ent G i k = true).
          { clear. intros l i j W. induction W as [i Hi|l i j k W IH Hk E]; intros Hne; [contradiction|]. destruct (Nat.eq_dec i j) as [->|N]; [exists k; auto|apply IH, N]. }
          apply (Q l 0 1 W). discriminate. }
        destruct Hone as (k & Hk & E). exists k. split; [exact Hk|]. apply not_eq_sym. apply Hcol; [lia|exact Hk|exact E]. }
      destruct Hex as (x & Hx & Nx). clear - Hx Nx. induction x as [x IH] using lt_wf_ind.
      destruct (existsb (fun i => negb (Bool.eqb (col i) (col 0))) (seq 0 x)) eqn:E.
      - apply existsb_exists in E. destruct E as (y & Hy & Ny). apply in_seq in Hy. apply negb_true_iff, Bool.eqb_false_iff in Ny. apply (IH y); [lia|lia|exact Ny].
      - exists x. split; [exact Hx|]. split; [exact Nx|]. intros i Hi. destruct (Bool.eqb (col i) (col 0)) eqn:Ei; [apply Bool.eqb_prop, Ei|exfalso].
        assert (Ht : existsb (fun i => negb (Bool.eqb (col i) (col 0))) (seq 0 x) = true) by (apply existsb_exists; exists i; split; [apply in_seq; lia|rewrite Ei; reflexivity]). congruence. }
    destruct Hx as (x & Hx & Nx & Lx).
    set (f := fun m (_ : nat) => (m =? 0) || (m =? 3)).
    set (g1 := fun m i => if m =? 0 then Bool.eqb (col i) (col 0) else if m =? 3 then negb (Bool.eqb (col i) (col 0)) else false).
    set (g2 := fun m i => if m =? 0 then negb (Bool.eqb (col i) (col 0)) else if m =? 3 then Bool.eqb (col i) (col 0) else false).
    assert (S1 : solves n G G g1).
    { intros j k Hj Hk. rewrite bsum_zero by (intros; cbn; apply andb_false_r). unfold g1. cbn. rewrite andb_false_r. destruct (ent G j k) eqn:E; [|reflexivity]. pose proof (Hcol j k Hj Hk E). destruct (col j), (col k), (col 0); cbn; congruence. }
    assert (S2 : solves n G G g2).
    { intros j k Hj Hk. rewrite bsum_zero by (intros; cbn; apply andb_false_r). unfold g2. cbn. rewrite andb_false_r. destruct (ent G j k) eqn:E; [|reflexivity]. pose proof (Hcol j k Hj Hk E). destruct (col j), (col k), (col 0); cbn; congruence. }
    assert (Val : forall g i, solves n G G g -> i < n -> if Bool.eqb (col i) (col 0) then g 0 i = g 0 0 /\ g 3 i = g 3 0 else g 0 i = g 3 0 /\ g 3 i = g 0 0).
    { intros g i Sg Hi. destruct (HC 0 i ltac:(lia) Hi) as (l & W). pose proof (walk_ad g l 0 i HT Sg W) as A. rewrite (Hw l 0 i W). destruct (Nat.odd l); [destruct (col 0); exact A|destruct (col 0); exact A]. }
    assert (N0x : x <> 0) by (intros ->; contradiction).
    apply (found n G G Hn HG HG f 0 0 0 x form).
    - lia.
    - lia.
    - lia.
    - exact Hx.
    - congruence.
    - apply id_solves.
    - intros i Hi. reflexivity.
    - reflexivity.
    - reflexivity.
    - exists g1. split; [exact S1|]. split; [unfold g1; cbn; apply Bool.eqb_reflx|]. intros m' i' Hi' [L|[-> L]]; lia.
    - exists g2. split; [exact S2|]. split.
      + unfold g2. cbn. apply negb_true_iff, Bool.eqb_false_iff, Nx.
      + intros m' i' Hi' [L|[-> L]]; [lia|]. unfold g2. cbn. rewrite (Lx i' L), Bool.eqb_reflx. reflexivity.
    - intros g m i Hm Hi Fi Sg (B1 & B2). pose proof (Val g i Sg Hi) as Vi. destruct m as [|[|[|m]]]; [|discriminate|discriminate|].
      + destruct (Bool.eqb (col i) (col 0)) eqn:Ei.
        * destruct (Nat.eq_dec i 0) as [->|Ni]; [left; reflexivity|exfalso]. destruct Vi as [Vi _]. rewrite (B2 0 0 ltac:(lia) ltac:(lia)), B1 in Vi. discriminate.
        * destruct (Nat.lt_trichotomy i x) as [L|[->|L]]; [exfalso; rewrite (Lx i L), Bool.eqb_reflx in Ei; discriminate|right; reflexivity|exfalso].
          pose proof (Val g x Sg Hx) as Vx. apply Bool.eqb_false_iff in Nx. rewrite Nx in Vx. destruct Vi as [Vi _]. destruct Vx as [Vx _]. rewrite (B2 0 x Hx ltac:(lia)) in Vx. rewrite B1, <- Vx in Vi. discriminate.
      + exfalso. assert (m = 0) by lia. subst m. assert (A : forall k, k < n -> g 0 k = false) by (intros k Hk; apply B2; [exact Hk|lia]).
        pose proof (Val g x Sg Hx) as Vx. apply Bool.eqb_false_iff in Nx. rewrite Nx in Vx. destruct Vx as [Vx _]. rewrite (A x Hx) in Vx.
        destruct (Bool.eqb (col i) (col 0)); destruct Vi as [_ Vi]; [rewrite B1, <- Vx in Vi|rewrite B1, A in Vi by lia]; discriminate.
    - exact Hform.
  Qed.

  (* a triangle-free graph in which any two vertices are joined by a walk of even length and every vertex is the only common
     neighbour of two others is declared inequivalent to itself *)
  Theorem rigid_self form : triangle_free n G -> (forall i j, i < n -> j < n -> exists l, walk n G (2 * l) i j) ->
    (forall i, i < n -> exists j k, j < n /\ k < n /\ j <> k /\ ent G j k = false /\ ent G i j = true /\ ent G i k = true /\ forall i', i' < n -> ent G i' j = true -> ent G i' k = true -> i' = i) ->
    are_lc_equivalent G G form = Ok (false, None).
  Proof.
    intros HT HE HU. apply (not_found n G G Hn HG HG). intros f Sf.
    assert (C : forall i, i < n -> f 2 i = false).
    { intros i Hi. destruct (HU i Hi) as (j & k & Hj & Hk & Hne & Ejk & Eij & Eik & Huniq). pose proof (Sf j k Hj Hk) as F. rewrite Ejk in F.
      assert (N : (k =? j) = false) by (apply Nat.eqb_neq; congruence). rewrite N in F. rewrite (bsum_single n _ i Hi) in F.
      - rewrite Eij, Eik in F. cbn in F. destruct (f 2 i); [discriminate|reflexivity].
      - intros i' Hi' Hne'. destruct (ent G i' j) eqn:E1; [|reflexivity]. destruct (ent G i' k) eqn:E2; [|reflexivity]. exfalso. apply Hne'. apply Huniq; assumption. }
    assert (B : forall j, j < n -> f 1 j = false).
    { intros j Hj. pose proof (Sf j j Hj Hj) as F. destruct HG as (_ & _ & _ & HD). rewrite (HD j Hj), Nat.eqb_refl in F. rewrite bsum_zero in F by (intros i Hi; rewrite (C i Hi); apply andb_false_r). cbn in F. destruct (f 1 j); [discriminate|reflexivity]. }
    assert (AD : forall i, i < n -> f 0 i = f 0 0 /\ f 3 i = f 0 0).
    { assert (A0 : forall i, i < n -> f 0 i = f 0 0 /\ f 3 i = f 3 0).
      { intros i Hi. destruct (HE 0 i ltac:(lia) Hi) as (l & W). pose proof (walk_ad f _ 0 i HT Sf W) as A. rewrite Nat.odd_mul in A. cbn [Nat.odd Nat.even negb andb] in A. exact A. }
      assert (E03 : f 3 0 = f 0 0).
      { destruct (HU 0 ltac:(lia)) as (j & _ & Hj & _ & _ & _ & Ej & _). pose proof (adj_ad f 0 j HT Sf ltac:(lia) Hj Ej) as E. rewrite <- E. apply (A0 j Hj). }
      intros i Hi. destruct (A0 i Hi) as [A1 A2]. split; [exact A1|congruence]. }
    destruct (f 0 0) eqn:E0; [right|left]; intros m i Hm Hi; destruct (AD i Hi) as [A1 A2]; destruct m as [|[|[|[|]]]]; try lia; cbn; auto.
  Qed.
End Self.

(* ---------- the complete graph and itself ---------- *)
Section CompleteSelf.
  Variable n : nat. Variable K : bmat.
  Hypothesis H3 : 3 <= n. Hypothesis HK : is_complete n K.
  Lemma sum_KK j k g : j < n -> k < n -> bsum n (fun i => ent K i j && ent K i k && g i) = if j =? k then xorb (bsum n g) (g j) else xorb (xorb (bsum n g) (g k)) (g j).
  Proof.
    intros Hj Hk. rewrite (bsum_ext n _ (fun i => negb (i =? j) && negb (i =? k) && g i)) by (intros i Hi; rewrite !HK by assumption; reflexivity).
    destruct (Nat.eqb_spec j k) as [->|Hne]; [|apply bsum_except2; assumption]. rewrite <- (bsum_except n k g Hk). apply bsum_ext. intros i _. destruct (i =? k); reflexivity.
  Qed.
  Definition kk (f : nat -> nat -> bool) : Prop :=
    (forall j, j < n -> f 1 j = xorb (bsum n (f 2)) (f 2 j)) /\
    (forall j k, j < n -> k < n -> j <> k -> xorb (f 0 k) (f 2 k) = xorb (xorb (f 3 j) (f 2 j)) (bsum n (f 2))).
  Lemma kk_iff f : solves n K K f <-> kk f.
  Proof.
    split.
    - intros Hf. assert (E : forall j k, j < n -> k < n -> xorb (negb (j =? k) && f 0 k) (xorb ((k =? j) && f 1 j) (xorb (if j =? k then xorb (bsum n (f 2)) (f 2 j) else xorb (xorb (bsum n (f 2)) (f 2 k)) (f 2 j)) (negb (j =? k) && f 3 j))) = false).
      { intros j k Hj Hk. rewrite <- (sum_KK j k (f 2) Hj Hk), <- (HK j k Hj Hk). apply Hf; assumption. }
      split.
      + intros j Hj. pose proof (E j j Hj Hj) as E1. rewrite Nat.eqb_refl in E1. cbn in E1. destruct (f 1 j), (f 2 j), (bsum n (f 2)); cbn in *; congruence.
      + intros j k Hj Hk Hne. pose proof (E j k Hj Hk) as E1. assert (N : (j =? k) = false) by (apply Nat.eqb_neq; exact Hne). assert (N' : (k =? j) = false) by (apply Nat.eqb_neq; congruence). rewrite N, N' in E1.
        cbn in E1. destruct (f 0 k), (f 2 k), (f 2 j), (f 3 j), (bsum n (f 2)); cbn in *; congruence.
    - intros [F1 F2] j k Hj Hk. rewrite (sum_KK j k (f 2) Hj Hk), (HK j k Hj Hk). destruct (Nat.eqb_spec j k) as [->|Hne].
      + rewrite Nat.eqb_refl, (F1 k Hk). cbn. destruct (f 2 k), (bsum n (f 2)); reflexivity.
      + assert (N' : (k =? j) = false) by (apply Nat.eqb_neq; congruence). rewrite N'. pose proof (F2 j k Hj Hk Hne) as E. cbn. destruct (f 0 k), (f 2 k), (f 2 j), (f 3 j), (bsum n (f 2)); cbn in *; congruence.
  Qed.
  Lemma third j k : j < n -> k < n -> exists i, i < n /\ i <> j /\ i <> k.
  Proof.
    intros Hj Hk. destruct (Nat.eq_dec 0 j); destruct (Nat.eq_dec 0 k); destruct (Nat.eq_dec 1 j); destruct (Nat.eq_dec 1 k); try (exists 0; lia); try (exists 1; lia); exists 2; lia.
  Qed.
  (* with all a = 0 the c are all the same *)
  Lemma kk_low g : kk g -> (forall k, k < n -> g 0 k = false) -> forall j k, j < n -> k < n -> g 2 j = g 2 k.
  Proof.
    intros [_ G2] A j k Hj Hk. destruct (third j k Hj Hk) as (i & Hi & N1 & N2). pose proof (G2 i j Hi Hj N1) as E1. pose proof (G2 i k Hi Hk N2) as E2. rewrite (A j Hj) in E1. rewrite (A k Hk) in E2. rewrite xorb_false_l in E1, E2. congruence.
  Qed.
  Lemma kk_d g : kk g -> (forall m k, m < 3 -> k < n -> g m k = false) -> forall j, j < n -> g 3 j = false.
  Proof.
    intros [_ G2] A j Hj. destruct (third j j Hj Hj) as (k & Hk & N & _). pose proof (G2 j k Hj Hk (not_eq_sym N)) as E. rewrite (A 0 k), (A 2 k), (A 2 j), (bsum_zero n (g 2)) in E by (try (intros; apply A); lia). cbn in E.
    destruct (g 3 j); [discriminate|reflexivity].
  Qed.
  Lemma unit_solves x : x < n -> solves n K K (fun m i => if (m =? 0) || (m =? 2) then i =? x else negb (i =? x)).
  Proof.
    intros Hx. apply kk_iff. unfold kk. cbn. assert (E : bsum n (fun i => i =? x) = true) by (rewrite (bsum_ext n _ (fun i => (i =? x) && true)) by (intros; symmetry; apply andb_true_r); apply (bsum_at n x (fun _ => true) Hx)).
    rewrite E. split; [intros j _; destruct (j =? x); reflexivity|]. intros j k _ _ _. destruct (j =? x), (k =? x); reflexivity.
  Qed.
  Theorem complete_self form : graph_matrix n K -> form <> FOther -> exists q, are_lc_equivalent K K form = Ok (true, Some q).
  Proof.
    intros GK Hform. destruct (Nat.odd n) eqn:Eo.
    - (* an odd number of qubits *)
      set (f := fun m i => if (m =? 0) || (m =? 3) then i =? 1 else negb (i =? 1)).
      set (w := fun m (i : nat) => (m =? 2) || (m =? 3)).
      assert (Es : bsum n (fun i => negb (i =? 1)) = false) by (rewrite (bsum_ext n _ (fun i => negb (i =? 1) && true)) by (intros; symmetry; apply andb_true_r); rewrite (bsum_except n 1 (fun _ => true)), bsum_true, Eo by lia; reflexivity).
      assert (Sf : solves n K K f) by (apply kk_iff; unfold kk, f; cbn; rewrite Es; split; [intros j _; destruct (j =? 1); reflexivity|intros j k _ _ _; destruct (j =? 1), (k =? 1); reflexivity]).
      assert (Sw : solves n K K w) by (apply kk_iff; unfold kk, w; cbn; rewrite bsum_true, Eo; split; [intros j _|intros j k _ _ _]; reflexivity).
      apply (found n K K ltac:(lia) GK GK f 0 1 2 0 form); try lia; try discriminate; try exact Sf; try reflexivity; try exact Hform.
      + intros i Hi. unfold f. cbn. destruct (i =? 1); reflexivity.
      + exists (fun m i => if (m =? 0) || (m =? 2) then i =? 1 else negb (i =? 1)). split; [apply unit_solves; lia|]. split; [reflexivity|]. intros m' i' Hi' [L|[-> L]]; [lia|]. cbn. apply Nat.eqb_neq. lia.
      + exists w. split; [exact Sw|]. split; [reflexivity|]. intros m' i' Hi' [L|[-> L]]; [destruct m' as [|[|]]; [reflexivity|reflexivity|lia]|lia].
      + intros g m i Hm Hi Fi Sg (B1 & B2). apply kk_iff in Sg. destruct m as [|[|[|m]]].
        * unfold f in Fi. cbn in Fi. apply Nat.eqb_eq in Fi. subst i. left. reflexivity.
        * exfalso. pose proof (kk_low g Sg ltac:(intros k Hk; apply B2; [exact Hk|lia])) as Q. destruct Sg as [G1 _]. pose proof (G1 i Hi) as E. rewrite (bsum_ext n (g 2) (fun _ => g 2 i)) in E by (intros k Hk; apply Q; assumption).
          rewrite bsum_const, Eo, B1 in E. destruct (g 2 i); discriminate.
        * pose proof (kk_low g Sg ltac:(intros k Hk; apply B2; [exact Hk|lia])) as Q. destruct (Nat.eq_dec i 0) as [->|Hi0]; [right; reflexivity|exfalso]. rewrite (Q i 0 Hi ltac:(lia)), (B2 2 0 ltac:(lia) ltac:(lia)) in B1. discriminate.
        * exfalso. assert (m = 0) by lia. subst m. rewrite (kk_d g Sg) in B1; [discriminate| |exact Hi]. intros m' k Hm' Hk. apply B2; [exact Hk|lia].
    - (* an even number of qubits *)
      set (f := fun m i => if (m =? 0) || (m =? 3) then i <? 2 else negb (i <? 2)).
      assert (Es : bsum n (fun i => negb (i <? 2)) = false).
      { rewrite (bsum_ext n _ (fun i => negb (i =? 0) && negb (i =? 1) && true)) by (intros i _; destruct i as [|[|i]]; reflexivity). rewrite (bsum_except2 n 0 1 (fun _ => true)), bsum_true, Eo by lia. reflexivity. }
      assert (Sf : solves n K K f) by (apply kk_iff; unfold kk, f; cbn [Nat.eqb orb]; rewrite Es; split; [intros j _; destruct (j <? 2); reflexivity|intros j k _ _ _; destruct (j <? 2), (k <? 2); reflexivity]).
      apply (found n K K ltac:(lia) GK GK f 0 0 0 1 form); try lia; try discriminate; try exact Sf; try reflexivity; try exact Hform.
      + intros i Hi. unfold f. cbn [Nat.eqb orb]. destruct (i <? 2); reflexivity.
      + exists (fun m i => if (m =? 0) || (m =? 2) then i =? 0 else negb (i =? 0)). split; [apply unit_solves; lia|]. split; [reflexivity|]. intros m' i' Hi' [L|[-> L]]; lia.
      + exists (fun m i => if (m =? 0) || (m =? 2) then i =? 1 else negb (i =? 1)). split; [apply unit_solves; lia|]. split; [reflexivity|]. intros m' i' Hi' [L|[-> L]]; [lia|]. cbn. apply Nat.eqb_neq. lia.
      + intros g m i Hm Hi Fi Sg (B1 & B2). apply kk_iff in Sg.
        assert (W : 0 < m -> forall k, k < n -> g 2 k = g 1 0 /\ g 1 k = g 1 0).
        { intros Hm0. pose proof (kk_low g Sg ltac:(intros k Hk; apply B2; [exact Hk|lia])) as Q. destruct Sg as [G1 _].
          assert (Eb : forall k, k < n -> g 1 k = g 2 k). { intros k Hk. rewrite (G1 k Hk), (bsum_ext n (g 2) (fun _ => g 2 k)) by (intros k' Hk'; apply Q; assumption). rewrite bsum_const, Eo, andb_false_r. apply xorb_false_l. }
          intros k Hk. rewrite !Eb by lia. split; apply Q; lia. }
        destruct m as [|[|[|m]]].
        * unfold f in Fi. cbn [Nat.eqb orb] in Fi. apply Nat.ltb_lt in Fi. destruct i as [|[|]]; [left; reflexivity|right; reflexivity|lia].
        * exfalso. unfold f in Fi. cbn [Nat.eqb orb] in Fi. apply negb_true_iff, Nat.ltb_ge in Fi. destruct (W ltac:(lia) i Hi) as [_ E]. rewrite E, (B2 1 0 ltac:(lia) ltac:(lia)) in B1. discriminate.
        * exfalso. destruct (W ltac:(lia) i Hi) as [E _]. rewrite E, (B2 1 0 ltac:(lia) ltac:(lia)) in B1. discriminate.
        * exfalso. assert (m = 0) by lia. subst m. rewrite (kk_d g Sg) in B1; [discriminate| |exact Hi]. intros m' k Hm' Hk. apply B2; [exact Hk|lia].
  Qed.
End CompleteSelf.

(* ---------- a star and a graph that is neither star nor complete ---------- *)
Theorem star_other n c G H form : graph_matrix n G -> graph_matrix n H -> is_star n c G ->
  (exists j k, j < n /\ k < n /\ j <> c /\ k <> c /\ ent H j k = true) -> (exists k, k < n /\ ent H c k = true) ->
  (forall k, k < n -> ent H c k = true -> exists j, j < n /\ j <> k /\ j <> c /\ ent H j k = false) -> form <> FOther ->
  ~ lc_equivalent n G H /\ are_lc_equivalent G H form = Ok (false, None).
Proof.
  intros HG HH [Hc HS] (j0 & k0 & Hj0 & Hk0 & Nj0 & Nk0 & E0) (k1 & Hk1 & E1) Hdeg Hform.
  assert (Hno : ~ lc_equivalent n G H).
  { intros Heq. apply (C27_criterion n G H HG HH) in Heq. destruct Heq as (v & Hv & Hnull & Hdet). pose proof (null_solves n G H v Hv Hnull) as Sf. set (f := va n v) in *.
    assert (Hd : forall k, k < n -> xorb (f 0 k && f 3 k) (f 1 k && f 2 k) = true).
    { intros k Hk. pose proof (Hdet k Hk) as D. unfold f, va. rewrite Nat.mul_0_l, Nat.add_0_r, Nat.mul_1_l. exact D. }
    assert (Esum : forall j k, j < n -> k < n -> j <> c -> bsum n (fun i => ent G i j && ent H i k && f 2 i) = ent H c k && f 2 c).
    { intros j k Hj Hk Njc. apply Nat.eqb_neq in Njc. rewrite (bsum_single n _ c Hc); [rewrite (HS c j Hc Hj), Nat.eqb_refl, Njc; reflexivity|]. intros i Hi Ni. apply Nat.eqb_neq in Ni. rewrite (HS i j Hi Hj), Ni, Njc. reflexivity. }
    assert (Eq : forall j k, j < n -> k < n -> j <> c -> k <> c -> j <> k -> ent H c k && f 2 c = ent H j k && f 3 j).
    { intros j k Hj Hk Nj Nk Njk. pose proof (Sf j k Hj Hk) as F. rewrite (Esum j k Hj Hk Nj), (HS j k Hj Hk) in F. apply Nat.eqb_neq in Nj, Nk. assert (N : (k =? j) = false) by (apply Nat.eqb_neq; congruence). rewrite Nj, Nk, N in F. cbn in F.
      destruct (ent H c k && f 2 c), (ent H j k && f 3 j); cbn in F; congruence. }
    destruct HH as (_ & _ & HSym & HD). destruct (f 2 c) eqn:Ec.
    - assert (Nk1 : k1 <> c) by (intros ->; rewrite (HD c Hc) in E1; discriminate). destruct (Hdeg k1 Hk1 E1) as (j & Hj & Njk & Njc & Ej). pose proof (Eq j k1 Hj Hk1 Njc Nk1 Njk) as E. rewrite E1, Ej in E. discriminate.
    - assert (Njk : j0 <> k0) by (intros ->; rewrite (HD k0 Hk0) in E0; discriminate). pose proof (Eq j0 k0 Hj0 Hk0 Nj0 Nk0 Njk) as E. rewrite E0, andb_false_r in E. cbn in E.
      pose proof (Hd j0 Hj0) as D. assert (B : f 1 j0 = false).
      { pose proof (Sf j0 j0 Hj0 Hj0) as F. rewrite (Esum j0 j0 Hj0 Hj0 Nj0), (HS j0 j0 Hj0 Hj0), (HD j0 Hj0), Nat.eqb_refl, andb_false_r, xorb_nilpotent in F. cbn in F. destruct (f 1 j0); [discriminate|reflexivity]. }
      rewrite <- E, B, andb_false_r in D. discriminate. }
  split; [exact Hno|]. assert (Hn : n <> 0) by lia. destruct (are_lc_run n G H form Hn HG HH) as (B & _ & _ & _ & _ & Er).
  destruct (search_nullspace (4 * n) B) as [v|] eqn:Ev; [exfalso|exact Er]. destruct form; [| |congruence].
  - pose proof (C26_lc_sound n G H FTensor _ _ HG HH Er) as (_ & HQ & HM). apply Hno. eexists. split; eassumption.
  - pose proof (C26_lc_sound n G H FGlobal _ _ HG HH Er) as (_ & Q & HQ & HM & _). apply Hno. exists Q. split; assumption.
Qed.
