(* LcGraphs.v: what the search for a local Clifford operation finds for stars, complete graphs, connected bipartite graphs and rigid
   graphs of every size, whatever the order of the nodes. *)
From Verif Require Import Base LinModel LinSpec LinProofs LinNull LinLc PropsLin LcPivot.
Open Scope nat_scope.

(* ---------- sums ---------- *)
Lemma bsum_true n : bsum n (fun _ => true) = Nat.odd n.
Proof. induction n as [|n IH]; [reflexivity|]. rewrite bsum_front, IH, Nat.odd_succ, <- Nat.negb_odd. destruct (Nat.odd n); reflexivity. Qed.
Lemma bsum_const n x : bsum n (fun _ => x) = x && Nat.odd n.
Proof. destruct x; [apply bsum_true|apply bsum_zero; reflexivity]. Qed.
Lemma bsum_except n c g : c < n -> bsum n (fun i => negb (i =? c) && g i) = xorb (bsum n g) (g c).
Proof.
  intros Hc. rewrite (bsum_ext n _ (fun i => xorb (g i) ((i =? c) && g i))) by (intros i _; destruct (i =? c), (g i); reflexivity).
  rewrite bsum_xor, (bsum_single n (fun i => (i =? c) && g i) c Hc); [rewrite Nat.eqb_refl; reflexivity|]. intros i _ Hi. apply Nat.eqb_neq in Hi. rewrite Hi. reflexivity.
Qed.
Lemma bsum_except2 n c k g : c < n -> k < n -> c <> k -> bsum n (fun i => negb (i =? c) && negb (i =? k) && g i) = xorb (xorb (bsum n g) (g k)) (g c).
Proof.
  intros Hc Hk Hne. rewrite (bsum_ext n _ (fun i => negb (i =? c) && (negb (i =? k) && g i))) by (intros; symmetry; apply andb_assoc).
  rewrite (bsum_except n c (fun i => negb (i =? k) && g i) Hc), (bsum_except n k g Hk). apply Nat.eqb_neq in Hne. rewrite Hne. reflexivity.
Qed.
Lemma bsum_at n c g : c < n -> bsum n (fun i => (i =? c) && g i) = g c.
Proof. intros Hc. rewrite (bsum_single n _ c Hc); [rewrite Nat.eqb_refl; reflexivity|]. intros i _ Hi. apply Nat.eqb_neq in Hi. rewrite Hi. reflexivity. Qed.

(* ---------- solutions as four functions of the qubit ---------- *)
Section Blocks.
  Variable n : nat. Variables G H : bmat.
  Hypothesis Hn : n <> 0. Hypothesis HG : graph_matrix n G. Hypothesis HH : graph_matrix n H.
  (* f 0, f 1, f 2, f 3: the entries a, b, c, d of the qubits *)
  Definition solves (f : nat -> nat -> bool) : Prop := forall j k, j < n -> k < n ->
    xorb (ent G j k && f 0 k) (xorb ((k =? j) && f 1 j) (xorb (bsum n (fun i => ent G i j && ent H i k && f 2 i)) (ent H j k && f 3 j))) = false.
  Definition vec (f : nat -> nat -> bool) : row := map (fun j => f (j / n) (j mod n)) (seq 0 (4 * n)).
  Lemma vec_length f : length (vec f) = 4 * n.
  Proof. apply seq_map_length. Qed.
  Lemma vec_at f m i : m < 4 -> i < n -> nth (i + m * n) (vec f) false = f m i.
  Proof.
    intros Hm Hi. unfold vec. rewrite seq_map_nth by nia. rewrite Nat.div_add, Nat.mod_add by lia. rewrite Nat.div_small, Nat.mod_small by lia. reflexivity.
  Qed.
  Lemma vec_solves f : solves f -> nullvec (lc_constraint_system n G H) (vec f).
  Proof.
    intros Hf. apply null_constr; [apply vec_length|]. intros j k Hj Hk. unfold constr, va. rewrite !vec_at by lia.
    rewrite (bsum_ext n _ (fun i => ent G i j && ent H i k && f 2 i)) by (intros i Hi; rewrite vec_at by lia; reflexivity). apply Hf; assumption.
  Qed.
  Lemma null_solves v : length v = 4 * n -> nullvec (lc_constraint_system n G H) v -> solves (va n v).
  Proof. intros Hv Hnull j k Hj Hk. apply (proj1 (null_constr n G H v Hv) Hnull j k Hj Hk). Qed.
  Definition dets (f : nat -> nat -> bool) : Prop := forall i, i < n -> xorb (f 0 i && f 3 i) (f 1 i && f 2 i) = true.
  Lemma vec_sat f : dets f -> sat n (vec f) = true.
  Proof.
    intros Hf. apply forallb_forall. intros k Hk. apply in_seq in Hk. pose proof (vec_at f 0 k ltac:(lia) ltac:(lia)) as E. rewrite Nat.mul_0_l, Nat.add_0_r in E. rewrite E.
    replace (k + n) with (k + 1 * n) by lia. rewrite !vec_at by lia. apply Hf. lia.
  Qed.
  (* the first one of f is the entry m of qubit i *)
  Definition begins (f : nat -> nat -> bool) (m i : nat) : Prop :=
    f m i = true /\ forall m' i', i' < n -> m' < m \/ (m' = m /\ i' < i) -> f m' i' = false.
  Lemma block j : j < 4 * n -> exists m i, j = i + m * n /\ i < n /\ m < 4.
  Proof.
    intros Hj. exists (j / n), (j mod n). split; [rewrite (Nat.mul_comm (j / n)), Nat.add_comm; apply Nat.div_mod; lia|]. split; [apply Nat.mod_upper_bound; lia|]. apply Nat.div_lt_upper_bound; lia.
  Qed.
  Lemma leads_of f m i : m < 4 -> i < n -> solves f -> begins f m i -> leads n G H (i + m * n).
  Proof.
    intros Hm Hi Hf [H1 H2]. exists (vec f). split; [apply vec_length|]. split; [apply vec_solves, Hf|]. split; [rewrite vec_at by assumption; exact H1|].
    intros k Hk. destruct (block k) as (m' & i' & -> & Hi' & Hm'); [nia|]. rewrite vec_at by assumption. apply H2; [exact Hi'|].
    destruct (Nat.lt_trichotomy m' m) as [L|[->|L]]; [left; exact L|right; split; [reflexivity|lia]|nia].
  Qed.
  Theorem found f m1 i1 m2 i2 form : m1 < 4 -> i1 < n -> m2 < 4 -> i2 < n -> (m1, i1) <> (m2, i2) -> solves f -> dets f -> f m1 i1 = true -> f m2 i2 = true ->
    (exists g, solves g /\ begins g m1 i1) -> (exists g, solves g /\ begins g m2 i2) ->
    (forall g m i, m < 4 -> i < n -> f m i = true -> solves g -> begins g m i -> (m, i) = (m1, i1) \/ (m, i) = (m2, i2)) -> form <> FOther ->
    exists c, are_lc_equivalent G H form = Ok (true, Some c).
  Proof.
    intros Hm1 Hi1 Hm2 Hi2 Hne Hf Hd F1 F2 (g1 & G1 & B1) (g2 & G2 & B2) Honly Hform.
    apply (two_leads n G H Hn HG HH (vec f) (i1 + m1 * n) (i2 + m2 * n) form); [apply vec_length|apply vec_solves, Hf|apply vec_sat, Hd| | | | | | |exact Hform].
    - intros E. apply Hne. assert (m1 = m2) by (destruct (Nat.lt_trichotomy m1 m2) as [L|[L|L]]; [nia|exact L|nia]). subst m2. f_equal. lia.
    - rewrite vec_at by assumption. exact F1.
    - rewrite vec_at by assumption. exact F2.
    - apply (leads_of g1); assumption.
    - apply (leads_of g2); assumption.
    - intros j Hj (v & Hv & Hnull & Vj & Vlow). destruct (block j) as (m & i & -> & Hi & Hm).
      { destruct (Nat.lt_ge_cases j (4 * n)) as [L|L]; [exact L|]. rewrite nth_overflow in Hj by (rewrite vec_length; exact L). discriminate. }
      rewrite vec_at in Hj by assumption. assert (E : (m, i) = (m1, i1) \/ (m, i) = (m2, i2)).
      { apply (Honly (va n v) m i Hm Hi Hj); [apply null_solves; assumption|]. split; [exact Vj|]. intros m' i' Hi' Hlt. apply Vlow. nia. }
      destruct E as [E|E]; injection E as -> ->; auto.
  Qed.
  (* if every solution is 0 or the identity, the answer is negative *)
  Theorem not_found form : (forall f, solves f -> (forall m i, m < 4 -> i < n -> f m i = false) \/ (forall m i, m < 4 -> i < n -> f m i = ((m =? 0) || (m =? 3)))) ->
    are_lc_equivalent G H form = Ok (false, None).
  Proof.
    intros Hall. apply (one_solution n G H Hn HG HH). assert (W : forall v, length v = 4 * n -> nullvec (lc_constraint_system n G H) v -> v <> zeros (4 * n) ->
      v = vec (fun m _ => (m =? 0) || (m =? 3))).
    { intros v Hv Hnull Hz. destruct (Hall _ (null_solves v Hv Hnull)) as [E|E].
      - exfalso. apply Hz. apply row_ext; [rewrite zeros_length; exact Hv|]. intros j Hj. rewrite zeros_nth. destruct (block j) as (m & i & -> & Hi & Hm); [lia|]. apply (E m i Hm Hi).
      - apply row_ext; [rewrite vec_length; exact Hv|]. intros j Hj. destruct (block j) as (m & i & -> & Hi & Hm); [lia|]. rewrite vec_at by assumption. apply (E m i Hm Hi). }
    intros v w Hv Hw Nv Nw Zv Zw. rewrite (W v Hv Nv Zv), (W w Hw Nw Zw). reflexivity.
  Qed.
End Blocks.

Lemma odd_pred n : n <> 0 -> Nat.odd n = negb (Nat.odd (n - 1)).
Proof. destruct n as [|n]; [contradiction|]. intros _. rewrite Nat.odd_succ, <- Nat.negb_odd. cbn [Nat.sub]. rewrite Nat.sub_0_r. reflexivity. Qed.
Definition is_star (n c : nat) (G : bmat) : Prop := c < n /\ forall i j, i < n -> j < n -> ent G i j = xorb (i =? c) (j =? c).
Definition is_complete (n : nat) (G : bmat) : Prop := forall i j, i < n -> j < n -> ent G i j = negb (i =? j).

(* ---------- star and complete graph ---------- *)
Section StarComplete.
  Variables n c : nat. Variables S K : bmat.
  Hypothesis H3 : 3 <= n. Hypothesis HS : is_star n c S. Hypothesis HK : is_complete n K.
  Let Hc : c < n := proj1 HS.
  (* the neighbours of j in the star, without k *)
  Lemma sum_SK j k g : j < n -> k < n -> bsum n (fun i => ent S i j && ent K i k && g i) =
    if j =? c then (if k =? c then xorb (bsum n g) (g c) else xorb (xorb (bsum n g) (g k)) (g c)) else negb (c =? k) && g c.
  Proof.
    intros Hj Hk. destruct (Nat.eqb_spec j c) as [->|Hjc].
    - rewrite (bsum_ext n _ (fun i => negb (i =? c) && negb (i =? k) && g i)).
      + destruct (Nat.eqb_spec k c) as [->|Hkc]; [|apply bsum_except2; auto]. rewrite <- (bsum_except n c g Hc). apply bsum_ext. intros i _. destruct (i =? c); reflexivity.
      + intros i Hi. rewrite (proj2 HS i c Hi Hc), (HK i k Hi Hk), Nat.eqb_refl, xorb_true_r. reflexivity.
    - rewrite (bsum_single n _ c Hc).
      + rewrite (proj2 HS c j Hc Hj), (HK c k Hc Hk), Nat.eqb_refl. apply Nat.eqb_neq in Hjc. rewrite Hjc. reflexivity.
      + intros i Hi Hne. rewrite (proj2 HS i j Hi Hj). apply Nat.eqb_neq in Hjc, Hne. rewrite Hjc, Hne. reflexivity.
  Qed.
  Lemma sum_KS j k g : j < n -> k < n -> bsum n (fun i => ent K i j && ent S i k && g i) =
    if k =? c then (if j =? c then xorb (bsum n g) (g c) else xorb (xorb (bsum n g) (g j)) (g c)) else negb (c =? j) && g c.
  Proof. intros Hj Hk. rewrite <- (sum_SK k j g Hk Hj). apply bsum_ext. intros i _. rewrite (andb_comm (ent K i j)). reflexivity. Qed.

  (* the equations of S -> K *)
  Definition sk (f : nat -> nat -> bool) : Prop :=
    (forall j, j < n -> j <> c -> f 1 j = f 2 c /\ f 3 j = f 0 c /\ f 3 j = f 2 c /\ f 0 j = xorb (xorb (xorb (bsum n (f 2)) (f 2 c)) (f 2 j)) (f 3 c)) /\
    f 1 c = xorb (bsum n (f 2)) (f 2 c).
  Lemma other j : j < n -> exists k, k < n /\ k <> j /\ k <> c.
  Proof.
    intros Hj. destruct (Nat.eq_dec 0 j) as [E0|N0]; destruct (Nat.eq_dec 0 c) as [F0|M0]; destruct (Nat.eq_dec 1 j) as [E1|N1]; destruct (Nat.eq_dec 1 c) as [F1|M1];
      try (exists 0; lia); try (exists 1; lia); exists 2; lia.
  Qed.
  Lemma sk_iff f : solves n S K f <-> sk f.
  Proof.
    split.
    - intros Hf. assert (E : forall j k, j < n -> k < n -> xorb (xorb (j =? c) (k =? c) && f 0 k) (xorb ((k =? j) && f 1 j) (xorb (if j =? c then (if k =? c then xorb (bsum n (f 2)) (f 2 c) else xorb (xorb (bsum n (f 2)) (f 2 k)) (f 2 c)) else negb (c =? k) && f 2 c) (negb (j =? k) && f 3 j))) = false).
      { intros j k Hj Hk. rewrite <- (sum_SK j k (f 2) Hj Hk), <- (proj2 HS j k Hj Hk), <- (HK j k Hj Hk). apply Hf; assumption. }
      clear Hf. split.
      + intros j Hj Hjc. destruct (other j Hj) as (k & Hk & Hkj & Hkc).
        pose proof (E j j Hj Hj) as E1. pose proof (E j c Hj Hc) as E2. pose proof (E j k Hj Hk) as E3. pose proof (E c j Hc Hj) as E4.
        assert (N1 : (j =? c) = false) by (apply Nat.eqb_neq; exact Hjc). assert (N2 : (c =? j) = false) by (apply Nat.eqb_neq; congruence). assert (N3 : (k =? c) = false) by (apply Nat.eqb_neq; exact Hkc).
        assert (N4 : (c =? k) = false) by (apply Nat.eqb_neq; congruence). assert (N5 : (k =? j) = false) by (apply Nat.eqb_neq; exact Hkj). assert (N6 : (j =? k) = false) by (apply Nat.eqb_neq; congruence).
        rewrite ?Nat.eqb_refl, ?N1, ?N2, ?N3, ?N4, ?N5, ?N6 in E1. rewrite ?Nat.eqb_refl, ?N1, ?N2, ?N3, ?N4, ?N5, ?N6 in E2. rewrite ?Nat.eqb_refl, ?N1, ?N2, ?N3, ?N4, ?N5, ?N6 in E3. rewrite ?Nat.eqb_refl, ?N1, ?N2, ?N3, ?N4, ?N5, ?N6 in E4. clear E N1 N2 N3 N4 N5 N6.
        cbn [negb andb xorb] in *. destruct (f 0 j), (f 0 c), (f 1 j), (f 2 c), (f 2 j), (f 3 j), (f 3 c), (bsum n (f 2)); cbn in *; try discriminate; repeat split; reflexivity.
      + pose proof (E c c Hc Hc) as E1. rewrite ?Nat.eqb_refl in E1. cbn [negb andb xorb] in E1. destruct (f 1 c), (f 2 c), (bsum n (f 2)); cbn in *; try discriminate; reflexivity.
    - intros [F1 F2] j k Hj Hk. rewrite (sum_SK j k (f 2) Hj Hk), (proj2 HS j k Hj Hk), (HK j k Hj Hk).
      destruct (Nat.eqb_spec j c) as [->|Hjc].
      + destruct (Nat.eqb_spec k c) as [->|Hkc].
        * rewrite Nat.eqb_refl, F2. cbn. destruct (f 2 c), (bsum n (f 2)); reflexivity.
        * destruct (F1 k Hk Hkc) as (_ & _ & _ & A). assert (N : (c =? k) = false) by (apply Nat.eqb_neq; congruence). rewrite N, A. cbn. destruct (f 2 c), (f 2 k), (f 3 c), (bsum n (f 2)); reflexivity.
      + destruct (F1 j Hj Hjc) as (A1 & A2 & A3 & _). rewrite A1. destruct (Nat.eqb_spec k c) as [->|Hkc].
        * assert (N : (c =? j) = false) by (apply Nat.eqb_neq; congruence). assert (N' : (j =? c) = false) by (apply Nat.eqb_neq; congruence). rewrite N, N', A2, Nat.eqb_refl. cbn. destruct (f 0 c), (f 2 c); reflexivity.
        * assert (N : (c =? k) = false) by (apply Nat.eqb_neq; congruence). rewrite N, A3. destruct (Nat.eqb_spec k j) as [->|Hkj]; [rewrite Nat.eqb_refl; cbn; destruct (f 2 c); reflexivity|].
          assert (N' : (j =? k) = false) by (apply Nat.eqb_neq; congruence). rewrite N'. cbn. destruct (f 2 c); reflexivity.
  Qed.
  Let first := if c =? 0 then 1 else 0.
  Lemma first_ok : first < n /\ first <> c /\ forall i, i < first -> i = c.
  Proof. unfold first. destruct (Nat.eqb_spec c 0); (split; [lia|split; [lia|intros i Hi; lia]]). Qed.

  Theorem star_to_complete form : graph_matrix n S -> graph_matrix n K -> form <> FOther -> exists q, are_lc_equivalent S K form = Ok (true, Some q).
  Proof.
    intros GS GK Hform. set (o := Nat.odd (n - 1)). destruct first_ok as (Hf1 & Hf2 & Hf3).
    set (f := fun m i => match m with 0 => i =? c | 1 => if i =? c then o else true | 2 => true | _ => if i =? c then negb o else true end).
    set (w := fun m i => match m with 0 => false | 1 => (i =? c) && o | 2 => negb (i =? c) | _ => (i =? c) && negb o end).
    assert (Sf : solves n S K f).
    { apply sk_iff. unfold sk, f. rewrite bsum_true, odd_pred by lia. fold o. rewrite Nat.eqb_refl. split; [|destruct o; reflexivity]. intros j Hj Hjc. apply Nat.eqb_neq in Hjc. rewrite Hjc. destruct o; auto. }
    assert (Sw : solves n S K w).
    { apply sk_iff. unfold sk, w. assert (Eb : bsum n (fun i => negb (i =? c)) = o).
      { rewrite (bsum_ext n _ (fun i => negb (i =? c) && true)) by (intros; symmetry; apply andb_true_r). rewrite (bsum_except n c (fun _ => true) Hc), bsum_true, odd_pred by lia. fold o. destruct o; reflexivity. }
      rewrite Eb, Nat.eqb_refl. split; [|destruct o; reflexivity]. intros j Hj Hjc. apply Nat.eqb_neq in Hjc. rewrite Hjc. destruct o; auto. }
    apply (found n S K ltac:(lia) GS GK f 0 c (if o then 1 else 2) (if o then c else first) form).
    - lia.
    - exact Hc.
    - destruct o; lia.
    - destruct o; [exact Hc|exact Hf1].
    - destruct o; discriminate.
    - exact Sf.
    - intros i Hi. unfold f. destruct (i =? c), o; reflexivity.
    - unfold f. apply Nat.eqb_refl.
    - unfold f. destruct o; [rewrite Nat.eqb_refl|]; reflexivity.
    - exists f. split; [exact Sf|]. split; [unfold f; apply Nat.eqb_refl|]. intros m' i' Hi' [L|[-> L]]; [lia|]. unfold f. apply Nat.eqb_neq. lia.
    - exists w. split; [exact Sw|]. destruct o; (split; [unfold w|]).
      + rewrite Nat.eqb_refl. reflexivity.
      + intros m' i' Hi' [L|[-> L]]; unfold w; [destruct m' as [|]; [reflexivity|lia]|]. assert (N : (i' =? c) = false) by (apply Nat.eqb_neq; lia). rewrite N. reflexivity.
      + apply Nat.eqb_neq in Hf2. rewrite Hf2. reflexivity.
      + intros m' i' Hi' [L|[-> L]]; unfold w; [destruct m' as [|[|]]; [reflexivity|apply andb_false_r|lia]|]. rewrite (Hf3 i' L), Nat.eqb_refl. reflexivity.
    - intros g m i Hm Hi Fi Hg (B1 & B2). apply sk_iff in Hg. destruct Hg as [G1 G2]. destruct m as [|[|[|m]]].
      + left. unfold f in Fi. apply Nat.eqb_eq in Fi. rewrite Fi. reflexivity.
      + assert (A : forall k, k < n -> g 0 k = false) by (intros k Hk; apply B2; [exact Hk|lia]). destruct (Nat.eq_dec i c) as [->|Hic].
        * unfold f in Fi. rewrite Nat.eqb_refl in Fi. rewrite Fi. right. reflexivity.
        * exfalso. destruct (G1 i Hi Hic) as (E1 & E2 & E3 & _). rewrite E1, <- E3, E2, (A c Hc) in B1. discriminate.
      + assert (A : forall k, k < n -> g 0 k = false) by (intros k Hk; apply B2; [exact Hk|lia]). assert (B : forall k, k < n -> g 1 k = false) by (intros k Hk; apply B2; [exact Hk|lia]).
        assert (Cc : g 2 c = false) by (destruct (G1 first Hf1 Hf2) as (E1 & _); rewrite <- E1; apply B, Hf1).
        assert (Hic : i <> c) by (intros ->; rewrite Cc in B1; discriminate).
        assert (Eq : forall k, k < n -> k <> c -> g 2 k = true).
        { intros k Hk Hkc. destruct (G1 k Hk Hkc) as (_ & _ & _ & E4). destruct (G1 i Hi Hic) as (_ & _ & _ & E4'). rewrite A in E4, E4' by assumption. rewrite Cc in E4, E4'. rewrite B1 in E4'.
          clear - E4 E4'. destruct (g 2 k), (g 3 c), (bsum n (g 2)); cbn in *; congruence. }
        assert (Hif : i = first).
        { destruct (Nat.lt_trichotomy i first) as [L|[L|L]]; [exfalso; apply Hic, Hf3, L|exact L|]. exfalso. pose proof (Eq first Hf1 Hf2) as E. rewrite (B2 2 first Hf1 ltac:(lia)) in E. discriminate. }
        destruct o eqn:Eo; [exfalso|right; rewrite Hif; reflexivity].
        assert (Es : bsum n (g 2) = true).
        { rewrite (bsum_ext n _ (fun k => negb (k =? c) && true)).
          - rewrite (bsum_except n c (fun _ => true) Hc), bsum_true, odd_pred by lia. fold o. rewrite Eo. reflexivity.
          - intros k Hk. destruct (Nat.eqb_spec k c) as [->|Hkc]; [exact Cc|apply Eq; assumption]. }
        rewrite Es, Cc, (B c Hc) in G2. discriminate.
      + exfalso. assert (A : forall m' k, m' < 3 -> k < n -> g m' k = false) by (intros m' k Hm' Hk; apply B2; [exact Hk|lia]).
        assert (m = 0) by lia. subst m. destruct (Nat.eq_dec i c) as [->|Hic].
        * destruct (G1 first Hf1 Hf2) as (_ & _ & _ & E4). rewrite (bsum_zero n (g 2)) in E4 by (intros; apply A; lia). rewrite (A 0 first), (A 2 c), (A 2 first), B1 in E4 by lia. discriminate.
        * destruct (G1 i Hi Hic) as (_ & E2 & _). rewrite (A 0 c), B1 in E2 by lia. discriminate.
    - exact Hform.
  Qed.

  (* the equations of K -> S *)
  Definition ks (f : nat -> nat -> bool) : Prop :=
    (forall j, j < n -> j <> c -> f 1 j = f 2 c /\ f 0 j = f 2 c /\ f 0 j = f 3 c /\ f 3 j = xorb (xorb (xorb (bsum n (f 2)) (f 2 c)) (f 2 j)) (f 0 c)) /\
    f 1 c = xorb (bsum n (f 2)) (f 2 c).
  Lemma ks_iff f : solves n K S f <-> ks f.
  Proof.
    split.
    - intros Hf. assert (E : forall j k, j < n -> k < n -> xorb (negb (j =? k) && f 0 k) (xorb ((k =? j) && f 1 j) (xorb (if k =? c then (if j =? c then xorb (bsum n (f 2)) (f 2 c) else xorb (xorb (bsum n (f 2)) (f 2 j)) (f 2 c)) else negb (c =? j) && f 2 c) (xorb (j =? c) (k =? c) && f 3 j))) = false).
      { intros j k Hj Hk. rewrite <- (sum_KS j k (f 2) Hj Hk), <- (proj2 HS j k Hj Hk), <- (HK j k Hj Hk). apply Hf; assumption. }
      clear Hf. split.
      + intros j Hj Hjc. destruct (other j Hj) as (k & Hk & Hkj & Hkc).
        pose proof (E j j Hj Hj) as E1. pose proof (E j c Hj Hc) as E2. pose proof (E k j Hk Hj) as E3. pose proof (E c j Hc Hj) as E4.
        assert (N1 : (j =? c) = false) by (apply Nat.eqb_neq; exact Hjc). assert (N2 : (c =? j) = false) by (apply Nat.eqb_neq; congruence). assert (N3 : (k =? c) = false) by (apply Nat.eqb_neq; exact Hkc).
        assert (N4 : (c =? k) = false) by (apply Nat.eqb_neq; congruence). assert (N5 : (k =? j) = false) by (apply Nat.eqb_neq; exact Hkj). assert (N6 : (j =? k) = false) by (apply Nat.eqb_neq; congruence).
        rewrite ?Nat.eqb_refl, ?N1, ?N2, ?N3, ?N4, ?N5, ?N6 in E1. rewrite ?Nat.eqb_refl, ?N1, ?N2, ?N3, ?N4, ?N5, ?N6 in E2. rewrite ?Nat.eqb_refl, ?N1, ?N2, ?N3, ?N4, ?N5, ?N6 in E3. rewrite ?Nat.eqb_refl, ?N1, ?N2, ?N3, ?N4, ?N5, ?N6 in E4. clear E N1 N2 N3 N4 N5 N6.
        cbn [negb andb xorb] in *. destruct (f 0 j), (f 0 c), (f 1 j), (f 2 c), (f 2 j), (f 3 j), (f 3 c), (bsum n (f 2)); cbn in *; try discriminate; repeat split; reflexivity.
      + pose proof (E c c Hc Hc) as E1. rewrite ?Nat.eqb_refl in E1. cbn [negb andb xorb] in E1. destruct (f 1 c), (f 2 c), (bsum n (f 2)); cbn in *; try discriminate; reflexivity.
    - intros [F1 F2] j k Hj Hk. rewrite (sum_KS j k (f 2) Hj Hk), (proj2 HS j k Hj Hk), (HK j k Hj Hk).
      destruct (Nat.eqb_spec k c) as [->|Hkc].
      + destruct (Nat.eqb_spec j c) as [->|Hjc].
        * rewrite Nat.eqb_refl, F2. cbn. destruct (f 2 c), (bsum n (f 2)); reflexivity.
        * destruct (F1 j Hj Hjc) as (_ & _ & _ & A). assert (N : (c =? j) = false) by (apply Nat.eqb_neq; congruence). rewrite N, A. cbn. destruct (f 0 c), (f 2 c), (f 2 j), (bsum n (f 2)); reflexivity.
      + destruct (F1 k Hk Hkc) as (A1 & A2 & A3 & _). destruct (Nat.eqb_spec j c) as [->|Hjc].
        * assert (N : (c =? k) = false) by (apply Nat.eqb_neq; congruence). assert (N' : (k =? c) = false) by (apply Nat.eqb_neq; congruence). rewrite N, N', A3, Nat.eqb_refl. cbn. destruct (f 3 c); reflexivity.
        * destruct (F1 j Hj Hjc) as (B1 & _). assert (N : (c =? j) = false) by (apply Nat.eqb_neq; congruence). rewrite N, A2, B1. destruct (Nat.eqb_spec j k) as [->|Hkj]; [rewrite Nat.eqb_refl; cbn; destruct (f 2 c); reflexivity|].
          assert (N' : (k =? j) = false) by (apply Nat.eqb_neq; congruence). rewrite N'. cbn. destruct (f 2 c); reflexivity.
  Qed.
  Theorem complete_to_star form : graph_matrix n S -> graph_matrix n K -> form <> FOther -> exists q, are_lc_equivalent K S form = Ok (true, Some q).
  Proof.
    intros GS GK Hform. destruct first_ok as (Hf1 & Hf2 & Hf3).
    set (f := fun m i => match m with 0 => true | 1 => negb (i =? c) | 2 => i =? c | _ => true end).
    set (g1 := fun m i => match m with 0 => negb (i =? c) | 1 => negb (i =? c) | 2 => i =? c | _ => i =? c end).
    set (g2 := fun m i => match m with 0 => i =? c | 1 => false | 2 => false | _ => negb (i =? c) end).
    assert (Ec : bsum n (fun i => i =? c) = true) by (rewrite (bsum_ext n _ (fun i => (i =? c) && true)) by (intros; symmetry; apply andb_true_r); apply (bsum_at n c (fun _ => true) Hc)).
    assert (Ez : bsum n (fun _ => false) = false) by (apply bsum_zero; reflexivity).
    assert (Sf : solves n K S f) by (apply ks_iff; unfold ks, f; rewrite Ec, Nat.eqb_refl; split; [|reflexivity]; intros j Hj Hjc; apply Nat.eqb_neq in Hjc; rewrite Hjc; auto).
    assert (S1 : solves n K S g1) by (apply ks_iff; unfold ks, g1; rewrite Ec, Nat.eqb_refl; split; [|reflexivity]; intros j Hj Hjc; apply Nat.eqb_neq in Hjc; rewrite Hjc; auto).
    assert (S2 : solves n K S g2) by (apply ks_iff; unfold ks, g2; rewrite Ez, Nat.eqb_refl; split; [|reflexivity]; intros j Hj Hjc; apply Nat.eqb_neq in Hjc; rewrite Hjc; auto).
    apply (found n K S ltac:(lia) GK GS f 0 first 0 c form).
    - lia.
    - exact Hf1.
    - lia.
    - exact Hc.
    - intros E. injection E as E. contradiction.
    - exact Sf.
    - intros i Hi. unfold f. destruct (i =? c); reflexivity.
    - reflexivity.
    - reflexivity.
    - exists g1. split; [exact S1|]. split; [unfold g1; apply Nat.eqb_neq in Hf2; rewrite Hf2; reflexivity|]. intros m' i' Hi' [L|[-> L]]; [lia|]. unfold g1. rewrite (Hf3 i' L), Nat.eqb_refl. reflexivity.
    - exists g2. split; [exact S2|]. split; [apply Nat.eqb_refl|]. intros m' i' Hi' [L|[-> L]]; [lia|]. apply Nat.eqb_neq. lia.
    - intros g m i Hm Hi Fi Hg (B1 & B2). apply ks_iff in Hg. destruct Hg as [G1 G2]. destruct m as [|[|[|m]]].
      + destruct (Nat.eq_dec i c) as [->|Hic]; [right; reflexivity|left]. destruct (Nat.lt_trichotomy i first) as [L|[->|L]]; [exfalso; apply Hic, Hf3, L|reflexivity|exfalso].
        destruct (G1 i Hi Hic) as (_ & E2 & _). destruct (G1 first Hf1 Hf2) as (_ & E2' & _). rewrite (B2 0 first Hf1 ltac:(lia)) in E2'. rewrite B1, <- E2' in E2. discriminate.
      + exfalso. destruct (Nat.eq_dec i c) as [->|Hic]; [unfold f in Fi; rewrite Nat.eqb_refl in Fi; discriminate|]. destruct (G1 i Hi Hic) as (E1 & E2 & _). rewrite E1, <- E2, (B2 0 i Hi ltac:(lia)) in B1. discriminate.
      + exfalso. unfold f in Fi. apply Nat.eqb_eq in Fi. subst i. destruct (G1 first Hf1 Hf2) as (_ & E2 & _). rewrite <- E2, (B2 0 first Hf1 ltac:(lia)) in B1. discriminate.
      + exfalso. assert (A : forall m' k, m' < 3 -> k < n -> g m' k = false) by (intros m' k Hm' Hk; apply B2; [exact Hk|lia]). assert (m = 0) by lia. subst m. destruct (Nat.eq_dec i c) as [->|Hic].
        * destruct (G1 first Hf1 Hf2) as (_ & _ & E3 & _). rewrite (A 0 first), B1 in E3 by lia. discriminate.
        * destruct (G1 i Hi Hic) as (_ & _ & _ & E4). rewrite (bsum_zero n (g 2)) in E4 by (intros; apply A; lia). rewrite (A 0 c), (A 2 c), (A 2 i), B1 in E4 by lia. discriminate.
    - exact Hform.
  Qed.
End StarComplete.
