(* PropsSwap.v: C75, the distribution of the p-squeezed states under a swap-out probability. *)
From Coq Require Import Reals Lra String Permutation Binomial Factorial.
From Verif Require Import Base Lattice RhgModel RhgSpec SurfaceModel SurfaceSpec SurfaceProofs GkpModel OpsModel CvModel CvSpec CvProofs CvSurface PropsCv.
Open Scope R_scope.

(* ---------- specification: the documented distributions of the numpy generator ---------- *)
(* the ordered samples without replacement of size k from a list: the values of rng.choice(pool, size=k, replace=False),
   all equally likely *)
Fixpoint arrangements (pool : list nat) (k : nat) : list (list nat) :=
  match k with
  | O => [[]]
  | S k => flat_map (fun x => map (cons x) (arrangements (remove Nat.eq_dec x pool) k)) pool
  end.
(* rng.binomial(N, p): the number k with this probability *)
Definition binomial (N : nat) (p : R) (k : nat) : R := C N k * p ^ k * (1 - p) ^ (N - k).
Definition count_true {A} (E : A -> bool) (l : list A) : nat := List.length (filter E l).
(* probability that k = rng.binomial(N, p) followed by rng.choice(range(N), size=k, replace=False) satisfies E *)
Definition prob_indices (N : nat) (p : R) (E : list nat -> bool) : R :=
  sumR (map (fun k => binomial N p k * (INR (count_true E (arrangements (seq 0 N) k)) / INR (List.length (arrangements (seq 0 N) k)))) (seq 0 (S N))).

(* the label of node i in a layer *)
Definition label_at (c : cv) (i : nat) : option string := match to_pt c i with Ok q => a_state (v_attr c q) | Err _ => None end.
Definition labelled (s : string) (c : cv) (i : nat) : bool := match label_at c i with Some t => String.eqb s t | None => false end.
(* the draws of one call, with the given indices *)
Definition with_p (d : draws) (inds : list nat) : draws :=
  {| d_p := inds; d_unif := d_unif d; d_bit := d_bit d; d_z := d_z d; d_z2 := d_z2 d; d_list := d_list d |}.

(* ---------- arrangements ---------- *)
Lemma NoDup_app_fst : forall (A : Type) (l m : list A), NoDup (l ++ m) -> NoDup l.
Proof. intros A l m. induction l as [|x l IH]; intros H; [constructor|]. cbn [app] in H. apply NoDup_cons_iff in H. destruct H as [H1 H2]. constructor; [intros Hx; apply H1, in_or_app; left; exact Hx|apply IH, H2]. Qed.
Lemma NoDup_app_snd : forall (A : Type) (l m : list A), NoDup (l ++ m) -> NoDup m.
Proof. intros A l m. induction l as [|x l IH]; intros H; [exact H|]. cbn [app] in H. apply NoDup_cons_iff in H. apply IH, H. Qed.
Lemma remove_count : forall x l, NoDup l -> In x l -> List.length l = S (List.length (remove Nat.eq_dec x l)) /\ NoDup (remove Nat.eq_dec x l).
Proof.
  intros x l. induction l as [|y l IH]; intros HN Hi; [destruct Hi|]. apply NoDup_cons_iff in HN. destruct HN as [Hy HN]. cbn [remove]. destruct (Nat.eq_dec x y) as [->|E].
  - rewrite notin_remove by exact Hy. split; [reflexivity|exact HN].
  - destruct Hi as [Hi|Hi]; [congruence|]. destruct (IH HN Hi) as [H1 H2]. split; [cbn [List.length]; rewrite H1; reflexivity|].
    apply NoDup_cons; [|exact H2]. intros H. apply in_remove in H. tauto.
Qed.
Lemma length_flat_map : forall A B (f : A -> list B) n l, (forall x, In x l -> List.length (f x) = n) -> List.length (flat_map f l) = (List.length l * n)%nat.
Proof.
  intros A B f n l. induction l as [|x l IH]; intros H; [reflexivity|]. cbn [flat_map List.length]. rewrite app_length, H, IH; [lia| |left; reflexivity]. intros y Hy. apply H. right. exact Hy.
Qed.
Lemma arr_length : forall k pool, NoDup pool -> (k <= List.length pool)%nat -> (List.length (arrangements pool k) * fact (List.length pool - k) = fact (List.length pool))%nat.
Proof.
  induction k as [|k IH]; intros pool HN Hk; [cbn [arrangements List.length]; rewrite Nat.sub_0_r; lia|]. cbn [arrangements].
  destruct (List.length pool) as [|m] eqn:El; [lia|].
  assert (E : exists L, (forall x, In x pool -> List.length (map (cons x) (arrangements (remove Nat.eq_dec x pool) k)) = L) /\ (L * fact (m - k) = fact m)%nat).
  { destruct pool as [|y pool']; [discriminate|]. exists (List.length (arrangements (remove Nat.eq_dec y (y :: pool')) k)).
    assert (K : forall x, In x (y :: pool') -> (List.length (arrangements (remove Nat.eq_dec x (y :: pool')) k) * fact (m - k) = fact m)%nat).
    { intros x Hx. destruct (remove_count x _ HN Hx) as [H1 H2]. rewrite El in H1. apply eq_add_S in H1. specialize (IH _ H2 ltac:(rewrite <- H1; lia)). rewrite <- H1 in IH. exact IH. }
    split; [|apply K; left; reflexivity]. intros x Hx. rewrite map_length. pose proof (K x Hx). pose proof (K y (or_introl eq_refl)). pose proof (lt_O_fact (m - k)). nia. }
  destruct E as (L & HL & HF). rewrite (length_flat_map _ _ _ L) by exact HL. rewrite El. cbn [Nat.sub]. cbn [fact]. nia.
Qed.
Lemma arr_in : forall k pool l, In l (arrangements pool k) <-> NoDup l /\ incl l pool /\ List.length l = k.
Proof.
  induction k as [|k IH]; intros pool l; cbn [arrangements].
  - split; [intros [<-|[]]; split; [constructor|split; [intros x []|reflexivity]]|]. intros (_ & _ & H). destruct l; [left; reflexivity|discriminate].
  - rewrite in_flat_map. split.
    + intros (x & Hx & H). apply in_map_iff in H. destruct H as (l' & <- & H). apply IH in H. destruct H as (H1 & H2 & H3). split; [|split].
      * constructor; [|exact H1]. intros Hi. apply H2 in Hi. apply in_remove in Hi. tauto.
      * intros y [<-|Hy]; [exact Hx|]. apply H2 in Hy. apply in_remove in Hy. tauto.
      * cbn [List.length]. rewrite H3. reflexivity.
    + intros (H1 & H2 & H3). destruct l as [|x l]; [discriminate|]. exists x. split; [apply H2; left; reflexivity|]. apply in_map. apply IH. apply NoDup_cons_iff in H1. destruct H1 as [H0 H1]. split; [exact H1|]. split.
      * intros y Hy. apply in_in_remove; [intros ->; contradiction|apply H2; right; exact Hy].
      * injection H3 as H3. exact H3.
Qed.
Lemma arr_NoDup : forall k pool, NoDup pool -> NoDup (arrangements pool k).
Proof.
  induction k as [|k IH]; intros pool HN; cbn [arrangements]; [constructor; [intros []|constructor]|].
  assert (G : forall q, NoDup q -> incl q pool -> NoDup (flat_map (fun x => map (cons x) (arrangements (remove Nat.eq_dec x pool) k)) q)).
  { induction q as [|x q IHq]; intros Hq Hi; [constructor|]. cbn [flat_map]. apply NoDup_cons_iff in Hq. destruct Hq as [Hx Hq]. apply NoDup_app_intro.
    - apply FinFun.Injective_map_NoDup; [intros l l' H; injection H as H; exact H|]. apply IH. apply (remove_count x pool HN). apply Hi. left. reflexivity.
    - apply IHq; [exact Hq|]. intros y Hy. apply Hi. right. exact Hy.
    - intros l H1 H2. apply in_map_iff in H1. destruct H1 as (l1 & <- & _). apply in_flat_map in H2. destruct H2 as (y & Hy & H2). apply in_map_iff in H2. destruct H2 as (l2 & E & _). injection E as -> _. contradiction. }
  apply G; [exact HN|apply incl_refl].
Qed.

(* arrangements whose elements are exactly those of a set *)
Definition is_set (pool S l : list nat) : bool := forallb (fun i => Bool.eqb (memn i l) (memn i S)) pool.
Lemma memn_iff : forall i l, memn i l = true <-> In i l.
Proof. intros i l. unfold memn. rewrite existsb_exists. split; [intros (x & H1 & H2); apply Nat.eqb_eq in H2; subst; exact H1|intros H; exists i; split; [exact H|apply Nat.eqb_refl]]. Qed.
Lemma is_set_iff : forall pool S l, is_set pool S l = true <-> (forall i, In i pool -> (In i l <-> In i S)).
Proof.
  intros pool S l. unfold is_set. rewrite forallb_forall. split; intros H i Hi; specialize (H i Hi).
  - apply Bool.eqb_prop in H. rewrite <- !memn_iff, H. reflexivity.
  - rewrite <- !memn_iff in H. destruct (memn i l), (memn i S); try reflexivity; destruct H as [H1 H2]; [discriminate (H1 eq_refl)|discriminate (H2 eq_refl)].
Qed.
Lemma filter_flat_map : forall A B (f : A -> list B) E l, filter E (flat_map f l) = flat_map (fun x => filter E (f x)) l.
Proof. intros A B f E l. induction l as [|x l IH]; [reflexivity|]. cbn [flat_map]. rewrite filter_app, IH. reflexivity. Qed.
Lemma filter_map : forall A B (f : A -> B) E l, filter E (map f l) = map f (filter (fun x => E (f x)) l).
Proof. intros A B f E l. induction l as [|x l IH]; [reflexivity|]. cbn [map filter]. destruct (E (f x)); cbn [map]; rewrite IH; reflexivity. Qed.
Lemma length_flat_map_if : forall A B (f : A -> list B) n (b : A -> bool) l, (forall x, In x l -> List.length (f x) = if b x then n else 0%nat) ->
  List.length (flat_map f l) = (List.length (filter b l) * n)%nat.
Proof.
  intros A B f n b l. induction l as [|x l IH]; intros H; [reflexivity|]. cbn [flat_map filter]. rewrite app_length, H, IH; [|intros y Hy; apply H; right; exact Hy|left; reflexivity]. destruct (b x); cbn [List.length]; lia.
Qed.
Lemma arr_set_count : forall k pool S, NoDup pool -> NoDup S -> incl S pool -> List.length S = k -> count_true (is_set pool S) (arrangements pool k) = fact k.
Proof.
  induction k as [|k IH]; intros pool S HN HS Hi Hl.
  - destruct S; [|discriminate]. cbn [arrangements]. unfold count_true. cbn [filter]. replace (is_set pool [] []) with true by (symmetry; apply is_set_iff; tauto). reflexivity.
  - cbn [arrangements]. unfold count_true. rewrite filter_flat_map. rewrite (length_flat_map_if _ _ _ (fact k) (fun x => memn x S)).
    + assert (E : List.length (filter (fun x => memn x S) pool) = List.length S).
      { apply Permutation_length. apply NoDup_Permutation; [apply NoDup_filter; exact HN|exact HS|]. intros x. rewrite filter_In, memn_iff. split; [tauto|]. intros H. split; [apply Hi|]; exact H. }
      rewrite E, Hl. cbn [fact]. lia.
    + intros x Hx. rewrite filter_map, map_length. destruct (memn x S) eqn:Ex.
      * apply memn_iff in Ex. destruct (remove_count x pool HN Hx) as [_ HN']. destruct (remove_count x S HS Ex) as [Hl' HS']. rewrite <- (IH (remove Nat.eq_dec x pool) (remove Nat.eq_dec x S) HN' HS'); [|intros y Hy; apply in_remove in Hy; apply in_in_remove; [tauto|apply Hi; tauto]|lia].
        unfold count_true. f_equal. apply filter_ext_in. intros l Hl0. apply arr_in in Hl0. destruct Hl0 as (_ & Hl0 & _). apply Bool.eq_true_iff_eq. rewrite !is_set_iff. split.
        -- intros H i Hin. apply in_remove in Hin. destruct Hin as [Hin Hne]. specialize (H i Hin). split; [intros Hil; apply in_in_remove; [exact Hne|apply H; right; exact Hil]|].
           intros Hil. apply in_remove in Hil. destruct Hil as [Hil _]. apply H in Hil. destruct Hil as [->|Hil]; [congruence|exact Hil].
        -- intros H i Hin. destruct (Nat.eq_dec i x) as [->|Hne]; [split; [intros _; exact Ex|left; reflexivity]|]. specialize (H i (in_in_remove _ _ Hne Hin)). split.
           ++ intros [->|Hil]; [congruence|]. apply H in Hil. apply in_remove in Hil. tauto.
           ++ intros HiS. right. apply H. apply in_in_remove; assumption.
      * assert (E : filter (fun l => is_set pool S (x :: l)) (arrangements (remove Nat.eq_dec x pool) k) = []); [|rewrite E; reflexivity].
        apply incl_l_nil. intros l Hl0. apply filter_In in Hl0. destruct Hl0 as [_ Hl0]. rewrite is_set_iff in Hl0. assert (In x S) by (apply Hl0; [exact Hx|left; reflexivity]). apply memn_iff in H. congruence.
Qed.
Lemma arr_set_none : forall k pool S, NoDup pool -> NoDup S -> incl S pool -> List.length S <> k -> count_true (is_set pool S) (arrangements pool k) = 0%nat.
Proof.
  intros k pool S HN HS Hi Hl. unfold count_true. assert (E : filter (is_set pool S) (arrangements pool k) = []); [|rewrite E; reflexivity].
  apply incl_l_nil. intros l H. exfalso. apply filter_In in H. destruct H as [H1 H2]. apply arr_in in H1. destruct H1 as (H1 & H3 & H4). rewrite is_set_iff in H2.
  apply Hl. rewrite <- H4. apply Permutation_length. apply NoDup_Permutation; [exact HS|exact H1|]. intros x. split; intros Hx; [apply (H2 x (Hi x Hx)); exact Hx|apply (H2 x (H3 x Hx)); exact Hx].
Qed.

(* ---------- probabilities ---------- *)
Lemma sumR_single : forall (f : nat -> R) n k, (k < n)%nat -> (forall j, (j < n)%nat -> j <> k -> f j = 0) -> sumR (map f (seq 0 n)) = f k.
Proof.
  intros f n k Hk H. assert (G : forall m s, (forall j, (s <= j < s + m)%nat -> j <> k -> f j = 0) -> sumR (map f (seq s m)) = if (s <=? k)%nat && (k <? s + m)%nat then f k else 0).
  { induction m as [|m IH]; intros s Hs; cbn [seq map sumR fold_right].
    - destruct (Nat.leb_spec s k); cbn [andb]; [|reflexivity]. destruct (Nat.ltb_spec k (s + 0)); [lia|reflexivity].
    - fold (sumR (map f (seq (S s) m))). rewrite IH by (intros j Hj; apply Hs; lia). destruct (Nat.eq_dec s k) as [->|E].
      + replace (k <=? k)%nat with true by (symmetry; apply Nat.leb_le; lia). replace (k <? k + S m)%nat with true by (symmetry; apply Nat.ltb_lt; lia). replace (S k <=? k)%nat with false by (symmetry; apply Nat.leb_gt; lia). cbn [andb]. lra.
      + rewrite (Hs s) by lia. replace (S s <=? k)%nat with (s <=? k)%nat by (destruct (Nat.leb_spec s k), (Nat.leb_spec (S s) k); lia || reflexivity). replace (S s + m)%nat with (s + S m)%nat by lia. lra. }
  rewrite G by (intros j Hj; apply H; lia). replace (k <? 0 + n)%nat with true by (symmetry; apply Nat.ltb_lt; lia). reflexivity.
Qed.
Lemma prob_set : forall N p S, NoDup S -> incl S (seq 0 N) -> prob_indices N p (is_set (seq 0 N) S) = p ^ List.length S * (1 - p) ^ (N - List.length S).
Proof.
  intros N p S HS Hi. assert (HL : (List.length S <= N)%nat) by (rewrite <- (seq_length N 0); apply NoDup_incl_length; assumption).
  pose proof (seq_NoDup N 0) as HN. unfold prob_indices. rewrite (sumR_single _ _ (List.length S)).
  - rewrite arr_set_count by (assumption || reflexivity). pose proof (arr_length (List.length S) (seq 0 N) HN ltac:(rewrite seq_length; lia)) as HA. rewrite seq_length in HA.
    apply (f_equal INR) in HA. rewrite mult_INR in HA. unfold binomial, C. set (L := INR (List.length (arrangements (seq 0 N) (List.length S)))) in *.
    pose proof (INR_fact_neq_0 N). pose proof (INR_fact_neq_0 (N - List.length S)). pose proof (INR_fact_neq_0 (List.length S)). rewrite <- HA in *.
    assert (L <> 0) by (intros E; rewrite E, Rmult_0_l in H; lra). field. repeat split; assumption.
  - lia.
  - intros k Hk Hne. rewrite arr_set_none by (assumption || lia). cbn [INR]. unfold Rdiv. rewrite Rmult_0_l, Rmult_0_r. reflexivity.
Qed.
Lemma prob_ext : forall N p E E', (forall l, NoDup l -> (forall i, In i l -> (i < N)%nat) -> E l = E' l) -> prob_indices N p E = prob_indices N p E'.
Proof.
  intros N p E E' H. unfold prob_indices. f_equal. apply map_ext_in. intros k _. do 2 f_equal. f_equal. unfold count_true. f_equal. apply filter_ext_in. intros l Hl. apply arr_in in Hl. destruct Hl as (H1 & H2 & _).
  apply H; [exact H1|]. intros i Hi. apply H2 in Hi. apply in_seq in Hi. lia.
Qed.
Lemma sumR_plus : forall A (f g : A -> R) l, sumR (map (fun x => f x + g x) l) = sumR (map f l) + sumR (map g l).
Proof. intros A f g l. induction l as [|x l IH]; cbn; [lra|]. unfold sumR in *. rewrite IH. lra. Qed.
Lemma prob_split : forall N p E F, prob_indices N p E = prob_indices N p (fun l => E l && F l) + prob_indices N p (fun l => E l && negb (F l)).
Proof.
  intros N p E F. unfold prob_indices. rewrite <- sumR_plus. f_equal. apply map_ext. intros k. rewrite <- Rmult_plus_distr_l. f_equal. unfold Rdiv. rewrite <- Rmult_plus_distr_r. f_equal. rewrite <- plus_INR. f_equal.
  unfold count_true. induction (arrangements (seq 0 N) k) as [|l a IH]; [reflexivity|]. cbn [filter]. destruct (E l), (F l); cbn [andb negb List.length]; lia.
Qed.
(* all of A and none of B *)
Definition pattern (A B l : list nat) : bool := forallb (fun i => memn i l) A && forallb (fun i => negb (memn i l)) B.
Lemma prob_pattern : forall N p A B, NoDup (A ++ B) -> incl (A ++ B) (seq 0 N) -> prob_indices N p (pattern A B) = p ^ List.length A * (1 - p) ^ List.length B.
Proof.
  intros N p A B. remember (N - List.length (A ++ B))%nat as m eqn:Em. revert A B Em. induction m as [|m IH]; intros A B Em HN Hi.
  - assert (HL : (List.length (A ++ B) <= N)%nat) by (rewrite <- (seq_length N 0); apply NoDup_incl_length; assumption).
    assert (Hall : incl (seq 0 N) (A ++ B)) by (apply NoDup_length_incl; [exact HN|rewrite seq_length; lia|exact Hi]).
    rewrite (prob_ext N p _ (is_set (seq 0 N) A)).
    + rewrite prob_set; [|apply NoDup_app_fst in HN; exact HN|intros x Hx; apply Hi, in_or_app; left; exact Hx]. do 2 f_equal. rewrite app_length in *. lia.
    + intros l _ _. apply Bool.eq_true_iff_eq. unfold pattern. rewrite Bool.andb_true_iff, !forallb_forall, is_set_iff. split.
      * intros [H1 H2] i Hin. split; [|intros Hx; apply memn_iff, H1, Hx]. intros Hl. apply Hall in Hin. apply in_app_or in Hin. destruct Hin as [Hin|Hin]; [exact Hin|]. specialize (H2 i Hin). apply memn_iff in Hl. rewrite Hl in H2. discriminate.
      * intros H. split; intros i Hin.
        -- apply memn_iff. apply H; [apply Hi, in_or_app; left; exact Hin|exact Hin].
        -- destruct (memn i l) eqn:E; [|reflexivity]. exfalso. apply memn_iff in E. apply H in E; [|apply Hi, in_or_app; right; exact Hin].
           apply in_split in E. destruct E as (a1 & a2 & ->). rewrite <- app_assoc in HN. apply NoDup_app_snd in HN. cbn [app] in HN. apply NoDup_cons_iff in HN. apply (proj1 HN), in_or_app. right. exact Hin.
  - assert (Hx : exists x, In x (seq 0 N) /\ ~ In x (A ++ B)).
    { destruct (filter (fun x => negb (memn x (A ++ B))) (seq 0 N)) as [|x f] eqn:Ef.
      - exfalso. assert (incl (seq 0 N) (A ++ B)).
        { intros x Hx. destruct (memn x (A ++ B)) eqn:E; [apply memn_iff; exact E|]. exfalso. assert (In x []) by (rewrite <- Ef; apply filter_In; rewrite E; auto). contradiction. }
        apply NoDup_incl_length in H; [rewrite seq_length in H; lia|apply seq_NoDup].
      - exists x. assert (Hin : In x (x :: f)) by (left; reflexivity). rewrite <- Ef in Hin. apply filter_In in Hin. destruct Hin as [H1 H2]. split; [exact H1|]. intros H. apply memn_iff in H. rewrite H in H2. discriminate. }
    destruct Hx as (x & Hx & Hn). rewrite (prob_split N p _ (memn x)).
    rewrite (prob_ext N p (fun l => pattern A B l && memn x l) (pattern (x :: A) B)) by (intros l _ _; unfold pattern; cbn [forallb]; destruct (memn x l), (forallb _ A), (forallb _ B); reflexivity).
    rewrite (prob_ext N p (fun l => pattern A B l && negb (memn x l)) (pattern A (x :: B))) by (intros l _ _; unfold pattern; cbn [forallb]; destruct (memn x l), (forallb _ A), (forallb _ B); reflexivity).
    assert (HP : Permutation (x :: A ++ B) (A ++ x :: B)) by apply Permutation_middle.
    assert (HN' : NoDup (x :: A ++ B)) by (constructor; assumption). assert (Hi' : incl (x :: A ++ B) (seq 0 N)) by (intros y [<-|Hy]; [exact Hx|apply Hi; exact Hy]).
    rewrite (IH (x :: A) B); [|cbn [app List.length]; lia|exact HN'|exact Hi'].
    rewrite (IH A (x :: B)); [|rewrite <- (Permutation_length HP); cbn [List.length]; lia|apply (Permutation_NoDup HP); exact HN'|intros y Hy; apply Hi', (Permutation_in _ (Permutation_sym HP)); exact Hy].
    cbn [List.length pow]. lra.
Qed.

(* ---------- the theorems ---------- *)
Section Layer.
  Variables (c : cv) (os : list call) (d : draws) (p : R).
  Hypothesis Hfresh : fresh_layer c.
  Hypothesis Hp : v_pswap c = Some p.
  Hypothesis Hp01 : 0 < p < 1.
  Hypothesis Hos : Forall (call_ok (v_N c)) os.
  Hypothesis Hd : draws_ok (v_N c) d.

  Lemma labels_of : forall inds i, NoDup inds -> (forall i, In i inds -> (i < v_N c)%nat) -> (i < v_N c)%nat ->
    labelled "p" (run_calls c (os ++ [CApply (with_p d inds)])) i = memn i inds /\ labelled "GKP" (run_calls c (os ++ [CApply (with_p d inds)])) i = negb (memn i inds).
  Proof.
    intros inds i H1 H2 Hi.
    assert (Hok : Forall (call_ok (v_N c)) (os ++ CApply (with_p d inds) :: [])).
    { apply Forall_app. split; [exact Hos|]. constructor; [|constructor]. destruct Hd as (_ & _ & D3 & D4 & D5). cbn. unfold draws_ok. cbn. auto. }
    destruct (C39_labels_after_every_call c os (CApply (with_p d inds)) (with_p d inds) [] Hfresh Hok eq_refl (Forall_nil _)) as (L & _ & _ & _).
    assert (Ht : trial_p c (with_p d inds) = inds). { unfold trial_p. rewrite Hp. destruct (Req_EM_T p 0); [lra|]. destruct (Req_EM_T p 1); [lra|]. reflexivity. }
    rewrite Ht in L. pose proof Hfresh as ((Hnum & _) & _). destruct (proj2 (Hnum i) Hi) as [q Hq].
    assert (Hpt : to_pt (run_calls c (os ++ [CApply (with_p d inds)])) i = Ok q).
    { destruct (run_calls_live c _ c Hfresh (fresh_live c) Hok) as ((_ & Hpts & _) & _). unfold to_pt. rewrite Hpts. unfold node_at in Hq. rewrite Hq. reflexivity. }
    unfold labelled, label_at. rewrite Hpt, (L i q Hq). destruct (memn i inds); split; reflexivity.
  Qed.
End Layer.

(* arrangements lists every sample of size k without repetition exactly once, so that 'all equally likely' is a
   statement about all of them *)
Theorem C75_samples : forall N k, NoDup (arrangements (seq 0 N) k) /\ (forall l, In l (arrangements (seq 0 N) k) <-> NoDup l /\ (forall i, In i l -> (i < N)%nat) /\ List.length l = k).
Proof.
  intros N k. split; [apply arr_NoDup, seq_NoDup|]. intros l. rewrite arr_in. assert (E : incl l (seq 0 N) <-> forall i, In i l -> (i < N)%nat); [|rewrite E; reflexivity].
  split; intros H i Hi; specialize (H i Hi); [apply in_seq in H; lia|apply in_seq; lia].
Qed.

(* With a swap-out probability p, in every trial (whatever happened before) each node is a p-squeezed state with probability p,
   independently of the others: the nodes of A are all p-squeezed and those of B all GKP with probability p^|A| (1-p)^|B|. *)
Theorem C75_independent : forall c os d p A B, fresh_layer c -> v_pswap c = Some p -> 0 < p < 1 -> Forall (call_ok (v_N c)) os -> draws_ok (v_N c) d ->
  NoDup (A ++ B) -> (forall i, In i (A ++ B) -> (i < v_N c)%nat) ->
  let trial inds := run_calls c (os ++ [CApply (with_p d inds)]) in
  prob_indices (v_N c) p (fun inds => forallb (labelled "p" (trial inds)) A && forallb (labelled "GKP" (trial inds)) B) = p ^ List.length A * (1 - p) ^ List.length B.
Proof.
  intros c os d p A B HF Hp H01 Hos Hd HN Hi trial. rewrite (prob_ext _ _ _ (pattern A B)).
  - apply prob_pattern; [exact HN|]. intros i H. apply in_seq. specialize (Hi i H). lia.
  - intros l H1 H2. unfold pattern. assert (E : forall (X : list nat) f g, (forall i, In i X -> f i = g i) -> forallb f X = forallb g X).
    { intros X f g. induction X as [|x X IH]; intros H; [reflexivity|]. cbn [forallb]. rewrite (H x (or_introl eq_refl)), IH; [reflexivity|]. intros i Hx. apply H. right. exact Hx. }
    f_equal; apply E; intros i H; apply (labels_of c os d p HF Hp H01 Hos Hd l i H1 H2); apply Hi, in_or_app; auto.
Qed.
(* in particular the probabilities add up to 1, every node is p-squeezed with probability p, and every single pattern S has
   probability p^|S| (1-p)^(N-|S|) *)
Theorem C75_marginal : forall c os d p i, fresh_layer c -> v_pswap c = Some p -> 0 < p < 1 -> Forall (call_ok (v_N c)) os -> draws_ok (v_N c) d -> (i < v_N c)%nat ->
  prob_indices (v_N c) p (fun _ => true) = 1 /\
  prob_indices (v_N c) p (fun inds => labelled "p" (run_calls c (os ++ [CApply (with_p d inds)])) i) = p /\
  (forall S, NoDup S -> (forall j, In j S -> (j < v_N c)%nat) ->
     prob_indices (v_N c) p (fun inds => forallb (fun j => Bool.eqb (labelled "p" (run_calls c (os ++ [CApply (with_p d inds)])) j) (memn j S)) (seq 0 (v_N c))) = p ^ List.length S * (1 - p) ^ (v_N c - List.length S)).
Proof.
  intros c os d p i HF Hp H01 Hos Hd Hi. split; [|split].
  - rewrite (prob_ext _ _ _ (pattern [] [])) by reflexivity. rewrite prob_pattern by (constructor || intros x []). cbn [List.length pow]. lra.
  - rewrite (prob_ext _ _ _ (fun inds => forallb (labelled "p" (run_calls c (os ++ [CApply (with_p d inds)]))) [i] && forallb (labelled "GKP" (run_calls c (os ++ [CApply (with_p d inds)]))) [])).
    + rewrite (C75_independent c os d p [i] [] HF Hp H01 Hos Hd); [cbn [List.length pow]; lra|constructor; [intros []|constructor]|intros j [<-|[]]; exact Hi].
    + intros l _ _. cbn [forallb]. destruct (labelled _ _ i); reflexivity.
  - intros S HS Hin. rewrite (prob_ext _ _ _ (is_set (seq 0 (v_N c)) S)).
    + apply prob_set; [exact HS|]. intros j Hj. apply in_seq. specialize (Hin j Hj). lia.
    + intros l H1 H2. unfold is_set. apply Bool.eq_true_iff_eq. rewrite !forallb_forall. split; intros H j Hj; specialize (H j Hj); apply in_seq in Hj;
        destruct (labels_of c os d p HF Hp H01 Hos Hd l j H1 H2 ltac:(lia)) as [E _]; rewrite E in *; exact H.
Qed.
(* The extreme values: with p_swap = 1 every node is p-squeezed, with p_swap = 0 (or none) only the given ones are. *)
Theorem C75_extremes : forall c os d i, fresh_layer c -> Forall (call_ok (v_N c)) os -> draws_ok (v_N c) d -> (i < v_N c)%nat ->
  let after := run_calls c (os ++ [CApply d]) in
  (v_pswap c = Some 1 -> label_at after i = Some "p"%string) /\
  (v_pswap c = Some 0 \/ v_pswap c = None -> label_at after i = Some (if memn i (inds_of c "p") then "p"%string else "GKP"%string)).
Proof.
  intros c os d i HF Hos Hd Hi after.
  assert (Hok : Forall (call_ok (v_N c)) (os ++ CApply d :: [])) by (apply Forall_app; split; [exact Hos|]; constructor; [exact Hd|constructor]).
  destruct (C39_labels_after_every_call c os (CApply d) d [] HF Hok eq_refl (Forall_nil _)) as (L & _).
  pose proof HF as ((Hnum & _) & _). destruct (proj2 (Hnum i) Hi) as [q Hq].
  assert (Hpt : to_pt after i = Ok q). { destruct (run_calls_live c _ c HF (fresh_live c) Hok) as ((_ & Hpts & _) & _). unfold to_pt, after. rewrite Hpts. unfold node_at in Hq. rewrite Hq. reflexivity. }
  unfold label_at. rewrite Hpt. unfold after. rewrite (L i q Hq). unfold trial_p. split.
  - intros ->. destruct (Req_EM_T 1 0); [lra|]. destruct (Req_EM_T 1 1); [|lra]. replace (memn i (seq 0 (v_N c))) with true by (symmetry; apply memn_iff, in_seq; lia). reflexivity.
  - intros [-> | ->]; [|reflexivity]. destruct (Req_EM_T 0 0); [reflexivity|lra].
Qed.

(* the hypotheses are met *)
Example C75_nonvacuous : let c := mk_code (3, 2, 4)%Z EcPrimal BdOpen None in
  let d := {| d_p := []; d_unif := fun _ => 1 / 2; d_bit := fun k => (Z.of_nat k mod 2)%Z; d_z := fun k => INR k; d_z2 := fun k => INR k; d_list := fun l => rev l |} in
  exists inds g v, cv_init (code_egraph c) (fun _ => no_attrs) None (Some (inds, sc_syn c)) (1 / 10) None (Some (1 / 4)) None None = (g, Ok v) /\
    fresh_layer v /\ v_pswap v = Some (1 / 4) /\ draws_ok (v_N v) d /\ call_ok (v_N v) (CApply (with_p d [1%nat])) .
Proof.
  intros c d. assert (HD : dims_ge2 (3, 2, 4)%Z) by (intros []; simpl; lia). assert (HC : is_surface_code (3, 2, 4)%Z EcPrimal BdOpen None c) by apply mk_code_ok.
  destruct (code_inds_exist _ _ _ _ _ HD HC) as (inds & Hi). assert (Hn : (2 <= List.length (node_list (sc_graph c)))%nat) by (vm_compute; lia). clearbody c. exists inds.
  destruct (code_cv_init (3, 2, 4)%Z EcPrimal BdOpen None c HD HC (fun _ => no_attrs) None (1 / 10) None (Some (1 / 4)) None None inds Hi I) as (g & v & Ev & Hnum & _ & HN & _ & _ & _ & Hps & _ & _ & Hst); [discriminate|].
  exists g, v. split; [exact Ev|]. split; [|split; [exact Hps|]].
  - split; [exact Hnum|]. split; [exists (arr []); split; [exact Hst|intros i []]|]. rewrite Hps. lra.
  - assert (K : forall inds, NoDup inds -> (forall i, In i inds -> (i < v_N v)%nat) -> draws_ok (v_N v) (with_p d inds)).
    { intros l H1 H2. split; [exact H1|]. split; [exact H2|]. split; [intros k; cbn [d_unif d with_p]; lra|]. split; [intros k; cbn [d_bit d with_p]; pose proof (Z.mod_pos_bound (Z.of_nat k) 2 ltac:(lia)); lia|].
      intros l' _. apply Permutation_sym, Permutation_rev. }
    split; [apply (K []); [constructor|intros i []]|]. apply (K [1%nat]); [constructor; [intros []|constructor]|]. intros i [<-|[]]. rewrite HN. lia.
Qed.
