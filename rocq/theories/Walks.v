(* Walks.v: closed trails of qubits through the stabilizers, and their number (for C79). *)
From Verif Require Import Base Lattice RhgModel SurfaceModel StabGraphModel Complex CountDraws.
Open Scope nat_scope.

(* the stabilizer on the other side of a qubit of stabilizer i (i itself on the boundary) *)
Definition other_side (stabs : list (list point)) (i : nat) (q : point) : nat := hd i (filter (fun j => negb (Nat.eqb j i)) (holders stabs q)).
(* the lists of l qubits that start in stabilizer i, every qubit (different from the one before) being in the stabilizer behind the one before *)
Fixpoint walks (stabs : list (list point)) (l : nat) (i : nat) (prev : option point) : list (list point) :=
  match l with
  | 0 => [[]]
  | S l' => flat_map (fun q => map (cons q) (walks stabs l' (other_side stabs i q) (Some q)))
              (filter (fun q => match prev with Some p => negb (peqb q p) | None => true end) (stab_of stabs i))
  end.

Section Walks.
  Variables (stabs : list (list point)) (bp : list point).
  Hypothesis WF : wf_complex stabs bp.
  Notation n := (length stabs).
  Notation par L i := (xsum (fun q => pmem q (stab_of stabs i)) L).

  Lemma one_holder i q : i < n -> In q (stab_of stabs i) -> In q bp -> other_side stabs i q = i /\ forall j, j < n -> pmem q (stab_of stabs j) = Nat.eqb i j.
  Proof.
    intros Hi Hq Hb. destruct (holders_count stabs bp WF q i Hi Hq) as [[_ Hh]|[Hn _]]; [|contradiction]. split.
    - unfold other_side. rewrite Hh. cbn [filter]. rewrite Nat.eqb_refl. reflexivity.
    - intros j Hj. apply eq_true_iff_eq. rewrite pmem_In, Nat.eqb_eq. split; [|intros <-; exact Hq].
      intros H. assert (In j (holders stabs q)) as K by (apply in_holders; auto). rewrite Hh in K. destruct K as [K|[]]. exact K.
  Qed.
  Lemma two_holders i q : i < n -> In q (stab_of stabs i) -> ~ In q bp ->
    let i' := other_side stabs i q in i' < n /\ i' <> i /\ In q (stab_of stabs i') /\ forall j, j < n -> pmem q (stab_of stabs j) = xorb (Nat.eqb i j) (Nat.eqb i' j).
  Proof.
    intros Hi Hq Hb i'. destruct (holders_count stabs bp WF q i Hi Hq) as [[Hn _]|[_ Hl]]; [contradiction|].
    pose proof (holders_NoDup stabs q) as ND. assert (Hin : In i (holders stabs q)) by (apply in_holders; auto).
    pose proof (in_holders stabs q) as IH. unfold i', other_side. destruct (holders stabs q) as [|x [|y [|z l]]]; try discriminate Hl.
    assert (Hxy : x <> y) by (intros ->; apply NoDup_cons_iff in ND; destruct ND as [ND _]; apply ND; left; reflexivity).
    assert (G : forall o, o <> i -> (forall j, In j [x; y] <-> j = i \/ j = o) -> o < n /\ o <> i /\ In q (stab_of stabs o) /\ forall j, j < n -> pmem q (stab_of stabs j) = xorb (Nat.eqb i j) (Nat.eqb o j)).
    { intros o Ho Hj. assert (In o [x; y]) as Ko by (apply Hj; right; reflexivity). apply IH in Ko. destruct Ko as [Ko1 Ko2]. split; [exact Ko1|]. split; [exact Ho|]. split; [exact Ko2|].
      intros j Hjn. apply eq_true_iff_eq. rewrite pmem_In. assert (K : In q (stab_of stabs j) <-> j = i \/ j = o) by (rewrite <- Hj; rewrite IH; tauto). rewrite K.
      destruct (Nat.eqb_spec i j), (Nat.eqb_spec o j); cbn [xorb]; split; intros; try reflexivity; try discriminate; try lia. }
    destruct Hin as [Hin|[Hin|[]]]; subst i.
    - cbn [filter]. rewrite Nat.eqb_refl. cbn [negb]. assert (Nat.eqb y x = false) as -> by (apply Nat.eqb_neq; lia). cbn [negb hd]. apply G; [lia|]. intros j. cbn [In]. intuition lia.
    - cbn [filter]. assert (Nat.eqb x y = false) as -> by (apply Nat.eqb_neq; lia). cbn [negb hd]. apply G; [lia|]. intros j. cbn [In]. intuition lia.
  Qed.

  Lemma xsum_remove (f : point -> bool) q R : NoDup R -> In q R -> xsum f (filter (fun x => negb (peqb x q)) R) = xorb (f q) (xsum f R).
  Proof.
    induction R as [|x R IH]; intros ND Hin; [destruct Hin|]. apply NoDup_cons_iff in ND. destruct ND as [Hx ND]. cbn [filter xsum].
    destruct (peqb x q) eqn:E.
    - apply peqb_true in E. subst x. cbn [negb]. rewrite <- xorb_assoc, xorb_nilpotent, xorb_false_l. f_equal.
      clear IH ND Hin. induction R as [|y R IH]; [reflexivity|]. cbn [filter]. assert (peqb y q = false) as ->. { destruct (peqb y q) eqn:E; [|reflexivity]. apply peqb_true in E. subst y. exfalso. apply Hx. left. reflexivity. }
      cbn [negb]. f_equal. apply IH. intros H. apply Hx. right. exact H.
    - cbn [negb xsum]. destruct Hin as [->|Hin]; [rewrite (peqb_refl q) in E; discriminate|]. rewrite (IH ND Hin), <- !xorb_assoc. f_equal. apply xorb_comm.
  Qed.
  Lemma remove_lt (q : point) R : In q R -> length (filter (fun x => negb (peqb x q)) R) < length R.
  Proof.
    induction R as [|x R IH]; intros Hin; [destruct Hin|]. cbn [filter].
    assert (H : length (filter (fun x => negb (peqb x q)) R) <= length R) by (clear; induction R as [|y R IH]; cbn; [lia|destruct (peqb y q); cbn; lia]).
    destruct (peqb x q) eqn:E; cbn [negb length]; [lia|]. destruct Hin as [->|Hin]; [rewrite (peqb_refl q) in E; discriminate|]. specialize (IH Hin). lia.
  Qed.

  (* the walk of a list of qubits *)
  Fixpoint walk (i : nat) (prev : option point) (L : list point) : Prop :=
    match L with [] => True | q :: L' => In q (stab_of stabs i) /\ prev <> Some q /\ walk (other_side stabs i q) (Some q) L' end.
  Lemma walk_in_walks L : forall i prev, walk i prev L -> In L (walks stabs (length L) i prev).
  Proof.
    induction L as [|q L IH]; intros i prev H; [left; reflexivity|]. destruct H as (H1 & H2 & H3). cbn [length walks]. apply in_flat_map. exists q. split.
    - apply filter_In. split; [exact H1|]. destruct prev as [p|]; [|reflexivity]. destruct (peqb q p) eqn:E; [|reflexivity]. apply peqb_true in E. subst p. contradiction.
    - apply in_map. apply IH. exact H3.
  Qed.

  Definition opt_is (s : option nat) (j : nat) : bool := match s with Some i => Nat.eqb i j | None => false end.

  (* close a trail that starts at s (or on the boundary) and is now in stabilizer i *)
  Lemma close_trail : forall k R s i prev, length R <= k -> NoDup R -> incl R (concat stabs) -> i < n -> s <> Some i -> (s = None \/ forall q, In q R -> ~ In q bp) ->
    (forall q, In q R -> prev <> Some q) ->
    (forall j, j < n -> par R j = xorb (opt_is s j) (Nat.eqb i j)) ->
    exists L, NoDup L /\ incl L R /\ walk i prev L /\ forall j, j < n -> par L j = xorb (opt_is s j) (Nat.eqb i j).
  Proof.
    induction k as [|k IH]; intros R s i prev Hk ND Hin Hi Hs Hb Hprev Hpar.
    - destruct R as [|]; [|cbn in Hk; lia]. specialize (Hpar i Hi). cbn [xsum] in Hpar. rewrite Nat.eqb_refl in Hpar. exfalso. apply Hs. destruct s as [s|]; cbn [opt_is] in Hpar; [|discriminate]. destruct (Nat.eqb_spec s i); [subst; reflexivity|discriminate].
    - assert (Hex : exists q, In q R /\ In q (stab_of stabs i)).
      { pose proof (Hpar i Hi) as Hp. rewrite Nat.eqb_refl in Hp. assert (opt_is s i = false) as E0 by (destruct s as [s|]; [cbn; apply Nat.eqb_neq; congruence|reflexivity]). rewrite E0, xorb_false_l in Hp.
        clear -Hp. induction R as [|x R IH]; [discriminate|]. cbn [xsum] in Hp. destruct (pmem x (stab_of stabs i)) eqn:E.
        - exists x. split; [left; reflexivity|]. apply pmem_In. exact E.
        - rewrite xorb_false_l in Hp. destruct (IH Hp) as (q & H1 & H2). exists q. split; [right; exact H1|exact H2]. }
      destruct Hex as (q & HqR & Hq). set (R' := filter (fun x => negb (peqb x q)) R).
      assert (HR' : forall x, In x R' <-> In x R /\ x <> q). { intros x. unfold R'. rewrite filter_In. destruct (peqb x q) eqn:E; [apply peqb_true in E; subst x; cbn; intuition congruence|]. cbn. split; [|tauto]. intros [H _]. split; [exact H|]. intros ->. rewrite (peqb_refl q) in E. discriminate. }
      destruct (in_dec point_eq_dec q bp) as [Hqb|Hqb].
      + assert (s = None) as -> by (destruct Hb as [Hb|Hb]; [exact Hb|exfalso; exact (Hb q HqR Hqb)]).
        destruct (one_holder i q Hi Hq Hqb) as [_ H1]. exists [q]. split; [constructor; [intros []|constructor]|]. split; [intros x [<-|[]]; exact HqR|].
        split; [cbn [walk]; auto|]. intros j Hj. cbn [xsum opt_is]. rewrite xorb_false_r, xorb_false_l. apply H1. exact Hj.
      + destruct (two_holders i q Hi Hq Hqb) as (Hi' & Hne & Hq' & Hp'). set (i' := other_side stabs i q) in *.
        assert (Hpar' : forall j, j < n -> par R' j = xorb (opt_is s j) (Nat.eqb i' j)).
        { intros j Hj. unfold R'. rewrite (xsum_remove _ q R ND HqR), (Hpar j Hj), (Hp' j Hj). destruct (opt_is s j), (Nat.eqb i j), (Nat.eqb i' j); reflexivity. }
        assert (option_eq_dec : {s = Some i'} + {s <> Some i'}) by (destruct s as [s|]; [destruct (Nat.eq_dec s i'); [left|right]; congruence|right; discriminate]). destruct option_eq_dec as [->|Hs'].
        * exists [q]. split; [constructor; [intros []|constructor]|]. split; [intros x [<-|[]]; exact HqR|]. split; [cbn [walk]; auto|].
          intros j Hj. cbn [xsum opt_is]. rewrite xorb_false_r, (Hp' j Hj). apply xorb_comm.
        * destruct (IH R' s i' (Some q)) as (L & L1 & L2 & L3 & L4).
          -- pose proof (remove_lt q R HqR). fold R' in H. lia.
          -- apply NoDup_filter. exact ND.
          -- intros x Hx. apply HR' in Hx. apply Hin. tauto.
          -- exact Hi'.
          -- exact Hs'.
          -- destruct Hb as [Hb|Hb]; [left; exact Hb|right]. intros x Hx. apply HR' in Hx. apply Hb. tauto.
          -- intros x Hx. apply HR' in Hx. destruct Hx as [_ Hx]. congruence.
          -- exact Hpar'.
          -- exists (q :: L). split; [constructor; [intros H; apply L2, HR' in H; tauto|exact L1]|].
             split; [intros x [<-|Hx]; [exact HqR|]; apply L2, HR' in Hx; tauto|]. split.
             ++ cbn [walk]. split; [exact Hq|]. split; [exact (Hprev q HqR)|exact L3].
             ++ intros j Hj. cbn [xsum]. rewrite (L4 j Hj), (Hp' j Hj). destruct (opt_is s j), (Nat.eqb i j), (Nat.eqb i' j); reflexivity.
  Qed.

  (* every non-empty set of qubits with even parities contains a closed trail *)
  Lemma closed_trail R : R <> [] -> NoDup R -> incl R (concat stabs) -> (forall j, j < n -> par R j = false) ->
    exists i L, i < n /\ L <> [] /\ NoDup L /\ incl L R /\ walk i None L /\ forall j, j < n -> par L j = false.
  Proof.
    intros Hne ND Hin Hpar.
    assert (Hst : forall q, In q R -> exists i, i < n /\ In q (stab_of stabs i)).
    { intros q Hq. apply Hin, in_concat in Hq. destruct Hq as (st & H1 & H2). apply (In_nth _ _ []) in H1. destruct H1 as (i & Hi & <-). exists i. split; [exact Hi|exact H2]. }
    assert (HR' : forall q x, In x (filter (fun x => negb (peqb x q)) R) <-> In x R /\ x <> q). { intros q x. rewrite filter_In. destruct (peqb x q) eqn:E; [apply peqb_true in E; subst x; cbn; intuition congruence|]. cbn. split; [|tauto]. intros [H _]. split; [exact H|]. intros ->. rewrite (peqb_refl q) in E. discriminate. }
    assert (Hb : (exists q, In q R /\ In q bp) \/ forall q, In q R -> ~ In q bp).
    { clear. induction R as [|x R IH]; [right; intros q []|]. destruct (in_dec point_eq_dec x bp) as [H|H]; [left; exists x; split; [left; reflexivity|exact H]|].
      destruct IH as [(q & H1 & H2)|IH]; [left; exists q; split; [right; exact H1|exact H2]|right]. intros q [<-|Hq]; [exact H|exact (IH q Hq)]. }
    assert (K : exists q s i, In q R /\ i < n /\ (exists i0, i0 < n /\ In q (stab_of stabs i0) /\ other_side stabs i0 q = i) /\ s <> Some i /\ (s = None \/ forall q, In q R -> ~ In q bp) /\ forall j, j < n -> pmem q (stab_of stabs j) = xorb (opt_is s j) (Nat.eqb i j)).
    { destruct Hb as [(q & HqR & Hqb)|Hb].
      - destruct (Hst q HqR) as (i & Hi & Hq). destruct (one_holder i q Hi Hq Hqb) as [H1 H2]. exists q, None, i. split; [exact HqR|]. split; [exact Hi|]. split; [exists i; auto|]. split; [discriminate|]. split; [left; reflexivity|].
        intros j Hj. cbn [opt_is]. rewrite xorb_false_l. apply H2. exact Hj.
      - destruct R as [|q R0]; [contradiction|]. destruct (Hst q (or_introl eq_refl)) as (i & Hi & Hq). destruct (two_holders i q Hi Hq (Hb q (or_introl eq_refl))) as (H1 & H2 & H3 & H4).
        exists q, (Some i), (other_side stabs i q). split; [left; reflexivity|]. split; [exact H1|]. split; [exists i; auto|]. split; [congruence|]. split; [right; exact Hb|]. exact H4. }
    destruct K as (q & s & i & HqR & Hi & (i0 & Hi0 & Hq0 & E0) & Hs & Hsb & Hq). set (R' := filter (fun x => negb (peqb x q)) R).
    destruct (close_trail (length R') R' s i (Some q)) as (L & L1 & L2 & L3 & L4).
    - apply le_n.
    - apply NoDup_filter. exact ND.
    - intros x Hx. apply HR' in Hx. apply Hin. tauto.
    - exact Hi.
    - exact Hs.
    - destruct Hsb as [Hsb|Hsb]; [left; exact Hsb|right]. intros x Hx. apply HR' in Hx. apply Hsb. tauto.
    - intros x Hx. apply HR' in Hx. destruct Hx as [_ Hx]. congruence.
    - intros j Hj. unfold R'. rewrite (xsum_remove _ q R ND HqR), (Hpar j Hj), xorb_false_r. apply Hq. exact Hj.
    - exists i0, (q :: L). split; [exact Hi0|]. split; [discriminate|]. split; [constructor; [intros H; apply L2, HR' in H; tauto|exact L1]|].
      split; [intros x [<-|Hx]; [exact HqR|]; apply L2, HR' in Hx; tauto|]. split.
      + cbn [walk]. split; [exact Hq0|]. split; [discriminate|]. rewrite E0. exact L3.
      + intros j Hj. cbn [xsum]. rewrite (L4 j Hj), (Hq j Hj). apply xorb_nilpotent.
  Qed.

  Lemma xsum_split (f : point -> bool) L R : NoDup R -> NoDup L -> incl L R -> xsum f R = xorb (xsum f L) (xsum f (filter (fun x => negb (pmem x L)) R)).
  Proof.
    intros NR NL Hi. rewrite <- xsum_app. apply xsum_perm. apply NoDup_Permutation; [exact NR| |].
    - apply NoDup_app_intro; [exact NL|apply NoDup_filter, NR|]. intros x H1 H2. apply filter_In in H2. destruct H2 as [_ H2]. apply pmem_In in H1. rewrite H1 in H2. discriminate.
    - intros x. rewrite in_app_iff, filter_In. destruct (pmem x L) eqn:E; cbn [negb].
      + apply pmem_In in E. split; [tauto|]. intros _. apply Hi. exact E.
      + apply pmem_false in E. split; [tauto|]. intros [H|[H _]]; [contradiction|exact H].
  Qed.

  (* and if f is odd on the set, one closed trail on which f is odd *)
  Lemma odd_trail (f : point -> bool) : forall k R, length R <= k -> NoDup R -> incl R (concat stabs) -> (forall j, j < n -> par R j = false) -> xsum f R = true ->
    exists i L, i < n /\ NoDup L /\ incl L R /\ walk i None L /\ (forall j, j < n -> par L j = false) /\ xsum f L = true.
  Proof.
    induction k as [|k IH]; intros R Hk ND Hin Hpar Hf.
    - destruct R; [discriminate|cbn in Hk; lia].
    - destruct (closed_trail R) as (i & L & Hi & Hne & NL & HL & HW & HP); try assumption; [intros ->; discriminate|].
      destruct (xsum f L) eqn:Ef; [exists i, L; auto 8|].
      pose proof (fun g => xsum_split g L R ND NL HL) as HS. set (R' := filter (fun x => negb (pmem x L)) R) in *.
      destruct (IH R') as (i' & L' & H1 & H2 & H3 & H4).
      + destruct L as [|x L]; [contradiction|]. assert (length (x :: L) + length R' <= length R); [|cbn [length] in *; lia].
        rewrite <- app_length. apply NoDup_incl_length.
        * apply NoDup_app_intro; [exact NL|apply NoDup_filter, ND|]. intros y H1 H2. apply filter_In in H2. destruct H2 as [_ H2]. apply pmem_In in H1. rewrite H1 in H2. discriminate.
        * intros y Hy. apply in_app_iff in Hy. destruct Hy as [Hy|Hy]; [apply HL; exact Hy|apply filter_In in Hy; tauto].
      + apply NoDup_filter. exact ND.
      + intros x Hx. apply filter_In in Hx. apply Hin. tauto.
      + intros j Hj. specialize (HS (fun q => pmem q (stab_of stabs j))). rewrite (Hpar j Hj), (HP j Hj), xorb_false_l in HS. symmetry. exact HS.
      + rewrite HS, Ef, xorb_false_l in Hf. exact Hf.
      + exists i', L'. split; [exact H1|]. split; [exact H2|]. split; [intros x Hx; apply H3, filter_In in Hx; tauto|exact H4].
  Qed.

  (* ---------- the number of walks ---------- *)
  Variable k : nat.
  Hypothesis Hk : forall st, In st stabs -> length st <= S k.
  Lemma stab_len i : length (stab_of stabs i) <= S k.
  Proof. destruct (Nat.lt_ge_cases i n) as [H|H]; [apply Hk, nth_In; exact H|]. unfold stab_of. rewrite nth_overflow by exact H. cbn. lia. Qed.
  Lemma flat_len {A B} (f : A -> list B) m l : (forall x, In x l -> length (f x) <= m) -> length (flat_map f l) <= length l * m.
  Proof. induction l as [|x l IH]; intros H; [cbn; lia|]. cbn [flat_map length]. rewrite app_length. specialize (H x (or_introl eq_refl)) as Hx. specialize (IH (fun y Hy => H y (or_intror Hy))). lia. Qed.
  Lemma other_side_in i q : i < n -> In q (stab_of stabs i) -> In q (stab_of stabs (other_side stabs i q)) /\ other_side stabs i q < n.
  Proof.
    intros Hi Hq. destruct (in_dec point_eq_dec q bp) as [Hb|Hb].
    - destruct (one_holder i q Hi Hq Hb) as [-> _]. auto.
    - destruct (two_holders i q Hi Hq Hb) as (H1 & _ & H2 & _). auto.
  Qed.
  Lemma walks_prev l : forall i p, i < n -> In p (stab_of stabs i) -> length (walks stabs l i (Some p)) <= k ^ l.
  Proof.
    induction l as [|l IH]; intros i p Hi Hp; [cbn; lia|]. cbn [walks Nat.pow].
    etransitivity; [apply flat_len with (m := k ^ l)|].
    - intros q Hq. apply filter_In in Hq. destruct Hq as [Hq _]. rewrite map_length. destruct (other_side_in i q Hi Hq). apply IH; assumption.
    - apply Nat.mul_le_mono_r. pose proof (remove_lt p (stab_of stabs i) Hp) as H. pose proof (stab_len i). lia.
  Qed.
  Lemma walks_count l i : i < n -> length (walks stabs (S l) i None) <= S k * k ^ l.
  Proof.
    intros Hi. cbn [walks]. etransitivity; [apply flat_len with (m := k ^ l)|].
    - intros q Hq. apply filter_In in Hq. destruct Hq as [Hq _]. rewrite map_length. destruct (other_side_in i q Hi Hq). apply walks_prev; assumption.
    - apply Nat.mul_le_mono_r. etransitivity; [|apply (stab_len i)]. clear. induction (stab_of stabs i) as [|x l IH]; cbn; lia.
  Qed.
End Walks.
