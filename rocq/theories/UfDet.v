(* UfDet.v: the clusters do not depend on the order in which sets are visited. *)
From Coq Require Import Relations.
From Verif Require Import Base Lattice RhgModel SurfaceModel StabGraphModel Paths MwpmModel MwpmProofs UfModel UfTrees UfSpec UfPeel PropsUfTrees UfGrow UfSync.
Open Scope nat_scope.

Section Det.
  Variables (E : list sedge) (er : point -> bool) (sp : nat -> bool).
  Notation lab := (label sp).
  Notation RE := (RE E).
  Hypothesis Huniq : forall e e' u v, In e E -> In e' E -> same_pair u v e = true -> same_pair u v e' = true -> e = e'.
  Hypothesis Hloop : forall a b cv, In (a, b, cv) RE -> a <> b.
  Definition isnode (x : snode) : Prop := exists e, In e RE /\ incident x e = true.
  Definition cls (st : sedge -> growth) (x y : snode) : Prop := clos_refl_sym_trans _ (gR E st) x y.
  (* x grows in round k, in terms of the support alone *)
  Definition grows (k : nat) (st : sedge -> growth) (x : snode) : Prop :=
    (exists M, NoDup M /\ (forall y, In y M <-> isnode y /\ cls st x y) /\ xsum (fun y => parb (lab y)) M = true) /\
    (k = 0 \/ forall y, isnode y -> cls st x y -> lab y <> None).

  Lemma cls_ext st st' x y : (forall e, In e RE -> st e = st' e) -> cls st x y -> cls st' x y.
  Proof. intros H. apply rst_mono. intros a b (cv & H1 & H2). exists cv. split; [assumption|]. rewrite <- H by assumption. assumption. Qed.
  Lemma grows_ext k st st' x : (forall e, In e RE -> st e = st' e) -> grows k st x -> grows k st' x.
  Proof.
    intros H [(M & H1 & H2 & H3) H4]. split.
    - exists M. split; [assumption|]. split; [|assumption]. intros y. rewrite H2. split; intros [Hy Hc]; (split; [assumption|]); eapply cls_ext; [..|exact Hc]; auto.
      intros; symmetry; auto.
    - destruct H4 as [H4|H4]; [auto|right]. intros y Hy Hc. apply H4; [assumption|]. eapply cls_ext; [|exact Hc]. intros; symmetry; auto.
  Qed.

  Definition odd_list (k : nat) (s : ust) (odd : list snode) : Prop :=
    if Nat.eqb k 0 then forall c, h_par (u_heap s) c = PRoot -> (In c odd <-> h_pty (u_heap s) c = true)
    else forall c, In c odd -> lonely (u_heap s) c.

  Lemma odd_char N k s rep odd x : (forall x, In x N <-> isnode x) -> between E sp N s rep odd -> odd_list k s odd -> In x N ->
    (In (rep x) odd <-> grows k (u_st s) x).
  Proof.
    intros HN HB HQ Hx. pose proof (bt_inv _ _ _ _ _ _ HB) as (T & _ & HR & _).
    pose proof (rep_isroot _ _ _ _ _ T Hx) as Rr.
    assert (Hm : forall y, In y (members N rep (rep x)) <-> isnode y /\ cls (u_st s) x y).
    { intros y. rewrite members_In, <- HN. split; intros [Hy Hxy]; (split; [assumption|]).
      - apply HR; auto.
      - symmetry. apply HR; auto. }
    assert (Hp : h_pty (u_heap s) (rep x) = true <-> exists M, NoDup M /\ (forall y, In y M <-> isnode y /\ cls (u_st s) x y) /\ xsum (fun y => parb (lab y)) M = true).
    { rewrite (t_pty _ _ _ _ T _ Rr). split.
      - intros H. exists (members N rep (rep x)). split; [apply NoDup_filter, (t_nd _ _ _ _ T)|]. auto.
      - intros (M & H1 & H2 & H3). rewrite <- H3. apply xsum_perm. apply NoDup_Permutation; [apply NoDup_filter, (t_nd _ _ _ _ T)|assumption|].
        intros y. rewrite Hm, H2. reflexivity. }
    assert (Hb : h_bnd (u_heap s) (rep x) = None <-> forall y, isnode y -> cls (u_st s) x y -> lab y <> None).
    { pose proof (t_bnd _ _ _ _ T _ Rr) as Bx. destruct (h_bnd (u_heap s) (rep x)) as [z|].
      - split; [discriminate|]. intros H. exfalso. destruct Bx as [B1 B2]. apply Hm in B1. destruct B1. apply (H z); assumption.
      - split; [|reflexivity]. intros _ y H1 H2. apply Bx, Hm. auto. }
    unfold grows. rewrite <- Hp, <- Hb. unfold odd_list in HQ. destruct (Nat.eqb_spec k 0) as [->|Hk].
    - rewrite (HQ _ Rr). split; [auto|tauto].
    - split.
      + intros H. destruct (HQ _ H) as [L1 L2]. auto.
      + intros [H1 [H|H]]; [contradiction|]. apply (bt_list _ _ _ _ _ _ HB); [exact Rr|]. split; assumption.
  Qed.

  Variables (oe oe' : snode -> list snode) (sch sch' : sched) (fuel fuel' : nat) (N N' : list snode).
  Hypothesis Hoe : forall u v, In v (oe u) <-> gadj E u v.
  Hypothesis Hoend : forall u, NoDup (oe u).
  Hypothesis Hsch : sched_ok sch.
  Hypothesis HNd : NoDup N.
  Hypothesis HN : forall x, In x N <-> isnode x.
  Hypothesis Hfuel : length N < fuel.
  Hypothesis Hoe' : forall u v, In v (oe' u) <-> gadj E u v.
  Hypothesis Hoend' : forall u, NoDup (oe' u).
  Hypothesis Hsch' : sched_ok sch'.
  Hypothesis HNd' : NoDup N'.
  Hypothesis HN' : forall x, In x N' <-> isnode x.
  Hypothesis Hfuel' : length N' < fuel'.

  Lemma lockstep n : forall n' k s rep odd s' rep' odd' f f',
    between E sp N s rep odd -> between E sp N' s' rep' odd' -> odd_list k s odd -> odd_list k s' odd' ->
    (forall e, In e RE -> u_st s e = u_st s' e) ->
    union_find E oe sch fuel n k s odd = Ok f -> union_find E oe' sch' fuel' n' k s' odd' = Ok f' ->
    forall e, In e RE -> u_st f e = u_st f' e.
  Proof.
    induction n as [|n IH]; intros n' k s rep odd s' rep' odd' f f' HB HB' HQ HQ' Hst HU HU'.
    all: assert (Hodd : forall x, isnode x -> (In (rep x) odd <-> In (rep' x) odd')).
    1, 3: intros x Hx; rewrite (odd_char N k s rep odd x HN HB HQ), (odd_char N' k s' rep' odd' x HN' HB' HQ') by (apply HN || apply HN'; exact Hx);
      split; apply grows_ext; auto; intros; symmetry; auto.
    all: assert (He : odd = [] <-> odd' = []).
    1, 3: split; intros ->;
      [destruct odd' as [|c l]; [reflexivity|exfalso]; pose proof (bt_root _ _ _ _ _ _ HB' c (or_introl eq_refl)) as Rc;
       pose proof (bt_inv _ _ _ _ _ _ HB') as (T & _); pose proof (isroot_N _ _ _ _ _ T Rc) as Hc; apply HN' in Hc;
       pose proof (isroot_rep _ _ _ _ _ T Rc) as Ec; apply (Hodd c Hc); rewrite Ec; left; reflexivity
      |destruct odd as [|c l]; [reflexivity|exfalso]; pose proof (bt_root _ _ _ _ _ _ HB c (or_introl eq_refl)) as Rc;
       pose proof (bt_inv _ _ _ _ _ _ HB) as (T & _); pose proof (isroot_N _ _ _ _ _ T Rc) as Hc; apply HN in Hc;
       pose proof (isroot_rep _ _ _ _ _ T Rc) as Ec; apply (Hodd c Hc); rewrite Ec; left; reflexivity].
    - destruct odd as [|c odd]; [|discriminate]. rewrite (proj1 He eq_refl) in HU'. simpl in HU. injection HU as <-.
      destruct n'; simpl in HU'; injection HU' as <-; exact Hst.
    - destruct odd as [|c odd].
      + rewrite (proj1 He eq_refl) in HU'. simpl in HU. injection HU as <-. destruct n'; simpl in HU'; injection HU' as <-; exact Hst.
      + destruct odd' as [|c' odd']; [exfalso; pose proof (proj2 He eq_refl); discriminate|].
        destruct n' as [|n']; [discriminate|].
        change (bind (round E oe sch fuel k s (c :: odd)) (fun so => union_find E oe sch fuel n (S k) (fst so) (snd so)) = Ok f) in HU.
        change (bind (round E oe' sch' fuel' k s' (c' :: odd')) (fun so => union_find E oe' sch' fuel' n' (S k) (fst so) (snd so)) = Ok f') in HU'.
        destruct (round E oe sch fuel k s (c :: odd)) as [[s1 odd1]|] eqn:ER; [|discriminate]. cbn [bind fst snd] in HU.
        destruct (round E oe' sch' fuel' k s' (c' :: odd')) as [[s1' odd1']|] eqn:ER'; [|discriminate]. cbn [bind fst snd] in HU'.
        destruct (round_sync E sp oe sch fuel N Huniq Hloop Hoe Hoend Hsch HN Hfuel k s rep (c :: odd) s1 odd1 HB ER) as (rep1 & HB1 & [L1 L2]).
        destruct (round_sync E sp oe' sch' fuel' N' Huniq Hloop Hoe' Hoend' Hsch' HN' Hfuel' k s' rep' (c' :: odd') s1' odd1' HB' ER') as (rep1' & HB1' & [L1' L2']).
        apply (IH n' (S k) s1 rep1 odd1 s1' rep1' odd1' f f' HB1 HB1'); auto.
        intros [[a b] cv] H. specialize (L1 a b cv H). specialize (L1' a b cv H).
        rewrite (Hst _ H) in L1.
        assert (Hog : forall x, isnode x -> ogrow rep (c :: odd) x = ogrow rep' (c' :: odd') x).
        { intros x Hx. unfold ogrow. f_equal. apply eq_true_iff_eq. rewrite !smem_In. apply Hodd. assumption. }
        rewrite !Hog in L1 by (exists (a, b, cv); split; [assumption|apply incident_iff; auto]).
        rewrite <- L1' in L1. revert L1. destruct (u_st s1 (a, b, cv)), (u_st s1' (a, b, cv)); simpl; intros; congruence || lia.
  Qed.

  Lemma init_list comps n s : components N (filter (erased er) RE) comps -> grow_clusters E er sp oe sch fuel n comps = Ok s ->
    exists s0 rep0 odd0, between E sp N s0 rep0 odd0 /\ u_st s0 = init_status er /\ odd_list 0 s0 odd0 /\ union_find E oe sch fuel n 0 s0 odd0 = Ok s.
  Proof.
    intros Hc Hg. destruct (init_sync E er sp oe sch fuel N Huniq Hoe Hsch HNd HN Hfuel comps Hc) with (n := n) (s := s) as (s0 & rep0 & odd0 & H1 & H2 & H3 & H4 & H5).
    - exact Hg.
    - exists s0, rep0, odd0. split; [assumption|]. split; [assumption|]. split; [|assumption]. intros c Hr. split; [apply H4|intros; apply H3; assumption].
  Qed.
End Det.

Theorem growth_det E er sp oe oe' sch sch' fuel fuel' N N' comps comps' n n' s s' :
  (forall e e' u v, In e E -> In e' E -> same_pair u v e = true -> same_pair u v e' = true -> e = e') ->
  (forall a b cv, In (a, b, cv) (RE E) -> a <> b) ->
  (forall u v, In v (oe u) <-> gadj E u v) -> (forall u, NoDup (oe u)) -> sched_ok sch -> NoDup N ->
  (forall x, In x N <-> isnode E x) -> length N < fuel ->
  (forall u v, In v (oe' u) <-> gadj E u v) -> (forall u, NoDup (oe' u)) -> sched_ok sch' -> NoDup N' ->
  (forall x, In x N' <-> isnode E x) -> length N' < fuel' ->
  (forall x y, isnode E x -> isnode E y -> conn (RE E) x y) ->
  ((exists x, isnode E x /\ label sp x = None) \/ xsum (fun x => parb (label sp x)) N = false) ->
  components N (filter (erased er) (RE E)) comps -> components N' (filter (erased er) (RE E)) comps' ->
  grow_clusters E er sp oe sch fuel n comps = Ok s -> grow_clusters E er sp oe' sch' fuel' n' comps' = Ok s' ->
  forall e, In e (RE E) -> u_st s e = u_st s' e.
Proof.
  intros Huniq Hloop H1 H2 H3 H4 H5 H6 H1' H2' H3' H4' H5' H6' Hconn Heven Hc Hc' Hg Hg'.
  assert (Hp : Permutation N N') by (apply NoDup_Permutation; auto; intros x; rewrite H5, H5'; reflexivity).
  assert (Heven' : (exists x, isnode E x /\ label sp x = None) \/ xsum (fun x => parb (label sp x)) N' = false).
  { destruct Heven as [H|H]; [auto|right]. rewrite <- H. symmetry. apply xsum_perm. assumption. }
  destruct (init_list E er sp Huniq oe sch fuel N H1 H3 H4 H5 H6 comps n s Hc Hg) as (s0 & rep0 & odd0 & A1 & A2 & A3 & A4).
  destruct (init_list E er sp Huniq oe' sch' fuel' N' H1' H3' H4' H5' H6' comps' n' s' Hc' Hg') as (s0' & rep0' & odd0' & B1 & B2 & B3 & B4).
  apply (lockstep E sp Huniq Hloop oe oe' sch sch' fuel fuel' N N' H1 H2 H3 H5 H6 H1' H2' H3' H5' H6' n n' 0 s0 rep0 odd0 s0' rep0' odd0' s s' A1 B1 A3 B3); auto.
  intros e _. rewrite A2, B2. reflexivity.
Qed.
