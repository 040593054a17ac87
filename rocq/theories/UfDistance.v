(* UfDistance.v: how far the clusters of the Union-Find decoder reach.  Positions on a line or
   a circle are given to the nodes; every cluster carries an interval that covers it, and the
   intervals grow only as fast as error edges are used up. *)
From Coq Require Import Relations.
From Verif Require Import Base Lattice RhgModel SurfaceModel StabGraphModel Paths MwpmModel MwpmProofs UfModel UfTrees UfSpec UfPeel PropsUfTrees UfGrow UfSync UfArcs.
Open Scope Z_scope.

Lemma rst_inv {A} (R : A -> A -> Prop) (P : A -> bool) x y : (forall a b, R a b -> P a = P b) ->
  clos_refl_sym_trans _ R x y -> P x = P y.
Proof. intros H. induction 1; [auto|reflexivity|congruence|congruence]. Qed.
Lemma rst_leaves {A} (R : A -> A -> Prop) x y : clos_refl_sym_trans _ R x y -> x = y \/ ((exists z, R x z \/ R z x) /\ exists z, R y z \/ R z y).
Proof.
  induction 1 as [a b H|a|a b _ IH|a b c _ IH1 _ IH2]; [right; split; eauto|auto|destruct IH as [->|[? ?]]; auto|].
  destruct IH1 as [->|[H1 H2]]; [assumption|]. destruct IH2 as [<-|[H3 H4]]; [auto|auto].
Qed.

Lemma zsum_filter {A} (p : A -> bool) f l : zsum (fun c => if p c then f c else 0) l = zsum f (filter p l).
Proof. induction l as [|c l IH]; [reflexivity|]. simpl. destruct (p c); simpl; lia. Qed.

Section Dist.
  Variables (E : list sedge) (er : point -> bool) (sp : nat -> bool) (oe : snode -> list snode).
  Variable sch : sched.
  Variable fuel : nat.
  Variable N : list snode.
  Hypothesis Huniq : forall e e' u v, In e E -> In e' E -> same_pair u v e = true -> same_pair u v e' = true -> e = e'.
  Hypothesis Hloop : forall a b cv, In (a, b, cv) (RE E) -> a <> b.
  Hypothesis Hoe : forall u v, In v (oe u) <-> gadj E u v.
  Hypothesis Hoend : forall u, NoDup (oe u).
  Hypothesis Hsch : sched_ok sch.
  Hypothesis HNd : NoDup N.
  Hypothesis HN : forall x, In x N <-> exists e, In e (RE E) /\ incident x e = true.
  Hypothesis Hfuel : (length N < fuel)%nat.
  Notation lab := (label sp).
  Notation RE := (RE E).

  (* positions modulo M; dir e: the direction of an edge; ebit e: its qubit has an error *)
  Variable M : Z.
  Variable pos : snode -> Z.
  Variable dir : sedge -> Z.
  Variable ebit : sedge -> bool.
  Hypothesis Hdir : forall a b cv, In (a, b, cv) RE -> Z.abs (dir (a, b, cv)) <= 1 /\ (M | pos b - pos a - 2 * dir (a, b, cv)).
  Hypothesis Hsp : forall i, In (NStab i) N -> sp i = xsum (fun e => incident (NStab i) e && ebit e) RE.
  Hypothesis Hbnd : forall x, In x N -> lab x = None ->
    M = 0 /\ ((forall y, In y N -> pos x <= pos y) \/ (forall y, In y N -> pos y <= pos x)).

  Definition err (e : sedge) : bool := ebit e && negb (erased er e).
  Definition roots (rep : snode -> snode) : list snode := filter (fun x => sneqb (rep x) x) N.
  Definition phi (st : sedge -> growth) : Z := zsum (fun e => if err e then Z.of_nat (gap (st e)) else 0) RE.

  Record inv (Bud : Z) (k : nat) (s : ust) (rep : snode -> snode) (odd : list snode) (ph : snode -> bool) (A : snode -> arc) : Prop := {
    i_ph : forall x y, In x N -> In y N -> rep x = rep y -> ph x = ph y;
    i_lvl : forall a b cv, In (a, b, cv) RE -> u_st s (a, b, cv) <> Grown ->
              lvl (u_st s (a, b, cv)) = (Nat.b2n (ph a) + Nat.b2n (ph b))%nat;
    i_odd : forall x, In x N -> In (rep x) odd -> ph x = Nat.odd k;
    i_on : forall x, In x N -> on M (A (rep x)) (pos x);
    i_half : forall a b cv, In (a, b, cv) RE ->
              (ph a = true -> half M (A (rep a)) (pos a) (dir (a, b, cv))) /\
              (ph b = true -> half M (A (rep b)) (pos b) (- dir (a, b, cv)));
    i_grown : forall a b cv, In (a, b, cv) RE -> u_st s (a, b, cv) = Grown ->
              half M (A (rep a)) (pos a) (dir (a, b, cv)) /\ half M (A (rep b)) (pos b) (- dir (a, b, cv));
    i_er : forall e, In e RE -> erased er e = true -> u_st s e = Grown;
    i_ne : forall c, In c (roots rep) -> fst (A c) <= snd (A c);
    i_bud : total A (roots rep) + 2 * phi (u_st s) <= Bud
  }.

  Lemma in_roots rep x : In x (roots rep) <-> In x N /\ rep x = x.
  Proof. unfold roots. rewrite filter_In, sneqb_iff. reflexivity. Qed.
  Lemma roots_nd rep : NoDup (roots rep).
  Proof. apply NoDup_filter, HNd. Qed.
  Lemma root_in s rep odd c : between E sp N s rep odd -> h_par (u_heap s) c = PRoot -> In c N /\ rep c = c.
  Proof. intros HB H. destruct (bt_inv _ _ _ _ _ _ HB) as (T & _). split; [eapply isroot_N; eauto|eapply isroot_rep; eauto]. Qed.
  Lemma rep_root s rep odd x : between E sp N s rep odd -> In x N -> In (rep x) N /\ rep (rep x) = rep x.
  Proof. intros HB H. destruct (bt_inv _ _ _ _ _ _ HB) as (T & _). apply (root_in s rep odd _ HB). eapply rep_isroot; eauto. Qed.

  (* an odd cluster without boundary point has an outgoing error edge, not erased *)
  Lemma odd_exit s rep odd c : between E sp N s rep odd -> (forall e, In e RE -> erased er e = true -> u_st s e = Grown) ->
    h_par (u_heap s) c = PRoot -> lonely (u_heap s) c ->
    exists a b cv, In (a, b, cv) RE /\ err (a, b, cv) = true /\ u_st s (a, b, cv) <> Grown /\ (rep a = c \/ rep b = c).
  Proof.
    intros HB Her Hr [Hp Hb]. pose proof (bt_inv _ _ _ _ _ _ HB) as (T & _ & HR & _).
    pose proof (t_pty _ _ _ _ T c Hr) as P. rewrite Hp in P. pose proof (t_bnd _ _ _ _ T c Hr) as B. rewrite Hb in B.
    assert (Hmn : NoDup (members N rep c)) by (apply NoDup_filter; assumption).
    rewrite (xsum_ext _ (fun x => xsum (fun e => incident x e && ebit e) RE)) in P.
    - rewrite xsum_swap in P. symmetry in P. apply xsum_true in P. destruct P as ([[a b] cv] & HI & P).
      rewrite (xsum_ext _ (fun x => ebit (a, b, cv) && incident x (a, b, cv))) in P by (intros; apply andb_comm).
      rewrite xsum_andb_l in P. apply andb_true_iff in P. destruct P as [Pe P].
      pose proof (Hloop a b cv HI) as Hab. destruct (RE_ends E N HN a b cv HI) as [Ha Hb'].
      assert (Hinc : forall x, incident x (a, b, cv) = xorb (sneqb x a && true) (sneqb x b && true)).
      { intros x. unfold incident, sneqb. cbn [fst snd].
        destruct (snode_eq_dec a x), (snode_eq_dec b x), (snode_eq_dec x a), (snode_eq_dec x b); try reflexivity; congruence. }
      rewrite (xsum_ext _ _ _ (fun x _ => Hinc x)), xsum_xorb in P.
      assert (Q : forall y, In y N -> xsum (fun x => sneqb x y && true) (members N rep c) = sneqb (rep y) c).
      { intros y Hy. destruct (snode_eq_dec (rep y) c) as [Ey|Ey].
        - rewrite xsum_point; [unfold sneqb; destruct (snode_eq_dec (rep y) c); congruence|assumption|apply members_In; auto].
        - rewrite xsum_all_false; [unfold sneqb; destruct (snode_eq_dec (rep y) c); congruence|].
          intros x Hx. apply members_In in Hx. unfold sneqb. destruct (snode_eq_dec x y) as [->|]; [exfalso; apply Ey; tauto|reflexivity]. }
      rewrite !Q in P by assumption.
      assert (Hst : u_st s (a, b, cv) <> Grown).
      { intros Hg. assert (rep a = rep b) by (apply HR; auto; apply rst_step; exists cv; auto).
        rewrite H, xorb_nilpotent in P. discriminate. }
      exists a, b, cv. split; [assumption|]. split; [|split; [assumption|]].
      + unfold err. rewrite Pe. destruct (erased er (a, b, cv)) eqn:Ee; [exfalso; apply Hst, Her; assumption|reflexivity].
      + unfold sneqb in P. destruct (snode_eq_dec (rep a) c); [auto|]. destruct (snode_eq_dec (rep b) c); [auto|discriminate].
    - intros x Hx. pose proof (B x Hx) as Hl. apply members_In in Hx. destruct Hx as [Hx _].
      destruct x as [i| | |]; try (exfalso; apply Hl; reflexivity). simpl. apply Hsp. assumption.
  Qed.

  (* the interval of a growing cluster *)
  Definition wider (s : ust) (A : snode -> arc) (c : snode) : arc :=
    match h_bnd (u_heap s) c with
    | None => (fst (A c) - 1, snd (A c) + 1)
    | Some b => if forallb (fun y => pos b <=? pos y) N then (fst (A c), snd (A c) + 1) else (fst (A c) - 1, snd (A c))
    end.
  Definition grown_arcs (s : ust) (A : snode -> arc) (odd : list snode) (c : snode) : arc :=
    if smem c odd then wider s A c else A c.
  (* the clusters that grow although they contain a boundary point *)
  Definition spare (s : ust) (odd : list snode) : list snode :=
    filter (fun c => match h_bnd (u_heap s) c with None => false | Some _ => true end) odd.

  Lemma wider_sub s A c : fst (wider s A c) <= fst (A c) /\ snd (A c) <= snd (wider s A c) /\
    len (wider s A c) <= len (A c) + (match h_bnd (u_heap s) c with None => 2 | Some _ => 1 end).
  Proof. unfold wider, len. destruct (h_bnd (u_heap s) c); [destruct (forallb _ N)|]; cbn [fst snd]; lia. Qed.

  Lemma grown_sub s A odd c : sub M (A c) (grown_arcs s A odd c).
  Proof. unfold grown_arcs. destruct (smem c odd); [|apply sub_refl]. destruct (wider_sub s A c) as (H1 & H2 & _). apply sub_wider; assumption. Qed.

  Section Step.
    Variables (Bud : Z) (k : nat) (s s' : ust) (rep rep' : snode -> snode) (odd odd' : list snode) (ph : snode -> bool) (A : snode -> arc).
    Hypothesis HB : between E sp N s rep odd.
    Hypothesis HB' : between E sp N s' rep' odd'.
    Hypothesis HS : step_of E s rep odd s' rep' odd'.
    Hypothesis HI : inv Bud k s rep odd ph A.
    Hypothesis Hp : forall c, In c odd -> h_pty (u_heap s) c = true.
    Hypothesis Hk : k = 0%nat \/ forall c, In c odd -> h_bnd (u_heap s) c = None.

    Let O (x : snode) : bool := smem (rep x) odd.
    Let ph1 (x : snode) : bool := xorb (ph x) (O x).
    Let A1 := grown_arcs s A odd.
    Let HT := bt_inv _ _ _ _ _ _ HB.
    Let HT' := bt_inv _ _ _ _ _ _ HB'.

    Lemma O_ph x : In x N -> O x = true -> ph x = Nat.odd k.
    Proof. intros Hx Ho. apply (i_odd _ _ _ _ _ _ _ HI x Hx). apply smem_In. exact Ho. Qed.
    Lemma lvl_eq a b cv : In (a, b, cv) RE -> lvl (u_st s' (a, b, cv)) = Nat.min 2 (lvl (u_st s (a, b, cv)) + Nat.b2n (O a) + Nat.b2n (O b)).
    Proof. intros H. apply (so_lvl _ _ _ _ _ _ _ HS a b cv H). Qed.
    Lemma lvl2 g : lvl g = 2%nat <-> g = Grown.
    Proof. destruct g; simpl; split; congruence. Qed.
    Lemma grown_mono a b cv : In (a, b, cv) RE -> u_st s (a, b, cv) = Grown -> u_st s' (a, b, cv) = Grown.
    Proof. intros H Hg. apply lvl2. rewrite (lvl_eq a b cv H), Hg. simpl. lia. Qed.

    (* an edge that is not grown, in a round in which the growing clusters have covered all halves *)
    Lemma cases a b cv : In (a, b, cv) RE -> u_st s (a, b, cv) <> Grown ->
      (lvl (u_st s (a, b, cv)) = Nat.b2n (ph a) + Nat.b2n (ph b))%nat /\
      (lvl (u_st s (a, b, cv)) + Nat.b2n (O a) + Nat.b2n (O b) <= 2)%nat /\
      (O a = true -> ph a = Nat.odd k) /\ (O b = true -> ph b = Nat.odd k) /\
      (ph a = true -> ph b = true -> False).
    Proof.
      intros H Hg. destruct (RE_ends E N HN a b cv H) as [Ha Hb].
      pose proof (i_lvl _ _ _ _ _ _ _ HI a b cv H Hg) as Hl. pose proof (O_ph a Ha) as Oa. pose proof (O_ph b Hb) as Ob.
      assert (Hl2 : (lvl (u_st s (a, b, cv)) < 2)%nat) by (destruct (u_st s (a, b, cv)); simpl; congruence || lia).
      split; [assumption|]. split; [|split; [assumption|split; [assumption|]]].
      - destruct (O a), (O b), (ph a), (ph b), (Nat.odd k); simpl in *; try lia;
          try (specialize (Oa eq_refl); discriminate); try (specialize (Ob eq_refl); discriminate).
      - intros H1 H2. rewrite H1, H2 in Hl. simpl in Hl. lia.
    Qed.

    Lemma ph1_odd x : In x N -> O x = true -> ph1 x = Nat.odd (S k).
    Proof. intros Hx Ho. unfold ph1. rewrite Ho, (O_ph x Hx Ho), Nat.odd_succ, <- Nat.negb_odd. apply xorb_true_r. Qed.

    Lemma half_new x d : In x N -> O x = true -> Nat.odd k = false -> Z.abs d <= 1 ->
      (forall b, h_bnd (u_heap s) (rep x) = Some b -> exists y, In y N /\ (M | pos y - pos x - 2 * d)) ->
      half M (A1 (rep x)) (pos x) d.
    Proof.
      intros Hx Ho Ek Hd Hy. pose proof Ho as Ho'. destruct (i_on _ _ _ _ _ _ _ HI x Hx) as (m & Dm & Im).
      unfold A1, grown_arcs. unfold O in Ho. rewrite Ho. unfold wider in *.
      destruct (h_bnd (u_heap s) (rep x)) as [b|] eqn:Eb.
      2: (exists m; cbn [fst snd]; split; [assumption|lia]).
      assert (Hrr : h_par (u_heap s) (rep x) = PRoot) by (apply (bt_root _ _ _ _ _ _ HB); apply smem_In; assumption).
      pose proof HT as (T & _). pose proof (t_bnd _ _ _ _ T _ Hrr) as B. rewrite Eb in B. destruct B as [B1 B2].
      apply members_In in B1. destruct B1 as [B1 B3].
      destruct (Hbnd b B1 B2) as [HM Hside].
      destruct (i_on _ _ _ _ _ _ _ HI b B1) as (mb & Db & Ib). rewrite B3 in Ib.
      destruct (Hy b eq_refl) as (y & HyN & Dy).
      rewrite HM in *. apply Z.divide_0_l in Dm, Db, Dy.
      destruct (forallb (fun y => pos b <=? pos y) N) eqn:F.
      - rewrite forallb_forall in F. pose proof (F y HyN) as Fy. apply Z.leb_le in Fy.
        exists m. cbn [fst snd]. split; [rewrite Dm; apply Z.divide_0_r|]. lia.
      - destruct Hside as [Hlo|Hhi].
        + exfalso. assert (forallb (fun y => pos b <=? pos y) N = true); [|congruence]. apply forallb_forall. intros z Hz. apply Z.leb_le. auto.
        + pose proof (Hhi y HyN). exists m. cbn [fst snd]. split; [rewrite Dm; apply Z.divide_0_r|]. lia.
    Qed.

    (* the halves of an edge whose end has ph1 *)
    Lemma half1 a b cv : In (a, b, cv) RE ->
      (ph1 a = true -> half M (A1 (rep a)) (pos a) (dir (a, b, cv))) /\
      (ph1 b = true -> half M (A1 (rep b)) (pos b) (- dir (a, b, cv))).
    Proof.
      intros H. destruct (RE_ends E N HN a b cv H) as [Ha Hb]. destruct (Hdir a b cv H) as [Hd1 Hd2].
      destruct (i_half _ _ _ _ _ _ _ HI a b cv H) as [H1 H2]. unfold ph1.
      split; intros Hp1.
      - destruct (O a) eqn:Oa.
        + rewrite xorb_true_r in Hp1. apply negb_true_iff in Hp1. apply half_new; auto.
          * rewrite <- (O_ph a Ha Oa). assumption.
          * intros _ _. exists b. auto.
        + rewrite xorb_false_r in Hp1. eapply sub_half; [apply grown_sub|auto].
      - destruct (O b) eqn:Ob.
        + rewrite xorb_true_r in Hp1. apply negb_true_iff in Hp1. apply half_new; auto.
          * rewrite <- (O_ph b Hb Ob). assumption.
          * lia.
          * intros _ _. exists a. split; [assumption|].
            replace (pos a - pos b - 2 * - dir (a, b, cv)) with (- (pos b - pos a - 2 * dir (a, b, cv))) by lia.
            apply Z.divide_opp_r. assumption.
        + rewrite xorb_false_r in Hp1. eapply sub_half; [apply grown_sub|auto].
    Qed.

    (* the far half, in a round that ends at the next nodes *)
    Lemma far x d y : In x N -> O x = true -> Nat.odd k = true -> half M (A (rep x)) (pos x) d -> (M | pos y - pos x - 2 * d) ->
      Z.abs d <= 1 ->
      half M (A1 (rep x)) (pos x) d /\ half M (A1 (rep x)) (pos y) (- d) /\ on M (A1 (rep x)) (pos y).
    Proof.
      intros Hx Ho Ek (m & Dm & I1 & I2) Dy Hd.
      assert (Hb : h_bnd (u_heap s) (rep x) = None).
      { destruct Hk as [H0|Hl]; [rewrite H0 in Ek; discriminate|]. apply Hl. apply smem_In. exact Ho. }
      assert (EA : A1 (rep x) = (fst (A (rep x)) - 1, snd (A (rep x)) + 1)).
      { unfold A1, grown_arcs. unfold O in Ho. rewrite Ho. unfold wider. rewrite Hb. reflexivity. }
      assert (Dy' : (M | pos y - (m + 2 * d))).
      { replace (pos y - (m + 2 * d)) with ((pos y - pos x - 2 * d) + (pos x - m)) by lia. apply Z.divide_add_r; assumption. }
      rewrite EA. split; [|split].
      - exists m. cbn [fst snd]. split; [assumption|lia].
      - exists (m + 2 * d). cbn [fst snd]. split; [assumption|lia].
      - exists (m + 2 * d). cbn [fst snd]. split; [assumption|lia].
    Qed.

    (* a newly grown edge: both ends have the same new phase, its halves are covered by the
       interval of one end or of both, and the intervals of its ends meet *)
    Lemma new_edge a b cv : In (a, b, cv) RE -> u_st s (a, b, cv) <> Grown -> u_st s' (a, b, cv) = Grown ->
      ph1 a = ph1 b /\
      (half M (A1 (rep a)) (pos a) (dir (a, b, cv)) \/ half M (A1 (rep b)) (pos a) (dir (a, b, cv))) /\
      (half M (A1 (rep a)) (pos b) (- dir (a, b, cv)) \/ half M (A1 (rep b)) (pos b) (- dir (a, b, cv))) /\
      exists z, on M (A1 (rep a)) z /\ on M (A1 (rep b)) z.
    Proof.
      intros H Hg Hg'. destruct (RE_ends E N HN a b cv H) as [Ha Hb]. destruct (Hdir a b cv H) as [Hd1 Hd2].
      destruct (cases a b cv H Hg) as (Hl & Hle & Oa & Ob & Hno). pose proof (lvl_eq a b cv H) as HL. rewrite Hg' in HL. simpl lvl in HL at 1.
      rewrite Hl in HL, Hle. destruct (half1 a b cv H) as [Ha1 Hb1]. destruct (i_half _ _ _ _ _ _ _ HI a b cv H) as [Ha0 Hb0].
      destruct (Nat.odd k) eqn:Ek.
      - destruct (O a) eqn:EOa.
        + specialize (Oa eq_refl). assert (Hpb : ph b = false) by (destruct (ph b); [exfalso; auto|reflexivity]).
          assert (EOb : O b = false) by (destruct (O b); [specialize (Ob eq_refl); congruence|reflexivity]).
          destruct (far a (dir (a, b, cv)) b Ha EOa Ek (Ha0 Oa) Hd2 Hd1) as (F1 & F2 & F3).
          unfold ph1. rewrite EOa, EOb, Oa, Hpb. split; [reflexivity|]. split; [auto|]. split; [auto|]. exists (pos b). split; [assumption|].
          eapply sub_on; [apply grown_sub|apply (i_on _ _ _ _ _ _ _ HI b Hb)].
        + destruct (O b) eqn:EOb.
          * specialize (Ob eq_refl). assert (Hpa : ph a = false) by (destruct (ph a); [exfalso; auto|reflexivity]).
            assert (Dn : (M | pos a - pos b - 2 * - dir (a, b, cv))).
            { replace (pos a - pos b - 2 * - dir (a, b, cv)) with (- (pos b - pos a - 2 * dir (a, b, cv))) by lia. apply Z.divide_opp_r. assumption. }
            destruct (far b (- dir (a, b, cv)) a Hb EOb Ek (Hb0 Ob) Dn ltac:(lia)) as (F1 & F2 & F3).
            rewrite Z.opp_involutive in F2.
            unfold ph1. rewrite EOa, EOb, Ob, Hpa. split; [reflexivity|]. split; [auto|]. split; [auto|]. exists (pos a). split; [|assumption].
            eapply sub_on; [apply grown_sub|apply (i_on _ _ _ _ _ _ _ HI a Ha)].
          * exfalso. simpl in HL. destruct (ph a), (ph b); simpl in HL; try lia; auto.
      - assert (H1 : ph1 a = true /\ ph1 b = true).
        { unfold ph1. destruct (O a), (O b), (ph a), (ph b); simpl in *; split; try reflexivity; try lia;
            try (specialize (Oa eq_refl); discriminate); try (specialize (Ob eq_refl); discriminate). }
        destruct H1 as [H1 H2]. split; [congruence|]. split; [auto|]. split; [auto|].
        destruct (Ha1 H1) as (m & Dm & I1 & I2), (Hb1 H2) as (m' & Dm' & I1' & I2').
        exists (pos a + dir (a, b, cv)). split.
        + exists (m + dir (a, b, cv)). split; [|assumption]. replace (pos a + dir (a, b, cv) - (m + dir (a, b, cv))) with (pos a - m) by lia. assumption.
        + exists (m' + - dir (a, b, cv)). split; [|assumption].
          replace (pos a + dir (a, b, cv) - (m' + - dir (a, b, cv))) with ((pos b - m') - (pos b - pos a - 2 * dir (a, b, cv))) by lia.
          apply Z.divide_sub_r; assumption.
    Qed.

    Lemma total_grown : total A1 (roots rep) <= total A (roots rep) + 2 * Z.of_nat (length odd) - Z.of_nat (length (spare s odd)).
    Proof.
      set (f := fun c => match h_bnd (u_heap s) c with None => 2 | Some _ => 1 end).
      assert (H1 : total A1 (roots rep) <= total A (roots rep) + zsum (fun c => if smem c odd then f c else 0) (roots rep)).
      { unfold total. rewrite <- zsum_plus. apply zsum_le. intros c _. unfold A1, grown_arcs. destruct (smem c odd); [|lia].
        apply wider_sub. }
      rewrite zsum_filter in H1.
      assert (G : Permutation (filter (fun c => smem c odd) (roots rep)) odd).
      { apply NoDup_Permutation; [apply NoDup_filter, roots_nd|apply (bt_ond _ _ _ _ _ _ HB)|]. intros c. rewrite filter_In, in_roots, smem_In.
        split; [tauto|]. intros Hc. split; [|assumption]. apply (root_in s rep odd c HB). apply (bt_root _ _ _ _ _ _ HB). assumption. }
      rewrite (zsum_perm f _ _ G) in H1.
      assert (H3 : forall l, zsum f l = 2 * Z.of_nat (length l) - Z.of_nat (length (spare s l))).
      { clear. induction l as [|c l IH]; [reflexivity|]. cbn [zsum fold_right spare filter length]. fold (spare s l).
        fold (zsum f l). rewrite IH. unfold f.
        destruct (h_bnd (u_heap s) c); cbn [length]; lia. }
      rewrite H3 in H1. lia.
    Qed.

    Lemma phi_drop : phi (u_st s') + Z.of_nat (length odd) - Z.of_nat (length (spare s odd)) <= phi (u_st s).
    Proof.
      set (live := filter (fun e => err e && negb (grownb (u_st s e))) RE).
      set (W := flat_map (fun e : sedge => (if O (fst (fst e)) then [rep (fst (fst e))] else []) ++ (if O (snd (fst e)) then [rep (snd (fst e))] else [])) live).
      set (LO := filter (fun c => match h_bnd (u_heap s) c with None => true | Some _ => false end) odd).
      assert (H1 : (length LO <= length W)%nat).
      { apply NoDup_incl_length; [apply NoDup_filter, (bt_ond _ _ _ _ _ _ HB)|]. intros c Hc. apply filter_In in Hc. destruct Hc as [Hc Hb].
        assert (Hlon : lonely (u_heap s) c) by (split; [apply Hp; assumption|destruct (h_bnd (u_heap s) c); congruence]).
        destruct (odd_exit s rep odd c HB (i_er _ _ _ _ _ _ _ HI) (bt_root _ _ _ _ _ _ HB c Hc) Hlon) as (a & b & cv & HE & He & Hg & Hab).
        apply in_flat_map. exists (a, b, cv). split.
        - apply filter_In. split; [assumption|]. rewrite He. destruct (u_st s (a, b, cv)); simpl; congruence.
        - cbn [fst snd]. apply in_or_app. destruct Hab as [Hab|Hab]; [left|right]; unfold O; rewrite Hab, (proj2 (smem_In c odd) Hc); left; reflexivity. }
      assert (H2 : (length LO + length (spare s odd) = length odd)%nat).
      { unfold LO, spare. clear. induction odd as [|c l IH]; [reflexivity|]. cbn [filter]. destruct (h_bnd (u_heap s) c); cbn [length]; lia. }
      assert (H3 : phi (u_st s') + Z.of_nat (length W) <= phi (u_st s)).
      { unfold phi, W, live. assert (HE : forall e, In e RE -> In e RE) by auto. revert HE. generalize RE at 1 3 4 5. intros l Hl.
        induction l as [|[[a b] cv] l IH]; [simpl; lia|]. cbn [zsum fold_right filter].
        fold (zsum (fun e => if err e then Z.of_nat (gap (u_st s' e)) else 0) l). fold (zsum (fun e => if err e then Z.of_nat (gap (u_st s e)) else 0) l).
        specialize (IH ltac:(intros; apply Hl; right; assumption)).
        pose proof (Hl (a, b, cv) (or_introl eq_refl)) as HI0. pose proof (lvl_eq a b cv HI0) as HL.
        destruct (err (a, b, cv)); [|cbn [andb]; lia]. cbn [andb].
        pose proof (gap_lvl (u_st s (a, b, cv))) as G1. pose proof (gap_lvl (u_st s' (a, b, cv))) as G2.
        destruct (u_st s (a, b, cv)) eqn:Es; cbn [grownb negb].
        3: (cbn [gap lvl] in *; lia).
        all: destruct (cases a b cv HI0 ltac:(congruence)) as (_ & Hle & _); rewrite Es in Hle; cbn [flat_map fst snd]; rewrite !app_length;
          cbn [lvl gap] in *; destruct (O a), (O b); cbn [length Nat.b2n] in *; lia. }
      lia.
    Qed.

    Lemma step_inv : exists ph' A', inv (Bud + Z.of_nat (length (spare s odd))) (S k) s' rep' odd' ph' A'.
    Proof.
      pose proof HT as (T & _ & HR & _). pose proof HT' as (T' & _ & HR' & _).
      set (F := map (fun e : sedge => fst e) (filter (fun e => negb (grownb (u_st s e)) && grownb (u_st s' e)) RE)).
      assert (HF : forall a b, In (a, b) F <-> exists cv, In (a, b, cv) RE /\ u_st s (a, b, cv) <> Grown /\ u_st s' (a, b, cv) = Grown).
      { intros a b. unfold F. rewrite in_map_iff. split.
        - intros ([[a0 b0] cv] & [= -> ->] & He). apply filter_In in He. destruct He as [He Hg]. apply andb_true_iff in Hg. destruct Hg as [G1 G2].
          exists cv. split; [assumption|]. destruct (u_st s (a, b, cv)), (u_st s' (a, b, cv)); simpl in *; split; congruence.
        - intros (cv & He & G1 & G2). exists (a, b, cv). split; [reflexivity|]. apply filter_In. split; [assumption|]. rewrite G2.
          destruct (u_st s (a, b, cv)); simpl; congruence. }
      assert (HC : classes N (gR E (u_st s)) rep A1 (roots rep)).
      { constructor.
        - apply roots_nd.
        - intros x Hx. apply in_roots. eapply rep_root; eauto.
        - intros c Hc. pose proof (i_ne _ _ _ _ _ _ _ HI c Hc). unfold A1, grown_arcs. destruct (smem c odd); [|assumption].
          destruct (wider_sub s A c) as (W1 & W2 & _). lia.
        - intros x y (cv & H & _). eapply RE_ends; eauto.
        - exact HR. }
      destruct (joins M N F _ rep A1 (roots rep) HC) as (lb & A2 & L & HC2 & Htot & Hsub).
      { intros a b Hab. apply HF in Hab. destruct Hab as (cv & H & Hg & Hg'). destruct (RE_ends E N HN a b cv H) as [Ha Hb].
        split; [assumption|]. split; [assumption|]. apply (new_edge a b cv H Hg Hg'). }
      assert (HRR : forall x y, clos_refl_sym_trans _ (fun p q => gR E (u_st s) p q \/ In (p, q) F) x y <-> clos_refl_sym_trans _ (gR E (u_st s')) x y).
      { intros x y. split; apply rst_mono; intros a b.
        - intros [(cv & H & Hg)|H]; [exists cv; split; [assumption|eapply grown_mono; eauto]|]. apply HF in H. destruct H as (cv & H & _ & Hg). exists cv; auto.
        - intros (cv & H & Hg). destruct (u_st s (a, b, cv)) eqn:Es; [right; apply HF; exists cv; repeat split; congruence || assumption..|left; exists cv; auto]. }
      assert (Hlb : forall x y, In x N -> In y N -> (lb x = lb y <-> rep' x = rep' y)).
      { intros x y Hx Hy. rewrite (cl_eq _ _ _ _ _ HC2 x y Hx Hy), HRR. symmetry. apply HR'; assumption. }
      set (A3 := fun r => A2 (lb r)).
      assert (HA3 : forall x, In x N -> sub M (A1 (rep x)) (A3 (rep' x))).
      { intros x Hx. unfold A3. destruct (rep_root s' rep' odd' x HB' Hx) as [Hr1 Hr2].
        rewrite (proj2 (Hlb (rep' x) x Hr1 Hx) Hr2). apply Hsub. assumption. }
      assert (Hph1 : forall x y, In x N -> In y N -> rep' x = rep' y -> ph1 x = ph1 y).
      { intros x y Hx Hy Hxy. apply HR' in Hxy; auto. apply (rst_inv (gR E (u_st s'))); [|assumption].
        intros a b (cv & H & Hg). destruct (RE_ends E N HN a b cv H) as [Ha Hb].
        destruct (u_st s (a, b, cv)) eqn:Es; [apply (new_edge a b cv H ltac:(congruence) Hg)..|].
        assert (Hab : rep a = rep b) by (apply HR; auto; apply rst_step; exists cv; auto).
        unfold ph1, O. rewrite Hab, (i_ph _ _ _ _ _ _ _ HI a b Ha Hb Hab). reflexivity. }
      exists ph1, A3. constructor.
      - exact Hph1.
      - intros a b cv H Hg'. assert (Hg : u_st s (a, b, cv) <> Grown) by (intros Hg; apply Hg'; eapply grown_mono; eauto).
        destruct (cases a b cv H Hg) as (Hl & Hle & Oa & Ob & Hno). pose proof (lvl_eq a b cv H) as HL. rewrite Hl in HL, Hle.
        assert (Hl2 : (lvl (u_st s' (a, b, cv)) < 2)%nat) by (destruct (u_st s' (a, b, cv)); simpl; congruence || lia).
        rewrite HL in Hl2 |- *. unfold ph1.
        destruct (O a), (O b), (ph a), (ph b), (Nat.odd k); simpl in *; try lia;
          try (specialize (Oa eq_refl); discriminate); try (specialize (Ob eq_refl); discriminate).
      - intros x Hx Hr. pose proof (bt_root _ _ _ _ _ _ HB' _ Hr) as Rr. pose proof (so_lonely _ _ _ _ _ _ _ HS _ Hr) as Lr.
        destruct (odd_sub sp N (u_heap s) rep (u_heap s') rep' (rep' x) T T') as (c & Rc & Lc & Hcx); auto.
        { intros y z Hy Hz Hyz. apply HR'; auto. apply HR in Hyz; auto. eapply rst_mono; [|exact Hyz].
          intros a b (cv & H & Hg). exists cv. split; [assumption|]. eapply grown_mono; eauto. }
        destruct (root_in s rep odd c HB Rc) as [HcN Hcc].
        rewrite (Hph1 x c Hx HcN (eq_sym Hcx)). apply ph1_odd; [assumption|]. unfold O. rewrite Hcc. apply smem_In.
        apply (bt_list _ _ _ _ _ _ HB); assumption.
      - intros x Hx. eapply sub_on; [apply HA3; assumption|]. eapply sub_on; [apply grown_sub|apply (i_on _ _ _ _ _ _ _ HI x Hx)].
      - intros a b cv H. destruct (RE_ends E N HN a b cv H) as [Ha Hb]. destruct (half1 a b cv H) as [H1 H2].
        split; intros Hp1; (eapply sub_half; [apply HA3; assumption|auto]).
      - intros a b cv H Hg'. destruct (RE_ends E N HN a b cv H) as [Ha Hb]. destruct (u_st s (a, b, cv)) eqn:Es.
        3: { destruct (i_grown _ _ _ _ _ _ _ HI a b cv H Es) as [G1 G2].
             split; (eapply sub_half; [apply HA3; assumption|]); (eapply sub_half; [apply grown_sub|assumption]). }
        all: assert (Hab : rep' a = rep' b) by (apply HR'; auto; apply rst_step; exists cv; auto);
          destruct (new_edge a b cv H ltac:(congruence) Hg') as (_ & G1 & G2 & _);
          (split; [destruct G1 as [G1|G1]|destruct G2 as [G2|G2]]); eapply sub_half; try eassumption;
          try (apply HA3; assumption); (rewrite Hab; apply HA3; assumption) || (rewrite <- Hab; apply HA3; assumption).
      - intros [[a b] cv] H He. eapply grown_mono; [exact H|]. apply (i_er _ _ _ _ _ _ _ HI); assumption.
      - intros c Hc. apply in_roots in Hc. destruct Hc as [Hc _]. unfold A3. apply (cl_ne _ _ _ _ _ HC2). apply (cl_in _ _ _ _ _ HC2). assumption.
      - assert (H1 : total A3 (roots rep') <= total A2 L).
        { unfold total, A3. rewrite <- (zsum_map lb (fun c => len (A2 c))). apply zsum_incl.
          - apply NoDup_map_inj; [|apply roots_nd]. intros x y Hx Hy Hxy. apply in_roots in Hx, Hy. destruct Hx as [Hx Ex], Hy as [Hy Ey].
            apply Hlb in Hxy; auto. congruence.
          - apply (cl_nd _ _ _ _ _ HC2).
          - intros y Hy. apply in_map_iff in Hy. destruct Hy as (x & <- & Hx). apply in_roots in Hx. apply (cl_in _ _ _ _ _ HC2). tauto.
          - intros c Hc. pose proof (cl_ne _ _ _ _ _ HC2 c Hc). unfold len. lia. }
        pose proof (i_bud _ _ _ _ _ _ _ HI) as Hbud. pose proof total_grown as Hg. pose proof phi_drop as Hd. fold A1 in Hg. lia.
    Qed.
  End Step.

  (* ---------------------------------------------------------------- *)
  Definition n_er : Z := Z.of_nat (length (filter (erased er) RE)).
  Definition n_err : Z := Z.of_nat (length (filter err RE)).
  Definition at_edge (x : snode) : bool := match lab x with None => true | Some _ => false end.
  (* the erased edges that reach a boundary point *)
  Definition b_er : list sedge := filter (fun e => erased er e && (at_edge (fst (fst e)) || at_edge (snd (fst e)))) RE.
  Definition B0 : Z := 2 * n_er + 4 * n_err.

  Lemma zsum_if2 (p : sedge -> bool) l : zsum (fun e => if p e then 2 else 0) l = 2 * Z.of_nat (length (filter p l)).
  Proof. induction l as [|e l IH]; [reflexivity|]. cbn [zsum fold_right filter]. fold (zsum (fun e => if p e then 2 else 0) l). destruct (p e); cbn [length]; lia. Qed.

  Lemma first_inv s0 rep0 odd0 : between E sp N s0 rep0 odd0 -> u_st s0 = init_status er ->
    exists A0, inv B0 0 s0 rep0 odd0 (fun _ => false) A0.
  Proof.
    intros HB Hst. pose proof (bt_inv _ _ _ _ _ _ HB) as (T & _ & HR & _).
    set (F := map (fun e : sedge => (fst (fst e), snd (fst e), dir e)) (filter (erased er) RE)).
    assert (HF : forall a b d, In (a, b, d) F -> exists cv, In (a, b, cv) RE /\ erased er (a, b, cv) = true /\ d = dir (a, b, cv)).
    { intros a b d H. apply in_map_iff in H. destruct H as ([[a0 b0] cv] & [= -> -> <-] & H). apply filter_In in H. destruct H. eauto. }
    assert (HF' : forall a b cv, In (a, b, cv) RE -> erased er (a, b, cv) = true -> In (a, b, dir (a, b, cv)) F).
    { intros a b cv H1 H2. apply in_map_iff. exists (a, b, cv). split; [reflexivity|]. apply filter_In. auto. }
    assert (HC : classes N (fun _ _ => False) (fun x => x) (fun x => (pos x, pos x)) N).
    { constructor; [assumption|auto|intros; simpl; lia|intros x y []|]. intros x y _ _. split; [intros ->; apply rst_refl|].
      induction 1 as [a b H|a|a b _ IH|a b c _ IH1 _ IH2]; [destruct H|reflexivity|congruence|congruence]. }
    destruct (bridges M N pos F _ _ _ _ HC) as (lb & A & L & HC2 & Htot & Hsub & Hh).
    { intros x _. exists (pos x). split; [rewrite Z.sub_diag; apply Z.divide_0_r|simpl; lia]. }
    { intros a b d H. destruct (HF a b d H) as (cv & H1 & _ & ->). destruct (RE_ends E N HN a b cv H1). destruct (Hdir a b cv H1). auto. }
    assert (Hg : forall a b cv, u_st s0 (a, b, cv) = Grown <-> erased er (a, b, cv) = true).
    { intros a b cv. rewrite Hst. unfold init_status. destruct (erased er (a, b, cv)); split; congruence. }
    assert (Hlb : forall x y, In x N -> In y N -> (lb x = lb y <-> rep0 x = rep0 y)).
    { intros x y Hx Hy. rewrite (cl_eq _ _ _ _ _ HC2 x y Hx Hy), (HR x y Hx Hy). split; apply rst_mono; intros a b.
      - intros [[]|(d & H)]. destruct (HF a b d H) as (cv & H1 & H2 & _). exists cv. split; [assumption|]. apply Hg. assumption.
      - intros (cv & H1 & H2). right. exists (dir (a, b, cv)). apply HF'; [assumption|]. apply Hg. assumption. }
    exists (fun r => A (lb r)).
    assert (HA : forall x, In x N -> lb (rep0 x) = lb x).
    { intros x Hx. destruct (rep_root s0 rep0 odd0 x HB Hx) as [H1 H2]. apply Hlb; assumption. }
    constructor.
    - reflexivity.
    - intros a b cv H Hn. rewrite Hst in *. unfold init_status in *. destruct (erased er (a, b, cv)); [congruence|reflexivity].
    - reflexivity.
    - intros x Hx. rewrite HA by assumption. eapply sub_on; [apply Hsub; assumption|].
      exists (pos x). split; [rewrite Z.sub_diag; apply Z.divide_0_r|simpl; lia].
    - intros a b cv _. split; discriminate.
    - intros a b cv H Hgr. destruct (RE_ends E N HN a b cv H) as [Ha Hb]. rewrite !HA by assumption. apply Hh, HF'; [assumption|]. apply Hg. assumption.
    - intros [[a b] cv] _ He. apply Hg. assumption.
    - intros c Hc. apply in_roots in Hc. apply (cl_ne _ _ _ _ _ HC2). apply (cl_in _ _ _ _ _ HC2). tauto.
    - assert (H1 : total (fun r => A (lb r)) (roots rep0) <= total A L).
      { unfold total. rewrite <- (zsum_map lb (fun c => len (A c))). apply zsum_incl.
        - apply NoDup_map_inj; [|apply roots_nd]. intros x y Hx Hy Hxy. apply in_roots in Hx, Hy. destruct Hx as [Hx Ex], Hy as [Hy Ey].
          apply Hlb in Hxy; auto. congruence.
        - apply (cl_nd _ _ _ _ _ HC2).
        - intros y Hy. apply in_map_iff in Hy. destruct Hy as (x & <- & Hx). apply in_roots in Hx. apply (cl_in _ _ _ _ _ HC2). tauto.
        - intros c Hc. pose proof (cl_ne _ _ _ _ _ HC2 c Hc). unfold len. lia. }
      assert (H2 : total (fun x => (pos x, pos x)) N = 0).
      { unfold total. clear. induction N as [|x l IH]; [reflexivity|]. cbn [zsum fold_right]. fold (zsum (fun c => len (pos c, pos c)) l).
        unfold len at 1. cbn [fst snd]. lia. }
      assert (H3 : Z.of_nat (length F) = n_er) by (unfold F, n_er; rewrite map_length; reflexivity).
      assert (H4 : phi (u_st s0) = 2 * n_err).
      { unfold phi, n_err. rewrite <- zsum_if2. apply zsum_ext. intros e _. destruct (err e) eqn:Ee; [|reflexivity]. rewrite Hst.
        unfold init_status, err in *. destruct (erased er e); [rewrite andb_false_r in Ee; discriminate|reflexivity]. }
      rewrite H4. unfold B0. lia.
  Qed.

  Lemma first_spare s0 rep0 odd0 : between E sp N s0 rep0 odd0 -> u_st s0 = init_status er ->
    (forall c, In c odd0 -> h_pty (u_heap s0) c = true) -> (length (spare s0 odd0) <= length b_er)%nat.
  Proof.
    intros HB Hst Hp. pose proof (bt_inv _ _ _ _ _ _ HB) as (T & _ & HR & _).
    rewrite <- (map_length (fun e : sedge => rep0 (fst (fst e))) b_er). apply NoDup_incl_length; [apply NoDup_filter, (bt_ond _ _ _ _ _ _ HB)|].
    intros c Hc. apply filter_In in Hc. destruct Hc as [Hc Hb]. destruct (h_bnd (u_heap s0) c) as [z|] eqn:Ez; [|discriminate].
    pose proof (bt_root _ _ _ _ _ _ HB c Hc) as Hr. pose proof (t_bnd _ _ _ _ T c Hr) as Bc. rewrite Ez in Bc. destruct Bc as [Bm Bl].
    pose proof (t_pty _ _ _ _ T c Hr) as Pc. rewrite (Hp c Hc) in Pc. symmetry in Pc. apply xsum_true in Pc. destruct Pc as (x & Hx & Px).
    apply members_In in Bm, Hx. destruct Bm as [HzN Ezc], Hx as [HxN Exc].
    assert (Hzx : clos_refl_sym_trans _ (gR E (u_st s0)) z x) by (apply HR; auto; congruence).
    apply rst_leaves in Hzx. destruct Hzx as [->|[(y & Hy) _]]; [rewrite Bl in Px; discriminate|].
    assert (G : forall a b, gR E (u_st s0) a b -> (a = z \/ b = z) -> In c (map (fun e : sedge => rep0 (fst (fst e))) b_er)).
    { intros a b (cv & H & Hg) Hz. destruct (RE_ends E N HN a b cv H) as [Ha Hb'].
      assert (Hab : rep0 a = rep0 b) by (apply HR; auto; apply rst_step; exists cv; auto).
      apply in_map_iff. exists (a, b, cv). cbn [fst snd]. split; [destruct Hz as [->| ->]; congruence|].
      apply filter_In. split; [assumption|]. cbn [fst snd]. rewrite Hst in Hg. unfold init_status in Hg.
      destruct (erased er (a, b, cv)); [|discriminate]. unfold at_edge. destruct Hz as [->| ->]; rewrite Bl; rewrite ?orb_true_r; reflexivity. }
    destruct Hy as [Hy|Hy]; eapply G; eauto.
  Qed.

  (* Segments [t, t+1] under a grown edge or under an error are few. *)
  Definition under (e : sedge) (t : Z) : Prop :=
    dir e <> 0 /\ ((M | t - (pos (fst (fst e)) + dir e)) \/ (M | t - (pos (fst (fst e)) + dir e - 1))).

  Lemma count Bud k s rep odd ph A T : between E sp N s rep odd -> inv Bud k s rep odd ph A -> NoDup T ->
    (forall t t', In t T -> In t' T -> (M | t - t') -> t = t') ->
    (forall t, In t T -> exists e, In e RE /\ (u_st s e = Grown \/ ebit e = true) /\ under e t) ->
    Z.of_nat (length T) <= Bud.
  Proof.
    intros HB HI Hnd Hinc Hcov.
    set (live := filter (fun e => err e && negb (grownb (u_st s e))) RE).
    set (Lx := flat_map (fun c => py_range (fst (A c)) (snd (A c))) (roots rep) ++
               flat_map (fun e : sedge => [pos (fst (fst e)) + dir e; pos (fst (fst e)) + dir e - 1]) live).
    assert (H1 : (length T <= length Lx)%nat).
    { apply (pigeon M Lx T Hnd Hinc). intros t Ht. destruct (Hcov t Ht) as ([[a b] cv] & He & Hg & Hd0 & Ht').
      destruct (RE_ends E N HN a b cv He) as [Ha Hb]. destruct (Hdir a b cv He) as [Hd1 Hd2]. cbn [fst snd] in *.
      assert (Q : u_st s (a, b, cv) = Grown -> exists x, In x Lx /\ (M | t - x)).
      { intros Hgr. destruct (i_grown _ _ _ _ _ _ _ HI a b cv He Hgr) as [(m & Dm & I1 & I2) (m' & Dm' & I1' & I2')].
        destruct (rep_root s rep odd a HB Ha) as [Ra1 Ra2], (rep_root s rep odd b HB Hb) as [Rb1 Rb2].
        assert (G : forall r x, In r N -> rep r = r -> fst (A r) <= x < snd (A r) -> (M | t - x) -> exists x, In x Lx /\ (M | t - x)).
        { intros r x Hr1 Hr2 Hx Hdx. exists x. split; [|assumption]. apply in_or_app. left. apply in_flat_map. exists r.
          split; [apply in_roots; auto|]. apply in_py_range. assumption. }
        assert (Hd : dir (a, b, cv) = 1 \/ dir (a, b, cv) = -1) by lia.
        destruct Hd as [Hd|Hd]; rewrite Hd in *; destruct Ht' as [Ht'|Ht'].
        - apply (G (rep b) (m' - 1)); auto; [lia|]. replace (t - (m' - 1)) with ((t - (pos a + 1)) - (pos b - pos a - 2 * 1) + (pos b - m')) by lia.
          apply Z.divide_add_r; [apply Z.divide_sub_r|]; assumption.
        - apply (G (rep a) m); auto; [lia|]. replace (t - m) with ((t - (pos a + 1 - 1)) + (pos a - m)) by lia. apply Z.divide_add_r; assumption.
        - apply (G (rep a) (m - 1)); auto; [lia|]. replace (t - (m - 1)) with ((t - (pos a + -1)) + (pos a - m)) by lia. apply Z.divide_add_r; assumption.
        - apply (G (rep b) m'); auto; [lia|]. replace (t - m') with ((t - (pos a + -1 - 1)) - (pos b - pos a - 2 * -1) + (pos b - m')) by lia.
          apply Z.divide_add_r; [apply Z.divide_sub_r|]; assumption. }
      destruct (u_st s (a, b, cv)) eqn:Es; [| |apply Q; reflexivity].
      all: destruct Hg as [Hg|Hg]; [discriminate|].
      all: (assert (Hl : In (a, b, cv) live);
        [apply filter_In; split; [assumption|]; unfold err; rewrite Hg, Es;
         destruct (erased er (a, b, cv)) eqn:Ee; [pose proof (i_er _ _ _ _ _ _ _ HI _ He Ee); congruence|reflexivity]|]).
      all: destruct Ht' as [Ht'|Ht']; eexists; (split; [|exact Ht']); apply in_or_app; right; apply in_flat_map; exists (a, b, cv);
        (split; [assumption|]); cbn [fst snd]; [left; reflexivity|right; left; reflexivity]. }
    assert (H2 : Z.of_nat (length Lx) = total A (roots rep) + 2 * Z.of_nat (length live)).
    { unfold Lx. rewrite app_length, Nat2Z.inj_add. f_equal.
      - pose proof (i_ne _ _ _ _ _ _ _ HI) as Hne. revert Hne. generalize (roots rep). clear. intros l Hne. unfold total.
        induction l as [|c l IH]; [reflexivity|]. cbn [flat_map zsum fold_right]. fold (zsum (fun c => len (A c)) l).
        rewrite app_length, Nat2Z.inj_add, IH by (intros; apply Hne; right; assumption). rewrite length_py_range.
        pose proof (Hne c (or_introl eq_refl)). unfold len. lia.
      - generalize live. clear. induction live as [|e l IH]; [reflexivity|]. cbn [flat_map]. rewrite app_length. cbn [length] in *. lia. }
    assert (H3 : Z.of_nat (length live) <= phi (u_st s)).
    { unfold live, phi. clear. induction RE as [|e l IH]; [simpl; lia|]. cbn [filter zsum fold_right].
      fold (zsum (fun e => if err e then Z.of_nat (gap (u_st s e)) else 0) l).
      destruct (err e); cbn [andb]; [|lia]. destruct (u_st s e); cbn [grownb negb length gap]; lia. }
    pose proof (i_bud _ _ _ _ _ _ _ HI). lia.
  Qed.

  Variable comps : list (list snode).
  Hypothesis Hc : components N (filter (erased er) RE) comps.
  Hypothesis Hconn : forall x y, In x N -> In y N -> conn RE x y.
  Hypothesis Heven : (exists x, In x N /\ lab x = None) \/ xsum (fun x => parb (lab x)) N = false.

  Theorem growth_cover n s T : grow_clusters E er sp oe sch fuel n comps = Ok s -> NoDup T ->
    (forall t t', In t T -> In t' T -> (M | t - t') -> t = t') ->
    (forall t, In t T -> exists e, In e RE /\ (u_st s e = Grown \/ ebit e = true) /\ under e t) ->
    Z.of_nat (length T) <= B0 + Z.of_nat (length b_er).
  Proof.
    intros Hg Hnd Hinc Hcov.
    destruct (init_sync E er sp oe sch fuel N Huniq Hoe Hsch HNd HN Hfuel comps Hc n s Hg)
      as (s0 & rep0 & odd0 & HB0 & Hst0 & _ & Hp0 & HU).
    set (P := fun (k : nat) (s : ust) (rep : snode -> snode) (odd : list snode) =>
      (exists ph A, inv (if Nat.eqb k 0 then B0 else B0 + Z.of_nat (length b_er)) k s rep odd ph A) /\
      (forall c, In c odd -> h_pty (u_heap s) c = true) /\
      (k = 0%nat \/ forall c, In c odd -> h_bnd (u_heap s) c = None) /\
      (k = 0%nat -> (length (spare s odd) <= length b_er)%nat)).
    destruct (loop_keeps E sp oe sch fuel N Huniq Hloop Hoe Hoend Hsch HN Hfuel P n 0 s0 rep0 odd0 s) as (k & rep & HB & HP).
    - intros k s1 rep1 odd1 s2 rep2 odd2 B1 B2 S12 ((ph & A & HI) & Hp & Hk & Hsp0).
      destruct (step_inv _ k s1 s2 rep1 rep2 odd1 odd2 ph A B1 B2 S12 HI Hp Hk) as (ph' & A' & HI').
      split; [|split; [|split]].
      + exists ph', A'. destruct HI' as [I1 I2 I3 I4 I5 I6 I7 I8 I9]. constructor; auto. cbn [Nat.eqb].
        destruct Hk as [->|Hk].
        * cbn [Nat.eqb] in I9. specialize (Hsp0 eq_refl). lia.
        * assert (Es : spare s1 odd1 = []).
          { unfold spare. clear - Hk. induction odd1 as [|c l IH]; [reflexivity|]. cbn [filter]. rewrite (Hk c (or_introl eq_refl)). apply IH. intros; apply Hk; right; assumption. }
          rewrite Es in I9. cbn [length] in I9. destruct (Nat.eqb k 0); lia.
      + intros c Hcc. apply (so_lonely _ _ _ _ _ _ _ S12 c Hcc).
      + right. intros c Hcc. apply (so_lonely _ _ _ _ _ _ _ S12 c Hcc).
      + discriminate.
    - exact HB0.
    - split; [destruct (first_inv s0 rep0 odd0 HB0 Hst0) as (A & HI); exists (fun _ => false), A; exact HI|].
      split; [assumption|]. split; [left; reflexivity|]. intros _. eapply first_spare; eauto.
    - exact HU.
    - destruct HP as ((ph & A & HI) & _). pose proof (count _ k s rep [] ph A T HB HI Hnd Hinc Hcov) as HT.
      destruct (Nat.eqb k 0); lia.
  Qed.
End Dist.
