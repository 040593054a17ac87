(* UfSync.v: one round of the growth loop, exactly.  Every edge that is not fully grown grows
   by one half for each of its ends that lies in a growing cluster, whatever the order in
   which the clusters and their nodes are visited. *)
From Coq Require Import Relations.
From Verif Require Import Base Lattice RhgModel SurfaceModel StabGraphModel Paths MwpmModel MwpmProofs UfModel UfTrees UfSpec UfPeel PropsUfTrees UfGrow.
Open Scope nat_scope.

Definition pair_eq_dec : forall x y : snode * snode, {x = y} + {x <> y}.
Proof. intros [a b] [c d]. destruct (snode_eq_dec a c), (snode_eq_dec b d); (left; congruence) || (right; congruence). Defined.

Lemma mapM_map {A B} (f : A -> res B) (g : A -> B) l : (forall x y, f x = Ok y -> y = g x) ->
  forall ys, mapM f l = Ok ys -> ys = map g l.
Proof.
  intros H. induction l as [|x l IH]; simpl; intros ys E; [injection E as <-; reflexivity|].
  destruct (f x) as [y|] eqn:Ef; [|discriminate]. simpl in E. destruct (mapM f l) as [ys'|]; [|discriminate].
  simpl in E. injection E as <-. rewrite (H x y Ef), (IH ys' eq_refl). reflexivity.
Qed.

Lemma filterM_nd f l : NoDup l -> forall l', filterM f l = Ok l' -> NoDup l' /\ forall x, In x l' -> In x l.
Proof.
  induction l as [|x l IH]; intros Hn l' E; simpl in E; [injection E as <-; split; [constructor|auto]|].
  apply NoDup_cons_iff in Hn. destruct Hn as [Hx Hn].
  destruct (f x) as [b|]; [|discriminate]. simpl in E. destruct (filterM f l) as [m|]; [|discriminate]. simpl in E.
  destruct (IH Hn m eq_refl) as [H1 H2]. injection E as <-. destruct b.
  - split; [constructor; auto|]. intros y [<-|Hy]; [left; reflexivity|right; auto].
  - split; [assumption|]. intros y Hy. right; auto.
Qed.

Lemma NoDup_sunion l m : NoDup l -> NoDup m -> NoDup (sunion l m).
Proof. apply sunion_NoDup. Qed.

(* number of elements of a duplicate-free list equal to one of two values *)
Lemma two_count (p : snode * snode -> bool) x y l : x <> y -> NoDup l -> (forall z, p z = true <-> z = x \/ z = y) ->
  length (filter p l) = Nat.b2n (if in_dec pair_eq_dec x l then true else false) + Nat.b2n (if in_dec pair_eq_dec y l then true else false).
Proof.
  intros Hne Hn Hp.
  assert (E : length (filter p l) = count_occ pair_eq_dec l x + count_occ pair_eq_dec l y).
  { clear Hn. induction l as [|z l IH]; [reflexivity|]. cbn [filter count_occ].
    destruct (p z) eqn:Ez; cbn [length].
    - apply Hp in Ez. destruct (pair_eq_dec z x), (pair_eq_dec z y); destruct Ez; try congruence; rewrite IH; lia.
    - destruct (pair_eq_dec z x) as [->|]; [rewrite (proj2 (Hp x)) in Ez by auto; discriminate|].
      destruct (pair_eq_dec z y) as [->|]; [rewrite (proj2 (Hp y)) in Ez by auto; discriminate|]. exact IH. }
  rewrite E.
  assert (C : forall z, count_occ pair_eq_dec l z = Nat.b2n (if in_dec pair_eq_dec z l then true else false)).
  { intros z. destruct (in_dec pair_eq_dec z l) as [H|H]; simpl.
    - apply NoDup_count_occ' ; assumption.
    - apply count_occ_not_In. assumption. }
  rewrite !C. reflexivity.
Qed.

Section Sync.
  Variables (E : list sedge) (er : point -> bool) (sp : nat -> bool) (oe : snode -> list snode).
  Variable sch : sched.
  Variable fuel : nat.
  Variable N : list snode.

  Hypothesis Huniq : forall e e' u v, In e E -> In e' E -> same_pair u v e = true -> same_pair u v e' = true -> e = e'.
  Hypothesis Hloop : forall a b cv, In (a, b, cv) (RE E) -> a <> b.
  Hypothesis Hoe : forall u v, In v (oe u) <-> gadj E u v.
  Hypothesis Hoend : forall u, NoDup (oe u).
  Hypothesis Hsch : sched_ok sch.
  Hypothesis HNd : NoDup N.
  Hypothesis HN : forall x, In x N <-> exists e, In e (RE E) /\ incident x e = true.
  Hypothesis Hfuel : length N < fuel.

  Notation lab := (label sp).
  Notation RE := (RE E).
  Notation key := (key E).

  Definition keyb (e : sedge) (uv : snode * snode) : bool :=
    match key (fst uv) (snd uv) with Some e' => if sedge_eq_dec e' e then true else false | None => false end.
  Definition cnt (e : sedge) (calls : list (snode * snode)) : nat := length (filter (keyb e) calls).

  Lemma grow_exact calls : forall st fl st' fl', foldM (grow E) (st, fl) calls = Ok (st', fl') ->
    forall e, lvl (st' e) = Nat.min 2 (lvl (st e) + cnt e calls).
  Proof.
    induction calls as [|uv calls IH]; intros st fl st' fl' H e.
    - injection H as -> ->. unfold cnt. simpl. destruct (st' e); reflexivity.
    - rewrite foldM_cons in H. unfold grow at 1 in H. unfold cnt. cbn [filter]. unfold keyb at 1.
      destruct (key (fst uv) (snd uv)) as [e0|]; [|discriminate].
      destruct (st e0) eqn:Es; cbn [bind] in H; apply IH with (e := e) in H; rewrite H; unfold cnt; clear H;
        unfold estupd; destruct (sedge_eq_dec e0 e) as [He|He]; cbn [length];
        try (subst e0; destruct (sedge_eq_dec e e); [|congruence]; rewrite ?Es; cbn [lvl]; lia);
        try (destruct (sedge_eq_dec e e0); [congruence|]; lia).
  Qed.

  Definition bd_nd (s : ust) : Prop := forall r l, u_bd s r = Some l -> NoDup l.

  Definition callsof (k : nat) (s : ust) (c : snode) : list (snode * snode) :=
    match u_bd s c with
    | Some l => flat_map (fun n => map (pair n) (nbrs oe n)) (sc_nodes sch k c l)
    | None => []
    end.

  Lemma calls_eq k s odd calls : grow_calls oe sch k s odd = Ok calls -> calls = flat_map (callsof k s) (sc_odd sch k odd).
  Proof.
    unfold grow_calls. intros H. destruct (mapM _ _) as [ys|] eqn:Em; [|discriminate]. simpl in H. injection H as <-.
    apply mapM_map with (g := callsof k s) in Em.
    - rewrite Em, flat_map_concat_map. reflexivity.
    - intros c y Hc. unfold callsof, nbrs. destruct (u_bd s c); [|discriminate]. injection Hc as <-. reflexivity.
  Qed.

  Lemma calls_In k s odd calls n v : grow_calls oe sch k s odd = Ok calls ->
    (In (n, v) calls <-> exists c l, In c odd /\ u_bd s c = Some l /\ In n l /\ In v (nbrs oe n)).
  Proof.
    intros H. apply calls_eq in H. subst. destruct Hsch as (S1 & S2 & _). rewrite in_flat_map. split.
    - intros (c & Hc & Hu). apply (Permutation_in _ (S1 k odd)) in Hc. unfold callsof in Hu.
      destruct (u_bd s c) as [l|] eqn:El; [|destruct Hu]. apply in_flat_map in Hu. destruct Hu as (m & Hm & Hu).
      apply in_map_iff in Hu. destruct Hu as (w & [= -> ->] & Hw). apply (Permutation_in _ (S2 k c l)) in Hm. eauto 6.
    - intros (c & l & Hc & El & Hn & Hv). exists c. split; [apply (Permutation_in _ (Permutation_sym (S1 k odd))); assumption|].
      unfold callsof. rewrite El. apply in_flat_map. exists n. split; [apply (Permutation_in _ (Permutation_sym (S2 k c l))); assumption|].
      apply in_map. assumption.
  Qed.

  Lemma calls_nd k s rep odd calls : ginv E sp N s rep -> (forall c, In c odd -> h_par (u_heap s) c = PRoot) ->
    NoDup odd -> bd_nd s -> grow_calls oe sch k s odd = Ok calls -> NoDup calls.
  Proof.
    intros (T & _ & _ & HB) Hodd Hnd Hbd H. apply calls_eq in H. subst. destruct Hsch as (S1 & S2 & _).
    apply NoDup_flat_map.
    - eapply Permutation_NoDup; [symmetry; apply S1|assumption].
    - intros c _. unfold callsof. destruct (u_bd s c) as [l|] eqn:El; [|constructor].
      apply NoDup_flat_map.
      + eapply Permutation_NoDup; [symmetry; apply S2|]. eapply Hbd; eauto.
      + intros n _. apply NoDup_map_inj; [intros x y _ _ [= ->]; reflexivity|]. unfold nbrs. apply NoDup_filter.
        destruct (real n); [apply Hoend|constructor].
      + intros n n' uv _ _ H1 H2. apply in_map_iff in H1, H2. destruct H1 as (x & <- & _), H2 as (y & [= -> _] & _). reflexivity.
    - intros c c' [n v] Hc Hc' H1 H2.
      apply (Permutation_in _ (S1 k odd)) in Hc. apply (Permutation_in _ (S1 k odd)) in Hc'.
      assert (G : forall c, In c odd -> In (n, v) (callsof k s c) -> rep n = c).
      { clear - S2 HB Hodd. intros c Hc H. unfold callsof in H. destruct (HB c (Hodd c Hc)) as (l & El & Hl & _). rewrite El in H.
        apply in_flat_map in H. destruct H as (m & Hm & H). apply in_map_iff in H. destruct H as (w & [= -> ->] & _).
        apply (Permutation_in _ (S2 k c l)) in Hm. apply Hl; assumption. }
      rewrite <- (G c Hc H1). apply G; assumption.
  Qed.

  Definition ogrow (rep : snode -> snode) (odd : list snode) (x : snode) : nat := Nat.b2n (smem (rep x) odd).

  Lemma keyb_iff a b cv uv : In (a, b, cv) RE -> keyb (a, b, cv) uv = true <-> uv = (a, b) \/ uv = (b, a).
  Proof.
    intros HI. unfold keyb. destruct uv as [u v]. cbn [fst snd].
    destruct (key u v) as [e'|] eqn:K.
    - apply (key_some E sp fuel Huniq) in K. destruct K as [K1 K2]. destruct (sedge_eq_dec e' (a, b, cv)) as [->|Hne].
      + apply same_pair_iff in K2. simpl in K2. split; [|reflexivity]. intros _. destruct K2 as [[-> ->]|[-> ->]]; auto.
      + split; [discriminate|]. intros H. exfalso. apply Hne. apply (Huniq e' (a, b, cv) u v).
        * apply filter_In in K1; tauto. * apply filter_In in HI; tauto. * assumption.
        * apply same_pair_iff. simpl. destruct H as [[= -> ->]|[= -> ->]]; auto.
    - split; [discriminate|]. intros H. exfalso.
      assert (K' : key u v = Some (a, b, cv)); [|congruence]. apply (key_some E sp fuel Huniq). split; [assumption|].
      apply same_pair_iff. simpl. destruct H as [[= -> ->]|[= -> ->]]; auto.
  Qed.

  Lemma cnt_exact k s rep odd calls a b cv : ginv E sp N s rep -> (forall c, In c odd -> h_par (u_heap s) c = PRoot) ->
    NoDup odd -> bd_nd s -> grow_calls oe sch k s odd = Ok calls ->
    In (a, b, cv) RE -> u_st s (a, b, cv) <> Grown ->
    cnt (a, b, cv) calls = ogrow rep odd a + ogrow rep odd b.
  Proof.
    intros HG Hodd Hnd Hbd Hc HI Hst. pose proof (calls_nd k s rep odd calls HG Hodd Hnd Hbd Hc) as Hcn.
    pose proof (Hloop a b cv HI) as Hab. unfold cnt.
    rewrite (two_count (keyb (a, b, cv)) (a, b) (b, a)); [|congruence|assumption|intros; apply keyb_iff; assumption].
    destruct HG as (T & _ & _ & HB). destruct (RE_ends E N HN a b cv HI) as [Ha Hb].
    assert (G : forall x y, In x N -> In (x, y) [(a, b); (b, a)] ->
      (if in_dec pair_eq_dec (x, y) calls then true else false) = smem (rep x) odd).
    { intros x y Hx Hxy. apply eq_true_iff_eq. rewrite smem_In.
      assert (Hinc : incident x (a, b, cv) = true) by (apply incident_iff; destruct Hxy as [[= -> ->]|[[= -> ->]|[]]]; auto).
      assert (Hxv : In y (nbrs oe x)).
      { destruct (edge_nbr E sp oe fuel Huniq Hoe x (a, b, cv) HI Hinc) as (v & Hv & Hk).
        apply (key_some E sp fuel Huniq) in Hk. destruct Hk as [_ Hs]. apply same_pair_iff in Hs. simpl in Hs.
        destruct Hxy as [[= -> ->]|[[= -> ->]|[]]]; destruct Hs as [[? ?]|[? ?]]; congruence. }
      destruct (in_dec pair_eq_dec (x, y) calls) as [Hin|Hin].
      - split; [intros _|reflexivity]. apply (calls_In k s odd calls x y Hc) in Hin. destruct Hin as (c & l & Hco & El & Hxl & _).
        destruct (HB c (Hodd c Hco)) as (l' & El' & Hl & _). rewrite El in El'. injection El' as <-.
        destruct (Hl x Hxl) as [_ ->]. assumption.
      - split; [discriminate|]. intros Hco. exfalso. apply Hin. apply (calls_In k s odd calls x y Hc).
        destruct (HB _ (Hodd _ Hco)) as (l & El & _ & Hl). exists (rep x), l. split; [assumption|]. split; [assumption|].
        split; [|assumption]. apply Hl; [assumption|reflexivity|]. exists (a, b, cv). auto. }
    rewrite (G a b Ha (or_introl eq_refl)), (G b a Hb (or_intror (or_introl eq_refl))). reflexivity.
  Qed.

  Lemma fuse_keeps s uv s' : fuse E oe fuel s uv = Ok s' -> bd_nd s -> u_st s' = u_st s /\ bd_nd s'.
  Proof.
    unfold fuse. intros H Hn. destruct (find_root _ (u_heap s) _) as [r0|]; [|discriminate]. cbn [bind] in H.
    destruct (find_root _ (snd r0) _) as [r1|]; [|discriminate]. cbn [bind] in H.
    destruct (fst r0) as [a|], (fst r1) as [b|]; try discriminate.
    2: { injection H as <-. split; [reflexivity|exact Hn]. }
    destruct (union (snd r1) a b) as [h' [[big small]|]].
    2: { injection H as <-. split; [reflexivity|exact Hn]. }
    destruct (u_bd s big) as [lb|] eqn:Eb; [|discriminate]. destruct (u_bd s small) as [ls|] eqn:Es; [|discriminate].
    destruct (prune E oe (u_st s) (sunion lb ls)) as [l|] eqn:Ep; [|discriminate]. cbn [bind] in H. injection H as <-.
    split; [reflexivity|]. intros r l0. cbn [u_bd]. unfold supd. destruct (snode_eq_dec r big) as [->|].
    - intros [= <-]. unfold prune in Ep. eapply filterM_nd; [|exact Ep]. apply sunion_NoDup; eapply Hn; eauto.
    - apply Hn.
  Qed.
  Lemma fuses_keep fl : forall s s', foldM (fuse E oe fuel) s fl = Ok s' -> bd_nd s -> u_st s' = u_st s /\ bd_nd s'.
  Proof.
    induction fl as [|uv fl IH]; intros s s' H Hn; [injection H as <-; auto|]. rewrite foldM_cons in H.
    destruct (fuse E oe fuel s uv) as [s1|] eqn:E1; [|discriminate]. cbn [bind] in H.
    destruct (fuse_keeps s uv s1 E1 Hn) as [H1 H2]. destruct (IH s1 s' H H2) as [H3 H4]. split; [congruence|assumption].
  Qed.

  Lemma update_odd_nd k h odd h' odd' : update_odd sch fuel k h odd = Ok (h', odd') -> NoDup odd'.
  Proof.
    unfold update_odd. intros H.
    match type of H with bind (foldM ?g ?i ?m) _ = _ => set (f := g) in H; destruct (foldM f i m) as [hs|] eqn:Ef; [|discriminate];
      assert (G : forall l hs hs', foldM f hs l = Ok hs' -> NoDup (snd hs) -> NoDup (snd hs')) end.
    { clear. induction l as [|c l IH]; intros hs hs' H Hn; [injection H as <-; assumption|]. rewrite foldM_cons in H.
      unfold f at 1 in H. destruct (find_root fuel (fst hs) c) as [r|]; [|discriminate]. cbn [bind] in H.
      destruct (fst r) as [x|]; [|discriminate]. cbn [bind] in H. apply IH in H; [assumption|]. cbn [snd].
      apply sunion_NoDup; [assumption|constructor; [intros []|constructor]]. }
    apply G in Ef; [|constructor]. cbn [bind] in H. injection H as _ <-. apply NoDup_filter. assumption.
  Qed.

  (* the state between two rounds *)
  Record between (s : ust) (rep : snode -> snode) (odd : list snode) : Prop := {
    bt_inv : ginv E sp N s rep;
    bt_root : forall c, In c odd -> h_par (u_heap s) c = PRoot;
    bt_list : listed (u_heap s) odd;
    bt_ond : NoDup odd;
    bt_bnd : bd_nd s
  }.
  (* one round *)
  Record step_of (s : ust) (rep : snode -> snode) (odd : list snode) (s' : ust) (rep' : snode -> snode) (odd' : list snode) : Prop := {
    so_lvl : forall a b cv, In (a, b, cv) RE ->
      lvl (u_st s' (a, b, cv)) = Nat.min 2 (lvl (u_st s (a, b, cv)) + ogrow rep odd a + ogrow rep odd b);
    so_lonely : forall c, In c odd' -> lonely (u_heap s') c
  }.

  Lemma round_sync k s rep odd s' odd' : between s rep odd -> round E oe sch fuel k s odd = Ok (s', odd') ->
    exists rep', between s' rep' odd' /\ step_of s rep odd s' rep' odd'.
  Proof.
    intros [HG Hodd Hl Hnd Hbd] HR.
    destruct (round_ok E sp oe sch fuel N Huniq Hoe Hsch HN Hfuel k s rep odd HG Hodd Hl)
      as (s1 & rep' & odd1 & E1 & HG' & Hodd' & Hl' & _ & _).
    rewrite HR in E1. injection E1 as <- <-.
    unfold round in HR. destruct (grow_calls oe sch k s odd) as [calls|] eqn:Ec; [|discriminate]. cbn [bind] in HR.
    destruct (foldM (grow E) (u_st s, []) calls) as [[st' fl]|] eqn:Eg; [|discriminate]. cbn [bind fst snd] in HR.
    destruct (foldM (fuse E oe fuel) _ fl) as [s2|] eqn:Ef; [|discriminate]. cbn [bind] in HR.
    destruct (update_odd sch fuel k (u_heap s2) odd) as [[h2 o2]|] eqn:Eu; [|discriminate]. cbn [bind fst snd] in HR.
    injection HR as <- <-. destruct (fuses_keep fl _ _ Ef Hbd) as [Hst Hbd2]. cbn [u_st] in Hst.
    exists rep'. split.
    - constructor; [exact HG'|intros c Hc; apply Hodd'; assumption|exact Hl'|eapply update_odd_nd; eauto|exact Hbd2].
    - constructor.
      + intros a b cv HI. cbn [u_st]. rewrite Hst, (grow_exact calls _ _ _ _ Eg).
        destruct (u_st s (a, b, cv)) eqn:Es.
        3: (cbn [lvl]; lia).
        all: rewrite (cnt_exact k s rep odd calls a b cv HG Hodd Hnd Hbd Ec HI) by congruence; cbn [lvl]; lia.
      + intros c Hc. apply Hodd'. assumption.
  Qed.

  (* a property kept by every round holds at the end *)
  Lemma loop_keeps (P : nat -> ust -> (snode -> snode) -> list snode -> Prop) n : forall k s rep odd s',
    (forall k s rep odd s' rep' odd', between s rep odd -> between s' rep' odd' -> step_of s rep odd s' rep' odd' ->
       P k s rep odd -> P (S k) s' rep' odd') ->
    between s rep odd -> P k s rep odd -> union_find E oe sch fuel n k s odd = Ok s' ->
    exists k' rep', between s' rep' [] /\ P k' s' rep' [].
  Proof.
    induction n as [|n IH]; intros k s rep odd s' Hstep HB HP HU.
    - destruct odd as [|c odd]; simpl in HU; [injection HU as <-; eauto|discriminate].
    - destruct odd as [|c odd].
      + injection HU as <-. eauto.
      + change (bind (round E oe sch fuel k s (c :: odd)) (fun so => union_find E oe sch fuel n (S k) (fst so) (snd so)) = Ok s') in HU.
        destruct (round E oe sch fuel k s (c :: odd)) as [[s1 odd1]|] eqn:ER; [|discriminate]. cbn [bind fst snd] in HU.
        destruct (round_sync k s rep (c :: odd) s1 odd1 HB ER) as (rep1 & HB1 & HS1).
        apply (IH (S k) s1 rep1 odd1 s' Hstep HB1); [|assumption]. exact (Hstep k s rep _ s1 rep1 odd1 HB HB1 HS1 HP).
  Qed.

  (* -------------------------------------------------------------- *)
  (* the first state *)
  Lemma boundary_walk_nd h st root n : forall node visited acc l, boundary_walk E oe sch fuel n h st root node visited acc = Ok l ->
    NoDup acc -> NoDup l.
  Proof.
    assert (Hs : forall n node visited acc, boundary_walk E oe sch fuel n h st root node visited acc =
      bind (find_child sch fuel h visited node) (fun node' =>
      bind (on_boundary E oe st node') (fun b =>
      let acc' := if b then sunion acc [node'] else acc in
      if snode_eq_dec node' root then Ok acc'
      else match n, h_par h node' with
           | S n', PUp u => boundary_walk E oe sch fuel n' h st root u (visited ++ [node']) acc'
           | 0, _ => Err OutOfFuel
           | _, _ => Err AttributeError
           end))) by (intros m; destruct m; reflexivity).
    induction n as [|n IH]; intros node visited acc l H Hn; rewrite Hs in H;
      (destruct (find_child sch fuel h visited node) as [x|]; [|discriminate]); cbn [bind] in H;
      (destruct (on_boundary E oe st x) as [b|]; [|discriminate]); cbn [bind] in H; cbv zeta in H;
      (assert (Hacc : NoDup (if b then sunion acc [x] else acc))
         by (destruct b; [apply sunion_NoDup; [assumption|constructor; [intros []|constructor]]|assumption]));
      (destruct (snode_eq_dec x root); [injection H as <-; assumption|]); [discriminate|].
    destruct (h_par h x); try discriminate. eapply IH; eauto.
  Qed.

  Variable comps : list (list snode).
  Hypothesis Hc : components N (filter (erased er) RE) comps.

  Lemma init_sync n s : grow_clusters E er sp oe sch fuel n comps = Ok s ->
    exists s0 rep0 odd0, between s0 rep0 odd0 /\ u_st s0 = init_status er /\
      (forall c, h_par (u_heap s0) c = PRoot -> h_pty (u_heap s0) c = true -> In c odd0) /\
      (forall c, In c odd0 -> h_pty (u_heap s0) c = true) /\
      union_find E oe sch fuel n 0 s0 odd0 = Ok s.
  Proof.
    destruct Hc as (C1 & C2 & C3 & C4).
    destruct (init_ok E er sp oe sch fuel N Huniq Hoe Hsch HNd HN Hfuel comps C1 C2 C3 C4) as (h & rep & bd & odd & Ei & Eb & HG & Hodd & Hl).
    intros H. unfold grow_clusters in H. rewrite Ei in H. cbn [bind] in H. rewrite Eb in H. cbn [bind] in H.
    exists {| u_heap := h; u_st := init_status er; u_bd := bd |}, rep, odd.
    assert (Eo : odd = filter (h_pty h) (map hd_of comps)).
    { unfold initialize in Ei. match type of Ei with bind ?m _ = _ => destruct m as [[h0 ts]|]; [|discriminate] end. cbn [bind fst snd] in Ei.
      injection Ei as -> -> <-. reflexivity. }
    assert (Hhd : NoDup (map hd_of comps)).
    { assert (Hcn : NoDup (concat comps)) by (eapply Permutation_NoDup; [symmetry; exact C1|assumption]).
      clear - Hcn C2. induction comps as [|c cs IH]; [constructor|]. simpl in *. constructor.
      - intros Hi. apply in_map_iff in Hi. destruct Hi as (c' & He & Hc').
        assert (H1 : In (hd_of c) c) by (pose proof (C2 c (or_introl eq_refl)); destruct c; [congruence|left; reflexivity]).
        assert (H2 : In (hd_of c) (concat cs)).
        { apply in_concat. exists c'. split; [assumption|]. rewrite <- He. pose proof (C2 c' (or_intror Hc')). destruct c'; [congruence|left; reflexivity]. }
        revert H1 H2. generalize (hd_of c). intros z H1 H2. clear - Hcn H1 H2. induction c as [|y l IHl]; [destruct H1|]. cbn [app] in Hcn. apply NoDup_cons_iff in Hcn. destruct Hcn as [Hy Hcn].
        destruct H1 as [->|H1]; [|auto]. apply Hy. apply in_or_app. auto.
      - apply IH; [intros; apply C2; right; assumption|]. clear - Hcn. induction c as [|y l IHl]; [assumption|].
        cbn [app] in Hcn. apply NoDup_cons_iff in Hcn. tauto. }
    assert (Hr : forall c, h_par h c = PRoot -> In c (map hd_of comps)).
    { intros c Hcr. pose proof HG as (T & _ & HR & _). pose proof (isroot_N _ _ _ _ _ T Hcr) as HcN.
      apply (Permutation_in _ (Permutation_sym C1)) in HcN. apply in_concat in HcN. destruct HcN as (l & Hlc & Hcl).
      assert (Hh : In (hd_of l) l) by (pose proof (C2 l Hlc); destruct l; [congruence|left; reflexivity]).
      assert (HhN : forall x, In x l -> In x N).
      { intros x Hx. apply (Permutation_in _ C1). apply in_concat. eauto. }
      unfold initialize in Ei.
      destruct (init_fold_ok E sp oe fuel N Hoe HN Hfuel comps [] (fun x => x) fresh_heap []) as (h1 & M & rep1 & Ei1 & T1 & Hf & HM & _ & Hrep1 & HR1).
      { apply trees_fresh. } { intros x u; discriminate. }
      { eapply Permutation_NoDup; [symmetry; exact C1|assumption]. } { assumption. } { intros x _ []. }
      rewrite Ei1 in Ei. cbn [bind fst snd] in Ei. injection Ei as <- _. apply HR1 in Hcr. destruct Hcr as [Hcr|Hcr]; [discriminate|assumption]. }
    split; [|split; [reflexivity|split; [|split]]].
    - constructor; [exact HG|exact Hodd|exact Hl| |].
      + rewrite Eo. apply NoDup_filter. assumption.
      + intros r l. cbn [u_bd]. clear - Eb.
        assert (G : forall cs bd0 bd, foldM (fun bd c => bind (boundary_init E oe sch fuel h (init_status er) c) (fun l => Ok (supd bd c (Some l)))) bd0 cs = Ok bd ->
          (forall r l, bd0 r = Some l -> NoDup l) -> forall r l, bd r = Some l -> NoDup l).
        { clear. induction cs as [|c cs IH]; intros bd0 bd H Hn; [injection H as <-; assumption|]. rewrite foldM_cons in H.
          destruct (boundary_init E oe sch fuel h (init_status er) c) as [l|] eqn:El; [|discriminate]. cbn [bind] in H.
          eapply IH; [exact H|]. intros r l0. unfold supd. destruct (snode_eq_dec r c); [|apply Hn].
          intros [= <-]. eapply boundary_walk_nd; [exact El|constructor]. }
        apply (G _ _ _ Eb). discriminate.
    - cbn [u_heap]. intros c Hcr Hp. rewrite Eo. apply filter_In. split; [apply Hr|]; assumption.
    - cbn [u_heap]. intros c Hco. rewrite Eo in Hco. apply filter_In in Hco. tauto.
    - exact H.
  Qed.
End Sync.
