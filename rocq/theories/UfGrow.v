(* UfGrow.v: the growth loop of the Union-Find decoder. *)
From Coq Require Import Relations.
From Verif Require Import Base Lattice RhgModel SurfaceModel StabGraphModel Paths MwpmModel MwpmProofs UfModel UfTrees UfSpec UfPeel PropsUfTrees.
Open Scope nat_scope.

Lemma foldM_cons {A S} (f : S -> A -> res S) s x l : foldM f s (x :: l) = bind (f s x) (fun s' => foldM f s' l).
Proof. reflexivity. Qed.
Lemma foldM_app {A S} (f : S -> A -> res S) l1 : forall s l2, foldM f s (l1 ++ l2) = bind (foldM f s l1) (fun s' => foldM f s' l2).
Proof.
  induction l1 as [|x l1 IH]; intros s l2; simpl; [reflexivity|]. destruct (f s x); simpl; [apply IH|reflexivity].
Qed.

Lemma filterM_ok (P : snode -> Prop) f l : (forall x, In x l -> exists b, f x = Ok b /\ (b = true <-> P x)) ->
  exists l', filterM f l = Ok l' /\ forall x, In x l' <-> In x l /\ P x.
Proof.
  induction l as [|x l IH]; intros H; simpl; [exists []; split; [reflexivity|]; simpl; tauto|].
  destruct (H x) as (b & E & Hb); [left; reflexivity|]. rewrite E. simpl.
  destruct IH as (l' & E' & Hl'); [intros y Hy; apply H; right; assumption|]. rewrite E'. simpl.
  eexists. split; [reflexivity|]. intros y. destruct b; simpl; rewrite Hl'.
  - split; [intros [<-|]; [|tauto]; split; [auto|apply Hb; reflexivity]|tauto].
  - split; [tauto|]. intros [[<-|Hy] Hp]; [apply Hb in Hp; discriminate|tauto].
Qed.

(* conn and paths in the edge relation *)
Lemma conn_closed F (P : snode -> Prop) x y :
  (forall a b cv, In (a, b, cv) F -> P a <-> P b) -> conn F x y -> P x <-> P y.
Proof.
  intros H. induction 1 as [a b (cv & HI)|a|a b _ IH|a b c _ IH1 _ IH2]; [eapply H; eauto|tauto|tauto|tauto].
Qed.

(* the sum over N, cluster by cluster *)
Lemma xsum_clusters lab N rep h (f : snode -> bool) : trees lab N rep h ->
  xsum f N = xsum (fun c => xsum f (members N rep c)) (filter (fun x => sneqb (rep x) x) N).
Proof.
  intros T. set (roots := filter _ N).
  assert (Hr : NoDup roots) by (apply NoDup_filter, (t_nd _ _ _ _ T)).
  rewrite (xsum_ext (fun c => xsum f (members N rep c)) (fun c => xsum (fun x => sneqb (rep x) c && f x) N))
    by (intros; unfold members; apply xsum_filter).
  rewrite xsum_swap. apply xsum_ext. intros x Hx.
  rewrite (xsum_ext (fun c => sneqb (rep x) c && f x) (fun c => sneqb c (rep x) && f x)).
  - symmetry. apply xsum_point; [assumption|]. apply filter_In. split; [eapply rep_N; eauto|].
    apply sneqb_iff. eapply isroot_rep; eauto. eapply rep_isroot; eauto.
  - intros c _. f_equal. unfold sneqb. destruct (snode_eq_dec (rep x) c), (snode_eq_dec c (rep x)); congruence.
Qed.

Section Grow.
  Variables (E : list sedge) (er : point -> bool) (sp : nat -> bool) (oe : snode -> list snode).
  Variable sch : sched.
  Variable fuel : nat.
  Variable N : list snode.

  Hypothesis Huniq : forall e e' u v, In e E -> In e' E -> same_pair u v e = true -> same_pair u v e' = true -> e = e'.
  Hypothesis Hoe : forall u v, In v (oe u) <-> gadj E u v.
  Hypothesis Hsch : sched_ok sch.
  Hypothesis HNd : NoDup N.
  Hypothesis HN : forall x, In x N <-> exists e, In e (RE E) /\ incident x e = true.
  Hypothesis Hfuel : length N < fuel.

  Notation lab := (label sp).
  Notation RE := (RE E).
  Notation key := (key E).

  Definition nbrs (n : snode) : list snode := filter real (if real n then oe n else []).
  Definition open (st : sedge -> growth) (n : snode) : Prop := exists e, In e RE /\ incident n e = true /\ st e <> Grown.

  Lemma RE_In a b cv : In (a, b, cv) RE <-> In (a, b, cv) E /\ real a = true /\ real b = true.
  Proof. unfold RE. rewrite filter_In. unfold real_edge. simpl. rewrite andb_true_iff. reflexivity. Qed.
  Lemma RE_incident e n : In e RE -> incident n e = true -> real n = true.
  Proof. destruct e as [[a b] cv]. intros H Hi. apply RE_In in H. apply incident_iff in Hi. destruct Hi as [<-|<-]; tauto. Qed.
  Lemma N_real x : In x N -> real x = true.
  Proof. intros H. apply HN in H. destruct H as (e & He & Hi). eapply RE_incident; eauto. Qed.

  Lemma key_some u v e : key u v = Some e <-> In e RE /\ same_pair u v e = true.
  Proof.
    unfold key. split.
    - intros H. apply find_some in H. assumption.
    - intros [H1 H2]. destruct (find (same_pair u v) RE) as [e'|] eqn:F.
      + apply find_some in F. destruct F as [F1 F2]. f_equal. apply (Huniq e' e u v); auto; [apply filter_In in F1|apply filter_In in H1]; tauto.
      + pose proof (find_none _ _ F e H1). congruence.
  Qed.
  Lemma same_pair_incident u v e : same_pair u v e = true -> incident u e = true /\ incident v e = true.
  Proof.
    destruct e as [[a b] cv]. intros H. apply same_pair_iff in H. simpl in H. rewrite !incident_iff. intuition congruence.
  Qed.
  Lemma nbr_key n v : In v (nbrs n) -> exists e, key n v = Some e /\ In e RE /\ incident n e = true /\ incident v e = true.
  Proof.
    unfold nbrs. intros H. apply filter_In in H. destruct H as [H Hv]. destruct (real n) eqn:Hn; [|destruct H].
    apply Hoe in H. destruct H as [cv H].
    assert (exists e, In e RE /\ same_pair n v e = true) as (e & He & Hs).
    { destruct H as [H|H].
      - exists (n, v, cv). split; [apply RE_In; auto|]. apply same_pair_iff. simpl. auto.
      - exists (v, n, cv). split; [apply RE_In; auto|]. apply same_pair_iff. simpl. auto. }
    exists e. split; [apply key_some; auto|]. split; [assumption|]. apply same_pair_incident; assumption.
  Qed.
  Lemma edge_nbr n e : In e RE -> incident n e = true -> exists v, In v (nbrs n) /\ key n v = Some e.
  Proof.
    intros He Hi. pose proof (RE_incident _ _ He Hi) as Hn. destruct e as [[a b] cv].
    pose proof He as He'. apply RE_In in He. destruct He as (HE & Ha & Hb). apply incident_iff in Hi. unfold nbrs. rewrite Hn.
    destruct Hi as [->| ->].
    - exists b. split; [apply filter_In; split; [apply Hoe; exists cv; auto|assumption]|].
      apply key_some. split; [assumption|]. apply same_pair_iff. simpl. auto.
    - exists a. split; [apply filter_In; split; [apply Hoe; exists cv; auto|assumption]|].
      apply key_some. split; [assumption|]. apply same_pair_iff. simpl. auto.
  Qed.

  Lemma on_boundary_ok st n : exists b, on_boundary E oe st n = Ok b /\ (b = true <-> open st n).
  Proof.
    unfold on_boundary. fold (nbrs n).
    set (f := fun v => match key n v with Some e => Ok (negb (grownb (st e))) | None => Err KeyError end).
    destruct (mapM_ok f (nbrs n)) as (ys & Em & F).
    { intros v Hv. destruct (nbr_key n v Hv) as (e & Hk & _). unfold f. rewrite Hk. eauto. }
    rewrite Em. simpl. eexists. split; [reflexivity|]. rewrite existsb_exists. split.
    - intros (b & Hb & ->). destruct (F2_in_r _ _ _ _ F Hb) as (v & Hv & Hf).
      destruct (nbr_key n v Hv) as (e & Hk & He & Hi & _). unfold f in Hf. rewrite Hk in Hf. injection Hf as Hf.
      exists e. split; [assumption|]. split; [assumption|]. intros Hg. rewrite Hg in Hf. discriminate.
    - intros (e & He & Hi & Hg). destruct (edge_nbr n e He Hi) as (v & Hv & Hk).
      destruct (F2_in_l _ _ _ _ F Hv) as (b & Hb & Hf). unfold f in Hf. rewrite Hk in Hf. injection Hf as <-.
      exists true. split; [|reflexivity]. destruct (st e); simpl in Hb; [assumption|assumption|congruence].
  Qed.
  Lemma prune_ok st l : exists l', prune E oe st l = Ok l' /\ forall x, In x l' <-> In x l /\ open st x.
  Proof. apply filterM_ok. intros x _. apply on_boundary_ok. Qed.

  (* -------------------------------------------------------------- *)
  (* growing *)
  Definition lvl (g : growth) : nat := match g with Empty => 0 | Half => 1 | Grown => 2 end.

  Lemma grow_ok calls : forall st fl, (forall uv, In uv calls -> exists e, key (fst uv) (snd uv) = Some e) ->
    exists st' fl', foldM (grow E) (st, fl) calls = Ok (st', fl ++ fl') /\
      (forall e, lvl (st e) <= lvl (st' e)) /\
      (forall e, st' e = Grown <-> st e = Grown \/ exists uv, In uv fl' /\ key (fst uv) (snd uv) = Some e) /\
      (forall uv, In uv fl' -> In uv calls) /\
      (forall uv e, In uv calls -> key (fst uv) (snd uv) = Some e -> st e <> Grown -> lvl (st e) < lvl (st' e)) /\
      (forall e, st' e <> st e -> exists uv, In uv calls /\ key (fst uv) (snd uv) = Some e).
  Proof.
    induction calls as [|uv calls IH]; intros st fl Hk.
    - exists st, []. rewrite app_nil_r. split; [reflexivity|]. split; [auto|]. split; [intros e; split; [auto|intros [|(uv & [] & _)]; assumption]|].
      split; [intros uv []|]. split; [intros uv e []|]. congruence.
    - destruct (Hk uv) as (e & He); [left; reflexivity|].
      rewrite foldM_cons. unfold grow at 1. rewrite He.
      assert (Hk' : forall uv, In uv calls -> exists e, key (fst uv) (snd uv) = Some e) by (intros; apply Hk; right; assumption).
      destruct (st e) eqn:Es; simpl bind.
      + destruct (IH (estupd st e Half) fl Hk') as (st' & fl' & Ef & H1 & H2 & H3 & H4 & H5).
        exists st', fl'. split; [exact Ef|].
        assert (Hst : forall e', estupd st e Half e' = if sedge_eq_dec e' e then Half else st e') by reflexivity.
        split; [|split; [|split; [|split]]].
        * intros e'. pose proof (H1 e') as H1'. rewrite Hst in H1'. destruct (sedge_eq_dec e' e) as [->|]; [rewrite Es; simpl in *; lia|assumption].
        * intros e'. rewrite H2, Hst. destruct (sedge_eq_dec e' e) as [->|]; [|reflexivity]. rewrite Es. split; (intros [?|?]; [discriminate|right; assumption]).
        * intros uv' Hu. right. auto.
        * intros uv' e' Hu Hke Hg. pose proof (H1 e') as H1'. rewrite Hst in H1'. destruct (sedge_eq_dec e' e) as [->|Hne].
          -- rewrite Es. simpl in *. lia.
          -- destruct Hu as [<-|Hu]; [congruence|]. pose proof (H4 uv' e' Hu Hke) as H4'. rewrite Hst in H4'. destruct (sedge_eq_dec e' e); [contradiction|]. auto.
        * intros e' Hd. destruct (sedge_eq_dec e' e) as [->|Hne]; [exists uv; split; [left; reflexivity|assumption]|].
          destruct (H5 e') as (uv' & Hu & Hke); [rewrite Hst; destruct (sedge_eq_dec e' e); [contradiction|assumption]|].
          exists uv'. split; [right|]; assumption.
      + destruct (IH (estupd st e Grown) (fl ++ [uv]) Hk') as (st' & fl' & Ef & H1 & H2 & H3 & H4 & H5).
        exists st', (uv :: fl'). split; [rewrite Ef, <- app_assoc; reflexivity|].
        assert (Hst : forall e', estupd st e Grown e' = if sedge_eq_dec e' e then Grown else st e') by reflexivity.
        split; [|split; [|split; [|split]]].
        * intros e'. pose proof (H1 e') as H1'. rewrite Hst in H1'. destruct (sedge_eq_dec e' e) as [->|]; [rewrite Es; simpl in *; lia|assumption].
        * intros e'. rewrite H2, Hst. destruct (sedge_eq_dec e' e) as [->|Hne].
          -- split; [|auto]. intros _. right. exists uv. split; [left; reflexivity|assumption].
          -- split; (intros [?|(uv' & Hu & Hke)]; [left; assumption|]).
             ++ right. exists uv'. split; [right|]; assumption.
             ++ destruct Hu as [<-|Hu]; [congruence|]. right. eauto.
        * intros uv' [<-|Hu]; [left; reflexivity|right; auto].
        * intros uv' e' Hu Hke Hg. pose proof (H1 e') as H1'. rewrite Hst in H1'. destruct (sedge_eq_dec e' e) as [->|Hne].
          -- rewrite Es. simpl in *. lia.
          -- destruct Hu as [<-|Hu]; [congruence|]. pose proof (H4 uv' e' Hu Hke) as H4'. rewrite Hst in H4'. destruct (sedge_eq_dec e' e); [contradiction|]. auto.
        * intros e' Hd. destruct (sedge_eq_dec e' e) as [->|Hne]; [exists uv; split; [left; reflexivity|assumption]|].
          destruct (H5 e') as (uv' & Hu & Hke); [rewrite Hst; destruct (sedge_eq_dec e' e); [contradiction|assumption]|].
          exists uv'. split; [right|]; assumption.
      + destruct (IH st fl Hk') as (st' & fl' & Ef & H1 & H2 & H3 & H4 & H5).
        exists st', fl'. split; [exact Ef|]. split; [assumption|]. split; [assumption|]. split; [intros; right; auto|]. split.
        * intros uv' e' [<-|Hu] Hke Hg; [congruence|eauto].
        * intros e' Hd. destruct (H5 e' Hd) as (uv' & Hu & Hke). exists uv'. split; [right|]; assumption.
  Qed.

  (* -------------------------------------------------------------- *)
  (* fusing.  R is the connectivity represented so far. *)
  Definition bounds (st : sedge -> growth) (rep : snode -> snode) (h : heap) (bd : snode -> option (list snode)) : Prop :=
    forall r, h_par h r = PRoot -> exists l, bd r = Some l /\
      (forall x, In x l -> In x N /\ rep x = r) /\ (forall x, In x N -> rep x = r -> open st x -> In x l).

  Definition fstate (R : snode -> snode -> Prop) (s : ust) (rep : snode -> snode) : Prop :=
    trees lab N rep (u_heap s) /\ (forall x y, R x y -> In x N /\ In y N) /\
    (forall x y, In x N -> In y N -> (rep x = rep y <-> clos_refl_sym_trans _ R x y)) /\
    bounds (u_st s) rep (u_heap s) (u_bd s).

  Lemma fuse_ok R s rep uv : fstate R s rep -> In (fst uv) N -> In (snd uv) N ->
    exists s' rep', fuse E oe fuel s uv = Ok s' /\ u_st s' = u_st s /\
      fstate (fun p q => R p q \/ (p = fst uv /\ q = snd uv)) s' rep'.
  Proof.
    intros (T & HRN & HR & HB) Hu Hv. destruct uv as [u v]; simpl in *. unfold fuse.
    assert (Hfu : length N <= fuel) by lia.
    destruct (find_root_ok lab N rep (u_heap s) T fuel u Hu Hfu) as (h1 & E1 & T1 & R1 & _). simpl fst; simpl snd. rewrite E1. simpl bind.
    destruct (find_root_ok lab N rep h1 T1 fuel v Hv Hfu) as (h2 & E2 & T2 & R2 & _). simpl. rewrite E2. simpl.
    assert (HR' : forall p q, R p q \/ (p = u /\ q = v) -> In p N /\ In q N) by (intros p q [H|[-> ->]]; auto).
    assert (HB2 : bounds (u_st s) rep h2 (u_bd s)) by (intros r Hr; apply HB, R1, R2; assumption).
    destruct (snode_eq_dec (rep u) (rep v)) as [Euv|Euv].
    - assert (Eu : union h2 (rep u) (rep v) = (h2, None)) by (unfold union; destruct (snode_eq_dec (rep u) (rep v)); [reflexivity|contradiction]).
      rewrite Eu. eexists. exists rep. split; [reflexivity|]. split; [reflexivity|]. split; [assumption|]. split; [assumption|]. split; [|exact HB2].
      intros x y Hx Hy. rewrite HR by assumption. split; [apply rst_mono; auto|].
      intros H. apply HR; auto. clear Hx Hy. induction H as [p q [H|[-> ->]]|p|p q _ IH|p q r0 _ IH1 _ IH2]; [|assumption|reflexivity|congruence|congruence].
      destruct (HRN _ _ H). apply HR; auto. apply rst_step; assumption.
    - pose proof (rep_isroot _ _ _ _ _ T2 Hu) as Ru. pose proof (rep_isroot _ _ _ _ _ T2 Hv) as Rv.
      destruct (union_ok _ _ _ _ _ _ T2 Ru Rv Euv) as (big & small & h3 & EU & Hbs & _ & T3 & R3). rewrite EU.
      assert (Rbig : h_par h2 big = PRoot) by (destruct Hbs as [[-> ->]|[-> ->]]; assumption).
      assert (Rsmall : h_par h2 small = PRoot) by (destruct Hbs as [[-> ->]|[-> ->]]; assumption).
      assert (Hne : big <> small) by (destruct Hbs as [[-> ->]|[-> ->]]; congruence).
      destruct (HB2 big Rbig) as (lb & Elb & Hlb & Hlb').
      destruct (HB2 small Rsmall) as (ls & Els & Hls & Hls').
      rewrite Elb, Els. destruct (prune_ok (u_st s) (sunion lb ls)) as (l & El & Hl). rewrite El. simpl.
      eexists. exists (merge rep small big). split; [reflexivity|]. split; [reflexivity|]. split; [exact T3|]. split; [assumption|]. split.
      + intros x y Hx Hy. destruct (merge_conn R N rep u v (rep u) (rep v) HR HRN Hu Hv eq_refl eq_refl Euv x y Hx Hy) as [M1 M2].
        destruct Hbs as [[-> ->]|[-> ->]]; assumption.
      + simpl. intros r Hr. apply R3 in Hr. destruct Hr as [Hr Hrs]. unfold supd. destruct (snode_eq_dec r big) as [->|Hrb].
        * exists l. split; [reflexivity|]. split.
          -- intros x Hx. apply Hl in Hx. destruct Hx as [Hx _]. apply sunion_In in Hx. unfold merge. destruct Hx as [Hx|Hx].
             ++ destruct (Hlb x Hx) as [H1 H2]. split; [assumption|]. rewrite H2. destruct (snode_eq_dec big small); congruence.
             ++ destruct (Hls x Hx) as [H1 H2]. split; [assumption|]. rewrite H2. destruct (snode_eq_dec small small); congruence.
          -- intros x Hx Hm Ho. apply Hl. split; [|assumption]. apply sunion_In. unfold merge in Hm.
             destruct (snode_eq_dec (rep x) small) as [Es|Es]; auto.
        * destruct (HB2 r Hr) as (l0 & E0 & H1 & H2). exists l0. split; [assumption|]. unfold merge. split.
          -- intros x Hx. destruct (H1 x Hx) as [H3 H4]. split; [assumption|]. rewrite H4. destruct (snode_eq_dec r small); congruence.
          -- intros x Hx Hm Ho. destruct (snode_eq_dec (rep x) small); [congruence|]. auto.
  Qed.

  Lemma fuses_ok fl : forall R s rep, fstate R s rep -> (forall uv, In uv fl -> In (fst uv) N /\ In (snd uv) N) ->
    exists s' rep', foldM (fuse E oe fuel) s fl = Ok s' /\ u_st s' = u_st s /\
      fstate (fun p q => R p q \/ In (p, q) fl) s' rep'.
  Proof.
    induction fl as [|uv fl IH]; intros R s rep HS Hin.
    - exists s, rep. split; [reflexivity|]. split; [reflexivity|]. destruct HS as (T & H1 & H2 & H3). split; [assumption|].
      split; [intros x y [H|[]]; auto|]. split; [|assumption]. intros x y Hx Hy. rewrite H2 by assumption.
      split; apply rst_mono; simpl; tauto.
    - destruct (Hin uv) as [Hu Hv]; [left; reflexivity|].
      destruct (fuse_ok R s rep uv HS Hu Hv) as (s1 & rep1 & E1 & St1 & HS1).
      destruct (IH _ s1 rep1 HS1) as (s2 & rep2 & E2 & St2 & HS2); [intros; apply Hin; right; assumption|].
      exists s2, rep2. split; [rewrite foldM_cons, E1; exact E2|]. split; [congruence|].
      destruct HS2 as (T & H1 & H2 & H3). destruct uv as [u v]. simpl in *.
      assert (Hiff : forall p q, ((R p q \/ p = u /\ q = v) \/ In (p, q) fl) <-> (R p q \/ (u, v) = (p, q) \/ In (p, q) fl)).
      { intros p q. split; [intros [[H|[-> ->]]|H]; auto|]. intros [H|[[= <- <-]|H]]; auto. }
      split; [assumption|]. split; [intros x y H; apply H1, Hiff, H|]. split; [|assumption].
      intros x y Hx Hy. rewrite H2 by assumption. split; apply rst_mono; intros p q; apply Hiff.
  Qed.

  (* -------------------------------------------------------------- *)
  (* one round *)
  Definition gR (st : sedge -> growth) (a b : snode) : Prop := exists cv, In (a, b, cv) RE /\ st (a, b, cv) = Grown.
  Definition ginv (s : ust) (rep : snode -> snode) : Prop := fstate (gR (u_st s)) s rep.
  Definition lonely (h : heap) (r : snode) : Prop := h_pty h r = true /\ h_bnd h r = None.
  (* the odd clusters without boundary are all listed *)
  Definition listed (h : heap) (odd : list snode) : Prop :=
    forall r, h_par h r = PRoot -> lonely h r -> In r odd.

  Lemma RE_ends a b cv : In (a, b, cv) RE -> In a N /\ In b N.
  Proof. intros H. split; apply HN; exists (a, b, cv); (split; [assumption|apply incident_iff; auto]). Qed.

  Lemma grow_calls_ok k s rep odd : ginv s rep -> (forall c, In c odd -> h_par (u_heap s) c = PRoot) ->
    exists calls, grow_calls oe sch k s odd = Ok calls /\
      (forall uv, In uv calls -> In (fst uv) N /\ In (snd uv) (nbrs (fst uv))) /\
      (forall c n e, In c odd -> In n N -> rep n = c -> In e RE -> incident n e = true -> u_st s e <> Grown ->
         exists uv, In uv calls /\ key (fst uv) (snd uv) = Some e).
  Proof.
    intros (T & _ & _ & HB) Hodd. unfold grow_calls.
    destruct Hsch as (S1 & S2 & _).
    match goal with |- context [mapM ?g _] => set (f := g) end.
    destruct (mapM_ok f (sc_odd sch k odd)) as (ys & Ey & F).
    { intros c Hc. apply (Permutation_in _ (S1 k odd)) in Hc. destruct (HB c (Hodd c Hc)) as (l & El & _).
      unfold f. rewrite El. eauto. }
    rewrite Ey. simpl. eexists. split; [reflexivity|]. split.
    - intros uv Huv. apply in_concat in Huv. destruct Huv as (y & Hy & Huv).
      destruct (F2_in_r _ _ _ _ F Hy) as (c & Hc & Hf). apply (Permutation_in _ (S1 k odd)) in Hc.
      destruct (HB c (Hodd c Hc)) as (l & El & Hl & _). unfold f in Hf. rewrite El in Hf. injection Hf as <-.
      apply in_flat_map in Huv. destruct Huv as (n & Hn & Huv). apply (Permutation_in _ (S2 k c l)) in Hn.
      apply in_map_iff in Huv. destruct Huv as (v & <- & Hv). simpl. split; [apply Hl; assumption|exact Hv].
    - intros c n e Hc Hn Hrep He Hi Hg. destruct (edge_nbr n e He Hi) as (v & Hv & Hk).
      exists (n, v). split; [|assumption]. apply in_concat.
      assert (Hc' : In c (sc_odd sch k odd)) by (apply (Permutation_in _ (Permutation_sym (S1 k odd))); assumption).
      destruct (F2_in_l _ _ _ _ F Hc') as (y & Hy & Hf).
      destruct (HB c (Hodd c Hc)) as (l & El & _ & Hl). unfold f in Hf. rewrite El in Hf. injection Hf as <-.
      eexists. split; [exact Hy|]. apply in_flat_map. exists n. split.
      + apply (Permutation_in _ (Permutation_sym (S2 k c l))). apply Hl; auto. exists e; auto.
      + apply in_map. exact Hv.
  Qed.

  Lemma roots_ok l : forall h rep acc, trees lab N rep h -> (forall c, In c l -> In c N) ->
    exists h' acc', foldM (fun hs c => bind (find_root fuel (fst hs) c) (fun r =>
            match fst r with
            | Some x => Ok (snd r, sunion (snd hs) [x])
            | None => Err AttributeError
            end)) (h, acc) l = Ok (h', acc') /\
      trees lab N rep h' /\ (forall r, h_par h' r = PRoot <-> h_par h r = PRoot) /\ h_pty h' = h_pty h /\ h_bnd h' = h_bnd h /\
      (forall x, In x acc' <-> In x acc \/ exists c, In c l /\ rep c = x).
  Proof.
    induction l as [|c l IH]; intros h rep acc T Hl.
    - exists h, acc. split; [reflexivity|]. split; [assumption|]. split; [tauto|]. split; [reflexivity|]. split; [reflexivity|].
      intros x. split; [auto|]. intros [H|(c & [] & _)]; assumption.
    - rewrite foldM_cons. simpl fst. assert (Hfu : length N <= fuel) by lia.
      destruct (find_root_ok lab N rep h T fuel c (Hl c (or_introl eq_refl)) Hfu) as (h1 & E1 & T1 & R1 & _ & P1 & B1 & _).
      rewrite E1. simpl bind.
      destruct (IH h1 rep (sunion acc [rep c]) T1) as (h2 & acc2 & E2 & T2 & R2 & P2 & B2 & H2).
      { intros c' Hc'. apply Hl. right; assumption. }
      exists h2, acc2. split; [exact E2|]. split; [assumption|]. split; [intros r; rewrite R2; apply R1|].
      split; [congruence|]. split; [congruence|]. intros x. rewrite H2, sunion_In. simpl. split.
      + intros [[H|[<-|[]]]|(c' & Hc' & <-)]; eauto 6.
      + intros [H|(c' & [<-|Hc'] & <-)]; eauto 6.
  Qed.

  Lemma xsum_true {A} (f : A -> bool) l : xsum f l = true -> exists x, In x l /\ f x = true.
  Proof.
    induction l as [|x l IH]; simpl; [discriminate|]. destruct (f x) eqn:Ex; [eauto|].
    rewrite xorb_false_l. intros H. destruct (IH H) as (y & Hy & Hf). eauto.
  Qed.

  (* an odd cluster of a coarser partition contains an odd cluster of the finer one *)
  Lemma odd_sub h rep h' rep' r : trees lab N rep h -> trees lab N rep' h' ->
    (forall x y, In x N -> In y N -> rep x = rep y -> rep' x = rep' y) ->
    h_par h' r = PRoot -> lonely h' r -> exists c, h_par h c = PRoot /\ lonely h c /\ rep' c = r.
  Proof.
    intros T T' Hsub Hr [Hp Hb].
    pose proof (t_pty _ _ _ _ T' r Hr) as P. rewrite Hp in P. unfold members in P. rewrite xsum_filter in P.
    rewrite (xsum_clusters lab N rep h _ T) in P. symmetry in P. apply xsum_true in P. destruct P as (c & Hc & P).
    apply filter_In in Hc. destruct Hc as [HcN Hcr]. apply sneqb_iff in Hcr.
    assert (Rc : h_par h c = PRoot) by (rewrite <- Hcr; eapply rep_isroot; eauto).
    rewrite (xsum_ext _ (fun x => sneqb (rep' c) r && parb (lab x))) in P.
    - rewrite xsum_andb_l in P. apply andb_true_iff in P. destruct P as [P1 P2]. apply sneqb_iff in P1.
      exists c. split; [assumption|]. split; [|assumption]. split.
      + rewrite (t_pty _ _ _ _ T c Rc). exact P2.
      + pose proof (t_bnd _ _ _ _ T c Rc) as B. destruct (h_bnd h c) as [b|]; [|reflexivity].
        pose proof (t_bnd _ _ _ _ T' r Hr) as B'. rewrite Hb in B'. destruct B as [B1 B2].
        apply members_In in B1. destruct B1 as [B1 B3]. exfalso. apply (B' b); [|assumption].
        apply members_In. split; [assumption|]. rewrite <- P1. apply Hsub; auto. congruence.
    - intros x Hx. apply members_In in Hx. destruct Hx as [Hx1 Hx2]. rewrite (Hsub x c); auto. congruence.
  Qed.

  Lemma round_ok k s rep odd : ginv s rep -> (forall c, In c odd -> h_par (u_heap s) c = PRoot) -> listed (u_heap s) odd ->
    exists s' rep' odd', round E oe sch fuel k s odd = Ok (s', odd') /\ ginv s' rep' /\
      (forall c, In c odd' -> h_par (u_heap s') c = PRoot /\ lonely (u_heap s') c) /\ listed (u_heap s') odd' /\
      (forall e, lvl (u_st s e) <= lvl (u_st s' e)) /\
      ((exists c n, In c odd /\ In n N /\ rep n = c /\ open (u_st s) n) ->
       exists e, In e RE /\ lvl (u_st s e) < lvl (u_st s' e)).
  Proof.
    intros HG Hodd Hlist. unfold round.
    destruct (grow_calls_ok k s rep odd HG Hodd) as (calls & Ec & Hcalls & Hcov). rewrite Ec. simpl bind.
    destruct (grow_ok calls (u_st s) []) as (st' & fl & Eg & Hmono & Hgrown & Hfl & Hprog & _).
    { intros uv Huv. destruct (Hcalls uv Huv) as [_ Hv]. destruct (nbr_key _ _ Hv) as (e & Hk & _). eauto. }
    rewrite Eg. simpl bind. simpl app.
    assert (Hfl' : forall uv, In uv fl -> In (fst uv) N /\ In (snd uv) N).
    { intros uv Huv. destruct (Hcalls uv (Hfl uv Huv)) as [H1 H2]. split; [assumption|].
      destruct (nbr_key _ _ H2) as (e & _ & He & _ & Hi). apply HN. eauto. }
    destruct HG as (T & HRN & HR & HB).
    assert (Hopen : forall x, open st' x -> open (u_st s) x).
    { intros x (e & He & Hi & Hg). exists e. split; [assumption|]. split; [assumption|]. intros H. apply Hg. apply Hgrown. auto. }
    destruct (fuses_ok fl (gR (u_st s)) {| u_heap := u_heap s; u_st := st'; u_bd := u_bd s |} rep) as (s1 & rep1 & E1 & St1 & T1 & HRN1 & HR1 & HB1).
    { split; [exact T|]. split; [exact HRN|]. split; [exact HR|]. simpl. intros r Hr. destruct (HB r Hr) as (l & El & H1 & H2).
      simpl in Hr.
      exists l. split; [assumption|]. split; [assumption|]. intros; apply H2; auto. }
    { assumption. }
    simpl fst. rewrite E1. simpl bind. simpl in St1.
    assert (HR1' : forall x y, In x N -> In y N -> (rep1 x = rep1 y <-> clos_refl_sym_trans _ (gR st') x y)).
    { intros x y Hx Hy. rewrite HR1 by assumption. split; intros H; clear Hx Hy.
      - induction H as [a b [(cv & HI & Hg)|HI]|a|a b _ IH|a b c _ IH1 _ IH2].
        + apply rst_step. exists cv. split; [assumption|]. apply Hgrown; auto.
        + destruct (Hcalls _ (Hfl _ HI)) as [_ Hv]. simpl in Hv. destruct (nbr_key _ _ Hv) as (e & Hk & He & _).
          assert (Hge : st' e = Grown) by (apply Hgrown; right; exists (a, b); auto).
          apply key_some in Hk. destruct Hk as [_ Hs]. destruct e as [[p q] cv]. apply same_pair_iff in Hs. simpl in Hs.
          destruct Hs as [[-> ->]|[-> ->]]; [apply rst_step|apply rst_sym, rst_step]; exists cv; auto.
        + apply rst_refl.
        + apply rst_sym; assumption.
        + eapply rst_trans; eassumption.
      - induction H as [a b (cv & HI & Hg)|a|a b _ IH|a b c _ IH1 _ IH2].
        + apply Hgrown in Hg. destruct Hg as [Hg|(uv & Huv & Hk)].
          * apply rst_step. left. exists cv; auto.
          * apply key_some in Hk. destruct Hk as [_ Hs]. apply same_pair_iff in Hs. simpl in Hs. destruct uv as [u v]. simpl in Hs.
            destruct Hs as [[-> ->]|[-> ->]]; [apply rst_step|apply rst_sym, rst_step]; right; assumption.
        + apply rst_refl.
        + apply rst_sym; assumption.
        + eapply rst_trans; eassumption. }
    unfold update_odd.
    destruct (roots_ok (sc_upd sch k odd) (u_heap s1) rep1 [] T1) as (h2 & acc & E2 & T2 & R2 & P2 & B2 & Hacc).
    { intros c Hc. destruct Hsch as (_ & _ & S3 & _). apply (Permutation_in _ (S3 k odd)) in Hc.
      apply (isroot_N _ _ _ _ _ T), Hodd, Hc. }
    rewrite E2. simpl.
    assert (Hsub : forall x y, In x N -> In y N -> rep x = rep y -> rep1 x = rep1 y).
    { intros x y Hx Hy H. apply HR1'; auto. apply HR in H; auto. eapply rst_mono; [|exact H].
      intros a b (cv & H1 & H2). exists cv. split; [assumption|]. apply Hgrown; auto. }
    eexists. exists rep1. eexists. split; [reflexivity|]. simpl. split; [|split; [|split; [|split]]].
    - split; [exact T2|]. simpl. rewrite St1. split; [|split; [exact HR1'|]].
      + intros x y (cv & HI & _). eapply RE_ends; eauto.
      + intros r Hr. apply R2 in Hr. rewrite St1 in HB1. apply HB1; assumption.
    - intros c Hc. apply filter_In in Hc. destruct Hc as [Hc Hp]. apply andb_true_iff in Hp. destruct Hp as [Hp Hb].
      apply Hacc in Hc. destruct Hc as [[]|(c0 & Hc0 & <-)].
      assert (Hc0N : In c0 N).
      { destruct Hsch as (_ & _ & S3 & _). apply (Permutation_in _ (S3 k odd)) in Hc0. apply (isroot_N _ _ _ _ _ T), Hodd, Hc0. }
      split; [eapply rep_isroot; eauto|]. split; [assumption|]. destruct (h_bnd h2 (rep1 c0)); [discriminate|reflexivity].
    - intros r Hr Hl. destruct (odd_sub _ _ _ _ r T T2 Hsub Hr Hl) as (c & Rc & Lc & <-).
      apply filter_In. split.
      + apply Hacc. right. exists c. split; [|reflexivity]. destruct Hsch as (_ & _ & S3 & _).
        apply (Permutation_in _ (Permutation_sym (S3 k odd))). apply Hlist; assumption.
      + destruct Hl as [Hp Hb]. rewrite Hp, Hb. reflexivity.
    - rewrite St1. assumption.
    - rewrite St1. intros (c & n & Hc & Hn & Hrep & (e & He & Hi & Hg)).
      destruct (Hcov c n e Hc Hn Hrep He Hi Hg) as (uv & Huv & Hk). exists e. split; [assumption|]. eapply Hprog; eauto.
  Qed.

  (* -------------------------------------------------------------- *)
  (* the loop *)
  Definition gap (g : growth) : nat := match g with Empty => 2 | Half => 1 | Grown => 0 end.
  Lemma gap_lvl g : gap g + lvl g = 2.
  Proof. destruct g; reflexivity. Qed.
  Definition mu (st : sedge -> growth) : nat := list_sum (map (fun e => gap (st e)) RE).
  Lemma mu_lt st st' : (forall e, lvl (st e) <= lvl (st' e)) -> (exists e, In e RE /\ lvl (st e) < lvl (st' e)) -> mu st' < mu st.
  Proof.
    intros H (e & He & Hlt). unfold mu. clear -H He Hlt.
    assert (Hle : forall l, list_sum (map (fun e => gap (st' e)) l) <= list_sum (map (fun e => gap (st e)) l)).
    { clear -H. induction l as [|x l IH]; simpl; [lia|]. pose proof (H x). pose proof (gap_lvl (st x)). pose proof (gap_lvl (st' x)). lia. }
    induction RE as [|e' l IH]; simpl; [destruct He|]. pose proof (H e').
    pose proof (gap_lvl (st e')). pose proof (gap_lvl (st' e')). specialize (Hle l).
    destruct He as [->|He]; [lia|]. specialize (IH He). lia.
  Qed.
  Lemma mu_bound st : mu st <= 2 * length RE.
  Proof. unfold mu. clear. induction RE as [|e l IH]; simpl; [lia|]. destruct (st e); simpl; lia. Qed.

  (* -------------------------------------------------------------- *)
  (* initialization *)
  Definition flat (h : heap) : Prop := forall x u, h_par h x = PUp u -> h_par h u = PRoot.

  Lemma union_par h r1 r2 : r1 <> r2 -> h_size h r2 <= h_size h r1 ->
    h_par (fst (union h r1 r2)) = supd (h_par h) r2 (PUp r1).
  Proof.
    intros Hne Hs. unfold union. destruct (snode_eq_dec r1 r2); [contradiction|].
    apply Nat.leb_le in Hs. rewrite Hs. reflexivity.
  Qed.

  Lemma init_rest_ok r rest : forall M rep h, trees lab M rep h -> flat h -> h_par h r = PRoot ->
    NoDup rest -> (forall x, In x rest -> ~ In x M) ->
    exists h' M' rep', fold_left (fun h x => fst (union (new_root x (lab x) h) r x)) rest h = h' /\
      trees lab M' rep' h' /\ flat h' /\ (forall x, In x M' <-> In x M \/ In x rest) /\
      (forall x, In x M -> rep' x = rep x) /\ (forall x, In x rest -> rep' x = r) /\
      (forall q, h_par h' q = PRoot <-> h_par h q = PRoot).
  Proof.
    induction rest as [|x rest IH]; intros M rep h T Hf Hr Hnd Hdis.
    - exists h, M, rep. simpl. split; [reflexivity|]. split; [assumption|]. split; [assumption|].
      split; [tauto|]. split; [auto|]. split; [intros x []|tauto].
    - assert (Hx : ~ In x M) by (apply Hdis; left; reflexivity).
      assert (HrM : In r M) by (eapply isroot_N; eauto).
      assert (Hrx : r <> x) by congruence.
      assert (Hps : h_par h x = PSelf).
      { destruct (h_par h x) eqn:Ep; [reflexivity| |]; exfalso; apply Hx, (t_in _ _ _ _ T); congruence. }
      pose proof (new_root_ok lab M rep h x T Hx) as T1. set (h1 := new_root x (lab x) h) in *.
      assert (R1r : h_par h1 r = PRoot) by (simpl; rewrite supd_other; auto).
      assert (R1x : h_par h1 x = PRoot) by (simpl; apply supd_same).
      assert (Hsz : h_size h1 x <= h_size h1 r).
      { simpl. rewrite supd_same, supd_other by assumption.
        destruct (t_up _ _ _ _ T r HrM) as (n & _ & Hn). rewrite (isroot_rep _ _ _ _ _ T Hr) in Hn.
        pose proof (Nat.pow_nonzero 2 n). lia. }
      destruct (union_ok _ _ _ _ r x T1 R1r R1x Hrx) as (big & small & h2 & EU & Hbs & Hbig & T2 & R2).
      pose proof (union_par h1 r x Hrx Hsz) as Hpar. rewrite EU in Hpar. simpl in Hpar.
      specialize (Hbig Hsz). subst big. assert (small = x) by (destruct Hbs as [[_ ->]|[-> _]]; congruence). subst small.
      destruct (IH (x :: M) (merge (supd rep x x) x r) h2) as (h' & M' & rep' & E' & T' & F' & HM' & Hold & Hnew & HR').
      + assumption.
      + intros y u. rewrite Hpar. unfold supd at 1. destruct (snode_eq_dec y x) as [->|Hyx].
        * intros [= <-]. rewrite supd_other by assumption. assumption.
        * simpl. rewrite supd_other by assumption. intros Hy. pose proof (Hf y u Hy) as Hu.
          assert (u <> x) by congruence. unfold h1; simpl. rewrite !supd_other by assumption. assumption.
      + rewrite Hpar, supd_other; assumption.
      + inversion Hnd; assumption.
      + intros y Hy [<-|HM]; [inversion Hnd; contradiction|]. apply (Hdis y); [right|]; assumption.
      + exists h', M', rep'. split; [simpl; fold h1; rewrite EU; exact E'|]. split; [assumption|]. split; [assumption|].
        split; [intros y; rewrite HM'; simpl; tauto|]. split.
        * intros y Hy. rewrite Hold by (right; assumption). unfold merge. rewrite supd_other by congruence.
          destruct (snode_eq_dec (rep y) x) as [Ey|]; [|reflexivity]. exfalso. apply Hx. rewrite <- Ey. eapply rep_N; eauto.
        * split.
          -- intros y [<-|Hy]; [|auto]. rewrite Hold by (left; reflexivity). unfold merge. rewrite supd_same.
             destruct (snode_eq_dec x x); congruence.
          -- intros q. rewrite HR', R2. simpl. unfold supd. destruct (snode_eq_dec q x) as [->|Hq]; [rewrite Hps; split; [tauto|discriminate]|tauto].
  Qed.

  Lemma init_component_ok r rest M rep h : trees lab M rep h -> flat h -> NoDup (r :: rest) ->
    (forall x, In x (r :: rest) -> ~ In x M) ->
    exists h' M' rep', init_component sp h (r :: rest) = Ok (h', r) /\
      trees lab M' rep' h' /\ flat h' /\ (forall x, In x M' <-> In x M \/ In x (r :: rest)) /\
      (forall x, In x M -> rep' x = rep x) /\ (forall x, In x (r :: rest) -> rep' x = r) /\
      (forall q, h_par h' q = PRoot <-> h_par h q = PRoot \/ q = r).
  Proof.
    intros T Hf Hnd Hdis. assert (Hr : ~ In r M) by (apply Hdis; left; reflexivity).
    assert (Hps : h_par h r = PSelf).
    { destruct (h_par h r) eqn:Ep; [reflexivity| |]; exfalso; apply Hr, (t_in _ _ _ _ T); congruence. }
    pose proof (new_root_ok lab M rep h r T Hr) as T1. set (h1 := new_root r (lab r) h) in *.
    destruct (init_rest_ok r rest (r :: M) (supd rep r r) h1) as (h' & M' & rep' & E' & T' & F' & HM' & Hold & Hnew & HR').
    - assumption.
    - intros y u. simpl. unfold supd at 1. destruct (snode_eq_dec y r); [discriminate|]. intros Hy.
      pose proof (Hf y u Hy). rewrite supd_other by congruence. assumption.
    - simpl. apply supd_same.
    - inversion Hnd; assumption.
    - intros y Hy [<-|HM]; [inversion Hnd; contradiction|]. apply (Hdis y); [right|]; assumption.
    - exists h', M', rep'. split; [unfold init_component; fold h1; rewrite E'; reflexivity|]. split; [assumption|]. split; [assumption|].
      split; [intros y; rewrite HM'; simpl; tauto|]. split.
      + intros y Hy. rewrite Hold by (right; assumption). apply supd_other. congruence.
      + split.
        * intros y [<-|Hy]; [|auto]. rewrite Hold by (left; reflexivity). apply supd_same.
        * intros q. rewrite HR'. simpl. unfold supd. destruct (snode_eq_dec q r) as [->|Hq]; tauto.
  Qed.

  Definition hd_of (c : list snode) : snode := hd NLow c.

  Lemma init_fold_ok comps : forall M rep h ts, trees lab M rep h -> flat h ->
    NoDup (concat comps) -> (forall c, In c comps -> c <> []) -> (forall x, In x (concat comps) -> ~ In x M) ->
    exists h' M' rep', foldM (fun s comp => bind (init_component sp (fst s) comp) (fun hr => Ok (fst hr, snd s ++ [snd hr]))) (h, ts) comps
        = Ok (h', ts ++ map hd_of comps) /\
      trees lab M' rep' h' /\ flat h' /\ (forall x, In x M' <-> In x M \/ In x (concat comps)) /\
      (forall x, In x M -> rep' x = rep x) /\ (forall c x, In c comps -> In x c -> rep' x = hd_of c) /\
      (forall q, h_par h' q = PRoot <-> h_par h q = PRoot \/ In q (map hd_of comps)).
  Proof.
    induction comps as [|c comps IH]; intros M rep h ts T Hf Hnd Hne Hdis.
    - exists h, M, rep. simpl. rewrite app_nil_r. split; [reflexivity|]. split; [assumption|]. split; [assumption|].
      split; [tauto|]. split; [auto|]. split; [intros c x []|tauto].
    - destruct c as [|r rest]; [exfalso; apply (Hne []); [left|]; reflexivity|].
      rewrite foldM_cons. simpl fst.
      assert (Hnd1 : NoDup (r :: rest) /\ NoDup (concat comps) /\ forall x, In x (r :: rest) -> ~ In x (concat comps)).
      { clear -Hnd. change (concat ((r :: rest) :: comps)) with ((r :: rest) ++ concat comps) in Hnd.
        induction (r :: rest) as [|y l IHl]; simpl in *; [split; [constructor|split; [assumption|intros x []]]|].
        inversion Hnd as [|? ? H1 H2]; subst. destruct (IHl H2) as (N1 & N2 & N3).
        rewrite in_app_iff in H1. split; [constructor; tauto|]. split; [assumption|]. intros x [<-|Hx]; [tauto|auto]. }
      destruct Hnd1 as (Hn1 & Hn2 & Hn3).
      destruct (init_component_ok r rest M rep h T Hf Hn1) as (h1 & M1 & rep1 & E1 & T1 & F1 & HM1 & Hold1 & Hnew1 & HR1).
      { intros x Hx. apply Hdis. change (In x ((r :: rest) ++ concat comps)). apply in_or_app. left; assumption. }
      rewrite E1. simpl bind.
      destruct (IH M1 rep1 h1 (ts ++ [r]) T1 F1 Hn2) as (h' & M' & rep' & E' & T' & F' & HM' & Hold & Hnew & HR').
      { intros c Hc; apply Hne; right; assumption. }
      { intros x Hx HM. apply HM1 in HM. destruct HM as [HM|HM].
        - apply (Hdis x); [change (In x ((r :: rest) ++ concat comps)); apply in_or_app; right|]; assumption.
        - exact (Hn3 x HM Hx). }
      exists h', M', rep'. split; [simpl; rewrite E', <- app_assoc; reflexivity|]. split; [assumption|]. split; [assumption|].
      assert (Hcc : forall x, In x (concat ((r :: rest) :: comps)) <-> In x (r :: rest) \/ In x (concat comps)).
      { intros x. change (In x ((r :: rest) ++ concat comps) <-> In x (r :: rest) \/ In x (concat comps)). apply in_app_iff. }
      split; [intros x; rewrite HM', HM1, Hcc; tauto|]. split.
      + intros x Hx. rewrite Hold by (apply HM1; auto). auto.
      + split.
        * intros c x [<-|Hc] Hx; [|eauto]. rewrite Hold by (apply HM1; auto). rewrite Hnew1 by assumption. reflexivity.
        * intros q. rewrite HR', HR1. simpl. unfold hd_of at 2. simpl. intuition congruence.
  Qed.

  Lemma trees_perm M M' rep h : Permutation M M' -> trees lab M rep h -> trees lab M' rep h.
  Proof.
    intros P T. assert (HI : forall x, In x M' <-> In x M) by (intros x; split; apply Permutation_in; [symmetry|]; assumption).
    assert (Hm : forall r, Permutation (members M rep r) (members M' rep r)).
    { intros r. unfold members. clear -P. induction P; simpl.
      - constructor.
      - destruct (sneqb (rep x) r); [constructor|]; assumption.
      - destruct (sneqb (rep x) r), (sneqb (rep y) r); try constructor; apply Permutation_refl.
      - eapply perm_trans; eassumption. }
    destruct T as [t1 t2 t3 t4 t5 t6 t7 t8]. constructor; auto.
    - eapply Permutation_NoDup; eassumption.
    - intros x. rewrite HI. apply t2.
    - intros x Hx. apply t3, HI, Hx.
    - intros r Hr. rewrite t6 by assumption. apply Permutation_length, Hm.
    - intros r Hr. rewrite t7 by assumption. apply xsum_perm, Hm.
    - intros r Hr. specialize (t8 r Hr). destruct (h_bnd h r).
      + split; [|tauto]. eapply Permutation_in; [apply Hm|tauto].
      + intros x Hx. apply t8. eapply Permutation_in; [symmetry; apply Hm|assumption].
  Qed.

  (* the first boundary of a cluster *)
  Lemma find_child_ok h visited r : flat h -> (forall u y, In y (h_kids h u) <-> h_par h y = PUp u) -> h_par h r = PRoot ->
    forall f, 1 <= f ->
    (exists c, In c (h_kids h r) /\ ~ In c visited /\ find_child sch f h visited r = Ok c) \/
    ((forall c, In c (h_kids h r) -> In c visited) /\ find_child sch f h visited r = Ok r).
  Proof.
    intros Hf Hk Hr f Hle. destruct Hsch as (_ & _ & _ & S4).
    assert (HE : forall node, find_child sch f h visited node =
      match find (fun c => negb (smem c visited)) (sc_kids sch visited (h_kids h node)) with
      | None => Ok node
      | Some c => match f with 0 => Err OutOfFuel | S f' => find_child sch f' h visited c end
      end) by (intros; destruct f; reflexivity).
    rewrite HE. destruct (find _ (sc_kids sch visited (h_kids h r))) as [c|] eqn:Ef.
    - left. apply find_some in Ef. destruct Ef as [Hc Hv]. apply (Permutation_in _ (S4 visited (h_kids h r))) in Hc.
      apply negb_true_iff, smem_false in Hv. exists c. split; [assumption|]. split; [assumption|].
      destruct f as [|f']; [lia|].
      assert (Hkc : h_kids h c = []).
      { destruct (h_kids h c) as [|y l] eqn:Ek; [reflexivity|]. exfalso.
        assert (Hy : h_par h y = PUp c) by (apply Hk; rewrite Ek; left; reflexivity).
        apply Hf in Hy. apply Hk in Hc. congruence. }
      assert (Hs : sc_kids sch visited (h_kids h c) = []).
      { pose proof (S4 visited (h_kids h c)) as P. rewrite Hkc in *. apply Permutation_sym, Permutation_nil in P. assumption. }
      destruct f'; simpl; rewrite Hs; reflexivity.
    - right. split; [|reflexivity]. intros c Hc.
      apply (Permutation_in _ (Permutation_sym (S4 visited (h_kids h r)))) in Hc.
      pose proof (find_none _ _ Ef c Hc) as Hn. simpl in Hn. apply negb_false_iff, smem_In in Hn. assumption.
  Qed.

  Lemma boundary_walk_ok h st r : flat h -> (forall u y, In y (h_kids h u) <-> h_par h y = PUp u) ->
    (forall u, NoDup (h_kids h u)) -> h_par h r = PRoot ->
    forall n visited acc, NoDup visited -> incl visited (h_kids h r) -> length (h_kids h r) <= n + length visited ->
    exists l, boundary_walk E oe sch fuel n h st r r visited acc = Ok l /\
      forall x, In x l <-> In x acc \/ (((In x (h_kids h r) /\ ~ In x visited) \/ x = r) /\ open st x).
  Proof.
    intros Hf Hk Hkn Hr.
    assert (Hstep : forall n visited acc, boundary_walk E oe sch fuel n h st r r visited acc =
      bind (find_child sch fuel h visited r) (fun node' =>
      bind (on_boundary E oe st node') (fun b =>
      let acc' := if b then sunion acc [node'] else acc in
      if snode_eq_dec node' r then Ok acc'
      else match n, h_par h node' with
           | S n', PUp u => boundary_walk E oe sch fuel n' h st r u (visited ++ [node']) acc'
           | 0, _ => Err OutOfFuel
           | _, _ => Err AttributeError
           end))) by (intros; destruct n; reflexivity).
    assert (Hacc : forall node' b acc x, (b = true <-> open st node') ->
      In x (if b : bool then sunion acc [node'] else acc) <-> In x acc \/ (x = node' /\ open st x)).
    { intros node' b acc x Hb. destruct b.
      - rewrite sunion_In. simpl. split; [intros [H|[<-|[]]]; [auto|right; split; [reflexivity|apply Hb; reflexivity]]|].
        intros [H|[-> _]]; auto.
      - split; [auto|]. intros [H|[-> H]]; [assumption|]. apply Hb in H. discriminate. }
    induction n as [|n IH]; intros visited acc Hnd Hincl Hlen; rewrite Hstep;
      (destruct (find_child_ok h visited r Hf Hk Hr fuel) as [(c & Hc & Hcv & ->)|(Hall & ->)]; [lia| |]); simpl bind.
    - exfalso. apply Hcv. apply (NoDup_length_incl (l' := h_kids h r) Hnd); [simpl in Hlen; lia|assumption|assumption].
    - destruct (on_boundary_ok st r) as (b & -> & Hb). simpl. destruct (snode_eq_dec r r); [|congruence].
      eexists. split; [reflexivity|]. intros x. rewrite (Hacc r b acc x Hb). split.
      + intros [H|[-> Ho]]; auto.
      + intros [H|[[[H1 H2]| ->] Ho]]; auto. exfalso. auto.
    - destruct (on_boundary_ok st c) as (b & -> & Hb). simpl.
      pose proof (proj1 (Hk r c) Hc) as Hpc. destruct (snode_eq_dec c r) as [->|Hcr]; [congruence|].
      rewrite Hpc. destruct (IH (visited ++ [c]) (if b then sunion acc [c] else acc)) as (l & El & Hl).
      + apply NoDup_app_intro; [assumption|constructor; [simpl; tauto|constructor]|]. intros x Hx [<-|[]]. contradiction.
      + intros x Hx. apply in_app_or in Hx. destruct Hx as [Hx|[<-|[]]]; auto.
      + rewrite app_length. simpl. lia.
      + exists l. split; [exact El|]. intros x. rewrite Hl, (Hacc c b acc x Hb), in_app_iff. simpl. split.
        * intros [[H|[-> Ho]]|[[[H1 H2]|H1] Ho]]; auto.
          right. split; [|assumption]. left. split; [assumption|]. tauto.
        * intros [H|[[[H1 H2]|H1] Ho]]; auto. destruct (snode_eq_dec x c) as [->|Hxc]; [auto|].
          right. split; [|assumption]. left. split; [assumption|]. intros [H3|[H3|[]]]; congruence || auto.
    - destruct (on_boundary_ok st r) as (b & -> & Hb). simpl. destruct (snode_eq_dec r r); [|congruence].
      eexists. split; [reflexivity|]. intros x. rewrite (Hacc r b acc x Hb). split.
      + intros [H|[-> Ho]]; auto.
      + intros [H|[[[H1 H2]| ->] Ho]]; auto. exfalso. auto.
  Qed.

  Lemma boundary_init_ok h rep st r : trees lab N rep h -> flat h -> h_par h r = PRoot ->
    exists l, boundary_init E oe sch fuel h st r = Ok l /\ forall x, In x l <-> (In x N /\ rep x = r) /\ open st x.
  Proof.
    intros T Hf Hr. unfold boundary_init.
    destruct (boundary_walk_ok h st r Hf (t_kids _ _ _ _ T) (t_knd _ _ _ _ T) Hr fuel [] []) as (l & El & Hl).
    - constructor.
    - intros x [].
    - simpl. assert (length (h_kids h r) <= length N); [|lia]. apply NoDup_incl_length; [apply (t_knd _ _ _ _ T)|].
      intros y Hy. apply (t_kids _ _ _ _ T) in Hy. apply (t_in _ _ _ _ T). congruence.
    - exists l. split; [exact El|]. intros x. rewrite Hl.
      assert (Hm : (In x (h_kids h r) \/ x = r) <-> In x N /\ rep x = r).
      { rewrite (t_kids _ _ _ _ T). split.
        - intros [H| ->].
          + destruct (par_N _ _ _ _ _ _ T H) as (H1 & H2 & H3). split; [assumption|]. rewrite H3. eapply isroot_rep; eauto.
          + split; [eapply isroot_N; eauto|eapply isroot_rep; eauto].
        - intros [Hx Hrep]. destruct (t_up _ _ _ _ T x Hx) as (n & Hu & _). rewrite Hrep in Hu.
          inversion Hu as [|x0 u n0 r0 Hp Hu']; subst; [right; reflexivity|]. left.
          pose proof (Hf _ _ Hp) as Ru. inversion Hu'; subst; congruence. }
      simpl. tauto.
  Qed.

  (* -------------------------------------------------------------- *)
  (* the components of the erasure graph *)
  Variable comps : list (list snode).
  Definition erE : list sedge := filter (erased er) RE.
  Hypothesis Hc_perm : Permutation (concat comps) N.
  Hypothesis Hc_ne : forall c, In c comps -> c <> [].
  Hypothesis Hc_conn : forall c x y, In c comps -> In x c -> In y c -> conn erE x y.
  Hypothesis Hc_sep : forall c a b cv, In c comps -> In (a, b, cv) erE -> In a c <-> In b c.

  Lemma init_ok : exists h rep bd odd,
    initialize sp comps = Ok (h, map hd_of comps, odd) /\
    foldM (fun bd c => bind (boundary_init E oe sch fuel h (init_status er) c) (fun l => Ok (supd bd c (Some l))))
            (fun _ => None) (map hd_of comps) = Ok bd /\
    ginv {| u_heap := h; u_st := init_status er; u_bd := bd |} rep /\
    (forall c, In c odd -> h_par h c = PRoot) /\ listed h odd.
  Proof.
    destruct (init_fold_ok comps [] (fun x => x) fresh_heap []) as (h & M & rep & Ei & T & Hf & HM & _ & Hrep & HR).
    { apply trees_fresh. } { intros x u; discriminate. }
    { eapply Permutation_NoDup; [symmetry; exact Hc_perm|assumption]. } { assumption. } { intros x _ []. }
    assert (T' : trees lab N rep h).
    { apply trees_perm with M; [|assumption]. apply NoDup_Permutation; [apply (t_nd _ _ _ _ T)|assumption|].
      intros x. rewrite HM. simpl. split; [intros [[]|H]|intros H; right].
      - eapply Permutation_in; eassumption.
      - eapply Permutation_in; [symmetry|]; eassumption. }
    assert (HR' : forall q, h_par h q = PRoot <-> In q (map hd_of comps)).
    { intros q. rewrite HR. simpl. split; [intros [H|H]; [discriminate|assumption]|auto]. }
    assert (Hbd : forall cs bd0, (forall c, In c cs -> h_par h c = PRoot) ->
      exists bd, foldM (fun bd c => bind (boundary_init E oe sch fuel h (init_status er) c) (fun l => Ok (supd bd c (Some l)))) bd0 cs = Ok bd /\
        (forall c, ~ In c cs -> bd c = bd0 c) /\
        (forall c, In c cs -> exists l, bd c = Some l /\ forall x, In x l <-> (In x N /\ rep x = c) /\ open (init_status er) x)).
    { induction cs as [|c cs IH]; intros bd0 Hcs.
      - exists bd0. split; [reflexivity|]. split; [auto|intros c []].
      - destruct (boundary_init_ok h rep (init_status er) c T' Hf (Hcs c (or_introl eq_refl))) as (l & El & Hl).
        rewrite foldM_cons, El. simpl bind.
        destruct (IH (supd bd0 c (Some l))) as (bd & Eb & H1 & H2); [intros; apply Hcs; right; assumption|].
        exists bd. split; [exact Eb|]. split.
        + intros c' Hc'. rewrite H1 by (intros H; apply Hc'; right; assumption). apply supd_other. intros ->. apply Hc'; left; reflexivity.
        + intros c' Hc'. destruct (in_dec snode_eq_dec c' cs) as [Hi|Hi]; [auto|].
          destruct Hc' as [<-|Hc']; [|contradiction]. exists l. split; [|assumption]. rewrite H1 by assumption. apply supd_same. }
    destruct (Hbd (map hd_of comps) (fun _ => None)) as (bd & Eb & _ & Hb); [intros c Hc; apply HR'; assumption|].
    exists h, rep, bd, (filter (h_pty h) (map hd_of comps)).
    split; [unfold initialize; rewrite Ei; reflexivity|]. split; [exact Eb|]. split; [|split].
    - split; [exact T'|]. split; [intros x y (cv & HI & _); eapply RE_ends; eauto|]. simpl. split.
      + assert (Hin : forall x, In x N -> exists c, In c comps /\ In x c).
        { intros x Hx. apply (Permutation_in _ (Permutation_sym Hc_perm)) in Hx. apply in_concat in Hx. assumption. }
        assert (Hhd : forall c, In c comps -> In (hd_of c) c).
        { intros c Hc. pose proof (Hc_ne c Hc). destruct c; [congruence|left; reflexivity]. }
        assert (Heq : forall x y, clos_refl_sym_trans _ (gR (init_status er)) x y <-> conn erE x y).
        { intros x y. split; apply rst_mono; intros a b (cv & HI); exists cv.
          - destruct HI as [HI Hg]. apply filter_In. split; [assumption|]. unfold init_status in Hg.
            destruct (erased er (a, b, cv)); [reflexivity|discriminate].
          - apply filter_In in HI. destruct HI as [HI Hg]. split; [assumption|]. unfold init_status. rewrite Hg. reflexivity. }
        intros x y Hx Hy. rewrite Heq. destruct (Hin x Hx) as (c & Hc & Hxc), (Hin y Hy) as (c' & Hc' & Hyc').
        rewrite (Hrep c x Hc Hxc), (Hrep c' y Hc' Hyc'). split.
        * intros Eh. apply rst_trans with (hd_of c); [apply (Hc_conn c); auto|]. rewrite Eh. apply (Hc_conn c'); auto.
        * intros Hcn. assert (Hyc : In y c).
          { apply (conn_closed erE (fun z => In z c) x y); auto. intros a b cv HI. eapply Hc_sep; eauto. }
          rewrite <- (Hrep c y Hc Hyc). apply Hrep; assumption.
      + intros r Hr. apply HR' in Hr. destruct (Hb r Hr) as (l & El & Hl). exists l. split; [assumption|]. split.
        * intros x Hx. apply Hl in Hx. tauto.
        * intros x Hx Hrx Ho. apply Hl. auto.
    - intros c Hc. apply filter_In in Hc. apply HR'. tauto.
    - intros r Hr [Hp _]. apply filter_In. split; [apply HR'; assumption|assumption].
  Qed.

  Hypothesis Hconn : forall x y, In x N -> In y N -> conn RE x y.
  Hypothesis Heven : (exists x, In x N /\ lab x = None) \/ xsum (fun x => parb (lab x)) N = false.

  Lemma lonely_open s rep c : ginv s rep -> h_par (u_heap s) c = PRoot -> lonely (u_heap s) c ->
    exists n, In n N /\ rep n = c /\ open (u_st s) n.
  Proof.
    intros (T & _ & HR & _) Rc [Hp Hb].
    pose proof (t_bnd _ _ _ _ T c Rc) as B. rewrite Hb in B.
    pose proof (t_pty _ _ _ _ T c Rc) as P. rewrite Hp in P.
    assert (HcN : In c N) by (eapply isroot_N; eauto).
    assert (Hcc : rep c = c) by (eapply isroot_rep; eauto).
    set (bad := filter (fun e => (sneqb (rep (fst (fst e))) c || sneqb (rep (snd (fst e))) c) && negb (grownb (u_st s e))) RE).
    destruct bad as [|[[a b] cv] bl] eqn:Ebad.
    - exfalso.
      assert (Hall : forall a b cv, In (a, b, cv) RE -> (rep a = c <-> rep b = c)).
      { intros a b cv HI. destruct (RE_ends _ _ _ HI) as [Ha Hb'].
        assert (Hno : ~ In (a, b, cv) bad) by (rewrite Ebad; intros []).
        unfold bad in Hno. rewrite filter_In in Hno.
        assert (Hg : u_st s (a, b, cv) = Grown -> rep a = rep b).
        { intros Hg. apply HR; auto. apply rst_step. exists cv; auto. }
        simpl in Hno. destruct (u_st s (a, b, cv)) eqn:Es; simpl in Hno.
        3: (rewrite (Hg eq_refl); reflexivity).
        all: rewrite andb_true_r in Hno; split; intros Hc; exfalso; apply Hno; (split; [assumption|]);
          rewrite Hc, sneqb_refl; auto using orb_true_r. }
      assert (Hm : forall x, In x N -> rep x = c).
      { intros x Hx. apply (conn_closed RE (fun y => rep y = c) c x Hall (Hconn c x HcN Hx)). assumption. }
      assert (Hmem : members N rep c = N).
      { unfold members. clear -Hm. induction N as [|x l IH]; simpl; [reflexivity|].
        rewrite (Hm x (or_introl eq_refl)), sneqb_refl. f_equal. apply IH. intros y Hy; apply Hm; right; assumption. }
      rewrite Hmem in *. destruct Heven as [(x & Hx & Hl)|He]; [exact (B x Hx Hl)|congruence].
    - assert (HI : In (a, b, cv) bad) by (rewrite Ebad; left; reflexivity). unfold bad in HI. apply filter_In in HI. simpl in HI.
      destruct HI as [HI Hc]. apply andb_true_iff in Hc. destruct Hc as [Hc Hg]. destruct (RE_ends _ _ _ HI) as [Ha Hb'].
      assert (Hng : u_st s (a, b, cv) <> Grown) by (intros H; rewrite H in Hg; discriminate).
      apply orb_true_iff in Hc. destruct Hc as [Hc|Hc]; apply sneqb_iff in Hc; [exists a|exists b]; (split; [assumption|]; split; [assumption|]);
        exists (a, b, cv); (split; [assumption|]; split; [apply incident_iff; auto|assumption]).
  Qed.

  Definition settled (h : heap) : Prop := forall r, h_par h r = PRoot -> h_pty h r = false \/ h_bnd h r <> None.

  Lemma listed_nil h : listed h [] -> settled h.
  Proof.
    intros H r Hr. destruct (h_pty h r) eqn:Ep; [|auto]. right. intros Hb. exact (H r Hr (conj Ep Hb)).
  Qed.

  Lemma loop_strong n : forall k s rep odd, ginv s rep -> (forall c, In c odd -> h_par (u_heap s) c = PRoot /\ lonely (u_heap s) c) ->
    listed (u_heap s) odd -> mu (u_st s) < n ->
    exists s' rep', union_find E oe sch fuel n k s odd = Ok s' /\ ginv s' rep' /\ settled (u_heap s') /\
      forall e, lvl (u_st s e) <= lvl (u_st s' e).
  Proof.
    induction n as [|n IH]; intros k s rep odd HG Hodd Hl Hn; [lia|].
    destruct odd as [|c odd].
    - exists s, rep. split; [reflexivity|]. split; [assumption|]. split; [apply listed_nil; assumption|]. auto.
    - destruct (round_ok k s rep (c :: odd) HG) as (s1 & rep1 & odd1 & E1 & HG1 & Hodd1 & Hl1 & Hmono & Hprog); auto.
      { intros c' Hc'. apply Hodd; assumption. }
      assert (Hlt : mu (u_st s1) < mu (u_st s)).
      { apply mu_lt; [assumption|]. apply Hprog. destruct (Hodd c (or_introl eq_refl)) as [Rc Lc].
        destruct (lonely_open s rep c HG Rc Lc) as (m & H1 & H2 & H3). exists c, m. split; [left; reflexivity|auto]. }
      destruct (IH (S k) s1 rep1 odd1) as (s2 & rep2 & E2 & HG2 & HS2 & HM2); auto; [lia|].
      exists s2, rep2. split; [|split; [assumption|split; [assumption|]]].
      + change (bind (round E oe sch fuel k s (c :: odd)) (fun so => union_find E oe sch fuel n (S k) (fst so) (snd so)) = Ok s2).
        rewrite E1. exact E2.
      + intros e. specialize (Hmono e). specialize (HM2 e). lia.
  Qed.

  Lemma loop_ok n s rep odd : ginv s rep -> (forall c, In c odd -> h_par (u_heap s) c = PRoot) -> listed (u_heap s) odd ->
    2 * length RE + 2 <= n ->
    exists s' rep', union_find E oe sch fuel n 0 s odd = Ok s' /\ ginv s' rep' /\ settled (u_heap s') /\
      forall e, lvl (u_st s e) <= lvl (u_st s' e).
  Proof.
    intros HG Hodd Hl Hn. destruct odd as [|c odd].
    - exists s, rep. destruct n; (split; [reflexivity|]; split; [assumption|]; split; [apply listed_nil; assumption|]; auto).
    - destruct n as [|n]; [lia|].
      destruct (round_ok 0 s rep (c :: odd) HG) as (s1 & rep1 & odd1 & E1 & HG1 & Hodd1 & Hl1 & Hmono & _); auto.
      destruct (loop_strong n 1 s1 rep1 odd1) as (s2 & rep2 & E2 & HG2 & HS2 & HM2); auto.
      { pose proof (mu_bound (u_st s1)). lia. }
      exists s2, rep2. split; [|split; [assumption|split; [assumption|]]].
      + change (bind (round E oe sch fuel 0 s (c :: odd)) (fun so => union_find E oe sch fuel n 1 (fst so) (snd so)) = Ok s2).
        rewrite E1. exact E2.
      + intros e. specialize (Hmono e). specialize (HM2 e). lia.
  Qed.

  Lemma grow_clusters_ok n : 2 * length RE + 2 <= n ->
    exists s rep, grow_clusters E er sp oe sch fuel n comps = Ok s /\ ginv s rep /\ settled (u_heap s) /\
      (forall e, erased er e = true -> u_st s e = Grown).
  Proof.
    intros Hn. destruct init_ok as (h & rep & bd & odd & Ei & Eb & HG & Hodd & Hl).
    unfold grow_clusters. rewrite Ei. simpl bind. rewrite Eb. simpl bind.
    destruct (loop_ok n _ rep odd HG Hodd Hl Hn) as (s & rep' & Es & HG' & HS & Hm).
    exists s, rep'. split; [exact Es|]. split; [assumption|]. split; [assumption|].
    intros e He. specialize (Hm e). simpl in Hm. unfold init_status in Hm. rewrite He in Hm. destruct (u_st s e); simpl in Hm; [lia|lia|reflexivity].
  Qed.
End Grow.
