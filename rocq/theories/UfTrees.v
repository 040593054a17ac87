(* UfTrees.v: the cluster trees represent a partition. *)
From Verif Require Import Base Lattice RhgModel SurfaceModel StabGraphModel Paths MwpmModel UfModel.
Open Scope nat_scope.

Lemma smem_In x l : smem x l = true <-> In x l.
Proof.
  unfold smem. rewrite existsb_exists. unfold sneqb. split.
  - intros (y & Hy & H). destruct (snode_eq_dec x y); [subst; assumption|discriminate].
  - intros H. exists x. split; [assumption|]. destruct (snode_eq_dec x x); congruence.
Qed.
Lemma smem_false x l : smem x l = false <-> ~ In x l.
Proof. rewrite <- smem_In. destruct (smem x l); split; congruence. Qed.
Lemma sneqb_iff x y : sneqb x y = true <-> x = y.
Proof. unfold sneqb. destruct (snode_eq_dec x y); split; congruence. Qed.
Lemma sneqb_refl x : sneqb x x = true.
Proof. apply sneqb_iff; reflexivity. Qed.

Lemma supd_same {B} (f : snode -> B) x y : supd f x y x = y.
Proof. unfold supd. destruct (snode_eq_dec x x); congruence. Qed.
Lemma supd_other {B} (f : snode -> B) x y z : z <> x -> supd f x y z = f z.
Proof. unfold supd. destruct (snode_eq_dec z x); congruence. Qed.

Lemma sunion_In x l m : In x (sunion l m) <-> In x l \/ In x m.
Proof.
  unfold sunion. rewrite in_app_iff, filter_In. destruct (smem x l) eqn:E.
  - apply smem_In in E. simpl. intuition.
  - simpl. intuition.
Qed.
Lemma sunion_NoDup l m : NoDup l -> NoDup m -> NoDup (sunion l m).
Proof.
  intros Hl Hm. unfold sunion. apply NoDup_app_intro; [assumption|apply NoDup_filter; assumption|].
  intros x Hx Hf. apply filter_In in Hf. destruct Hf as [_ Hf]. apply smem_In in Hx. rewrite Hx in Hf. discriminate.
Qed.

Lemma NoDup_remove_elt x (l : list snode) : NoDup l -> NoDup (remove snode_eq_dec x l).
Proof.
  induction 1 as [|y l Hy Hl IH]; simpl; [constructor|]. destruct (snode_eq_dec x y); [assumption|].
  constructor; [|assumption]. intros HI. apply in_remove in HI. tauto.
Qed.

(* n steps from x to the root r *)
Inductive up (h : heap) : snode -> nat -> snode -> Prop :=
  | up_root r : h_par h r = PRoot -> up h r 0 r
  | up_step x u n r : h_par h x = PUp u -> up h u n r -> up h x (S n) r.

Lemma up_fun h x n r : up h x n r -> forall n' r', up h x n' r' -> n' = n /\ r' = r.
Proof.
  induction 1 as [r Hr|x u n r Hx Hu IH]; intros n' r' H'.
  - inversion H' as [r0 H0|x0 u0 n0 r0 H0 H1]; subst; [auto|congruence].
  - inversion H' as [r0 H0|x0 u0 n0 r0 H0 H1]; subst; [congruence|].
    rewrite Hx in H0. injection H0 as <-. destruct (IH _ _ H1) as [-> ->]. auto.
Qed.
Lemma up_isroot h x n r : up h x n r -> h_par h r = PRoot.
Proof. induction 1; assumption. Qed.

Definition members (N : list snode) (rep : snode -> snode) (r : snode) : list snode :=
  filter (fun x => sneqb (rep x) r) N.
Definition parb (l : option bool) : bool := match l with Some b => b | None => false end.

Lemma members_In N rep r x : In x (members N rep r) <-> In x N /\ rep x = r.
Proof. unfold members. rewrite filter_In, sneqb_iff. reflexivity. Qed.

Record trees (lab : snode -> option bool) (N : list snode) (rep : snode -> snode) (h : heap) : Prop := {
  t_nd : NoDup N;
  t_in : forall x, In x N <-> h_par h x <> PSelf;
  t_up : forall x, In x N -> exists n, up h x n (rep x) /\ 2 ^ n <= h_size h (rep x);
  t_kids : forall u y, In y (h_kids h u) <-> h_par h y = PUp u;
  t_knd : forall u, NoDup (h_kids h u);
  t_size : forall r, h_par h r = PRoot -> h_size h r = length (members N rep r);
  t_pty : forall r, h_par h r = PRoot -> h_pty h r = xsum (fun x => parb (lab x)) (members N rep r);
  t_bnd : forall r, h_par h r = PRoot ->
            match h_bnd h r with
            | Some b => In b (members N rep r) /\ lab b = None
            | None => forall x, In x (members N rep r) -> lab x <> None
            end
}.

Lemma trees_fresh lab rep : trees lab [] rep fresh_heap.
Proof.
  constructor; simpl; try (intros; discriminate); try constructor; try tauto; try congruence.
Qed.

Lemma isroot_N lab N rep h r : trees lab N rep h -> h_par h r = PRoot -> In r N.
Proof. intros T H. apply (t_in _ _ _ _ T). congruence. Qed.
Lemma isroot_rep lab N rep h r : trees lab N rep h -> h_par h r = PRoot -> rep r = r.
Proof.
  intros T H. destruct (t_up _ _ _ _ T r (isroot_N _ _ _ _ _ T H)) as (n & Hu & _).
  inversion Hu; subst; congruence.
Qed.
Lemma rep_isroot lab N rep h x : trees lab N rep h -> In x N -> h_par h (rep x) = PRoot.
Proof. intros T H. destruct (t_up _ _ _ _ T x H) as (n & Hu & _). eapply up_isroot; eauto. Qed.
Lemma rep_N lab N rep h x : trees lab N rep h -> In x N -> In (rep x) N.
Proof. intros T H. eapply isroot_N; eauto. eapply rep_isroot; eauto. Qed.
Lemma up_N lab N rep h x n r : trees lab N rep h -> up h x n r -> In x N.
Proof. intros T H. apply (t_in _ _ _ _ T). inversion H; congruence. Qed.
Lemma up_rep lab N rep h x n r : trees lab N rep h -> up h x n r -> r = rep x.
Proof.
  intros T H. destruct (t_up _ _ _ _ T x (up_N _ _ _ _ _ _ _ T H)) as (m & Hu & _).
  apply (up_fun _ _ _ _ Hu _ _ H).
Qed.
Lemma par_N lab N rep h x u : trees lab N rep h -> h_par h x = PUp u -> In x N /\ In u N /\ rep x = rep u.
Proof.
  intros T H. assert (Hx : In x N) by (apply (t_in _ _ _ _ T); congruence).
  destruct (t_up _ _ _ _ T x Hx) as (n & Hu & _). inversion Hu as [|x0 u0 n0 r0 H0 H1]; subst; [congruence|].
  rewrite H in H0. injection H0 as <-. split; [assumption|]. split; [eapply up_N; eauto|].
  eapply up_rep; eauto.
Qed.

(* the depth is smaller than the number of nodes *)
Lemma up_chain h x n r : up h x n r ->
  exists l, length l = S n /\ NoDup l /\ forall y, In y l -> exists m, m <= n /\ up h y m r.
Proof.
  induction 1 as [r Hr|x u n r Hx Hu (l & Hl & Hn & Hm)].
  - exists [r]. split; [reflexivity|]. split; [constructor; [simpl; tauto|constructor]|].
    intros y [<-|[]]. exists 0. split; [lia|]. constructor; assumption.
  - exists (x :: l). split; [simpl; lia|]. split.
    + constructor; [|assumption]. intros HI. destruct (Hm x HI) as (m & Hle & Hup).
      assert (Hx' : up h x (S n) r) by (econstructor; eauto).
      destruct (up_fun _ _ _ _ Hup _ _ Hx') as [E _]. lia.
    + intros y [<-|HI]; [exists (S n); split; [lia|econstructor; eauto]|].
      destruct (Hm y HI) as (m & Hle & Hup). exists m. split; [lia|assumption].
Qed.
Lemma up_bound lab N rep h x n r : trees lab N rep h -> up h x n r -> n < length N.
Proof.
  intros T H. destruct (up_chain _ _ _ _ H) as (l & Hl & Hn & Hm).
  assert (length l <= length N).
  { apply NoDup_incl_length; [assumption|]. intros y Hy. destruct (Hm y Hy) as (m & _ & Hu). eapply up_N; eauto. }
  lia.
Qed.

(* ---------------------------------------------------------------- *)
Section Find.
  Variables (lab : snode -> option bool) (N : list snode) (rep : snode -> snode) (h : heap).
  Hypothesis T : trees lab N rep h.

  Lemma climb_ok self r d : up h self d r ->
    forall n node trav kids fuel, up h node n r -> n <= d -> n <= fuel ->
    (n = d -> node = self) ->
    NoDup trav -> (forall z, In z trav -> exists m, n < m /\ up h z m r) ->
    (forall u y, In y (kids u) <-> h_par h y = PUp u /\ ~ In y trav) -> (forall u, NoDup (kids u)) ->
    exists trav' kids', climb fuel h self node trav kids = Ok (Some r, trav', kids') /\
      incl trav trav' /\ (n <> 0 -> In node trav') /\ NoDup trav' /\
      (forall z, In z trav' -> exists m, 0 < m /\ up h z m r) /\
      (forall u y, In y (kids' u) <-> h_par h y = PUp u /\ ~ In y trav') /\ (forall u, NoDup (kids' u)).
  Proof.
    intros Hself. induction n as [|n IH]; intros node trav kids fuel Hnode Hd Hf Heq Hnd Htr Hk Hkn.
    - inversion Hnode; subst. exists trav, kids.
      replace (climb fuel h self r trav kids) with (Ok (Some r, trav, kids)) by (destruct fuel; simpl; rewrite H; reflexivity).
      repeat (split; [first [reflexivity | intros ?; assumption | congruence | assumption]|]). assumption.
    - inversion Hnode as [|x u n0 r0 Hpar Hu]; subst.
      destruct fuel as [|fuel]; [lia|]. simpl. rewrite Hpar.
      destruct (snode_eq_dec u self) as [->|Hne].
      { destruct (up_fun _ _ _ _ Hself _ _ Hu). lia. }
      assert (Hnt : ~ In node trav).
      { intros HI. destruct (Htr node HI) as (m & Hm & Hup). destruct (up_fun _ _ _ _ Hup _ _ Hnode). lia. }
      assert (HIn : In node (kids u)) by (apply Hk; auto).
      apply smem_In in HIn. rewrite HIn.
      destruct (IH u (node :: trav) (supd kids u (remove snode_eq_dec node (kids u))) fuel) as
        (trav' & kids' & Hc & Hi & Hin & Hnd' & Htr' & Hk' & Hkn').
      + assumption.
      + lia.
      + lia.
      + intros ->. lia.
      + constructor; assumption.
      + intros z [<-|Hz]; [exists (S n); split; [lia|assumption]|].
        destruct (Htr z Hz) as (m & Hm & Hup). exists m. split; [lia|assumption].
      + intros w y. unfold supd. destruct (snode_eq_dec w u) as [->|Hw].
        * split.
          -- intros HI. apply in_remove in HI. destruct HI as [HI Hny]. apply Hk in HI. destruct HI as [Hp Hnt']. split; [assumption|].
             intros [<-|HI]; tauto.
          -- intros [Hp Hnt']. apply in_in_remove; [intros ->; apply Hnt'; left; reflexivity|].
             apply Hk. split; [assumption|]. intros HI; apply Hnt'; right; assumption.
        * rewrite Hk. split; intros [Hp Hnt']; (split; [assumption|]).
          -- intros [<-|HI]; [congruence|tauto].
          -- intros HI; apply Hnt'; right; assumption.
      + intros w. unfold supd. destruct (snode_eq_dec w u) as [->|Hw]; [|apply Hkn].
        apply NoDup_remove_elt, Hkn.
      + exists trav', kids'. split; [assumption|]. split; [intros z Hz; apply Hi; right; assumption|].
        split; [intros _; apply Hi; left; reflexivity|]. auto.
  Qed.

  (* find_root returns the representative and only shortens paths *)
  Lemma find_root_ok fuel x : In x N -> length N <= fuel ->
    exists h', find_root fuel h x = Ok (Some (rep x), h') /\ trees lab N rep h' /\
      (forall y, h_par h' y = PRoot <-> h_par h y = PRoot) /\
      h_size h' = h_size h /\ h_pty h' = h_pty h /\ h_bnd h' = h_bnd h /\
      (forall y n, up h y n (rep y) -> exists n', n' <= n /\ up h' y n' (rep y)) /\
      (exists n, n <= 1 /\ up h' x n (rep x)).
  Proof.
    intros Hx Hf. destruct (t_up _ _ _ _ T x Hx) as (d & Hd & _).
    pose proof (up_bound _ _ _ _ _ _ _ T Hd) as Hb.
    destruct (climb_ok x (rep x) d Hd d x [] (h_kids h) fuel) as (trav & kids & Hc & _ & Hin & Hnd & Htr & Hk & Hkn).
    { assumption. } { lia. } { lia. } { reflexivity. } { constructor. } { simpl; tauto. }
    { intros u y. rewrite (t_kids _ _ _ _ T). simpl. tauto. } { apply (t_knd _ _ _ _ T). }
    unfold find_root. rewrite Hc. simpl. eexists. split; [reflexivity|].
    set (r := rep x) in *.
    set (h' := {| h_par := _ |}).
    assert (Hr : h_par h r = PRoot) by (eapply rep_isroot; eauto).
    assert (Htn : forall z, In z trav -> exists u, h_par h z = PUp u).
    { intros z Hz. destruct (Htr z Hz) as (m & Hm & Hu). inversion Hu; subst; [lia|eauto]. }
    assert (Hrt : ~ In r trav) by (intros HI; destruct (Htn r HI); congruence).
    assert (Hrt' : h_par h' r = PRoot).
    { simpl. apply smem_false in Hrt. rewrite Hrt. assumption. }
    assert (Hroots : forall y, h_par h' y = PRoot <-> h_par h y = PRoot).
    { intros y. simpl. destruct (smem y trav) eqn:E; [|reflexivity]. apply smem_In in E.
      destruct (Htn y E). split; congruence. }
    assert (Hups : forall y n q, up h y n q -> exists n', n' <= n /\ up h' y n' q).
    { induction 1 as [q Hq|y u n q Hy Hu (n' & Hle & IH)].
      - exists 0. split; [lia|]. constructor. apply Hroots; assumption.
      - destruct (smem y trav) eqn:E.
        + pose proof E as E'. apply smem_In in E'. destruct (Htr y E') as (m & _ & Hup).
          assert (Hy' : up h y (S n) q) by (econstructor; eauto).
          destruct (up_fun _ _ _ _ Hup _ _ Hy') as [_ ->].
          exists 1. split; [lia|]. apply up_step with r; [|constructor; assumption]. simpl. rewrite E. reflexivity.
        + exists (S n'). split; [lia|]. apply up_step with u; [|assumption]. simpl. rewrite E. assumption. }
    split; [|split; [exact Hroots|split; [reflexivity|split; [reflexivity|split; [reflexivity|]]]]].
    - constructor; simpl.
      + apply (t_nd _ _ _ _ T).
      + intros y. rewrite (t_in _ _ _ _ T). destruct (smem y trav) eqn:E; [|reflexivity].
        apply smem_In in E. destruct (Htn y E). split; congruence.
      + intros y Hy. destruct (t_up _ _ _ _ T y Hy) as (n & Hu & Hs). destruct (Hups _ _ _ Hu) as (n' & Hle & Hu').
        exists n'. split; [assumption|]. etransitivity; [apply Nat.pow_le_mono_r; [lia|eassumption]|assumption].
      + intros u y. unfold supd. destruct (snode_eq_dec u r) as [->|Hu].
        * rewrite sunion_In, Hk. destruct (smem y trav) eqn:E.
          -- apply smem_In in E. tauto.
          -- apply smem_false in E. tauto.
        * rewrite Hk. destruct (smem y trav) eqn:E.
          -- apply smem_In in E. split; [tauto|]. intros [= E']. congruence.
          -- apply smem_false in E. tauto.
      + intros u. unfold supd. destruct (snode_eq_dec u r) as [->|Hu]; [|apply Hkn].
        apply sunion_NoDup; [apply Hkn|assumption].
      + intros q Hq. apply (t_size _ _ _ _ T). apply Hroots; assumption.
      + intros q Hq. apply (t_pty _ _ _ _ T). apply Hroots; assumption.
      + intros q Hq. apply (t_bnd _ _ _ _ T). apply Hroots; assumption.
    - split; [intros y n Hu; apply Hups; assumption|].
      destruct d as [|d].
      + destruct (Hups _ _ _ Hd) as (n' & Hle & Hu). exists n'. split; [lia|assumption].
      + assert (HI : In x trav) by (apply Hin; lia). exists 1. split; [lia|].
        apply up_step with r; [|constructor; assumption]. simpl. apply smem_In in HI. rewrite HI. reflexivity.
  Qed.
End Find.

(* ---------------------------------------------------------------- *)
Definition merge (rep : snode -> snode) (small big : snode) : snode -> snode :=
  fun x => if snode_eq_dec (rep x) small then big else rep x.

Lemma members_merge N rep small big : small <> big ->
  Permutation (members N (merge rep small big) big) (members N rep big ++ members N rep small).
Proof.
  intros Hne. unfold members. induction N as [|x N IH]; simpl; [constructor|].
  unfold merge at 1. destruct (snode_eq_dec (rep x) small) as [E|E].
  - rewrite sneqb_refl. rewrite E. rewrite sneqb_refl. replace (sneqb small big) with false.
    + apply Permutation_cons_app. assumption.
    + symmetry. unfold sneqb. destruct (snode_eq_dec small big); congruence.
  - replace (sneqb (rep x) small) with false by (symmetry; unfold sneqb; destruct (snode_eq_dec (rep x) small); congruence).
    destruct (sneqb (rep x) big); [|assumption]. simpl. constructor. assumption.
Qed.
Lemma members_merge_other N rep small big r : r <> big -> r <> small ->
  members N (merge rep small big) r = members N rep r.
Proof.
  intros H1 H2. unfold members. apply filter_ext. intros x. unfold merge, sneqb.
  destruct (snode_eq_dec (rep x) small) as [E|E]; [|reflexivity].
  destruct (snode_eq_dec big r); [congruence|]. destruct (snode_eq_dec (rep x) r); congruence.
Qed.

(* union of two different roots; Hs is what weighted union guarantees *)
Lemma link_ok lab N rep h big small :
  trees lab N rep h -> h_par h big = PRoot -> h_par h small = PRoot -> big <> small ->
  h_size h small <= h_size h big ->
  trees lab N (merge rep small big)
    {| h_par := supd (h_par h) small (PUp big);
       h_kids := supd (h_kids h) big (sunion (h_kids h big) [small]);
       h_size := supd (h_size h) big (h_size h big + h_size h small);
       h_pty := supd (h_pty h) big (xorb (h_pty h big) (h_pty h small));
       h_bnd := supd (h_bnd h) big (match h_bnd h small with Some x => Some x | None => h_bnd h big end) |}.
Proof.
  intros T Hbig Hsmall Hne Hs. set (h' := {| h_par := _ |}).
  assert (Hrb : rep big = big) by (eapply isroot_rep; eauto).
  assert (Hrs : rep small = small) by (eapply isroot_rep; eauto).
  assert (Hbig' : h_par h' big = PRoot) by (simpl; rewrite supd_other; auto).
  assert (Hsb : up h' small 1 big).
  { apply up_step with big; [simpl; apply supd_same|constructor; assumption]. }
  assert (Hups : forall y n q, up h y n q -> (q <> small -> up h' y n q) /\ (q = small -> up h' y (S n) big)).
  { induction 1 as [q Hq|y u n q Hy Hu [IH1 IH2]].
    - split; [intros Hqs; constructor; simpl; rewrite supd_other; auto|intros ->; assumption].
    - assert (Hys : y <> small) by congruence.
      split; intros Hqs; apply up_step with u; try (simpl; rewrite supd_other; auto); auto. }
  assert (Hroot : forall r, h_par h' r = PRoot -> h_par h r = PRoot /\ r <> small).
  { intros r. simpl. unfold supd. destruct (snode_eq_dec r small) as [->|Hr]; [discriminate|auto]. }
  constructor.
  - apply (t_nd _ _ _ _ T).
  - intros x. simpl. unfold supd. destruct (snode_eq_dec x small) as [->|Hx]; [|apply (t_in _ _ _ _ T)].
    split; [discriminate|]. intros _. eapply isroot_N; eauto.
  - intros x Hx. destruct (t_up _ _ _ _ T x Hx) as (n & Hu & Hsz). destruct (Hups _ _ _ Hu) as [H1 H2].
    unfold merge. destruct (snode_eq_dec (rep x) small) as [E|E].
    + exists (S n). split; [auto|]. simpl. rewrite supd_same. rewrite E in Hsz. lia.
    + exists n. split; [auto|]. simpl. unfold supd. destruct (snode_eq_dec (rep x) big) as [Eb|Eb]; [|assumption].
      rewrite Eb in Hsz. lia.
  - intros u y. simpl. unfold supd. destruct (snode_eq_dec u big) as [->|Hu].
    + rewrite sunion_In, (t_kids _ _ _ _ T). simpl. destruct (snode_eq_dec y small) as [->|Hy]; [|intuition congruence].
      split; auto.
    + rewrite (t_kids _ _ _ _ T). destruct (snode_eq_dec y small) as [->|Hy]; [|reflexivity].
      split; [congruence|]. intros [= ->]. congruence.
  - intros u. simpl. unfold supd. destruct (snode_eq_dec u big) as [->|Hu]; [|apply (t_knd _ _ _ _ T)].
    apply sunion_NoDup; [apply (t_knd _ _ _ _ T)|constructor; [simpl; tauto|constructor]].
  - intros r Hr. destruct (Hroot r Hr) as [Hr' Hrs']. simpl. unfold supd. destruct (snode_eq_dec r big) as [->|Hrb'].
    + rewrite (Permutation_length (members_merge N rep small big (not_eq_sym Hne))), app_length.
      rewrite <- !(t_size _ _ _ _ T); auto.
    + rewrite members_merge_other; auto. apply (t_size _ _ _ _ T); assumption.
  - intros r Hr. destruct (Hroot r Hr) as [Hr' Hrs']. simpl. unfold supd. destruct (snode_eq_dec r big) as [->|Hrb'].
    + rewrite (xsum_perm _ _ _ (members_merge N rep small big (not_eq_sym Hne))), xsum_app.
      rewrite <- !(t_pty _ _ _ _ T); auto.
    + rewrite members_merge_other; auto. apply (t_pty _ _ _ _ T); assumption.
  - intros r Hr. destruct (Hroot r Hr) as [Hr' Hrs']. simpl. unfold supd. destruct (snode_eq_dec r big) as [->|Hrb'].
    + pose proof (t_bnd _ _ _ _ T _ Hsmall) as Bs. pose proof (t_bnd _ _ _ _ T _ Hbig) as Bb.
      pose proof (members_merge N rep small big (not_eq_sym Hne)) as P.
      assert (PI : forall x, In x (members N (merge rep small big) big) <-> In x (members N rep big) \/ In x (members N rep small)).
      { intros x. rewrite <- in_app_iff. split; apply Permutation_in; [assumption|symmetry; assumption]. }
      destruct (h_bnd h small) as [b|].
      * rewrite PI. tauto.
      * destruct (h_bnd h big) as [b|].
        -- rewrite PI. tauto.
        -- intros x Hx. apply PI in Hx. destruct Hx; auto.
    + rewrite members_merge_other; auto. apply (t_bnd _ _ _ _ T); assumption.
Qed.

Lemma union_ok lab N rep h r1 r2 :
  trees lab N rep h -> h_par h r1 = PRoot -> h_par h r2 = PRoot -> r1 <> r2 ->
  exists big small h', union h r1 r2 = (h', Some (big, small)) /\
    ((big = r1 /\ small = r2) \/ (big = r2 /\ small = r1)) /\
    (h_size h r2 <= h_size h r1 -> big = r1) /\
    trees lab N (merge rep small big) h' /\
    (forall r, h_par h' r = PRoot <-> h_par h r = PRoot /\ r <> small).
Proof.
  intros T H1 H2 Hne. unfold union. destruct (snode_eq_dec r1 r2); [contradiction|].
  assert (Hroots : forall big small, big <> small -> forall r, supd (h_par h) small (PUp big) r = PRoot <-> h_par h r = PRoot /\ r <> small).
  { intros big small Hbs r. unfold supd. destruct (snode_eq_dec r small); [split; [discriminate|tauto]|tauto]. }
  destruct (h_size h r2 <=? h_size h r1) eqn:E.
  - apply Nat.leb_le in E. exists r1, r2. eexists. split; [reflexivity|]. split; [auto|]. split; [auto|].
    split; [apply link_ok; auto|]. simpl. auto.
  - apply Nat.leb_gt in E. exists r2, r1. eexists. split; [reflexivity|]. split; [auto|]. split; [lia|].
    split; [apply link_ok; auto; lia|]. simpl. auto.
Qed.

Lemma trees_ext lab N rep rep' h : (forall x, In x N -> rep x = rep' x) -> trees lab N rep h -> trees lab N rep' h.
Proof.
  intros Hext T.
  assert (Hm : forall r, members N rep' r = members N rep r).
  { intros r. unfold members. apply filter_ext_in. intros x Hx. rewrite Hext; auto. }
  destruct T as [t1 t2 t3 t4 t5 t6 t7 t8]. constructor; auto.
  - intros x Hx. rewrite <- Hext; auto.
  - intros r Hr. rewrite Hm. auto.
  - intros r Hr. rewrite Hm. auto.
  - intros r Hr. rewrite Hm. apply t8. assumption.
Qed.

Lemma new_root_ok lab N rep h x : trees lab N rep h -> ~ In x N ->
  trees lab (x :: N) (supd rep x x) (new_root x (lab x) h).
Proof.
  intros T Hx. set (h' := new_root x (lab x) h).
  assert (Hps : h_par h x = PSelf).
  { destruct (h_par h x) eqn:E; [reflexivity| |]; exfalso; apply Hx, (t_in _ _ _ _ T); congruence. }
  assert (Hups : forall y n q, up h y n q -> up h' y n q).
  { induction 1 as [q Hq|y u n q Hy Hu IH].
    - constructor. simpl. rewrite supd_other; congruence.
    - apply up_step with u; [|assumption]. simpl. rewrite supd_other; congruence. }
  assert (Hmx : members (x :: N) (supd rep x x) x = [x]).
  { unfold members. simpl. rewrite supd_same, sneqb_refl. f_equal.
    assert (H0 : forall y, In y N -> sneqb (supd rep x x y) x = false).
    { intros y Hy. rewrite supd_other by congruence. unfold sneqb. destruct (snode_eq_dec (rep y) x) as [E|E]; [|reflexivity].
      exfalso. apply Hx. rewrite <- E. eapply rep_N; eauto. }
    clear -H0. induction N as [|y N IH]; simpl; [reflexivity|]. rewrite H0 by (left; reflexivity).
    apply IH. intros z Hz. apply H0. right; assumption. }
  assert (Hmo : forall r, r <> x -> members (x :: N) (supd rep x x) r = members N rep r).
  { intros r Hr. unfold members. simpl. rewrite supd_same. unfold sneqb at 1. destruct (snode_eq_dec x r); [congruence|].
    apply filter_ext_in. intros y Hy. rewrite supd_other by congruence. reflexivity. }
  assert (Hroot : forall r, r <> x -> h_par h' r = PRoot -> h_par h r = PRoot).
  { intros r Hr. simpl. rewrite supd_other by assumption. auto. }
  constructor.
  - constructor; [assumption|apply (t_nd _ _ _ _ T)].
  - intros y. simpl. unfold supd. destruct (snode_eq_dec y x) as [->|Hy]; [split; [discriminate|auto]|].
    rewrite <- (t_in _ _ _ _ T). intuition congruence.
  - intros y Hy. simpl. unfold supd at 1 3. destruct (snode_eq_dec y x) as [->|Hyx].
    + exists 0. split; [constructor; simpl; apply supd_same|]. rewrite supd_same. simpl. lia.
    + destruct Hy as [->|Hy]; [congruence|]. destruct (t_up _ _ _ _ T y Hy) as (n & Hu & Hs).
      exists n. split; [auto|]. rewrite supd_other; [assumption|]. intros E. apply Hx. rewrite <- E. eapply rep_N; eauto.
  - intros u y. simpl. rewrite (t_kids _ _ _ _ T). unfold supd. destruct (snode_eq_dec y x) as [->|Hy]; [|reflexivity].
    split; congruence.
  - apply (t_knd _ _ _ _ T).
  - intros r Hr. destruct (snode_eq_dec r x) as [->|Hrx].
    + rewrite Hmx. simpl. apply supd_same.
    + rewrite Hmo by assumption. simpl. rewrite supd_other by assumption. apply (t_size _ _ _ _ T). auto.
  - intros r Hr. destruct (snode_eq_dec r x) as [->|Hrx].
    + rewrite Hmx. simpl. rewrite supd_same. destruct (lab x) as [[]|]; reflexivity.
    + rewrite Hmo by assumption. simpl. rewrite supd_other by assumption. apply (t_pty _ _ _ _ T). auto.
  - intros r Hr. destruct (snode_eq_dec r x) as [->|Hrx].
    + rewrite Hmx. simpl. rewrite supd_same. destruct (lab x) eqn:El; simpl.
      * intros y [<-|[]]. congruence.
      * auto.
    + rewrite Hmo by assumption. simpl. rewrite supd_other by assumption. apply (t_bnd _ _ _ _ T). auto.
Qed.
