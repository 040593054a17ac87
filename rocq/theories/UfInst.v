(* UfInst.v: the contracts that UfSpec.lib_ok asks of rustworkx are satisfiable: an
   implementation by Kruskal's algorithm meets them for every graph.  Nothing here models
   code of the repository. *)
From Coq Require Import Relations.
From Verif Require Import Base Lattice RhgModel SurfaceModel StabGraphModel MwpmModel UfModel UfTrees UfSpec UfPeel UfGrow.
Open Scope nat_scope.

Definition ends (e : sedge) : list snode := [fst (fst e); snd (fst e)].
Definition k_nodes (es : list sedge) : list snode := nodup snode_eq_dec (flat_map ends es).
Definition k_out (E : list sedge) (u : snode) : list snode :=
  flat_map (fun e => (if snode_eq_dec (fst (fst e)) u then [snd (fst e)] else []) ++
                     (if snode_eq_dec (snd (fst e)) u then [fst (fst e)] else [])) E.
Definition kst : Type := list (list snode) * list sedge.
Definition part (parts : list (list snode)) (a : snode) : list snode :=
  match find (smem a) parts with Some l => l | None => [] end.
Definition k_step (s : kst) (e : sedge) : kst :=
  let a := fst (fst e) in let b := snd (fst e) in
  let pa := part (fst s) a in
  if smem b pa then s
  else ((pa ++ part (fst s) b) :: filter (fun l => negb (smem a l) && negb (smem b l)) (fst s), e :: snd s).
Definition kruskal (V : list snode) (es : list sedge) : kst := fold_left k_step es (map (fun x => [x]) V, []).
Definition kruskal_lib (E : list sedge) : ulib :=
  {| l_out := k_out E; l_nodes := k_nodes; l_comps := fun V es => fst (kruskal V es); l_mst := fun _ es => snd (kruskal (k_nodes es) es) |}.

Lemma conn_add G a b cv x y : conn ((a, b, cv) :: G) x y ->
  conn G x y \/ (conn G x a /\ conn G b y) \/ (conn G x b /\ conn G a y).
Proof.
  induction 1 as [p q (cv' & [H|H])|p|p q _ IH|p q r _ IH1 _ IH2].
  - injection H as -> -> _. right; left. split; apply rst_refl.
  - left. apply rst_step. eauto.
  - left. apply rst_refl.
  - destruct IH as [H|[[H1 H2]|[H1 H2]]]; [left; apply rst_sym; assumption|right; right|right; left]; split; apply rst_sym; assumption.
  - pose proof (rst_trans snode (fun a b => exists cv, In (a, b, cv) G)) as T. fold (conn G) in T.
    pose proof (rst_sym snode (fun a b => exists cv, In (a, b, cv) G)) as S. fold (conn G) in S.
    destruct IH1 as [H|[[H1 H2]|[H1 H2]]], IH2 as [K|[[K1 K2]|[K1 K2]]].
    + left. eapply T; eassumption.
    + right; left. split; [eapply T; eassumption|assumption].
    + right; right. split; [eapply T; eassumption|assumption].
    + right; left. split; [assumption|eapply T; eassumption].
    + left. eapply T; [exact H1|]. eapply T; [apply S; exact K1|]. eapply T; [apply S; exact H2|]. exact K2.
    + left. eapply T; [exact H1|exact K2].
    + right; right. split; [assumption|eapply T; eassumption].
    + left. eapply T; [exact H1|exact K2].
    + left. eapply T; [exact H1|]. eapply T; [apply S; exact K1|]. eapply T; [apply S; exact H2|]. exact K2.
Qed.

Lemma remove_id (e : sedge) F : ~ In e F -> remove sedge_eq_dec e F = F.
Proof.
  induction F as [|x F IH]; intros H; [reflexivity|]. simpl. destruct (sedge_eq_dec e x) as [->|]; [exfalso; apply H; left; reflexivity|].
  rewrite IH; [reflexivity|]. intros HI; apply H; right; assumption.
Qed.

Lemma forest_add F a b cv : forest F -> ~ conn F a b -> forest ((a, b, cv) :: F).
Proof.
  intros [Hn Hf] Hab. assert (He : ~ In (a, b, cv) F) by (intros H; apply Hab, rst_step; eauto).
  split; [constructor; assumption|]. intros x y c [H|H] Hc.
  - injection H as -> -> ->. cbn [remove] in Hc. destruct (sedge_eq_dec _ _) as [_|]; [|congruence]. rewrite remove_id in Hc by assumption. contradiction.
  - cbn [remove] in Hc. destruct (sedge_eq_dec (x, y, c) (a, b, cv)) as [E|E]; [rewrite E in H; contradiction|].
    assert (Hm : forall u v, conn (remove sedge_eq_dec (x, y, c) F) u v -> conn F u v).
    { intros u v. apply conn_mono. intros z Hz. apply in_remove in Hz. tauto. }
    assert (Hxy : conn F x y) by (apply rst_step; eauto).
    apply conn_add in Hc. destruct Hc as [Hc|[[H1 H2]|[H1 H2]]].
    + eapply Hf; eauto.
    + apply Hab. eapply rst_trans; [apply rst_sym, Hm, H1|]. eapply rst_trans; [exact Hxy|]. apply rst_sym, Hm, H2.
    + apply Hab. eapply rst_trans; [apply Hm, H2|]. eapply rst_trans; [apply rst_sym; exact Hxy|]. apply Hm, H1.
Qed.

Definition kinv (V : list snode) (done : list sedge) (s : kst) : Prop :=
  Permutation (concat (fst s)) V /\ (forall l, In l (fst s) -> l <> []) /\
  (forall l x y, In l (fst s) -> In x l -> In y l -> conn (snd s) x y) /\
  (forall l a b cv, In l (fst s) -> In (a, b, cv) done -> In a l <-> In b l) /\
  incl (snd s) done /\ forest (snd s).

Lemma part_unique (parts : list (list snode)) l m x : NoDup (concat parts) -> In l parts -> In m parts -> In x l -> In x m -> l = m.
Proof.
  induction parts as [|p parts IH]; simpl; [tauto|]. intros Hn Hl Hm Hx Hy.
  assert (Hd : forall z, In z p -> ~ In z (concat parts)).
  { clear -Hn. induction p as [|z p IHp]; simpl in *; [tauto|]. inversion Hn; subst. intros y [->|Hy].
    - intros H. apply H1, in_or_app. auto.
    - auto. }
  assert (Hc : forall k, In k parts -> In x k -> In x (concat parts)) by (intros k Hk HI; apply in_concat; eauto).
  destruct Hl as [->|Hl], Hm as [->|Hm]; [reflexivity| | |].
  - exfalso. apply (Hd x Hx). eauto.
  - exfalso. apply (Hd x Hy). eauto.
  - apply IH; auto. clear -Hn. induction p as [|z p IHp]; [assumption|]. apply IHp. simpl in Hn. inversion Hn; assumption.
Qed.

Lemma part_In parts V a : Permutation (concat parts) V -> In a V -> In (part parts a) parts /\ In a (part parts a).
Proof.
  intros HP Ha. apply (Permutation_in _ (Permutation_sym HP)) in Ha. apply in_concat in Ha. destruct Ha as (l & Hl & Ha).
  unfold part. destruct (find (smem a) parts) as [m|] eqn:F.
  - apply find_some in F. destruct F as [H1 H2]. apply smem_In in H2. auto.
  - exfalso. apply (find_none _ _ F) in Hl. rewrite (proj2 (smem_In _ _) Ha) in Hl. discriminate.
Qed.

Lemma parts_split parts l m : NoDup (concat parts) -> (forall k, In k parts -> k <> []) -> In l parts -> In m parts -> l <> m ->
  forall a b, In a l -> In b m ->
  Permutation parts (l :: m :: filter (fun k => negb (smem a k) && negb (smem b k)) parts).
Proof.
  intros Hn Hne Hl Hm Hlm a b Ha Hb.
  assert (Hnd : NoDup parts).
  { clear -Hn Hne. induction parts as [|p ps IH]; [constructor|]. simpl in Hn. constructor.
    - intros HI. destruct p as [|z p]; [exact (Hne [] (or_introl eq_refl) eq_refl)|]. simpl in Hn. inversion Hn; subst.
      apply H1. apply in_or_app. right. apply in_concat. exists (z :: p). split; [assumption|left; reflexivity].
    - apply IH; [|intros; apply Hne; right; assumption]. clear -Hn. induction p as [|z p IHp]; [assumption|]. apply IHp. simpl in Hn. inversion Hn; assumption. }
  apply NoDup_Permutation; [assumption| |].
  - constructor.
    + intros [->|H]; [congruence|]. apply filter_In in H. rewrite (proj2 (smem_In a l) Ha) in H. destruct H; discriminate.
    + constructor; [|apply NoDup_filter; assumption]. intros H. apply filter_In in H. rewrite (proj2 (smem_In b m) Hb), andb_false_r in H. destruct H; discriminate.
  - intros k. split.
    + intros Hk. destruct (smem a k) eqn:Ka.
      * apply smem_In in Ka. left. eapply part_unique; eauto.
      * destruct (smem b k) eqn:Kb; [apply smem_In in Kb; right; left; eapply part_unique; eauto|].
        right; right. apply filter_In. rewrite Ka, Kb. auto.
    + intros [<-|[<-|H]]; [assumption|assumption|]. apply filter_In in H. tauto.
Qed.

Lemma concat_perm (l m : list (list snode)) : Permutation l m -> Permutation (concat l) (concat m).
Proof.
  induction 1; simpl; [constructor|apply Permutation_app_head; assumption| |etransitivity; eassumption].
  rewrite !app_assoc. apply Permutation_app_tail, Permutation_app_comm.
Qed.

Lemma k_step_ok V done s e : NoDup V -> In (fst (fst e)) V -> In (snd (fst e)) V -> kinv V done s -> kinv V (done ++ [e]) (k_step s e).
Proof.
  destruct s as [parts F], e as [[a b] cv]. simpl. intros HV Ha Hb (I1 & I2 & I3 & I4 & I5 & I6). unfold k_step; cbv zeta; simpl in *.
  destruct (part_In parts V a I1 Ha) as [Pa Aa], (part_In parts V b I1 Hb) as [Pb Bb].
  assert (Hn : NoDup (concat parts)) by (eapply Permutation_NoDup; [symmetry; exact I1|assumption]).
  destruct (smem b (part parts a)) eqn:Em.
  - apply smem_In in Em. split; [assumption|]. split; [assumption|]. split; [assumption|]. simpl. split; [|split; [intros x Hx; apply in_or_app; auto|assumption]].
    intros l u v c Hl HI. apply in_app_iff in HI. destruct HI as [HI|[HI|[]]]; [eapply I4; eauto|]. injection HI as <- <- <-.
    split; intros H.
    + rewrite (part_unique parts l (part parts a) a); auto.
    + rewrite (part_unique parts l (part parts a) b); auto.
  - apply smem_false in Em.
    assert (Hne : part parts a <> part parts b) by (intros E; apply Em; rewrite E; assumption).
    pose proof (parts_split parts _ _ Hn I2 Pa Pb Hne a b Aa Bb) as HP.
    set (rest := filter (fun l => negb (smem a l) && negb (smem b l)) parts) in *.
    set (pa := part parts a) in *. set (pb := part parts b) in *.
    assert (Hrest : forall l, In l rest -> In l parts /\ ~ In a l /\ ~ In b l).
    { intros l Hl. apply filter_In in Hl. destruct Hl as [Hl H]. apply andb_true_iff in H. destruct H as [H1 H2].
      apply negb_true_iff, smem_false in H1. apply negb_true_iff, smem_false in H2. auto. }
    assert (Hsame : forall x y, In x V -> conn F x y -> forall l, In l parts -> In x l -> In y l).
    { intros x y _ Hc l Hl Hx. apply (conn_closed F (fun z => In z l) x y); auto. intros u v c HI. apply (I4 l u v c Hl), I5, HI. }
    assert (Hnc : ~ conn F a b) by (intros Hc; apply Em; apply (Hsame a b Ha Hc); assumption).
    assert (Hm : forall x y, conn F x y -> conn ((a, b, cv) :: F) x y) by (intros x y; apply conn_mono; intros z Hz; right; assumption).
    split; simpl.
    + etransitivity; [|exact I1]. rewrite (concat_perm _ _ HP). simpl. rewrite app_assoc. reflexivity.
    + split; [intros l [<-|Hl] E; [apply app_eq_nil in E; destruct E as [E _]; apply (I2 pa Pa E)|destruct (Hrest l Hl); eapply I2; eauto]|].
      split.
      { intros l x y [<-|Hl] Hx Hy.
        - apply in_app_iff in Hx, Hy. assert (Hab : conn ((a, b, cv) :: F) a b) by (apply rst_step; exists cv; left; reflexivity).
          destruct Hx as [Hx|Hx], Hy as [Hy|Hy].
          + apply Hm, (I3 pa); auto.
          + eapply rst_trans; [apply Hm, (I3 pa x a); auto|]. eapply rst_trans; [exact Hab|]. apply Hm, (I3 pb); auto.
          + eapply rst_trans; [apply Hm, (I3 pb x b); auto|]. eapply rst_trans; [apply rst_sym; exact Hab|]. apply Hm, (I3 pa); auto.
          + apply Hm, (I3 pb); auto.
        - apply Hm, (I3 l); auto. apply Hrest; assumption. }
      split.
      { intros l u v c Hl HI. apply in_app_iff in HI. destruct HI as [HI|[HI|[]]].
        - destruct Hl as [<-|Hl]; [rewrite !in_app_iff, (I4 pa u v c Pa HI), (I4 pb u v c Pb HI); tauto|]. apply (I4 l u v c); [apply Hrest|]; assumption.
        - injection HI as <- <- <-. destruct Hl as [<-|Hl]; [rewrite !in_app_iff; tauto|]. destruct (Hrest l Hl) as (_ & ? & ?). tauto. }
      split; [intros x [<-|Hx]; apply in_or_app; [right; left; reflexivity|left; auto]|].
      apply forest_add; assumption.
Qed.

Lemma kruskal_ok V es : NoDup V -> (forall a b cv, In (a, b, cv) es -> In a V /\ In b V) -> kinv V es (kruskal V es).
Proof.
  intros HV Hes. unfold kruskal.
  assert (G : forall es done s, (forall a b cv, In (a, b, cv) es -> In a V /\ In b V) -> kinv V done s -> kinv V (done ++ es) (fold_left k_step es s)).
  { clear es Hes. induction es as [|[[a b] cv] es IH]; intros done s H I; simpl; [rewrite app_nil_r; assumption|].
    replace (done ++ (a, b, cv) :: es) with ((done ++ [(a, b, cv)]) ++ es) by (rewrite <- app_assoc; reflexivity).
    apply IH; [intros; eapply H; right; eassumption|]. apply k_step_ok; simpl; auto; apply (H a b cv); left; reflexivity. }
  apply (G es [] (map (fun x => [x]) V, [])); [assumption|]. split; simpl.
  - replace (concat (map (fun x => [x]) V)) with V; [reflexivity|]. clear. induction V as [|x V IH]; simpl; congruence.
  - split; [intros l Hl; apply in_map_iff in Hl; destruct Hl as (x & <- & _); discriminate|].
    split; [intros l x y Hl Hx Hy; apply in_map_iff in Hl; destruct Hl as (z & <- & _); destruct Hx as [<-|[]], Hy as [<-|[]]; apply rst_refl|].
    split; [intros l a b cv _ []|]. split; [intros x []|]. split; [constructor|]. intros a b cv [].
Qed.

Lemma k_nodes_In es x : In x (k_nodes es) <-> exists e, In e es /\ incident x e = true.
Proof.
  unfold k_nodes. rewrite nodup_In, in_flat_map. split.
  - intros ([[a b] cv] & He & Hx). exists (a, b, cv). split; [assumption|]. apply incident_iff. simpl in Hx. intuition.
  - intros ([[a b] cv] & He & Hx). apply incident_iff in Hx. exists (a, b, cv). split; [assumption|]. simpl. intuition.
Qed.

Theorem kruskal_lib_ok E : lib_ok E (kruskal_lib E).
Proof.
  split; [|split; [|split]]; simpl.
  - intros u v. unfold k_out. rewrite in_flat_map. unfold gadj. split.
    + intros ([[a b] cv] & He & Hv). simpl in Hv. exists cv. apply in_app_iff in Hv. destruct Hv as [Hv|Hv].
      * destruct (snode_eq_dec a u) as [->|]; [|destruct Hv]. destruct Hv as [<-|[]]. auto.
      * destruct (snode_eq_dec b u) as [->|]; [|destruct Hv]. destruct Hv as [<-|[]]. auto.
    + intros (cv & [H|H]).
      * exists (u, v, cv). split; [assumption|]. simpl. destruct (snode_eq_dec u u); [|congruence]. left. reflexivity.
      * exists (v, u, cv). split; [assumption|]. simpl. apply in_or_app. right. destruct (snode_eq_dec u u); [|congruence]. left. reflexivity.
  - intros es. split; [apply NoDup_nodup|apply k_nodes_In].
  - intros V es HV Hes. destruct (kruskal_ok V es HV Hes) as (I1 & I2 & I3 & I4 & I5 & _). split; [assumption|]. split; [assumption|].
    split; [|assumption]. intros c x y Hc Hx Hy. apply (conn_mono (snd (kruskal V es))); [assumption|]. eapply I3; eauto.
  - intros V es _ _. destruct (kruskal_ok (k_nodes es) es) as (I1 & I2 & I3 & I4 & I5 & I6).
    + apply NoDup_nodup.
    + intros a b cv H. split; apply k_nodes_In; exists (a, b, cv); (split; [assumption|apply incident_iff; auto]).
    + split; [assumption|]. split; [assumption|]. intros a b cv H.
      assert (Ha : In a (k_nodes es)) by (apply k_nodes_In; exists (a, b, cv); split; [assumption|apply incident_iff; auto]).
      apply (Permutation_in _ (Permutation_sym I1)) in Ha. apply in_concat in Ha. destruct Ha as (l & Hl & Ha).
      apply (I3 l); auto. apply (I4 l a b cv); auto.
Qed.

(* every set is visited in the order of its list *)
Definition id_sched : sched := {| sc_odd := fun _ l => l; sc_nodes := fun _ _ l => l; sc_upd := fun _ l => l; sc_kids := fun _ l => l |}.
(* every set is visited backwards *)
Definition rev_sched : sched := {| sc_odd := fun _ l => rev l; sc_nodes := fun _ _ l => rev l; sc_upd := fun _ l => rev l; sc_kids := fun _ l => rev l |}.
Lemma id_sched_ok : sched_ok id_sched.
Proof. repeat split; intros; reflexivity. Qed.
Lemma rev_sched_ok : sched_ok rev_sched.
Proof. repeat split; intros; symmetry; apply Permutation_rev. Qed.
