(* UfPeel.v: the peeling decoder. *)
From Coq Require Import Relations.
From Verif Require Import Base Lattice RhgModel SurfaceModel StabGraphModel Paths MwpmModel UfModel UfTrees UfSpec.
Open Scope nat_scope.

Lemma conn_mono F F' x y : incl F F' -> conn F x y -> conn F' x y.
Proof.
  intros Hi. induction 1 as [a b (cv & H)|a|a b _ IH|a b c _ IH1 _ IH2].
  - apply rst_step. exists cv. apply Hi; assumption.
  - apply rst_refl.
  - apply rst_sym; assumption.
  - eapply rst_trans; eassumption.
Qed.
Lemma remove_incl e (F : list sedge) : incl (remove sedge_eq_dec e F) F.
Proof. intros x Hx. apply in_remove in Hx. tauto. Qed.
Lemma remove_mono e (F F' : list sedge) : incl F F' -> incl (remove sedge_eq_dec e F) (remove sedge_eq_dec e F').
Proof. intros H x Hx. apply in_remove in Hx. apply in_in_remove; [tauto|apply H; tauto]. Qed.
Lemma NoDup_remove_edge e (l : list sedge) : NoDup l -> NoDup (remove sedge_eq_dec e l).
Proof.
  induction 1 as [|y l Hy Hl IH]; simpl; [constructor|]. destruct (sedge_eq_dec e y); [assumption|].
  constructor; [|assumption]. intros HI. apply in_remove in HI. tauto.
Qed.
Lemma forest_sub F F' : forest F -> incl F' F -> NoDup F' -> forest F'.
Proof.
  intros [_ H] Hi Hn. split; [assumption|]. intros a b cv HI Hc. apply (H a b cv); [apply Hi; assumption|].
  eapply conn_mono; [|exact Hc]. apply remove_mono; assumption.
Qed.
Lemma forest_remove F e : forest F -> forest (remove sedge_eq_dec e F).
Proof. intros H. apply forest_sub with F; [assumption|apply remove_incl|apply NoDup_remove_edge, H]. Qed.
Lemma forest_loop F a b cv : forest F -> In (a, b, cv) F -> a <> b.
Proof. intros [_ H] HI ->. apply (H _ _ _ HI). apply rst_refl. Qed.

Lemma incident_iff x a b cv : incident x (a, b, cv) = true <-> a = x \/ b = x.
Proof. unfold incident. simpl. rewrite orb_true_iff, !sneqb_iff. reflexivity. Qed.

Lemma length_remove e (F : list sedge) : NoDup F -> In e F -> length F = S (length (remove sedge_eq_dec e F)).
Proof.
  induction 1 as [|y l Hy Hl IH]; simpl; [tauto|]. intros [->|HI].
  - destruct (sedge_eq_dec e e); [|congruence]. rewrite notin_remove; auto.
  - destruct (sedge_eq_dec e y) as [->|Hne]; [contradiction|]. simpl. rewrite <- IH; auto.
Qed.
Lemma filter_remove_comm f e (F : list sedge) : filter f (remove sedge_eq_dec e F) = remove sedge_eq_dec e (filter f F).
Proof.
  induction F as [|y F IH]; simpl; [reflexivity|]. destruct (sedge_eq_dec e y) as [->|Hne]; simpl.
  - rewrite IH. destruct (f y) eqn:E; simpl; [|reflexivity]. destruct (sedge_eq_dec y y); [reflexivity|congruence].
  - destruct (f y); simpl; rewrite IH; [|reflexivity]. destruct (sedge_eq_dec e y); [contradiction|reflexivity].
Qed.
Lemma degree_remove F e x : NoDup F -> In e F ->
  degree F x = if incident x e then S (degree (remove sedge_eq_dec e F) x) else degree (remove sedge_eq_dec e F) x.
Proof.
  intros Hn HI. unfold degree. rewrite filter_remove_comm. destruct (incident x e) eqn:E.
  - apply length_remove; [apply NoDup_filter; assumption|apply filter_In; auto].
  - rewrite notin_remove; [reflexivity|]. intros H. apply filter_In in H. destruct H; congruence.
Qed.
Lemma degree_pos F x : degree F x <> 0 <-> exists e, In e F /\ incident x e = true.
Proof.
  unfold degree. split.
  - destruct (filter (incident x) F) as [|e l] eqn:E; simpl; [congruence|]. intros _. exists e. apply filter_In. rewrite E. left; reflexivity.
  - intros (e & H). apply filter_In in H. destruct (filter (incident x) F); [destruct H|discriminate].
Qed.
Lemma other_edge x a b cv : a <> b -> incident x (a, b, cv) = true ->
  other x (a, b, cv) <> x /\ ((a = x /\ b = other x (a, b, cv)) \/ (b = x /\ a = other x (a, b, cv))).
Proof.
  intros Hab Hi. apply incident_iff in Hi. unfold other. simpl. destruct (snode_eq_dec a x) as [->|Ha]; [auto|].
  destruct Hi as [->| ->]; [congruence|]. auto.
Qed.

(* a forest with an edge at u has a leaf other than u in the same tree *)
Lemma forest_leaf F u : forest F -> degree F u <> 0 -> exists v, v <> u /\ degree F v = 1 /\ conn F u v.
Proof.
  remember (length F) as n eqn:Hn. revert F u Hn. induction n as [n IH] using (well_founded_induction lt_wf).
  intros F u -> HF Hu. apply degree_pos in Hu. destruct Hu as ([[a b] cv] & HI & Hinc).
  pose proof (forest_loop _ _ _ _ HF HI) as Hab.
  destruct (other_edge u a b cv Hab Hinc) as [Hne Hends].
  set (e := (a, b, cv)) in *. set (w := other u e) in *. set (F' := remove sedge_eq_dec e F).
  assert (HF' : forest F') by (apply forest_remove; assumption).
  assert (Hnd : NoDup F) by apply HF.
  assert (Hnc : ~ conn F' u w).
  { intros Hc. apply (proj2 HF a b cv HI). fold e F'. destruct Hends as [[Ha Hb]|[Hb Ha]]; rewrite Ha, Hb; [assumption|apply rst_sym; assumption]. }
  assert (Huw : conn F u w).
  { destruct Hends as [[Ha Hb]|[Hb Ha]]; [|apply rst_sym]; apply rst_step; exists cv; rewrite <- Ha, <- Hb; assumption. }
  assert (Hwi : incident w e = true) by (apply incident_iff; destruct Hends as [[? ?]|[? ?]]; auto).
  destruct (Nat.eq_dec (degree F' w) 0) as [H0|H0].
  - exists w. split; [assumption|]. split; [|assumption]. rewrite (degree_remove F e w Hnd HI). rewrite Hwi. fold F'. lia.
  - destruct (IH (length F')) with (F := F') (u := w) as (v & Hvw & Hdv & Hcv); auto.
    { rewrite (length_remove e F Hnd HI). fold F'. lia. }
    assert (Hvu : v <> u) by (intros ->; apply Hnc, rst_sym; assumption).
    exists v. split; [assumption|]. split.
    + rewrite (degree_remove F e v Hnd HI). fold F'.
      assert (Hi : incident v e = false).
      { destruct (incident v e) eqn:Ei; [|reflexivity]. apply incident_iff in Ei.
        destruct Hends as [[? ?]|[? ?]]; destruct Ei; congruence. }
      rewrite Hi. assumption.
    + eapply rst_trans; [exact Huw|]. eapply conn_mono; [|exact Hcv]. apply remove_incl.
Qed.

(* ---------------------------------------------------------------- *)
Definition pb (pd : snode -> option bool) (x : snode) : bool := match pd x with Some b => b | None => false end.

Lemma xsum_point (a : snode) c V : NoDup V -> In a V -> xsum (fun v => sneqb v a && c) V = c.
Proof.
  induction 1 as [|x V Hx Hn IH]; simpl; [tauto|]. intros [->|HI].
  - rewrite sneqb_refl. rewrite xsum_all_false; [destruct c; reflexivity|].
    intros y Hy. unfold sneqb. destruct (snode_eq_dec y a); [congruence|reflexivity].
  - unfold sneqb at 1. destruct (snode_eq_dec x a); [congruence|]. rewrite IH by assumption. destruct c; reflexivity.
Qed.

Section Peel.
  Variables (V : list snode) (F0 : list sedge) (pd0 : snode -> option bool).
  Hypothesis HV : NoDup V.
  Hypothesis HF0 : forest F0.
  Hypothesis Hends : forall a b cv, In (a, b, cv) F0 -> In a V /\ In b V.
  Hypothesis Hpd0 : forall v, In v V -> pd0 v <> None.
  (* two edges of the forest never carry the same qubit *)
  Hypothesis Hcv : forall e e', In e F0 -> In e' F0 -> snd e = snd e' -> e = e'.

  Definition even_closed (F : list sedge) (pd : snode -> option bool) : Prop :=
    forall S : snode -> bool, (forall a b cv, In (a, b, cv) F -> S a = S b) ->
    xsum (fun v => S v && pb pd v) V = false.
  Definition chosen (rec : list (option point)) (e : sedge) : bool := if in_dec opt_eq_dec (snd e) rec then true else false.
  (* parity of the number of recovered edges at v *)
  Definition rdeg (rec : list (option point)) (v : snode) : bool := xsum (fun e => incident v e && chosen rec e) F0.

  Record pinv (rest : list snode) (s : pst) : Prop := {
    v_incl : incl (p_F s) F0;
    v_nd : NoDup (p_F s);
    v_pd : forall v, In v V -> p_pd s v <> None;
    v_even : even_closed (p_F s) (p_pd s);
    v_deg : forall v, In v V -> xorb (rdeg (p_rec s) v) (pb (p_pd s) v) = pb pd0 v;
    v_rec : forall q, In q (p_rec s) -> exists e, In e F0 /\ ~ In e (p_F s) /\ snd e = q;
    v_rnd : NoDup (p_rec s);
    v_leaf : forall v, In v V -> degree (p_F s) v = 1 -> In v rest
  }.

  Lemma rdeg_add rec e v : In e F0 -> ~ In (snd e) rec -> rdeg (snd e :: rec) v = xorb (incident v e) (rdeg rec v).
  Proof.
    intros HI Hn. unfold rdeg.
    rewrite (xsum_ext (fun e' => incident v e' && chosen (snd e :: rec) e')
               (fun e' => xorb ((if sedge_eq_dec e' e then true else false) && incident v e) (incident v e' && chosen rec e'))).
    - rewrite xsum_xorb. f_equal.
      pose proof (proj1 HF0) as Hnd. clear -HI Hnd. induction Hnd as [|x l Hx Hl IH]; simpl; [destruct HI|].
      destruct HI as [->|HI].
      + destruct (sedge_eq_dec e e); [|congruence]. simpl. rewrite xsum_all_false; [destruct (incident v e); reflexivity|].
        intros y Hy. destruct (sedge_eq_dec y e); [congruence|reflexivity].
      + destruct (sedge_eq_dec x e); [congruence|]. rewrite IH by assumption. simpl. destruct (incident v e); reflexivity.
    - intros e' He'. unfold chosen. destruct (sedge_eq_dec e' e) as [->|Hne].
      + destruct (in_dec opt_eq_dec (snd e) (snd e :: rec)) as [|H]; [|exfalso; apply H; left; reflexivity].
        destruct (in_dec opt_eq_dec (snd e) rec); [contradiction|]. destruct (incident v e); reflexivity.
      + destruct (in_dec opt_eq_dec (snd e') (snd e :: rec)) as [[H|H]|H].
        * exfalso. apply Hne. symmetry. apply Hcv; auto.
        * destruct (in_dec opt_eq_dec (snd e') rec); [|contradiction]. destruct (incident v e'); reflexivity.
        * destruct (in_dec opt_eq_dec (snd e') rec) as [H'|H']; [exfalso; apply H; right; assumption|].
          destruct (incident v e'); reflexivity.
  Qed.

  Lemma trim_ok fuel : forall s leaf rest, length (p_F s) <= S fuel -> pinv (leaf :: rest) s -> In leaf V ->
    degree (p_F s) leaf <= 1 -> exists s', trim fuel s leaf = Ok s' /\ pinv rest s' /\ length (p_F s') <= length (p_F s) /\ incl (p_F s') (p_F s).
  Proof.
    induction fuel as [|fuel IH]; intros s leaf rest Hlen Hinv Hleaf Hdeg.
    all: simpl.
    all: destruct (filter (incident leaf) (p_F s)) as [|e fl] eqn:Ef.
    1, 3: exists s; split; [reflexivity|]; split; [|split; [lia|apply incl_refl]];
      destruct Hinv; constructor; auto;
      intros v Hv Hd; destruct (v_leaf0 v Hv Hd) as [<-|]; auto; unfold degree in Hd; rewrite Ef in Hd; discriminate.
    all: assert (He : In e (p_F s) /\ incident leaf e = true) by (apply filter_In; rewrite Ef; left; reflexivity).
    all: destruct He as [He Hinc].
    all: destruct e as [[a b] cv].
    all: pose proof (forest_sub _ _ HF0 (v_incl _ _ Hinv) (v_nd _ _ Hinv)) as HFs.
    all: pose proof (forest_loop _ _ _ _ HFs He) as Hab.
    all: destruct (other_edge leaf a b cv Hab Hinc) as [Hne Hen].
    all: set (e := (a, b, cv)) in *; set (new := other leaf e) in *; set (F' := remove sedge_eq_dec e (p_F s)) in *.
    all: assert (Hnew : In new V) by
      (destruct (Hends a b cv (v_incl _ _ Hinv _ He)); destruct Hen as [[_ <-]|[_ <-]]; assumption).
    all: destruct (p_pd s leaf) as [pl|] eqn:Epl; [|exfalso; exact (v_pd _ _ Hinv leaf Hleaf Epl)].
    all: destruct (p_pd s new) as [pn|] eqn:Epn; [|exfalso; exact (v_pd _ _ Hinv new Hnew Epn)].
    all: set (pd' := if pl then supd (supd (p_pd s) leaf (Some false)) new (Some (negb pn)) else p_pd s).
    all: match goal with |- context [bind ?X _] => replace X with (Ok pd') by
           (unfold pd'; destruct pl; [|reflexivity]; rewrite supd_other by assumption; rewrite Epn; reflexivity) end; simpl.
    all: set (rec' := if pl then set_add cv (p_rec s) else p_rec s).
    all: set (s' := {| p_F := F'; p_pd := pd'; p_rec := rec' |}).
    (* degrees *)
    all: assert (HdL : degree F' leaf = 0) by
      (pose proof (degree_remove _ e leaf (v_nd _ _ Hinv) He) as HD; rewrite Hinc in HD; fold F' in HD; lia).
    all: assert (Hni : incident new e = true) by (apply incident_iff; destruct Hen as [[? ?]|[? ?]]; auto).
    all: assert (Hdo : forall v, v <> leaf -> v <> new -> degree F' v = degree (p_F s) v) by
      (intros v Hv1 Hv2; rewrite (degree_remove _ e v (v_nd _ _ Hinv) He);
       destruct (incident v e) eqn:Ei; [|reflexivity]; apply incident_iff in Ei;
       exfalso; destruct Hen as [[? ?]|[? ?]]; destruct Ei; congruence).
    (* the invariant after the step *)
    all: assert (Hpb : forall v, pb pd' v = if snode_eq_dec v leaf then false else if snode_eq_dec v new then xorb (pb (p_pd s) new) pl else pb (p_pd s) v) by
      (intros v; unfold pb, pd'; destruct pl;
       [ unfold supd; destruct (snode_eq_dec v new) as [->|Hvn];
           [destruct (snode_eq_dec new leaf); [contradiction|]; rewrite Epn; destruct pn; reflexivity|];
         destruct (snode_eq_dec v leaf); reflexivity
       | destruct (snode_eq_dec v leaf) as [->|]; [rewrite Epl; reflexivity|];
         destruct (snode_eq_dec v new) as [->|]; [rewrite Epn; destruct pn; reflexivity|reflexivity] ]).
    all: assert (Heout : ~ In e F') by (intros H; apply in_remove in H; tauto).
    all: assert (Hcvout : ~ In cv (p_rec s)) by
      (intros H; destruct (v_rec _ _ Hinv _ H) as (e' & He'0 & He'n & Hs);
       apply He'n; assert (e' = e) as -> by (apply Hcv; [assumption|apply (v_incl _ _ Hinv); assumption|assumption]); assumption).
    all: assert (Hinv' : pinv (new :: rest) s').
    1, 3: constructor; simpl.
    1, 9: intros x Hx; apply (v_incl _ _ Hinv); eapply remove_incl; exact Hx.
    1, 8: apply NoDup_remove_edge, (v_nd _ _ Hinv).
    1, 7: intros v Hv; unfold pd'; destruct pl; [|apply (v_pd _ _ Hinv); assumption]; unfold supd;
      destruct (snode_eq_dec v new); [discriminate|]; destruct (snode_eq_dec v leaf); [discriminate|apply (v_pd _ _ Hinv); assumption].
    1, 6: (intros S HS;
      transitivity (xsum (fun v => supd S leaf (S new) v && pb (p_pd s) v) V);
      [|apply (v_even _ _ Hinv); intros x y c Hxy; destruct (sedge_eq_dec (x, y, c) e) as [E|E];
        [ unfold e in E; injection E as -> -> ->; destruct Hen as [[Hl Hr]|[Hl Hr]]; rewrite Hl;
          rewrite supd_same; rewrite supd_other by congruence; congruence
        | assert (HxyF : In (x, y, c) F') by (apply in_in_remove; assumption);
          assert (x <> leaf /\ y <> leaf) as [Hx Hy] by
            (assert (Hz : incident leaf (x, y, c) = false) by
               (destruct (incident leaf (x, y, c)) eqn:Ei; [|reflexivity]; exfalso;
                assert (degree F' leaf <> 0) by (apply degree_pos; eauto); congruence);
             split; intros ->; rewrite (proj2 (incident_iff _ _ _ _)) in Hz by auto; discriminate);
          rewrite !supd_other by assumption; eapply HS; exact HxyF ]];
      apply Bool.xorb_eq; rewrite <- xsum_xorb;
      rewrite (xsum_ext _ (fun v => xorb (sneqb v leaf && (S new && pl)) (sneqb v new && (S new && pl))));
      [ rewrite xsum_xorb; rewrite !xsum_point by assumption; apply xorb_nilpotent
      | intros v Hv; rewrite Hpb; unfold supd, sneqb;
        destruct (snode_eq_dec v leaf) as [->|Hvl];
        [ destruct (snode_eq_dec leaf new); [congruence|]; unfold pb; rewrite Epl; destruct (S leaf), (S new), pl; reflexivity
        | destruct (snode_eq_dec v new) as [->|Hvn];
          [ destruct (S new), pl, (pb (p_pd s) new); reflexivity
          | destruct (S v), (pb (p_pd s) v), (S new), pl; reflexivity ] ] ]).
    1, 5: (intros v Hv; rewrite <- (v_deg _ _ Hinv v Hv); rewrite Hpb; unfold rec', set_add; destruct pl;
      [ destruct (in_dec opt_eq_dec cv (p_rec s)); [contradiction|];
        change cv with (snd e); rewrite rdeg_add by (try apply (v_incl _ _ Hinv); assumption);
        destruct (snode_eq_dec v leaf) as [->|Hvl];
        [ rewrite Hinc; unfold pb; rewrite Epl; destruct (rdeg (p_rec s) leaf); reflexivity
        | destruct (snode_eq_dec v new) as [->|Hvn];
          [ rewrite Hni; destruct (rdeg (p_rec s) new), (pb (p_pd s) new); reflexivity
          | assert (Hi : incident v e = false) by
              (destruct (incident v e) eqn:Ei; [|reflexivity]; apply incident_iff in Ei;
               exfalso; destruct Hen as [[? ?]|[? ?]]; destruct Ei; congruence);
            rewrite Hi; destruct (rdeg (p_rec s) v), (pb (p_pd s) v); reflexivity ] ]
      | destruct (snode_eq_dec v leaf) as [->|Hvl];
        [ unfold pb; rewrite Epl; reflexivity
        | destruct (snode_eq_dec v new) as [->|Hvn]; [rewrite xorb_false_r; reflexivity|reflexivity] ] ]).
    1, 4: (intros q Hq; unfold rec', set_add in Hq; destruct pl;
      [ destruct (in_dec opt_eq_dec cv (p_rec s)); [contradiction|]; destruct Hq as [<-|Hq];
        [ exists e; split; [apply (v_incl _ _ Hinv); assumption|split; [assumption|reflexivity]]
        | destruct (v_rec _ _ Hinv _ Hq) as (e' & H1 & H2 & H3); exists e'; split; [assumption|]; split; [|assumption];
          intros H; apply H2; eapply remove_incl; exact H ]
      | destruct (v_rec _ _ Hinv _ Hq) as (e' & H1 & H2 & H3); exists e'; split; [assumption|]; split; [|assumption];
        intros H; apply H2; eapply remove_incl; exact H ]).
    1, 3: unfold rec', set_add; destruct pl; [|apply (v_rnd _ _ Hinv)]; destruct (in_dec opt_eq_dec cv (p_rec s)); [apply (v_rnd _ _ Hinv)|];
      constructor; [assumption|apply (v_rnd _ _ Hinv)].
    1, 2: (intros v Hv Hd; destruct (snode_eq_dec v new) as [->|Hvn]; [left; reflexivity|]; right;
      destruct (snode_eq_dec v leaf) as [->|Hvl]; [lia|];
      rewrite Hdo in Hd by assumption; destruct (v_leaf _ _ Hinv v Hv Hd) as [<-|H]; [congruence|assumption]).
    all: assert (Hlen' : S (length F') = length (p_F s)) by (symmetry; apply length_remove; [apply (v_nd _ _ Hinv)|assumption]).
    all: assert (Hincl' : incl F' (p_F s)) by apply remove_incl.
    all: destruct (degree F' new =? 1) eqn:Ed.
    - exfalso. apply Nat.eqb_eq in Ed. assert (Hn : degree F' new <> 0) by lia. apply degree_pos in Hn.
      destruct Hn as (x & Hx & _). destruct F'; [destruct Hx|simpl in Hlen'; lia].
    - exists s'. split; [reflexivity|]. split; [|split; [simpl; lia|assumption]].
      apply Nat.eqb_neq in Ed. destruct Hinv'. constructor; auto.
      intros v Hv Hd. destruct (v_leaf0 v Hv Hd) as [<-|]; auto. contradiction.
    - apply Nat.eqb_eq in Ed. destruct (IH s' new rest) as (s2 & E2 & I2 & L2 & C2); simpl; auto; try lia.
      exists s2. split; [exact E2|]. split; [assumption|]. simpl in L2, C2. split; [lia|].
      intros x Hx. apply Hincl', C2, Hx.
    - exists s'. split; [reflexivity|]. split; [|split; [simpl; lia|assumption]].
      apply Nat.eqb_neq in Ed. destruct Hinv'. constructor; auto.
      intros v Hv Hd. destruct (v_leaf0 v Hv Hd) as [<-|]; auto. contradiction.
  Qed.

  Lemma degree_sub F F' v : NoDup F -> incl F F' -> degree F v <= degree F' v.
  Proof.
    intros Hn Hi. unfold degree. apply NoDup_incl_length; [apply NoDup_filter; assumption|].
    intros x Hx. apply filter_In in Hx. apply filter_In. split; [apply Hi|]; tauto.
  Qed.

  Lemma trims_ok fuel leaves : forall s, length F0 <= S fuel -> pinv leaves s ->
    (forall v, In v leaves -> In v V /\ degree F0 v <= 1) ->
    exists s', foldM (trim fuel) s leaves = Ok s' /\ pinv [] s'.
  Proof.
    induction leaves as [|leaf rest IH]; intros s Hlen Hinv Hl; [exists s; auto|].
    assert (length (p_F s) <= length F0) by (apply NoDup_incl_length; [apply (v_nd _ _ Hinv)|apply (v_incl _ _ Hinv)]).
    destruct (Hl leaf) as [Hv Hd]; [left; reflexivity|].
    destruct (trim_ok fuel s leaf rest) as (s1 & E1 & I1 & _ & _); auto; [lia| |].
    { pose proof (degree_sub (p_F s) F0 leaf (v_nd _ _ Hinv) (v_incl _ _ Hinv)). lia. }
    destruct (IH s1) as (s2 & E2 & I2); auto. { intros v H1; apply Hl; right; assumption. }
    exists s2. split; [|assumption].
    change (bind (trim fuel s leaf) (fun s0 => foldM (trim fuel) s0 rest) = Ok s2). rewrite E1. exact E2.
  Qed.

  Hypothesis Heven : even_closed F0 pd0.

  Lemma peeling_ok fuel : length F0 <= S fuel ->
    exists rec, peeling fuel V F0 pd0 = Ok rec /\ NoDup rec /\
      (forall q, In q rec -> exists e, In e F0 /\ snd e = q) /\
      forall v, In v V -> rdeg rec v = pb pd0 v.
  Proof.
    intros Hlen. unfold peeling.
    destruct (trims_ok fuel (filter (fun x => degree F0 x =? 1) V) {| p_F := F0; p_pd := pd0; p_rec := [] |}) as (s & E & I).
    - assumption.
    - constructor; simpl; auto.
      + apply incl_refl.
      + apply HF0.
      + intros v Hv. unfold rdeg. rewrite xsum_all_false; [destruct (pb pd0 v); reflexivity|].
        intros e _. unfold chosen. destruct (in_dec opt_eq_dec (snd e) []) as [[]|]. apply andb_false_r.
      + intros q [].
      + constructor.
      + intros v Hv Hd. apply filter_In. split; [assumption|]. apply Nat.eqb_eq. assumption.
    - intros v Hv. apply filter_In in Hv. destruct Hv as [Hv Hd]. apply Nat.eqb_eq in Hd. split; [assumption|lia].
    - rewrite E. simpl. exists (p_rec s). split; [reflexivity|]. split; [apply (v_rnd _ _ I)|]. split.
      { intros q Hq. destruct (v_rec _ _ I q Hq) as (e & H1 & _ & H2). eauto. }
      assert (HF : p_F s = []).
      { destruct (p_F s) as [|[[a b] cv] F] eqn:EF; [reflexivity|]. exfalso.
        assert (HFs : forest (p_F s)) by (apply forest_sub with F0; [assumption|apply (v_incl _ _ I)|apply (v_nd _ _ I)]).
        destruct (forest_leaf (p_F s) a) as (v & _ & Hd & _).
        - assumption.
        - apply degree_pos. exists (a, b, cv). rewrite EF. split; [left; reflexivity|]. apply incident_iff; auto.
        - assert (Hv : In v V).
          { assert (Hp : degree (p_F s) v <> 0) by lia. apply degree_pos in Hp. destruct Hp as ([[x y] c] & Hx & Hi).
            apply (v_incl _ _ I) in Hx. apply Hends in Hx. apply incident_iff in Hi. destruct Hi as [<-|<-]; tauto. }
          exact (v_leaf _ _ I v Hv Hd). }
      intros v Hv. rewrite <- (v_deg _ _ I v Hv).
      assert (Hz : pb (p_pd s) v = false).
      { rewrite <- (v_even _ _ I (fun w => sneqb w v)); [|rewrite HF; intros ? ? ? []].
        rewrite (xsum_ext _ (fun w => sneqb w v && pb (p_pd s) v)); [symmetry; apply xsum_point; assumption|].
        intros w Hw. destruct (sneqb w v) eqn:Ew; [apply sneqb_iff in Ew; subst; reflexivity|reflexivity]. }
      rewrite Hz. symmetry. apply xorb_false_r.
  Qed.
End Peel.
