(* CvProofs.v: lemmas about CvModel.v. *)
From Coq Require Import String.
From Verif Require Import Base Lattice GkpModel OpsModel EgraphModel EgraphSpec EgraphProofs CvModel CvSpec.
Open Scope Z_scope.

Lemma memn_In x l : memn x l = true <-> In x l.
Proof. unfold memn. rewrite existsb_exists. split; [intros (y & H & E); apply Nat.eqb_eq in E; subst; assumption|intros H; exists x; split; [assumption|apply Nat.eqb_refl]]. Qed.
Lemma memn_false x l : memn x l = false <-> ~ In x l.
Proof. rewrite <- memn_In. destruct (memn x l); intuition congruence. Qed.
Lemma streqb_ok a b : String.eqb a b = true <-> a = b.
Proof. apply String.eqb_eq. Qed.

(* the parts of an object that no method changes *)
Definition static (c c' : cv) : Prop :=
  v_N c' = v_N c /\ v_pts c' = v_pts c /\ v_adj c' = v_adj c /\ v_perf c' = v_perf c /\ v_delta c' = v_delta c /\ v_pswap c' = v_pswap c /\
  v_order c' = v_order c /\ v_trans c' = v_trans c /\ v_code c' = v_code c.
(* ... and the states and their labels *)
Definition same_states (c c' : cv) : Prop := static c c' /\ v_states c' = v_states c /\ forall p, a_state (v_attr c' p) = a_state (v_attr c p).
Lemma static_refl c : static c c.
Proof. repeat split. Qed.
Lemma static_trans a b c : static a b -> static b c -> static a c.
Proof. unfold static. intros (A1 & A2 & A3 & A4 & A5 & A6 & A7 & A8 & A9) (B1 & B2 & B3 & B4 & B5 & B6 & B7 & B8 & B9). repeat split; congruence. Qed.
Lemma same_states_refl c : same_states c c.
Proof. repeat split. Qed.
Lemma same_states_trans a b c : same_states a b -> same_states b c -> same_states a c.
Proof. intros (A1 & A2 & A3) (B1 & B2 & B3). split; [eapply static_trans; eassumption|]. split; [congruence|]. intros p. rewrite B3, A3. reflexivity. Qed.
Lemma static_upd c p f : static c (upd_attr c p f).
Proof. repeat split. Qed.
Lemma for_each_rel {A S} (R : S -> S -> Prop) (f : S -> A -> S * res unit) l : (forall c, R c c) -> (forall a b c, R a b -> R b c -> R a c) ->
  (forall c x, R c (fst (f c x))) -> forall c, R c (fst (for_each f c l)).
Proof.
  intros Hr Ht Hf. induction l as [|x l IH]; intros c; [apply Hr|]. simpl. specialize (Hf c x). destruct (f c x) as [c' [u|e]]; [|assumption]. eapply Ht; [exact Hf|apply IH].
Qed.
(* successful loops *)
Lemma for_each_ok {A S} (f : S -> A -> S * res unit) (g : S -> A -> S) (I : S -> Prop) l : (forall c x, In x l -> I c -> f c x = (g c x, Ok tt) /\ I (g c x)) ->
  forall c, I c -> for_each f c l = (fold_left g l c, Ok tt) /\ I (fold_left g l c).
Proof.
  induction l as [|x l IH]; intros Hf c Hc; [split; [reflexivity|assumption]|]. simpl. destruct (Hf c x (or_introl eq_refl) Hc) as [E Hc']. rewrite E. apply IH; [|assumption].
  intros c' y Hy. apply Hf. right. assumption.
Qed.

Lemma upd_same c p f : v_attr (upd_attr c p f) p = f (v_attr c p).
Proof. simpl. rewrite peqb_refl. reflexivity. Qed.
Lemma upd_other c p f q : q <> p -> v_attr (upd_attr c p f) q = v_attr c q.
Proof. intros H. simpl. rewrite (proj2 (peqb_false q p)) by assumption. reflexivity. Qed.
Lemma upd_state_kept c p f : (forall a, a_state (f a) = a_state a) -> same_states c (upd_attr c p f).
Proof. intros Hf. split; [apply static_upd|]. split; [reflexivity|]. intros q. simpl. destruct (peqb q p); [apply Hf|reflexivity]. Qed.
Lemma record_hom_kept q inds k out c : same_states c (fst (record_hom q inds k out c)).
Proof.
  unfold record_hom. apply for_each_rel; [apply same_states_refl|apply same_states_trans|]. intros c' (j & i). cbn [fst snd]. destruct (to_pt c' i); [|apply same_states_refl].
  destruct (Nat.leb k j); [apply same_states_refl|]. apply upd_state_kept. intros a0. destruct q; reflexivity.
Qed.
Lemma measure_hom_kept c q inds m pr d z : same_states c (fst (measure_hom c q inds m pr d z)).
Proof. unfold measure_hom. cbv zeta. match goal with |- context [match ?x with Err _ => _ | Ok _ => _ end] => destruct x as [out|e] end; [apply record_hom_kept|apply same_states_refl]. Qed.
Lemma measure_syndrome_kept c d : same_states c (fst (measure_syndrome c d)).
Proof. unfold measure_syndrome. destruct (v_code c) as [[inds coords]|]; [apply measure_hom_kept|apply same_states_refl]. Qed.
Lemma inner_decoder_kept c : same_states c (fst (inner_decoder c)).
Proof.
  unfold inner_decoder. destruct (v_code c) as [[inds coords]|]; [|apply same_states_refl]. apply for_each_rel; [apply same_states_refl|apply same_states_trans|].
  intros c' p. destruct (a_homp (v_attr c' p)); [|apply same_states_refl]. apply upd_state_kept. reflexivity.
Qed.
Lemma after_populate_kept c d : same_states c (fst (andthen (measure_syndrome c d) (fun c _ => inner_decoder c))).
Proof.
  pose proof (measure_syndrome_kept c d) as H. destruct (measure_syndrome c d) as [c' [u|e]]; simpl; [|exact H]. eapply same_states_trans; [exact H|apply inner_decoder_kept].
Qed.

(* ---------------- labels ---------------- *)
Lemma label_inds_ok psi l : forall c, (forall i, In i l -> exists p, node_at c i p) ->
  exists c', for_each (label_one psi) c l = (c', Ok tt) /\ static c c' /\ v_states c' = v_states c /\
    forall p, ((exists i, In i l /\ node_at c i p) -> a_state (v_attr c' p) = Some psi) /\ ((forall i, In i l -> ~ node_at c i p) -> a_state (v_attr c' p) = a_state (v_attr c p)).
Proof.
  induction l as [|i l IH]; intros c H.
  - exists c. split; [reflexivity|]. split; [apply static_refl|]. split; [reflexivity|]. intros p. split; [intros (i & [] & _)|reflexivity].
  - destruct (H i (or_introl eq_refl)) as (p0 & Hp0). simpl. unfold label_one at 1, to_pt. unfold node_at in Hp0. rewrite Hp0.
    destruct (IH (upd_attr c p0 (with_state psi))) as (c' & E & Hs & Hst & Hl); [intros j Hj; apply (H j); right; assumption|].
    exists c'. split; [exact E|]. split; [eapply static_trans; [apply static_upd|exact Hs]|]. split; [exact Hst|].
    intros p. destruct (Hl p) as [L1 L2]. change (forall i, node_at (upd_attr c p0 (with_state psi)) i p <-> node_at c i p) with (forall i : nat, node_at c i p <-> node_at c i p) in *.
    assert (Hdec : (exists j, In j l /\ node_at c j p) \/ (forall j, In j l -> ~ node_at c j p)).
    { destruct (existsb (fun j => match dget Nat.eqb (v_pts c) j with Some q => peqb q p | None => false end) l) eqn:Ex.
      - left. apply existsb_exists in Ex. destruct Ex as (j & Hj & Ej). exists j. split; [assumption|]. unfold node_at. destruct (dget Nat.eqb (v_pts c) j); [|discriminate]. apply peqb_true in Ej. congruence.
      - right. intros j Hj Hn. assert (Ht : existsb (fun j => match dget Nat.eqb (v_pts c) j with Some q => peqb q p | None => false end) l = true); [|congruence].
        apply existsb_exists. exists j. split; [assumption|]. unfold node_at in Hn. rewrite Hn. apply peqb_refl. }
    split.
    + intros (j & [<-|Hj] & Hn).
      * destruct Hdec as [Hd|Hd]; [apply L1; assumption|]. rewrite (L2 Hd). unfold node_at in Hn. assert (p0 = p) by congruence. subst p0. rewrite upd_same. reflexivity.
      * apply L1. exists j. split; assumption.
    + intros Hn. rewrite L2 by (intros j Hj; apply (Hn j); right; assumption). rewrite upd_other; [reflexivity|]. intros ->. apply (Hn i (or_introl eq_refl)). exact Hp0.
Qed.

(* a layer during its life *)
Record live (c0 c : cv) : Prop := {
  lv_static : static c0 c;
  lv_states : (v_states c = v_states c0) \/ exists x G, v_states c = [("p"%string, x); ("GKP"%string, arr G)] /\
      (forall i, In i G -> (i < v_N c)%nat /\ ~ In i (x_l x)) /\
      (match v_pswap c with None => v_states c0 = [("p"%string, x)] | Some r => r = 0%R -> v_states c0 = [("p"%string, x)] end) /\
      forall i p, node_at c i p -> a_state (v_attr c p) = Some (if memn i (x_l x) then "p"%string else "GKP"%string)
}.
Lemma fresh_live c0 : live c0 c0.
Proof. split; [apply static_refl|left; reflexivity]. Qed.
Lemma live_kept c0 c c' : live c0 c -> same_states c c' -> live c0 c'.
Proof.
  intros [H1 H2] (S1 & S2 & S3). split; [eapply static_trans; eassumption|]. destruct S1 as (E1 & E2 & _ & _ & _ & E6 & _). destruct H2 as [H2|(x & G & H2 & B & P & L)]; [left; congruence|].
  right. exists x, G. rewrite S2, E1, E6. split; [assumption|]. split; [assumption|]. split; [assumption|].
  intros i p Hn. rewrite S3. apply (L i p). unfold node_at in *. congruence.
Qed.
Lemma static_pts c c' i p : static c c' -> (node_at c' i p <-> node_at c i p).
Proof. intros (_ & E & _). unfold node_at. rewrite E. reflexivity. Qed.
Lemma remaining_in N s i : In i (remaining N s) <-> (i < N)%nat /\ ~ In i (used_inds s).
Proof. unfold remaining. rewrite filter_In, in_seq, negb_true_iff, memn_false. intuition lia. Qed.
Lemma remaining_nodup N s : NoDup (remaining N s).
Proof. apply NoDup_filter, seq_NoDup. Qed.

(* what populate_states does *)
Lemma squeezed_ok c0 c d : fresh_layer c0 -> live c0 c -> draws_ok (v_N c0) d ->
  exists x, squeezed c d = Ok (("p"%string, x) :: tl (v_states c)) /\ x_l x = trial_p c0 d /\ (forall i, In i (x_l x) -> (i < v_N c0)%nat) /\
    (x_arr x = true \/ v_states c0 = [("p"%string, x)]) /\ match v_pswap c0 with None => v_states c0 = [("p"%string, x)] | Some r => r = 0%R -> v_states c0 = [("p"%string, x)] end.
Proof.
  intros (Hnum & (x0 & E0 & Hx0) & Hsw) [Hs Hst] (D1 & D2 & _). destruct Hs as (S1 & _ & _ & _ & _ & S6 & _).
  assert (Hx : exists x, v_states c = ("p"%string, x) :: tl (v_states c) /\ match v_pswap c0 with None => x = x0 | Some r => r = 0%R -> x = x0 end).
  { destruct Hst as [E|(x & G & E & _ & P & _)].
    - exists x0. rewrite E, E0. split; [reflexivity|]. destruct (v_pswap c0); auto.
    - exists x. rewrite E. split; [reflexivity|]. rewrite S6 in P. rewrite E0 in P. destruct (v_pswap c0); [intros Hr; specialize (P Hr)|]; congruence. }
  destruct Hx as (x & Ex & Px). unfold squeezed, trial_p. rewrite S6, S1. assert (Ei : inds_of c0 "p" = x_l x0) by (unfold inds_of; rewrite E0; reflexivity).
  destruct (v_pswap c0) as [r|]; [|exists x; subst x; rewrite Ei; split; [rewrite Ex at 1; reflexivity|]; auto].
  destruct (Req_EM_T r 0) as [Hr|Hr]; [rewrite (Px Hr) in *; exists x0; rewrite Ei; split; [rewrite Ex at 1; reflexivity|]; auto|].
  assert (Hset : forall y, dset String.eqb (v_states c) "p"%string y = ("p"%string, y) :: tl (v_states c)) by (intros y; rewrite Ex; reflexivity).
  destruct (Req_EM_T r 1) as [Hr1|Hr1].
  - exists (arr (seq 0 (v_N c0))). rewrite Hset. split; [reflexivity|]. split; [reflexivity|]. split; [intros i Hi; simpl in Hi; apply in_seq in Hi; lia|]. split; [left; reflexivity|]. intros; contradiction.
  - destruct (Rlt_dec r 0); [lra|]. destruct (Rlt_dec 1 r); [lra|]. exists (arr (d_p d)). rewrite Hset. split; [reflexivity|]. split; [reflexivity|]. split; [exact D2|]. split; [left; reflexivity|]. intros; contradiction.
Qed.
Lemma inds_of_pair c x G : v_states c = [("p"%string, x); ("GKP"%string, arr G)] -> inds_of c "p" = x_l x /\ inds_of c "GKP" = G.
Proof. unfold inds_of. intros ->. split; reflexivity. Qed.
Lemma populate_ok c0 c d : fresh_layer c0 -> live c0 c -> draws_ok (v_N c0) d ->
  exists c' x G, populate_states c d = (c', Ok tt) /\ live c0 c' /\ v_states c' = [("p"%string, x); ("GKP"%string, arr G)] /\ x_l x = trial_p c0 d /\
    (forall i, In i (x_l x) -> (i < v_N c0)%nat) /\ (x_arr x = true \/ v_states c0 = [("p"%string, x)]) /\ NoDup G /\
    (forall i, In i G <-> (i < v_N c0)%nat /\ ~ In i (trial_p c0 d) /\ ~ In i (inds_of c "GKP")) /\
    (forall i p, node_at c0 i p -> a_state (v_attr c' p) = Some (if memn i (x_l x) then "p"%string else "GKP"%string)).
Proof.
  intros HF HL HD. destruct (squeezed_ok c0 c d HF HL HD) as (x & Es & Ex & Hx & Ha & Hp). destruct HF as ((N1 & N2) & (x0 & E0 & Hx0) & Hsw). pose proof (lv_static _ _ HL) as HS.
  unfold populate_states. rewrite Es. set (s := ("p"%string, x) :: tl (v_states c)). pose proof HS as (S1 & S2 & _). rewrite S1.
  assert (Hused : forall i, In i (used_inds s) <-> In i (x_l x) \/ In i (inds_of c "GKP")).
  { intros i. unfold used_inds, s. cbn [flat_map]. rewrite in_app_iff. cbn [snd].
    assert (Ht : In i (flat_map (fun e : string * idxs => x_l (snd e)) (tl (v_states c))) <-> In i (inds_of c "GKP")); [|rewrite Ht; reflexivity].
    destruct (lv_states _ _ HL) as [E|(y & G & E & _)]; rewrite E; [rewrite E0; cbn [tl flat_map]; unfold inds_of; rewrite E, E0; reflexivity|].
    rewrite (proj2 (inds_of_pair c y G E)). cbn [tl flat_map snd x_l arr]. rewrite app_nil_r. reflexivity. }
  set (G := d_list d (remaining (v_N c0) s)). destruct HD as (D1 & D2 & _ & _ & D5). pose proof (D5 (remaining (v_N c0) s) (remaining_nodup _ _)) as HPG. fold G in HPG.
  assert (HG : forall i, In i G <-> (i < v_N c0)%nat /\ ~ In i (x_l x) /\ ~ In i (inds_of c "GKP")).
  { intros i. split.
    - intros Hi. apply (Permutation_in _ HPG) in Hi. apply remaining_in in Hi. rewrite Hused in Hi. tauto.
    - intros Hi. apply (Permutation_in _ (Permutation_sym HPG)). apply remaining_in. rewrite Hused. tauto. }
  assert (Hadd : add_gkp (v_N c0) d s = [("p"%string, x); ("GKP"%string, arr G)]).
  { unfold add_gkp. fold G. unfold s. destruct (lv_states _ _ HL) as [E|(y & G0 & E & _)]; rewrite E; [rewrite E0|]; reflexivity. }
  rewrite Hadd. set (c1 := set_states c _). unfold apply_state_labels. cbn [v_states c1 set_states]. cbn [for_each fst snd x_l arr].
  assert (Hna : forall i p, node_at c i p <-> node_at c0 i p) by (intros i p; apply static_pts; assumption).
  destruct (label_inds_ok "p" (x_l x) c1) as (c2 & E2 & S12 & St2 & L2); [intros i Hi; apply Hx in Hi; apply N1 in Hi; destruct Hi as (p & Hi); exists p; apply Hna in Hi; exact Hi|]. rewrite E2.
  assert (Hna2 : forall i p, node_at c2 i p <-> node_at c0 i p) by (intros i p; rewrite (static_pts c1 c2 i p S12); apply Hna).
  destruct (label_inds_ok "GKP" G c2) as (c3 & E3 & S23 & St3 & L3); [intros i Hi; apply HG in Hi; destruct Hi as (Hi & _); apply N1 in Hi; destruct Hi as (p & Hi); exists p; apply Hna2; exact Hi|]. rewrite E3.
  assert (Hlab : forall i p, node_at c0 i p -> a_state (v_attr c3 p) = Some (if memn i (x_l x) then "p"%string else "GKP"%string)).
  { intros i p Hn. destruct (L2 p) as [L2a L2b]. destruct (L3 p) as [L3a L3b].
    assert (HnG : ~ In i G -> a_state (v_attr c3 p) = a_state (v_attr c2 p)).
    { intros Hi. apply L3b. intros j Hj Hn'. apply Hna2 in Hn'. apply Hi. rewrite (N2 i j p Hn Hn'). assumption. }
    destruct (memn i (x_l x)) eqn:Em.
    - apply memn_In in Em. rewrite HnG by (rewrite HG; tauto). apply L2a. exists i. split; [assumption|]. apply Hna in Hn. exact Hn.
    - apply memn_false in Em. destruct (in_dec Nat.eq_dec i G) as [Hi|Hi]; [apply L3a; exists i; split; [assumption|apply Hna2; assumption]|].
      rewrite HnG by assumption. rewrite L2b; [|intros j Hj Hn'; apply Em; change (node_at c1 j p) with (node_at c j p) in Hn'; apply Hna in Hn'; rewrite (N2 i j p Hn Hn'); assumption].
      change (a_state (v_attr c1 p)) with (a_state (v_attr c p)). assert (Hi' : In i (inds_of c "GKP")).
      { destruct (in_dec Nat.eq_dec i (inds_of c "GKP")) as [H|H]; [assumption|]. exfalso. apply Hi. apply HG. split; [apply N1; exists p; assumption|]. tauto. }
      destruct (lv_states _ _ HL) as [E|(y & G0 & E & B & _ & L)]; [unfold inds_of in Hi'; rewrite E, E0 in Hi'; destruct Hi'|]. rewrite (proj2 (inds_of_pair c y G0 E)) in Hi'.
      rewrite (L i p) by (apply Hna; assumption). destruct (B i Hi') as [_ B2]. apply memn_false in B2. rewrite B2. reflexivity. }
  assert (HS3 : static c0 c3) by (eapply static_trans; [exact HS|]; eapply static_trans; [|exact S23]; eapply static_trans; [|exact S12]; repeat split).
  assert (HE3 : v_states c3 = [("p"%string, x); ("GKP"%string, arr G)]) by (rewrite St3, St2; reflexivity).
  exists c3, x, G. split; [reflexivity|]. split; [|split; [exact HE3|]].
  - split; [assumption|]. right. exists x, G. destruct HS3 as (F1 & _ & _ & _ & _ & F6 & _). rewrite F1, F6. split; [exact HE3|]. split; [intros i Hi; apply HG in Hi; tauto|]. split; [exact Hp|].
    intros i p Hn. apply Hlab. apply (static_pts c0 c3); [|assumption]. eapply static_trans; [exact HS|]; eapply static_trans; [|exact S23]; eapply static_trans; [|exact S12]; repeat split.
  - split; [exact Ex|]. split; [exact Hx|]. split; [exact Ha|]. split; [apply (Permutation_NoDup (Permutation_sym HPG)), remaining_nodup|]. split; [rewrite <- Ex; exact HG|exact Hlab].
Qed.

(* every call keeps the layer alive *)
Lemma run_call_live c0 c o : fresh_layer c0 -> live c0 c -> call_ok (v_N c0) o -> live c0 (run_call c o).
Proof.
  intros HF HL HO. destruct o as [d|d|d| |q inds m pr d z]; unfold run_call.
  - destruct (populate_ok c0 c d HF HL HO) as (c' & x & G & E & H & _). rewrite E. exact H.
  - destruct (populate_ok c0 c d HF HL HO) as (c' & x & G & E & H & _). unfold apply_noise. rewrite E. cbn [andthen]. apply (live_kept c0 c'); [exact H|apply after_populate_kept].
  - apply (live_kept c0 c); [exact HL|apply measure_syndrome_kept].
  - apply (live_kept c0 c); [exact HL|apply inner_decoder_kept].
  - apply (live_kept c0 c); [exact HL|apply measure_hom_kept].
Qed.
Lemma run_calls_live c0 os : forall c, fresh_layer c0 -> live c0 c -> Forall (call_ok (v_N c0)) os -> live c0 (run_calls c os).
Proof. induction os as [|o os IH]; intros c HF HL HO; [exact HL|]. inversion HO; subst. apply IH; [assumption| |assumption]. apply run_call_live; assumption. Qed.
