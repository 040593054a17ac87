(* CvMacroProofs.v: lemmas about CvMacroModel.v. *)
From Coq Require Import String.
From Verif Require Import Base Lattice GkpModel OpsModel EgraphModel EgraphSpec EgraphProofs PropsOps PropsGkp CvModel CvSpec CvProofs CvNoise CvMacroModel CvMacroLists CvMacroSpec.
Open Scope nat_scope.

(* everything but the reduced attributes *)
Definition but_red (w w' : cvm) : Prop :=
  w_cv w' = w_cv w /\ w_U w' = w_U w /\ w_dict w' = w_dict w /\ w_edges w' = w_edges w /\ w_bs w' = w_bs w /\ w_rnodes w' = w_rnodes w.
Lemma but_red_refl w : but_red w w.
Proof. repeat split. Qed.
Lemma but_red_upd w w' p f : but_red w w' -> but_red w (upd_red w' p f).
Proof. intros (A1 & A2 & A3 & A4 & A5 & A6). repeat split; assumption. Qed.
(* a loop that updates distinct reduced nodes *)
Lemma red_loop {A} (f : cvm -> A -> cvm * res unit) (key : A -> point) (val : A -> rattrs -> rattrs) w0 l :
  (forall w x, In x l -> but_red w0 w -> f w x = (upd_red w (key x) (val x), Ok tt)) -> NoDup (map key l) ->
  forall w, but_red w0 w -> exists w', for_each f w l = (w', Ok tt) /\ but_red w0 w' /\ (forall x, In x l -> w_red w' (key x) = val x (w_red w (key x))) /\
    (forall p, ~ In p (map key l) -> w_red w' p = w_red w p).
Proof.
  induction l as [|x l IH]; intros Hf Hn w Hw.
  - exists w. split; [reflexivity|]. split; [assumption|]. split; [intros x []|reflexivity].
  - cbn [map] in Hn. apply NoDup_cons_iff in Hn. destruct Hn as [Hx Hn]. cbn [for_each]. rewrite (Hf w x (or_introl eq_refl) Hw).
    destruct (IH (fun w' y Hy => Hf w' y (or_intror Hy)) Hn (upd_red w (key x) (val x)) (but_red_upd _ _ _ _ Hw)) as (w' & E & B & V & O).
    exists w'. split; [exact E|]. split; [exact B|]. split.
    + intros y [<-|Hy].
      * rewrite O by assumption. simpl. rewrite peqb_refl. reflexivity.
      * rewrite V by assumption. simpl. rewrite (proj2 (peqb_false (key y) (key x))); [reflexivity|]. intros E'. apply Hx. rewrite <- E'. apply in_map. assumption.
    + intros p Hp. rewrite O by (intros H; apply Hp; right; assumption). simpl. rewrite (proj2 (peqb_false p (key x))); [reflexivity|]. intros ->. apply Hp. left. reflexivity.
Qed.

(* labels of the bodies *)
Lemma label_bodies_ok perm c : numbered c -> NoDup perm -> (forall i, In i perm -> i < v_N c) ->
  exists c', label_bodies perm c = (c', Ok tt) /\ same_states c c' /\
    (forall j p, j < List.length perm -> node_at c (nth j perm 0) p -> a_body (v_attr c' p) = Some (j mod 4 + 1)) /\
    (forall p, a_homp (v_attr c' p) = a_homp (v_attr c p) /\ a_homq (v_attr c' p) = a_homq (v_attr c p)).
Proof.
  intros (N1 & N2) Hnd Hin. unfold label_bodies.
  assert (G : forall l pre c0, perm = pre ++ l -> v_pts c0 = v_pts c ->
    exists c', for_each (fun c e => match to_pt c (snd e) with Err e => (c, Err e) | Ok p => (upd_attr c p (with_body (fst e mod 4 + 1)), Ok tt) end) c0 (combine (seq (List.length pre) (List.length l)) l) = (c', Ok tt) /\
      v_pts c' = v_pts c /\ same_states c0 c' /\
      (forall j p, j < List.length l -> node_at c (nth j l 0) p -> a_body (v_attr c' p) = Some ((List.length pre + j) mod 4 + 1)) /\
      (forall p, (forall i, In i l -> ~ node_at c i p) -> a_body (v_attr c' p) = a_body (v_attr c0 p)) /\
      (forall p, a_homp (v_attr c' p) = a_homp (v_attr c0 p) /\ a_homq (v_attr c' p) = a_homq (v_attr c0 p))).
  { induction l as [|i l IH]; intros pre c0 E Ep.
    - exists c0. split; [reflexivity|]. split; [assumption|]. split; [apply same_states_refl|]. split; [intros j p Hj; simpl in Hj; lia|]. split; [reflexivity|]. auto.
    - assert (Hi : In i perm) by (rewrite E; apply in_or_app; right; left; reflexivity). destruct (proj2 (N1 i) (Hin i Hi)) as (p0 & Hp0).
      cbn [List.length seq combine for_each fst snd]. unfold to_pt at 1. rewrite Ep. unfold node_at in Hp0. rewrite Hp0.
      set (b := List.length pre mod 4 + 1). destruct (IH (pre ++ [i]) (upd_attr c0 p0 (with_body b))) as (c' & E1 & E2 & E3 & E4 & E5 & E6); [rewrite <- app_assoc; exact E|exact Ep|].
      rewrite app_length, Nat.add_1_r in E1. exists c'. split; [exact E1|]. split; [exact E2|]. split; [apply (same_states_trans _ _ _ (upd_state_kept c0 p0 (with_body b) (fun _ => eq_refl)) E3)|]. split; [|split].
      + intros [|j] p Hj Hn.
        * cbn [nth] in Hn. unfold node_at in Hn. assert (p0 = p) by congruence. subst p0. rewrite E5, upd_same; [rewrite Nat.add_0_r; reflexivity|].
          intros j Hj' Hn'. rewrite E in Hnd. apply NoDup_remove_2 in Hnd. apply Hnd. apply in_or_app. right. rewrite (N2 i j p Hp0 Hn'). assumption.
        * cbn [nth] in Hn. simpl in Hj. rewrite (E4 j p) by (try assumption; lia). rewrite app_length. replace (List.length pre + S j) with (List.length pre + 1 + j) by lia. reflexivity.
      + intros p Hn. rewrite E5 by (intros j Hj; apply Hn; right; assumption). rewrite upd_other; [reflexivity|]. intros ->. apply (Hn i (or_introl eq_refl)). exact Hp0.
      + intros p. destruct (E6 p) as (A1 & A2). rewrite A1, A2. simpl. destruct (peqb p p0); auto. }
  destruct (G perm [] c eq_refl eq_refl) as (c' & E1 & _ & E3 & E4 & _ & E6). exists c'. auto.
Qed.

(* positions *)
Lemma assign_seq_out l : forall x vals i, ~ In i l -> assign_seq x l vals i = x i.
Proof.
  unfold assign_seq. assert (G : forall l s x (vals : nat -> R) i, ~ In i l -> fold_left (fun x kv => fun i => if Nat.eqb i (snd kv) then vals (fst kv) else x i) (combine (seq s (List.length l)) l) x i = x i).
  { clear. induction l as [|y l IH]; intros s x vals i Hi; [reflexivity|]. cbn [List.length seq combine fold_left]. rewrite IH by (intros H; apply Hi; right; assumption). cbn [fst snd].
    destruct (Nat.eqb_spec i y) as [->|_]; [|reflexivity]. exfalso. apply Hi. left. reflexivity. }
  intros x vals i. apply G.
Qed.
Lemma assign_seq_in l : forall x vals i, In i l -> exists k, k < List.length l /\ nth k l 0 = i /\ assign_seq x l vals i = vals k.
Proof.
  unfold assign_seq. assert (G : forall l s x (vals : nat -> R) i, In i l -> exists k, k < List.length l /\ nth k l 0 = i /\ fold_left (fun x kv => fun i => if Nat.eqb i (snd kv) then vals (fst kv) else x i) (combine (seq s (List.length l)) l) x i = vals (s + k)).
  { clear. induction l as [|y l IH]; intros s x vals i Hi; [destruct Hi|]. cbn [List.length seq combine fold_left]. destruct (in_dec Nat.eq_dec i l) as [Hl|Hl].
    - destruct (IH (S s) (fun i0 => if Nat.eqb i0 (snd (s, y)) then vals (fst (s, y)) else x i0) vals i Hl) as (k & A & B & C). exists (S k). split; [lia|]. split; [exact B|]. rewrite C. f_equal. lia.
    - destruct Hi as [->|Hi]; [|contradiction]. exists 0. split; [lia|]. split; [reflexivity|]. rewrite Nat.add_0_r.
      assert (HO' : forall l s x, ~ In i l -> fold_left (fun x kv => fun i => if Nat.eqb i (snd kv) then vals (fst kv) else x i) (combine (seq s (List.length l)) l) x i = x i).
      { clear. induction l as [|y l IH]; intros s x Hi; [reflexivity|]. cbn [List.length seq combine fold_left]. rewrite IH by (intros H; apply Hi; right; assumption). cbn [fst snd].
        destruct (Nat.eqb_spec i y) as [->|_]; [|reflexivity]. exfalso. apply Hi. left. reflexivity. }
      rewrite HO' by assumption. cbn [fst snd]. rewrite Nat.eqb_refl. reflexivity. }
  intros x vals i Hi. destruct (G l 0 x vals i Hi) as (k & A & B & C). exists k. auto.
Qed.
Lemma means_ok c x G d : v_order c = "two-step"%string -> v_states c = [("p"%string, x); ("GKP"%string, arr G)] ->
  (forall i, In i (x_l x) -> i < v_N c) -> (forall i, In i G -> i < v_N c /\ ~ In i (x_l x)) -> (forall k, d_bit d k = 0%Z \/ d_bit d k = 1%Z) ->
  exists m, means_sampler c true d = Ok (SCZ_apply_vec (v_N c) (v_adj c) m true) /\ positions_ok (v_N c) (x_l x) d m /\ forall i, m (v_N c + i) = 0%R.
Proof.
  intros Eo Es Hx HG Hb. unfold means_sampler. rewrite Eo. cbn [String.eqb Ascii.eqb Bool.eqb]. rewrite Es. cbn [foldR fst snd].
  set (m1 := if Nat.eqb (List.length (x_l x)) 0 then (fun _ : nat => 0%R) else assign_seq (fun _ => 0%R) (x_l x) (fun k => d_unif d k * (2 * sqrt PI))%R).
  match goal with |- context [if Nat.eqb (List.length (x_l x)) 0 then ?A else ?B] => replace (if Nat.eqb (List.length (x_l x)) 0 then A else B) with (Ok m1 : res vec) by (unfold m1; destruct (Nat.eqb _ 0); reflexivity) end.
  cbn [bind x_l arr]. assert (Hm1 : forall i, ~ In i (x_l x) -> m1 i = 0%R). { intros i Hi. unfold m1. destruct (Nat.eqb (List.length (x_l x)) 0); [reflexivity|]. apply assign_seq_out. assumption. }
  set (m2 := if Nat.eqb (List.length G) 0 then m1 else assign_seq m1 G (fun k => IZR (d_bit d k) * sqrt PI)%R).
  match goal with |- context [if Nat.eqb (List.length G) 0 then ?A else ?B] => replace (if Nat.eqb (List.length G) 0 then A else B) with (Ok m2 : res vec) by (unfold m2; destruct (Nat.eqb (List.length G) 0); reflexivity) end.
  cbn [bind]. exists m2. split; [reflexivity|]. split; [split|].
  - intros i Hi Hn. destruct (in_dec Nat.eq_dec i G) as [Hg|Hg].
    + unfold m2. destruct (Nat.eqb_spec (List.length G) 0) as [E|E]; [destruct G; [destruct Hg|discriminate]|]. destruct (assign_seq_in G m1 (fun k => IZR (d_bit d k) * sqrt PI)%R i Hg) as (k & _ & _ & ->). exists (d_bit d k). eauto.
    + exists 0%Z. split; [auto|]. replace (m2 i) with (m1 i); [rewrite Hm1 by assumption; lra|]. unfold m2. destruct (Nat.eqb (List.length G) 0); [reflexivity|]. symmetry. apply assign_seq_out. assumption.
  - intros i Hi. assert (Hg : ~ In i G) by (intros H; apply HG in H; tauto). replace (m2 i) with (m1 i) by (unfold m2; destruct (Nat.eqb (List.length G) 0); [reflexivity|]; symmetry; apply assign_seq_out; assumption).
    unfold m1. destruct (Nat.eqb_spec (List.length (x_l x)) 0) as [E|E]; [destruct (x_l x); [destruct Hi|discriminate]|]. destruct (assign_seq_in (x_l x) (fun _ => 0%R) (fun k => d_unif d k * (2 * sqrt PI))%R i Hi) as (k & H1 & H2 & ->). exists k. split; [|reflexivity]. rewrite <- H2. apply nth_error_nth'. assumption.
  - intros i. assert (~ In (v_N c + i) G) by (intros H; apply HG in H; lia). assert (~ In (v_N c + i) (x_l x)) by (intros H'; apply Hx in H'; lia).
    replace (m2 (v_N c + i)) with (m1 (v_N c + i)); [apply Hm1; assumption|]. unfold m2. destruct (Nat.eqb (List.length G) 0); [reflexivity|]. symmetry. apply assign_seq_out. assumption.
Qed.

(* the beam splitters *)
Lemma bs_block_fold N T ks : forall v, NoDup ks -> (forall k, In k ks -> 4 * k + 4 <= N) ->
  let v' := fold_left (bs_block N T) (map (fun k => 4 * k) ks) v in
  (forall k a, In k ks -> a < 4 -> v' (4 * k + a) = Rsum (fun b => T a b * v (4 * k + b)%nat)%R 4 /\ v' (N + 4 * k + a) = Rsum (fun b => T (4 + a)%nat (4 + b)%nat * v (N + 4 * k + b)%nat)%R 4) /\
  (forall i, (forall k a, In k ks -> a < 4 -> i <> 4 * k + a /\ i <> N + 4 * k + a) -> v' i = v i).
Proof.
  induction ks as [|k ks IH]; intros v Hn Hl; [split; [intros k a []|reflexivity]|]. apply NoDup_cons_iff in Hn. destruct Hn as [Hk Hn]. cbn [map fold_left].
  specialize (IH (bs_block N T v (4 * k)) Hn (fun k' H => Hl k' (or_intror H))). cbv zeta in IH. destruct IH as [IH1 IH2]. pose proof (Hl k (or_introl eq_refl)) as Hk4.
  assert (Hb : forall i, (forall a, a < 4 -> i <> 4 * k + a /\ i <> N + 4 * k + a) -> bs_block N T v (4 * k) i = v i).
  { intros i Hi. unfold bs_block. destruct (Nat.leb (4 * k) i && Nat.ltb i (4 * k + 4))%bool eqn:E1.
    - apply andb_true_iff in E1. destruct E1 as [E1 E2]. apply Nat.leb_le in E1. apply Nat.ltb_lt in E2. destruct (Hi (i - 4 * k) ltac:(lia)). lia.
    - destruct (Nat.leb (N + 4 * k) i && Nat.ltb i (N + 4 * k + 4))%bool eqn:E2; [|reflexivity]. apply andb_true_iff in E2. destruct E2 as [E2 E3]. apply Nat.leb_le in E2. apply Nat.ltb_lt in E3. destruct (Hi (i - (N + 4 * k)) ltac:(lia)). lia. }
  split.
  - intros k' a [<-|Hk'] Ha.
    + rewrite !IH2.
      * unfold bs_block. rewrite (proj2 (Nat.leb_le (4 * k) (4 * k + a))) by lia. rewrite (proj2 (Nat.ltb_lt (4 * k + a) (4 * k + 4))) by lia. cbn [andb].
        rewrite (proj2 (Nat.ltb_ge (N + 4 * k + a) (4 * k + 4))) by lia. rewrite andb_false_r.
        rewrite (proj2 (Nat.leb_le (N + 4 * k) (N + 4 * k + a))) by lia. rewrite (proj2 (Nat.ltb_lt (N + 4 * k + a) (N + 4 * k + 4))) by lia. cbn [andb].
        split; apply Rsum_ext; intros b Hb'; f_equal; f_equal; lia.
      * intros k1 a1 Hk1 Ha1. pose proof (Hl k1 (or_intror Hk1)). assert (k1 <> k) by (intros ->; contradiction). lia.
      * intros k1 a1 Hk1 Ha1. pose proof (Hl k1 (or_intror Hk1)). assert (k1 <> k) by (intros ->; contradiction). lia.
    + destruct (IH1 k' a Hk' Ha) as [A B]. rewrite A, B. pose proof (Hl k' (or_intror Hk')). assert (k' <> k) by (intros ->; contradiction).
      split; apply Rsum_ext; intros b Hb'; f_equal; apply Hb; intros a1 Ha1; lia.
  - intros i Hi. rewrite IH2 by (intros k1 a1 Hk1 Ha1; apply Hi; [right; assumption|assumption]). apply Hb. intros a Ha. apply (Hi k a); [left; reflexivity|assumption].
Qed.
