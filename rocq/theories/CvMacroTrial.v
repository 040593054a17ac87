(* CvMacroTrial.v: one trial of CVMacroLayer. *)
From Coq Require Import String.
From Verif Require Import Base Lattice GkpModel OpsModel EgraphModel EgraphSpec EgraphProofs PropsOps PropsGkp CvModel CvSpec CvProofs CvNoise CvMacroModel CvMacroLists CvMacroSpec CvMacroProofs.
Open Scope nat_scope.

(* ---------------- homodyne measurements in the two-step order ---------------- *)
Lemma first_pos_nth l : NoDup l -> forall j, j < List.length l -> first_pos (nth j l 0) l = j.
Proof.
  induction l as [|x l IH]; intros Hn j Hj; [simpl in Hj; lia|]. apply NoDup_cons_iff in Hn. destruct Hn as [Hx Hn]. destruct j as [|j]; [simpl; rewrite Nat.eqb_refl; reflexivity|].
  simpl in Hj |- *. destruct (Nat.eqb_spec x (nth j l 0)) as [->|_]; [exfalso; apply Hx, nth_In; lia|]. rewrite IH by (try assumption; lia). reflexivity.
Qed.
Lemma first_pos_in i l : In i l -> first_pos i l < List.length l /\ nth (first_pos i l) l 0 = i.
Proof.
  induction l as [|x l IH]; intros H; [destruct H|]. simpl. destruct (Nat.eqb_spec x i) as [->|Hn]; [split; [lia|reflexivity]|]. destruct H as [->|H]; [contradiction|]. destruct (IH H). split; [lia|assumption].
Qed.
Lemma covs_two_step c inds : v_order c = "two-step"%string -> NoDup inds -> exists v, covs_sampler c (arr inds) = Ok (List.length inds, v) /\ forall j, j < List.length inds -> v j = sigma c (nth j inds 0).
Proof.
  intros Eo Hn. unfold covs_sampler. rewrite Eo. cbn [String.eqb Ascii.eqb Bool.eqb]. unfold sigma. destruct (v_perf c) as [[|p pf]|].
  - eexists. split; [reflexivity|]. intros j _. reflexivity.
  - cbn [x_arr x_l arr negb andb]. eexists. split; [reflexivity|]. intros j Hj. unfold assign. cbn [x_l arr]. set (pp := p :: pf).
    destruct (memn j (map (fun i => first_pos i inds) (filter (fun i => memn i pp) inds))) eqn:E.
    + apply memn_In, in_map_iff in E. destruct E as (i & E & Hi). apply filter_In in Hi. destruct Hi as [Hi Hp]. destruct (first_pos_in i inds Hi) as [_ H]. rewrite E in H. rewrite H, Hp. reflexivity.
    + destruct (memn (nth j inds 0) pp) eqn:E2; [|reflexivity]. exfalso. apply memn_false in E. apply E. apply in_map_iff. exists (nth j inds 0). split; [apply first_pos_nth; assumption|]. apply filter_In. split; [apply nth_In; assumption|exact E2].
  - eexists. split; [reflexivity|]. intros j _. reflexivity.
Qed.
Lemma measure_two_step c qd inds m d z : v_order c = "two-step"%string -> numbered c -> NoDup inds -> (forall i, In i inds -> i < v_N c) ->
  exists c', measure_hom c qd (arr inds) (Some m) true d z = (c', Ok tt) /\ same_states c c' /\
    (forall j p, j < List.length inds -> node_at c (nth j inds 0) p -> get_hom qd (v_attr c' p) = Some (part qd (v_N c) m inds j + sigma c (nth j inds 0%nat) * z j)%R) /\
    (forall p, get_hom (other qd) (v_attr c' p) = get_hom (other qd) (v_attr c p) /\ a_body (v_attr c' p) = a_body (v_attr c p)).
Proof.
  intros Eo HN Hnd Hin. destruct (covs_two_step c inds Eo Hnd) as (v & Ev & Hv). unfold measure_hom. cbv zeta. cbn [x_l arr]. change (arr inds) with (arr inds) in Ev.
  rewrite existsb_false by (intros i Hi; apply Nat.leb_gt; auto). cbn [bind]. change {| x_arr := true; x_l := inds |} with (arr inds). rewrite Ev. cbn [bind fst snd]. unfold normal. rewrite Nat.eqb_refl. cbn [bind].
  rewrite Eo. cbn [String.eqb Ascii.eqb Bool.eqb fst snd].
  set (F := fun i => (part qd (v_N c) m inds (first_pos i inds) + sigma c i * z (first_pos i inds))%R).
  destruct (record_hom_ok qd inds (List.length inds) (fun i => (part qd (v_N c) m inds i + v i * z i)%R) F c HN Hin) as (c' & E & K & H1 & H2 & H3).
  { intros j Hj. split; [assumption|]. unfold F. rewrite first_pos_nth, Hv by assumption. reflexivity. }
  exists c'. split; [exact E|]. split; [exact K|]. split.
  - intros j p Hj Hp. rewrite (H1 (nth j inds 0) p) by (try assumption; apply nth_In; assumption). unfold F. rewrite first_pos_nth by assumption. reflexivity.
  - intros p. destruct (H3 p) as (A & B & _). auto.
Qed.

Lemma same_numbered c c' : static c c' -> numbered c -> numbered c'.
Proof.
  intros HS [N1 N2]. pose proof HS as (S1 & _). split.
  - intros i. rewrite S1, <- N1. split; intros (p & Hp); exists p; apply (static_pts c c' i p HS); exact Hp.
  - intros i j p A B. apply (static_pts c c' _ _ HS) in A, B. eauto.
Qed.
Lemma layout_cv w V mic nbi wt c' : layout w V mic nbi wt -> static (w_cv w) c' -> layout (set_cv w c') V mic nbi wt.
Proof.
  intros L HS. pose proof HS as (S1 & S2 & S3 & S4 & S5 & S6 & S7 & S8 & S9). split; cbn [w_cv set_cv w_U w_dict w_edges w_bs w_rnodes]; try apply L.
  - rewrite S1. apply L.
  - apply (same_numbered (w_cv w)); [assumption|apply L].
  - intros i Hi. apply (static_pts _ _ _ _ HS). apply L. assumption.
  - rewrite S3. apply L.
  - rewrite S7. apply L.
Qed.
Lemma layout_red w w' V mic nbi wt : layout w V mic nbi wt -> but_red w w' -> layout w' V mic nbi wt.
Proof.
  intros L (A1 & A2 & A3 & A4 & A5 & A6). destruct L. split; rewrite ?A1, ?A2, ?A3, ?A4, ?A5, ?A6; assumption.
Qed.

(* ---------------- entangling ---------------- *)
Section Trial.
  Variables (w : cvm) (V : list point) (mic : nat -> point) (nbi : nat -> option nat) (wt : nat -> R).
  Hypothesis L : layout w V mic nbi wt.
  Notation n := (List.length V).
  Notation N := (v_N (w_cv w)).
  Variable P : list nat.
  Notation perm := (perm_of P n).
  Notation qperm := (perm ++ map (fun i => N + i) perm).
  Lemma perm_lt i : In i perm -> i < N.
  Proof. intros H. apply perm_in in H. rewrite (ly_N _ _ _ _ _ L). assumption. Qed.
  Lemma qperm_low k a : k < n -> a < 4 -> nth (4 * k + a) qperm 0 = pi P k a.
  Proof. intros Hk Ha. rewrite app_nth1 by (rewrite perm_length; lia). apply perm_nth; assumption. Qed.
  Lemma qperm_high k a : k < n -> a < 4 -> nth (N + 4 * k + a) qperm 0 = N + pi P k a.
  Proof.
    intros Hk Ha. rewrite app_nth2 by (rewrite perm_length, (ly_N _ _ _ _ _ L); lia). rewrite perm_length, (ly_N _ _ _ _ _ L).
    replace (4 * n + 4 * k + a - 4 * n) with (4 * k + a) by lia. rewrite (nth_indep _ 0 (4 * n + 0)) by (rewrite map_length, perm_length; lia). rewrite (map_nth (fun i => 4 * n + i)). rewrite perm_nth by assumption. reflexivity.
  Qed.
  Lemma qperm_length : List.length qperm = 2 * N.
  Proof. rewrite app_length, map_length, perm_length, (ly_N _ _ _ _ _ L). lia. Qed.
  Lemma qperm_perm : Permutation qperm (seq 0 (List.length qperm)).
  Proof.
    rewrite qperm_length. replace (2 * N) with (N + N) by lia. rewrite seq_app. apply Permutation_app.
    - rewrite (ly_N _ _ _ _ _ L). apply perm_perm.
    - rewrite Nat.add_0_l. assert (E : seq N N = map (fun i => N + i) (seq 0 N)).
      { generalize N at 1 3. intros a. assert (G : forall m b, seq (a + b) m = map (fun i => a + i) (seq b m)); [|rewrite <- (G N 0), Nat.add_0_r; reflexivity]. induction m as [|m IH]; intros b; [reflexivity|]. simpl. f_equal. rewrite <- IH. f_equal. lia. }
      rewrite E. apply Permutation_map. rewrite (ly_N _ _ _ _ _ L). apply perm_perm.
  Qed.
  Lemma kick_sum q i : i < N -> Rsum (fun j => v_adj (w_cv w) i j * q j)%R N = kick nbi wt q i.
  Proof.
    intros Hi. rewrite (ly_N _ _ _ _ _ L) in *. unfold kick. destruct (nbi i) as [y|] eqn:E.
    - pose proof (ly_nbi _ _ _ _ _ L i y Hi E) as Hy. rewrite (Rsum_delta _ _ y Hy).
      + rewrite (ly_adj _ _ _ _ _ L i y Hi Hy), E, Nat.eqb_refl. reflexivity.
      + intros k Hk Hne. rewrite (ly_adj _ _ _ _ _ L i k Hi Hk), E. destruct (Nat.eqb_spec y k); [congruence|]. lra.
    - apply Rsum_zero. intros k Hk. rewrite (ly_adj _ _ _ _ _ L i k Hi Hk), E. lra.
  Qed.
  Lemma entangle_ok x G d : v_states (w_cv w) = [("p"%string, x); ("GKP"%string, arr G)] ->
    (forall i, In i (x_l x) -> i < N) -> (forall i, In i G -> i < N /\ ~ In i (x_l x)) -> (forall k, d_bit d k = 0%Z \/ d_bit d k = 1%Z) ->
    exists q quads, entangle_states w perm d = Ok (quads, qperm) /\ positions_ok N (x_l x) d q /\
      forall k a, k < n -> a < 4 -> quads (4 * k + a) = Rsum (fun b => bs_network a b * q (pi P k b))%R 4 /\
        quads (N + 4 * k + a) = Rsum (fun b => bs_network (4 + a)%nat (4 + b)%nat * kick nbi wt q (pi P k b))%R 4.
  Proof.
    intros Es Hx HG Hb. destruct (means_ok (w_cv w) x G d (ly_order _ _ _ _ _ L) Es Hx HG Hb) as (q & Em & Hq & H0).
    unfold entangle_states. cbv zeta. rewrite Em. cbn [bind]. rewrite (ly_bs _ _ _ _ _ L). eexists q, _. split; [reflexivity|]. split; [exact Hq|].
    intros k a Hk Ha. unfold macro_starts. assert (E4 : N / 4 = n) by (rewrite (ly_N _ _ _ _ _ L), Nat.mul_comm; apply Nat.div_mul; lia). rewrite E4.
    destruct (bs_block_fold N bs_network (seq 0 n) (fun k0 => SCZ_apply_vec N (v_adj (w_cv w)) q true (nth k0 qperm 0)) (seq_NoDup _ _)) as [HF _].
    { intros k' Hk'. apply in_seq in Hk'. rewrite (ly_N _ _ _ _ _ L). lia. }
    destruct (HF k a ltac:(apply in_seq; lia) Ha) as [H1 H2]. split.
    - rewrite H1. apply Rsum_ext. intros b Hb'. f_equal. rewrite qperm_low by assumption. unfold SCZ_apply_vec, mvec. apply scz_low. pose proof (pi_range P k b Hb'). rewrite (ly_N _ _ _ _ _ L). lia.
    - rewrite H2. apply Rsum_ext. intros b Hb'. f_equal. rewrite qperm_high by assumption. assert (pi P k b < N) by (pose proof (pi_range P k b Hb'); rewrite (ly_N _ _ _ _ _ L); lia).
      rewrite scz_p by assumption. rewrite kick_sum by assumption. rewrite H0. lra.
  Qed.
  Lemma Rsum4 f : Rsum f 4 = (f 0%nat + f 1%nat + f 2%nat + f 3%nat)%R.
  Proof. rewrite !Rsum_S, Rsum_0. lra. Qed.
  Lemma measure_ok d q quads :
    (forall k a, k < n -> a < 4 -> quads (4 * k + a) = Rsum (fun b => bs_network a b * q (pi P k b))%R 4 /\
        quads (N + 4 * k + a) = Rsum (fun b => bs_network (4 + a)%nat (4 + b)%nat * kick nbi wt q (pi P k b))%R 4) ->
    exists c', measure_macro (w_cv w) perm quads qperm d = (c', Ok tt) /\ same_states (w_cv w) c' /\
      (forall p, a_body (v_attr c' p) = a_body (v_attr (w_cv w) p)) /\
      (forall k, k < n -> a_homp (v_attr c' (mic (pi P k 0))) = Some (hp_of (w_cv w) P nbi wt q d k)) /\
      (forall k a, k < n -> 1 <= a < 4 -> a_homq (v_attr c' (mic (pi P k a))) = Some (hq_of (w_cv w) P q d k a)).
  Proof.
    intros Hq. unfold measure_macro. cbv zeta. set (inverse := invert_permutation _ _). set (un := fun k => quads (nth k inverse 0)).
    destruct (C38_invert_permutation (repeat 0 (List.length qperm)) qperm qperm_perm (repeat_length _ _)) as (_ & HI & _). fold inverse in HI.
    assert (Hun : forall k a, k < n -> a < 4 -> un (pi P k a) = quads (4 * k + a) /\ un (N + pi P k a) = quads (N + 4 * k + a)).
    { intros k a Hk Ha. unfold un. pose proof (ly_N _ _ _ _ _ L) as EN. split.
      - rewrite <- (qperm_low k a Hk Ha). rewrite (proj1 (HI (4 * k + a) ltac:(rewrite qperm_length; lia))). reflexivity.
      - rewrite <- (qperm_high k a Hk Ha). rewrite (proj1 (HI (N + 4 * k + a) ltac:(rewrite qperm_length; lia))). reflexivity. }
    destruct (measure_two_step (w_cv w) Qp (stars perm) un d (d_z d) (ly_order _ _ _ _ _ L) (ly_num _ _ _ _ _ L) (stars_nodup P n)) as (c1 & E1 & K1 & H1 & O1).
    { intros i Hi. apply in_stars in Hi. destruct Hi as (k & Hk & ->). pose proof (pi_range P k 0 ltac:(lia)). rewrite (ly_N _ _ _ _ _ L). lia. }
    pose proof (proj1 K1) as S1. pose proof S1 as (S11 & _ & _ & S14 & S15 & _ & S17 & _).
    destruct (measure_two_step c1 Qq (planets perm) un d (d_z2 d)) as (c2 & E2 & K2 & H2 & O2).
    { rewrite S17. apply L. } { apply (same_numbered (w_cv w)); [assumption|apply L]. } { apply planets_nodup. }
    { intros i Hi. apply in_planets in Hi. destruct Hi as (k & a & Hk & Ha & ->). pose proof (pi_range P k a ltac:(lia)). rewrite S11, (ly_N _ _ _ _ _ L). lia. }
    exists c2. split; [exact (eq_trans (f_equal (fun x => andthen x (fun c _ => measure_hom c Qq (arr (planets perm)) (Some un) true d (d_z2 d))) E1) E2)|]. split; [eapply same_states_trans; eassumption|]. split; [|split].
    - intros p. rewrite (proj2 (O2 p)), (proj2 (O1 p)). reflexivity.
    - intros k Hk. change (a_homp (v_attr c2 (mic (pi P k 0)))) with (get_hom (other Qq) (v_attr c2 (mic (pi P k 0)))). rewrite (proj1 (O2 _)). change (get_hom (other Qq)) with (get_hom Qp).
      pose proof (pi_range P k 0 ltac:(lia)) as Hr. rewrite (H1 k (mic (pi P k 0))); [|rewrite stars_length; assumption|rewrite nth_star by assumption; apply L; lia].
      f_equal. unfold part. rewrite nth_star by assumption. rewrite (proj2 (Hun k 0 Hk ltac:(lia))), (proj2 (Hq k 0 Hk ltac:(lia))). rewrite Rsum4.
      unfold hp_of, nu. rewrite Nat.eqb_refl. rewrite !network_entries by lia. rewrite Rplus_comm, (Rplus_comm _ (sigma _ _ * _)%R). f_equal.
      tables. lra.
    - intros k a Hk Ha. change (a_homq (v_attr c2 (mic (pi P k a)))) with (get_hom Qq (v_attr c2 (mic (pi P k a)))). pose proof (pi_range P k a ltac:(lia)) as Hr.
      rewrite (H2 (3 * k + (a - 1)) (mic (pi P k a))); [|rewrite planets_length; lia|rewrite nth_planet by (try assumption; lia); apply (static_pts (w_cv w) c1 _ _ S1); apply L; lia].
      f_equal. unfold part. rewrite nth_planet by (try assumption; lia). rewrite (proj1 (Hun k a Hk ltac:(lia))), (proj1 (Hq k a Hk ltac:(lia))). rewrite Rsum4.
      assert (Hs : sigma c1 (pi P k a) = sigma (w_cv w) (pi P k a)) by (unfold sigma; rewrite S14, S15; reflexivity). rewrite Hs.
      unfold hq_of, nu. destruct (Nat.eqb_spec a 0); [lia|]. rewrite Rplus_comm, (Rplus_comm _ (sigma _ _ * _)%R). f_equal. rewrite !network_entries by lia.
      destruct a as [|[|[|[|a]]]]; try lia; tables; lra.
  Qed.
End Trial.
