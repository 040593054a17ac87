(* CvNoise.v: the homodyne values of CVLayer. *)
From Coq Require Import String.
From Verif Require Import Base Lattice GkpModel OpsModel EgraphModel EgraphSpec EgraphProofs PropsOps CvModel CvSpec CvProofs.
Open Scope Z_scope.

Definition get_hom (q : quad) (a : attrs) : option R := match q with Qq => a_homq a | Qp => a_homp a end.
Definition other (q : quad) : quad := match q with Qq => Qp | Qp => Qq end.
(* recording outcomes *)
Lemma record_hom_ok q inds k (out : vec) (F : nat -> R) c : numbered c -> (forall i, In i inds -> (i < v_N c)%nat) ->
  (forall j, (j < List.length inds)%nat -> (j < k)%nat /\ out j = F (nth j inds O)) ->
  exists c', record_hom q inds k out c = (c', Ok tt) /\ same_states c c' /\
    (forall i p, In i inds -> node_at c i p -> get_hom q (v_attr c' p) = Some (F i)) /\
    (forall p, (forall i, In i inds -> ~ node_at c i p) -> v_attr c' p = v_attr c p) /\
    (forall p, get_hom (other q) (v_attr c' p) = get_hom (other q) (v_attr c p) /\ a_body (v_attr c' p) = a_body (v_attr c p) /\ a_bit (v_attr c' p) = a_bit (v_attr c p)).
Proof.
  intros (N1 & N2) Hin Hout. unfold record_hom.
  assert (G : forall l pre c0, inds = pre ++ l -> v_pts c0 = v_pts c ->
    exists c', for_each (fun c e => match to_pt c (snd e) with Err e => (c, Err e) | Ok p => if Nat.leb k (fst e) then (c, Err IndexError) else (upd_attr c p (with_hom q (out (fst e))), Ok tt) end)
        c0 (combine (seq (List.length pre) (List.length l)) l) = (c', Ok tt) /\ v_pts c' = v_pts c /\
      (forall i p, In i l -> node_at c i p -> get_hom q (v_attr c' p) = Some (F i)) /\
      (forall p, (forall i, In i l -> ~ node_at c i p) -> v_attr c' p = v_attr c0 p) /\
      (forall p, get_hom (other q) (v_attr c' p) = get_hom (other q) (v_attr c0 p) /\ a_body (v_attr c' p) = a_body (v_attr c0 p) /\ a_bit (v_attr c' p) = a_bit (v_attr c0 p))).
  { induction l as [|i l IH]; intros pre c0 E Ep.
    - exists c0. split; [reflexivity|]. split; [assumption|]. split; [intros i p []|]. split; [reflexivity|]. intros p. auto.
    - assert (Hi : In i inds) by (rewrite E; apply in_or_app; right; left; reflexivity). destruct (proj2 (N1 i) (Hin i Hi)) as (p0 & Hp0).
      cbn [List.length seq combine for_each fst snd]. unfold to_pt at 1. rewrite Ep. unfold node_at in Hp0. rewrite Hp0.
      destruct (Hout (List.length pre)) as [Hk Ho]; [rewrite E, app_length; simpl; lia|]. rewrite (proj2 (Nat.leb_gt k (List.length pre)) Hk).
      rewrite E, app_nth2, Nat.sub_diag in Ho by lia. cbn [nth] in Ho. rewrite Ho.
      destruct (IH (pre ++ [i]) (upd_attr c0 p0 (with_hom q (F i)))) as (c' & E1 & E2 & E3 & E4 & E5); [rewrite <- app_assoc; exact E|exact Ep|].
      rewrite app_length, Nat.add_1_r in E1. exists c'. split; [exact E1|]. split; [exact E2|]. split; [|split].
      + intros j p [<-|Hj] Hn; [|apply E3; assumption]. unfold node_at in Hn. assert (p0 = p) by congruence. subst p0.
        destruct (in_dec Nat.eq_dec i l) as [Hl|Hl]; [apply (E3 i p); assumption|]. rewrite E4, upd_same; [destruct q; reflexivity|].
        intros j Hj Hnj. apply Hl. rewrite (N2 i j p Hp0 Hnj). assumption.
      + intros p Hn. rewrite E4 by (intros j Hj; apply Hn; right; assumption). apply upd_other. intros ->. apply (Hn i (or_introl eq_refl)). exact Hp0.
      + intros p. destruct (E5 p) as (A1 & A2 & A3). rewrite A1, A2, A3. simpl. destruct (peqb p p0); [destruct q; auto|auto]. }
  destruct (G inds [] c eq_refl eq_refl) as (c' & E1 & _ & E3 & E4 & E5). exists c'. split; [exact E1|]. split; [|auto].
  pose proof (record_hom_kept q inds k out c) as HK. unfold record_hom in HK. simpl List.length in E1. rewrite E1 in HK. exact HK.
Qed.

(* the inner decoder *)
Lemma inner_decoder_ok c inds coords (F : point -> R) : v_code c = Some (inds, coords) -> (forall p, In p coords -> a_homp (v_attr c p) = Some (F p)) ->
  exists c', inner_decoder c = (c', Ok tt) /\ same_states c c' /\ (forall p, a_homp (v_attr c' p) = a_homp (v_attr c p)) /\
    (forall p, In p coords -> a_bit (v_attr c' p) = Some (v_trans c (F p))).
Proof.
  intros Ec Hh. pose proof (inner_decoder_kept c) as HK. unfold inner_decoder in *. rewrite Ec in *.
  assert (G : forall l c0, v_trans c0 = v_trans c -> (forall p, In p l -> a_homp (v_attr c0 p) = Some (F p)) ->
    exists c', for_each (fun c p => match a_homp (v_attr c p) with None => (c, Err KeyError) | Some x => (upd_attr c p (with_bit (v_trans c x)), Ok tt) end) c0 l = (c', Ok tt) /\
      (forall p, a_homp (v_attr c' p) = a_homp (v_attr c0 p)) /\ (forall p, In p l -> a_bit (v_attr c' p) = Some (v_trans c (F p))) /\ (forall p, ~ In p l -> a_bit (v_attr c' p) = a_bit (v_attr c0 p))).
  { induction l as [|p l IH]; intros c0 Et Hl.
    - exists c0. repeat split; auto. intros p [].
    - cbn [for_each]. rewrite (Hl p (or_introl eq_refl)). destruct (IH (upd_attr c0 p (with_bit (v_trans c0 (F p))))) as (c' & E1 & E2 & E3 & E4).
      + exact Et.
      + intros p' Hp'. simpl. destruct (peqb p' p); simpl; apply Hl; right; assumption.
      + exists c'. split; [exact E1|]. split; [intros p'; rewrite E2; simpl; destruct (peqb p' p); reflexivity|]. split.
        * intros p' [<-|Hp']; [|auto]. destruct (in_dec point_eq_dec p l) as [Hi|Hi]; [auto|]. rewrite E4, upd_same by assumption. simpl. rewrite Et. reflexivity.
        * intros p' Hn. rewrite E4 by (intros H; apply Hn; right; assumption). rewrite upd_other by (intros ->; apply Hn; left; reflexivity). reflexivity. }
  destruct (G coords c eq_refl Hh) as (c' & E1 & E2 & E3 & _). exists c'. rewrite E1 in HK. auto.
Qed.

(* the standard deviations *)
Lemma existsb_false {A} (f : A -> bool) l : (forall x, In x l -> f x = false) -> existsb f l = false.
Proof. intros H. destruct (existsb f l) eqn:E; [|reflexivity]. apply existsb_exists in E. destruct E as (x & Hx & Ex). rewrite (H x Hx) in Ex. discriminate. Qed.
Definition kept (c : cv) (x : idxs) : list nat := match v_perf c with Some ((_ :: _) as pf) => filter (fun i => negb (memn i pf)) (x_l x) | _ => x_l x end.
Lemma kept_in c x i : In i (kept c x) <-> In i (x_l x) /\ ~ is_perfect c i.
Proof.
  unfold kept, is_perfect. destruct (v_perf c) as [[|p pf]|]; [simpl; tauto| |simpl; tauto]. rewrite filter_In, negb_true_iff, memn_false. reflexivity.
Qed.
Lemma cov_step_ok c covs s x nq np : (x_arr x = true \/ (forall i, In i (x_l x) -> is_perfect c i) \/ exists p pf, v_perf c = Some (p :: pf)) -> (forall i, In i (x_l x) -> (i < v_N c)%nat) -> noise (v_delta c) s = Some (nq, np) ->
  exists covs', cov_step c covs (s, x) = Ok covs' /\
    forall i, (i < v_N c)%nat -> covs' i = (if memn i (kept c x) then nq else covs i) /\ covs' (v_N c + i)%nat = (if memn i (kept c x) then np else covs (v_N c + i)%nat).
Proof.
  intros Ha Hr Hn. unfold cov_step. cbv zeta. cbn [fst snd].
  set (indices := match v_perf c with Some ((_ :: _) as pf) => arr (filter (fun i => negb (memn i pf)) (x_l x)) | _ => x end).
  assert (El : x_l indices = kept c x) by (unfold indices, kept; destruct (v_perf c) as [[|]|]; reflexivity). rewrite El.
  destruct (Nat.eqb_spec (List.length (kept c x)) 0) as [E|E].
  - exists covs. split; [reflexivity|]. intros i Hi. destruct (kept c x); [auto|discriminate].
  - rewrite Hn. assert (Hlt : forall i, In i (kept c x) -> (i < v_N c)%nat) by (intros i Hi; apply kept_in in Hi; apply Hr; tauto).
    rewrite existsb_false by (intros i Hi; apply Nat.leb_gt; specialize (Hlt i Hi); lia).
    assert (Harr : x_arr indices = true).
    { unfold indices. destruct Ha as [Ha|[Ha|(p & pf & Ep)]].
      - destruct (v_perf c) as [[|]|]; [exact Ha|reflexivity|exact Ha].
      - exfalso. destruct (kept c x) as [|i l] eqn:Ek; [apply E; reflexivity|]. assert (Hi : In i (kept c x)) by (rewrite Ek; left; reflexivity). apply kept_in in Hi. destruct Hi as [H1 H2]. apply H2, Ha, H1.
      - rewrite Ep. reflexivity. }
    rewrite Harr. cbn [negb]. rewrite existsb_false by (intros i Hi; apply Nat.leb_gt; auto). eexists. split; [reflexivity|]. intros i Hi.
    assert (Hm : forall k, memn k (map (fun i => (i + v_N c)%nat) (kept c x)) = true <-> exists j, In j (kept c x) /\ k = (j + v_N c)%nat).
    { intros k. rewrite memn_In, in_map_iff. split; intros (j & A & B); exists j; auto. }
    unfold assign. split.
    + destruct (memn i (map _ _)) eqn:E1; [|reflexivity]. apply Hm in E1. destruct E1 as (j & _ & E1). lia.
    + destruct (memn (v_N c + i) (map _ _)) eqn:E1.
      * apply Hm in E1. destruct E1 as (j & Hj & E1). replace i with j by lia. apply memn_In in Hj. rewrite Hj. reflexivity.
      * destruct (memn i (kept c x)) eqn:E2.
        -- exfalso. assert (memn (v_N c + i) (map (fun i => (i + v_N c)%nat) (kept c x)) = true); [|congruence]. apply Hm. exists i. split; [apply memn_In; exact E2|lia].
        -- destruct (memn (v_N c + i) (kept c x)) eqn:E3; [|reflexivity]. apply memn_In, Hlt in E3. lia.
Qed.
Lemma covs_initial_ok c x G inds : v_order c = "initial"%string -> v_delta c <> 0%R -> v_states c = [("p"%string, x); ("GKP"%string, arr G)] ->
  (x_arr x = true \/ (forall i, In i (x_l x) -> is_perfect c i) \/ exists p pf, v_perf c = Some (p :: pf)) -> (forall i, In i (x_l x) -> (i < v_N c)%nat) -> (forall i, In i G -> (i < v_N c)%nat /\ ~ In i (x_l x)) ->
  exists v, covs_sampler c inds = Ok ((2 * v_N c)%nat, v) /\ std_spec c (x_l x) G v (fun i => v (v_N c + i)%nat).
Proof.
  intros Eo Ed Es Ha Hx HG. unfold covs_sampler. rewrite Eo. cbn [String.eqb Ascii.eqb Bool.eqb]. destruct (Req_EM_T (v_delta c) 0) as [|_]; [contradiction|]. rewrite Es. cbn [foldR bind].
  destruct (cov_step_ok c (fun _ => 0%R) "p" x _ _ Ha Hx eq_refl) as (v1 & E1 & V1). rewrite E1. cbn [bind].
  destruct (cov_step_ok c v1 "GKP" (arr G) _ _ (or_introl eq_refl) (fun i Hi => proj1 (HG i Hi)) eq_refl) as (v2 & E2 & V2). rewrite E2. cbn [bind].
  exists v2. split; [reflexivity|]. intros i Hi. destruct (V1 i Hi) as [A1 A2]. destruct (V2 i Hi) as [B1 B2]. rewrite B1, B2, A1, A2.
  assert (Kp : memn i (kept c x) = true <-> In i (x_l x) /\ ~ is_perfect c i) by (rewrite memn_In; apply kept_in).
  assert (Kg : memn i (kept c (arr G)) = true <-> In i G /\ ~ is_perfect c i) by (rewrite memn_In; apply (kept_in c (arr G))).
  pose proof (fun H => proj2 (HG i H)) as HGx.
  destruct (memn i (kept c (arr G))), (memn i (kept c x)); split; [| split; [|split] | | split; [|split] | | split; [|split] | | split; [|split]]; try (intros; exfalso; tauto); intros; try (split; reflexivity).
  all: exfalso; intuition congruence.
Qed.
Lemma scz_p N adj x i : (i < N)%nat -> SCZ_apply_vec N adj x true (N + i)%nat = (Rsum (fun j => adj i j * x j) N + x (N + i)%nat)%R.
Proof. intros Hi. unfold SCZ_apply_vec, mvec. rewrite scz_high by assumption. reflexivity. Qed.

(* one call of apply_noise *)
Lemma apply_noise_ok c0 c d inds coords : fresh_layer c0 -> live c0 c -> draws_ok (v_N c0) d -> code_layer c0 inds coords ->
  v_order c0 = "initial"%string -> v_delta c0 <> 0%R -> (forall x, v_states c0 = [("p"%string, x)] -> x_arr x = true) ->
  exists c' sq sp, apply_noise c d = (c', Ok tt) /\ live c0 c' /\ inds_of c' "p" = trial_p c0 d /\ NoDup (inds_of c' "GKP") /\
    (forall i, In i (inds_of c' "GKP") <-> (i < v_N c0)%nat /\ ~ In i (trial_p c0 d) /\ ~ In i (inds_of c "GKP")) /\
    std_spec c0 (inds_of c' "p") (inds_of c' "GKP") sq sp /\
    forall i p, In p coords -> node_at c0 i p -> exists h, a_homp (v_attr c' p) = Some h /\ a_bit (v_attr c' p) = Some (v_trans c0 h) /\
      h = (sp i * d_z d (v_N c0 + i)%nat + Rsum (fun j => v_adj c0 i j * (sq j * d_z d j)) (v_N c0))%R.
Proof.
  intros HF HL HD (Hc & Hci & Hcc) Ho Hde Harr. destruct (populate_ok c0 c d HF HL HD) as (c1 & x & G & Ep & HL1 & Es & Ex & Hx & Hxa & HGn & HG & Hlab).
  pose proof HF as (HN & _). pose proof (lv_static _ _ HL1) as HS1. pose proof HS1 as (S1 & S2 & S3 & S4 & S5 & S6 & S7 & S8 & S9).
  assert (HN1 : numbered c1). { destruct HN as [N1 N2]. split; [intros i; rewrite S1, <- N1; split; intros (p & Hp); exists p; apply (static_pts c0 c1 i p HS1); exact Hp|]. intros i j p A B. apply (static_pts c0 c1 _ _ HS1) in A, B. eauto. }
  destruct (covs_initial_ok c1 x G {| x_arr := false; x_l := inds |}) as (v & Ev & Hv).
  { congruence. } { congruence. } { exact Es. } { left. destruct Hxa as [H|H]; [exact H|auto]. } { rewrite S1. exact Hx. } { intros i Hi. rewrite S1. apply HG in Hi. rewrite Ex. tauto. }
  unfold apply_noise. rewrite Ep. cbn [andthen]. unfold measure_syndrome. rewrite S9, Hc. unfold measure_hom. cbv zeta. cbn [x_l x_arr]. unfold means_sampler. rewrite S7, Ho. cbn [String.eqb Ascii.eqb Bool.eqb bind].
  rewrite Ev. cbn [bind fst snd]. unfold normal. rewrite Nat.eqb_refl. cbn [bind fst snd].
  rewrite existsb_false by (intros i Hi; apply Nat.leb_gt; rewrite S1; auto). cbn [fst snd]. set (out := SCZ_apply_vec _ _ _ _).
  set (F := fun i => out (v_N c1 + i)%nat).
  destruct (record_hom_ok Qp inds (List.length inds) (part Qp (v_N c1) out inds) F c1 HN1) as (c2 & E2 & K2 & H2 & _); [intros i Hi; rewrite S1; auto|intros j Hj; split; [exact Hj|reflexivity]|].
  rewrite E2. cbn [andthen]. pose proof K2 as (T2 & Es2 & _). pose proof T2 as (T21 & T22 & _ & _ & _ & _ & _ & T28 & T29).
  assert (HFp : forall p, In p coords -> exists i, In i inds /\ node_at c0 i p /\ a_homp (v_attr c2 p) = Some (F i)).
  { intros p Hp. destruct (Hcc p Hp) as (i & Hi & Hn). exists i. split; [assumption|]. split; [assumption|]. apply (H2 i p Hi). apply (static_pts c0 c1 _ _ HS1). assumption. }
  destruct (inner_decoder_ok c2 inds coords (fun p => match a_homp (v_attr c2 p) with Some h => h | None => 0%R end)) as (c3 & E3 & K3 & H3 & B3).
  { congruence. } { intros p Hp. destruct (HFp p Hp) as (i & _ & _ & E). rewrite E. reflexivity. }
  exists c3, v, (fun i => v (v_N c0 + i)%nat). split; [exact E3|]. pose proof (same_states_trans _ _ _ K2 K3) as K13. split; [apply (live_kept c0 c1); assumption|].
  destruct K13 as (_ & Es3 & _). rewrite Es in Es3. destruct (inds_of_pair c3 x G Es3) as [I1 I2]. rewrite I1, I2. split; [exact Ex|]. split; [exact HGn|]. split; [exact HG|]. split.
  - intros i Hi. specialize (Hv i). rewrite S1, S5 in Hv. unfold is_perfect in *. rewrite S4 in Hv. apply Hv. exact Hi.
  - intros i p Hp Hn. destruct (HFp p Hp) as (j & Hj & Hnj & Eh). destruct HN as [N1 N2]. assert (j = i) by (apply (N2 j i p); assumption). subst j.
    exists (F i). rewrite H3. split; [exact Eh|]. split; [rewrite (B3 p Hp), Eh, T28, S8; reflexivity|].
    unfold F, out. rewrite scz_p by (rewrite S1; auto). rewrite S1, S3. rewrite Rplus_comm. f_equal; [ring|]. apply Rsum_ext. intros k Hk. ring.
Qed.
