(* PropsCv2.v: C50, the documented arguments of CVLayer. *)
From Coq Require Import String.
From Verif Require Import Base Lattice RhgModel RhgSpec RhgProofs RhgDegree SurfaceModel SurfaceSpec SurfaceProofs SurfaceTheorems PropsSurface
  GkpModel OpsModel EgraphModel EgraphSpec EgraphProofs EgraphInv PropsEgraph PropsOps PropsGkp CvModel CvSpec CvProofs CvNoise PropsCv CvSurface.
Open Scope Z_scope.

(* ------------------------------------------------------------------ *)
(* C50.  The full statement: for every combination of arguments that the documentation allows, applying
   noise succeeds and gives every syndrome qubit a bit.  Proved for the 'initial' order, delta > 0 and
   states given as arrays: C40_surface_code.  Below: where it is false. *)

(* one trial, up to the measurement *)
Lemma trial_split c0 c d : fresh_layer c0 -> live c0 c -> draws_ok (v_N c0) d ->
  exists c1 x G, populate_states c d = (c1, Ok tt) /\ static c0 c1 /\ v_states c1 = [("p"%string, x); ("GKP"%string, arr G)] /\ live c0 c1 /\
    x_l x = trial_p c0 d /\ (v_pswap c0 = None -> v_states c0 = [("p"%string, x)]) /\
    (forall i p, node_at c0 i p -> a_state (v_attr c1 p) <> None).
Proof.
  intros HF HL HD. destruct (populate_ok c0 c d HF HL HD) as (c1 & x & G & Ep & HL1 & Es & Ex & Hx & Hxa & HGn & HG & Hlab).
  exists c1, x, G. split; [exact Ep|]. split; [apply HL1|]. split; [exact Es|]. split; [exact HL1|]. split; [exact Ex|]. split.
  - intros Hn. destruct (lv_states _ _ HL1) as [E|(x' & G' & E & _ & Hp & _)].
    + destruct HF as (_ & (y & E0 & _) & _). rewrite E, E0 in Es. discriminate.
    + rewrite Es in E. injection E as <- _. pose proof (lv_static _ _ HL1) as (_ & _ & _ & _ & _ & S6 & _). rewrite S6, Hn in Hp. exact Hp.
  - intros i p Hn. rewrite (Hlab i p Hn). discriminate.
Qed.

(* delta = 0 (allowed: "the quadrature blurring parameter, related to the squeezing of the GKP states",
   0 for ideal states): ZeroDivisionError in the default sampling order, on every layer *)
Theorem C50_delta_zero_refuted : forall c inds coords d, fresh_layer c -> code_layer c inds coords -> draws_ok (v_N c) d ->
  v_order c = "initial"%string -> v_delta c = 0%R -> exists c', apply_noise c d = (c', Err ZeroDivisionError).
Proof.
  intros c inds coords d HF (Hc & _) HD Ho Hde. destruct (trial_split c c d HF (fresh_live c) HD) as (c1 & x & G & Ep & (S1 & S2 & S3 & S4 & S5 & S6 & S7 & S8 & S9) & _).
  exists c1. unfold apply_noise. rewrite Ep. cbn [andthen]. unfold measure_syndrome. rewrite S9, Hc. unfold measure_hom, means_sampler, covs_sampler. rewrite S7, Ho, S5, Hde. cbn [String.eqb Ascii.eqb Bool.eqb bind].
  destruct (Req_EM_T 0 0); [reflexivity|lra].
Qed.
Print Assumptions C50_delta_zero_refuted.

(* CVLayer(egraph, ...).apply_noise() on an EGraph instead of a code (which the constructor allows):
   AttributeError, after the states were assigned *)
Theorem C50_no_code_refuted : forall c d, fresh_layer c -> v_code c = None -> draws_ok (v_N c) d ->
  exists c', apply_noise c d = (c', Err AttributeError) /\ forall i p, node_at c i p -> a_state (v_attr c' p) <> None.
Proof.
  intros c d HF Hc HD. destruct (trial_split c c d HF (fresh_live c) HD) as (c1 & x & G & Ep & (S1 & S2 & S3 & S4 & S5 & S6 & S7 & S8 & S9) & _ & _ & _ & _ & Hl).
  exists c1. split; [|exact Hl]. unfold apply_noise. rewrite Ep. cbn [andthen]. unfold measure_syndrome. rewrite S9, Hc. reflexivity.
Qed.
Print Assumptions C50_no_code_refuted.

(* p-squeezed indices given as a non-empty Python list (documented: "states (dict, optional): the
   dictionary of all non-GKP states and their indices, of the form {'state': []}"): TypeError *)
Theorem C50_list_states_refuted : forall c inds coords d x, fresh_layer c -> code_layer c inds coords -> draws_ok (v_N c) d ->
  v_order c = "initial"%string -> v_delta c <> 0%R -> v_perf c = None -> v_pswap c = None -> v_states c = [("p"%string, x)] -> x_arr x = false -> x_l x <> [] ->
  exists c', apply_noise c d = (c', Err TypeError).
Proof.
  intros c inds coords d x HF (Hc & _) HD Ho Hde Hpf Hps Hst Hxa Hne. destruct (trial_split c c d HF (fresh_live c) HD) as (c1 & x' & G & Ep & (S1 & S2 & S3 & S4 & S5 & S6 & S7 & S8 & S9) & Es & HL1 & _ & Hx & _).
  specialize (Hx Hps). rewrite Hst in Hx. injection Hx as <-. pose proof HF as (_ & (y & Ey & Hy) & _). rewrite Hst in Ey. injection Ey as <-.
  exists c1. unfold apply_noise. rewrite Ep. cbn [andthen]. unfold measure_syndrome. rewrite S9, Hc. unfold measure_hom, means_sampler, covs_sampler. rewrite S7, Ho, S5. cbn [String.eqb Ascii.eqb Bool.eqb bind fst snd].
  destruct (Req_EM_T (v_delta c) 0) as [|_]; [contradiction|]. rewrite Es. cbn [foldR bind]. unfold cov_step. rewrite S4, Hpf. cbn [fst snd]. destruct (x_l x) as [|i l] eqn:El; [congruence|]. cbn [List.length Nat.eqb noise String.eqb Ascii.eqb Bool.eqb].
  unfold noise. cbn [String.eqb Ascii.eqb Bool.eqb]. rewrite existsb_false; [rewrite Hxa; reflexivity|]. intros j Hj. apply Nat.leb_gt. rewrite S1. specialize (Hy j Hj). lia.
Qed.
Print Assumptions C50_list_states_refuted.

(* a sampling order other than 'initial' and 'two-step' is not rejected: all outcomes are 0 and the
   bits are those of 0, whatever is drawn *)
Theorem C50_unknown_order_refuted : forall c inds coords ds d, fresh_layer c -> code_layer c inds coords -> Forall (draws_ok (v_N c)) (ds ++ [d]) ->
  v_order c <> "initial"%string -> v_order c <> "two-step"%string -> (List.length inds <= 2 * v_N c)%nat ->
  exists c', trials c (ds ++ [d]) = (c', Ok tt) /\ forall p, In p coords -> a_homp (v_attr c' p) = Some 0%R /\ a_bit (v_attr c' p) = Some (v_trans c 0).
Proof.
  intros c inds coords ds d HF HC Hds Ho1 Ho2 Hlen.
  assert (Hone : forall c1 d, live c c1 -> draws_ok (v_N c) d -> exists c2, apply_noise c1 d = (c2, Ok tt) /\ live c c2 /\ forall p, In p coords -> a_homp (v_attr c2 p) = Some 0%R /\ a_bit (v_attr c2 p) = Some (v_trans c 0)).
  { intros c1 d' HL HD. destruct (populate_ok c c1 d' HF HL HD) as (c2 & x & G & Ep & HL1 & _). pose proof (lv_static _ _ HL1) as HS. pose proof HS as (S1 & S2 & S3 & S4 & S5 & S6 & S7 & S8 & S9). pose proof HC as (Hc & Hci & Hcc).
    assert (HN1 : numbered c2). { destruct HF as ((N1 & N2) & _). split; [intros i; rewrite S1, <- N1; split; intros (p & Hp); exists p; apply (static_pts c c2 i p HS); exact Hp|]. intros i j p A B. apply (static_pts c c2 _ _ HS) in A, B. eauto. }
    unfold apply_noise. rewrite Ep. cbn [andthen]. unfold measure_syndrome. rewrite S9, Hc. unfold measure_hom, means_sampler, covs_sampler. rewrite S7.
    destruct (String.eqb_spec (v_order c) "initial"); [contradiction|]. destruct (String.eqb_spec (v_order c) "two-step"); [contradiction|]. cbn [bind fst snd x_l]. unfold normal. rewrite Nat.eqb_refl. cbn [bind fst snd].
    destruct (record_hom_ok Qp inds (2 * v_N c2) (fun i => 0 + 0 * d_z d' i)%R (fun _ => 0%R) c2 HN1) as (c3 & E3 & K3 & H3 & _).
    { intros i Hi. rewrite S1. auto. } { intros j Hj. split; [rewrite S1; lia|ring]. } rewrite E3. cbn [andthen].
    assert (Hh : forall p, In p coords -> a_homp (v_attr c3 p) = Some 0%R). { intros p Hp. destruct (Hcc p Hp) as (i & Hi & Hn). apply (H3 i p Hi). apply (static_pts c c2 _ _ HS). exact Hn. }
    pose proof K3 as ((T1 & T2 & _ & _ & _ & _ & _ & T8 & T9) & _). destruct (inner_decoder_ok c3 inds coords (fun _ => 0%R)) as (c4 & E4 & K4 & H4 & B4); [congruence|exact Hh|].
    exists c4. split; [exact E4|]. split; [apply (live_kept c c2); [assumption|eapply same_states_trans; eassumption]|]. intros p Hp. rewrite H4, (Hh p Hp), (B4 p Hp), T8, S8. auto. }
  apply Forall_app in Hds. destruct Hds as [Hds Hd]. inversion Hd as [|? ? Hd' _]; subst.
  assert (Hall : forall c1, live c c1 -> exists c2, trials c1 ds = (c2, Ok tt) /\ live c c2).
  { induction Hds as [|d0 l Hd0 _ IH]; intros c1 HL; [exists c1; split; [reflexivity|assumption]|]. destruct (Hone c1 d0 HL Hd0) as (c2 & E & HL2 & _). unfold trials. cbn [for_each]. rewrite E. apply IH; assumption. }
  destruct (Hall c (fresh_live c)) as (c1 & E1 & HL1). destruct (Hone c1 d HL1 Hd') as (c2 & E2 & _ & H2). exists c2. split; [|exact H2]. unfold trials in *. rewrite for_each_app, E1. cbn [for_each]. rewrite E2. reflexivity.
Qed.
Print Assumptions C50_unknown_order_refuted.

(* the 'two-step' order on a layer on a code: the outcomes are drawn with arrays of different lengths *)
Lemma two_step_error c inds coords d : fresh_layer c -> code_layer c inds coords -> draws_ok (v_N c) d -> v_order c = "two-step"%string -> v_perf c = None ->
  List.length inds <> 1%nat -> List.length inds <> (2 * v_N c)%nat -> exists c', apply_noise c d = (c', Err ValueError).
Proof.
  intros HF (Hc & Hci & _) HD Ho Hp H1 H2. destruct (trial_split c c d HF (fresh_live c) HD) as (c1 & x & G & Ep & (S1 & S2 & S3 & S4 & S5 & S6 & S7 & S8 & S9) & Es & _).
  exists c1. unfold apply_noise. rewrite Ep. cbn [andthen]. unfold measure_syndrome. rewrite S9, Hc. unfold measure_hom, means_sampler, covs_sampler. rewrite S7, Ho, S4, Hp, Es, S1. cbn [String.eqb Ascii.eqb Bool.eqb].
  assert (HM : forall m0, exists m, foldR (fun (m : vec) (e : string * idxs) => if (List.length (x_l (snd e)) =? 0)%nat then Ok m else match mean_vals d (fst e) with Some f => Ok (assign_seq m (x_l (snd e)) f) | None => Err KeyError end)
      m0 [("p"%string, x); ("GKP"%string, arr G)] = Ok m).
  { intros m0. cbn [foldR fst snd]. destruct (Nat.eqb (List.length (x_l x)) 0); cbn [bind]; (destruct (Nat.eqb (List.length (x_l (arr G))) 0); cbn [bind]; eexists; reflexivity). }
  destruct (HM (fun _ => 0%R)) as (m & Em). rewrite Em. cbn [bind fst snd x_l]. unfold normal.
  destruct (Nat.eqb_spec (2 * v_N c) (List.length inds)) as [E|_]; [congruence|]. destruct (Nat.eqb_spec (2 * v_N c) 1); [lia|]. destruct (Nat.eqb_spec (List.length inds) 1); [congruence|]. reflexivity.
Qed.

(* the number of syndrome indices of a code, counted with multiplicity *)
Lemma NoDup_flat_single {A B} (f : A -> list B) l : NoDup l -> (forall x, (List.length (f x) <= 1)%nat) -> (forall x y z, In x l -> In y l -> In z (f x) -> In z (f y) -> x = y) -> NoDup (flat_map f l).
Proof.
  induction l as [|x l IH]; intros Hn H1 H2; [constructor|]. apply NoDup_cons_iff in Hn. destruct Hn as [Hx Hn]. simpl. apply NoDup_app_intro.
  - specialize (H1 x). destruct (f x) as [|y [|z t]]; [constructor|constructor; [intros []|constructor]|simpl in H1; lia].
  - apply IH; auto. intros a b z Ha Hb. apply H2; right; assumption.
  - intros z Hz Hz'. apply in_flat_map in Hz'. destruct Hz' as (y & Hy & Hz'). apply Hx. rewrite (H2 x y z); auto; [left; reflexivity|right; assumption].
Qed.
Lemma count_swap (S : list point) (ls : list (list point)) : NoDup S -> Forall (fun l => NoDup l /\ incl l S) ls ->
  List.length (List.concat ls) = list_sum (map (fun q => List.length (filter (pmem q) ls)) S).
Proof.
  intros HS HF. induction HF as [|l ls (Hl & Hi) _ IH].
  - simpl. clear HS. induction S; simpl; auto.
  - simpl. rewrite app_length, IH. clear IH.
    assert (E : List.length l = list_sum (map (fun q => if pmem q l then 1%nat else 0%nat) S)).
    { transitivity (List.length (filter (fun q => pmem q l) S)).
      - apply Permutation_length. apply NoDup_Permutation; [assumption|apply NoDup_filter; assumption|]. intros q. rewrite filter_In, pmem_In. split; [intros H; split; [apply Hi|]; assumption|tauto].
      - clear. induction S as [|q S IH]; [reflexivity|]. simpl. destruct (pmem q l); simpl; rewrite IH; reflexivity. }
    rewrite E. clear. induction S as [|q S IH]; [reflexivity|]. cbn [map list_sum fold_right]. unfold list_sum in *. simpl. destruct (pmem q l); simpl; lia.
Qed.
Lemma actual_nodup D e B pol vs ctr : dims_ge2 D -> set_enum (six_body_points D B) vs -> cell D e B ctr -> NoDup (actual_stabe e D B (rhg_graph D B pol vs) (six ctr)).
Proof.
  intros HD Hvs Hc. pose proof (ge2_ok D B HD) as HO. unfold actual_stabe. cbv zeta. rewrite (nodup_id _ (filter _ _)) by (apply NoDup_filter, NoDup_six). destruct (Nat.ltb _ 6); [|apply NoDup_filter, NoDup_six].
  pose proof Hc as Hc'. apply cell_par in Hc'. destruct Hc' as [Hs Hp]. apply NoDup_app_intro; [apply NoDup_filter, NoDup_six| |].
  - unfold periodic_virtual. apply NoDup_flat_single.
    + unfold axes_of. apply NoDup_filter. repeat constructor; simpl; intuition discriminate.
    + intros a. destruct e; destruct (_ =? _); simpl; lia.
    + intros a a' z Ha Ha' Hz Hz'. apply in_axes_of in Ha, Ha'. destruct (nth_six ctr a) as [N1 N2]. destruct (nth_six ctr a') as [N1' N2']. rewrite N1, N2 in Hz. rewrite N1', N2' in Hz'. rewrite !co_setco_same in Hz, Hz'.
      destruct (axis_eq_dec a a') as [Heq|Hne]; [exact Heq|exfalso]. pose proof (HD a) as Hda. destruct e.
      * destruct (_ =? _) eqn:E in Hz; [|destruct Hz]. destruct (_ =? _) eqn:E' in Hz'; [|destruct Hz']. destruct Hz as [<-|[]]. destruct Hz' as [Hz'|[]]. apply (f_equal (co a)) in Hz'. rewrite !co_setco_same in Hz'. rewrite !co_setco_other in Hz' by congruence. lia.
      * destruct (_ =? _) eqn:E in Hz; [|destruct Hz]. destruct (_ =? _) eqn:E' in Hz'; [|destruct Hz']. destruct Hz as [<-|[]]. destruct Hz' as [Hz'|[]]. apply (f_equal (co a)) in Hz'. rewrite !co_setco_same in Hz'. rewrite !co_setco_other in Hz' by congruence. lia.
  - intros q Hq Hq'. apply filter_In in Hq. destruct Hq as [Hq _]. apply in_six in Hq. destruct Hq as (a & Hq & Ho). apply (in_virtual D e B HO) in Hq'; [|assumption]. destruct Hq' as [(a' & (Hb & Hw) & Ho') _].
    pose proof (HD a') as Hda. destruct (axis_eq_dec a' a) as [->|Hne]; [|rewrite (Ho a' Hne) in Hw]; lia.
Qed.
Lemma code_inds_length D e b pol c inds : dims_ge2 D -> is_surface_code D e b pol c -> code_inds c inds ->
  (2 <= List.length inds < 2 * List.length (node_list (sc_graph c)))%nat.
Proof.
  intros HD HC Hi. pose proof (ge2_ok D (code_bnds e b) HD) as HO. pose proof (surface_code_facts D e b pol c HO HC) as CF. pose proof (C05_qubits_checked_once_or_twice D e b pol c HD HC) as (Hnd & Hsy & _ & Hcnt & _).
  pose proof (code_inds_in D e b pol c HC inds Hi) as Hin. destruct Hi as (lists & HF & E). assert (El : List.length inds = List.length (List.concat lists)) by (apply mapR_ok in E; clear - E; induction E; simpl; congruence).
  destruct HC as (E1 & E2 & E3 & (vs & Hvs & EG) & Ep & Hst & Hsyn & Hrest). assert (HC : is_surface_code D e b pol c) by (split; [exact E1|]; split; [exact E2|]; split; [exact E3|]; split; [exists vs; auto|]; auto).
  assert (Hstabs : Forall (fun l => NoDup l /\ incl l (sc_syn c)) (sc_stabs c)).
  { apply Forall_forall. intros st Hs. destruct (In_nth _ _ [] Hs) as (k & Hk & <-). pose proof (cf_stabs _ _ _ _ _ CF) as F2.
    assert (HX : exists ctr, NoDup (nth k (sc_stabs c) []) /\ forall q, In q (nth k (sc_stabs c) []) <-> on_cell D e (code_bnds e b) ctr q).
    { clear - F2 Hk. revert k Hk. induction F2 as [|ctr st l l' H _ IH]; intros k Hk; [simpl in Hk; lia|]. destruct k; [exists ctr; exact H|]. apply IH. simpl in Hk. lia. }
    destruct HX as (ctr & X1 & X2). split; [exact X1|]. intros q Hq. apply X2 in Hq. apply (cf_syn _ _ _ _ _ CF). apply Hq. }
  assert (Hlen : List.length (List.concat lists) = List.length (List.concat (sc_stabs c))).
  { unfold sc_bnds in HF. rewrite E1, E2, E3, Ep in HF. rewrite all_six_centres in HF, Hst. rewrite map_map in HF. assert (Hcell : Forall (cell D e (code_bnds e b)) (centres D e (code_bnds e b))) by (apply Forall_forall; intros x Hx; apply in_centres in Hx; exact Hx).
    clear - HF Hst Hcell HD Hvs EG. revert lists HF. remember (sc_stabs c) as stabs. clear Heqstabs. revert stabs Hst. induction Hcell as [|ctr l Hc _ IH]; intros stabs Hst lists HF; inversion Hst; subst; inversion HF; subst; [reflexivity|]. simpl. rewrite !app_length. f_equal; [|apply IH; assumption].
    match goal with H : set_enum _ _ |- _ => destruct H as [H1' H2'] end. transitivity (List.length (actual_stabe e D (code_bnds e b) (sc_graph c) (six ctr))); [symmetry; apply Permutation_length; assumption|]. apply Permutation_length. apply NoDup_Permutation; [rewrite EG; apply (actual_nodup D e (code_bnds e b) pol vs); assumption|assumption|]. intros q. symmetry. apply H2'. }
  split.
  - (* at least two syndrome qubits *)
    assert (H2 : exists q q', q <> q' /\ In q (sc_syn c) /\ In q' (sc_syn c)).
    { assert (Hq : exists q q', q <> q' /\ qubit D e (code_bnds e b) q /\ qubit D e (code_bnds e b) q').
      { pose proof (HD AX) as X. pose proof (HD AY) as Y. pose proof (HD AZ) as Z. destruct e; unfold qubit.
        - exists (1, 1, 2), (1, 2, 1). split; [discriminate|]. split; (split; [intros []; unfold in_range; cbn [co get] in *; destruct (get _ (code_bnds _ b)); simpl; lia|reflexivity]).
        - exists (1, 2, 2), (2, 2, 1). split; [discriminate|]. split; (split; [intros []; unfold in_range; cbn [co get] in *; destruct (get _ (code_bnds _ b)); simpl; lia|reflexivity]). }
      destruct Hq as (q & q' & A & B1 & B2). exists q, q'. split; [exact A|]. split; apply (cf_syn _ _ _ _ _ CF); assumption. }
    destruct H2 as (q & q' & Hne & Hq & Hq').
    assert (Hidx : forall p, In p (sc_syn c) -> exists i, In i inds /\ idx (code_egraph c) p = Some i).
    { intros p Hp. destruct (code_indexed D e b pol c HD HC) as (dd & l & _ & _ & HP & L1 & _). pose proof (syn_node D e b pol c HD HC p Hp) as Hn. apply (Permutation_in _ (Permutation_sym HP)), In_nth_error in Hn. destruct Hn as (i & Hn). apply L1 in Hn. exists i. split; [apply Hin; eauto|exact Hn]. }
    destruct (Hidx q Hq) as (i & Ii & Ei). destruct (Hidx q' Hq') as (j & Ij & Ej). assert (i <> j). { intros ->. destruct (code_indexed D e b pol c HD HC) as (dd & l & _ & _ & HP & L1 & _). apply L1 in Ei, Ej. congruence. }
    destruct inds as [|x [|y t]]; [destruct Ii|simpl in Ii, Ij; intuition congruence|simpl; lia].
  - rewrite El, Hlen, (count_swap (sc_syn c) (sc_stabs c) Hnd Hstabs).
    assert (Hle : (list_sum (map (fun q => List.length (filter (pmem q) (sc_stabs c))) (sc_syn c)) <= 2 * List.length (sc_syn c))%nat).
    { assert (Hq2 : forall q, In q (sc_syn c) -> (List.length (filter (pmem q) (sc_stabs c)) <= 2)%nat) by (intros q Hq; rewrite (Hcnt q Hq); destruct (pmem q (sc_bound c)); lia). clear - Hq2. induction (sc_syn c) as [|q l IH]; [simpl; lia|]. cbn [map list_sum fold_right List.length]. pose proof (Hq2 q (or_introl eq_refl)). assert (forall q0, In q0 l -> (List.length (filter (pmem q0) (sc_stabs c)) <= 2)%nat) by (intros; apply Hq2; right; assumption). specialize (IH H0). unfold list_sum in *. lia. }
    assert (Hlt : (List.length (sc_syn c) < List.length (node_list (sc_graph c)))%nat); [|lia].
    (* a node of the other type *)
    assert (Hx : exists x, In x (node_list (sc_graph c)) /\ ~ In x (sc_syn c)).
    { rewrite EG. destruct (rhg_exact_lattice D (code_bnds e b) pol vs HO Hvs) as (_ & EN & _). pose proof (HD AX) as X. pose proof (HD AY) as Y. pose proof (HD AZ) as Z. destruct e.
      - exists (1, 2, 2). split; [apply EN; right; split; [intros []; unfold in_range; cbn [co get] in *; destruct (get _ (code_bnds _ b)); simpl; lia|reflexivity]|]. intros H. apply (cf_syn _ _ _ _ _ CF) in H. destruct H as [_ H]. discriminate H.
      - exists (1, 1, 2). split; [apply EN; left; split; [intros []; unfold in_range; cbn [co get] in *; destruct (get _ (code_bnds _ b)); simpl; lia|reflexivity]|]. intros H. apply (cf_syn _ _ _ _ _ CF) in H. destruct H as [_ H]. discriminate H. }
    destruct Hx as (x & Hx1 & Hx2). assert (Hi : NoDup (x :: sc_syn c)) by (constructor; assumption). apply (NoDup_incl_length (l' := node_list (sc_graph c))) in Hi; [simpl in Hi; lia|]. intros q [<-|Hq]; [exact Hx1|]. apply Hsy in Hq. apply Hq.
Qed.
(* sampling_order="two-step" on every surface code: ValueError *)
Theorem C50_two_step_refuted : forall D e b pol c inds a0 delta states p_swap trans, dims_ge2 D -> is_surface_code D e b pol c -> code_inds c inds ->
  documented_states (List.length (node_list (sc_graph c))) states p_swap ->
  exists g v, cv_init (code_egraph c) a0 None (Some (inds, sc_syn c)) delta states p_swap (Some "two-step"%string) trans = (g, Ok v) /\
    forall d, draws_ok (v_N v) d -> exists v', apply_noise v d = (v', Err ValueError).
Proof.
  intros D e b pol c inds a0 delta states p_swap trans HD HC Hi Hst. pose proof (code_inds_length D e b pol c inds HD HC Hi) as Hlen.
  assert (Hs : p_swap <> None -> forall s, states = Some s -> exists x, dget String.eqb s "p"%string = Some x /\ x_l x = []).
  { intros Hn s Es. destruct p_swap as [x|]; [|congruence]. destruct Hst as (_ & [H|[H|H]] & Hne); [congruence|congruence|]. rewrite H in Es. injection Es as <-. exists (arr []). split; reflexivity. }
  destruct (code_cv_init D e b pol c HD HC a0 None delta states p_swap (Some "two-step"%string) trans inds Hi I Hs) as (g & v & E & H1 & H2 & H3 & H4 & _ & H5 & H6 & H7 & H8 & H9).
  assert (Hx : exists l, v_states v = [("p"%string, arr l)] /\ forall i, In i l -> (i < v_N v)%nat).
  { rewrite H9, H3. unfold documented_states in Hst. destruct p_swap as [x|].
    - destruct Hst as (_ & [->|[->| ->]] & _); exists []; (split; [reflexivity|intros i []]).
    - destruct Hst as [->|[->|(l & -> & Hl)]]; [exists []; split; [reflexivity|intros i []]|exists []; split; [reflexivity|intros i []]|exists l; split; [reflexivity|exact Hl]]. }
  assert (HF : fresh_layer v).
  { split; [exact H1|]. split; [destruct Hx as (l & Hl & Hl2); exists (arr l); split; [exact Hl|exact Hl2]|]. rewrite H6. unfold documented_states in Hst. destruct p_swap; [apply Hst|exact I]. }
  assert (Hpf : v_perf v = None).
  { unfold cv_init in E. destruct (adj_generator (code_egraph c) true) as (g1 & [rows|er]); [|discriminate]. cbn [bind] in E. destruct p_swap; [|injection E as _ <-; reflexivity]. destruct states as [s|]; [|injection E as _ <-; reflexivity]. destruct (dget String.eqb s "p"%string); [|discriminate]. destruct (Nat.eqb _ 0); [|discriminate]. injection E as _ <-; reflexivity. }
  exists g, v. split; [exact E|]. intros d Hd. apply (two_step_error v inds (sc_syn c) d HF H2 Hd); [rewrite H7; reflexivity|exact Hpf|lia|rewrite H3; lia].
Qed.
Print Assumptions C50_two_step_refuted.
(* an unknown sampling order on every surface code: accepted, and noise-free *)
Theorem C50_unknown_order_code_refuted : forall D e b pol c inds a0 delta order, dims_ge2 D -> is_surface_code D e b pol c -> code_inds c inds ->
  order <> ""%string -> order <> "initial"%string -> order <> "two-step"%string ->
  exists g v, cv_init (code_egraph c) a0 None (Some (inds, sc_syn c)) delta None None (Some order) None = (g, Ok v) /\
    forall ds d, Forall (draws_ok (v_N v)) (ds ++ [d]) -> exists v', trials v (ds ++ [d]) = (v', Ok tt) /\ forall q, In q (sc_syn c) -> a_bit (v_attr v' q) = Some 0.
Proof.
  intros D e b pol c inds a0 delta order HD HC Hi Ho0 Ho1 Ho2. pose proof (code_inds_length D e b pol c inds HD HC Hi) as Hlen.
  destruct (code_cv_init D e b pol c HD HC a0 None delta None None (Some order) None inds Hi I ltac:(congruence)) as (g & v & E & H1 & H2 & H3 & H4 & _ & H5 & H6 & H7 & H8 & H9).
  assert (H7' : v_order v = order) by (rewrite H7; destruct order; [congruence|reflexivity]).
  exists g, v. split; [exact E|]. intros ds d Hds. assert (HF : fresh_layer v) by (split; [exact H1|]; split; [exists (arr []); split; [exact H9|intros i []]|rewrite H6; exact I]).
  destruct (C50_unknown_order_refuted v inds (sc_syn c) ds d HF H2 Hds) as (v' & Et & Hb); [congruence|congruence|rewrite H3; lia|]. exists v'. split; [exact Et|]. intros q Hq. destruct (Hb q Hq) as [_ ->]. rewrite H8, default_translator_0. reflexivity.
Qed.
Print Assumptions C50_unknown_order_code_refuted.
(* the hypotheses hold: a code layer with each of these arguments exists for every code *)
Example C50_witness : let c := mk_code (2, 2, 3) EcDual BdToric None in exists inds g v, code_inds c inds /\
  cv_init (code_egraph c) (fun _ => no_attrs) None (Some (inds, sc_syn c)) 0 (Some [("p"%string, {| x_arr := false; x_l := [1%nat; 2%nat] |})]) None None None = (g, Ok v) /\
  fresh_layer v /\ code_layer v inds (sc_syn c) /\ v_order v = "initial"%string /\ v_delta v = 0%R /\ v_N v = 60%nat.
Proof.
  intros c. assert (HD : dims_ge2 (2, 2, 3)) by (intros []; simpl; lia). assert (HC : is_surface_code (2, 2, 3) EcDual BdToric None c) by apply mk_code_ok. destruct (code_inds_exist _ _ _ _ _ HD HC) as (inds & Hi). exists inds.
  destruct (code_cv_init _ _ _ _ c HD HC (fun _ => no_attrs) None 0%R (Some [("p"%string, {| x_arr := false; x_l := [1%nat; 2%nat] |})]) None None None inds Hi I ltac:(congruence)) as (g & v & E & H1 & H2 & H3 & H4 & _ & H5 & H6 & H7 & H8 & H9).
  exists g, v. split; [exact Hi|]. split; [exact E|]. assert (HN : v_N v = 60%nat) by (rewrite H3; vm_compute; reflexivity). split; [|split; [exact H2|]; split; [exact H7|]; split; assumption].
  split; [exact H1|]. split; [|rewrite H6; exact I]. eexists. split; [exact H9|]. rewrite HN. simpl. intros i [<-|[<-|[]]]; lia.
Qed.
