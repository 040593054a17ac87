(* PropsSim.v: properties C42-C44 of IidNoise and of the Monte Carlo simulations. *)
From Coq Require Import String Ascii DecimalString Reals Lra.
From Verif Require Import Base Lattice RhgModel RhgSpec RhgDegree SurfaceModel SurfaceSpec SurfaceProofs SurfaceIncidence SurfaceTheorems StabGraphModel PropsRhg PropsSurface MwpmModel PropsMwpm UfModel UfSpec UfInst PropsUf CvMacroGauge.
From Verif Require Import SimModel SimSpec SimProofs SimTrial.
Open Scope Z_scope.

(* ================= C42: IID noise ================= *)

(* probabilities outside [0,1] are refused, the others accepted *)
Theorem C42_probability_checked : forall p,
  (iid_init p = Err ValueError <-> (p < 0 \/ 1 < p)%R) /\ (iid_init p = Ok p <-> (0 <= p <= 1)%R).
Proof.
  intros p. unfold iid_init. destruct (Rlt_dec p 0); [|destruct (Rlt_dec 1 p)]; (split; split; intros H; try discriminate; try reflexivity; lra).
Qed.
Print Assumptions C42_probability_checked.

Lemma code_nodes_NoDup D e b pol c : dims_ge2 D -> is_surface_code D e b pol c -> NoDup (node_list (sc_graph c)).
Proof.
  intros HD HC. destruct HC as (_ & _ & _ & (vs & Hvs & ->) & _).
  apply (C01_rhg_exact_lattice D (code_bnds e b) pol vs (ge2_ok D (code_bnds e b) HD) Hvs).
Qed.

(* Each apply_noise uses one draw per node; the k-th node gets the value 1 exactly when the k-th draw is below the
   error probability and 0 otherwise; nothing else changes. *)
Theorem C42_one_draw_per_node : forall D e b pol c (S : Type) (rnd : generator S) p A s,
  dims_ge2 D -> is_surface_code D e b pol c ->
  let nodes := node_list (sc_graph c) in
  let A' := fst (iid_apply rnd p nodes A s) in
  snd (iid_apply rnd p nodes A s) = after rnd s (List.length nodes) /\
  (forall k v, nth_error nodes k = Some v ->
     ((draw rnd s k < p)%R -> A' v "bit_val"%string = Some (VInt 1)) /\ (~ (draw rnd s k < p)%R -> A' v "bit_val"%string = Some (VInt 0))) /\
  (forall q key, ~ In q nodes \/ key <> "bit_val"%string -> A' q key = A q key).
Proof.
  intros D e b pol c S rnd p A s HD HC nodes A'.
  destruct (iid_apply_spec rnd p nodes A s (code_nodes_NoDup D e b pol c HD HC)) as (H1 & H2 & H3).
  split; [exact H1|]. split.
  - intros k v Hk. unfold A'. rewrite (H2 k v Hk). destruct (Rlt_dec (draw rnd s k) p); split; intros; try reflexivity; contradiction.
  - intros q key Hq. apply H3. tauto.
Qed.
Print Assumptions C42_one_draw_per_node.

(* With draws in [0,1) (numpy's random()): probability 0 gives 0 everywhere, probability 1 gives 1 everywhere. *)
Theorem C42_extreme_probabilities : forall D e b pol c (S : Type) (rnd : generator S) A s,
  dims_ge2 D -> is_surface_code D e b pol c -> (forall s, 0 <= fst (rnd s) < 1)%R ->
  (forall v, In v (node_list (sc_graph c)) -> fst (iid_apply rnd 0 (node_list (sc_graph c)) A s) v "bit_val"%string = Some (VInt 0)) /\
  (forall v, In v (node_list (sc_graph c)) -> fst (iid_apply rnd 1 (node_list (sc_graph c)) A s) v "bit_val"%string = Some (VInt 1)).
Proof.
  intros D e b pol c S rnd A s HD HC Hr.
  split; intros v Hv; apply (@In_nth_error point) in Hv; destruct Hv as [k Hk];
    (destruct (C42_one_draw_per_node D e b pol c S rnd 0 A s HD HC) as (_ & H & _) || idtac);
    (destruct (C42_one_draw_per_node D e b pol c S rnd 1 A s HD HC) as (_ & H1 & _) || idtac);
    pose proof (Hr (after rnd s k)) as Hd; fold (draw rnd s k) in Hd.
  - apply (H k v Hk). lra.
  - apply (H1 k v Hk). lra.
Qed.
Print Assumptions C42_extreme_probabilities.

(* a generator that meets the hypothesis, on a concrete code *)
Definition demo_rnd : generator nat := fun n => ((if Nat.even n then 1/4 else 3/4)%R, Datatypes.S n).
Example C42_nonvacuous :
  dims_ge2 (2, 3, 2) /\ is_surface_code (2, 3, 2) EcDual BdToric None (mk_code (2, 3, 2) EcDual BdToric None) /\ (forall s, 0 <= fst (demo_rnd s) < 1)%R /\ iid_init (1/2) = Ok (1/2)%R.
Proof.
  split; [intros []; simpl; lia|]. split; [apply mk_code_ok|]. split.
  - intros s. unfold demo_rnd. destruct (Nat.even s); cbn [fst]; lra.
  - apply C42_probability_checked. lra.
Qed.

(* ================= C43: Monte Carlo bookkeeping ================= *)

(* The shares of the ranks: trial i belongs to exactly one rank, and together they make `trials`. *)
Theorem C43_each_trial_one_rank : forall size, 0 < size ->
  (forall i, 0 <= i -> exists! r, 0 <= r < size /\ i mod size = r) /\
  (forall trials, 0 <= trials -> zsum (map (fun r => Z.of_nat (share trials size (Z.of_nat r))) (seq 0 (Z.to_nat size))) = trials).
Proof.
  intros size Hs. split.
  - intros i Hi. exists (i mod size). split; [split; [apply Z.mod_pos_bound; lia|reflexivity]|]. intros r [_ <-]. reflexivity.
  - intros t Ht. transitivity (count (fun _ => true) t).
    + rewrite <- (sum_ranks (fun _ => true) size t Hs). f_equal. apply map_ext. intros r. unfold share. do 2 f_equal.
      induction (filter _ (py_range 0 t)) as [|x l IH]; [reflexivity|]. cbn [filter]. f_equal. exact IH.
    + unfold count. replace (filter (fun _ : Z => true) (py_range 0 t)) with (py_range 0 t); [rewrite length_py_range; lia|].
      induction (py_range 0 t) as [|x l IH]; [reflexivity|]. cbn [filter]. f_equal. exact IH.
Qed.
Print Assumptions C43_each_trial_one_rank.

(* In a world of any number of ranks, rank r starting in the r-th state of ss and obtaining the outcomes outs r in its
   share of the trials, rank 0 reports exactly the number of failed trials, where trial i is the (i/size)-th run of
   rank i mod size.  Every other rank reports errors = trials (see the next theorem). *)
Theorem C43_errors_at_root : forall (S : Type) (step : S -> S * res bool) trials (ss : list S) outs ends,
  0 <= trials -> ss <> [] ->
  let size := Z.of_nat (List.length ss) in
  (forall r s, nth_error ss r = Some s -> runs step s (outs r) (ends r) /\ List.length (outs r) = share trials size (Z.of_nat r)) ->
  let failed i := negb (nth (Z.to_nat (i / size)) (outs (Z.to_nat (i mod size))) false) in
  mc_mpi step trials ss 0 = Some (Ok (count failed trials)) /\ 0 <= count failed trials <= trials.
Proof.
  intros S step trials ss outs ends Ht Hss size Hr failed.
  pose proof (locals_ok step trials ss outs ends Hss Hr) as HL.
  pose proof (total_true step trials ss outs ends Ht Hss Hr) as HT. fold size in HT.
  set (ok := fun i => nth (Z.to_nat (i / size)) (outs (Z.to_nat (i mod size))) false) in *.
  pose proof (count_split ok trials Ht) as Hc. change (fun i => negb (ok i)) with failed in Hc. fold ok in HT.
  assert (Hnn : 0 <= count ok trials /\ 0 <= count failed trials) by (unfold count; lia).
  split; [|lia]. unfold mc_mpi. rewrite HL, all_ok_map. destruct ss as [|s ss']; [contradiction|].
  cbn [List.length seq map nth_error]. change (Nat.eqb 0 0) with true. cbn [map List.length seq] in HT. cbn match. rewrite HT. do 2 f_equal. lia.
Qed.
Print Assumptions C43_errors_at_root.

(* without MPI (one process, size 1): the same count *)
Theorem C43_errors_single_process : forall (S : Type) (step : S -> S * res bool) trials s outs s',
  0 <= trials -> runs step s outs s' -> Z.of_nat (List.length outs) = trials ->
  mc_single step trials 1 0 s = (s', Ok (Z.of_nat (List.length (filter negb outs)))) /\
  0 <= Z.of_nat (List.length (filter negb outs)) <= trials.
Proof.
  intros S step trials s outs s' Ht Hr Hl.
  assert (Hsh : List.length outs = share trials 1 0) by (rewrite share_eq by lia; rewrite Z.div_1_r; lia).
  unfold mc_single. rewrite (local_runs step trials 1 0 s outs s' ltac:(lia) Hr Hsh).
  assert (H : forall l : list bool, Z.of_nat (List.length (filter negb l)) = Z.of_nat (List.length l) - truth l).
  { induction l as [|x l IH]; [reflexivity|]. rewrite truth_cons. destruct x; cbn [filter negb List.length Z.b2z]; lia. }
  assert (Hle : 0 <= truth outs) by (unfold truth; lia). rewrite H, Hl. split; [reflexivity|]. pose proof (H outs). lia.
Qed.
Print Assumptions C43_errors_single_process.

(* "Every rank reports the number of failed trials" is false: the others report errors = trials, even when
   every trial succeeds. *)
Theorem C43_other_ranks_refuted : forall (S : Type) (step : S -> S * res bool) trials (ss : list S) outs ends,
  0 <= trials -> ss <> [] ->
  (forall r s, nth_error ss r = Some s -> runs step s (outs r) (ends r) /\ List.length (outs r) = share trials (Z.of_nat (List.length ss)) (Z.of_nat r)) ->
  forall r, (0 < r < List.length ss)%nat -> mc_mpi step trials ss r = Some (Ok trials).
Proof.
  intros S step trials ss outs ends Ht Hss Hr r Hrr. pose proof (locals_ok step trials ss outs ends Hss Hr) as HL.
  unfold mc_mpi. rewrite HL, all_ok_map.
  destruct (nth_error (map (@Ok Z) (map (fun r0 => truth (outs r0)) (seq 0 (List.length ss)))) r) as [x|] eqn:E.
  - apply nth_error_In, in_map_iff in E. destruct E as (n & <- & _). destruct (Nat.eqb_spec r 0) as [|_]; [lia|]. rewrite Z.sub_0_r. reflexivity.
  - apply nth_error_None in E. rewrite !map_length, seq_length in E. lia.
Qed.
Print Assumptions C43_other_ranks_refuted.

(* ec_monte_carlo with its default arguments fails after running every trial when mpi4py is importable, and
   mpi_size = 0 fails as soon as there is a trial. *)
Theorem C43_default_communicator_fails : forall (S : Type) (step : S -> S * res bool) trials s outs s',
  0 <= trials -> runs step s outs s' -> Z.of_nat (List.length outs) = trials ->
  mc_no_comm step trials 1 0 s = (s', Err AttributeError) /\
  (0 < trials -> snd (mc_single step trials 0 0 s) = Err ZeroDivisionError).
Proof.
  intros S step trials s outs s' Ht Hr Hl.
  assert (Hsh : List.length outs = share trials 1 0) by (rewrite share_eq by lia; rewrite Z.div_1_r; lia).
  split.
  - unfold mc_no_comm. rewrite (local_runs step trials 1 0 s outs s' ltac:(lia) Hr Hsh). reflexivity.
  - intros Hp. unfold mc_single, local_run. destruct (py_range 0 trials) as [|x l] eqn:E.
    + apply (f_equal (@List.length Z)) in E. rewrite length_py_range in E. cbn in E. lia.
    + reflexivity.
Qed.
Print Assumptions C43_default_communicator_fails.

(* three ranks, seven trials with scripted outcomes: the hypotheses are met and two failures are counted *)
Definition scripted (l : list bool) : list bool * res bool := match l with b :: l' => (l', Ok b) | [] => ([], Err PlainException) end.
Lemma scripted_runs l : runs scripted l l [].
Proof. induction l as [|b l IH]; [constructor|]. apply (runs_cons scripted (b :: l) b l l []); [reflexivity|exact IH]. Qed.
Example C43_nonvacuous :
  let ss := [[true; true; false]; [true; true]; [false; true]] in
  (forall r s, nth_error ss r = Some s -> runs scripted s (nth r ss []) [] /\ List.length (nth r ss []) = share 7 3 (Z.of_nat r)) /\
  mc_mpi scripted 7 ss 0 = Some (Ok 2) /\ mc_mpi scripted 7 ss 1 = Some (Ok 7).
Proof.
  split; [|split; vm_compute; reflexivity]. intros r s H. destruct r as [|[|[|r]]]; cbn [nth_error] in H; try discriminate; try (destruct r; discriminate); injection H as <-; (split; [apply scripted_runs|vm_compute; reflexivity]).
Qed.

(* ---------- the whole simulation with IID noise ---------- *)
Section Whole.
  Context {S : Type} (rnd : generator S) (p : R) (nodes : list point).
  Variable decode : (point -> bool) -> res ((point -> bool) * bool).
  Definition gen_trial (st : node_attrs * S) : (node_attrs * S) * res bool :=
    let '(A, s) := iid_apply rnd p nodes (fst st) (snd st) in
    match decode (bits_of A) with
    | Ok (bit, r) => ((store_bits nodes A bit, s), Ok r)
    | Err e => ((A, s), Err e)
    end.
  Hypothesis ND : NoDup nodes.
  Hypothesis total : forall bit, exists bit' r, decode bit = Ok (bit', r).
  (* good: the set of flipped nodes is corrected *)
  Variable good : (point -> Prop) -> Prop.
  Hypothesis good_ok : forall bit, good (fun q => In q nodes /\ bit q = true) -> exists bit', decode bit = Ok (bit', true).
  Hypothesis good_ext : forall P Q, (forall q, P q <-> Q q) -> good P -> good Q.

  Lemma gen_runs : forall n A s, exists outs st', runs gen_trial (A, s) outs st' /\ List.length outs = n /\
    forall t, (t < n)%nat -> good (flipped rnd s p nodes t) -> nth t outs false = true.
  Proof.
    induction n as [|n IH]; intros A s.
    { exists [], (A, s). split; [constructor|]. split; [reflexivity|]. intros; lia. }
    destruct (iid_apply_spec rnd p nodes A s ND) as (H1 & H2 & H3).
    destruct (iid_apply rnd p nodes A s) as [A1 s1] eqn:E. cbn [fst snd] in *.
    destruct (total (bits_of A1)) as (bit' & r & Hd).
    destruct (IH (store_bits nodes A1 bit') s1) as (outs & st' & Hr & Hl & Hg).
    exists (r :: outs), st'. split; [|split].
    - apply (runs_cons gen_trial (A, s) r (store_bits nodes A1 bit', s1) outs st'); [|exact Hr]. unfold gen_trial. cbn [fst snd]. rewrite E, Hd. reflexivity.
    - cbn [List.length]. lia.
    - intros [|t] Ht Hgood; cbn [nth].
      + destruct (good_ok (bits_of A1)) as (bit2 & H); [|congruence]. revert Hgood. apply good_ext. intros q. unfold flipped. cbn [Nat.mul Nat.add]. split.
        * intros (k & Hk & Hlt). split; [apply (@nth_error_In point) in Hk; exact Hk|]. unfold bits_of. rewrite (H2 k q Hk). destruct (Rlt_dec (draw rnd s k) p); [reflexivity|contradiction].
        * intros [Hq Hb]. apply (@In_nth_error point) in Hq. destruct Hq as [k Hk]. exists k. split; [exact Hk|]. unfold bits_of in Hb. rewrite (H2 k q Hk) in Hb. destruct (Rlt_dec (draw rnd s k) p); [assumption|discriminate].
      + apply (Hg t); [lia|]. revert Hgood. apply good_ext. intros q. unfold flipped. rewrite H1.
        split; intros (k & Hk & Hlt); exists k; (split; [exact Hk|]); rewrite draw_add in *; cbn [Nat.mul] in *; rewrite <- Nat.add_assoc in *; exact Hlt.
  Qed.

  Lemma gen_errors : forall trials A s (bad : list nat), 0 <= trials ->
    (forall t, (t < Z.to_nat trials)%nat -> ~ In t bad -> good (flipped rnd s p nodes t)) ->
    exists st' errors, mc_single gen_trial trials 1 0 (A, s) = (st', Ok errors) /\ 0 <= errors <= Z.of_nat (List.length bad).
  Proof.
    intros trials A s bad Ht Hb. destruct (gen_runs (Z.to_nat trials) A s) as (outs & st' & Hr & Hl & Hg).
    destruct (C43_errors_single_process _ gen_trial trials (A, s) outs st' Ht Hr ltac:(clear - Hl Ht; lia)) as [H _].
    exists st', (Z.of_nat (List.length (filter negb outs))). split; [exact H|]. split; [clear; lia|].
    assert (Hlen : (List.length (filter negb outs) <= List.length (filter (fun t => negb (nth t outs false)) (seq 0 (List.length outs))))%nat).
    { clear. induction outs as [|b l IH]; [reflexivity|]. cbn [List.length seq filter nth]. rewrite <- seq_shift.
      destruct b; cbn [negb List.length]; rewrite filter_map_len; cbn [nth]; clear - IH; lia. }
    assert (Hle : (List.length (filter (fun t => negb (nth t outs false)) (seq 0 (List.length outs))) <= List.length bad)%nat).
    { apply NoDup_incl_length; [apply NoDup_filter, seq_NoDup|]. intros t Hi. apply filter_In in Hi. destruct Hi as [Hi Hn]. apply in_seq in Hi.
      destruct (in_dec Nat.eq_dec t bad) as [|Hnb]; [assumption|]. rewrite (Hg t) in Hn; [discriminate|clear - Hi Hl; lia|]. apply Hb; [clear - Hi Hl; lia|exact Hnb]. }
    clear - Hlen Hle. lia.
  Qed.
End Whole.

(* A complete simulation with IidNoise and the MWPM decoder with uniform weights: it runs to its end, and the number of
   reported errors is at most the number of trials in which the noise flips d/2 or more syndrome qubits (d: the
   smallest size in a direction with a logical plane).  In particular it reports 0 if there is no such trial. *)
Theorem C43_iid_mwpm_simulation : forall D e b pol c ch rp o pick (S : Type) (rnd : generator S) p trials A s (bad : list nat) n,
  dims_ge2 D -> is_surface_code D e b pol c -> valid_choice (sc_stabs c) ch -> rp = nx_report \/ rp = rx_report 1 ->
  oracle_ok (sg_edges (sc_stabs c) (sc_bound c) ch) (fun _ => 1) o -> (forall mg, best_matching mg (pick mg)) -> 0 <= trials ->
  (forall a, In a (logical_axes e b) -> 2 * Z.of_nat n < get a D) ->
  (forall t, (t < Z.to_nat trials)%nat -> ~ In t bad -> at_most n (fun q => In q (sc_syn c) /\ flipped rnd s p (node_list (sc_graph c)) t q)) ->
  exists st' errors, mc_single (iid_mwpm_trial rnd p c ch rp o pick) trials 1 0 (A, s) = (st', Ok errors) /\ 0 <= errors <= Z.of_nat (List.length bad).
Proof.
  intros D e b pol c ch rp o pick S rnd p trials A s bad n HD HC Hch Hrp Ho Hpick Ht Hn Hb.
  pose proof (code_nodes_NoDup D e b pol c HD HC) as ND.
  pose proof (surface_code_facts D e b pol c (ge2_ok D (code_bnds e b) HD) HC) as CF.
  apply (gen_errors rnd p (node_list (sc_graph c)) (fun bit => correct_mwpm rp c ch (fun _ => 1) o pick bit false) ND)
    with (good := fun P => at_most n (fun q => In q (sc_syn c) /\ P q)); [| | |exact Ht|exact Hb].
  - intros bit. destruct (C14_mwpm_clears_syndrome D e b pol c ch rp (fun _ => 1) o pick bit false HD HC Hch Ho Hpick) as (qs & bit' & r & _ & _ & _ & _ & Hc & _). exists bit', r. exact Hc.
  - intros bit (l & Hl & Hin). apply (C15_mwpm_corrects_small_errors D e b pol c ch rp o pick bit false HD HC Hch Hrp Ho Hpick).
    intros a Ha. specialize (Hn a Ha).
    assert (Hle : (List.length (filter bit (sc_syn c)) <= List.length l)%nat).
    { apply NoDup_incl_length; [apply NoDup_filter, (cf_syn_nd _ _ _ _ _ CF)|]. intros q Hq. apply filter_In in Hq. apply Hin. split; [apply Hq|].
      split; [|apply Hq]. destruct (C05_qubits_checked_once_or_twice D e b pol c HD HC) as (_ & H & _). apply H. apply Hq. }
    lia.
  - intros P Q HPQ (l & Hl & Hin). exists l. split; [exact Hl|]. intros q [Hq1 Hq2]. apply Hin. split; [exact Hq1|]. apply HPQ. exact Hq2.
Qed.
Print Assumptions C43_iid_mwpm_simulation.

(* with error probability 0 both decoders report no error at all, after any number of trials *)
Theorem C43_no_noise_no_errors : forall D e b pol c ch rp o pick er lib sch fuel (S : Type) (rnd : generator S) trials A s,
  dims_ge2 D -> is_surface_code D e b pol c -> valid_choice (sc_stabs c) ch -> 0 <= trials -> (forall s, 0 <= fst (rnd s) < 1)%R ->
  let E := sg_edges (sc_stabs c) (sc_bound c) ch in
  (rp = nx_report \/ rp = rx_report 1 -> oracle_ok E (fun _ => 1) o -> (forall mg, best_matching mg (pick mg)) ->
     snd (mc_single (iid_mwpm_trial rnd 0 c ch rp o pick) trials 1 0 (A, s)) = Ok 0) /\
  (lib_ok E lib -> sched_ok sch -> (2 * List.length E + 2 <= fuel)%nat ->
     snd (mc_single (iid_uf_trial rnd 0 c ch er lib sch fuel) trials 1 0 (A, s)) = Ok 0).
Proof.
  intros D e b pol c ch rp o pick er lib sch fuel S rnd trials A s HD HC Hch Ht Hr E.
  assert (Hno : forall t q, ~ flipped rnd s 0 (node_list (sc_graph c)) t q).
  { intros t q (k & _ & Hlt). unfold draw in Hlt. pose proof (Hr (after rnd s (t * List.length (node_list (sc_graph c)) + k))). lra. }
  split.
  - intros Hrp Ho Hpick.
    destruct (C43_iid_mwpm_simulation D e b pol c ch rp o pick S rnd 0 trials A s [] 0 HD HC Hch Hrp Ho Hpick Ht) as (st' & er' & H & Hb).
    + intros a Ha. pose proof (HD a). lia.
    + intros t _ _. exists []. split; [reflexivity|]. intros q [_ Hq]. apply (Hno t q Hq).
    + rewrite H. cbn [snd]. f_equal. cbn [List.length] in Hb. lia.
  - intros Hlib Hsch Hf.
    destruct (gen_errors rnd 0 (node_list (sc_graph c)) (fun bit => correct_uf c ch er lib sch fuel bit false) (code_nodes_NoDup D e b pol c HD HC))
      with (good := fun P : point -> Prop => forall q, ~ P q) (trials := trials) (A := A) (s := s) (bad := @nil nat) as (st' & er' & H & Hb).
    + intros bit. destruct (C22_uf_clears_syndrome D e b pol c ch er lib sch fuel bit false HD HC Hch Hlib Hsch Hf) as (qs & bit' & r & _ & _ & _ & _ & Hc & _). exists bit', r. exact Hc.
    + intros bit Hz.
      pose proof (surface_code_facts D e b pol c (ge2_ok D (code_bnds e b) HD) HC) as CF.
      assert (Hsyn : forall q, In q (sc_syn c) -> bit q = false).
      { intros q Hq. destruct (bit q) eqn:Eb; [|reflexivity]. exfalso. apply (Hz q). split; [|exact Eb].
        destruct (C05_qubits_checked_once_or_twice D e b pol c HD HC) as (_ & H & _). apply H. exact Hq. }
      assert (Hst : forall st q, In st (sc_stabs c) -> In q st -> In q (sc_syn c)).
      { intros st q Hs Hq. apply (stab_syn D e b pol c HD HC st q Hs Hq). }
      destruct (C22_no_syndrome_no_flip D e b pol c ch er lib sch fuel bit false HD HC Hch Hlib Hsch Hf) as (bit' & r & Hc & Hb').
      { intros st Hs. unfold stab_parity. apply xsum_all_false. intros q Hq. apply Hsyn. apply (Hst st q Hs Hq). }
      exists bit'. rewrite Hc. do 2 f_equal. unfold correct_uf in Hc.
      destruct (uf_decoder _ _ _ _ _ _) as [qs|] in Hc; [|discriminate]. cbn [bind] in Hc. destruct (recovery _ _ _) as [b2|] in Hc; [|discriminate]. cbn [bind] in Hc.
      rewrite (check_correction_eq D e b pol c HD HC) in Hc. cbn [bind] in Hc. injection Hc as <- <-.
      apply forallb_forall. intros a _. apply negb_true_iff. unfold plane. apply xsum_all_false. intros q Hq. rewrite Hb', (Hsyn q Hq). apply andb_false_r.
    + intros P Q HPQ HP q Hq. apply (HP q). apply HPQ. exact Hq.
    + exact Ht.
    + intros t _ _ q Hq. apply (Hno t q Hq).
    + change (mc_single (gen_trial rnd 0 (node_list (sc_graph c)) (fun bit => correct_uf c ch er lib sch fuel bit false)) trials 1 0 (A, s)) with (mc_single (iid_uf_trial rnd 0 c ch er lib sch fuel) trials 1 0 (A, s)) in H.
      rewrite H. cbn [snd]. f_equal. cbn [List.length] in Hb. lia.
Qed.
Print Assumptions C43_no_noise_no_errors.

(* a generator that flips exactly the first node in every trial, on a code of size three *)
Definition one_rnd (N : nat) : generator nat := fun n => ((if Nat.eqb (n mod N) 0 then 1/4 else 3/4)%R, Datatypes.S n).
Example C43_iid_nonvacuous :
  let c := mk_code (3, 3, 3) EcPrimal BdToric None in
  let nodes := node_list (sc_graph c) in
  forall ch, exists o pick, oracle_ok (sg_edges (sc_stabs c) (sc_bound c) ch) (fun _ => 1) o /\ (forall mg, best_matching mg (pick mg)) /\
  (forall a, In a (logical_axes EcPrimal BdToric) -> 2 * Z.of_nat 1 < get a (3, 3, 3)) /\
  (forall t, at_most 1 (fun q => In q (sc_syn c) /\ flipped (one_rnd (List.length nodes)) 0%nat (1/2) nodes t q)) /\
  (forall t, exists q, flipped (one_rnd (List.length nodes)) 0%nat (1/2) nodes t q).
Proof.
  intros c nodes ch.
  assert (Hne : nodes <> []) by (intros H; apply (f_equal (@List.length point)) in H; vm_compute in H; discriminate).
  destruct (C14_nonvacuous (3,3,3) EcPrimal BdToric None c ch (fun _ => 1) (mk_code_ok _ _ _ _) ltac:(intros; lia)) as (o & pick & Ho & Hp).
  exists o, pick. split; [exact Ho|]. split; [exact Hp|]. split; [intros a _; destruct a; cbn [get]; lia|].
  set (N := List.length nodes).
  assert (HN : (0 < N)%nat) by (unfold N; destruct nodes; [contradiction|cbn [List.length]; lia]).
  assert (Ha : forall k, after (one_rnd N) 0%nat k = k) by (induction k as [|k IH]; [reflexivity|]; cbn [after]; rewrite IH; reflexivity).
  assert (Hdr : forall t k, (k < N)%nat -> draw (one_rnd N) 0%nat (t * N + k) = if Nat.eqb k 0 then (1/4)%R else (3/4)%R).
  { intros t k Hk. unfold draw, one_rnd. fold (one_rnd N). rewrite Ha. cbn [fst]. rewrite Nat.add_comm, Nat.mod_add, Nat.mod_small by lia. reflexivity. }
  split.
  - intros t. exists [hd (0,0,0) nodes]. split; [reflexivity|]. intros q (_ & k & Hk & Hd). fold N in Hd.
    assert (Hlt : (k < N)%nat) by (apply nth_error_Some; rewrite Hk; discriminate). rewrite (Hdr t k Hlt) in Hd. destruct k as [|k]; [|cbn [Nat.eqb] in Hd; exfalso; clear - Hd; lra].
    left. clear - Hk. destruct nodes; [discriminate|]. cbn in Hk. injection Hk as <-. reflexivity.
  - intros t. exists (hd (0,0,0) nodes). exists 0%nat. split; [clear - Hne; destruct nodes; [contradiction|reflexivity]|]. fold N. rewrite (Hdr t 0%nat HN). cbn [Nat.eqb]. lra.
Qed.
