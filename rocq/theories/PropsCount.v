(* PropsCount.v: C62, the number of errors a simulation reports is exactly the number of trials that damage the
   encoded information. *)
From Coq Require Import String Reals Lra.
From Verif Require Import Base Lattice RhgModel RhgSpec RhgDegree SurfaceModel SurfaceSpec SurfaceProofs SurfaceIncidence SurfaceTheorems StabGraphModel PropsRhg PropsSurface MwpmModel MwpmInst PropsMwpm UfModel UfSpec UfInst PropsUf PropsUfDist.
From Verif Require Import SimModel SimSpec SimProofs SimTrial PropsSim PropsSimUf CvMacroGauge PropsHomology.
Open Scope Z_scope.

(* What one trial did: `noise` are the bits that the draws of run t of the generator state s give to the nodes of the
   code, `after` the bits when correct() has flipped the qubits of the recovery; no stabilizer is odd any more. *)
Definition one_trial {S} (c : scode) (rnd : generator S) (p : R) (correct : (point -> bool) -> res ((point -> bool) * bool)) (s : S) (t : nat)
    (noise after : point -> bool) : Prop :=
  (forall q, In q (node_list (sc_graph c)) -> (noise q = true <-> flipped rnd s p (node_list (sc_graph c)) t q)) /\
  (exists r, correct noise = Ok (after, r)) /\
  (exists qs, incl qs (sc_syn c) /\ forall q, after q = xorb (noise q) (pmem q qs)) /\
  (forall st, In st (sc_stabs c) -> stab_parity after st = false).

(* Trial i is run t of a generator that started in state s: (t, s) = run i.  The trials whose remaining bits act on
   the encoded information are exactly those of `bad`, and `errors` is their number. *)
Definition counts_failures {S} (c : scode) (rnd : generator S) (p : R) (correct : (point -> bool) -> res ((point -> bool) * bool)) (trials : Z)
    (run : Z -> nat * S) (errors : Z) : Prop :=
  exists (noise after : Z -> point -> bool) (bad : list Z), NoDup bad /\ (forall i, In i bad -> 0 <= i < trials) /\ errors = Z.of_nat (List.length bad) /\
    forall i, 0 <= i < trials -> one_trial c rnd p correct (snd (run i)) (fst (run i)) (noise i) (after i) /\ (In i bad <-> ~ gauge_pattern c (after i)).

(* ---------- counting, for any kind of trial ---------- *)
Section Count.
  Context {St Info : Type} (step : St -> St * res bool).
  (* run t from the state s did what Info says and had that outcome *)
  Variable did : St -> nat -> Info -> bool -> Prop.
  Variable fit : St -> Prop.
  Variable none : Info.
  Hypothesis all_run : forall n s, fit s -> exists outs st' (info : nat -> Info), runs step s outs st' /\ List.length outs = n /\ forall t, (t < n)%nat -> did s t (info t) (nth t outs false).

  Lemma gen_serial trials s : 0 <= trials -> fit s -> exists st' errors (info : Z -> Info) (bad : list Z), mc_single step trials 1 0 s = (st', Ok errors) /\
    NoDup bad /\ (forall i, In i bad -> 0 <= i < trials) /\ errors = Z.of_nat (List.length bad) /\
    forall i, 0 <= i < trials -> exists r, did s (Z.to_nat i) (info i) r /\ (In i bad <-> r = false).
  Proof.
    intros Ht Hs. destruct (all_run (Z.to_nat trials) s Hs) as (outs & st' & tr & Hr & Hl & Hg).
    destruct (C43_errors_single_process _ _ trials s outs st' Ht Hr ltac:(lia)) as [H _].
    eexists st', _, (fun i => tr (Z.to_nat i)), (filter (fun i => negb (nth (Z.to_nat i) outs false)) (py_range 0 trials)). split; [exact H|].
    split; [apply NoDup_filter, NoDup_py_range|]. split; [intros i Hi; apply filter_In in Hi; destruct Hi as [Hi _]; apply in_py_range in Hi; lia|]. split.
    - f_equal. replace trials with (Z.of_nat (List.length outs)) by lia. clear. unfold py_range. rewrite Z.sub_0_r, Nat2Z.id, filter_map_len.
      rewrite (filter_ext _ (fun t => negb (nth t outs false))) by (intros t; do 2 f_equal; lia).
      induction outs as [|x l IH]; [reflexivity|]. cbn [List.length seq filter nth]. rewrite <- seq_shift.
      destruct x; cbn [negb List.length]; rewrite filter_map_len; cbn [nth]; rewrite IH; reflexivity.
    - intros i Hi. exists (nth (Z.to_nat i) outs false). split; [apply Hg; lia|].
      rewrite filter_In, in_py_range, negb_true_iff. split; [intros [_ K]; exact K|intros K; split; [lia|exact K]].
  Qed.

  Lemma gen_mpi trials (ss : list St) (d : St) : 0 <= trials -> ss <> [] -> Forall fit ss -> let size := Z.of_nat (List.length ss) in exists errors (info : Z -> Info) (bad : list Z),
    mc_mpi step trials ss 0 = Some (Ok errors) /\ NoDup bad /\ (forall i, In i bad -> 0 <= i < trials) /\ errors = Z.of_nat (List.length bad) /\
    forall i, 0 <= i < trials -> exists r, did (nth (Z.to_nat (i mod size)) ss d) (Z.to_nat (i / size)) (info i) r /\ (In i bad <-> r = false).
  Proof.
    intros Ht Hss Hfit size.
    assert (Hpos : 0 < size) by (unfold size; destruct ss; [contradiction|cbn [List.length]; lia]).
    destruct (list_choice (@nil bool, d) (fun _ : nat => none) ss
       (fun r s oe tr => runs step s (fst oe) (snd oe) /\ List.length (fst oe) = share trials size (Z.of_nat r) /\
          forall t, (t < share trials size (Z.of_nat r))%nat -> did s t (tr t) (nth t (fst oe) false))) as (oe & tr & Ho).
    { intros r s Hrs. destruct (all_run (share trials size (Z.of_nat r)) s) as (outs & st' & tr & H1 & H2 & H3).
      - rewrite Forall_forall in Hfit. apply Hfit. apply nth_error_In in Hrs. exact Hrs.
      - exists (outs, st'), tr. auto. }
    destruct (C43_errors_at_root _ step trials ss (fun r => fst (oe r)) (fun r => snd (oe r)) Ht Hss) as [H _].
    { intros r s Hr. destruct (Ho r s Hr) as (H1 & H2 & _). auto. }
    fold size in H. unfold count in H.
    eexists _, (fun i => tr (Z.to_nat (i mod size)) (Z.to_nat (i / size))), (filter (fun i => negb (nth (Z.to_nat (i / size)) (fst (oe (Z.to_nat (i mod size)))) false)) (py_range 0 trials)). split; [exact H|].
    split; [apply NoDup_filter, NoDup_py_range|]. split; [intros i Hi; apply filter_In in Hi; destruct Hi as [Hi _]; apply in_py_range in Hi; lia|]. split; [reflexivity|].
    intros i Hi. pose proof (Z.mod_pos_bound i size Hpos) as Hm.
    destruct (nth_error ss (Z.to_nat (i mod size))) as [As|] eqn:En; [|apply nth_error_None in En; unfold size in *; lia].
    rewrite (nth_error_nth _ _ _ En). destruct (Ho _ _ En) as (_ & _ & H3).
    assert (Hlt : (Z.to_nat (i / size) < share trials size (Z.of_nat (Z.to_nat (i mod size))))%nat).
    { rewrite share_eq by lia. rewrite Z2Nat.id by lia. apply Z2Nat.inj_lt; [apply Z.div_pos; lia|apply Z.div_pos; lia|].
      apply Z.lt_le_trans with (i / size + 1); [lia|]. pose proof (Z.div_mod i size ltac:(lia)) as Hdm. apply Z.div_le_lower_bound; lia. }
    exists (nth (Z.to_nat (i / size)) (fst (oe (Z.to_nat (i mod size)))) false). split; [apply H3; exact Hlt|].
    rewrite filter_In, in_py_range, negb_true_iff. split; [intros [_ K]; exact K|intros K; split; [lia|exact K]].
  Qed.
End Count.

Section Exact.
  Context {S : Type} (rnd : generator S) (p : R) (nodes : list point).
  Variable decode : (point -> bool) -> res ((point -> bool) * bool).
  Hypothesis ND : NoDup nodes.
  Hypothesis total : forall bit, exists bit' r, decode bit = Ok (bit', r).

  Lemma full_runs : forall n A s, exists outs st' (tr : nat -> (point -> bool) * (point -> bool)), runs (gen_trial rnd p nodes decode) (A, s) outs st' /\ List.length outs = n /\
    forall t, (t < n)%nat -> (forall q, In q nodes -> (fst (tr t) q = true <-> flipped rnd s p nodes t q)) /\ decode (fst (tr t)) = Ok (snd (tr t), nth t outs false).
  Proof.
    induction n as [|n IH]; intros A s.
    { exists [], (A, s), (fun _ => (fun _ => false, fun _ => false)). split; [constructor|]. split; [reflexivity|]. intros; lia. }
    destruct (iid_apply_spec rnd p nodes A s ND) as (H1 & H2 & H3).
    destruct (iid_apply rnd p nodes A s) as [A1 s1] eqn:E. cbn [fst snd] in *.
    destruct (total (bits_of A1)) as (bit' & r & Hd).
    destruct (IH (store_bits nodes A1 bit') s1) as (outs & st' & tr & Hr & Hl & Hg).
    exists (r :: outs), st', (fun t => match t with O => (bits_of A1, bit') | Datatypes.S t' => tr t' end). split; [|split].
    - apply (runs_cons (gen_trial rnd p nodes decode) (A, s) r (store_bits nodes A1 bit', s1) outs st'); [|exact Hr]. unfold gen_trial. cbn [fst snd]. rewrite E, Hd. reflexivity.
    - cbn [List.length]. lia.
    - intros [|t] Ht; cbn [nth fst snd].
      + split; [|exact Hd]. intros q Hq. unfold flipped. cbn [Nat.mul Nat.add]. split.
        * intros Hb. apply (@In_nth_error point) in Hq. destruct Hq as [k Hk]. exists k. split; [exact Hk|]. unfold bits_of in Hb. rewrite (H2 k q Hk) in Hb. destruct (Rlt_dec (draw rnd s k) p); [assumption|discriminate].
        * intros (k & Hk & Hlt). unfold bits_of. rewrite (H2 k q Hk). destruct (Rlt_dec (draw rnd s k) p); [reflexivity|contradiction].
      + destruct (Hg t ltac:(lia)) as [G1 G2]. split; [|exact G2]. intros q Hq. rewrite (G1 q Hq). unfold flipped. rewrite H1.
        split; intros (k & Hk & Hlt); exists k; (split; [exact Hk|]); rewrite draw_add in *; cbn [Nat.mul] in *; rewrite <- Nat.add_assoc in *; exact Hlt.
  Qed.
End Exact.

Section Decoders.
  Variables (D : Z * Z * Z) (e : ecx) (b : bdk) (pol : option (point * point -> Z)) (c : scode) (ch : nat -> nat -> point).
  Hypotheses (HD : dims_ge2 D) (HC : is_surface_code D e b pol c) (Hch : valid_choice (sc_stabs c) ch).
  Let E := sg_edges (sc_stabs c) (sc_bound c) ch.

  Lemma recovery_points qs bit bit' : NoDup qs -> (forall x, In x qs -> exists q, x = Some q /\ In q (sc_syn c)) -> recovery (node_list (sc_graph c)) qs bit = Ok bit' ->
    exists l, incl l (sc_syn c) /\ forall q, bit' q = xorb (bit q) (pmem q l).
  Proof.
    intros Hnd Hin Hr. destruct (C13_recovery_flips_exactly (node_list (sc_graph c)) qs bit Hnd) as [H _].
    destruct H as (bit2 & R & R1 & R2 & _).
    { intros x Hx. destruct (Hin x Hx) as (q & -> & Hq). exists q. split; [reflexivity|]. destruct (C05_qubits_checked_once_or_twice D e b pol c HD HC) as (_ & H & _). apply H. exact Hq. }
    assert (bit2 = bit') by congruence. subst bit2.
    exists (flat_map (fun x => match x with Some q => [q] | None => [] end) qs).
    assert (M : forall q, In q (flat_map (fun x => match x with Some q => [q] | None => [] end) qs) <-> In (Some q) qs).
    { intros q. rewrite in_flat_map. split; [intros ([y|] & Hy & K); [destruct K as [->|[]]; exact Hy|destruct K]|intros Hq; exists (Some q); split; [exact Hq|left; reflexivity]]. }
    split.
    - intros q Hq. apply M in Hq. destruct (Hin _ Hq) as (q' & K & Hq'). injection K as ->. exact Hq'.
    - intros q. destruct (pmem q _) eqn:Em.
      + apply pmem_In, M in Em. rewrite (R1 q Em). destruct (bit q); reflexivity.
      + rewrite xorb_false_r. apply R2. intros K. apply M, pmem_In in K. congruence.
  Qed.

  Lemma exact_mwpm rp w o pick sanity bit : oracle_ok E w o -> (forall mg, best_matching mg (pick mg)) -> exists bit' r qs,
    correct_mwpm rp c ch w o pick bit sanity = Ok (bit', r) /\ (incl qs (sc_syn c) /\ forall q, bit' q = xorb (bit q) (pmem q qs)) /\
    (forall st, In st (sc_stabs c) -> stab_parity bit' st = false) /\ (r = true <-> gauge_pattern c bit').
  Proof.
    intros Ho Hp. destruct (C14_mwpm_clears_syndrome D e b pol c ch rp w o pick bit sanity HD HC Hch Ho Hp) as (qs & bit' & r & _ & Q1 & Q2 & Q3 & Q4 & Q5).
    destruct (recovery_points qs bit bit' Q1 Q2 Q3) as (l & Hl & Hx). exists bit', r, l. split; [exact Q4|]. split; [split; assumption|]. split; [exact Q5|].
    destruct (C61_success_exact D e b pol c ch bit sanity HD HC Hch) as [K _]. destruct (K rp w o pick Ho Hp) as (bit2 & r2 & K1 & K2). rewrite Q4 in K1. injection K1 as <- <-. exact K2.
  Qed.

  Lemma exact_uf er lib sch fuel sanity bit : lib_ok E lib -> sched_ok sch -> (2 * List.length E + 2 <= fuel)%nat -> exists bit' r qs,
    correct_uf c ch er lib sch fuel bit sanity = Ok (bit', r) /\ (incl qs (sc_syn c) /\ forall q, bit' q = xorb (bit q) (pmem q qs)) /\
    (forall st, In st (sc_stabs c) -> stab_parity bit' st = false) /\ (r = true <-> gauge_pattern c bit').
  Proof.
    intros Hl Hs Hf. destruct (C22_uf_clears_syndrome D e b pol c ch er lib sch fuel bit sanity HD HC Hch Hl Hs Hf) as (qs & bit' & r & _ & Q1 & Q2 & Q3 & Q4 & _ & Q5).
    destruct (recovery_points qs bit bit' Q1 Q2 Q3) as (l & Hl' & Hx). exists bit', r, l. split; [exact Q4|]. split; [split; assumption|]. split; [exact Q5|].
    destruct (C61_success_exact D e b pol c ch bit sanity HD HC Hch) as [_ K]. destruct (K er lib sch fuel Hl Hs Hf) as (bit2 & r2 & K1 & K2). rewrite Q4 in K1. injection K1 as <- <-. exact K2.
  Qed.
End Decoders.

(* C62.  A simulation with IidNoise on a surface code, with either decoder, alone or in a world of any number of MPI
   ranks, runs to its end, and the number of errors it reports (rank 0 in an MPI world) is exactly the number of trials in
   which noise and recovery together act on the encoded information, i.e. are not a gauge pattern. *)
Theorem C62_errors_are_logical_failures : forall D e b pol c ch (S : Type) (rnd : generator S) p trials,
  dims_ge2 D -> is_surface_code D e b pol c -> valid_choice (sc_stabs c) ch -> 0 <= trials ->
  let E := sg_edges (sc_stabs c) (sc_bound c) ch in
  forall trial correct,
  (exists rp o pick, oracle_ok E (fun _ => 1) o /\ (forall mg, best_matching mg (pick mg)) /\
     trial = iid_mwpm_trial rnd p c ch rp o pick /\ correct = (fun bit => correct_mwpm rp c ch (fun _ => 1) o pick bit false)) \/
  (exists er lib sch fuel, lib_ok E lib /\ sched_ok sch /\ (2 * List.length E + 2 <= fuel)%nat /\
     trial = iid_uf_trial rnd p c ch er lib sch fuel /\ correct = (fun bit => correct_uf c ch er lib sch fuel bit false)) ->
  (forall A s, exists st' errors, mc_single trial trials 1 0 (A, s) = (st', Ok errors) /\
     counts_failures c rnd p correct trials (fun i => (Z.to_nat i, s)) errors) /\
  (forall (ss : list (node_attrs * S)) d, ss <> [] -> let size := Z.of_nat (List.length ss) in exists errors, mc_mpi trial trials ss 0 = Some (Ok errors) /\
     counts_failures c rnd p correct trials (fun i => (Z.to_nat (i / size), snd (nth (Z.to_nat (i mod size)) ss d))) errors).
Proof.
  intros D e b pol c ch S rnd p trials HD HC Hch Ht E trial correct Hdec.
  assert (K : (forall bit, exists bit' r qs, correct bit = Ok (bit', r) /\ (incl qs (sc_syn c) /\ forall q, bit' q = xorb (bit q) (pmem q qs)) /\
    (forall st, In st (sc_stabs c) -> stab_parity bit' st = false) /\ (r = true <-> gauge_pattern c bit')) /\ trial = gen_trial rnd p (node_list (sc_graph c)) correct).
  { destruct Hdec as [(rp & o & pick & Ho & Hp & -> & ->)|(er & lib & sch & fuel & Hl & Hs & Hf & -> & ->)]; (split; [|reflexivity]); intros bit.
    - apply (exact_mwpm D e b pol c ch HD HC Hch); assumption.
    - apply (exact_uf D e b pol c ch HD HC Hch); assumption. }
  destruct K as [K ->].
  set (did := fun (st : node_attrs * S) (t : nat) (na : (point -> bool) * (point -> bool)) (r : bool) =>
         one_trial c rnd p correct (snd st) t (fst na) (snd na) /\ (r = true <-> gauge_pattern c (snd na))).
  assert (Run : forall n (st : node_attrs * S), True -> exists outs st' info, runs (gen_trial rnd p (node_list (sc_graph c)) correct) st outs st' /\ List.length outs = n /\
      forall t, (t < n)%nat -> did st t (info t) (nth t outs false)).
  { intros n [A s] _. destruct (full_runs rnd p (node_list (sc_graph c)) correct (code_nodes_NoDup D e b pol c HD HC)) with (n := n) (A := A) (s := s) as (outs & st' & tr & R1 & R2 & R3).
    - intros bit. destruct (K bit) as (bit' & r & qs & H & _). eauto.
    - exists outs, st', tr. split; [exact R1|]. split; [exact R2|]. intros t Htt. destruct (R3 t Htt) as [G1 G2].
      destruct (K (fst (tr t))) as (bit' & r' & qs & E1 & E2 & E3 & E4). rewrite G2 in E1. injection E1 as E1 E1'. subst bit' r'. unfold did. cbn [snd].
      split; [|exact E4]. split; [exact G1|]. split; [eauto|]. split; [exists qs; exact E2|exact E3]. }
  assert (Neg : forall (bad : list Z) i r (P : Prop), (r = true <-> P) -> (In i bad <-> r = false) -> (In i bad <-> ~ P)).
  { intros bad i r P H1 H3. rewrite H3, <- H1. destruct r; split; [discriminate|intros H; contradiction|discriminate|reflexivity]. }
  split.
  - intros A s. destruct (gen_serial _ did (fun _ => True) Run trials (A, s) Ht I) as (st' & errors & info & bad & G1 & G2 & G3 & G4 & G5).
    exists st', errors. split; [exact G1|]. exists (fun i => fst (info i)), (fun i => snd (info i)), bad. split; [exact G2|]. split; [exact G3|]. split; [exact G4|].
    intros i Hi. destruct (G5 i Hi) as (r & [O1 O2] & O3). split; [exact O1|]. exact (Neg bad i r _ O2 O3).
  - intros ss d Hss size. destruct (gen_mpi _ did (fun _ => True) (fun _ => false, fun _ => false) Run trials ss d Ht Hss ltac:(apply Forall_forall; auto)) as (errors & info & bad & G1 & G2 & G3 & G4 & G5).
    exists errors. split; [exact G1|]. exists (fun i => fst (info i)), (fun i => snd (info i)), bad. split; [exact G2|]. split; [exact G3|]. split; [exact G4|].
    intros i Hi. destruct (G5 i Hi) as (r & [O1 O2] & O3). split; [exact O1|]. exact (Neg bad i r _ O2 O3).
Qed.
Print Assumptions C62_errors_are_logical_failures.

(* The same for noise that is known only up to gauge, as the bits of the continuous-variable noise models are
   (C52_bits, C57): if the bits are a gauge pattern plus errors `err`, correct() answers True exactly if errors and recovery
   together are a gauge pattern; the gauge pattern itself is never counted as an error. *)
Theorem C62_gauge_noise : forall D e b pol c ch bit gauge err sanity, dims_ge2 D -> is_surface_code D e b pol c -> valid_choice (sc_stabs c) ch ->
  gauge_pattern c gauge -> (forall q, In q (sc_syn c) -> bit q = xorb (gauge q) (err q)) ->
  let E := sg_edges (sc_stabs c) (sc_bound c) ch in
  forall correct,
  (exists rp w o pick, oracle_ok E w o /\ (forall mg, best_matching mg (pick mg)) /\ correct = correct_mwpm rp c ch w o pick) \/
  (exists er lib sch fuel, lib_ok E lib /\ sched_ok sch /\ (2 * List.length E + 2 <= fuel)%nat /\ correct = correct_uf c ch er lib sch fuel) ->
  exists bit' r qs, correct bit sanity = Ok (bit', r) /\ incl qs (sc_syn c) /\ (forall q, bit' q = xorb (bit q) (pmem q qs)) /\
    (forall st, In st (sc_stabs c) -> stab_parity (fun q => xorb (err q) (pmem q qs)) st = false) /\
    (r = true <-> gauge_pattern c (fun q => xorb (err q) (pmem q qs))).
Proof.
  intros D e b pol c ch bit gauge err sanity HD HC Hch (s & Hs) Hbit E correct Hdec.
  assert (K : exists bit' r qs, correct bit sanity = Ok (bit', r) /\ (incl qs (sc_syn c) /\ forall q, bit' q = xorb (bit q) (pmem q qs)) /\
    (forall st, In st (sc_stabs c) -> stab_parity bit' st = false) /\ (r = true <-> gauge_pattern c bit')).
  { destruct Hdec as [(rp & w & o & pick & Ho & Hp & ->)|(er & lib & sch & fuel & Hl & Hsc & Hf & ->)];
      [apply (exact_mwpm D e b pol c ch HD HC Hch)|apply (exact_uf D e b pol c ch HD HC Hch)]; assumption. }
  destruct K as (bit' & r & qs & K1 & (K2 & K3) & K4 & K5). exists bit', r, qs. split; [exact K1|]. split; [exact K2|]. split; [exact K3|].
  assert (G : gauge_pattern c bit' <-> gauge_pattern c (fun q => xorb (err q) (pmem q qs))).
  { split; intros (s' & H); exists (fun v => xorb (s v) (s' v)); intros q Hq; rewrite xsum_xorb, <- (Hs q Hq), <- (H q Hq), K3, (Hbit q Hq);
      destruct (gauge q), (err q), (pmem q qs); reflexivity. }
  split; [|rewrite K5; exact G].
  assert (V : same_verdict c bit' (fun q => xorb (err q) (pmem q qs))).
  { eapply verdict_trans; [|apply (verdict_gauge D e b pol c HD HC s)]. apply (verdict_ext D e b pol c HD HC). intros q Hq. rewrite K3, (Hbit q Hq), (Hs q Hq). apply xorb_assoc_reverse. }
  intros st Hst. destruct V as [V _]. rewrite <- (V st Hst). apply K4. exact Hst.
Qed.
Print Assumptions C62_gauge_noise.

(* the hypotheses are met: a noisy simulation (half of the bits flip) with union-find, alone and in a world of two ranks *)
Example C62_nonvacuous :
  let c := mk_code (3, 3, 3) EcPrimal BdOpen None in
  let ch := fun i j => hd (0, 0, 0) (shared (sc_stabs c) i j) in
  let E := sg_edges (sc_stabs c) (sc_bound c) ch in
  let trial := iid_uf_trial demo_rnd (1 / 2) c ch (fun _ => false) (kruskal_lib E) rev_sched (2 * List.length E + 2) in
  let correct := fun bit => correct_uf c ch (fun _ => false) (kruskal_lib E) rev_sched (2 * List.length E + 2) bit false in
  (forall k q, nth_error (node_list (sc_graph c)) k = Some q -> Nat.even k = true -> flipped demo_rnd 0%nat (1 / 2) (node_list (sc_graph c)) 0 q) /\
  (exists st' errors, mc_single trial 5 1 0 (fun _ _ => None, 0%nat) = (st', Ok errors) /\
     counts_failures c demo_rnd (1 / 2) correct 5 (fun i => (Z.to_nat i, 0%nat)) errors) /\
  (exists errors, mc_mpi trial 5 [(fun _ _ => None, 0%nat); (fun _ _ => None, 7%nat)] 0 = Some (Ok errors)).
Proof.
  intros c ch E trial correct.
  assert (H2 : dims_ge2 (3, 3, 3)) by (intros []; simpl; lia).
  assert (HC : is_surface_code (3, 3, 3) EcPrimal BdOpen None c) by (apply mk_code_ok).
  assert (Hch : valid_choice (sc_stabs c) ch).
  { intros i j _ Hs. unfold ch. destruct (shared (sc_stabs c) i j) as [|x l]; [congruence|left; reflexivity]. }
  clearbody c.
  destruct (C62_errors_are_logical_failures (3, 3, 3) EcPrimal BdOpen None c ch nat demo_rnd (1 / 2)%R 5 H2 HC Hch ltac:(lia) trial correct) as [K1 K2].
  { right. exists (fun _ => false), (kruskal_lib E), rev_sched, (2 * List.length E + 2)%nat.
    split; [apply kruskal_lib_ok|]. split; [apply rev_sched_ok|]. split; [apply Nat.le_refl|]. split; reflexivity. }
  split; [|split].
  - intros k q Hk He. exists k. split; [exact Hk|]. cbn [Nat.mul Nat.add]. unfold draw.
    assert (S : forall k s, after demo_rnd s k = (s + k)%nat) by (clear; induction k as [|k IH]; intros s; [cbn; lia|cbn [after]; rewrite IH; cbn; lia]).
    rewrite S. unfold demo_rnd. cbn [fst Nat.add]. rewrite He. lra.
  - exact (K1 (fun _ _ => None) 0%nat).
  - destruct (K2 [(fun _ _ => None, 0%nat); (fun _ _ => None, 7%nat)] (fun _ _ => None, 0%nat) ltac:(discriminate)) as (errors & K & _). exists errors. exact K.
Qed.
