(* PropsSimUf.v: C43 and C54, whole simulations with the Union-Find decoder, and whole simulations
   in a world of several MPI ranks with either decoder. *)
From Coq Require Import String Reals Lra.
From Verif Require Import Base Lattice RhgModel RhgSpec RhgDegree SurfaceModel SurfaceSpec SurfaceProofs SurfaceIncidence SurfaceTheorems StabGraphModel PropsRhg PropsSurface MwpmModel MwpmInst PropsMwpm UfModel UfSpec UfInst PropsUf PropsUfDist.
From Verif Require Import SimModel SimSpec SimProofs SimTrial PropsSim.
Open Scope Z_scope.

Lemma list_choice {S A B} (d : A) (d' : B) : forall (ss : list S) (P : nat -> S -> A -> B -> Prop), (forall r s, nth_error ss r = Some s -> exists x y, P r s x y) ->
  exists f g, forall r s, nth_error ss r = Some s -> P r s (f r) (g r).
Proof.
  induction ss as [|s0 ss IH]; intros P H.
  - exists (fun _ => d), (fun _ => d'). intros [|r] s; discriminate.
  - destruct (H 0%nat s0 eq_refl) as (x & y & H0). destruct (IH (fun r => P (Datatypes.S r))) as (f & g & Hf).
    { intros r s Hr. apply (H (Datatypes.S r) s Hr). }
    exists (fun r => match r with O => x | Datatypes.S r' => f r' end), (fun r => match r with O => y | Datatypes.S r' => g r' end).
    intros [|r] s Hr; [injection Hr as <-; exact H0|apply Hf; exact Hr].
Qed.

Section World.
  Context {S : Type} (rnd : generator S) (p : R) (nodes : list point).
  Variable decode : (point -> bool) -> res ((point -> bool) * bool).
  Hypothesis ND : NoDup nodes.
  Hypothesis total : forall bit, exists bit' r, decode bit = Ok (bit', r).
  Variable good : (point -> Prop) -> Prop.
  Hypothesis good_ok : forall bit, good (fun q => In q nodes /\ bit q = true) -> exists bit', decode bit = Ok (bit', true).
  Hypothesis good_ext : forall P Q, (forall q, P q <-> Q q) -> good P -> good Q.

  Lemma gen_errors_mpi : forall trials (ss : list (node_attrs * S)) (bad : list Z), 0 <= trials -> ss <> [] ->
    let size := Z.of_nat (List.length ss) in
    (forall i A s, 0 <= i < trials -> ~ In i bad -> nth_error ss (Z.to_nat (i mod size)) = Some (A, s) -> good (flipped rnd s p nodes (Z.to_nat (i / size)))) ->
    exists errors, mc_mpi (gen_trial rnd p nodes decode) trials ss 0 = Some (Ok errors) /\ 0 <= errors <= Z.of_nat (List.length bad).
  Proof.
    intros trials ss bad Ht Hss size Hb.
    assert (Hpos : 0 < size) by (unfold size; destruct ss; [contradiction|cbn [List.length]; lia]).
    assert (d : node_attrs * S) by (destruct ss as [|x l]; [contradiction|exact x]).
    destruct (list_choice (@nil bool) d ss
       (fun r s outs st' => runs (gen_trial rnd p nodes decode) s outs st' /\ List.length outs = share trials size (Z.of_nat r) /\
          forall t, (t < share trials size (Z.of_nat r))%nat -> good (flipped rnd (snd s) p nodes t) -> nth t outs false = true)) as (outs & ends & Ho).
    { intros r [A s] _. destruct (gen_runs rnd p nodes decode ND total good good_ok good_ext (share trials size (Z.of_nat r)) A s) as (outs & st' & H1 & H2 & H3).
      exists outs, st'. auto. }
    destruct (C43_errors_at_root _ (gen_trial rnd p nodes decode) trials ss outs ends Ht Hss) as [H _].
    { intros r s Hr. destruct (Ho r s Hr) as (H1 & H2 & _). auto. }
    fold size in H. eexists. split; [exact H|]. split; [unfold count; lia|].
    unfold count. apply inj_le. apply NoDup_incl_length; [apply NoDup_filter, NoDup_py_range|].
    intros i Hi. apply filter_In in Hi. destruct Hi as [Hi Hf]. apply in_py_range in Hi.
    destruct (in_dec Z.eq_dec i bad) as [|Hnb]; [assumption|exfalso].
    pose proof (Z.mod_pos_bound i size Hpos) as Hm.
    destruct (nth_error ss (Z.to_nat (i mod size))) as [[A s]|] eqn:E; [|apply nth_error_None in E; unfold size in *; lia].
    destruct (Ho _ _ E) as (_ & _ & H3).
    rewrite (H3 (Z.to_nat (i / size))) in Hf; [discriminate| |cbn [snd]; apply (Hb i A s); [lia|exact Hnb|exact E]].
    rewrite share_eq by lia. rewrite Z2Nat.id by lia. apply Z2Nat.inj_lt; [apply Z.div_pos; lia|apply Z.div_pos; lia|].
    apply Z.lt_le_trans with (i / size + 1); [lia|]. pose proof (Z.div_mod i size ltac:(lia)) as Hdm.
    apply Z.div_le_lower_bound; lia.
  Qed.
End World.

(* ---------- the two decoders ---------- *)
Section Decoders.
  Variables (D : Z * Z * Z) (e : ecx) (b : bdk) (pol : option (point * point -> Z)) (c : scode) (ch : nat -> nat -> point).
  Hypotheses (HD : dims_ge2 D) (HC : is_surface_code D e b pol c) (Hch : valid_choice (sc_stabs c) ch).

  Lemma at_most_weight n (bit : point -> bool) : at_most n (fun q => In q (sc_syn c) /\ In q (node_list (sc_graph c)) /\ bit q = true) ->
    (List.length (filter bit (sc_syn c)) <= n)%nat.
  Proof.
    intros (l & Hl & Hin). pose proof (surface_code_facts D e b pol c (ge2_ok D (code_bnds e b) HD) HC) as CF.
    assert (Hle : (List.length (filter bit (sc_syn c)) <= List.length l)%nat); [|lia].
    apply NoDup_incl_length; [apply NoDup_filter, (cf_syn_nd _ _ _ _ _ CF)|]. intros q Hq. apply filter_In in Hq. apply Hin. split; [apply Hq|].
    split; [|apply Hq]. destruct (C05_qubits_checked_once_or_twice D e b pol c HD HC) as (_ & H & _). apply H. apply Hq.
  Qed.
  Lemma at_most_ext n (P Q : point -> Prop) : (forall q, P q <-> Q q) -> at_most n (fun q => In q (sc_syn c) /\ P q) -> at_most n (fun q => In q (sc_syn c) /\ Q q).
  Proof. intros HPQ (l & Hl & Hin). exists l. split; [exact Hl|]. intros q [Hq1 Hq2]. apply Hin. split; [exact Hq1|]. apply HPQ. exact Hq2. Qed.
End Decoders.

(* A complete simulation with IidNoise and the Union-Find decoder: it runs to its end, and the number of reported errors
   is at most the number of trials in which the noise flips d/2 or more syndrome qubits. *)
Theorem C54_iid_uf_simulation : forall D e b pol c ch lib sch fuel (S : Type) (rnd : generator S) p trials A s (bad : list nat) n,
  dims_ge2 D -> is_surface_code D e b pol c -> valid_choice (sc_stabs c) ch ->
  let E := sg_edges (sc_stabs c) (sc_bound c) ch in
  lib_ok E lib -> (forall u, NoDup (l_out lib u)) -> sched_ok sch -> (2 * List.length E + 2 <= fuel)%nat -> 0 <= trials ->
  (forall a, In a (logical_axes e b) -> 2 * Z.of_nat n < get a D) ->
  (forall t, (t < Z.to_nat trials)%nat -> ~ In t bad -> at_most n (fun q => In q (sc_syn c) /\ flipped rnd s p (node_list (sc_graph c)) t q)) ->
  exists st' errors, mc_single (iid_uf_trial rnd p c ch (fun _ => false) lib sch fuel) trials 1 0 (A, s) = (st', Ok errors) /\ 0 <= errors <= Z.of_nat (List.length bad).
Proof.
  intros D e b pol c ch lib sch fuel S rnd p trials A s bad n HD HC Hch E Hlib Hnd Hsch Hf Ht Hn Hb.
  apply (gen_errors rnd p (node_list (sc_graph c)) (fun bit => correct_uf c ch (fun _ => false) lib sch fuel bit false) (code_nodes_NoDup D e b pol c HD HC))
    with (good := fun P => at_most n (fun q => In q (sc_syn c) /\ P q)); [| |apply at_most_ext|exact Ht|exact Hb].
  - intros bit. destruct (C22_uf_clears_syndrome D e b pol c ch (fun _ => false) lib sch fuel bit false HD HC Hch Hlib Hsch Hf) as (qs & bit' & r & _ & _ & _ & _ & Hc & _). exists bit', r. exact Hc.
  - intros bit Hg. apply (C54_uf_corrects_small_errors D e b pol c ch lib sch fuel bit false HD HC Hch Hlib Hnd Hsch Hf).
    intros a Ha. specialize (Hn a Ha). pose proof (at_most_weight D e b pol c HD HC n bit Hg). lia.
Qed.
Print Assumptions C54_iid_uf_simulation.

(* The same in a world of any number of MPI ranks, for both decoders: trial i is the (i / size)-th run of rank i mod size,
   which started in the state ss[i mod size]; rank 0 reports at most as many errors as there are trials with d/2 or more flips. *)
Theorem C43_iid_mpi_simulation : forall D e b pol c ch (S : Type) (rnd : generator S) p trials (ss : list (node_attrs * S)) (bad : list Z) n,
  dims_ge2 D -> is_surface_code D e b pol c -> valid_choice (sc_stabs c) ch -> 0 <= trials -> ss <> [] ->
  let E := sg_edges (sc_stabs c) (sc_bound c) ch in
  let size := Z.of_nat (List.length ss) in
  (forall a, In a (logical_axes e b) -> 2 * Z.of_nat n < get a D) ->
  (forall i A s, 0 <= i < trials -> ~ In i bad -> nth_error ss (Z.to_nat (i mod size)) = Some (A, s) ->
     at_most n (fun q => In q (sc_syn c) /\ flipped rnd s p (node_list (sc_graph c)) (Z.to_nat (i / size)) q)) ->
  (forall rp o pick, rp = nx_report \/ rp = rx_report 1 -> oracle_ok E (fun _ => 1) o -> (forall mg, best_matching mg (pick mg)) ->
     exists errors, mc_mpi (iid_mwpm_trial rnd p c ch rp o pick) trials ss 0 = Some (Ok errors) /\ 0 <= errors <= Z.of_nat (List.length bad)) /\
  (forall lib sch fuel, lib_ok E lib -> (forall u, NoDup (l_out lib u)) -> sched_ok sch -> (2 * List.length E + 2 <= fuel)%nat ->
     exists errors, mc_mpi (iid_uf_trial rnd p c ch (fun _ => false) lib sch fuel) trials ss 0 = Some (Ok errors) /\ 0 <= errors <= Z.of_nat (List.length bad)).
Proof.
  intros D e b pol c ch S rnd p trials ss bad n HD HC Hch Ht Hss E size Hn Hb. split.
  - intros rp o pick Hrp Ho Hpick.
    apply (gen_errors_mpi rnd p (node_list (sc_graph c)) (fun bit => correct_mwpm rp c ch (fun _ => 1) o pick bit false) (code_nodes_NoDup D e b pol c HD HC))
      with (good := fun P => at_most n (fun q => In q (sc_syn c) /\ P q)); [| |apply at_most_ext|exact Ht|exact Hss|exact Hb].
    + intros bit. destruct (C14_mwpm_clears_syndrome D e b pol c ch rp (fun _ => 1) o pick bit false HD HC Hch Ho Hpick) as (qs & bit' & r & _ & _ & _ & _ & Hc & _). exists bit', r. exact Hc.
    + intros bit Hg. apply (C15_mwpm_corrects_small_errors D e b pol c ch rp o pick bit false HD HC Hch Hrp Ho Hpick).
      intros a Ha. specialize (Hn a Ha). pose proof (at_most_weight D e b pol c HD HC n bit Hg). lia.
  - intros lib sch fuel Hlib Hnd Hsch Hf.
    apply (gen_errors_mpi rnd p (node_list (sc_graph c)) (fun bit => correct_uf c ch (fun _ => false) lib sch fuel bit false) (code_nodes_NoDup D e b pol c HD HC))
      with (good := fun P => at_most n (fun q => In q (sc_syn c) /\ P q)); [| |apply at_most_ext|exact Ht|exact Hss|exact Hb].
    + intros bit. destruct (C22_uf_clears_syndrome D e b pol c ch (fun _ => false) lib sch fuel bit false HD HC Hch Hlib Hsch Hf) as (qs & bit' & r & _ & _ & _ & _ & Hc & _). exists bit', r. exact Hc.
    + intros bit Hg. apply (C54_uf_corrects_small_errors D e b pol c ch lib sch fuel bit false HD HC Hch Hlib Hnd Hsch Hf).
      intros a Ha. specialize (Hn a Ha). pose proof (at_most_weight D e b pol c HD HC n bit Hg). lia.
Qed.
Print Assumptions C43_iid_mpi_simulation.

(* two ranks, five trials, probability zero: the hypotheses are met with no bad trial *)
Example C43_mpi_nonvacuous :
  let c := mk_code (3, 3, 3) EcPrimal BdOpen None in
  let ch := fun i j => hd (0, 0, 0) (shared (sc_stabs c) i j) in
  let E := sg_edges (sc_stabs c) (sc_bound c) ch in
  exists errors, mc_mpi (iid_uf_trial demo_rnd 0 c ch (fun _ => false) (kruskal_lib E) rev_sched (2 * List.length E + 2)) 5
    [(fun _ _ => None, 0%nat); (fun _ _ => None, 7%nat)] 0 = Some (Ok errors) /\ 0 <= errors <= 0.
Proof.
  intros c ch E.
  assert (H2 : dims_ge2 (3, 3, 3)) by (intros []; simpl; lia).
  assert (HC : is_surface_code (3, 3, 3) EcPrimal BdOpen None c) by (apply mk_code_ok).
  assert (Hch : valid_choice (sc_stabs c) ch).
  { intros i j _ Hs. unfold ch. destruct (shared (sc_stabs c) i j) as [|x l]; [congruence|left; reflexivity]. }
  apply (C43_iid_mpi_simulation (3, 3, 3) EcPrimal BdOpen None c ch nat demo_rnd 0 5 _ [] 1 H2 HC Hch); try lia; try discriminate.
  - intros []; simpl; lia.
  - intros i A s _ _ _. exists []. split; [simpl; lia|]. intros q [_ (k & _ & Hlt)]. unfold draw, demo_rnd in Hlt.
    destruct (Nat.even _) in Hlt; cbn [fst] in Hlt; lra.
  - apply kruskal_lib_ok.
  - exact (kruskal_out_nd (3, 3, 3) EcPrimal BdOpen None c ch H2 HC Hch).
  - apply rev_sched_ok.
  - apply Nat.le_refl.
Qed.
