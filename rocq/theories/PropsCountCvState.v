(* PropsCountCvState.v: C62, what a trial with continuous-variable noise leaves behind on the layer's graph (the graph of the code). *)
From Coq Require Import String Reals Lra.
From Verif Require Import Base Lattice RhgModel RhgSpec RhgProofs RhgDegree SurfaceModel SurfaceSpec SurfaceProofs SurfaceIncidence SurfaceTheorems StabGraphModel PropsSurface
  GkpModel OpsModel EgraphModel EgraphSpec CvModel CvSpec CvProofs CvNoise PropsCv CvSurface CvTrial MwpmModel MwpmInst PropsMwpm UfModel UfSpec UfInst PropsUf PropsUfDist.
From Verif Require Import SimModel SimSpec SimProofs PropsSim PropsHomology PropsCount PropsGkp PropsGauge PropsCvDecode PropsCountCv CvMacroGauge.
Open Scope Z_scope.

(* the parities of the stored values are the corrected bits, wherever there is a value *)
Lemma cv_store_bits v bit q : a_bit (v_attr v q) <> None -> cv_bits (cv_store v bit) q = bit q.
Proof.
  unfold cv_bits, cv_store, set_attr. cbn [v_attr]. destruct (a_bit (v_attr v q)) as [x|]; [|congruence]. intros _. cbn [with_bit a_bit].
  rewrite <- Z.bit0_odd, Z.lxor_spec, !Z.bit0_odd. destruct (bit q), (Z.odd x); reflexivity.
Qed.

Section Cv.
  Variables (c : scode) (correct : cv -> (point -> bool) -> res ((point -> bool) * bool)) (v0 : cv) (inds : list nat).
  Hypothesis exact : forall v bit, exists bit' r qs, correct v bit = Ok (bit', r) /\ (incl qs (sc_syn c) /\ forall q, bit' q = xorb (bit q) (pmem q qs)) /\
    (forall st, In st (sc_stabs c) -> stab_parity bit' st = false) /\ (r = true <-> gauge_pattern c bit').
  Hypotheses (HF : fresh_layer v0) (HL : code_layer v0 inds (sc_syn c)) (Ho : v_order v0 = "initial"%string) (Hd : v_delta v0 <> 0%R)
    (Ha : forall x, v_states v0 = [("p"%string, x)] -> x_arr x = true).
  Lemma cv_runs_live : forall n st, live v0 (fst st) /\ (forall k, draws_ok (v_N v0) (snd st k)) ->
    exists outs st', runs (cv_trial correct) st outs st' /\ List.length outs = n /\ live v0 (fst st') /\ forall k, snd st' k = snd st (n + k)%nat.
  Proof.
    induction n as [|n IH]; intros [v ds] [Hv Hds]; cbn [fst snd] in *.
    { exists [], (v, ds). split; [constructor|]. split; [reflexivity|]. split; [exact Hv|reflexivity]. }
    destruct (apply_noise_ok v0 v (ds 0%nat) inds (sc_syn c) HF Hv (Hds 0%nat) HL Ho Hd Ha) as (v1 & sq & sp & E & HL1 & _).
    destruct (exact v1 (cv_bits v1)) as (bit' & r & qs & K1 & _).
    destruct (IH (cv_store v1 bit', fun k => ds (S k))) as (outs & st' & R1 & R2 & R3 & R4).
    { cbn [fst snd]. split; [apply (live_kept v0 v1 _ HL1), cv_store_same|intros k; apply Hds]. }
    exists (r :: outs), st'. split; [|split; [cbn [List.length]; lia|split; [exact R3|exact R4]]].
    apply (runs_cons (cv_trial correct) (v, ds) r (cv_store v1 bit', fun k => ds (S k)) outs st'); [|exact R1]. unfold cv_trial. cbn [fst snd]. rewrite E, K1. reflexivity.
  Qed.
End Cv.

(* C62.  After any number of trials of a simulation with a CVLayer, the next trial draws the next record of random values, succeeds, and
   leaves the corrected bits behind: at every syndrome qubit the parity of the stored value is that of the noise bit, flipped at the qubits
   of the recovery; no stabilizer is odd; the trial reports success iff the stored bits are a gauge pattern; and nothing but bit values
   differs from what apply_noise left (labels, homodyne values, the layer's states and parameters). *)
Theorem C62_cv_state_after_trial : forall D e b pol c ch inds a0 perf delta states p_swap order trans,
  dims_ge2 D -> is_surface_code D e b pol c -> valid_choice (sc_stabs c) ch -> code_inds c inds ->
  match perf with Some l => incl l (node_list (sc_graph c)) | None => True end ->
  (0 < delta)%R -> documented_states (List.length (node_list (sc_graph c))) states p_swap -> order = None \/ order = Some "initial"%string ->
  let E := sg_edges (sc_stabs c) (sc_bound c) ch in
  forall correct,
  (exists rp w o pick, (forall v, oracle_ok E (w v) (o v)) /\ (forall v mg, best_matching mg (pick v mg)) /\ correct = (fun v bit => correct_mwpm rp c ch (w v) (o v) (pick v) bit false)) \/
  (exists er lib sch fuel, (forall v, lib_ok E (lib v)) /\ (forall v, sched_ok (sch v)) /\ (2 * List.length E + 2 <= fuel)%nat /\ correct = (fun v bit => correct_uf c ch (er v) (lib v) (sch v) fuel bit false)) ->
  exists g v, cv_init (code_egraph c) a0 perf (Some (inds, sc_syn c)) delta states p_swap order trans = (g, Ok v) /\
    forall trials (ds : nat -> draws), 0 <= trials -> (forall k, draws_ok (v_N v) (ds k)) ->
    exists st errors v1 v2 r qs,
      mc_single (cv_trial correct) trials 1 0 (v, ds) = (st, Ok errors) /\ (forall k, snd st k = ds (Z.to_nat trials + k)%nat) /\
      apply_noise (fst st) (ds (Z.to_nat trials)) = (v1, Ok tt) /\
      fst (fst (cv_trial correct st)) = v2 /\ (forall k, snd (fst (cv_trial correct st)) k = ds (Z.to_nat trials + S k)%nat) /\ snd (cv_trial correct st) = Ok r /\
      incl qs (sc_syn c) /\ (forall q, In q (sc_syn c) -> cv_bits v2 q = xorb (cv_bits v1 q) (pmem q qs)) /\
      (forall q, a_state (v_attr v2 q) = a_state (v_attr v1 q) /\ a_homp (v_attr v2 q) = a_homp (v_attr v1 q) /\ a_homq (v_attr v2 q) = a_homq (v_attr v1 q) /\
         a_body (v_attr v2 q) = a_body (v_attr v1 q) /\ (a_bit (v_attr v1 q) = None -> a_bit (v_attr v2 q) = None)) /\
      same_states v1 v2 /\
      (forall st, In st (sc_stabs c) -> stab_parity (cv_bits v2) st = false) /\ (r = true <-> gauge_pattern c (cv_bits v2)).
Proof.
  intros D e b pol c ch inds a0 perf delta states p_swap order trans HD HC Hch Hi Hp Hde Hst Hor E correct Hdec.
  assert (K : forall v bit, exists bit' r qs, correct v bit = Ok (bit', r) /\ (incl qs (sc_syn c) /\ forall q, bit' q = xorb (bit q) (pmem q qs)) /\
    (forall st, In st (sc_stabs c) -> stab_parity bit' st = false) /\ (r = true <-> gauge_pattern c bit')).
  { intros v bit. destruct Hdec as [(rp & w & o & pick & Hora & Hpk & ->)|(er & lib & sch & fuel & Hl & Hsc & Hf & ->)];
      [apply (exact_mwpm D e b pol c ch HD HC Hch); [apply Hora|apply Hpk]|apply (exact_uf D e b pol c ch HD HC Hch); [apply Hl|apply Hsc|exact Hf]]. }
  assert (Hs : p_swap <> None -> forall s, states = Some s -> exists x, dget String.eqb s "p"%string = Some x /\ x_l x = []).
  { intros Hn s Es. destruct p_swap as [x|]; [|congruence]. destruct Hst as (_ & [H|[H|H]] & Hne); [congruence|congruence|]. rewrite H in Es. injection Es as <-. exists (arr []). split; reflexivity. }
  destruct (code_cv_init D e b pol c HD HC a0 perf delta states p_swap order trans inds Hi Hp Hs) as (g & v & E' & H1 & H2 & H3 & H4 & Hnode & H5 & H6 & H7 & H8 & H9).
  exists g, v. split; [exact E'|].
  assert (Hx : exists l, v_states v = [("p"%string, arr l)] /\ forall i, In i l -> (i < v_N v)%nat).
  { rewrite H9, H3. unfold documented_states in Hst. destruct p_swap as [x|].
    - destruct Hst as (_ & [->|[->| ->]] & _); exists []; (split; [reflexivity|intros i []]).
    - destruct Hst as [->|[->|(l & -> & Hl)]]; [exists []; split; [reflexivity|intros i []]|exists []; split; [reflexivity|intros i []]|exists l; split; [reflexivity|exact Hl]]. }
  assert (HF : fresh_layer v).
  { split; [exact H1|]. split; [destruct Hx as (l & Hl & Hl2); exists (arr l); split; [exact Hl|exact Hl2]|]. rewrite H6. unfold documented_states in Hst. destruct p_swap; [apply Hst|exact I]. }
  assert (Ho : v_order v = "initial"%string) by (rewrite H7; destruct Hor as [-> | ->]; reflexivity).
  assert (Ha : forall x, v_states v = [("p"%string, x)] -> x_arr x = true) by (intros x Ex; destruct Hx as (l & Hl & _); rewrite Hl in Ex; injection Ex as <-; reflexivity).
  assert (Hdn : v_delta v <> 0%R) by lra.
  intros trials ds Ht Hds.
  destruct (cv_runs_live c correct v inds K HF H2 Ho Hdn Ha (Z.to_nat trials) (v, ds) (conj (fresh_live v) Hds)) as (outs & [vn dn] & R1 & R2 & R3 & R4). cbn [fst snd] in R3, R4.
  destruct (C43_errors_single_process _ _ trials (v, ds) outs (vn, dn) Ht R1 ltac:(lia)) as [G _].
  assert (Hdn0 : dn 0%nat = ds (Z.to_nat trials)) by (rewrite R4; f_equal; lia).
  destruct (apply_noise_ok v vn (ds (Z.to_nat trials)) inds (sc_syn c) HF R3 (Hds _) H2 Ho Hdn Ha) as (v1 & sq & sp & En & HL1 & _ & _ & _ & _ & Hh).
  destruct (K v1 (cv_bits v1)) as (bit' & r & qs & K1 & (K2 & K3) & K4 & K5).
  assert (Et : cv_trial correct (vn, dn) = ((cv_store v1 bit', fun k => dn (S k)), Ok r)) by (unfold cv_trial; cbn [fst snd]; rewrite Hdn0, En, K1; reflexivity).
  assert (Hb : forall q, In q (sc_syn c) -> cv_bits (cv_store v1 bit') q = bit' q).
  { intros q Hq. apply cv_store_bits. destruct (proj2 (proj2 H2) q Hq) as (i & _ & Hn). destruct (Hh i q Hq Hn) as (h & _ & -> & _). discriminate. }
  exists (vn, dn). eexists. exists v1, (cv_store v1 bit'), r, qs. split; [exact G|]. split; [exact R4|]. split; [exact En|]. rewrite Et. cbn [fst snd].
  split; [reflexivity|]. split; [intros k; rewrite R4; f_equal; lia|]. split; [reflexivity|]. split; [exact K2|].
  split; [intros q Hq; rewrite Hb by exact Hq; apply K3|]. split.
  { intros q. unfold cv_store, set_attr. cbn [v_attr]. destruct (a_bit (v_attr v1 q)) eqn:Eb; cbn [with_bit a_state a_homp a_homq a_body a_bit]; repeat split; congruence. }
  split; [apply cv_store_same|].
  split.
  - intros st Hs'. rewrite <- (K4 st Hs'). unfold stab_parity. apply xsum_ext. intros q Hq. apply Hb. apply (stab_syn D e b pol c HD HC st); assumption.
  - rewrite K5. split; intros (g' & Hg); exists g'; intros q Hq; rewrite <- (Hg q Hq); [apply Hb; exact Hq|symmetry; apply Hb; exact Hq].
Qed.
Print Assumptions C62_cv_state_after_trial.
