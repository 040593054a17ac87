(* PropsCountMacro.v: C62 for simulations with macronode noise (CVMacroLayer). *)
From Coq Require Import String Reals Lra.
From Verif Require Import Base Lattice RhgModel RhgSpec RhgProofs RhgDegree SurfaceModel SurfaceSpec SurfaceProofs SurfaceIncidence SurfaceTheorems StabGraphModel PropsSurface
  GkpModel OpsModel EgraphModel EgraphSpec CvModel CvSpec CvProofs CvNoise PropsCv CvSurface MacroModel MacroSpec CvMacroModel CvMacroLists CvMacroSpec CvMacroProofs CvMacroTrial CvMacroReduce CvMacroSurface CvMacroCode CvMacroGauge PropsCvMacro CvMacroCount
  MwpmModel MwpmInst PropsMwpm UfModel UfSpec UfInst PropsUf PropsUfDist.
From Verif Require Import SimModel SimSpec SimProofs PropsSim PropsHomology PropsCount PropsGkp PropsGauge PropsCvDecode.
Open Scope Z_scope.

(* a trial whose random values are d: `before` is the layer before it, `lay` the layer after apply_noise; correct() turns the bits
   `noise` of the code's graph into `after`, without syndrome *)
Definition one_macro_trial (expf : R -> R) (c : scode) (correct : cvm -> (point -> bool) -> res ((point -> bool) * bool)) (d : draws) (before lay : cvm) (noise after : point -> bool) : Prop :=
  apply_noise_macro expf before d = (lay, Ok tt) /\
  (forall q, In q (sc_syn c) -> exists x, r_bit (w_red lay q) = Some x /\ noise q = Z.odd x) /\
  (exists r, correct lay noise = Ok (after, r)) /\
  (exists qs, incl qs (sc_syn c) /\ forall q, after q = xorb (noise q) (pmem q qs)) /\
  (forall st, In st (sc_stabs c) -> stab_parity after st = false).

Lemma store_but_red w bit : but_red w (macro_store w bit).
Proof. repeat split. Qed.
Lemma store_frame w bit : same_frame w (macro_store w bit).
Proof. repeat split. Qed.
Lemma macro_store_bits w bit q : r_bit (w_red w q) <> None -> macro_bits (macro_store w bit) q = bit q.
Proof.
  unfold macro_bits, macro_store. cbn [w_red]. destruct (r_bit (w_red w q)) as [x|]; [|congruence]. intros _. cbn [r_bit].
  rewrite <- Z.bit0_odd, Z.lxor_spec, !Z.bit0_odd. destruct (bit q), (Z.odd x); reflexivity.
Qed.

Section Macro.
  Variables (expf : R -> R) (c : scode) (correct : cvm -> (point -> bool) -> res ((point -> bool) * bool)) (w0 : cvm) (V : list point) (mic : nat -> point) (nbi : nat -> option nat) (wt : nat -> R).
  Variable extra : draws -> cvm -> Prop.
  Hypothesis exact : forall w bit, exists bit' r qs, correct w bit = Ok (bit', r) /\ (incl qs (sc_syn c) /\ forall q, bit' q = xorb (bit q) (pmem q qs)) /\
    (forall st, In st (sc_stabs c) -> stab_parity bit' st = false) /\ (r = true <-> gauge_pattern c bit').
  Hypothesis step : forall w1 d, macro_live V mic nbi wt w0 w1 -> same_frame w0 w1 -> draws_ok (v_N (w_cv w0)) d ->
    exists w', apply_noise_macro expf w1 d = (w', Ok tt) /\ macro_live V mic nbi wt w0 w' /\ same_frame w0 w' /\ (forall q, In q (sc_syn c) -> r_bit (w_red w' q) <> None) /\ extra d w'.
  Definition mfit (st : cvm * (nat -> draws)) : Prop := (macro_live V mic nbi wt w0 (fst st) /\ same_frame w0 (fst st)) /\ forall k, draws_ok (v_N (w_cv w0)) (snd st k).
  Definition macro_did (st : cvm * (nat -> draws)) (t : nat) (info : (cvm * cvm) * ((point -> bool) * (point -> bool))) (r : bool) : Prop :=
    (one_macro_trial expf c correct (snd st t) (fst (fst info)) (snd (fst info)) (fst (snd info)) (snd (snd info)) /\ extra (snd st t) (snd (fst info))) /\ (r = true <-> gauge_pattern c (snd (snd info))).

  Lemma store_live w bit : macro_live V mic nbi wt w0 w -> macro_live V mic nbi wt w0 (macro_store w bit).
  Proof. intros [H1 H2]. split; [apply (layout_red w _ V mic nbi wt H1 (store_but_red w bit))|exact H2]. Qed.

  Lemma macro_runs : forall n st, mfit st ->
    exists outs st' info, runs (macro_cv_trial expf correct) st outs st' /\ List.length outs = n /\ forall t, (t < n)%nat -> macro_did st t (info t) (nth t outs false).
  Proof.
    induction n as [|n IH]; intros [w ds] [[Hw Hfr] Hds]; cbn [fst snd] in *.
    { exists [], (w, ds), (fun _ => ((w0, w0), (fun _ => false, fun _ => false))). split; [constructor|]. split; [reflexivity|]. intros; lia. }
    destruct (step w (ds 0%nat) Hw Hfr (Hds 0%nat)) as (w1 & E & HL1 & HF1 & Hbit & Hx).
    destruct (exact w1 (macro_bits w1)) as (bit' & r & qs & K1 & K2 & K3 & K4).
    destruct (IH (macro_store w1 bit', fun k => ds (S k))) as (outs & st' & info & R1 & R2 & R3).
    { split; cbn [fst snd]; [split; [apply store_live, HL1|eapply frame_trans; [exact HF1|apply store_frame]]|intros k; apply Hds]. }
    exists (r :: outs), st', (fun t => match t with O => ((w, w1), (macro_bits w1, bit')) | S t' => info t' end). split; [|split].
    - apply (runs_cons (macro_cv_trial expf correct) (w, ds) r (macro_store w1 bit', fun k => ds (S k)) outs st'); [|exact R1]. unfold macro_cv_trial. cbn [fst snd]. rewrite E, K1. reflexivity.
    - cbn [List.length]. lia.
    - intros [|t] Ht; cbn [nth].
      + unfold macro_did. cbn [fst snd]. split; [|exact K4]. split; [|exact Hx]. split; [exact E|]. split.
        { intros q Hq. specialize (Hbit q Hq). unfold macro_bits. destruct (r_bit (w_red w1 q)) as [x|]; [exists x; split; reflexivity|congruence]. }
        split; [eauto|]. split; [exists qs; exact K2|exact K3].
      + apply (R3 t). lia.
  Qed.
End Macro.

(* C62, macronode noise: a simulation with a CVMacroLayer on a surface code, with either decoder and whatever weights the decoder
   computes from the attributes in each trial, runs to its end, and the number of errors it reports is exactly the number of trials in
   which the bits that are left act on the encoded information.  err is the error caused by the measurement noise: in a trial in which
   every macronode has a GKP state and the weights fit, the bits are a gauge pattern plus err, and err vanishes where the noise is small. *)
Theorem C62_macro_errors_are_logical_failures : forall D e b pol c ch es perf states p_swap a0 r0 delta trans expf,
  macro_input D e b pol c es perf states p_swap -> (0 <= delta)%R -> valid_choice (sc_stabs c) ch ->
  let E := sg_edges (sc_stabs c) (sc_bound c) ch in
  forall correct,
  (exists rp wgt o pick, (forall w, oracle_ok E (wgt w) (o w)) /\ (forall w mg, best_matching mg (pick w mg)) /\ correct = (fun w bit => correct_mwpm rp c ch (wgt w) (o w) (pick w) bit false)) \/
  (exists er lib sch fuel, (forall w, lib_ok E (lib w)) /\ (forall w, sched_ok (sch w)) /\ (2 * List.length E + 2 <= fuel)%nat /\ correct = (fun w bit => correct_uf c ch (er w) (lib w) (sch w) fuel bit false)) ->
  exists w pos (err : list nat -> (nat -> R) -> (nat -> R) -> point -> bool), macro_layer e b c es perf a0 r0 delta None states p_swap trans = Ok w /\ macro_index c w pos /\
    (forall P z z2 v, In v (node_list (sc_graph c)) -> quiet delta perf pos z z2 v -> (forall u, In u (nbrs (sc_graph c) v) -> quiet delta perf pos z z2 u) -> err P z z2 v = false) /\
    forall trials (ds : nat -> draws), 0 <= trials -> (forall k, draws_ok (v_N (w_cv w)) (ds k)) ->
    exists st' errors (before lay : Z -> cvm) (noise after : Z -> point -> bool) (bad : list Z),
      mc_single (macro_cv_trial expf correct) trials 1 0 (w, ds) = (st', Ok errors) /\ NoDup bad /\ (forall i, In i bad -> 0 <= i < trials) /\ errors = Z.of_nat (List.length bad) /\
      forall i, 0 <= i < trials -> let d := ds (Z.to_nat i) in
        one_macro_trial expf c correct d (before i) (lay i) (noise i) (after i) /\ (In i bad <-> ~ gauge_pattern c (after i)) /\
        (pol = None -> weights_fit (lay i)) /\
        ((forall k, (k < List.length (node_list (sc_graph c)))%nat -> exists j, (j < 4)%nat /\ ~ In (4 * k + j)%nat (trial_p (w_cv w) d)) -> all_stars_gkp c (lay i)) /\
        (all_stars_gkp c (lay i) -> weights_fit (lay i) -> exists s, forall q, In q (sc_syn c) ->
           noise i q = xorb (xsum s (nbrs (sc_graph c) q)) (err (trial_p (w_cv w) d) (d_z d) (d_z2 d) q)).
Proof.
  intros D e b pol c ch es perf states p_swap a0 r0 delta trans expf HI Hde Hch E correct Hdec. pose proof HI as (HD & HC & _).
  assert (K : forall w bit, exists bit' r qs, correct w bit = Ok (bit', r) /\ (incl qs (sc_syn c) /\ forall q, bit' q = xorb (bit q) (pmem q qs)) /\
    (forall st, In st (sc_stabs c) -> stab_parity bit' st = false) /\ (r = true <-> gauge_pattern c bit')).
  { intros w bit. destruct Hdec as [(rp & wg & o & pick & Hora & Hpk & ->)|(er & lib & sch & fuel & Hl & Hsc & Hf & ->)];
      [apply (exact_mwpm D e b pol c ch HD HC Hch); [apply Hora|apply Hpk]|apply (exact_uf D e b pol c ch HD HC Hch); [apply Hl|apply Hsc|exact Hf]]. }
  destruct (macro_bits_step D e b pol c es perf states p_swap a0 r0 delta trans expf HI) as (w & pos & err & m & Ew & Hi & Hl & HF & HL & Ht).
  exists w, pos, err. split; [exact Ew|]. split; [exact Hi|]. split; [exact Hl|]. intros trials ds Htr Hds.
  set (extra := fun d w' => (pol = None -> weights_fit w') /\
    ((forall k, (k < List.length (node_list (sc_graph c)))%nat -> exists j, (j < 4)%nat /\ ~ In (4 * k + j)%nat (trial_p (w_cv w) d)) -> all_stars_gkp c w') /\
    (all_stars_gkp c w' -> weights_fit w' -> exists s, forall v, In v (node_list (sc_graph c)) ->
         r_bit (w_red w' v) = Some (Z.b2z (xorb (xsum s (nbrs (sc_graph c) v)) (err (trial_p (w_cv w) d) (d_z d) (d_z2 d) v))))).
  assert (Hstep : forall w1 d, macro_live (verts m) (mic_of m) (nbi_of m) (wt_of m) w w1 -> same_frame w w1 -> draws_ok (v_N (w_cv w)) d ->
    exists w', apply_noise_macro expf w1 d = (w', Ok tt) /\ macro_live (verts m) (mic_of m) (nbi_of m) (wt_of m) w w' /\ same_frame w w' /\ (forall q, In q (sc_syn c) -> r_bit (w_red w' q) <> None) /\ extra d w').
  { intros w1 d A1 A2 A3. destruct (Ht w1 d A1 A2 A3) as (w' & B1 & B2 & B3 & B4 & B5 & B6 & B7). exists w'. split; [exact B1|]. split; [exact B2|]. split; [exact B3|].
    split; [intros q Hq; apply B4, (syn_in_nodes D e b pol c HD HC q Hq)|]. split; [exact B5|]. split; [exact B6|exact B7]. }
  destruct (gen_serial _ (macro_did expf c correct extra) (mfit w (verts m) (mic_of m) (nbi_of m) (wt_of m)) (macro_runs expf c correct w _ _ _ _ extra K Hstep) trials (w, ds) Htr (conj (conj HL (frame_refl w)) Hds))
    as (st' & errors & info & bad & G1 & G2 & G3 & G4 & G5).
  exists st', errors, (fun i => fst (fst (info i))), (fun i => snd (fst (info i))), (fun i => fst (snd (info i))), (fun i => snd (snd (info i))), bad. split; [exact G1|]. split; [exact G2|]. split; [exact G3|]. split; [exact G4|].
  intros i Hi'. destruct (G5 i Hi') as (r & [[O1 (X1 & X2 & X3)] O2] & O3). cbn [fst snd] in *. cbv zeta. split; [exact O1|].
  split. { rewrite O3, <- O2. destruct r; split; [discriminate|intros H; contradiction|discriminate|reflexivity]. }
  split; [exact X1|]. split; [exact X2|]. intros HG HW. destruct (X3 HG HW) as (s & Hs). exists s. intros q Hq. destruct O1 as (_ & Hn & _). destruct (Hn q Hq) as (x & Ex & ->).
  rewrite Hs in Ex by (apply (syn_in_nodes D e b pol c HD HC q Hq)). injection Ex as <-. destruct (xorb _ _); reflexivity.
Qed.
Print Assumptions C62_macro_errors_are_logical_failures.

(* With uniform weights and the default polarity, at most the trials of `loud` are reported as errors, if in every other trial every
   macronode has a state that is not p-squeezed and large measurement noise touches fewer than d/2 qubits. *)
Theorem C62_macro_error_bound : forall D e b c ch es perf states p_swap a0 r0 delta trans expf,
  macro_input D e b None c es perf states p_swap -> (0 <= delta)%R -> valid_choice (sc_stabs c) ch ->
  let E := sg_edges (sc_stabs c) (sc_bound c) ch in
  forall correct,
  (exists rp o pick, (rp = nx_report \/ rp = rx_report 1) /\ (forall w, oracle_ok E (fun _ => 1) (o w)) /\ (forall w mg, best_matching mg (pick w mg)) /\
     correct = (fun w bit => correct_mwpm rp c ch (fun _ => 1) (o w) (pick w) bit false)) \/
  (exists lib sch fuel, (forall w, lib_ok E (lib w)) /\ (forall w u, NoDup (l_out (lib w) u)) /\ (forall w, sched_ok (sch w)) /\ (2 * List.length E + 2 <= fuel)%nat /\
     correct = (fun w bit => correct_uf c ch (fun _ => false) (lib w) (sch w) fuel bit false)) ->
  exists w pos, macro_layer e b c es perf a0 r0 delta None states p_swap trans = Ok w /\ macro_index c w pos /\
    forall trials (ds : nat -> draws) (loud : list Z), 0 <= trials -> (forall k, draws_ok (v_N (w_cv w)) (ds k)) ->
    (forall i, 0 <= i < trials -> ~ In i loud -> let d := ds (Z.to_nat i) in
       (forall k, (k < List.length (node_list (sc_graph c)))%nat -> exists j, (j < 4)%nat /\ ~ In (4 * k + j)%nat (trial_p (w_cv w) d)) /\
       exists L : list point, (forall a, In a (logical_axes e b) -> 2 * Z.of_nat (List.length L) < get a D) /\
         forall q, In q (sc_syn c) -> ~ In q L -> quiet delta perf pos (d_z d) (d_z2 d) q /\ forall u, In u (nbrs (sc_graph c) q) -> quiet delta perf pos (d_z d) (d_z2 d) u) ->
    exists st' errors, mc_single (macro_cv_trial expf correct) trials 1 0 (w, ds) = (st', Ok errors) /\ 0 <= errors <= Z.of_nat (List.length loud).
Proof.
  intros D e b c ch es perf states p_swap a0 r0 delta trans expf HI Hde Hch E correct Hdec. pose proof HI as (HD & HC & _).
  destruct (C62_macro_errors_are_logical_failures D e b None c ch es perf states p_swap a0 r0 delta trans expf HI Hde Hch correct) as (w & pos & err & Ew & Hi & Hloc & HS).
  { destruct Hdec as [(rp & o & pick & _ & Ho & Hpk & ->)|(lib & sch & fuel & Hl & _ & Hs & Hf & ->)];
      [left; exists rp, (fun _ _ => 1), o, pick; auto|right; exists (fun _ _ => false), lib, sch, fuel; auto]. }
  exists w, pos. split; [exact Ew|]. split; [exact Hi|]. intros trials ds loud Ht Hds Hq.
  destruct (HS trials ds Ht Hds) as (st' & errors & before & lay & noise & after & bad & G1 & G2 & G3 & G4 & G5). exists st', errors. split; [exact G1|]. split; [rewrite G4; lia|].
  rewrite G4. apply inj_le. apply NoDup_incl_length; [exact G2|]. intros i Hbad. pose proof (G3 i Hbad) as Hir. destruct (in_dec Z.eq_dec i loud) as [|Hn]; [assumption|]. exfalso.
  destruct (G5 i Hir) as ((P1 & P2 & (r & Hc) & _ & _) & Hb & W & S & B). destruct (Hq i Hir Hn) as (Hst & L & HL & Hqu). apply (proj1 Hb Hbad).
  destruct (B (S Hst) (W eq_refl)) as (s & Hbit).
  destruct (C57_small_errors_modulo_gauge D e b None c ch s (noise i) (err (trial_p (w_cv w) (ds (Z.to_nat i))) (d_z (ds (Z.to_nat i))) (d_z2 (ds (Z.to_nat i)))) HD HC Hch Hbit) as [KM KU].
  { intros a Ha. specialize (HL a Ha). pose proof (loud_few D e b None c (err (trial_p (w_cv w) (ds (Z.to_nat i))) (d_z (ds (Z.to_nat i))) (d_z2 (ds (Z.to_nat i)))) L HD HC) as Hlf.
    assert (Hle := Hlf ltac:(intros q Hq' Hnq; destruct (Hqu q Hq' Hnq) as [Q1 Q2]; apply Hloc; [apply (syn_in_nodes D e b None c HD HC q Hq')|exact Q1|exact Q2])). lia. }
  destruct (C61_success_exact D e b None c ch (noise i) false HD HC Hch) as [XM XU].
  destruct Hdec as [(rp & o & pick & Hrp & Ho & Hpk & ->)|(lib & sch & fuel & Hl & Hnd & Hsc & Hf & ->)].
  - destruct (KM rp (o (lay i)) (pick (lay i)) false Hrp (Ho _) (Hpk _)) as (b1 & K1). destruct (XM rp (fun _ => 1) (o (lay i)) (pick (lay i)) (Ho _) (Hpk _)) as (b2 & r2 & K2 & K3).
    rewrite Hc in K1, K2. assert (Er : r2 = true) by congruence. assert (Eb : b2 = after i) by congruence. rewrite <- Eb. apply K3. exact Er.
  - destruct (KU (lib (lay i)) (sch (lay i)) fuel false (Hl _) (Hnd _) (Hsc _) Hf) as (b1 & K1). destruct (XU (fun _ => false) (lib (lay i)) (sch (lay i)) fuel (Hl _) (Hsc _) Hf) as (b2 & r2 & K2 & K3).
    rewrite Hc in K1, K2. assert (Er : r2 = true) by congruence. assert (Eb : b2 = after i) by congruence. rewrite <- Eb. apply K3. exact Er.
Qed.
Print Assumptions C62_macro_error_bound.

(* C62.  After any number of such trials the next trial draws the next record of random values, succeeds, and leaves the corrected bits
   behind: at every syndrome qubit the noise bit flipped at the qubits of the recovery; no stabilizer is odd; success is reported iff
   the stored bits are a gauge pattern; nothing but bit values differs from what apply_noise left. *)
Theorem C62_macro_state_after_trial : forall D e b pol c ch es perf states p_swap a0 r0 delta trans expf,
  macro_input D e b pol c es perf states p_swap -> (0 <= delta)%R -> valid_choice (sc_stabs c) ch ->
  let E := sg_edges (sc_stabs c) (sc_bound c) ch in
  forall correct,
  (exists rp wgt o pick, (forall w, oracle_ok E (wgt w) (o w)) /\ (forall w mg, best_matching mg (pick w mg)) /\ correct = (fun w bit => correct_mwpm rp c ch (wgt w) (o w) (pick w) bit false)) \/
  (exists er lib sch fuel, (forall w, lib_ok E (lib w)) /\ (forall w, sched_ok (sch w)) /\ (2 * List.length E + 2 <= fuel)%nat /\ correct = (fun w bit => correct_uf c ch (er w) (lib w) (sch w) fuel bit false)) ->
  exists w, macro_layer e b c es perf a0 r0 delta None states p_swap trans = Ok w /\
    forall trials (ds : nat -> draws), 0 <= trials -> (forall k, draws_ok (v_N (w_cv w)) (ds k)) ->
    exists st errors w1 w2 r qs,
      mc_single (macro_cv_trial expf correct) trials 1 0 (w, ds) = (st, Ok errors) /\ (forall k, snd st k = ds (Z.to_nat trials + k)%nat) /\
      apply_noise_macro expf (fst st) (ds (Z.to_nat trials)) = (w1, Ok tt) /\
      fst (fst (macro_cv_trial expf correct st)) = w2 /\ (forall k, snd (fst (macro_cv_trial expf correct st)) k = ds (Z.to_nat trials + S k)%nat) /\ snd (macro_cv_trial expf correct st) = Ok r /\
      incl qs (sc_syn c) /\ (forall q, In q (sc_syn c) -> macro_bits w2 q = xorb (macro_bits w1 q) (pmem q qs)) /\
      (forall q, r_state (w_red w2 q) = r_state (w_red w1 q) /\ r_prob (w_red w2 q) = r_prob (w_red w1 q) /\ (r_bit (w_red w1 q) = None -> r_bit (w_red w2 q) = None)) /\
      w_cv w2 = w_cv w1 /\ same_frame w w2 /\
      (forall st, In st (sc_stabs c) -> stab_parity (macro_bits w2) st = false) /\ (r = true <-> gauge_pattern c (macro_bits w2)).
Proof.
  intros D e b pol c ch es perf states p_swap a0 r0 delta trans expf HI Hde Hch E correct Hdec. pose proof HI as (HD & HC & _).
  assert (K : forall w bit, exists bit' r qs, correct w bit = Ok (bit', r) /\ (incl qs (sc_syn c) /\ forall q, bit' q = xorb (bit q) (pmem q qs)) /\
    (forall st, In st (sc_stabs c) -> stab_parity bit' st = false) /\ (r = true <-> gauge_pattern c bit')).
  { intros w bit. destruct Hdec as [(rp & wg & o & pick & Hora & Hpk & ->)|(er & lib & sch & fuel & Hl & Hsc & Hf & ->)];
      [apply (exact_mwpm D e b pol c ch HD HC Hch); [apply Hora|apply Hpk]|apply (exact_uf D e b pol c ch HD HC Hch); [apply Hl|apply Hsc|exact Hf]]. }
  destruct (macro_bits_step D e b pol c es perf states p_swap a0 r0 delta trans expf HI) as (w & pos & err & m & Ew & _ & _ & HF & HL & Ht).
  exists w. split; [exact Ew|]. intros trials ds Htr Hds.
  assert (Runs : forall n st, mfit w (verts m) (mic_of m) (nbi_of m) (wt_of m) st ->
    exists outs st', runs (macro_cv_trial expf correct) st outs st' /\ List.length outs = n /\ mfit w (verts m) (mic_of m) (nbi_of m) (wt_of m) st' /\ forall k, snd st' k = snd st (n + k)%nat).
  { induction n as [|n IH]; intros [v dd] [[Hv Hfr] Hdd]; cbn [fst snd] in *.
    { exists [], (v, dd). split; [constructor|]. split; [reflexivity|]. split; [split; [split|]; assumption|reflexivity]. }
    destruct (Ht v (dd 0%nat) Hv Hfr (Hdd 0%nat)) as (w1 & B1 & B2 & B3 & _). destruct (K w1 (macro_bits w1)) as (bit' & r & qs & K1 & _).
    destruct (IH (macro_store w1 bit', fun k => dd (S k))) as (outs & st' & R1 & R2 & R3 & R4).
    { split; cbn [fst snd]; [split; [apply store_live, B2|eapply frame_trans; [exact B3|apply store_frame]]|intros k; apply Hdd]. }
    exists (r :: outs), st'. split; [|split; [cbn [List.length]; lia|split; [exact R3|exact R4]]].
    apply (runs_cons (macro_cv_trial expf correct) (v, dd) r (macro_store w1 bit', fun k => dd (S k)) outs st'); [|exact R1]. unfold macro_cv_trial. cbn [fst snd]. rewrite B1, K1. reflexivity. }
  destruct (Runs (Z.to_nat trials) (w, ds) (conj (conj HL (frame_refl w)) Hds)) as (outs & [vn dn] & R1 & R2 & [[R3 R5] _] & R4). cbn [fst snd] in R3, R4, R5.
  destruct (C43_errors_single_process _ _ trials (w, ds) outs (vn, dn) Htr R1 ltac:(lia)) as [G _].
  assert (Hdn0 : dn 0%nat = ds (Z.to_nat trials)) by (rewrite R4; f_equal; lia).
  destruct (Ht vn (ds (Z.to_nat trials)) R3 R5 (Hds _)) as (w1 & B1 & B2 & B3 & B4 & _). destruct (K w1 (macro_bits w1)) as (bit' & r & qs & K1 & (K2 & K3) & K4 & K5).
  assert (Et : macro_cv_trial expf correct (vn, dn) = ((macro_store w1 bit', fun k => dn (S k)), Ok r)) by (unfold macro_cv_trial; cbn [fst snd]; rewrite Hdn0, B1, K1; reflexivity).
  assert (Hb : forall q, In q (sc_syn c) -> macro_bits (macro_store w1 bit') q = bit' q) by (intros q Hq; apply macro_store_bits, B4, (syn_in_nodes D e b pol c HD HC q Hq)).
  exists (vn, dn). eexists. exists w1, (macro_store w1 bit'), r, qs. split; [exact G|]. split; [exact R4|]. split; [exact B1|]. rewrite Et. cbn [fst snd].
  split; [reflexivity|]. split; [intros k; rewrite R4; f_equal; lia|]. split; [reflexivity|]. split; [exact K2|].
  split; [intros q Hq; rewrite Hb by exact Hq; apply K3|]. split.
  { intros q. unfold macro_store. cbn [w_red]. destruct (r_bit (w_red w1 q)) eqn:Eb; cbn [r_state r_bit r_prob]; repeat split; congruence. }
  split; [reflexivity|]. split; [eapply frame_trans; [exact B3|apply store_frame]|]. split.
  - intros st Hs'. rewrite <- (K4 st Hs'). unfold stab_parity. apply xsum_ext. intros q Hq. apply Hb. apply (stab_syn D e b pol c HD HC st); assumption.
  - rewrite K5. split; intros (g' & Hg); exists g'; intros q Hq; rewrite <- (Hg q Hq); [apply Hb; exact Hq|symmetry; apply Hb; exact Hq].
Qed.
Print Assumptions C62_macro_state_after_trial.

(* the hypotheses are met: swapped-out states, draws that are not zero; a macro_input with perfect points and alternating polarity: C52_witness *)
Example C62_macro_nonvacuous : let c := mk_code (3, 2, 4) EcPrimal BdOpen None in
  let ch := fun i j => hd (0, 0, 0) (shared (sc_stabs c) i j) in
  let E := sg_edges (sc_stabs c) (sc_bound c) ch in
  let correct := fun (_ : cvm) bit => correct_uf c ch (fun _ => false) (kruskal_lib E) rev_sched (2 * List.length E + 2) bit false in
  let d := {| d_p := []; d_unif := fun _ => (1 / 2)%R; d_bit := fun k => Z.of_nat k mod 2; d_z := fun k => INR k; d_z2 := fun k => INR k; d_list := fun l => rev l |} in
  exists w st' errors, macro_layer EcPrimal BdOpen c (gedges (sc_graph c)) None (fun _ => no_attrs) (fun _ => {| r_state := None; r_bit := None; r_prob := None |}) (1 / 10)%R None None (Some (1 / 4)%R) None = Ok w /\
    mc_single (macro_cv_trial exp correct) 3 1 0 (w, fun _ => d) = (st', Ok errors).
Proof.
  intros c ch E correct d. assert (HD : dims_ge2 (3, 2, 4)) by (intros []; simpl; lia). assert (HC : is_surface_code (3, 2, 4) EcPrimal BdOpen None c) by apply mk_code_ok.
  assert (Hch : valid_choice (sc_stabs c) ch) by apply first_choice_valid.
  assert (HE : edge_enum (sc_graph c) (gedges (sc_graph c))). { destruct (code_lattice _ _ _ _ _ HC) as (vs & Hvs & EG). rewrite EG. apply PropsMacro.rhg_edge_enum; [apply ge2_ok; exact HD|exact Hvs]. }
  clearbody c.
  assert (HI : macro_input (3, 2, 4) EcPrimal BdOpen None c (gedges (sc_graph c)) None None (Some (1 / 4)%R)).
  { split; [exact HD|]. split; [exact HC|]. split; [exact HE|]. split; [exact I|]. split; [lra|]. split; [left; reflexivity|discriminate]. }
  destruct (C62_macro_errors_are_logical_failures (3, 2, 4) EcPrimal BdOpen None c ch (gedges (sc_graph c)) None None (Some (1 / 4)%R) (fun _ => no_attrs) (fun _ => {| r_state := None; r_bit := None; r_prob := None |}) (1 / 10)%R None exp HI ltac:(lra) Hch) with (correct := correct)
    as (w & pos & err & Ew & _ & _ & K).
  - right. exists (fun _ _ => false), (fun _ => kruskal_lib E), (fun _ => rev_sched), (2 * List.length E + 2)%nat.
    split; [intros _; apply kruskal_lib_ok|]. split; [intros _; apply rev_sched_ok|]. split; [apply Nat.le_refl|reflexivity].
  - destruct (K 3 (fun _ => d) ltac:(lia)) as (st' & errors & before & lay & noise & after & bad & G & _).
    + intros _. split; [constructor|]. split; [intros i []|]. split; [intros k; cbn [d_unif d]; lra|]. split; [intros k; cbn [d_bit d]; pose proof (Z.mod_pos_bound (Z.of_nat k) 2 ltac:(lia)); lia|].
      intros l _. apply Permutation_sym, Permutation_rev.
    + exists w, st', errors. split; [exact Ew|exact G].
Qed.
