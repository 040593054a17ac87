(* PropsRounds.v: C81, decoding again and again: a corrected code is not touched, the recovery is a function of the syndrome, and
   the verdict after several rounds of errors and corrections. *)
From Coq Require Import String Lia Permutation FunctionalExtensionality.
From Verif Require Import Base Lattice RhgModel RhgSpec SurfaceModel SurfaceSpec SurfaceProofs SurfaceIncidence SurfaceTheorems SurfaceGauge StabGraphModel PropsSurface MwpmModel MwpmProofs MwpmInst PropsMwpm UfModel UfSpec UfInst PropsUf PropsUfDist PropsHomology.
From Verif Require Import SimModel SimSpec SimProofs SimTrial PropsSim PropsSimUf PropsCount CountDraws CvMacroGauge PropsCvMacro PropsIidRate PropsLimits.
Open Scope nat_scope.

(* ---------- specification ---------- *)
(* A call of correct(code, decoder) for given weights: MWPM with any shortest paths and any best matching, or Union-Find with any
   library order, any schedule and any erased qubits.  It maps the bit values to the new bit values and the verdict. *)
Definition correct_call (c : scode) (ch : nat -> nat -> point) (call : (point -> bool) -> res ((point -> bool) * bool)) : Prop :=
  let E := sg_edges (sc_stabs c) (sc_bound c) ch in
  (exists rp w o pick sanity, oracle_ok E w o /\ (forall mg, best_matching mg (pick mg)) /\
     call = (fun bit => correct_mwpm rp c ch w o pick bit sanity)) \/
  (exists er lib sch fuel sanity, lib_ok E lib /\ sched_ok sch /\ 2 * List.length E + 2 <= fuel /\
     call = (fun bit => correct_uf c ch er lib sch fuel bit sanity)).

(* no stabilizer has odd parity *)
Definition quiet (c : scode) (bit : point -> bool) : Prop := forall st, In st (sc_stabs c) -> stab_parity bit st = false.

(* One round after the other: new errors flip bits, then correct() is called.  Final bits and the list of verdicts. *)
Notation call_t := ((point -> bool) -> res ((point -> bool) * bool)).
Fixpoint memory (rounds : list ((point -> bool) * call_t)) (bit : point -> bool) : res ((point -> bool) * list bool) :=
  match rounds with
  | [] => Ok (bit, [])
  | (err, call) :: rest => bind (call (differ bit err)) (fun br => bind (memory rest (fst br)) (fun bl => Ok (fst bl, snd br :: snd bl)))
  end.
(* the verdict of a round on a code without other errors *)
Definition alone (round : (point -> bool) * call_t) : bool := match snd round (fst round) with Ok (_, r) => r | Err _ => false end.

(* ---------- proofs ---------- *)
Section Call.
  Variables (D : Z * Z * Z) (e : ecx) (b : bdk) (pol : option (point * point -> Z)) (c : scode) (ch : nat -> nat -> point).
  Hypotheses (HD : dims_ge2 D) (HC : is_surface_code D e b pol c) (Hch : valid_choice (sc_stabs c) ch).
  Let E := sg_edges (sc_stabs c) (sc_bound c) ch.

  (* the recovery: a function of the syndrome *)
  Lemma call_ok call bit : correct_call c ch call -> exists bit' r, call bit = Ok (bit', r) /\ quiet c bit' /\ (r = true <-> gauge_pattern c bit') /\
    check_correction c bit' false = Ok r.
  Proof.
    intros [(rp & w & o & pick & sanity & Ho & Hp & ->)|(er & lib & sch & fuel & sanity & Hl & Hs & Hf & ->)].
    - destruct (exact_mwpm D e b pol c ch HD HC Hch rp w o pick sanity bit Ho Hp) as (f & r & _ & C1 & _ & _ & G1).
      destruct (C14_mwpm_clears_syndrome D e b pol c ch rp w o pick bit sanity HD HC Hch Ho Hp) as (qs & f' & r' & _ & _ & _ & _ & C2 & Q).
      rewrite C1 in C2. injection C2 as <- <-. exists f, r. split; [exact C1|]. split; [exact Q|]. split; [exact G1|].
      revert C1. unfold correct_mwpm. destruct (mwpm_decoder _ _ _ _ _ _ _ _); [|discriminate]. cbn [bind]. destruct (recovery _ _ _) as [f1|]; [|discriminate]. cbn [bind].
      rewrite !(check_correction_eq D e b pol c HD HC). cbn [bind]. intros K. injection K as -> <-. reflexivity.
    - destruct (exact_uf D e b pol c ch HD HC Hch er lib sch fuel sanity bit Hl Hs Hf) as (f & r & _ & C1 & _ & _ & G1).
      destruct (C22_uf_clears_syndrome D e b pol c ch er lib sch fuel bit sanity HD HC Hch Hl Hs Hf) as (qs & f' & r' & _ & _ & _ & _ & C2 & _ & Q).
      rewrite C1 in C2. injection C2 as <- <-. exists f, r. split; [exact C1|]. split; [exact Q|]. split; [exact G1|].
      revert C1. unfold correct_uf. destruct (uf_decoder _ _ _ _ _ _); [|discriminate]. cbn [bind]. destruct (recovery _ _ _) as [f1|]; [|discriminate]. cbn [bind].
      rewrite !(check_correction_eq D e b pol c HD HC). cbn [bind]. intros K. injection K as -> <-. reflexivity.
  Qed.
  Lemma call_shift call f g f' g' r1 r2 : correct_call c ch call -> same_syndrome c f g -> call f = Ok (f', r1) -> call g = Ok (g', r2) -> forall q, differ f' g' q = differ f g q.
  Proof.
    intros [(rp & w & o & pick & sanity & Ho & Hp & ->)|(er & lib & sch & fuel & sanity & Hl & Hs & Hf & ->)] S C1 C2.
    - exact (shift_mwpm D e b pol c ch HD HC Hch f g S rp w o pick sanity f' g' r1 r2 Ho Hp C1 C2).
    - exact (shift_uf D e b pol c ch HD HC Hch f g S er lib sch fuel sanity f' g' r1 r2 Hl Hs Hf C1 C2).
  Qed.

  (* without odd stabilizers there is nothing to match *)
  Lemma best_empty M : best_matching [] M -> M = [].
  Proof.
    intros ((_ & H) & _). destruct M as [|uv M]; [reflexivity|]. destruct (H uv (or_introl eq_refl)) as (x & [] & _).
  Qed.
  Lemma quiet_fixed call bit : correct_call c ch call -> quiet c bit -> exists r, call bit = Ok (bit, r).
  Proof.
    intros Hc Q. destruct (call_ok call bit Hc) as (bit' & r & E1 & _). exists r. rewrite E1. do 2 f_equal.
    destruct Hc as [(rp & w & o & pick & sanity & Ho & Hp & ->)|(er & lib & sch & fuel & sanity & Hl & Hs & Hf & ->)].
    - cbn beta in E1. revert E1. unfold correct_mwpm, mwpm_decoder.
      assert (EO : odd_stabs (sc_stabs c) bit = []).
      { destruct (odd_stabs (sc_stabs c) bit) as [|i l] eqn:Eo; [reflexivity|]. assert (Hi : In i (odd_stabs (sc_stabs c) bit)) by (rewrite Eo; left; reflexivity).
        unfold odd_stabs in Hi. apply filter_In in Hi. destruct Hi as [Hi P]. apply in_seq in Hi. rewrite (Q (stab_of (sc_stabs c) i)) in P; [discriminate|]. apply nth_In. lia. }
      rewrite EO. cbn [match_graph bind fst snd]. rewrite (best_empty (pick []) (Hp [])). cbn [qubits_to_flip foldM bind recovery].
      destruct (check_correction c bit sanity); cbn [bind]; [|discriminate]. intros K. injection K as <- _. reflexivity.
    - destruct (C22_no_syndrome_no_flip D e b pol c ch er lib sch fuel bit sanity HD HC Hch Hl Hs Hf Q) as (f & s & E2 & H).
      rewrite E2 in E1. injection E1 as <- _. apply functional_extensionality. exact H.
  Qed.

  Definition along (a : axis) (bit : point -> bool) : bool := plane (sc_syn c) bit a (par e).
  Lemma along_xor a f g : along a (differ f g) = xorb (along a f) (along a g).
  Proof. unfold along, plane, differ. rewrite <- xsum_xorb. apply xsum_ext. intros q _. destruct (co a q =? par e)%Z; reflexivity. Qed.
  Lemma quiet_xor f g : quiet c f -> quiet c g -> quiet c (differ f g).
  Proof. intros H1 H2 st Hst. unfold stab_parity, differ. rewrite xsum_xorb. fold (stab_parity f st). fold (stab_parity g st). rewrite H1, H2 by exact Hst. reflexivity. Qed.
  Lemma quiet_shift z f : quiet c z -> same_syndrome c (differ z f) f.
  Proof. intros H st Hst. unfold stab_parity, differ. rewrite xsum_xorb. fold (stab_parity z st). rewrite H by exact Hst. apply xorb_false_l. Qed.

  (* one round on bits without syndrome *)
  Lemma round_step z err call : quiet c z -> correct_call c ch call -> exists z' f r,
    call (differ z err) = Ok (z', r) /\ call err = Ok (f, alone (err, call)) /\ quiet c z' /\ (forall a, along a z' = xorb (along a z) (along a f)) /\
    r = forallb (fun a => negb (along a z')) (logical_axes e b) /\ alone (err, call) = forallb (fun a => negb (along a f)) (logical_axes e b).
  Proof.
    intros Hz Hc. destruct (call_ok call (differ z err) Hc) as (z' & r & E1 & Q1 & _ & K1). destruct (call_ok call err Hc) as (f & s & E2 & Q2 & _ & K2).
    exists z', f, r. split; [exact E1|]. unfold alone. cbn [fst snd]. rewrite E2. split; [reflexivity|]. split; [exact Q1|]. split.
    - pose proof (call_shift call _ _ _ _ _ _ Hc (quiet_shift z err Hz) E1 E2) as H. intros a. rewrite <- along_xor. unfold along, plane. apply xsum_ext. intros q _. f_equal.
      specialize (H q). unfold differ in *. destruct (z' q), (z q), (f q), (err q); cbn in *; congruence.
    - rewrite (check_correction_eq D e b pol c HD HC) in K1, K2. split; [injection K1 as <-|injection K2 as <-]; reflexivity.
  Qed.

  Lemma memory_runs rounds : Forall (fun x => correct_call c ch (snd x)) rounds -> forall z, quiet c z -> exists final outs, memory rounds z = Ok (final, outs) /\ quiet c final /\
    List.length outs = List.length rounds.
  Proof.
    induction 1 as [|[err call] rounds H _ IH]; intros z Hz; [exists z, []; auto|].
    destruct (round_step z err call Hz H) as (z' & f & r & E1 & _ & Q & _). destruct (IH z' Q) as (final & outs & E2 & Q2 & L2).
    exists final, (r :: outs). cbn [memory]. rewrite E1. cbn [bind fst snd]. rewrite E2. cbn [bind fst snd]. split; [reflexivity|]. split; [exact Q2|]. cbn. congruence.
  Qed.
  (* all rounds succeed alone *)
  Lemma memory_good rounds : Forall (fun x => correct_call c ch (snd x)) rounds -> Forall (fun x => alone x = true) rounds ->
    forall z, quiet c z -> (forall a, In a (logical_axes e b) -> along a z = false) -> exists final, memory rounds z = Ok (final, repeat true (List.length rounds)).
  Proof.
    induction 1 as [|[err call] rounds H _ IH]; intros Ha z Hz Z0; [exists z; reflexivity|]. apply Forall_cons_iff in Ha. destruct Ha as [A1 A2].
    destruct (round_step z err call Hz H) as (z' & f & r & E1 & _ & Q & Hx & R1 & R2). rewrite A1 in R2. symmetry in R2. rewrite forallb_forall in R2.
    assert (Z1 : forall a, In a (logical_axes e b) -> along a z' = false).
    { intros a Hin. rewrite Hx, (Z0 a Hin). specialize (R2 a Hin). apply negb_true_iff in R2. rewrite R2. reflexivity. }
    destruct (IH A2 z' Q Z1) as (final & E2). exists final. cbn [memory]. rewrite E1. cbn [bind fst snd]. rewrite E2. cbn [bind fst snd List.length repeat]. do 3 f_equal.
    rewrite R1. apply forallb_forall. intros a Hin. rewrite (Z1 a Hin). reflexivity.
  Qed.
  (* one checked direction: a failure undoes a failure *)
  Lemma memory_open rounds a0 : logical_axes e b = [a0] -> Forall (fun x => correct_call c ch (snd x)) rounds -> forall z final outs, quiet c z ->
    memory rounds z = Ok (final, outs) -> forall k, k < List.length rounds ->
    nth k outs false = xorb (along a0 z) (Nat.even (count_if (fun x => negb (alone x)) (firstn (S k) rounds))).
  Proof.
    intros HA. induction 1 as [|[err call] rounds H _ IH]; intros z final outs Hz Hm k Hk; [cbn in Hk; lia|].
    destruct (round_step z err call Hz H) as (z' & f & r & E1 & _ & Q & Hx & R1 & R2). rewrite HA in R1, R2. cbn [forallb] in R1, R2. rewrite andb_true_r in R1, R2.
    cbn [memory] in Hm. rewrite E1 in Hm. cbn [bind fst snd] in Hm. destruct (memory rounds z') as [[fin l]|] eqn:Em; cbn [bind] in Hm; [|discriminate]. injection Hm as _ <-.
    cbn [fst snd]. rewrite firstn_cons. unfold count_if. cbn [filter]. rewrite R2, negb_involutive. pose proof (Hx a0) as X.
    destruct k as [|k].
    - cbn [nth firstn]. rewrite R1, X. destruct (along a0 z), (along a0 f); reflexivity.
    - cbn [nth List.length] in *. rewrite (IH z' fin l Q Em k ltac:(lia)), X. unfold count_if.
      destruct (along a0 f); [cbn [List.length]; rewrite Nat.even_succ, <- Nat.negb_even; destruct (Nat.even _), (along a0 z); reflexivity|rewrite xorb_false_r; reflexivity].
  Qed.
End Call.

(* ---------- C81 ---------- *)
(* Correcting twice is correcting once: whatever decoder and weights the second call uses, it returns normally, changes no bit and
   repeats the verdict. *)
Theorem C81_twice : forall D e b pol c ch first second bit, dims_ge2 D -> is_surface_code D e b pol c -> valid_choice (sc_stabs c) ch ->
  correct_call c ch first -> correct_call c ch second -> exists bit' r, first bit = Ok (bit', r) /\ second bit' = Ok (bit', r).
Proof.
  intros D e b pol c ch first second bit HD HC Hch H1 H2. destruct (call_ok D e b pol c ch HD HC Hch first bit H1) as (f & r & E1 & Q & _ & K1).
  exists f, r. split; [exact E1|]. destruct (quiet_fixed D e b pol c ch HD HC Hch second f H2 Q) as (s & E2).
  destruct (call_ok D e b pol c ch HD HC Hch second f H2) as (f2 & s2 & E3 & _ & _ & K2). rewrite E2 in E3. injection E3 as <- <-. rewrite E2. rewrite K1 in K2. injection K2 as <-. reflexivity.
Qed.
Print Assumptions C81_twice.

(* Two errors with the same syndrome are corrected by flipping the same qubits. *)
Theorem C81_common_recovery : forall D e b pol c ch call f g, dims_ge2 D -> is_surface_code D e b pol c -> valid_choice (sc_stabs c) ch ->
  correct_call c ch call -> (forall st, In st (sc_stabs c) -> stab_parity f st = stab_parity g st) ->
  exists f' g' r1 r2, call f = Ok (f', r1) /\ call g = Ok (g', r2) /\ forall q, xorb (f q) (f' q) = xorb (g q) (g' q).
Proof.
  intros D e b pol c ch call f g HD HC Hch Hc Hs. destruct (call_ok D e b pol c ch HD HC Hch call f Hc) as (f' & r1 & E1 & _). destruct (call_ok D e b pol c ch HD HC Hch call g Hc) as (g' & r2 & E2 & _).
  exists f', g', r1, r2. split; [exact E1|]. split; [exact E2|]. intros q. pose proof (call_shift D e b pol c ch HD HC Hch call f g f' g' r1 r2 Hc Hs E1 E2 q) as H.
  unfold differ in H. destruct (f q), (g q), (f' q), (g' q); cbn in *; congruence.
Qed.
Print Assumptions C81_common_recovery.

(* Rounds of errors, each followed by correct(), with any mixture of decoders: all calls return, and if every round is corrected
   when it is alone, every verdict is True. *)
Theorem C81_memory : forall D e b pol c ch rounds, dims_ge2 D -> is_surface_code D e b pol c -> valid_choice (sc_stabs c) ch ->
  Forall (fun x => correct_call c ch (snd x)) rounds ->
  exists final outs, memory rounds (fun _ => false) = Ok (final, outs) /\ List.length outs = List.length rounds /\
    (forall st, In st (sc_stabs c) -> stab_parity final st = false) /\
    ((forall x, In x rounds -> alone x = true) -> outs = repeat true (List.length rounds)).
Proof.
  intros D e b pol c ch rounds HD HC Hch Hr.
  assert (Z : quiet c (fun _ => false)) by (intros st _; apply xsum_false).
  destruct (memory_runs D e b pol c ch HD HC Hch rounds Hr _ Z) as (final & outs & E1 & Q & L). exists final, outs. split; [exact E1|]. split; [exact L|]. split; [exact Q|].
  intros Ha. destruct (memory_good D e b pol c ch HD HC Hch rounds Hr (proj2 (Forall_forall _ _) Ha) _ Z) as (fin & E2); [|congruence].
  intros a _. unfold along, plane. apply xsum_all_false. intros q _. apply andb_false_r.
Qed.
Print Assumptions C81_memory.

(* On codes with open boundaries a verdict is True exactly if the number of rounds so far that are not corrected alone is even: a
   second logical failure undoes the first. *)
Theorem C81_memory_open : forall D e pol c ch rounds final outs, dims_ge2 D -> is_surface_code D e BdOpen pol c -> valid_choice (sc_stabs c) ch ->
  Forall (fun x => correct_call c ch (snd x)) rounds -> memory rounds (fun _ => false) = Ok (final, outs) ->
  forall k, k < List.length rounds -> nth k outs false = Nat.even (List.length (filter (fun x => negb (alone x)) (firstn (S k) rounds))).
Proof.
  intros D e pol c ch rounds final outs HD HC Hch Hr Hm k Hk.
  assert (Z : quiet c (fun _ => false)) by (intros st _; apply xsum_false).
  rewrite (memory_open D e BdOpen pol c ch HD HC Hch rounds (match e with EcPrimal => AX | EcDual => AY end) eq_refl Hr _ final outs Z Hm k Hk).
  replace (along e c _ (fun _ => false)) with false; [apply xorb_false_l|]. symmetry. unfold along, plane. apply xsum_all_false. intros q _. apply andb_false_r.
Qed.
Print Assumptions C81_memory_open.

(* Such calls exist for every code; and with fewer than d/2 errors in every round, d the smallest size of a checked direction, and
   uniform weights, all verdicts are True: the errors of different rounds do not add up. *)
Theorem C81_small_rounds : forall D e b pol c ch rp o pick errs, dims_ge2 D -> is_surface_code D e b pol c -> valid_choice (sc_stabs c) ch ->
  rp = nx_report \/ rp = rx_report 1 -> oracle_ok (sg_edges (sc_stabs c) (sc_bound c) ch) (fun _ => 1%Z) o -> (forall mg, best_matching mg (pick mg)) ->
  (forall err a, In err errs -> In a (logical_axes e b) -> (2 * Z.of_nat (List.length (filter err (sc_syn c))) < get a D)%Z) ->
  exists final, memory (map (fun err => (err, fun bit => correct_mwpm rp c ch (fun _ => 1%Z) o pick bit false)) errs) (fun _ => false) = Ok (final, repeat true (List.length errs)).
Proof.
  intros D e b pol c ch rp o pick errs HD HC Hch Hrp Ho Hp Hsmall.
  set (call := fun bit => correct_mwpm rp c ch (fun _ => 1%Z) o pick bit false).
  assert (Hc : correct_call c ch call). { left. exists rp, (fun _ => 1%Z), o, pick, false. auto. }
  destruct (C81_memory D e b pol c ch (map (fun err => (err, call)) errs) HD HC Hch) as (final & outs & E1 & L & _ & H).
  { apply Forall_forall. intros x Hx. apply in_map_iff in Hx. destruct Hx as (err & <- & _). exact Hc. }
  exists final. rewrite E1. do 2 f_equal. rewrite H; [rewrite map_length; reflexivity|]. intros x Hx. apply in_map_iff in Hx. destruct Hx as (err & <- & He).
  unfold alone. cbn [fst snd]. destruct (C15_mwpm_corrects_small_errors D e b pol c ch rp o pick err false HD HC Hch Hrp Ho Hp (fun a => Hsmall err a He)) as (f & Ef).
  unfold call. rewrite Ef. reflexivity.
Qed.
Print Assumptions C81_small_rounds.

Example C81_nonvacuous : forall D e b pol c ch, dims_ge2 D -> is_surface_code D e b pol c -> valid_choice (sc_stabs c) ch -> exists call, correct_call c ch call.
Proof.
  intros D e b pol c ch HD HC Hch. destruct (C14_nonvacuous D e b pol c ch (fun _ => 1%Z) HC) as (o & pick & Ho & Hp); [intros; lia|].
  eexists. left. exists nx_report, (fun _ => 1%Z), o, pick, false. split; [exact Ho|]. split; [exact Hp|reflexivity].
Qed.
