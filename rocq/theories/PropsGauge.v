(* PropsGauge.v: C57, decoding depends on the error only modulo gauge. *)
From Coq Require Import FunctionalExtensionality.
From Verif Require Import Base Lattice RhgModel RhgSpec RhgProofs RhgDegree SurfaceModel SurfaceSpec SurfaceProofs SurfaceIncidence SurfaceGauge SurfaceTheorems
  StabGraphModel PropsSurface MwpmModel MwpmProofs PropsMwpm UfModel UfSpec UfInst PropsUf PropsUfDist CvMacroGauge.
Open Scope Z_scope.

Section Same.
  Variables (D : dims) (e : ecx) (b : bdk) (pol : option (point * point -> Z)) (c : scode).
  Hypotheses (HD : dims_ge2 D) (HC : is_surface_code D e b pol c).
  Variables (s bit err : point -> bool).
  Hypothesis Hbit : forall q, In q (sc_syn c) -> bit q = xorb (xsum s (nbrs (sc_graph c) q)) (err q).

  Lemma gauge_same : same_verdict c bit err.
  Proof. eapply verdict_trans; [|apply (verdict_gauge D e b pol c HD HC s err)]. apply (verdict_ext D e b pol c HD HC). exact Hbit. Qed.

  Lemma gauge_sp i : stab_parity bit (stab_of (sc_stabs c) i) = stab_parity err (stab_of (sc_stabs c) i).
  Proof.
    unfold stab_of. destruct (nth_in_or_default i (sc_stabs c) []) as [H|H].
    - apply gauge_same. exact H.
    - rewrite H. reflexivity.
  Qed.
  Lemma gauge_odd : odd_stabs (sc_stabs c) bit = odd_stabs (sc_stabs c) err.
  Proof. unfold odd_stabs. apply filter_ext. intros i. apply gauge_sp. Qed.

  (* the same recovery gives the same verdict *)
  Lemma gauge_recovery qs b1 b2 sanity : recovery (node_list (sc_graph c)) qs bit = Ok b1 -> recovery (node_list (sc_graph c)) qs err = Ok b2 ->
    (forall x, In x qs -> exists q, x = Some q /\ In q (sc_syn c)) -> check_correction c b1 sanity = check_correction c b2 sanity.
  Proof.
    intros E1 E2 Hq.
    assert (Hn : forall x, In x qs -> exists q, x = Some q /\ In q (node_list (sc_graph c))).
    { intros x Hx. destruct (Hq x Hx) as (q & -> & Hs). exists q. split; [reflexivity|]. destruct (C05_qubits_checked_once_or_twice D e b pol c HD HC) as (_ & H & _). apply H. exact Hs. }
    destruct (recovery_ok _ qs Hn bit) as (b1' & E1' & H1). destruct (recovery_ok _ qs Hn err) as (b2' & E2' & H2).
    rewrite E1 in E1'. injection E1' as <-. rewrite E2 in E2'. injection E2' as <-.
    assert (SV : same_verdict c b1 b2); [|apply SV].
    eapply verdict_trans; [|apply (verdict_gauge D e b pol c HD HC s b2)]. apply (verdict_ext D e b pol c HD HC). intros q Hqs.
    rewrite H1, H2, Hbit by assumption. apply xorb_assoc.
  Qed.
End Same.

(* Let the bits of the syndrome qubits be those of an error, plus, for each qubit, the parity over its
   neighbours in the lattice of arbitrary values s.  Then correct() gives the same verdict as for the
   error alone, with either decoder, whatever the weights. *)
Theorem C57_correct_modulo_gauge : forall D e b pol c ch s bit err,
  dims_ge2 D -> is_surface_code D e b pol c -> valid_choice (sc_stabs c) ch ->
  (forall q, In q (sc_syn c) -> bit q = xorb (xsum s (nbrs (sc_graph c) q)) (err q)) ->
  let E := sg_edges (sc_stabs c) (sc_bound c) ch in
  (forall rp w o pick sanity, oracle_ok E w o -> (forall mg, best_matching mg (pick mg)) ->
     exists b1 b2 r, correct_mwpm rp c ch w o pick bit sanity = Ok (b1, r) /\ correct_mwpm rp c ch w o pick err sanity = Ok (b2, r)) /\
  (forall er lib sch fuel sanity, lib_ok E lib -> sched_ok sch -> (2 * length E + 2 <= fuel)%nat ->
     exists b1 b2 r, correct_uf c ch er lib sch fuel bit sanity = Ok (b1, r) /\ correct_uf c ch er lib sch fuel err sanity = Ok (b2, r)).
Proof.
  intros D e b pol c ch s bit err HD HC Hch Hb E. split.
  - intros rp w o pick sanity Ho Hp.
    destruct (C14_mwpm_clears_syndrome D e b pol c ch rp w o pick bit sanity HD HC Hch Ho Hp) as (qs & b1 & r1 & Q1 & _ & Q2 & Q3 & Q4 & _).
    destruct (C14_mwpm_clears_syndrome D e b pol c ch rp w o pick err sanity HD HC Hch Ho Hp) as (qs' & b2 & r2 & T1 & _ & _ & T3 & T4 & _).
    assert (EQ : qs' = qs).
    { unfold mwpm_decoder in Q1, T1. rewrite (gauge_odd D e b pol c HD HC s bit err Hb) in Q1. rewrite Q1 in T1. injection T1 as <-. reflexivity. }
    subst qs'. exists b1, b2, r1. split; [exact Q4|]. rewrite T4. do 2 f_equal.
    pose proof (gauge_recovery D e b pol c HD HC s bit err Hb qs b1 b2 sanity Q3 T3 Q2) as Hc.
    unfold correct_mwpm in Q4, T4. rewrite Q1 in Q4. rewrite T1 in T4. cbn [bind] in Q4, T4. rewrite Q3 in Q4. rewrite T3 in T4. cbn [bind] in Q4, T4.
    rewrite Hc in Q4. destruct (check_correction c b2 sanity) as [r|]; [|discriminate]. cbn [bind] in Q4, T4. congruence.
  - intros er lib sch fuel sanity Hl Hs Hf.
    destruct (C22_uf_clears_syndrome D e b pol c ch er lib sch fuel bit sanity HD HC Hch Hl Hs Hf) as (qs & b1 & r1 & Q1 & _ & Q2 & Q3 & Q4 & _).
    destruct (C22_uf_clears_syndrome D e b pol c ch er lib sch fuel err sanity HD HC Hch Hl Hs Hf) as (qs' & b2 & r2 & T1 & _ & _ & T3 & T4 & _).
    assert (EQ : qs' = qs).
    { replace (fun i => stab_parity bit (stab_of (sc_stabs c) i)) with (fun i => stab_parity err (stab_of (sc_stabs c) i)) in Q1; [rewrite Q1 in T1; injection T1 as <-; reflexivity|].
      apply functional_extensionality. intros i. symmetry. apply (gauge_sp D e b pol c HD HC s bit err Hb). }
    subst qs'. exists b1, b2, r1. split; [exact Q4|]. rewrite T4. do 2 f_equal.
    pose proof (gauge_recovery D e b pol c HD HC s bit err Hb qs b1 b2 sanity Q3 T3 Q2) as Hc.
    unfold correct_uf in Q4, T4. unfold E in Q1, T1. rewrite Q1 in Q4. rewrite T1 in T4. cbn [bind] in Q4, T4. rewrite Q3 in Q4. rewrite T3 in T4. cbn [bind] in Q4, T4.
    rewrite Hc in Q4. destruct (check_correction c b2 sanity) as [r|]; [|discriminate]. cbn [bind] in Q4, T4. congruence.
Qed.
Print Assumptions C57_correct_modulo_gauge.

(* Hence errors of weight below d/2 modulo gauge are corrected. *)
Theorem C57_small_errors_modulo_gauge : forall D e b pol c ch s bit err,
  dims_ge2 D -> is_surface_code D e b pol c -> valid_choice (sc_stabs c) ch ->
  (forall q, In q (sc_syn c) -> bit q = xorb (xsum s (nbrs (sc_graph c) q)) (err q)) ->
  (forall a, In a (logical_axes e b) -> 2 * Z.of_nat (length (filter err (sc_syn c))) < get a D) ->
  let E := sg_edges (sc_stabs c) (sc_bound c) ch in
  (forall rp o pick sanity, rp = nx_report \/ rp = rx_report 1 -> oracle_ok E (fun _ => 1) o -> (forall mg, best_matching mg (pick mg)) ->
     exists bit', correct_mwpm rp c ch (fun _ => 1) o pick bit sanity = Ok (bit', true)) /\
  (forall lib sch fuel sanity, lib_ok E lib -> (forall u, NoDup (l_out lib u)) -> sched_ok sch -> (2 * length E + 2 <= fuel)%nat ->
     exists bit', correct_uf c ch (fun _ => false) lib sch fuel bit sanity = Ok (bit', true)).
Proof.
  intros D e b pol c ch s bit err HD HC Hch Hb Hw E. destruct (C57_correct_modulo_gauge D e b pol c ch s bit err HD HC Hch Hb) as [HM HU]. split.
  - intros rp o pick sanity Hrp Ho Hp. destruct (HM rp (fun _ => 1) o pick sanity Ho Hp) as (b1 & b2 & r & E1 & E2). exists b1. rewrite E1. do 2 f_equal.
    destruct (C15_mwpm_corrects_small_errors D e b pol c ch rp o pick err sanity HD HC Hch Hrp Ho Hp Hw) as (b3 & E3). congruence.
  - intros lib sch fuel sanity Hl Hn Hs Hf. destruct (HU (fun _ => false) lib sch fuel sanity Hl Hs Hf) as (b1 & b2 & r & E1 & E2). exists b1. rewrite E1. do 2 f_equal.
    destruct (C54_uf_corrects_small_errors D e b pol c ch lib sch fuel err sanity HD HC Hch Hl Hn Hs Hf Hw) as (b3 & E3). congruence.
Qed.
Print Assumptions C57_small_errors_modulo_gauge.

(* the hypotheses are met: on a code of distance 3 the bits of five qubits are set, but modulo gauge the error has
   weight one *)
Example C57_nonvacuous :
  let c := mk_code (3, 3, 3) EcPrimal BdOpen None in
  let s := fun v => peqb v (3, 2, 2) in
  let err := fun q => peqb q (2, 3, 3) in
  let bit := fun q => xorb (xsum s (nbrs (sc_graph c) q)) (err q) in
  length (filter bit (sc_syn c)) = 5%nat /\ length (filter err (sc_syn c)) = 1%nat.
Proof. split; vm_compute; reflexivity. Qed.
