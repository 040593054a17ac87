(* PropsCountState.v: C62, what a trial leaves behind on the code object. *)
From Coq Require Import String Reals Lra.
From Verif Require Import Base Lattice RhgModel RhgSpec RhgDegree SurfaceModel SurfaceSpec SurfaceProofs SurfaceIncidence SurfaceTheorems StabGraphModel PropsRhg PropsSurface MwpmModel MwpmInst PropsMwpm UfModel UfSpec UfInst PropsUf PropsUfDist.
From Verif Require Import SimModel SimSpec SimProofs SimTrial PropsSim PropsSimUf CvMacroGauge PropsHomology PropsCount.
Open Scope Z_scope.

(* C62.  A trial succeeds from any earlier state of the graph and leaves the corrected bits behind: at every node the noise bit of its own
   draw, flipped at the qubits of the recovery; no stabilizer is odd; the trial reports success iff these bits are a gauge pattern; no other
   attribute has changed, and one random number per node has been drawn. *)
Theorem C62_state_after_trial : forall D e b pol c ch (S : Type) (rnd : generator S) p,
  dims_ge2 D -> is_surface_code D e b pol c -> valid_choice (sc_stabs c) ch ->
  let E := sg_edges (sc_stabs c) (sc_bound c) ch in
  let nodes := node_list (sc_graph c) in
  forall trial,
  (exists rp o pick, oracle_ok E (fun _ => 1) o /\ (forall mg, best_matching mg (pick mg)) /\ trial = iid_mwpm_trial rnd p c ch rp o pick) \/
  (exists er lib sch fuel, lib_ok E lib /\ sched_ok sch /\ (2 * List.length E + 2 <= fuel)%nat /\ trial = iid_uf_trial rnd p c ch er lib sch fuel) ->
  forall A s, exists A' r qs, trial (A, s) = ((A', after rnd s (List.length nodes)), Ok r) /\ incl qs (sc_syn c) /\
    (forall k v, nth_error nodes k = Some v -> A' v "bit_val"%string = Some (VInt (Z.b2z (xorb (if Rlt_dec (draw rnd s k) p then true else false) (pmem v qs))))) /\
    (forall q key, ~ (In q nodes /\ key = "bit_val"%string) -> A' q key = A q key) /\
    (forall st, In st (sc_stabs c) -> stab_parity (bits_of A') st = false) /\ (r = true <-> gauge_pattern c (bits_of A')).
Proof.
  intros D e b pol c ch S rnd p HD HC Hch E nodes trial Htrial A s.
  assert (K : exists correct, trial = gen_trial rnd p nodes correct /\ forall bit, exists bit' r qs, correct bit = Ok (bit', r) /\ (incl qs (sc_syn c) /\ forall q, bit' q = xorb (bit q) (pmem q qs)) /\
    (forall st, In st (sc_stabs c) -> stab_parity bit' st = false) /\ (r = true <-> gauge_pattern c bit')).
  { destruct Htrial as [(rp & o & pick & Ho & Hp & ->)|(er & lib & sch & fuel & Hl & Hs & Hf & ->)].
    - exists (fun bit => correct_mwpm rp c ch (fun _ => 1) o pick bit false). split; [reflexivity|]. intros bit. apply (exact_mwpm D e b pol c ch HD HC Hch); assumption.
    - exists (fun bit => correct_uf c ch er lib sch fuel bit false). split; [reflexivity|]. intros bit. apply (exact_uf D e b pol c ch HD HC Hch); assumption. }
  destruct K as (correct & -> & K). clear Htrial.
  destruct (iid_apply_spec rnd p nodes A s (code_nodes_NoDup D e b pol c HD HC)) as (H1 & H2 & H3).
  unfold gen_trial. cbn [fst snd]. destruct (iid_apply rnd p nodes A s) as [A1 s1] eqn:Ea. cbn [fst snd] in *.
  destruct (K (bits_of A1)) as (bit' & r & qs & K1 & (K2 & K3) & K4 & K5). rewrite K1, H1.
  assert (Hb : forall q, In q nodes -> bits_of (store_bits nodes A1 bit') q = bit' q).
  { intros q Hq. unfold bits_of, store_bits. rewrite (proj2 (pmem_In q nodes) Hq). cbn [andb String.eqb Ascii.eqb Bool.eqb]. destruct (bit' q); reflexivity. }
  destruct (C05_qubits_checked_once_or_twice D e b pol c HD HC) as (_ & Hsyn & _).
  destruct (C04_stabilizers_are_cube_faces D e b pol c HD HC) as (_ & Hst).
  exists (store_bits nodes A1 bit'), r, qs. split; [reflexivity|]. split; [exact K2|]. split; [|split; [|split]].
  - intros k v Hk. unfold store_bits. rewrite (proj2 (pmem_In v nodes) (@nth_error_In point _ _ _ Hk)). cbn [andb String.eqb Ascii.eqb Bool.eqb]. rewrite K3. do 3 f_equal. unfold bits_of. rewrite (H2 k v Hk).
    destruct (Rlt_dec (draw rnd s k) p); reflexivity.
  - intros q key Hq. unfold store_bits. rewrite <- (H3 q key Hq). destruct (pmem q nodes) eqn:Em; [|reflexivity]. destruct (String.eqb key "bit_val") eqn:Ek; [|reflexivity].
    destruct Hq. split; [apply pmem_In; exact Em|apply String.eqb_eq; exact Ek].
  - intros st Hs. rewrite <- (K4 st Hs). unfold stab_parity. apply xsum_ext. intros q Hq. apply Hb. apply (Hst st q Hs Hq).
  - rewrite K5. assert (Hs : forall q, In q (sc_syn c) -> bits_of (store_bits nodes A1 bit') q = bit' q) by (intros q Hq; apply Hb; apply Hsyn; exact Hq).
    split; intros (g & Hg); exists g; intros q Hq; rewrite <- (Hg q Hq); [apply Hs; exact Hq|symmetry; apply Hs; exact Hq].
Qed.
Print Assumptions C62_state_after_trial.
