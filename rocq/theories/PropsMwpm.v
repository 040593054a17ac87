(* PropsMwpm.v: properties C13-C16, C18 and C49 of the minimum-weight perfect matching
   decoder.  Every theorem quantifies over all codes of sizes >= 2 (see PropsSurface), all
   bit values (error patterns), all choices ch of shared vertices, every answer o of the
   shortest path library that meets its contract (oracle_ok) and every answer of the matching
   library that meets its contract (best_matching). *)
From Verif Require Import Base Lattice RhgModel RhgSpec SurfaceModel SurfaceSpec SurfaceProofs
  SurfaceTheorems SurfaceGauge StabGraphModel Complex Paths SurfaceComplex PropsSurface MwpmModel MwpmProofs MwpmInst MwpmLemon.
Open Scope Z_scope.

(* ------------------------------------------------------------------ *)
(* C13 *)
Theorem C13_recovery_flips_exactly :
  forall (nodes : list point) (qs : list (option point)) (bit : point -> bool), NoDup qs ->
  (* all entries are nodes of the graph: exactly those bits are flipped, *)
  ((forall x, In x qs -> exists q, x = Some q /\ In q nodes) ->
     exists bit', recovery nodes qs bit = Ok bit' /\
       (forall q, In (Some q) qs -> bit' q = negb (bit q)) /\
       (forall q, ~ In (Some q) qs -> bit' q = bit q) /\
       (* whatever the iteration order of the set *)
       (forall qs', Permutation qs' qs -> exists bit'', recovery nodes qs' bit = Ok bit'' /\ forall q, bit'' q = bit' q) /\
       (* and running recovery again restores the original values *)
       (exists bit'', recovery nodes qs bit' = Ok bit'' /\ forall q, bit'' q = bit q)) /\
  (* otherwise KeyError *)
  ((exists x, In x qs /\ forall q, x = Some q -> ~ In q nodes) -> recovery nodes qs bit = Err KeyError).
Proof.
  intros nodes qs bit Hnd. split.
  - intros Hin. destruct (recovery_ok nodes qs Hin bit) as (bit' & E & Hb).
    assert (Hb' : forall x, bit' x = xorb (bit x) (omem (Some x) qs)).
    { intros x. rewrite Hb. f_equal. apply xsum_mem. assumption. }
    exists bit'. split; [assumption|]. split; [|split; [|split]].
    + intros q Hq. rewrite Hb'. apply omem_true in Hq. rewrite Hq. apply xorb_true_r.
    + intros q Hq. rewrite Hb'. destruct (omem (Some q) qs) eqn:F; [apply omem_true in F; contradiction|apply xorb_false_r].
    + intros qs' HP.
      assert (Hin' : forall x, In x qs' -> exists q, x = Some q /\ In q nodes).
      { intros x Hx. apply Hin. eapply Permutation_in; eassumption. }
      destruct (recovery_ok nodes qs' Hin' bit) as (bit'' & E'' & Hb'').
      exists bit''. split; [assumption|]. intros q. rewrite Hb'', Hb'. f_equal.
      rewrite xsum_mem by (eapply Permutation_NoDup; [apply Permutation_sym; eassumption|assumption]).
      destruct (omem (Some q) qs') eqn:F, (omem (Some q) qs) eqn:F'; try reflexivity; exfalso.
      * apply omem_true in F. apply (Permutation_in _ HP) in F. apply omem_true in F. congruence.
      * apply omem_true in F'. apply (Permutation_in _ (Permutation_sym HP)) in F'. apply omem_true in F'. congruence.
    + destruct (recovery_ok nodes qs Hin bit') as (bit'' & E'' & Hb'').
      exists bit''. split; [assumption|]. intros q. rewrite Hb'', xsum_mem, Hb' by assumption.
      destruct (bit q), (omem (Some q) qs); reflexivity.
  - intros (x & Hx & Hn). clear Hnd. unfold recovery. revert bit. induction qs as [|y qs IH]; [destruct Hx|]. intros bit.
    simpl. destruct y as [q|]; [|reflexivity]. destruct (pmem q nodes) eqn:F; [|reflexivity]. simpl.
    destruct Hx as [<-|Hx]; [|apply IH; assumption].
    exfalso. apply pmem_In in F. exact (Hn q eq_refl F).
Qed.
Print Assumptions C13_recovery_flips_exactly.

Example C13_nonvacuous :
  exists bit', recovery [(0, 1, 1); (1, 0, 1)] [Some (0, 1, 1)] (fun _ => false) = Ok bit' /\
    bit' (0, 1, 1) = true /\ bit' (1, 0, 1) = false /\
    recovery [(0, 1, 1)] [Some (0, 1, 1); None] (fun _ => false) = Err KeyError.
Proof. eexists. split; [vm_compute; reflexivity|]. repeat split; vm_compute; reflexivity. Qed.

(* ------------------------------------------------------------------ *)
(* facts about surface codes used below *)
Section Code.
  Variables (D : dims) (e : ecx) (b : bdk) (pol : option (point * point -> Z)) (c : scode).
  Hypothesis H2 : dims_ge2 D.
  Hypothesis HC : is_surface_code D e b pol c.
  Variable ch : nat -> nat -> point.
  Hypothesis Hch : valid_choice (sc_stabs c) ch.
  Notation E := (sg_edges (sc_stabs c) (sc_bound c) ch).
  Notation n := (length (sc_stabs c)).

  Lemma code_conn i j : (i < n)%nat -> (j < n)%nat -> exists p, is_path (radj E) (NStab i) (NStab j) p.
  Proof.
    intros Hi Hj. destruct (stabs_connected D e b pol c H2 HC ch Hch i j Hi Hj) as (p & Hp & Hr).
    exists p. apply ipath_of in Hp. induction Hp as [u|u x v p Hux Hp Hi' IH].
    - apply is_path_one.
    - apply is_path_cons with x; [|apply IH; intros; apply Hr; right; assumption].
      split; [exact Hux|]. split.
      + destruct (Hr u (or_introl eq_refl)) as (k & _ & ->). reflexivity.
      + destruct (Hr x) as (k & _ & ->); [|reflexivity].
        right. eapply is_path_in_first. exact Hp.
  Qed.

  Lemma code_bal : sc_bound c = [] \/ (low_half (sc_bound c) <> [] /\ high_half (sc_bound c) <> []).
  Proof.
    destruct (halves_low_high D e b pol c H2 HC) as [-> ->]. unfold sc_bound.
    pose proof (low_high_length D e b pol c H2 HC) as L.
    destruct (sc_low c), (sc_high c); try discriminate; [left; reflexivity|right; split; discriminate].
  Qed.

  Lemma code_bound_iff : sc_bound c = [] <-> b <> BdOpen.
  Proof.
    destruct (C05_qubits_checked_once_or_twice D e b pol c H2 HC) as (_ & _ & _ & _ & H).
    split; [|exact H]. intros E1 Eb. subst b.
    pose proof (C06_low_high_halves D e BdOpen pol c H2 HC) as (Hlow & _ & _ & _).
    rewrite E1 in Hlow. change (low_half []) with (@nil point) in Hlow.
    apply (proj2 (Hlow (match e with EcPrimal => (0, 1, 1) | EcDual => (0, 1, 0) end))). clear Hlow.
    pose proof (H2 AX); pose proof (H2 AY); pose proof (H2 AZ). destruct D as [[dx dy] dz].
    cbn [get] in *. unfold on_low. split.
    - destruct e; (split; [intros []; cbn; lia|reflexivity]).
    - destruct e; [exists AX|exists AY]; split; reflexivity.
  Qed.

  Variable bit : point -> bool.
  Notation odd := (odd_stabs (sc_stabs c) bit).
  Lemma odd_nd : NoDup odd.
  Proof. apply NoDup_filter, seq_NoDup. Qed.
  Lemma odd_lt i : In i odd -> (i < n)%nat.
  Proof using. intros H. apply filter_In in H. destruct H as [H _]. apply in_seq in H. clear -H. lia. Qed.
  Lemma in_odd i : (i < n)%nat -> (if in_dec Nat.eq_dec i odd then true else false) = stab_parity bit (stab_of (sc_stabs c) i).
  Proof.
    intros Hi. destruct (in_dec Nat.eq_dec i odd) as [H|H].
    - apply filter_In in H. symmetry. apply H.
    - destruct (stab_parity bit (stab_of (sc_stabs c) i)) eqn:F; [|reflexivity]. exfalso. apply H.
      apply filter_In. split; [apply in_seq; lia|assumption].
  Qed.

  Lemma code_even : sc_bound c = [] -> Nat.even (length odd) = true.
  Proof. intros Hb. apply (C07_even_syndrome_without_boundary D e b pol c bit H2 HC). apply code_bound_iff. assumption. Qed.

  Variables (rp : Z -> Z) (w : point -> Z) (o : sp_oracle).
  Hypothesis Ho : oracle_ok E w o.

  Lemma code_match_graph : exists mg virt mids bes,
    match_graph rp E w o odd (has_bound_points (sc_bound c)) = Ok (mg, virt) /\
    mg_spec (sc_stabs c) (sc_bound c) ch rp w odd mg virt mids bes.
  Proof.
    destruct (match_graph_ok (sc_stabs c) (sc_bound c) ch (surface_wf D e b pol c H2 HC) rp w o Ho
      code_conn code_bal odd odd_nd odd_lt) as (mg & virt & mids & bes & H3 & _ & H4).
    exists mg, virt, mids, bes. auto.
  Qed.

  Variable pick : list medge -> list (mnode * mnode).
  Hypothesis Hpick : forall mg, best_matching mg (pick mg).

  Lemma code_decode : exists qs bit' mg virt mids bes,
    match_graph rp E w o odd (has_bound_points (sc_bound c)) = Ok (mg, virt) /\
    mg_spec (sc_stabs c) (sc_bound c) ch rp w odd mg virt mids bes /\
    qubits_to_flip E mg virt (pick mg) = Ok qs /\
    mwpm_decoder rp (sc_stabs c) (sc_bound c) ch w o pick bit = Ok qs /\
    NoDup qs /\ (forall x, In x qs -> exists q, x = Some q /\ In q (sc_syn c)) /\
    recovery (node_list (sc_graph c)) qs bit = Ok bit' /\
    (forall q, bit' q = xorb (bit q) (omem (Some q) qs)) /\
    (forall st, In st (sc_stabs c) -> stab_parity bit' st = false).
  Proof.
    destruct code_match_graph as (mg & virt & mids & bes & Hmg & HS).
    pose proof (surface_wf D e b pol c H2 HC) as WF.
    destruct (decode_ok (sc_stabs c) (sc_bound c) ch WF Hch rp w code_conn code_bal
      odd odd_nd odd_lt mg virt mids bes HS code_even (pick mg) (Hpick mg)) as (qs & Hq & [Hnd Hin] & Hnone & Hx).
    assert (Hall : forall x, In x qs -> exists q, x = Some q /\ In q (sc_syn c)).
    { intros [q|] Hxq; [|contradiction]. exists q. split; [reflexivity|]. specialize (Hin q Hxq).
      apply in_concat in Hin. destruct Hin as (st & Hst & Hqs).
      apply (In_nth _ _ []) in Hst. destruct Hst as (i & Hi & <-).
      apply (syn_graph D e b pol c H2 HC). apply (stab_nodes D e b pol c H2 HC (nth i (sc_stabs c) [])); [apply nth_In|]; assumption. }
    assert (Hnodes : forall x, In x qs -> exists q, x = Some q /\ In q (node_list (sc_graph c))).
    { intros x Hxq. destruct (Hall x Hxq) as (q & -> & Hq'). exists q. split; [reflexivity|].
      apply (syn_graph D e b pol c H2 HC) in Hq'. tauto. }
    destruct (recovery_ok _ qs Hnodes bit) as (bit' & Hr & Hb).
    assert (Hb' : forall x, bit' x = xorb (bit x) (omem (Some x) qs)).
    { intros x. rewrite Hb. f_equal. apply xsum_mem. assumption. }
    exists qs, bit', mg, virt, mids, bes. split; [assumption|]. split; [assumption|]. split; [assumption|].
    split; [unfold mwpm_decoder; rewrite Hmg; exact Hq|].
    split; [assumption|]. split; [assumption|]. split; [assumption|]. split; [assumption|].
    intros st Hst. apply (In_nth _ _ []) in Hst. destruct Hst as (i & Hi & <-).
    rewrite (parity_flip _ qs bit bit'); [|apply (wf_nd _ _ WF), nth_In; assumption|assumption|assumption].
    specialize (Hx i Hi). rewrite in_odd in Hx by assumption. unfold stab_of in Hx. rewrite <- Hx.
    etransitivity; [|apply (xorb_nilpotent (xsum (in_stab (sc_stabs c) i) qs))]. f_equal.
  Qed.
End Code.

(* ------------------------------------------------------------------ *)
(* C14 *)
Theorem C14_mwpm_clears_syndrome :
  forall D e b pol c ch rp w o pick bit sanity,
  dims_ge2 D -> is_surface_code D e b pol c -> valid_choice (sc_stabs c) ch ->
  oracle_ok (sg_edges (sc_stabs c) (sc_bound c) ch) w o -> (forall mg, best_matching mg (pick mg)) ->
  exists qs bit' r,
    mwpm_decoder rp (sc_stabs c) (sc_bound c) ch w o pick bit = Ok qs /\
    (* the recovery set consists of syndrome qubits *)
    NoDup qs /\ (forall x, In x qs -> exists q, x = Some q /\ In q (sc_syn c)) /\
    recovery (node_list (sc_graph c)) qs bit = Ok bit' /\
    correct_mwpm rp c ch w o pick bit sanity = Ok (bit', r) /\
    (* and after recovery no stabilizer has odd parity *)
    (forall st, In st (sc_stabs c) -> stab_parity bit' st = false).
Proof.
  intros D e b pol c ch rp w o pick bit sanity H2 HC Hch Ho Hpick.
  destruct (code_decode D e b pol c H2 HC ch Hch bit rp w o Ho pick Hpick)
    as (qs & bit' & mg & virt & mids & bes & _ & _ & _ & Hd & Hnd & Hin & Hr & _ & Ht).
  destruct (C11_code_distance D e b pol c H2 HC) as (_ & _ & Hck). destruct (Hck bit' sanity) as (r & Hck').
  exists qs, bit', r. split; [assumption|]. split; [assumption|]. split; [assumption|]. split; [assumption|].
  split; [|assumption]. unfold correct_mwpm. rewrite Hd. simpl. rewrite Hr. simpl. rewrite Hck'. reflexivity.
Qed.
Print Assumptions C14_mwpm_clears_syndrome.

(* the two contracts are met by exhaustive search, for every code and all non-negative weights *)
Example C14_nonvacuous :
  forall D e b pol c ch w, is_surface_code D e b pol c -> (forall q, 0 <= w q) ->
  exists o pick, oracle_ok (sg_edges (sc_stabs c) (sc_bound c) ch) w o /\ forall mg, best_matching mg (pick mg).
Proof.
  intros D e b pol c ch w _ Hw. exists (search_oracle (sg_edges (sc_stabs c) (sc_bound c) ch) w), search_match.
  split; [apply search_oracle_ok; assumption|]. intros mg. apply search_match_ok.
Qed.

(* ------------------------------------------------------------------ *)
(* C49.  weight of a set of qubits *)
Definition set_weight (w : point -> Z) (F : list point) : Z := fold_right (fun q s => w q + s) 0 F.

(* The two reporting functions: networkx reports exact path lengths; rustworkx truncates
   every weight to an integer, which is exact when all weights are integers. *)
Lemma nx_exact w : exact 1 nx_report w.
Proof. split; [lia|]. split; [reflexivity|]. intros q. unfold nx_report. lia. Qed.
Lemma rx_exact units w : 0 < units -> (forall q, exists m, w q = units * m) -> exact units (rx_report units) w.
Proof.
  intros Hu H. split; [assumption|]. split; [apply Z.quot_0_l; lia|]. intros q. destruct (H q) as (m & ->).
  unfold rx_report. rewrite Z.mul_comm, Z.quot_mul by lia. lia.
Qed.


(* C49 for reported lengths that are not exact: if k times a reported weight is at most the weight and at least b/a of it, then the
   recovery weighs at most a/b times as much as any correction. *)
Theorem C49_mwpm_near_minimum_weight :
  forall D e b pol c ch rp ra rb k w o pick bit qs,
  dims_ge2 D -> is_surface_code D e b pol c -> valid_choice (sc_stabs c) ch ->
  oracle_ok (sg_edges (sc_stabs c) (sc_bound c) ch) w o -> (forall mg, best_matching mg (pick mg)) ->
  near ra rb k rp w -> (forall q, 0 <= w q) ->
  (* two stabilizers that share several qubits (periodic axes of size 2): the kept one is lightest *)
  (forall i j q, (i < j < length (sc_stabs c))%nat -> In q (shared (sc_stabs c) i j) -> w (ch i j) <= w q) ->
  mwpm_decoder rp (sc_stabs c) (sc_bound c) ch w o pick bit = Ok qs ->
  exists R, qs = map Some R /\ NoDup R /\
  (* R is a correction: flipping it clears the syndrome *)
  (forall st, In st (sc_stabs c) -> stab_parity (fun q => xorb (bit q) (pmem q R)) st = false) /\
  (* and every correction weighs at least as much *)
  forall F, NoDup F -> (forall q, In q F -> In q (sc_syn c)) ->
    (forall st, In st (sc_stabs c) -> stab_parity (fun q => xorb (bit q) (pmem q F)) st = false) ->
    rb * set_weight w R <= ra * set_weight w F.
Proof.
  intros D e b pol c ch rp ra rb k w o pick bit qs H2 HC Hch Ho Hpick Hex Hw Hlight Hdec.
  destruct (code_decode D e b pol c H2 HC ch Hch bit rp w o Ho pick Hpick)
    as (qs' & bit' & mg & virt & mids & bes & Hmg & HS & Hqf & Hd & Hnd & Hin & Hr & Hb & Ht).
  rewrite Hdec in Hd. injection Hd as <-.
  assert (HR : exists R, qs = map Some R).
  { clear -Hin. induction qs as [|x qs IH]; [exists []; reflexivity|].
    destruct IH as (R & ->); [intros; apply Hin; right; assumption|].
    destruct (Hin x (or_introl eq_refl)) as (q & -> & _). exists (q :: R). reflexivity. }
  destruct HR as (R & ->). exists R. split; [reflexivity|].
  split; [apply NoDup_map_inv in Hnd; assumption|].
  assert (HmR : forall q, omem (Some q) (map Some R) = pmem q R).
  { intros q. destruct (pmem q R) eqn:F.
    - apply omem_true, in_map, pmem_In. assumption.
    - destruct (omem (Some q) (map Some R)) eqn:F'; [|reflexivity]. apply omem_true in F'.
      apply in_map_iff in F'. destruct F' as (q' & Eq & F'). injection Eq as ->. apply pmem_In in F'. congruence. }
  split.
  { intros st Hst. rewrite <- (Ht st Hst). unfold stab_parity. apply xsum_ext. intros q _. rewrite Hb, HmR. reflexivity. }
  intros F HF HFin HFt.
  assert (Hsum : sumZ (pt_wt w) (map Some R) = set_weight w R).
  { clear. induction R as [|q R IH]; [reflexivity|]. simpl in *. rewrite IH. reflexivity. }
  rewrite <- Hsum. change (set_weight w F) with (sumZ w F).
  apply (decode_min_weight (sc_stabs c) (sc_bound c) ch (surface_wf D e b pol c H2 HC) Hch rp w o Ho
    (code_conn D e b pol c H2 HC ch Hch) (code_bal D e b pol c H2 HC) _ (odd_nd c bit) (odd_lt c bit)
    mg virt mids bes HS (code_even D e b pol c H2 HC bit) ra rb k Hex Hw Hlight (pick mg) (map Some R) F (Hpick mg) Hqf).
  - intros q Hq. apply HFin in Hq.
    pose proof (stab_count D e b pol c H2 HC q Hq) as Hc.
    destruct (filter (pmem q) (sc_stabs c)) as [|st l] eqn:Ef; [destruct (pmem q (sc_bound c)); discriminate|].
    assert (Hst : In st (filter (pmem q) (sc_stabs c))) by (rewrite Ef; left; reflexivity).
    apply filter_In in Hst. destruct Hst as [Hst Hqs]. apply in_concat. exists st. split; [assumption|].
    apply pmem_In. assumption.
  - intros i Hi. rewrite in_odd by assumption.
    specialize (HFt (stab_of (sc_stabs c) i) (nth_In _ _ Hi)).
    assert (HndF : NoDup (map Some F)) by (apply NoDup_map_inj; [congruence|assumption]).
    rewrite (parity_flip _ (map Some F) bit (fun q => xorb (bit q) (pmem q F))) in HFt;
      [|apply (wf_nd _ _ (surface_wf D e b pol c H2 HC)), nth_In; assumption|assumption|].
    + apply Bool.xorb_eq in HFt. rewrite HFt. clear. induction F as [|q F IH]; [reflexivity|]. simpl. rewrite IH. reflexivity.
    + intros q. f_equal. destruct (pmem q F) eqn:F1.
      * symmetry. apply omem_true, in_map, pmem_In. assumption.
      * destruct (omem (Some q) (map Some F)) eqn:F'; [|reflexivity]. apply omem_true in F'.
        apply in_map_iff in F'. destruct F' as (q' & Eq & F'). injection Eq as ->. apply pmem_In in F'. congruence.
Qed.
Print Assumptions C49_mwpm_near_minimum_weight.

Theorem C49_mwpm_minimum_weight :
  forall D e b pol c ch rp k w o pick bit qs,
  dims_ge2 D -> is_surface_code D e b pol c -> valid_choice (sc_stabs c) ch ->
  oracle_ok (sg_edges (sc_stabs c) (sc_bound c) ch) w o -> (forall mg, best_matching mg (pick mg)) ->
  exact k rp w -> (forall q, 0 <= w q) ->
  (* two stabilizers that share several qubits (periodic axes of size 2): the kept one is lightest *)
  (forall i j q, (i < j < length (sc_stabs c))%nat -> In q (shared (sc_stabs c) i j) -> w (ch i j) <= w q) ->
  mwpm_decoder rp (sc_stabs c) (sc_bound c) ch w o pick bit = Ok qs ->
  exists R, qs = map Some R /\ NoDup R /\
  (* R is a correction: flipping it clears the syndrome *)
  (forall st, In st (sc_stabs c) -> stab_parity (fun q => xorb (bit q) (pmem q R)) st = false) /\
  (* and every correction weighs at least as much *)
  forall F, NoDup F -> (forall q, In q F -> In q (sc_syn c)) ->
    (forall st, In st (sc_stabs c) -> stab_parity (fun q => xorb (bit q) (pmem q F)) st = false) ->
    set_weight w R <= set_weight w F.
Proof.
  intros D e b pol c ch rp k w o pick bit qs H2 HC Hch Ho Hpick Hex Hw Hlight Hdec.
  destruct (C49_mwpm_near_minimum_weight D e b pol c ch rp 1 1 k w o pick bit qs H2 HC Hch Ho Hpick (exact_near k rp w Hex Hw) Hw Hlight Hdec) as (R & E1 & E2 & E3 & E4).
  exists R. split; [exact E1|]. split; [exact E2|]. split; [exact E3|]. intros F F1 F2 F3. pose proof (E4 F F1 F2 F3). lia.
Qed.
Print Assumptions C49_mwpm_minimum_weight.

(* C49, the default backend with weights that are not integers.  rustworkx reports the sum of the integer parts of the weights; if
   every weight is at least m (weights are counted in fractions 1/units), the recovery is at most (m + 1) / m times as heavy as the
   lightest correction: at most twice as heavy for weights of at least 1. *)
Lemma rx_near units m w : 0 < units -> 1 <= m -> (forall q, w q = 0 \/ units * m <= w q) -> near (m + 1) m units (rx_report units) w.
Proof.
  intros Hu Hm Hw. split; [exact Hu|]. split; [lia|]. split; [lia|]. split; [apply Z.quot_0_l; lia|]. intros q. unfold rx_report.
  destruct (Hw q) as [-> |H]; [rewrite Z.quot_0_l by lia; lia|]. assert (0 <= units * m) by nia. rewrite Z.quot_div_nonneg by lia.
  pose proof (Z.div_mod (w q) units ltac:(lia)) as E. pose proof (Z.mod_pos_bound (w q) units Hu) as B. set (t := w q / units) in *. assert (Ht : m <= t) by nia. nia.
Qed.
Theorem C49_truncated_weights :
  forall D e b pol c ch units m w o pick bit qs,
  dims_ge2 D -> is_surface_code D e b pol c -> valid_choice (sc_stabs c) ch ->
  oracle_ok (sg_edges (sc_stabs c) (sc_bound c) ch) w o -> (forall mg, best_matching mg (pick mg)) ->
  0 < units -> 1 <= m -> (forall q, w q = 0 \/ units * m <= w q) ->
  (forall i j q, (i < j < length (sc_stabs c))%nat -> In q (shared (sc_stabs c) i j) -> w (ch i j) <= w q) ->
  mwpm_decoder (rx_report units) (sc_stabs c) (sc_bound c) ch w o pick bit = Ok qs ->
  exists R, qs = map Some R /\ NoDup R /\
  (forall st, In st (sc_stabs c) -> stab_parity (fun q => xorb (bit q) (pmem q R)) st = false) /\
  forall F, NoDup F -> (forall q, In q F -> In q (sc_syn c)) ->
    (forall st, In st (sc_stabs c) -> stab_parity (fun q => xorb (bit q) (pmem q F)) st = false) ->
    m * set_weight w R <= (m + 1) * set_weight w F.
Proof.
  intros D e b pol c ch units m w o pick bit qs H2 HC Hch Ho Hpick Hu Hm Hw Hlight Hdec.
  apply (C49_mwpm_near_minimum_weight D e b pol c ch (rx_report units) (m + 1) m units w o pick bit qs); try assumption.
  - apply rx_near; assumption.
  - intros q. destruct (Hw q); nia.
Qed.
Print Assumptions C49_truncated_weights.

(* the extra condition holds for every choice when periodic sizes are at least three, and
   for uniform weights *)
Lemma C49_condition :
  forall D e b pol c ch w, dims_ge2 D -> is_surface_code D e b pol c -> valid_choice (sc_stabs c) ch ->
  (forall a, get a (documented_bnds e b) = BPeriodic -> 3 <= get a D) \/ (forall q q', w q = w q') ->
  forall i j q, (i < j < length (sc_stabs c))%nat -> In q (shared (sc_stabs c) i j) -> w (ch i j) <= w q.
Proof.
  intros D e b pol c ch w H2 HC Hch Hcase i j q Hij Hq.
  destruct Hcase as [H3|Hu]; [|rewrite (Hu (ch i j) q); lia].
  assert (Hne : shared (sc_stabs c) i j <> []) by (intros F; rewrite F in Hq; destruct Hq).
  pose proof (Hch i j Hij Hne) as Hc. apply in_shared in Hq. apply in_shared in Hc.
  destruct (C08_stabilizer_graph_edges D e b pol c ch H2 HC Hch) as (_ & _ & _ & _ & _ & _ & _ & H).
  rewrite (H H3 i j (ch i j) q); [lia|lia|lia|lia|apply Hc|apply Hc|apply Hq|apply Hq].
Qed.

Example C49_truncated_nonvacuous :
  forall D e b pol c ch, dims_ge2 D -> is_surface_code D e b pol c -> valid_choice (sc_stabs c) ch ->
  (forall a, get a (documented_bnds e b) = BPeriodic -> 3 <= get a D) ->
  (* weights 1.0, 1.1, 1.2, ... *)
  let w q := 10 + Z.abs (co AX q) in let E := sg_edges (sc_stabs c) (sc_bound c) ch in
  oracle_ok E w (search_oracle E w) /\ (forall mg, best_matching mg (search_match mg)) /\
  (forall q, w q = 0 \/ 10 * 1 <= w q) /\
  (forall i j q, (i < j < length (sc_stabs c))%nat -> In q (shared (sc_stabs c) i j) -> w (ch i j) <= w q).
Proof.
  intros D e b pol c ch H2 HC Hch H3 w E. assert (Hw : forall q, 10 <= w q) by (intros q; unfold w; lia).
  split; [apply search_oracle_ok; intros q; specialize (Hw q); lia|]. split; [apply search_match_ok|]. split; [intros q; right; apply Hw|].
  apply (C49_condition D e b pol c ch w H2 HC Hch). left. assumption.
Qed.

(* a weighted example with a boundary: the lighter of two corrections is chosen *)
Example C49_nonvacuous :
  forall D e b pol c ch, dims_ge2 D -> is_surface_code D e b pol c -> valid_choice (sc_stabs c) ch ->
  (forall a, get a (documented_bnds e b) = BPeriodic -> 3 <= get a D) ->
  let w q := 1 + Z.abs (co AX q) in
  exact 1 nx_report w /\ (forall q, 0 <= w q) /\
  (forall i j q, (i < j < length (sc_stabs c))%nat -> In q (shared (sc_stabs c) i j) -> w (ch i j) <= w q).
Proof.
  intros D e b pol c ch H2 HC Hch H3 w. split; [apply nx_exact|]. split; [intros q; unfold w; lia|].
  apply (C49_condition D e b pol c ch w H2 HC Hch). left. assumption.
Qed.

(* ------------------------------------------------------------------ *)
(* C15.  Uniform weights: every weight is 1, and both backends report lengths exactly. *)
Theorem C15_mwpm_corrects_small_errors :
  forall D e b pol c ch rp o pick bit sanity,
  dims_ge2 D -> is_surface_code D e b pol c -> valid_choice (sc_stabs c) ch ->
  rp = nx_report \/ rp = rx_report 1 ->
  oracle_ok (sg_edges (sc_stabs c) (sc_bound c) ch) (fun _ => 1) o -> (forall mg, best_matching mg (pick mg)) ->
  (* fewer than d/2 errors, for every logical direction *)
  (forall a, In a (logical_axes e b) -> 2 * Z.of_nat (length (filter bit (sc_syn c))) < get a D) ->
  exists bit', correct_mwpm rp c ch (fun _ => 1) o pick bit sanity = Ok (bit', true).
Proof.
  intros D e b pol c ch rp o pick bit sanity H2 HC Hch Hrp Ho Hpick Hsmall.
  assert (Hex : exists k, exact k rp (fun _ => 1)).
  { exists 1. destruct Hrp as [-> | ->]; [apply nx_exact|apply rx_exact; [lia|]]. intros _. exists 1. reflexivity. }
  destruct Hex as (k & Hex).
  destruct (C14_mwpm_clears_syndrome D e b pol c ch rp (fun _ => 1) o pick bit sanity H2 HC Hch Ho Hpick)
    as (qs & bit' & r & Hd & Hnd & Hin & Hr & Hc & Ht).
  exists bit'. rewrite Hc. do 2 f_equal. destruct r; [reflexivity|]. exfalso.
  destruct (C49_mwpm_minimum_weight D e b pol c ch rp k (fun _ => 1) o pick bit qs H2 HC Hch Ho Hpick Hex
    ltac:(intros; simpl; lia) ltac:(intros; simpl; lia) Hd) as (R & -> & HndR & HtR & Hmin).
  assert (Hck : check_correction c bit' sanity = Ok false).
  { unfold correct_mwpm in Hc. rewrite Hd in Hc. simpl in Hc. rewrite Hr in Hc. simpl in Hc.
    destruct (check_correction c bit' sanity) as [x|]; simpl in Hc; [|discriminate]. injection Hc as ->. reflexivity. }
  destruct (C11_code_distance D e b pol c H2 HC) as (Hdist & _). 
  destruct (Hdist bit' sanity Ht Hck) as (a & Ha & Hle). specialize (Hsmall a Ha).
  pose proof (cf_syn_nd _ _ _ _ _ (surface_code_facts D e b pol c (ge2_ok D _ H2) HC)) as Hsyn.
  assert (HF : set_weight (fun _ => 1) R <= set_weight (fun _ => 1) (filter bit (sc_syn c))).
  { apply Hmin; [apply NoDup_filter; assumption|intros q Hq; apply filter_In in Hq; tauto|].
    intros st Hst. unfold stab_parity. rewrite (xsum_ext _ (fun _ => false)); [clear; induction st as [|x l IH]; [reflexivity|simpl; rewrite IH; reflexivity]|].
    intros q Hq. assert (Hqs : In q (sc_syn c)).
    { apply (syn_graph D e b pol c H2 HC). apply (stab_nodes D e b pol c H2 HC st q Hst Hq). }
    destruct (bit q) eqn:Eb.
    - rewrite (proj2 (pmem_In q _)); [reflexivity|]. apply filter_In. auto.
    - rewrite (proj2 (pmem_false q _)); [reflexivity|]. intros F. apply filter_In in F. destruct F; congruence. }
  assert (Hones : forall l : list point, set_weight (fun _ => 1) l = Z.of_nat (length l)).
  { induction l as [|x l IH]; [reflexivity|]. change (1 + set_weight (fun _ => 1) l = Z.of_nat (S (length l))). rewrite IH. lia. }
  rewrite !Hones in HF.
  assert (Hlen : (length (filter bit' (sc_syn c)) <= length (filter bit (sc_syn c) ++ R))%nat).
  { apply NoDup_incl_length; [apply NoDup_filter; assumption|].
    intros q Hq. apply filter_In in Hq. destruct Hq as [Hq Hb]. apply in_app_iff.
    destruct (C13_recovery_flips_exactly (node_list (sc_graph c)) (map Some R) bit Hnd) as [H13 _].
    destruct H13 as (bit1 & Er & Hf & Hnf & _).
    { intros x Hx. destruct (Hin x Hx) as (q' & -> & Hq'). exists q'. split; [reflexivity|].
      apply (syn_graph D e b pol c H2 HC) in Hq'. tauto. }
    rewrite Er in Hr. injection Hr as ->.
    destruct (pmem q R) eqn:F; [right; apply pmem_In; assumption|]. left. apply filter_In. split; [assumption|].
    rewrite Hnf in Hb; [assumption|]. intros G. apply in_map_iff in G. destruct G as (q' & Eq & G). injection Eq as ->.
    apply pmem_In in G. congruence. }
  rewrite app_length in Hlen. lia.
Qed.
Print Assumptions C15_mwpm_corrects_small_errors.

(* one error on a code of size three *)
Example C15_nonvacuous :
  let c := mk_code (3, 3, 3) EcPrimal BdToric None in
  let bit := peqb (1, 1, 2) in
  length (filter bit (sc_syn c)) = 1%nat /\ length (odd_stabs (sc_stabs c) bit) = 2%nat.
Proof. split; vm_compute; reflexivity. Qed.

(* ------------------------------------------------------------------ *)
(* C16 *)
Definition is_real (u : snode) : Prop := u <> NLow /\ u <> NHigh.

Theorem C16_matching_graph :
  forall D e b pol c ch rp w o bit,
  dims_ge2 D -> is_surface_code D e b pol c -> valid_choice (sc_stabs c) ch ->
  oracle_ok (sg_edges (sc_stabs c) (sc_bound c) ch) w o ->
  let E := sg_edges (sc_stabs c) (sc_bound c) ch in
  let adj u v := exists cv, In (u, v, cv) E \/ In (v, u, cv) E in
  let odd := odd_stabs (sc_stabs c) bit in
  exists mg virt,
    match_graph rp E w o odd (has_bound_points (sc_bound c)) = Ok (mg, virt) /\
    (* nodes: the odd stabilizers, and one virtual point per odd stabilizer if there is a boundary *)
    length virt = (match b with BdOpen => length odd | _ => 0%nat end) /\
    NoDup (map MStab odd ++ virt) /\
    (* edges: all pairs of odd stabilizers, each stabilizer to its virtual point, all pairs of
       virtual points *)
    map (fun x => (me_u x, me_v x)) mg =
      combs (map MStab odd) ++ combine (map MStab odd) virt ++ combs virt /\
    (* an edge between stabilizers carries a shortest path avoiding low and high *)
    (forall x i j, In x mg -> me_u x = MStab i -> me_v x = MStab j ->
       is_path (fun u v => adj u v /\ is_real u /\ is_real v) (NStab i) (NStab j) (me_path x) /\
       me_w x = reported rp E w (me_path x) /\
       forall p, is_path (fun u v => adj u v /\ is_real u /\ is_real v) (NStab i) (NStab j) p ->
         cost E w (me_path x) <= cost E w p) /\
    (* an edge to a virtual point carries a shortest path from low or high, without that
       connector; its second node is the boundary point that names the virtual point *)
    (forall x i v, In x mg -> me_u x = MStab i -> In v virt -> me_v x = v ->
       exists conn q k, (conn = NLow \/ conn = NHigh) /\ v = MVirt (NPt q) k /\
         nth_error odd k = Some i /\ hd_error (me_path x) = Some (NPt q) /\ In q (sc_bound c) /\
         is_path adj conn (NStab i) (conn :: me_path x) /\
         me_w x = reported rp E w (conn :: me_path x) /\
         (forall p, is_path adj conn (NStab i) p -> cost E w (conn :: me_path x) <= cost E w p) /\
         (* with exact reporting no path from either connector is shorter *)
         (forall m, exact m rp w -> forall conn' p, conn' = NLow \/ conn' = NHigh ->
            is_path adj conn' (NStab i) p -> cost E w (conn :: me_path x) <= cost E w p)) /\
    (forall x, In x mg -> In (me_u x) virt -> In (me_v x) virt -> me_w x = 0) /\
    (* a perfect matching exists, so every matching of maximum cardinality is perfect *)
    (exists M, is_matching mg M /\ Permutation (endpoints M) (map MStab odd ++ virt)) /\
    (forall M, best_matching mg M -> Permutation (endpoints M) (map MStab odd ++ virt)).
Proof.
  intros D e b pol c ch rp w o bit H2 HC Hch Ho E adj odd.
  destruct (code_match_graph D e b pol c H2 HC ch Hch bit rp w o Ho) as (mg & virt & mids & bes & Hmg & HS).
  pose proof (surface_wf D e b pol c H2 HC) as WF.
  pose proof (code_conn D e b pol c H2 HC ch Hch) as Hconn.
  pose proof (code_bal D e b pol c H2 HC) as Hbal.
  pose proof (odd_nd c bit) as Hnd. pose proof (odd_lt c bit) as Hlt. fold odd in Hnd, Hlt, Hmg, HS.
  pose proof (code_even D e b pol c H2 HC bit) as Hev. fold odd in Hev.
  pose proof (code_bound_iff D e b pol c H2 HC) as Hb.
  pose proof (mnodes_NoDup _ _ ch rp w Hconn odd Hnd Hlt mg virt mids bes HS) as Hmn.
  assert (Hbp : sc_bound c = [] \/ sc_bound c <> []) by (destruct (sc_bound c); [left; reflexivity|right; discriminate]).
  assert (Hlen : length virt = match b with BdOpen => length odd | _ => 0%nat end).
  { rewrite (ms_virt _ _ _ _ _ _ _ _ _ _ HS), map_length. destruct Hbp as [Hb0|Hb0].
    - rewrite (ms_nobes _ _ _ _ _ _ _ _ _ _ HS Hb0). apply Hb in Hb0. destruct b; [congruence|reflexivity|reflexivity].
    - assert (b = BdOpen) as -> by (destruct b; [reflexivity| |]; exfalso; apply Hb0, Hb; discriminate).
      pose proof (ms_bes _ _ _ _ _ _ _ _ _ _ HS Hb0) as F.
      assert (G : length (enumerate odd) = length bes) by (clear -F; induction F; simpl; congruence).
      rewrite <- G. unfold enumerate. rewrite combine_length, seq_length. lia. }
  exists mg, virt. split; [exact Hmg|]. split; [exact Hlen|]. split; [exact Hmn|]. split; [|split; [|split; [|split; [|split]]]].
  - rewrite (ms_mg _ _ _ _ _ _ _ _ _ _ HS), !map_app. f_equal; [|f_equal].
    + pose proof (ms_mids _ _ _ _ _ _ _ _ _ _ HS) as F.
      assert (G : forall l : list nat, combs (map MStab l) = map (fun ab => (MStab (fst ab), MStab (snd ab))) (combs l)).
      { clear. induction l as [|x l IH]; [reflexivity|]. simpl. rewrite map_app, IH. f_equal.
        rewrite !map_map. reflexivity. }
      rewrite G. clear -F. induction F as [|ab x l m H F IH]; [reflexivity|]. simpl. rewrite IH. f_equal.
      destruct H as (-> & -> & _). reflexivity.
    + destruct Hbp as [Hb0|Hb0].
      * rewrite (ms_virt _ _ _ _ _ _ _ _ _ _ HS), (ms_nobes _ _ _ _ _ _ _ _ _ _ HS Hb0). simpl.
        destruct (map MStab odd); reflexivity.
      * rewrite (ms_virt _ _ _ _ _ _ _ _ _ _ HS).
        pose proof (ms_bes _ _ _ _ _ _ _ _ _ _ HS Hb0) as F.
        assert (G : forall (l : list nat) m k (R : nat * nat -> medge -> Prop), (forall ki x, R ki x -> me_u x = MStab (snd ki)) ->
                  Forall2 R (combine (seq k (length l)) l) m ->
                  map (fun x => (me_u x, me_v x)) m = combine (map MStab l) (map me_v m)).
        { clear. induction l as [|i l IH]; intros m k R HR F; simpl in F; inversion F; subst; [reflexivity|].
          simpl. rewrite (IH _ _ _ HR H3). f_equal. apply HR in H1. simpl in H1. rewrite H1. reflexivity. }
        apply (G odd bes 0%nat _ (fun ki x H => proj1 H) F).
    + rewrite map_map. rewrite <- map_id. apply map_ext. intros [u v]; reflexivity.
  - intros x i j Hx Hu Hv.
    destruct (edge_kinds _ _ _ _ _ Hbal _ _ _ _ _ HS x Hx) as [(a & d & p & _ & _ & _ & -> & Hp & Hmin)|[[K _]|(K & _)]].
    + simpl in *. injection Hu as ->. injection Hv as ->.
      assert (G : forall u v p, is_path (radj E) u v p <-> is_path (fun u v => adj u v /\ is_real u /\ is_real v) u v p).
      { intros u v q. split; intros Hq; (eapply is_path_impl; [exact Hq|]); clear; intros u' v' _ _ (H1 & H3 & H4);
          (split; [exact H1|]); unfold is_real in *; destruct u', v'; simpl in *; try discriminate; auto; try tauto;
          try (split; split; discriminate). }
      split; [apply G; exact Hp|]. split; [reflexivity|]. intros q Hq. apply Hmin, G. exact Hq.
    + destruct K as (k & i' & cc & full & q & rest & _ & -> & _). discriminate.
    + destruct (virt_is_virt _ _ _ _ _ Hconn _ Hlt _ _ _ _ HS _ K) as (? & ? & F & _). congruence.
  - intros x i v Hx Hu Hv Ev. subst v.
    destruct (virt_is_virt _ _ _ _ _ Hconn _ Hlt _ _ _ _ HS _ Hv) as (q0 & k0 & Ev & _).
    destruct (edge_kinds _ _ _ _ _ Hbal _ _ _ _ _ HS x Hx) as [(a & d & p & _ & _ & _ & -> & _)|[[K _]|(K & _)]].
    + discriminate.
    + destruct K as (k & i' & cc & full & q & rest & Hk & -> & Hcc & -> & Hq & Hqb & Hp & _ & Hmin & Hother).
      simpl in *. injection Hu as ->. injection Ev as <- <-.
      exists cc, q, k.
      split; [destruct cc; simpl in Hcc; try discriminate; auto|]. split; [reflexivity|]. split; [exact Hk|].
      split; [reflexivity|]. split; [exact Hqb|]. split; [exact Hp|]. split; [reflexivity|]. split; [exact Hmin|].
      intros m Hex conn' p Hc' Hp'.
      assert (Hcn : conn conn' = true) by (destruct Hc' as [-> | ->]; reflexivity).
      destruct (Hother conn' Hcn) as (full' & Hf' & Hmin' & Hle).
      specialize (Hmin' p Hp').
      assert (G : forall p, m * reported rp E w p = cost E w p).
      { intros p0. symmetry. apply (cost_reported _ _ ch rp w [] m p0 Hex). }
      pose proof (G (cc :: NPt q :: rest)) as G1. pose proof (G full') as G2.
      destruct Hex as (Hm & _). fold E in Hmin', Hle. nia.
    + destruct (virt_is_virt _ _ _ _ _ Hconn _ Hlt _ _ _ _ HS _ K) as (? & ? & F & _). congruence.
  - intros x Hx Hu Hv.
    destruct (edge_kinds _ _ _ _ _ Hbal _ _ _ _ _ HS x Hx) as [(a & d & p & _ & _ & _ & -> & _)|[[K _]|(_ & _ & K)]].
    + destruct (virt_is_virt _ _ _ _ _ Hconn _ Hlt _ _ _ _ HS _ Hu) as (? & ? & F & _). discriminate.
    + destruct K as (k & i' & cc & full & q & rest & _ & -> & _).
      destruct (virt_is_virt _ _ _ _ _ Hconn _ Hlt _ _ _ _ HS _ Hu) as (? & ? & F & _). discriminate.
    + exact K.
  - exists (search_match mg). pose proof (search_match_ok mg) as HB.
    split; [apply HB|]. apply (best_perfect _ _ ch rp w Hconn Hbal odd Hnd Hlt mg virt mids bes HS Hev). exact HB.
  - intros M HM. apply (best_perfect _ _ ch rp w Hconn Hbal odd Hnd Hlt mg virt mids bes HS Hev). exact HM.
Qed.
Print Assumptions C16_matching_graph.

(* two odd stabilizers of an open code: two nodes, two virtual points *)
Example C16_nonvacuous :
  odd_stabs (sc_stabs (mk_code (2, 2, 2) EcPrimal BdOpen None)) (fun q => pmem q [(0, 1, 1); (2, 3, 3)]) = [0%nat; 3%nat].
Proof. vm_compute; reflexivity. Qed.
