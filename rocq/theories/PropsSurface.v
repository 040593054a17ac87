(* PropsSurface.v: properties C04-C12 of SurfaceCode, its stabilizer graph and
   check_correction.  Every theorem quantifies over all sizes >= 2, both error complexes,
   the three boundary choices, all polarity functions and all set iteration orders
   (through is_surface_code). *)
From Verif Require Import Base Lattice RhgModel RhgSpec SurfaceModel SurfaceSpec SurfaceProofs
  SurfaceTheorems SurfaceGauge StabGraphModel Complex Paths SurfaceComplex.
Open Scope Z_scope.

(* C04.  The stabilizers correspond one to one to the cells of the lattice. *)
Theorem C04_stabilizers_are_cube_faces :
  forall D e b pol c, dims_ge2 D -> is_surface_code D e b pol c ->
  (exists centres,
     NoDup centres /\ (forall x, In x centres <-> cell D e (documented_bnds e b) x) /\
     map midpoint2 (sc_phys c) = map (fun x => (2 * co AX x, 2 * co AY x, 2 * co AZ x)) centres /\
     Forall2 (fun x st => NoDup st /\ forall q, In q st <-> on_cell D e (documented_bnds e b) x q)
             centres (sc_stabs c)) /\
  (forall st q, In st (sc_stabs c) -> In q st ->
     In q (node_list (sc_graph c)) /\ node_type (sc_graph c) q = Some (sel e)).
Proof.
  intros D e b pol c H2 HC. split.
  - rewrite <- code_bnds_eq. exact (stab_cells D e b pol c H2 HC).
  - exact (stab_nodes D e b pol c H2 HC).
Qed.
Print Assumptions C04_stabilizers_are_cube_faces.

(* every combination of arguments gives a code; the 2x3x2 toric dual code has 12 stabilizers *)
Example C04_nonvacuous :
  dims_ge2 (2, 3, 2) /\ is_surface_code (2, 3, 2) EcDual BdToric None (mk_code (2, 3, 2) EcDual BdToric None) /\
  length (sc_stabs (mk_code (2, 3, 2) EcDual BdToric None)) = 12%nat.
Proof. split; [intros []; simpl; lia|]. split; [apply mk_code_ok|vm_compute; reflexivity]. Qed.

(* C05.  Syndrome qubits are the nodes of type ec; each is in one or two stabilizers. *)
Theorem C05_qubits_checked_once_or_twice :
  forall D e b pol c, dims_ge2 D -> is_surface_code D e b pol c ->
  NoDup (sc_syn c) /\
  (forall q, In q (sc_syn c) <->
     In q (node_list (sc_graph c)) /\ node_type (sc_graph c) q = Some (sel e)) /\
  (forall q, In q (sc_bound c) -> In q (sc_syn c)) /\
  (forall q, In q (sc_syn c) ->
     length (filter (pmem q) (sc_stabs c)) = if pmem q (sc_bound c) then 1%nat else 2%nat) /\
  (b <> BdOpen -> sc_bound c = []).
Proof.
  intros D e b pol c H2 HC.
  pose proof (surface_code_facts D e b pol c (ge2_ok D _ H2) HC) as CF.
  split; [apply (cf_syn_nd _ _ _ _ _ CF)|].
  split; [exact (syn_graph D e b pol c H2 HC)|].
  split; [exact (bound_syn D e b pol c H2 HC)|].
  split; [exact (stab_count D e b pol c H2 HC)|].
  intros Hb. destruct (sc_bound c) as [|q l] eqn:E; [reflexivity|]. exfalso.
  assert (Hin : In q (sc_bound c)) by (rewrite E; left; reflexivity).
  unfold sc_bound in Hin. rewrite in_app_iff, (cf_low _ _ _ _ _ CF), (cf_high _ _ _ _ _ CF) in Hin.
  destruct Hin as [[_ [a [Ha _]]]|[_ [a [Ha _]]]]; destruct b; simpl in Ha; congruence.
Qed.
Print Assumptions C05_qubits_checked_once_or_twice.

Example C05_nonvacuous :
  let c := mk_code (2, 2, 3) EcPrimal BdOpen None in
  is_surface_code (2, 2, 3) EcPrimal BdOpen None c /\
  length (sc_syn c) = 19%nat /\ length (sc_bound c) = 12%nat.
Proof. split; [apply mk_code_ok|]. split; vm_compute; reflexivity. Qed.

(* C06.  The two halves of the list of boundary points are the two boundary planes. *)
Theorem C06_low_high_halves :
  forall D e b pol c, dims_ge2 D -> is_surface_code D e b pol c ->
  (forall q, In q (low_half (sc_bound c)) <-> on_low D e b q) /\
  (forall q, In q (high_half (sc_bound c)) <-> on_high D e b q) /\
  length (low_half (sc_bound c)) = length (high_half (sc_bound c)) /\
  NoDup (low_half (sc_bound c) ++ high_half (sc_bound c)).
Proof.
  intros D e b pol c H2 HC.
  pose proof (surface_code_facts D e b pol c (ge2_ok D _ H2) HC) as CF.
  rewrite halves.
  destruct (halves_low_high D e b pol c H2 HC) as [-> ->].
  split; [intros q; rewrite <- low_plane_iff; apply (cf_low _ _ _ _ _ CF)|].
  split; [intros q; rewrite <- high_plane_iff; apply (cf_high _ _ _ _ _ CF)|].
  split; [exact (low_high_length D e b pol c H2 HC)|exact (bound_NoDup D e b pol c H2 HC)].
Qed.
Print Assumptions C06_low_high_halves.

Example C06_nonvacuous :
  low_half (sc_bound (mk_code (2, 2, 2) EcDual BdOpen None)) <> [] /\
  high_half (sc_bound (mk_code (2, 2, 2) EcDual BdOpen None)) <> [].
Proof. split; vm_compute; discriminate. Qed.

(* C07.  Without boundary the syndrome is even. *)
Theorem C07_even_syndrome_without_boundary :
  forall D e b pol c bit, dims_ge2 D -> is_surface_code D e b pol c -> b <> BdOpen ->
  Nat.even (length (odd_stabs (sc_stabs c) bit)) = true.
Proof.
  intros D e b pol c bit H2 HC Hb.
  rewrite <- (even_syndrome D e b pol c H2 HC bit Hb). f_equal.
  rewrite <- (filter_seq_length (stab_parity bit) [] (sc_stabs c) 0). unfold odd_stabs, stab_of. f_equal.
  apply filter_ext. intros i. rewrite Nat.sub_0_r. reflexivity.
Qed.
Print Assumptions C07_even_syndrome_without_boundary.

Example C07_nonvacuous :
  length (odd_stabs (sc_stabs (mk_code (2, 2, 2) EcPrimal BdToric None)) (peqb (1, 1, 2))) = 2%nat.
Proof. vm_compute; reflexivity. Qed.

(* C08.  Edges of the stabilizer graph, for any choice ch of the popped shared vertices. *)
Theorem C08_stabilizer_graph_edges :
  forall D e b pol c ch, dims_ge2 D -> is_surface_code D e b pol c -> valid_choice (sc_stabs c) ch ->
  let n := length (sc_stabs c) in
  let S i := nth i (sc_stabs c) [] in
  let E := sg_edges (sc_stabs c) (sc_bound c) ch in
  (* two stabilizers are adjacent iff they share a qubit, and the label is a shared qubit *)
  (forall i j, (i < n)%nat -> (j < n)%nat -> i <> j ->
     ((exists cv, In (NStab i, NStab j, cv) E \/ In (NStab j, NStab i, cv) E) <->
      exists q, In q (S i) /\ In q (S j))) /\
  (forall i j cv, In (NStab i, NStab j, cv) E -> exists q, cv = Some q /\ In q (S i) /\ In q (S j)) /\
  (* the edges of a boundary point *)
  (forall u p cv, In (u, NPt p, cv) E <->
     (exists i, (i < n)%nat /\ u = NStab i /\ In p (S i) /\ In p (sc_bound c) /\ cv = Some p) \/
     (u = NLow /\ on_low D e b p /\ cv = None) \/ (u = NHigh /\ on_high D e b p /\ cv = None)) /\
  (* no other edges, no parallel edges, and a qubit labels at most one edge *)
  (forall u v cv, In (u, v, cv) E -> (exists j, v = NStab j /\ (j < n)%nat /\ exists i, u = NStab i /\ (i < j)%nat) \/
     exists p, v = NPt p) /\
  (forall u v cv cv', In (u, v, cv) E -> In (u, v, cv') E -> cv = cv') /\
  (forall u v cv cv', In (u, v, cv) E -> ~ In (v, u, cv') E) /\
  (forall u v u' v' q, In (u, v, Some q) E -> In (u', v', Some q) E -> u = u' /\ v = v') /\
  (* two stabilizers share at most one qubit if periodic sizes are at least three *)
  ((forall a, get a (documented_bnds e b) = BPeriodic -> 3 <= get a D) ->
   forall i j q q', (i < n)%nat -> (j < n)%nat -> i <> j ->
     In q (S i) -> In q (S j) -> In q' (S i) -> In q' (S j) -> q = q').
Proof.
  intros D e b pol c ch H2 HC Hch n S E.
  pose proof (surface_code_facts D e b pol c (ge2_ok D _ H2) HC) as CF.
  pose proof (surface_wf D e b pol c H2 HC) as WF.
  split; [exact (stab_adj (sc_stabs c) (sc_bound c) ch Hch)|].
  split.
  { intros i j cv H. apply in_E in H.
    destruct H as [(i' & j' & E1 & E2 & Hij & Hs & ->)|[(i' & p & _ & E2 & _)|[_ (p & E2 & _)]]]; try discriminate.
    injection E1 as <-. injection E2 as <-. exists (ch i j). split; [reflexivity|].
    apply in_shared. apply Hch; assumption. }
  split.
  { intros u p cv. unfold E. rewrite in_E.
    destruct (halves_low_high D e b pol c H2 HC) as [-> ->]. split.
    - intros [(i' & j' & _ & E2 & _)|[(i' & p' & -> & E2 & Hi & Hp & Hs & ->)|[-> (p' & E2 & [[-> Hp]|[-> Hp]])]]]; try discriminate.
      + injection E2 as <-. left. exists i'. auto.
      + injection E2 as <-. right; left. rewrite <- low_plane_iff, <- (cf_low _ _ _ _ _ CF). auto.
      + injection E2 as <-. right; right. rewrite <- high_plane_iff, <- (cf_high _ _ _ _ _ CF). auto.
    - intros [(i & Hi & -> & Hs & Hp & ->)|[(-> & Hp & ->)|(-> & Hp & ->)]].
      + right; left. exists i, p. auto 6.
      + right; right. split; [reflexivity|]. exists p. split; [reflexivity|]. left. split; [reflexivity|].
        apply (cf_low _ _ _ _ _ CF), low_plane_iff. assumption.
      + right; right. split; [reflexivity|]. exists p. split; [reflexivity|]. right. split; [reflexivity|].
        apply (cf_high _ _ _ _ _ CF), high_plane_iff. assumption. }
  split.
  { intros u v cv H. apply in_E in H.
    destruct H as [(i & j & -> & -> & Hij & _)|[(i & p & _ & -> & _)|[_ (p & -> & _)]]]; [left|right; eauto|right; eauto].
    exists j. split; [reflexivity|]. split; [apply Hij|]. exists i. split; [reflexivity|apply Hij]. }
  split; [exact (edge_data_unique (sc_stabs c) (sc_bound c) ch)|].
  split; [intros u v cv cv' H H'; exact (edge_direction (sc_stabs c) (sc_bound c) ch u v cv cv' H H')|].
  split; [exact (edge_unique (sc_stabs c) (sc_bound c) ch WF Hch)|].
  intros H3 i j q q' Hi Hj Hij Q1 Q2 Q3 Q4. rewrite <- code_bnds_eq in H3.
  destruct (stab_ctr D e b pol c H2 HC i Hi) as [Ci Si]. destruct (stab_ctr D e b pol c H2 HC j Hj) as [Cj Sj].
  apply (unique_shared D e b H2 _ _ q q' H3 Ci Cj).
  - intros F. apply Hij. apply (ctr_inj D e b pol c H2 HC); assumption.
  - apply Si; assumption.
  - apply Sj; assumption.
  - apply Si; assumption.
  - apply Sj; assumption.
Qed.
Print Assumptions C08_stabilizer_graph_edges.

(* a valid choice exists for every code: the first shared point *)
Lemma first_choice_valid stabs : valid_choice stabs (fun i j => hd (0, 0, 0) (shared stabs i j)).
Proof. intros i j _ H. destruct (shared stabs i j); [congruence|]. left; reflexivity. Qed.

Example C08_nonvacuous :
  let c := mk_code (2, 2, 2) EcPrimal BdOpen None in
  length (sg_edges (sc_stabs c) (sc_bound c) (fun i j => hd (0, 0, 0) (shared (sc_stabs c) i j))) = 20%nat.
Proof. vm_compute; reflexivity. Qed.

(* two stabilizers of a periodic code of size 2 do share two qubits *)
Example C08_size_two :
  let c := mk_code (2, 2, 2) EcPrimal BdPeriodic None in
  exists i j q q', i <> j /\ q <> q' /\
    forallb (fun st => pmem q st && pmem q' st) [nth i (sc_stabs c) []; nth j (sc_stabs c) []] = true.
Proof.
  exists 0%nat, 1%nat, (1, 1, 0), (1, 1, 2).
  split; [discriminate|]. split; [discriminate|]. vm_compute. reflexivity.
Qed.

(* C09.  Any two stabilizers are joined by a path of stabilizers. *)
Theorem C09_stabilizer_graph_connected :
  forall D e b pol c ch, dims_ge2 D -> is_surface_code D e b pol c -> valid_choice (sc_stabs c) ch ->
  let E := sg_edges (sc_stabs c) (sc_bound c) ch in
  forall i j, (i < length (sc_stabs c))%nat -> (j < length (sc_stabs c))%nat ->
  exists p, is_path (fun u v => exists cv, In (u, v, cv) E \/ In (v, u, cv) E) (NStab i) (NStab j) p /\
            forall u, In u p -> exists k, (k < length (sc_stabs c))%nat /\ u = NStab k.
Proof. intros D e b pol c ch H2 HC Hch E. exact (stabs_connected D e b pol c H2 HC ch Hch). Qed.
Print Assumptions C09_stabilizer_graph_connected.

Example C09_nonvacuous : length (sc_stabs (mk_code (3, 2, 2) EcDual BdOpen None)) = 6%nat.
Proof. vm_compute; reflexivity. Qed.

(* C10.  With trivial syndrome all parallel planes of a checked direction have the same parity. *)
Theorem C10_parallel_planes_agree :
  forall D e b pol c bit, dims_ge2 D -> is_surface_code D e b pol c ->
  (forall st, In st (sc_stabs c) -> stab_parity bit st = false) ->
  forall a, In a (planes_to_check e b) ->
  Z.of_nat (length (truth c bit true a)) = get a D /\
  (forall t t', In t (truth c bit true a) -> In t' (truth c bit true a) -> t = t') /\
  check_correction c bit true = check_correction c bit false.
Proof.
  intros D e b pol c bit H2 HC Ht a Ha. rewrite planes_to_check_eq in Ha.
  split; [rewrite (truth_length D e b pol c H2 HC); specialize (H2 a); lia|].
  split.
  - intros t t' H H'. rewrite (truth_all_equal D e b pol c H2 HC bit a Ht Ha t H).
    symmetry. exact (truth_all_equal D e b pol c H2 HC bit a Ht Ha t' H').
  - rewrite !(check_correction_eq D e b pol c H2 HC). reflexivity.
Qed.
Print Assumptions C10_parallel_planes_agree.

(* a logical error: a full line of flipped qubits has trivial syndrome and odd planes *)
Example C10_nonvacuous :
  let c := mk_code (2, 2, 2) EcPrimal BdOpen None in
  let bit q := pmem q [(0, 1, 1); (2, 1, 1)] in
  forallb (fun st => negb (stab_parity bit st)) (sc_stabs c) = true /\
  truth c bit true AX = [false; false].
Proof. split; vm_compute; reflexivity. Qed.

(* C11.  Code distance. *)
Theorem C11_code_distance :
  forall D e b pol c, dims_ge2 D -> is_surface_code D e b pol c ->
  (* an undetected pattern that fails the check has at least the size of the code in some
     checked direction *)
  (forall bit sanity, (forall st, In st (sc_stabs c) -> stab_parity bit st = false) ->
     check_correction c bit sanity = Ok false ->
     exists a, In a (logical_axes e b) /\ get a D <= Z.of_nat (length (filter bit (sc_syn c)))) /\
  (* and for every checked direction there is such a pattern of exactly that weight *)
  (forall a, In a (logical_axes e b) ->
     exists bit, (forall st, In st (sc_stabs c) -> stab_parity bit st = false) /\
       (forall sanity, check_correction c bit sanity = Ok false) /\
       Z.of_nat (length (filter bit (sc_syn c))) = get a D) /\
  (* the check never raises *)
  (forall bit sanity, exists r, check_correction c bit sanity = Ok r).
Proof.
  intros D e b pol c H2 HC. split; [|split].
  - intros bit sanity Ht Hf. apply (distance_bound D e b pol c H2 HC bit Ht).
    rewrite <- Hf. rewrite !(check_correction_eq D e b pol c H2 HC). reflexivity.
  - intros a Ha. destruct (distance_tight D e b pol c H2 HC a Ha) as (bit & H3 & H4 & H5).
    exists bit. split; [assumption|]. split; [|assumption]. intros sanity.
    rewrite <- H4. rewrite !(check_correction_eq D e b pol c H2 HC). reflexivity.
  - intros bit sanity. rewrite (check_correction_eq D e b pol c H2 HC). eauto.
Qed.
Print Assumptions C11_code_distance.

Example C11_nonvacuous :
  let c := mk_code (3, 2, 2) EcPrimal BdOpen None in
  let bit q := pmem q [(0, 1, 1); (2, 1, 1); (4, 1, 1)] in
  forallb (fun st => negb (stab_parity bit st)) (sc_stabs c) = true /\
  check_correction c bit true = Ok false /\ length (filter bit (sc_syn c)) = 3%nat.
Proof. split; [|split]; vm_compute; reflexivity. Qed.

(* C12.  Flipping all neighbours of a vertex v of the other type changes nothing. *)
Theorem C12_gauge_invariance :
  forall D e b pol c v bit, dims_ge2 D -> is_surface_code D e b pol c ->
  In v (node_list (sc_graph c)) -> node_type (sc_graph c) v <> Some (sel e) ->
  let bit' q := if pmem q (nbrs (sc_graph c) v) then negb (bit q) else bit q in
  (forall st, In st (sc_stabs c) -> stab_parity bit' st = stab_parity bit st) /\
  (forall sanity, check_correction c bit' sanity = check_correction c bit sanity).
Proof.
  intros D e b pol c v bit H2 HC Hv Ht bit'.
  assert (Hbit : forall q, bit' q = flip (nbrs (sc_graph c) v) bit q).
  { intros q. unfold bit', flip. destruct (pmem q _), (bit q); reflexivity. }
  split.
  - intros st Hst. rewrite <- (gauge_syndrome D e b pol c H2 HC v bit st Hv Ht Hst).
    unfold stab_parity. apply xsum_ext. intros q _. apply Hbit.
  - intros sanity. rewrite <- (gauge_verdict D e b pol c H2 HC v bit sanity Hv Ht).
    rewrite !(check_correction_eq D e b pol c H2 HC). f_equal.
    induction (logical_axes e b) as [|a l IH]; [reflexivity|]. simpl. rewrite IH. f_equal. f_equal.
    unfold SurfaceIncidence.plane. apply xsum_ext. intros q _. rewrite Hbit. reflexivity.
Qed.
Print Assumptions C12_gauge_invariance.

Example C12_nonvacuous :
  let c := mk_code (2, 2, 2) EcPrimal BdOpen None in
  pmem (1, 2, 2) (node_list (sc_graph c)) = true /\ node_type (sc_graph c) (1, 2, 2) = Some Dual /\
  length (nbrs (sc_graph c) (1, 2, 2)) = 4%nat.
Proof. split; [|split]; vm_compute; reflexivity. Qed.
