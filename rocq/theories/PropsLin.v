(* PropsLin.v: C24-C27, linear algebra modulo 2 and local Clifford equivalence. *)
From Verif Require Import Base LinModel LinSpec LinProofs LinNull LinLc.
Open Scope nat_scope.

(* ------------------------------------------------------------------ *)
(* C24 *)
Lemma echelon_indep n maxc R p cols : width n R -> echelon maxc R p cols -> independent n (firstn p R).
Proof.
  intros HW (E1 & E2 & _ & E4 & E5 & _). assert (Hl : length (firstn p R) = p) by (rewrite firstn_length; lia).
  assert (HW' : width n (firstn p R)).
  { intros r Hr. apply HW. rewrite <- (firstn_skipn p R). apply in_or_app. left. assumption. }
  assert (He : forall k j, k < p -> ent (firstn p R) k j = ent R k j).
  { intros k j Hk. unfold ent. rewrite <- (firstn_skipn p R) at 2. rewrite app_nth1 by lia. reflexivity. }
  intros cs Hc E. rewrite Hl in *. apply row_ext; [rewrite repeat_length; assumption|]. intros i Hi. rewrite Hc in Hi.
  rewrite <- (lincomb_col n (firstn p R) (nth i cols 0) HW' i cs).
  - rewrite E. rewrite zeros_nth. symmetry. apply zeros_nth.
  - lia.
  - lia.
  - intros k Hk. rewrite Hl in Hk. rewrite He by assumption. apply E5; lia.
Qed.
Lemma loop_beyond n js' : js' <> [] -> (forall j, In j js' -> n <= j) -> forall js R p,
  rref_loop n (js ++ js') R p = Err IndexError \/ rref_loop n (js ++ js') R p = rref_loop n js R p.
Proof.
  intros Hne Hj. induction js as [|j js IH]; intros R p.
  - destruct js' as [|j js']; [congruence|]. left. cbn [app rref_loop]. destruct (Nat.leb_spec n j); [reflexivity|]. specialize (Hj j (or_introl eq_refl)). lia.
  - cbn [app rref_loop]. destruct (n <=? j); [auto|]. destruct (find_pivot p j (skipn p R)) as [i|]; [|apply IH]. cbv zeta. destruct (S p =? _); [auto|apply IH].
Qed.

(* For every binary matrix with n columns: the result has the same shape and the same row space,
   its first max_cols columns are in reduced row echelon form with p pivots, and the p pivot rows
   are linearly independent.  With max_cols beyond the number of columns the call raises
   IndexError or behaves as if all columns had been asked for. *)
Theorem C24_row_reduction : forall n M max_cols, width n M ->
  (forall m, (max_cols = Some m /\ m <= n) \/ (max_cols = None /\ m = n) ->
    exists R p cols, reduce_RREform_mod2 n M max_cols = Ok (R, p) /\
      length R = length M /\ width n R /\ (forall v, rowspace n M v <-> rowspace n R v) /\
      echelon m R p cols /\ independent n (firstn p R)) /\
  (forall m, max_cols = Some m -> n < m ->
    reduce_RREform_mod2 n M max_cols = Err IndexError \/ reduce_RREform_mod2 n M max_cols = reduce_RREform_mod2 n M None).
Proof.
  intros n M mc HW. split.
  - intros m Hm. destruct (reduce_ok n M mc HW) as (R & p & cols & A1 & A2 & A3 & A4 & A5); [destruct Hm as [[-> H]|[-> H]]; lia|].
    exists R, p, cols. split; [assumption|]. split; [assumption|]. split; [assumption|]. split; [assumption|].
    assert (A5' : echelon m R p cols) by (destruct Hm as [[-> H]|[-> ->]]; assumption). split; [assumption|]. eapply echelon_indep; eassumption.
  - intros m -> Hm. unfold reduce_RREform_mod2. replace m with (n + (m - n)) by lia. rewrite seq_app. apply loop_beyond.
    + destruct (m - n) eqn:E; [lia|]. discriminate.
    + intros j Hj. apply in_seq in Hj. lia.
Qed.
Example C24_witness : reduce_RREform_mod2 4 [[true; true; false; true]; [true; true; true; false]; [false; false; true; true]] None
  = Ok ([[true; true; false; true]; [false; false; true; true]; [false; false; false; false]], 2).
Proof. reflexivity. Qed.

(* ------------------------------------------------------------------ *)
(* C25 *)
Theorem C25_nullspace_basis : forall n M, width n M ->
  exists B, nullspace_basis n M = Ok B /\ width n B /\ independent n B /\
    (forall x, length x = n -> (nullvec M x <-> rowspace n B x)) /\ (forall r, In r B -> nullvec M r).
Proof.
  intros n M HW. destruct (nullspace_ok n M HW) as (B & H1 & H2 & H3 & H4). exists B. split; [assumption|]. split; [assumption|]. split; [assumption|].
  split; [assumption|]. intros r Hr. apply H4; [apply H2; assumption|]. apply rs_in; assumption.
Qed.
Example C25_witness : nullspace_basis 4 [[true; true; false; true]; [true; true; true; false]]
  = Ok [[true; false; true; true]; [false; true; true; true]].
Proof. reflexivity. Qed.

(* ------------------------------------------------------------------ *)
(* C26 *)
Definition ring_adj (n : nat) : bmat := map (fun i => map (fun j => ((i + 1) mod n =? j) || ((j + 1) mod n =? i)) (seq 0 n)) (seq 0 n).

Lemma are_lc_run n G H form : n <> 0 -> graph_matrix n G -> graph_matrix n H ->
  exists B, nullspace_basis (4 * n) (lc_constraint_system n G H) = Ok B /\ width (4 * n) B /\ independent (4 * n) B /\
    (forall x, length x = 4 * n -> (nullvec (lc_constraint_system n G H) x <-> rowspace (4 * n) B x)) /\
    are_lc_equivalent G H form = match search_nullspace (4 * n) B with
      | None => Ok (false, None)
      | Some v => match form with
          | FTensor => Ok (true, Some (CTensor (clifford_vec_to_tensors v)))
          | FGlobal => Ok (true, Some (CGlobal (clifford_vec_to_global v)))
          | FOther => Err UnboundLocalError end end.
Proof.
  intros Hn HG HH. destruct (nullspace_ok (4 * n) _ (sys_width n G H)) as (B & H1 & H2 & H3 & H4). exists B. split; [assumption|].
  split; [assumption|]. split; [assumption|]. split; [assumption|]. unfold are_lc_equivalent. destruct HG as (-> & _). destruct HH as (-> & _).
  rewrite (proj2 (Nat.eqb_neq n 0) Hn), Nat.eqb_refl. simpl orb. simpl negb. cbv zeta. rewrite H1. reflexivity.
Qed.

(* is_lc_equivalent on two graphs with n qubits (any two graph matrices).  A positive answer
   comes with a Clifford of the requested form: one 2 x 2 matrix of determinant 1 per qubit that
   maps the stabilizer group of the first graph state onto that of the second, or a 2n x 2n
   matrix acting in the same way. A negative answer comes with None, and graphs of different
   sizes are never declared equivalent. *)
Theorem C26_lc_sound : forall n G H form b c, graph_matrix n G -> graph_matrix n H -> are_lc_equivalent G H form = Ok (b, c) ->
  match b, c with
  | true, Some (CTensor Q) => form = FTensor /\ local_clifford n Q /\ maps_onto n Q G H
  | true, Some (CGlobal m) => form = FGlobal /\ exists Q, local_clifford n Q /\ maps_onto n Q G H /\
      are_lc_equivalent G H FTensor = Ok (true, Some (CTensor Q)) /\
      forall z x, length z = n -> length x = n -> apply_global n m z x = apply_local Q z x
  | true, None => False
  | false, c => c = None
  end.
Proof.
  intros n G H form b c HG HH E. destruct (Nat.eq_dec n 0) as [->|Hn].
  - unfold are_lc_equivalent in E. destruct HG as (HG & _). rewrite HG in E. simpl in E. injection E as <- <-. reflexivity.
  - destruct (are_lc_run n G H form Hn HG HH) as (B & H1 & H2 & H3 & H4 & Er).
    destruct (are_lc_run n G H FTensor Hn HG HH) as (B' & H1' & _ & _ & _ & Er'). rewrite H1 in H1'. injection H1' as <-. rewrite Er in E.
    destruct (search_nullspace (4 * n) B) as [v|] eqn:Ev; [|injection E as <- <-; reflexivity].
    destruct (search_some n B v Ev) as (Hs & i & j & Hij & ->). destruct (pair_null n G H B i j H2 H4 Hij) as (Hl & Hnull).
    pose proof (T_clifford n _ Hl Hs) as HC. pose proof (maps_onto_T n G H HG HH _ Hl Hs Hnull) as HM.
    destruct form; [| |discriminate]; injection E as <- <-.
    + auto.
    + split; [reflexivity|]. eexists. split; [exact HC|]. split; [exact HM|]. split; [exact Er'|]. intros z x Hz Hx. apply global_agrees; assumption.
Qed.
Theorem C26_sizes : forall n m G H form, graph_matrix n G -> graph_matrix m H -> n <> m -> are_lc_equivalent G H form = Ok (false, None).
Proof.
  intros n m G H form (HG & _) (HH & _) Hne. unfold are_lc_equivalent. rewrite HG, HH. destruct (_ || _); [reflexivity|].
  rewrite (proj2 (Nat.eqb_neq n m) Hne). reflexivity.
Qed.
Lemma forallb_seq n f : forallb f (seq 0 n) = true -> forall i, i < n -> f i = true.
Proof. intros H i Hi. rewrite forallb_forall in H. apply H, in_seq. lia. Qed.
Definition graph_matrixb (n : nat) (G : bmat) : bool :=
  (length G =? n) && forallb (fun r => length r =? n) G && forallb (fun i => forallb (fun j => Bool.eqb (ent G i j) (ent G j i)) (seq 0 n)) (seq 0 n)
  && forallb (fun i => negb (ent G i i)) (seq 0 n).
Lemma graph_matrixb_ok n G : graph_matrixb n G = true -> graph_matrix n G.
Proof.
  unfold graph_matrixb. rewrite !andb_true_iff. intros (((H1 & H2) & H3) & H4). apply Nat.eqb_eq in H1. split; [assumption|]. split.
  - intros r Hr. rewrite forallb_forall in H2. apply Nat.eqb_eq, H2. assumption.
  - split.
    + intros i j Hi Hj. pose proof (forallb_seq _ _ H3 i Hi) as H5. cbv beta in H5. apply Bool.eqb_prop, (forallb_seq _ _ H5 j Hj).
    + intros i Hi. apply negb_true_iff, (forallb_seq _ _ H4 i Hi).
Qed.
Example C26_witness : graph_matrix 4 (ring_adj 4) /\ are_lc_equivalent (ring_adj 4) (ring_adj 4) FTensor
  = Ok (true, Some (CTensor (repeat [[true; false]; [false; true]] 4))).
Proof. split; [apply graph_matrixb_ok; reflexivity|vm_compute; reflexivity]. Qed.
(* the star and the complete graph on 4 qubits, two different graphs with equivalent states *)
Definition star_adj (n : nat) : bmat := map (fun i => map (fun j => ((i =? 0) && negb (j =? 0)) || ((j =? 0) && negb (i =? 0))) (seq 0 n)) (seq 0 n).
Definition complete_adj (n : nat) : bmat := map (fun i => map (fun j => negb (i =? j)) (seq 0 n)) (seq 0 n).

Example C26_witness_global : graph_matrix 4 (star_adj 4) /\ graph_matrix 4 (complete_adj 4) /\
  exists m, are_lc_equivalent (star_adj 4) (complete_adj 4) FGlobal = Ok (true, Some (CGlobal m)) /\ length m = 8.
Proof. split; [apply graph_matrixb_ok; reflexivity|]. split; [apply graph_matrixb_ok; reflexivity|]. eexists. split; [vm_compute; reflexivity|reflexivity]. Qed.

(* ------------------------------------------------------------------ *)
(* C27 *)
(* The exact criterion: the two graph states are related by a local Clifford operation iff the
   constraint system has a solution of determinant 1 on every qubit. *)
Theorem C27_criterion : forall n G H, graph_matrix n G -> graph_matrix n H ->
  (lc_equivalent n G H <-> exists v, length v = 4 * n /\ nullvec (lc_constraint_system n G H) v /\
     forall k, k < n -> xorb (nth k v false && nth (k + 3 * n) v false) (nth (k + n) v false && nth (k + 2 * n) v false) = true).
Proof.
  intros n G H HG HH. rewrite (lc_iff n G H HG HH). split; intros (v & Hv & Hn & Hs); exists v; (split; [assumption|split; [assumption|]]).
  - apply (forallb_seq _ _ Hs).
  - apply forallb_forall. intros k Hk. apply in_seq in Hk. apply Hs. lia.
Qed.

(* What the search finds: with B the basis of the solution space it computes, the answer is True
   iff some operation mapping the first graph state onto the second is the sum of two distinct
   vectors of B (so a negative answer excludes only those).  The full statement, lc_equivalent n G H -> the answer
   is True, is refuted below. *)
Theorem C27_lc_complete_partial : forall n G H, n <> 0 -> graph_matrix n G -> graph_matrix n H ->
  exists B, independent (4 * n) B /\ (forall Q, local_clifford n Q -> maps_onto n Q G H -> rowspace (4 * n) B (vec_of Q)) /\
    exists b c, are_lc_equivalent G H FTensor = Ok (b, c) /\
      (b = true <-> exists Q i j, local_clifford n Q /\ maps_onto n Q G H /\ j < i < length B /\ vec_of Q = vxor (nth i B []) (nth j B [])).
Proof.
  intros n G H Hn HG HH. destruct (are_lc_run n G H FTensor Hn HG HH) as (B & H1 & H2 & H3 & H4 & Er). exists B. split; [assumption|].
  assert (Hspan : forall Q, local_clifford n Q -> maps_onto n Q G H -> length (vec_of Q) = 4 * n /\ sat n (vec_of Q) = true /\ rowspace (4 * n) B (vec_of Q)).
  { intros Q HQ (Hm & _). pose proof (vec_of_length n Q (proj1 HQ)) as Hv. pose proof (tensors_vec_of n Q HQ) as Et. split; [assumption|]. split.
    - apply (T_det n _ Hv). rewrite Et. intros q Hq. apply HQ. assumption.
    - apply (H4 _ Hv). apply (maps_into n G H HG HH _ Hv). rewrite Et. assumption. }
  split; [intros Q HQ Hm; apply Hspan; assumption|]. rewrite Er. destruct (search_nullspace (4 * n) B) as [v|] eqn:Ev.
  - eexists _, _. split; [reflexivity|]. split; [|reflexivity]. intros _. destruct (search_some n B v Ev) as (Hs & i & j & Hij & ->).
    destruct (pair_null n G H B i j H2 H4 Hij) as (Hl & Hnull). exists (clifford_vec_to_tensors (vxor (nth i B []) (nth j B []))), i, j.
    split; [apply T_clifford; assumption|]. split; [apply maps_onto_T; assumption|]. split; [assumption|].
    apply row_ext; [rewrite (vec_of_length n), Hl by (apply T_length; assumption); reflexivity|].
    set (v := vxor (nth i B []) (nth j B [])) in *. pose proof (T_length n v Hl) as HT. intros k Hk. rewrite (vec_of_length n _ HT) in Hk.
    assert (Hq : exists m k', k = k' + m * n /\ k' < n /\ m < 4).
    { exists (k / n), (k mod n). split; [rewrite (Nat.mul_comm (k / n)), Nat.add_comm; apply Nat.div_mod; assumption|]. split; [apply Nat.mod_upper_bound; assumption|].
      apply Nat.div_lt_upper_bound; lia. }
    destruct Hq as (m & k' & -> & Hk' & Hm). destruct (vec_of_va n _ k' HT Hk') as (E0 & E1 & E2 & E3). rewrite (T_nth n v k' Hl Hk') in E0, E1, E2, E3.
    unfold va in *. destruct m as [|[|[|[|]]]]; [exact E0|exact E1|exact E2|exact E3|lia].
  - eexists _, _. split; [reflexivity|]. split; [discriminate|]. intros (Q & i & j & HQ & Hm & Hij & E). destruct (Hspan Q HQ Hm) as (_ & Hs & _).
    rewrite E, (search_none n B Ev i j Hij) in Hs. discriminate.
Qed.

(* every graph is equivalent to itself ... *)
Lemma lc_refl n G : graph_matrix n G -> lc_equivalent n G G.
Proof.
  intros HG. exists (repeat [[true; false]; [false; true]] n).
  assert (Hid : forall z x, length z = n -> length x = n -> apply_local (repeat [[true; false]; [false; true]] n) z x = (z, x)).
  { intros z x Hz Hx. unfold apply_local. f_equal.
    - apply row_ext; [rewrite mapi_length, repeat_length; auto|]. intros j Hj. rewrite mapi_length, repeat_length in Hj. rewrite (mapi_nth _ _ false []) by (rewrite repeat_length; assumption).
      rewrite (nth_indep _ [] [[true; false]; [false; true]]) by (rewrite repeat_length; assumption). rewrite nth_repeat. simpl. destruct (nth j z false); reflexivity.
    - apply row_ext; [rewrite mapi_length, repeat_length; auto|]. intros j Hj. rewrite mapi_length, repeat_length in Hj. rewrite (mapi_nth _ _ false []) by (rewrite repeat_length; assumption).
      rewrite (nth_indep _ [] [[true; false]; [false; true]]) by (rewrite repeat_length; assumption). rewrite nth_repeat. simpl. destruct (nth j x false); reflexivity. }
  assert (Hl : forall z x, stabilizer n G z x -> length z = n /\ length x = n).
  { intros z x (Hx & ->). rewrite mulv_length. split; [apply HG|assumption]. }
  split; [split; [apply repeat_length|]|split].
  - intros q Hq. apply repeat_spec in Hq. subst q. split; [reflexivity|]. split; [|reflexivity]. intros r [<-|[<-|[]]]; reflexivity.
  - intros z x Hs. destruct (Hl z x Hs). rewrite Hid by assumption. assumption.
  - intros z x Hs. destruct (Hl z x Hs). exists z, x. split; [assumption|]. apply Hid; assumption.
Qed.
(* ... but the ring of five qubits is declared inequivalent to itself *)
Theorem C27_lc_complete_refuted : exists n G H, graph_matrix n G /\ graph_matrix n H /\ lc_equivalent n G H /\
  are_lc_equivalent G H FTensor = Ok (false, None).
Proof.
  exists 5, (ring_adj 5), (ring_adj 5). assert (HG : graph_matrix 5 (ring_adj 5)) by (apply graph_matrixb_ok; reflexivity).
  split; [assumption|]. split; [assumption|]. split; [apply lc_refl; assumption|]. vm_compute. reflexivity.
Qed.
(* an unknown clifford_form is not rejected: the call fails with UnboundLocalError when a solution is found *)
Theorem C27_unknown_form : are_lc_equivalent (ring_adj 4) (ring_adj 4) FOther = Err UnboundLocalError.
Proof. vm_compute. reflexivity. Qed.
