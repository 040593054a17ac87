(* PropsOps.v: C37 (CZ matrices), C38 (four-splitter and permutations). *)
From Verif Require Import Base GkpModel OpsModel.
Open Scope R_scope.

(* Specification vocabulary: equality of n by n matrices, the symplectic forms for the two
   orderings q1 .. qN p1 .. pN and q1 p1 .. qN pN, symplectic and orthogonal matrices *)
Definition meq (n : nat) (A B : mat) : Prop := forall i j, (i < n)%nat -> (j < n)%nat -> A i j = B i j.
Definition Omega (N : nat) : mat := fun i j =>
  if (j =? i + N)%nat then 1 else if (i =? j + N)%nat then -1 else 0.
Definition Omega_qp : mat := fun i j =>
  if (i / 2 =? j / 2)%nat then IZR (Z.of_nat (j mod 2) - Z.of_nat (i mod 2)) else 0.
Definition symplectic (n : nat) (W S : mat) : Prop := meq n (mmul n (tr S) (mmul n W S)) W.
Definition orthogonal (n : nat) (S : mat) : Prop := meq n (mmul n (tr S) S) mid.

(* ---- finite sums ---- *)
Lemma Rsum_S f n : Rsum f (S n) = Rsum f n + f n.
Proof.
  unfold Rsum. rewrite seq_S, map_app. cbn [map]. rewrite Nat.add_0_l.
  induction (map f (seq 0 n)) as [|x l IH]; cbn [sumR app fold_right].
  - unfold sumR; simpl; lra.
  - unfold sumR in *. cbn [fold_right app]. rewrite IH. lra.
Qed.
Lemma Rsum_0 f : Rsum f 0 = 0.
Proof. reflexivity. Qed.
Lemma Rsum_ext f g n : (forall k, (k < n)%nat -> f k = g k) -> Rsum f n = Rsum g n.
Proof. induction n as [|n IH]; intros H; [reflexivity|]. rewrite !Rsum_S, IH, H by auto. reflexivity. Qed.
Lemma Rsum_plus f g n : Rsum (fun k => f k + g k) n = Rsum f n + Rsum g n.
Proof. induction n as [|n IH]; [rewrite !Rsum_0; lra|]. rewrite !Rsum_S, IH. lra. Qed.
Lemma Rsum_scal_l a f n : Rsum (fun k => a * f k) n = a * Rsum f n.
Proof. induction n as [|n IH]; [rewrite !Rsum_0; lra|]. rewrite !Rsum_S, IH. lra. Qed.
Lemma Rsum_scal_r a f n : Rsum (fun k => f k * a) n = Rsum f n * a.
Proof. induction n as [|n IH]; [rewrite !Rsum_0; lra|]. rewrite !Rsum_S, IH. lra. Qed.
Lemma Rsum_zero f n : (forall k, (k < n)%nat -> f k = 0) -> Rsum f n = 0.
Proof. induction n as [|n IH]; intros H; [reflexivity|]. rewrite Rsum_S, IH, H by auto. lra. Qed.
Lemma Rsum_swap f n m : Rsum (fun i => Rsum (fun j => f i j) m) n = Rsum (fun j => Rsum (fun i => f i j) n) m.
Proof.
  induction n as [|n IH]; [rewrite Rsum_0; symmetry; apply Rsum_zero; reflexivity|].
  rewrite Rsum_S, IH, <- Rsum_plus. apply Rsum_ext. intros k _. rewrite Rsum_S. reflexivity.
Qed.
Lemma Rsum_add f n m : Rsum f (n + m) = Rsum f n + Rsum (fun k => f (n + k)%nat) m.
Proof.
  induction m as [|m IH]; [rewrite Nat.add_0_r, Rsum_0; lra|]. rewrite Nat.add_succ_r, !Rsum_S, IH. lra.
Qed.
Lemma Rsum_delta f n i : (i < n)%nat -> (forall k, (k < n)%nat -> k <> i -> f k = 0) -> Rsum f n = f i.
Proof.
  induction n as [|n IH]; intros Hi H; [lia|]. rewrite Rsum_S. destruct (Nat.eq_dec i n) as [->|Hne].
  - rewrite Rsum_zero; [lra|]. intros k Hk. apply H; lia.
  - rewrite IH; [rewrite (H n) by lia; lra|lia|]. intros k Hk. apply H. lia.
Qed.

(* ---- matrices ---- *)
Lemma mmul_assoc n A B C i j : mmul n (mmul n A B) C i j = mmul n A (mmul n B C) i j.
Proof.
  unfold mmul. transitivity (Rsum (fun k => Rsum (fun l => A i l * B l k * C k j) n) n).
  - apply Rsum_ext. intros k _. rewrite Rsum_scal_r. reflexivity.
  - rewrite Rsum_swap. apply Rsum_ext. intros l _. rewrite <- Rsum_scal_l. apply Rsum_ext. intros k _. ring.
Qed.
Lemma mmul_ext n A A' B B' : meq n A A' -> meq n B B' -> meq n (mmul n A B) (mmul n A' B').
Proof. intros HA HB i j Hi Hj. apply Rsum_ext. intros k Hk. rewrite HA, HB by assumption. reflexivity. Qed.
Lemma meq_trans n A B C : meq n A B -> meq n B C -> meq n A C.
Proof. intros H1 H2 i j Hi Hj. rewrite H1, H2 by assumption. reflexivity. Qed.
Lemma meq_refl n A : meq n A A.
Proof. intros i j _ _. reflexivity. Qed.
Lemma tr_mmul n A B i j : tr (mmul n A B) i j = mmul n (tr B) (tr A) i j.
Proof. unfold tr, mmul. apply Rsum_ext. intros. ring. Qed.
Lemma mmul_id_l n A : meq n (mmul n mid A) A.
Proof.
  intros i j Hi Hj. unfold mmul. rewrite (Rsum_delta _ n i Hi) by (intros k Hk Hne; unfold mid; destruct (Nat.eqb_spec i k); [congruence|lra]).
  unfold mid. rewrite Nat.eqb_refl. lra.
Qed.

Lemma symplectic_mul n W A B : symplectic n W A -> symplectic n W B -> symplectic n W (mmul n A B).
Proof.
  unfold symplectic. intros HA HB.
  eapply meq_trans; [apply mmul_ext with (A' := mmul n (tr B) (tr A)) (B' := mmul n (mmul n W A) B)|].
  - intros i j _ _. apply tr_mmul.
  - intros i j _ _. symmetry. apply mmul_assoc.
  - eapply meq_trans; [intros i j _ _; apply mmul_assoc|].
    eapply meq_trans; [apply mmul_ext; [apply meq_refl|]|exact HB].
    eapply meq_trans; [intros i j _ _; symmetry; apply mmul_assoc|]. apply mmul_ext; [assumption|apply meq_refl].
Qed.
Lemma orthogonal_mul n A B : orthogonal n A -> orthogonal n B -> orthogonal n (mmul n A B).
Proof.
  unfold orthogonal. intros HA HB.
  eapply meq_trans; [apply mmul_ext with (A' := mmul n (tr B) (tr A)) (B' := mmul n A B); [intros i j _ _; apply tr_mmul|apply meq_refl]|].
  eapply meq_trans; [intros i j _ _; apply mmul_assoc|].
  eapply meq_trans; [apply mmul_ext; [apply meq_refl|]|exact HB].
  eapply meq_trans; [intros i j _ _; symmetry; apply mmul_assoc|].
  eapply meq_trans; [apply mmul_ext; [exact HA|apply meq_refl]|apply mmul_id_l].
Qed.

(* block structure *)
Definition low (n i : nat) : bool := (i <? n)%nat.
Lemma block_ll N A B C D i j : (i < N)%nat -> (j < N)%nat -> block N A B C D i j = A i j.
Proof. intros Hi Hj. unfold block. apply Nat.ltb_lt in Hi, Hj. rewrite Hi, Hj. reflexivity. Qed.
Lemma block_lh N A B C D i j : (i < N)%nat -> block N A B C D i (N + j)%nat = B i j.
Proof.
  intros Hi. unfold block. apply Nat.ltb_lt in Hi. rewrite Hi. destruct (Nat.ltb_spec (N + j) N); [lia|]. f_equal. lia.
Qed.
Lemma block_hl N A B C D i j : (j < N)%nat -> block N A B C D (N + i)%nat j = C i j.
Proof.
  intros Hi. unfold block. apply Nat.ltb_lt in Hi. rewrite Hi. destruct (Nat.ltb_spec (N + i) N); [lia|]. f_equal. lia.
Qed.
Lemma block_hh N A B C D i j : block N A B C D (N + i)%nat (N + j)%nat = D i j.
Proof.
  unfold block. destruct (Nat.ltb_spec (N + i) N); [lia|]. destruct (Nat.ltb_spec (N + j) N); [lia|]. f_equal; lia.
Qed.
Lemma half_cases N i : (i < 2 * N)%nat -> (i < N)%nat \/ exists k, i = (N + k)%nat /\ (k < N)%nat.
Proof. intros H. destruct (lt_dec i N); [auto|]. right. exists (i - N)%nat. lia. Qed.

Lemma Rsum_id_l f N i : (i < N)%nat -> Rsum (fun k => mid i k * f k) N = f i.
Proof.
  intros Hi. rewrite (Rsum_delta _ N i Hi); [unfold mid; rewrite Nat.eqb_refl; lra|].
  intros k _ Hne. unfold mid. destruct (Nat.eqb_spec i k); [congruence|lra].
Qed.

(* multiplication by SCZ from the left *)
Lemma scz_low N adj f i : (i < N)%nat -> Rsum (fun k => SCZ_mat N adj i k * f k) (2 * N) = f i.
Proof.
  intros Hi. replace (2 * N)%nat with (N + N)%nat by lia. rewrite Rsum_add. unfold SCZ_mat.
  rewrite (Rsum_ext _ (fun k => mid i k * f k)) by (intros k Hk; rewrite block_ll by assumption; reflexivity).
  rewrite Rsum_id_l by assumption. rewrite Rsum_zero; [lra|]. intros k Hk. rewrite block_lh by assumption. unfold mzero. lra.
Qed.
Lemma scz_high N adj f i : (i < N)%nat ->
  Rsum (fun k => SCZ_mat N adj (N + i)%nat k * f k) (2 * N) = Rsum (fun k => adj i k * f k) N + f (N + i)%nat.
Proof.
  intros Hi. replace (2 * N)%nat with (N + N)%nat by lia. rewrite Rsum_add. unfold SCZ_mat. f_equal.
  - apply Rsum_ext. intros k Hk. rewrite block_hl by assumption. reflexivity.
  - rewrite (Rsum_ext _ (fun k => mid i k * f (N + k)%nat)) by (intros k Hk; rewrite block_hh; reflexivity).
    apply (Rsum_id_l (fun k => f (N + k)%nat)). assumption.
Qed.

(* ------------------------------------------------------------------ *)
(* C37 *)
Lemma omega_low N f i : (i < N)%nat -> Rsum (fun k => Omega N i k * f k) (2 * N) = f (N + i)%nat.
Proof.
  intros Hi. rewrite (Rsum_delta _ _ (N + i)%nat); [unfold Omega|lia|].
  - replace (N + i =? i + N)%nat with true by (symmetry; apply Nat.eqb_eq; lia). lra.
  - intros k Hk Hne. unfold Omega. destruct (Nat.eqb_spec k (i + N)); [lia|]. destruct (Nat.eqb_spec i (k + N)); [lia|]. lra.
Qed.
Lemma omega_high N f i : (i < N)%nat -> Rsum (fun k => Omega N (N + i)%nat k * f k) (2 * N) = - f i.
Proof.
  intros Hi. rewrite (Rsum_delta _ _ i); [unfold Omega|lia|].
  - destruct (Nat.eqb_spec i (N + i + N)); [lia|]. replace (N + i =? i + N)%nat with true by (symmetry; apply Nat.eqb_eq; lia). lra.
  - intros k Hk Hne. unfold Omega. destruct (Nat.eqb_spec k (N + i + N)); [lia|]. destruct (Nat.eqb_spec (N + i) (k + N)); [lia|]. lra.
Qed.

(* S^T W S for S = SCZ: entry by entry *)
Lemma scz_form N adj i j : (i < 2 * N)%nat -> (j < 2 * N)%nat ->
  mmul (2 * N) (tr (SCZ_mat N adj)) (mmul (2 * N) (Omega N) (SCZ_mat N adj)) i j =
  Omega N i j + (if (i <? N)%nat && (j <? N)%nat then adj i j - adj j i else 0).
Proof.
  intros Hi Hj. unfold mmul, tr.
  replace (2 * N)%nat with (N + N)%nat at 1 by lia. rewrite Rsum_add.
  rewrite (Rsum_ext _ (fun k => SCZ_mat N adj k i * SCZ_mat N adj (N + k)%nat j))
    by (intros k Hk; rewrite omega_low by assumption; reflexivity).
  rewrite (Rsum_ext (fun k => SCZ_mat N adj (N + k)%nat i * _) (fun k => SCZ_mat N adj (N + k)%nat i * - SCZ_mat N adj k j))
    by (intros k Hk; rewrite (omega_high N (fun l => SCZ_mat N adj l j)) by assumption; reflexivity).
  unfold SCZ_mat. destruct (half_cases N i Hi) as [Hi'|(i' & -> & Hi')], (half_cases N j Hj) as [Hj'|(j' & -> & Hj')].
  - rewrite (Rsum_ext _ (fun k => mid k i * adj k j)) by (intros; rewrite block_ll, block_hl by assumption; reflexivity).
    rewrite (Rsum_ext (fun k => block _ _ _ _ _ (N + k)%nat i * _) (fun k => adj k i * - mid k j)) by (intros; rewrite block_hl, block_ll by assumption; reflexivity).
    rewrite (Rsum_delta _ N i Hi') by (intros k _ Hne; unfold mid; destruct (Nat.eqb_spec k i); [congruence|lra]).
    rewrite (Rsum_delta _ N j Hj') by (intros k _ Hne; unfold mid; destruct (Nat.eqb_spec k j); [congruence|lra]).
    unfold mid. rewrite !Nat.eqb_refl. apply Nat.ltb_lt in Hi' as Hi2. apply Nat.ltb_lt in Hj' as Hj2. rewrite Hi2, Hj2. simpl.
    unfold Omega. destruct (Nat.eqb_spec j (i + N)); [lia|]. destruct (Nat.eqb_spec i (j + N)); [lia|]. lra.
  - rewrite (Rsum_ext _ (fun k => mid k i * mid k j')) by (intros; rewrite block_ll, block_hh by assumption; reflexivity).
    rewrite (Rsum_zero (fun k => block _ _ _ _ _ (N + k)%nat i * _)) by (intros k Hk; rewrite block_lh by assumption; unfold mzero; lra).
    rewrite (Rsum_delta _ N i Hi') by (intros k _ Hne; unfold mid; destruct (Nat.eqb_spec k i); [congruence|lra]).
    unfold mid. rewrite Nat.eqb_refl. replace (N + j' <? N)%nat with false by (symmetry; apply Nat.ltb_ge; lia). rewrite andb_false_r.
    unfold Omega. destruct (Nat.eqb_spec i j'), (Nat.eqb_spec (N + j') (i + N)); try lia; [lra|].
    destruct (Nat.eqb_spec i (N + j' + N)); [lia|]. lra.
  - rewrite (Rsum_zero (fun k => block _ _ _ _ _ k (N + i')%nat * _)) by (intros k Hk; rewrite block_lh by assumption; unfold mzero; lra).
    rewrite (Rsum_ext _ (fun k => mid k i' * - mid k j)) by (intros; rewrite block_hh, block_ll by assumption; reflexivity).
    rewrite (Rsum_delta _ N i' Hi') by (intros k _ Hne; unfold mid; destruct (Nat.eqb_spec k i'); [congruence|lra]).
    unfold mid. rewrite Nat.eqb_refl. replace (N + i' <? N)%nat with false by (symmetry; apply Nat.ltb_ge; lia). simpl.
    unfold Omega. destruct (Nat.eqb_spec j (N + i' + N)); [lia|].
    destruct (Nat.eqb_spec i' j), (Nat.eqb_spec (N + i') (j + N)); try lia; lra.
  - rewrite (Rsum_zero (fun k => block _ _ _ _ _ k (N + i')%nat * _)) by (intros k Hk; rewrite block_lh by assumption; unfold mzero; lra).
    rewrite (Rsum_zero (fun k => block _ _ _ _ _ (N + k)%nat (N + i')%nat * _)) by (intros k Hk; rewrite (block_lh _ _ _ _ _ k j') by assumption; unfold mzero; lra).
    replace (N + i' <? N)%nat with false by (symmetry; apply Nat.ltb_ge; lia). simpl.
    unfold Omega. destruct (Nat.eqb_spec (N + j') (N + i' + N)); [lia|]. destruct (Nat.eqb_spec (N + i') (N + j' + N)); [lia|]. lra.
Qed.

(* the CZ matrix is symplectic exactly when the adjacency matrix is symmetric *)
Theorem C37_scz_symplectic :
  forall N adj, symplectic (2 * N) (Omega N) (SCZ_mat N adj) <-> (forall i j, (i < N)%nat -> (j < N)%nat -> adj i j = adj j i).
Proof.
  intros N adj. split.
  - intros H i j Hi Hj. specialize (H i j ltac:(lia) ltac:(lia)). rewrite scz_form in H by lia.
    apply Nat.ltb_lt in Hi, Hj. rewrite Hi, Hj in H. simpl in H. lra.
  - intros H i j Hi Hj. rewrite scz_form by assumption.
    destruct (Nat.ltb_spec i N), (Nat.ltb_spec j N); simpl; try lra. rewrite (H i j) by assumption. lra.
Qed.
Print Assumptions C37_scz_symplectic.

Theorem C37_scz_apply_consistent :
  forall N adj,
  (forall quads i, (i < 2 * N)%nat -> SCZ_apply_vec N adj quads true i = SCZ_apply_vec N adj quads false i) /\
  (forall quads i j, (i < 2 * N)%nat -> (j < 2 * N)%nat -> SCZ_apply_mat N adj quads true i j = SCZ_apply_mat N adj quads false i j) /\
  (* both are S x and S Q S^T *)
  (forall quads i, SCZ_apply_vec N adj quads true i = mvec (2 * N) (SCZ_mat N adj) quads i) /\
  (forall quads i j, SCZ_apply_mat N adj quads true i j = mmul (2 * N) (mmul (2 * N) (SCZ_mat N adj) quads) (tr (SCZ_mat N adj)) i j).
Proof.
  intros N adj. split; [|split; [|split]].
  - intros quads i Hi. unfold SCZ_apply_vec, mvec. destruct (half_cases N i Hi) as [Hi'|(k & -> & Hk)].
    + rewrite scz_low by assumption. apply Nat.ltb_lt in Hi'. rewrite Hi'. reflexivity.
    + rewrite scz_high by assumption. destruct (Nat.ltb_spec (N + k) N); [lia|]. replace (N + k - N)%nat with k by lia. reflexivity.
  - intros quads i j Hi Hj. unfold SCZ_apply_mat. cbv zeta. unfold tr at 1. unfold mmul at 1.
    set (M := mmul (2 * N) (SCZ_mat N adj) quads).
    assert (HMl : forall a b, (a < N)%nat -> M a b = quads a b).
    { intros a b Ha. unfold M, mmul. rewrite (scz_low N adj (fun k => quads k b)) by assumption. reflexivity. }
    assert (HMh : forall a b, (a < N)%nat -> M (N + a)%nat b = Rsum (fun k => adj a k * quads k b) N + quads (N + a)%nat b).
    { intros a b Ha. unfold M, mmul. rewrite (scz_high N adj (fun k => quads k b)) by assumption. reflexivity. }
    unfold tr at 1. unfold madd, mmul, tr.
    destruct (half_cases N i Hi) as [Hi'|(i' & -> & Hi')], (half_cases N j Hj) as [Hj'|(j' & -> & Hj')].
    + rewrite block_ll, scz_low, HMl by assumption. reflexivity.
    + rewrite block_lh, scz_high by assumption. rewrite HMl by assumption. f_equal.
      apply Rsum_ext. intros k Hk. rewrite HMl by assumption. reflexivity.
    + rewrite block_hl, scz_low, HMh by assumption. reflexivity.
    + rewrite block_hh, scz_high by assumption. rewrite HMh by assumption.
      rewrite (Rsum_ext _ (fun k => adj j' k * Rsum (fun l => adj i' l * quads l k) N + adj j' k * quads (N + i')%nat k))
        by (intros k Hk; rewrite HMh by assumption; ring).
      rewrite Rsum_plus. ring.
  - reflexivity.
  - intros quads i j. unfold SCZ_apply_mat. cbv zeta. rewrite tr_mmul. reflexivity.
Qed.
Print Assumptions C37_scz_apply_consistent.

(* ------------------------------------------------------------------ *)
(* C38, part 1: the four-splitter *)
Lemma r_sq : (sqrt 2 / 2) * (sqrt 2 / 2) = 1 / 2.
Proof. assert (H : sqrt 2 * sqrt 2 = 2) by (apply sqrt_sqrt; lra). lra. Qed.

Ltac all_lt n i := match n with O => exfalso; lia | S ?m => destruct i as [|i]; [|all_lt m i] end.
Ltac all_lt8 i H := let n := constr:(8%nat) in let n := eval cbv in n in all_lt n i.
Ltac all_lt4 i := let n := eval cbv in 4%nat in all_lt n i.
Ltac all_lt2 i := let n := eval cbv in 2%nat in all_lt n i.
Ltac bs_entry :=
  cbv [mmul Rsum sumR tr expand pos2 bs5050 mid Omega map seq fold_right Nat.eqb Nat.ltb Nat.leb Nat.sub Nat.add andb];
  pose proof r_sq as Hr; generalize dependent (sqrt 2 / 2); intros r Hr; lra.

Lemma bs_orth a b : In (a, b) [(1, 0); (3, 2); (2, 0); (3, 1)]%nat -> orthogonal 8 (expand bs5050 a b 4).
Proof.
  intros H i j Hi Hj. simpl in H.
  destruct H as [[= <- <-]|[[= <- <-]|[[= <- <-]|[[= <- <-]|[]]]]]; all_lt8 i Hi; all_lt8 j Hj; bs_entry.
Qed.
Lemma bs_symp a b : In (a, b) [(1, 0); (3, 2); (2, 0); (3, 1)]%nat -> symplectic 8 (Omega 4) (expand bs5050 a b 4).
Proof.
  intros H i j Hi Hj. simpl in H.
  destruct H as [[= <- <-]|[[= <- <-]|[[= <- <-]|[[= <- <-]|[]]]]]; all_lt8 i Hi; all_lt8 j Hj; bs_entry.
Qed.

Lemma network_orth : orthogonal 8 bs_network.
Proof. unfold bs_network. repeat apply orthogonal_mul; apply bs_orth; simpl; tauto. Qed.
Lemma network_symp : symplectic 8 (Omega 4) bs_network.
Proof. unfold bs_network. repeat apply symplectic_mul; apply bs_symp; simpl; tauto. Qed.

(* conjugation with the permutation *)
Definition pm (i : nat) : nat := nth i perm_out_4 0%nat.
Lemma pm_lt i : (i < 8)%nat -> (pm i < 8)%nat.
Proof. intros H. all_lt8 i H; apply Nat.ltb_lt; reflexivity. Qed.
Lemma Rsum_pm f : Rsum (fun k => f (pm k)) 8 = Rsum f 8.
Proof. unfold Rsum, sumR, pm, perm_out_4. simpl. ring. Qed.
Lemma omega_pm i j : (i < 8)%nat -> (j < 8)%nat -> Omega 4 (pm i) (pm j) = Omega_qp i j.
Proof. intros Hi Hj. all_lt8 i Hi; all_lt8 j Hj; cbv -[IZR]; try reflexivity; lra. Qed.
Lemma mid_pm i j : (i < 8)%nat -> (j < 8)%nat -> mid (pm i) (pm j) = mid i j.
Proof. intros Hi Hj. all_lt8 i Hi; all_lt8 j Hj; reflexivity. Qed.

Lemma perm_orth : orthogonal 8 bs_perm.
Proof.
  intros i j Hi Hj. rewrite <- mid_pm by assumption. rewrite <- (network_orth _ _ (pm_lt i Hi) (pm_lt j Hj)).
  unfold mmul, tr, bs_perm. fold (pm i) (pm j). apply (Rsum_pm (fun k => bs_network k (pm i) * bs_network k (pm j))).
Qed.
Lemma perm_symp : symplectic 8 Omega_qp bs_perm.
Proof.
  intros i j Hi Hj. rewrite <- omega_pm by assumption. rewrite <- (network_symp _ _ (pm_lt i Hi) (pm_lt j Hj)).
  unfold mmul, tr, bs_perm. fold (pm i) (pm j).
  rewrite <- (Rsum_pm (fun k => bs_network k (pm i) * Rsum (fun k0 => Omega 4 k k0 * bs_network k0 (pm j)) 8)).
  apply Rsum_ext. intros k Hk. fold (pm k). f_equal.
  rewrite <- (Rsum_pm (fun k0 => Omega 4 (pm k) k0 * bs_network k0 (pm j))). apply Rsum_ext. intros l Hl.
  fold (pm l). rewrite omega_pm by assumption. reflexivity.
Qed.

(* sums over a block diagonal matrix *)
Lemma Rsum_block f m b : (b < m)%nat -> (forall k, (k < 8 * m)%nat -> (k / 8 <> b)%nat -> f k = 0) ->
  Rsum f (8 * m) = Rsum (fun k => f (8 * b + k)%nat) 8.
Proof.
  induction m as [|m IH]; intros Hb H; [lia|]. replace (8 * S m)%nat with (8 * m + 8)%nat by lia. rewrite Rsum_add.
  assert (Hdiv : forall k, (k < 8)%nat -> ((8 * m + k) / 8 = m)%nat) by (intros k Hk; symmetry; apply (Nat.div_unique _ 8 m k); lia).
  destruct (Nat.eq_dec b m) as [->|Hne].
  - rewrite (Rsum_zero f); [lra|]. intros k Hk. apply H; [lia|]. intros E. pose proof (Nat.div_lt_upper_bound k 8 m ltac:(lia) Hk). lia.
  - rewrite IH; [|lia|intros k Hk; apply H; lia]. rewrite (Rsum_zero (fun k => f (8 * m + k)%nat)); [lra|].
    intros k Hk. apply H; [lia|]. rewrite Hdiv by assumption. congruence.
Qed.
Lemma dm8 b k : (k < 8)%nat -> ((8 * b + k) / 8 = b)%nat /\ ((8 * b + k) mod 8 = k)%nat.
Proof. intros H. split; [symmetry; apply (Nat.div_unique _ 8 b k); lia|symmetry; apply (Nat.mod_unique _ 8 b k); lia]. Qed.
Lemma split8 i m : (i < 8 * m)%nat -> exists b k, i = (8 * b + k)%nat /\ (b < m)%nat /\ (k < 8)%nat.
Proof.
  intros H. exists (i / 8)%nat, (i mod 8)%nat. split; [apply Nat.div_mod; lia|].
  split; [apply Nat.div_lt_upper_bound; lia|apply Nat.mod_upper_bound; lia].
Qed.
Lemma full_entry b k c l : (k < 8)%nat -> (l < 8)%nat -> bs_full (8 * b + k)%nat (8 * c + l)%nat = if (b =? c)%nat then bs_perm k l else 0.
Proof. intros Hk Hl. unfold bs_full. destruct (dm8 b k Hk) as [-> ->], (dm8 c l Hl) as [-> ->]. reflexivity. Qed.
Lemma omega_qp_entry b k c l : (k < 8)%nat -> (l < 8)%nat ->
  Omega_qp (8 * b + k)%nat (8 * c + l)%nat = if (b =? c)%nat then Omega_qp k l else 0.
Proof.
  intros Hk Hl. unfold Omega_qp.
  assert (H1 : forall b k, (k < 8)%nat -> ((8 * b + k) / 2 = 4 * b + k / 2)%nat /\ ((8 * b + k) mod 2 = k mod 2)%nat).
  { clear. intros b k Hk. replace (8 * b + k)%nat with (k + (4 * b) * 2)%nat by lia.
    rewrite Nat.div_add, Nat.mod_add by lia. split; [lia|reflexivity]. }
  destruct (H1 b k Hk) as [-> ->], (H1 c l Hl) as [-> ->].
  assert (k / 2 < 4 /\ l / 2 < 4)%nat by (split; apply Nat.div_lt_upper_bound; lia).
  destruct (Nat.eqb_spec b c) as [->|Hne].
  - destruct (Nat.eqb_spec (4 * c + k / 2) (4 * c + l / 2)), (Nat.eqb_spec (k / 2) (l / 2)); reflexivity || lia.
  - destruct (Nat.eqb_spec (4 * b + k / 2) (4 * c + l / 2)); [lia|reflexivity].
Qed.
Lemma mid_entry b k c l : (k < 8)%nat -> (l < 8)%nat -> mid (8 * b + k)%nat (8 * c + l)%nat = if (b =? c)%nat then mid k l else 0.
Proof.
  intros Hk Hl. unfold mid. destruct (Nat.eqb_spec b c) as [->|Hne].
  - destruct (Nat.eqb_spec (8 * c + k) (8 * c + l)), (Nat.eqb_spec k l); reflexivity || lia.
  - destruct (Nat.eqb_spec (8 * b + k) (8 * c + l)); [lia|reflexivity].
Qed.
Lemma full_off i j : (i / 8 <> j / 8)%nat -> bs_full i j = 0.
Proof. intros H. unfold bs_full. destruct (Nat.eqb_spec (i / 8) (j / 8)); [contradiction|reflexivity]. Qed.

Lemma full_orth m : orthogonal (8 * m) bs_full.
Proof.
  intros i j Hi Hj. destruct (split8 i m Hi) as (b & k & -> & Hb & Hk), (split8 j m Hj) as (c & l & -> & Hc & Hl).
  unfold mmul, tr. rewrite (Rsum_block _ m b Hb).
  2: { intros x _ Hx. rewrite (full_off x); [lra|]. rewrite (proj1 (dm8 b k Hk)). assumption. }
  rewrite mid_entry by assumption.
  rewrite (Rsum_ext _ (fun x => bs_perm x k * (if (b =? c)%nat then bs_perm x l else 0)))
    by (intros x Hx; rewrite !full_entry, Nat.eqb_refl by assumption; reflexivity).
  destruct (b =? c)%nat; [apply (perm_orth k l Hk Hl)|]. apply Rsum_zero. intros; lra.
Qed.

Lemma full_symp m : symplectic (8 * m) Omega_qp bs_full.
Proof.
  intros i j Hi Hj. destruct (split8 i m Hi) as (b & k & -> & Hb & Hk), (split8 j m Hj) as (c & l & -> & Hc & Hl).
  unfold mmul, tr. rewrite (Rsum_block _ m b Hb).
  2: { intros x _ Hx. rewrite (full_off x); [lra|]. rewrite (proj1 (dm8 b k Hk)). assumption. }
  rewrite omega_qp_entry by assumption.
  rewrite (Rsum_ext _ (fun x => bs_perm x k * (if (b =? c)%nat then Rsum (fun y => Omega_qp x y * bs_perm y l) 8 else 0))).
  - destruct (b =? c)%nat; [apply (perm_symp k l Hk Hl)|]. apply Rsum_zero. intros; lra.
  - intros x Hx. rewrite full_entry, Nat.eqb_refl by assumption. f_equal. rewrite (Rsum_block _ m b Hb).
    + rewrite (Rsum_ext _ (fun y => Omega_qp x y * (if (b =? c)%nat then bs_perm y l else 0)))
        by (intros y Hy; rewrite omega_qp_entry, full_entry, Nat.eqb_refl by assumption; reflexivity).
      destruct (b =? c)%nat; [reflexivity|]. apply Rsum_zero. intros; lra.
    + intros y Hy Hne. destruct (split8 y m Hy) as (d & z & -> & Hd & Hz). rewrite (proj1 (dm8 d z Hz)) in Hne.
      rewrite omega_qp_entry by assumption. destruct (Nat.eqb_spec b d); [congruence|]. lra.
Qed.

(* the action on the positions (rows and columns 0-3) and on the momenta (4-7) of one macronode *)
Definition table (T : list (list Z)) (i j : nat) : Z :=
  if Nat.eqb (i / 4) (j / 4) then nth (j mod 4) (nth (i mod 4) T []) 0%Z else 0%Z.
Ltac tables := repeat match goal with |- context [table ?T ?i ?j] => let v := eval vm_compute in (table T i j) in change (table T i j) with v end.
Lemma first_pair i j : (i < 8)%nat -> (j < 8)%nat ->
  mmul 8 (expand bs5050 3 2 4) (expand bs5050 1 0 4) i j = sqrt 2 / 2 * IZR (table [[1; 1; 0; 0]; [-1; 1; 0; 0]; [0; 0; 1; 1]; [0; 0; -1; 1]]%Z i j).
Proof. intros Hi Hj. all_lt8 i Hi; all_lt8 j Hj; tables; bs_entry. Qed.
Lemma second_pair i j : (i < 8)%nat -> (j < 8)%nat ->
  mmul 8 (expand bs5050 3 1 4) (expand bs5050 2 0 4) i j = sqrt 2 / 2 * IZR (table [[1; 0; 1; 0]; [0; 1; 0; 1]; [-1; 0; 1; 0]; [0; -1; 0; 1]]%Z i j).
Proof. intros Hi Hj. all_lt8 i Hi; all_lt8 j Hj; tables; bs_entry. Qed.

Definition four_splitter : list (list Z) := [[1; 1; 1; 1]; [-1; 1; -1; 1]; [-1; -1; 1; 1]; [1; -1; -1; 1]]%Z.
Lemma network_entries i j : (i < 8)%nat -> (j < 8)%nat -> bs_network i j = IZR (table four_splitter i j) / 2.
Proof.
  intros Hi Hj. unfold bs_network. cbv zeta. rewrite mmul_assoc. unfold mmul at 1.
  rewrite (Rsum_ext _ (fun k => (sqrt 2 / 2 * IZR (table [[1; 0; 1; 0]; [0; 1; 0; 1]; [-1; 0; 1; 0]; [0; -1; 0; 1]]%Z i k)) *
                               (sqrt 2 / 2 * IZR (table [[1; 1; 0; 0]; [-1; 1; 0; 0]; [0; 0; 1; 1]; [0; 0; -1; 1]]%Z k j)))).
  2: { intros k Hk. rewrite first_pair, second_pair by assumption. reflexivity. }
  all_lt8 i Hi; all_lt8 j Hj; cbv [Rsum sumR map seq fold_right]; tables;
    pose proof r_sq as Hr; generalize dependent (sqrt 2 / 2); intros r Hr; lra.
Qed.

Theorem C38_four_splitter :
  (* one macronode, ordering q1 .. q4 p1 .. p4 *)
  (exists S, splitter_symp 4 = Ok S /\ orthogonal 8 S /\ symplectic 8 (Omega 4) S /\
     (* positions and momenta are transformed by the same matrix, all of whose entries are 1/2 or -1/2 *)
     forall i j, (i < 8)%nat -> (j < 8)%nat -> S i j = IZR (table four_splitter i j) / 2) /\
  (* m macronodes, ordering q1 p1 .. qn pn with n = 4 m *)
  (forall m, (1 < m)%nat -> exists S, splitter_symp (4 * m) = Ok S /\ orthogonal (2 * (4 * m)) S /\ symplectic (2 * (4 * m)) Omega_qp S /\
     (* quadrature s (0: position, 1: momentum) of mode i of macronode b only receives the same quadrature of the modes of b *)
     forall b c i j s t, (b < m)%nat -> (c < m)%nat -> (i < 4)%nat -> (j < 4)%nat -> (s < 2)%nat -> (t < 2)%nat ->
       S (8 * b + 2 * i + s)%nat (8 * c + 2 * j + t)%nat =
         if ((b =? c) && (s =? t))%nat then IZR (nth j (nth i four_splitter []) 0%Z) / 2 else 0) /\
  (* fewer than four modes are refused *)
  (forall n, (n < 4)%nat -> splitter_symp n = Err PlainException).
Proof.
  split; [|split].
  - exists bs_network. split; [reflexivity|]. split; [apply network_orth|]. split; [apply network_symp|apply network_entries].
  - intros m Hm. exists bs_full. unfold splitter_symp. destruct (Nat.eqb_spec (4 * m) 4); [lia|].
    destruct (Nat.ltb_spec 4 (4 * m)); [|lia]. replace (2 * (4 * m))%nat with (8 * m)%nat by lia.
    split; [reflexivity|]. split; [apply full_orth|]. split; [apply full_symp|].
    intros b c i j s t _ _ Hi Hj Hs Ht. rewrite <- !Nat.add_assoc. rewrite full_entry by lia. destruct (b =? c)%nat; [|reflexivity].
    unfold bs_perm. fold (pm (2 * i + s)) (pm (2 * j + t)). rewrite network_entries by (apply pm_lt; lia).
    all_lt4 i; all_lt4 j; all_lt2 s; all_lt2 t; unfold pm, perm_out_4; cbn [Nat.mul Nat.add nth andb Nat.eqb]; tables; cbn [nth four_splitter]; lra.
  - intros n Hn. unfold splitter_symp. destruct (Nat.eqb_spec n 4); [lia|]. destruct (Nat.ltb_spec 4 n); [lia|]. reflexivity.
Qed.
Print Assumptions C38_four_splitter.

(* ------------------------------------------------------------------ *)
(* C38, part 2: permutations *)
Lemma list_upd_length {A} (l : list A) i x : (i < length l)%nat -> length (list_upd l i x) = length l.
Proof. intros H. unfold list_upd. rewrite app_length, firstn_length. change (length (x :: skipn (S i) l)) with (S (length (skipn (S i) l))). rewrite skipn_length. lia. Qed.
Lemma list_upd_nth {A} (l : list A) i x k d : (i < length l)%nat -> nth k (list_upd l i x) d = if (k =? i)%nat then x else nth k l d.
Proof.
  revert i k. induction l as [|y l IH]; intros i k H; [simpl in H; lia|]. destruct i as [|i].
  - unfold list_upd. simpl. destruct k; reflexivity.
  - change (list_upd (y :: l) (S i) x) with (y :: list_upd l i x). destruct k as [|k]; [reflexivity|]. simpl in H. simpl.
    apply IH. lia.
Qed.

Lemma inv_fold p : forall s junk, NoDup p -> (forall x, In x p -> (x < length junk)%nat) ->
  let a := fold_left (fun a ip => list_upd a (snd ip) (fst ip)) (combine (seq s (length p)) p) junk in
  length a = length junk /\ (forall i, (i < length p)%nat -> nth (nth i p 0%nat) a 0%nat = (s + i)%nat) /\
  (forall x, ~ In x p -> nth x a 0%nat = nth x junk 0%nat).
Proof.
  induction p as [|x p IH]; intros s junk Hn Hlt; simpl.
  - split; [reflexivity|]. split; [intros; lia|reflexivity].
  - inversion Hn as [|? ? Hx Hn']; subst. assert (Hxl : (x < length junk)%nat) by (apply Hlt; left; reflexivity).
    destruct (IH (S s) (list_upd junk x s) Hn') as (H1 & H2 & H3).
    { intros y Hy. rewrite list_upd_length by assumption. apply Hlt. right. assumption. }
    rewrite list_upd_length in H1 by assumption. split; [exact H1|]. split.
    + intros [|i] Hi.
      * rewrite H3 by assumption. rewrite list_upd_nth by assumption. rewrite Nat.eqb_refl. lia.
      * rewrite H2 by lia. lia.
    + intros y Hy. rewrite H3 by tauto. rewrite list_upd_nth by assumption. destruct (Nat.eqb_spec y x); [subst; tauto|reflexivity].
Qed.

(* For every permutation of 0 .. n-1, whatever np.empty contained. *)
Theorem C38_invert_permutation :
  forall junk p, Permutation p (seq 0 (length p)) -> length junk = length p ->
  let q := invert_permutation junk p in
  Permutation q (seq 0 (length p)) /\
  (forall i, (i < length p)%nat -> nth (nth i p 0%nat) q 0%nat = i /\ nth (nth i q 0%nat) p 0%nat = i) /\
  (* permuting and un-permuting an array is the identity, in both orders *)
  (forall A (d : A) (a : list A), length a = length p -> take d (take d a p) q = a /\ take d (take d a q) p = a).
Proof.
  intros junk p HP Hj q.
  assert (Hn : NoDup p) by (eapply Permutation_NoDup; [symmetry; exact HP|apply seq_NoDup]).
  assert (Hlt : forall x, In x p -> (x < length p)%nat) by (intros x Hx; apply (Permutation_in _ HP), in_seq in Hx; lia).
  destruct (inv_fold p 0 junk Hn ltac:(rewrite Hj; exact Hlt)) as (H1 & H2 & _).
  change (length q = length junk) in H1. rewrite Hj in H1.
  assert (Hpq : forall i, (i < length p)%nat -> nth (nth i p 0%nat) q 0%nat = i) by (intros i Hi; exact (H2 i Hi)).
  assert (Hqp : forall x, (x < length p)%nat -> (nth x q 0 < length p)%nat /\ nth (nth x q 0%nat) p 0%nat = x).
  { intros x Hx. assert (Hin : In x p) by (apply (Permutation_in _ (Permutation_sym HP)), in_seq; lia).
    apply (In_nth _ _ 0%nat) in Hin. destruct Hin as (i & Hi & <-). rewrite Hpq by assumption. auto. }
  assert (Hq : Permutation q (seq 0 (length p))).
  { apply NoDup_Permutation_bis; [|rewrite H1, seq_length; lia|].
    - apply (NoDup_nth _ 0%nat). intros i j Hi Hj' E. rewrite H1 in Hi, Hj'.
      rewrite <- (proj2 (Hqp i Hi)), <- (proj2 (Hqp j Hj')), E. reflexivity.
    - intros x Hx. apply (In_nth _ _ 0%nat) in Hx. destruct Hx as (i & Hi & <-). rewrite H1 in Hi. apply in_seq. destruct (Hqp i Hi). lia. }
  split; [assumption|]. split; [intros i Hi; split; [auto|apply Hqp; assumption]|].
  intros A d a Ha. assert (Htk : forall u v, length u = length p -> length v = length p -> (forall i, (i < length p)%nat -> (nth i v 0 < length p)%nat /\ nth (nth i v 0%nat) u 0%nat = i) ->
     take d (take d a u) v = a).
  { intros u v Hu Hv Huv. apply (nth_ext _ _ d d); [unfold take; rewrite map_length; lia|]. intros i Hi. unfold take in Hi. rewrite map_length, Hv in Hi.
    unfold take. rewrite (nth_indep _ d (nth 0 (map (fun i => nth i a d) u) d)) by (rewrite map_length; lia).
    rewrite (map_nth (fun i => nth i (map (fun i0 => nth i0 a d) u) d) v 0%nat).
    destruct (Huv i Hi) as [Hb Hi']. rewrite (nth_indep _ d (nth 0 a d)) by (rewrite map_length; lia).
    rewrite (map_nth (fun i => nth i a d) u 0%nat), Hi'. reflexivity. }
  split; apply Htk; auto. intros i Hi. split; [apply Hlt, nth_In; assumption|auto].
Qed.
Print Assumptions C38_invert_permutation.

Example C38_example : invert_permutation [7; 7; 7; 7; 7]%nat [2; 0; 4; 1; 3]%nat = [1; 3; 0; 4; 2]%nat.
Proof. reflexivity. Qed.
Example C37_example : symplectic 4 (Omega 2) (SCZ_mat 2 (fun i j => if (i =? j)%nat then 3 else -1)).
Proof. apply (C37_scz_symplectic 2). intros i j _ _. rewrite Nat.eqb_sym. reflexivity. Qed.
