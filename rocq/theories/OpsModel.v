(* OpsModel.v: model of flamingpy/cv/ops.py.  A matrix is a function of two indices together
   with its size; entries are real numbers (rounding and the int8/float32 dtypes are not
   modelled, nor is the distinction between dense and sparse storage). *)
From Verif Require Import Base GkpModel.
Open Scope R_scope.

Definition mat := nat -> nat -> R.
Definition vec := nat -> R.
Definition Rsum (f : nat -> R) (n : nat) : R := sumR (map f (seq 0 n)).
(* a.dot(b), inner dimension n *)
Definition mmul (n : nat) (A B : mat) : mat := fun i j => Rsum (fun k => A i k * B k j) n.
Definition mvec (n : nat) (A : mat) (x : vec) : vec := fun i => Rsum (fun k => A i k * x k) n.
Definition tr (A : mat) : mat := fun i j => A j i.
Definition mid : mat := fun i j => if (i =? j)%nat then 1 else 0.
Definition mzero : mat := fun _ _ => 0.
Definition madd (A B : mat) : mat := fun i j => A i j + B i j.
(* np.block([[A, B], [C, D]]) with A of size N by N *)
Definition block (N : nat) (A B C D : mat) : mat := fun i j =>
  if (i <? N)%nat then (if (j <? N)%nat then A i j else B i (j - N)%nat)
  else (if (j <? N)%nat then C (i - N)%nat j else D (i - N)%nat (j - N)%nat).

(* SCZ_mat, ops.py 37-71; N = adj.shape[0] *)
Definition SCZ_mat (N : nat) (adj : mat) : mat := block N mid mzero adj mid.

(* SCZ_apply on a vector of length 2N, ops.py 82-91 *)
Definition SCZ_apply_vec (N : nat) (adj : mat) (quads : vec) (one_shot : bool) : vec :=
  if one_shot then mvec (2 * N) (SCZ_mat N adj) quads
  else fun i => if (i <? N)%nat then quads i
                else mvec N adj quads (i - N)%nat + quads (N + (i - N))%nat.

(* SCZ_apply on a 2N by 2N matrix, ops.py 92-101 *)
Definition SCZ_apply_mat (N : nat) (adj : mat) (quads : mat) (one_shot : bool) : mat :=
  if one_shot then
    let SCZ := SCZ_mat N adj in
    tr (mmul (2 * N) SCZ (tr (mmul (2 * N) SCZ quads)))
  else
    let c1 := quads in
    let c2 := fun i j => quads i (N + j)%nat in
    let c3 := fun i j => quads (N + i)%nat j in
    let c4 := fun i j => quads (N + i)%nat (N + j)%nat in
    let block2 := madd (tr (mmul N adj (tr c1))) c2 in
    let block3 := madd (mmul N adj c1) c3 in
    let block4 := madd (madd (madd c4 (mmul N adj c2)) (tr (mmul N adj (tr c3)))) (tr (mmul N adj (tr (mmul N adj c1)))) in
    block N c1 block2 block3 block4.

(* thewalrus.symplectic.beam_splitter(pi/4, 0): a 4 by 4 matrix in the order q1 q2 p1 p2 *)
Definition bs5050 : mat := fun i j =>
  let r := sqrt 2 / 2 in
  let R2 (i j : nat) := if (i =? 0)%nat && (j =? 1)%nat then - r else r in
  if (i <? 2)%nat && (j <? 2)%nat then R2 i j
  else if (2 <=? i)%nat && (2 <=? j)%nat then R2 (i - 2)%nat (j - 2)%nat
  else 0.
(* thewalrus.symplectic.expand(S, [a, b], N) for a two-mode S: the identity, overwritten at
   the rows and columns of the modes *)
Definition pos2 (N a b i : nat) : option nat :=
  if (i =? a)%nat then Some 0%nat else if (i =? b)%nat then Some 1%nat
  else if (i =? a + N)%nat then Some 2%nat else if (i =? b + N)%nat then Some 3%nat else None.
Definition expand (S : mat) (a b N : nat) : mat := fun i j =>
  match pos2 N a b i, pos2 N a b j with Some k, Some l => S k l | _, _ => mid i j end.

(* splitter_symp, ops.py 104-140: the network on one macronode *)
Definition bs_network : mat :=
  let bs1 := expand bs5050 1 0 4 in
  let bs2 := expand bs5050 3 2 4 in
  let bs3 := expand bs5050 2 0 4 in
  let bs4 := expand bs5050 3 1 4 in
  mmul 8 (mmul 8 (mmul 8 bs4 bs3) bs2) bs1.
Definition perm_out_4 : list nat := [0; 4; 1; 5; 2; 6; 3; 7]%nat.
(* bs_network[:, perm_out_4][perm_out_4, :] *)
Definition bs_perm : mat := fun i j => bs_network (nth i perm_out_4 0%nat) (nth j perm_out_4 0%nat).
(* block_diag of n // 4 copies, each 8 by 8 *)
Definition bs_full : mat := fun i j => if (i / 8 =? j / 8)%nat then bs_perm (i mod 8) (j mod 8) else 0.
Definition splitter_symp (n : nat) : res mat :=
  if (n =? 4)%nat then Ok bs_network
  else if (4 <? n)%nat then Ok bs_full
  else Err PlainException.

(* numpy indexing a[p] of a one-dimensional array *)
Definition take {A} (d : A) (a : list A) (p : list nat) : list A := map (fun i => nth i a d) p.
Definition list_upd {A} (l : list A) (i : nat) (x : A) : list A := firstn i l ++ x :: skipn (S i) l.
(* invert_permutation, ops.py 24-28: np.empty leaves arbitrary values (junk), then
   p_inverted[p[i]] = i for i = 0, 1, ...  Every p[i] is below p.size. *)
Definition invert_permutation (junk : list nat) (p : list nat) : list nat :=
  fold_left (fun a ip => list_upd a (snd ip) (fst ip)) (combine (seq 0 (length p)) p) junk.
