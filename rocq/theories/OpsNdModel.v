(* OpsNdModel.v: flamingpy/cv/ops.py with numpy's shapes: what the functions of OpsModel do with arrays of any shape, with
   integer arrays and with lists that are not permutations.  Entries are real numbers; an integer dtype is a flag (its
   overflow is not modelled).  Only dense arrays. *)
From Coq Require Import Reals ZArith Lia.
From Verif Require Import Base GkpModel OpsModel.
Open Scope R_scope.

Definition arr1 : Type := nat * vec.            (* length, entries *)
Definition arr2 : Type := nat * nat * mat.      (* rows, columns, entries *)
Definition rows (a : arr2) : nat := fst (fst a).
Definition cols (a : arr2) : nat := snd (fst a).
Definition ent (a : arr2) : mat := snd a.
Inductive ndarray := D0 (x : R) | D1 (a : arr1) | D2 (a : arr2) | DMore (* three or more axes *).

(* numpy broadcasting of two axes: equal lengths, or one of them 1 *)
Definition bc (m n : nat) : option nat :=
  if (m =? n)%nat then Some m else if (m =? 1)%nat then Some n else if (n =? 1)%nat then Some m else None.
Definition at_ (n i : nat) : nat := if (n =? 1)%nat then 0%nat else i.
Definition np_add1 (a b : arr1) : res arr1 :=
  match bc (fst a) (fst b) with
  | Some n => Ok (n, fun i => snd a (at_ (fst a) i) + snd b (at_ (fst b) i))
  | None => Err ValueError
  end.
Definition np_add2 (a b : arr2) : res arr2 :=
  match bc (rows a) (rows b), bc (cols a) (cols b) with
  | Some r, Some c => Ok (r, c, fun i j => ent a (at_ (rows a) i) (at_ (cols a) j) + ent b (at_ (rows b) i) (at_ (cols b) j))
  | _, _ => Err ValueError
  end.
(* a.dot(b) *)
Definition np_dot1 (a : arr2) (x : arr1) : res arr1 := if (cols a =? fst x)%nat then Ok (rows a, mvec (cols a) (ent a) (snd x)) else Err ValueError.
Definition np_dot2 (a b : arr2) : res arr2 := if (cols a =? rows b)%nat then Ok (rows a, cols b, mmul (cols a) (ent a) (ent b)) else Err ValueError.
Definition np_T (a : arr2) : arr2 := (cols a, rows a, tr (ent a)).
(* np.block([[a, b], [c, d]]) *)
Definition np_hcat (a b : arr2) : res arr2 :=
  if (rows a =? rows b)%nat then Ok (rows a, (cols a + cols b)%nat, fun i j => if (j <? cols a)%nat then ent a i j else ent b i (j - cols a)%nat) else Err ValueError.
Definition np_vcat (a b : arr2) : res arr2 :=
  if (cols a =? cols b)%nat then Ok ((rows a + rows b)%nat, cols a, fun i j => if (i <? rows a)%nat then ent a i j else ent b (i - rows a)%nat j) else Err ValueError.
Definition np_block (a b c d : arr2) : res arr2 := bind (np_hcat a b) (fun ab => bind (np_hcat c d) (fun cd => np_vcat ab cd)).
(* quads[:N], quads[N:] and the four corners; slices stop at the end of the array *)
Definition head1 (N : nat) (x : arr1) : arr1 := (Nat.min N (fst x), snd x).
Definition tail1 (N : nat) (x : arr1) : arr1 := ((fst x - N)%nat, fun i => snd x (N + i)%nat).
Definition corner (N : nat) (bottom right : bool) (a : arr2) : arr2 :=
  ((if bottom then rows a - N else Nat.min N (rows a))%nat, (if right then cols a - N else Nat.min N (cols a))%nat,
   fun i j => ent a (if bottom then N + i else i)%nat (if right then N + j else j)%nat).

(* SCZ_mat, ops.py 37-71, for a dense two-dimensional adj; N = adj.shape[0] *)
Definition SCZ_mat_nd (adj : arr2) : res arr2 :=
  let N := rows adj in
  np_block (N, N, mid) (N, N, mzero) adj (N, N, mid).

(* storing a number in an array of integer dtype drops the fraction *)
Definition truncR (x : R) : Z := if Rle_dec 0 x then Int_part x else (- Int_part (- x))%Z.
Definition store (int_dtype : bool) (x : R) : R := if int_dtype then IZR (truncR x) else x.

(* SCZ_apply, ops.py 74-101; int_dtype: quads is an array of integers *)
Definition SCZ_apply_nd (adj : arr2) (quads : ndarray) (int_dtype one_shot : bool) : res ndarray :=
  match quads with
  | D0 _ => Err IndexError                                          (* 82: quads.shape[0] *)
  | DMore => Err UnboundLocalError                                  (* 101: neither branch sets new_quads *)
  | D1 x =>
      let N := (fst x / 2)%nat in
      if one_shot then bind (SCZ_mat_nd adj) (fun s => bind (np_dot1 s x) (fun y => Ok (D1 y)))
      else
        let old_qs := head1 N x in
        let old_ps := tail1 N x in
        bind (np_dot1 adj old_qs) (fun aq =>
        bind (np_add1 aq old_ps) (fun ps =>
        (* 88-91: new_quads = np.empty(2 * N, quads.dtype); new_quads[N:] = ps broadcasts ps to length N *)
        if ((fst ps =? N) || (fst ps =? 1))%nat
        then Ok (D1 ((2 * N)%nat, fun i => if (i <? N)%nat then snd old_qs i else store int_dtype (snd ps (at_ (fst ps) (i - N)))))
        else Err ValueError))
  | D2 q =>
      let N := (rows q / 2)%nat in
      if one_shot then
        bind (SCZ_mat_nd adj) (fun s => bind (np_dot2 s q) (fun a => bind (np_dot2 s (np_T a)) (fun b => Ok (D2 (np_T b)))))
      else
        let c1 := corner N false false q in
        let c2 := corner N false true q in
        let c3 := corner N true false q in
        let c4 := corner N true true q in
        bind (np_dot2 adj (np_T c1)) (fun ac1T =>
        bind (np_add2 (np_T ac1T) c2) (fun block2 =>
        bind (np_dot2 adj c1) (fun ac1 =>
        bind (np_add2 ac1 c3) (fun block3 =>
        bind (np_dot2 adj c2) (fun ac2 =>
        bind (np_add2 c4 ac2) (fun s1 =>
        bind (np_dot2 adj (np_T c3)) (fun ac3T =>
        bind (np_add2 s1 (np_T ac3T)) (fun s2 =>
        bind (np_dot2 adj (np_T ac1)) (fun aac1T =>
        bind (np_add2 s2 (np_T aac1T)) (fun block4 =>
        bind (np_block c1 block2 block3 block4) (fun out => Ok (D2 out))))))))))))
  end.

(* splitter_symp(n), ops.py 104-140: the number of rows (and columns) of the result *)
Definition splitter_rows (n : nat) : res nat :=
  if (n =? 4)%nat then Ok 8%nat else if (4 <? n)%nat then Ok (8 * (n / 4))%nat else Err PlainException.

(* invert_permutation, ops.py 24-28, for any array of integers: p_inverted[p] = arange counts negative indices from the
   end and refuses the others; with repeated indices the last value stays *)
Definition invert_permutation_nd (junk : list nat) (p : list Z) : res (list nat) :=
  let n := Z.of_nat (length p) in
  if forallb (fun x => (- n <=? x)%Z && (x <? n)%Z) p
  then Ok (invert_permutation junk (map (fun x => Z.to_nat (x mod n)) p))
  else Err IndexError.
