(* LinModel.v: model of flamingpy/utils/linalg.py.  A binary matrix is the list of its rows, a
   row a list of booleans (0 = false, 1 = true); arithmetic modulo 2 is xorb / andb.  The number
   of columns is passed beside the list, since a matrix may have no rows.  Simplification: all
   entries are 0 or 1 (adjacency matrices without weights). *)
From Verif Require Import Base.
Open Scope nat_scope.

Notation row := (list bool).
Notation bmat := (list (list bool)).
(* element-wise sum modulo 2 *)
Definition vxor (r s : row) : row := map (fun ab => xorb (fst ab) (snd ab)) (combine r s).
Definition zeros (n : nat) : row := repeat false n.
Definition ent (R : bmat) (i j : nat) : bool := nth j (nth i R []) false.
(* [f(0, R[0]), f(1, R[1]), ...] *)
Fixpoint mapi_from {A B} (k : nat) (f : nat -> A -> B) (l : list A) : list B :=
  match l with [] => [] | x :: l' => f k x :: mapi_from (S k) f l' end.
Definition mapi {A B} (f : nat -> A -> B) (l : list A) : list B := mapi_from 0 f l.

(* np.nonzero(R[p:, j])[0][0] + p: the first row from p on with a one in column j, linalg.py 26-31 *)
Fixpoint find_pivot (k : nat) (j : nat) (R : bmat) : option nat :=
  match R with
  | [] => None
  | r :: R' => if nth j r false then Some k else find_pivot (S k) j R'
  end.
(* R[[p, i], :] = R[[i, p], :], 33 *)
Definition swap_rows (p i : nat) (R : bmat) : bmat :=
  mapi (fun k r => if k =? p then nth i R [] else if k =? i then nth p R [] else r) R.
(* 36-39: the pivot is one already (36 changes nothing); add the pivot row to every other row
   with a one in column j *)
Definition eliminate (p j : nat) (R : bmat) : bmat :=
  mapi (fun k r => if negb (k =? p) && nth j r false then vxor r (nth p R []) else r) R.

(* the loop of reduce_RREform_mod2, 24-43; R[p:, j] raises IndexError for j beyond the columns *)
Fixpoint rref_loop (ncols : nat) (js : list nat) (R : bmat) (p : nat) : res (bmat * nat) :=
  match js with
  | [] => Ok (R, p)
  | j :: js' =>
      if ncols <=? j then Err IndexError
      else match find_pivot p j (skipn p R) with
           | None => rref_loop ncols js' R p
           | Some i =>
               let R' := eliminate p j (swap_rows p i R) in
               if S p =? length R' then Ok (R', S p) else rref_loop ncols js' R' (S p)
           end
  end.
(* reduce_RREform_mod2, 6-44 *)
Definition reduce_RREform_mod2 (ncols : nat) (M : bmat) (max_cols : option nat) : res (bmat * nat) :=
  rref_loop ncols (seq 0 (match max_cols with Some m => m | None => ncols end)) M 0.

(* M.T, for a matrix with ncols columns *)
Definition transpose (ncols : nat) (M : bmat) : bmat := map (fun j => map (fun r => nth j r false) M) (seq 0 ncols).
Definition unit_row (n i : nat) : row := map (fun j => j =? i) (seq 0 n).

(* nullspace_basis, 84-106 *)
Definition nullspace_basis (ncols : nat) (M : bmat) : res bmat :=
  let n_cols := length M in                    (* M_transposed is ncols x n_cols *)
  let A := mapi (fun i r => r ++ unit_row ncols i) (transpose ncols M) in
  bind (reduce_RREform_mod2 (n_cols + ncols) A (Some n_cols)) (fun Rp =>
  let N := map (skipn n_cols) (skipn (snd Rp) (fst Rp)) in
  bind (reduce_RREform_mod2 ncols N None) (fun bp => Ok (fst bp))).

(* lc_constraint_system, 47-81: row k of row block j *)
Definition lc_row (n : nat) (G H : bmat) (j k : nat) : row :=
  let A := map (fun i => (i =? k) && ent G j k) (seq 0 n) in                  (* np.diag(G[j])[k] *)
  let B := map (fun i => (k =? j) && (i =? j)) (seq 0 n) in
  let C := map (fun i => ent G i j && ent H i k) (seq 0 n) in
  let D := map (fun i => (i =? j) && ent H j k) (seq 0 n) in
  A ++ B ++ C ++ D.
Definition lc_constraint_system (n : nat) (G H : bmat) : bmat :=
  flat_map (fun j => map (lc_row n G H j) (seq 0 n)) (seq 0 n).

(* the determinant check of one candidate, 140-149 *)
Definition sat (n : nat) (sol : row) : bool :=
  forallb (fun k => xorb (nth k sol false && nth (k + 3 * n) sol false) (nth (k + n) sol false && nth (k + 2 * n) sol false)) (seq 0 n).
(* search_nullspace, 109-161: the first sum of two distinct basis vectors that passes *)
Definition search_nullspace (ncols : nat) (basis : bmat) : option row :=
  let n := ncols / 4 in
  let sols := flat_map (fun i => map (fun j => vxor (nth i basis []) (nth j basis [])) (seq 0 i)) (seq 0 (length basis)) in
  find (sat n) sols.

(* clifford_vec_to_tensors, 164-191 *)
Definition clifford_vec_to_tensors (vec : row) : list bmat :=
  let n := length vec / 4 in
  map (fun i => [[nth i vec false; nth (i + n) vec false]; [nth (i + 2 * n) vec false; nth (i + 3 * n) vec false]]) (seq 0 n).
(* clifford_vec_to_global, 194-224 *)
Definition diag_row (n : nat) (vec : row) (k i : nat) : row := map (fun j => (j =? i) && nth (i + k * n) vec false) (seq 0 n).
Definition clifford_vec_to_global (vec : row) : bmat :=
  let n := length vec / 4 in
  map (fun i => diag_row n vec 0 i ++ diag_row n vec 1 i) (seq 0 n) ++ map (fun i => diag_row n vec 2 i ++ diag_row n vec 3 i) (seq 0 n).

Inductive cform := FTensor | FGlobal | FOther.
Inductive clifford := CTensor (l : list bmat) | CGlobal (m : bmat).
(* are_lc_equivalent, 227-295, after the adjacency matrices G (n rows) and H (m rows) have been
   read from the two graphs (they are square).  With another clifford_form the result is unbound
   when a solution is found. *)
Definition are_lc_equivalent (G H : bmat) (form : cform) : res (bool * option clifford) :=
  if (length G =? 0) || (length H =? 0) then Ok (false, None)
  else if negb (length G =? length H) then Ok (false, None)
  else
    let n := length G in
    let system := lc_constraint_system n G H in
    bind (nullspace_basis (4 * n) system) (fun nullspace =>
    match search_nullspace (4 * n) nullspace with
    | None => Ok (false, None)
    | Some v =>
        match form with
        | FTensor => Ok (true, Some (CTensor (clifford_vec_to_tensors v)))
        | FGlobal => Ok (true, Some (CGlobal (clifford_vec_to_global v)))
        | FOther => Err UnboundLocalError
        end
    end).
