(* LinSpec.v: the notions of linear algebra modulo 2 in which C24-C27 are stated. *)
From Verif Require Import Base LinModel.
Open Scope nat_scope.

(* all rows have n entries *)
Definition width (n : nat) (L : bmat) : Prop := forall r, In r L -> length r = n.
(* the sum of the rows selected by cs *)
Fixpoint lincomb (n : nat) (cs : list bool) (L : bmat) : row :=
  match cs, L with
  | c :: cs', r :: L' => if c then vxor r (lincomb n cs' L') else lincomb n cs' L'
  | _, _ => zeros n
  end.
Definition rowspace (n : nat) (L : bmat) (v : row) : Prop := exists cs, length cs = length L /\ v = lincomb n cs L.
Definition independent (n : nat) (L : bmat) : Prop :=
  forall cs, length cs = length L -> lincomb n cs L = zeros n -> cs = repeat false (length L).

(* the first maxc columns are in reduced row echelon form, with the pivots of rows 0 .. p-1 in
   the increasing columns cols, and the rows from p on vanish there *)
Definition echelon (maxc : nat) (R : bmat) (p : nat) (cols : list nat) : Prop :=
  length cols = p /\ p <= length R /\
  (forall i i', i < i' < p -> nth i cols 0 < nth i' cols 0) /\
  (forall i, i < p -> nth i cols 0 < maxc) /\
  (forall i k, i < p -> k < length R -> ent R k (nth i cols 0) = (k =? i)) /\
  (forall i j, i < p -> j < nth i cols 0 -> ent R i j = false) /\
  (forall k j, p <= k < length R -> j < maxc -> ent R k j = false).

(* scalar product modulo 2, and the product of a matrix and a vector *)
Definition dot (r x : row) : bool := fold_right xorb false (map (fun ab => fst ab && snd ab) (combine r x)).
Definition mulv (M : bmat) (x : row) : row := map (fun r => dot r x) M.
(* M x = 0 modulo 2 *)
Definition nullvec (M : bmat) (x : row) : Prop := forall r, In r M -> dot r x = false.

(* Binary picture of stabilizer states (van den Nest, Dehaene, De Moor): a Pauli operator on n
   qubits is a pair (z, x) of vectors; the stabilizer group of the graph state with adjacency
   matrix G consists of the pairs (G x, x). *)
Definition stabilizer (n : nat) (G : bmat) (z x : row) : Prop := length x = n /\ z = mulv G x.
(* a square symmetric binary matrix without loops *)
Definition graph_matrix (n : nat) (G : bmat) : Prop :=
  length G = n /\ width n G /\ (forall i j, i < n -> j < n -> ent G i j = ent G j i) /\ forall i, i < n -> ent G i i = false.
(* the action of one 2 x 2 matrix per qubit *)
Definition apply_local (Q : list bmat) (z x : row) : row * row :=
  (mapi (fun k q => xorb (ent q 0 0 && nth k z false) (ent q 0 1 && nth k x false)) Q,
   mapi (fun k q => xorb (ent q 1 0 && nth k z false) (ent q 1 1 && nth k x false)) Q).
Definition det2 (q : bmat) : bool := xorb (ent q 0 0 && ent q 1 1) (ent q 0 1 && ent q 1 0).
(* one 2 x 2 matrix of determinant 1 for each of the n qubits *)
Definition local_clifford (n : nat) (Q : list bmat) : Prop :=
  length Q = n /\ forall q, In q Q -> length q = 2 /\ width 2 q /\ det2 q = true.
(* Q maps the stabilizer group of G onto the stabilizer group of H *)
Definition maps_onto (n : nat) (Q : list bmat) (G H : bmat) : Prop :=
  (forall z x, stabilizer n G z x -> stabilizer n H (fst (apply_local Q z x)) (snd (apply_local Q z x))) /\
  (forall z' x', stabilizer n H z' x' -> exists z x, stabilizer n G z x /\ apply_local Q z x = (z', x')).
Definition lc_equivalent (n : nat) (G H : bmat) : Prop := exists Q, local_clifford n Q /\ maps_onto n Q G H.
(* the action of a 2n x 2n matrix *)
Definition apply_global (n : nat) (m : bmat) (z x : row) : row * row :=
  let v := mulv m (z ++ x) in (firstn n v, skipn n v).
(* the 4n entries of a list of 2 x 2 matrices: first all upper left entries, then all upper
   right, lower left and lower right ones *)
Definition vec_of (Q : list bmat) : row :=
  map (fun q => ent q 0 0) Q ++ map (fun q => ent q 0 1) Q ++ map (fun q => ent q 1 0) Q ++ map (fun q => ent q 1 1) Q.
