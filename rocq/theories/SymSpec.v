(* SymSpec.v: relabellings of the lattice, described independently of the code. *)
From Verif Require Import Base Lattice RhgModel RhgSpec SurfaceModel SurfaceSpec.
Open Scope Z_scope.

(* 3 for the cells checked by the stabilizers, 2 for the qubits, 1 for the other vertices, 0 for the
   other cells, in the code of complex e. *)
Definition level (e : ecx) (p : point) : Z := match e with EcPrimal => nodd p | EcDual => 3 - nodd p end.

(* f carries the lattice of one code onto the lattice of another, g undoes it; neighbours stay
   neighbours and qubits stay qubits. *)
Definition relabelling (D1 : dims) (e1 : ecx) (b1 : bdk) (D2 : dims) (e2 : ecx) (b2 : bdk) (f g : point -> point) : Prop :=
  let B1 := documented_bnds e1 b1 in let B2 := documented_bnds e2 b2 in
  (forall p, site D1 B1 p -> site D2 B2 (f p) /\ g (f p) = p /\ level e2 (f p) = level e1 p) /\
  (forall p, site D2 B2 p -> site D1 B1 (g p) /\ f (g p) = p) /\
  (forall p q, site D1 B1 p -> site D1 B1 q -> (step D1 B1 p q <-> step D2 B2 (f p) (f q))).

(* x + v around a circle of n points *)
Definition around (n v x : Z) : Z := (x + v) mod n.

(* 1. Moving the whole lattice along its periodic axes, by even distances. *)
Definition shift (D : dims) (e : ecx) (b : bdk) (v p : point) : point :=
  let m a := match get a (documented_bnds e b) with BPeriodic => around (2 * get a D) (co a v) (co a p) | _ => co a p end in
  (m AX, m AY, m AZ).
(* 2. Looking at the lattice in a mirror, along the axes in m. *)
Definition mirror (D : dims) (e : ecx) (b : bdk) (m : axis -> bool) (p : point) : point :=
  let r a := if m a then
      match get a (documented_bnds e b) with
      | BPrimal => 2 * get a D - 2 - co a p
      | BDual => 2 * get a D - co a p
      | BPeriodic => around (2 * get a D) (- co a p) 0
      end
    else co a p in
  (r AX, r AY, r AZ).
(* 3. Exchanging the first two axes, for the codes that treat them alike. *)
Definition exch (p : point) : point := (co AY p, co AX p, co AZ p).
(* 4. From a primal code to the dual code of the same kind.  The open code also exchanges the first two axes. *)
Definition twin_dims (b : bdk) (D : dims) : dims :=
  match b with BdOpen => (get AY D, get AX D, get AZ D) | _ => D end.
Definition twin (D : dims) (b : bdk) (p : point) : point :=
  match b with
  | BdOpen => (co AY p - 1, co AX p + 1, co AZ p - 1)
  | BdToric => (around (2 * get AX D) 1 (co AX p), around (2 * get AY D) 1 (co AY p), co AZ p - 1)
  | BdPeriodic => (around (2 * get AX D) 1 (co AX p), around (2 * get AY D) 1 (co AY p), around (2 * get AZ D) 1 (co AZ p))
  end.
