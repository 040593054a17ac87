(* RhgSpec.v: the RHG lattice, described geometrically and independently of the code. *)
From Verif Require Import Base Lattice.
Open Scope Z_scope.

(* Range of a coordinate on an axis of size d, by boundary kind. *)
Definition in_range (b : bnd) (d c : Z) : Prop :=
  match b with
  | BPrimal => 0 <= c <= 2 * d - 2
  | BDual => 1 <= c <= 2 * d - 1
  | BPeriodic => 0 <= c <= 2 * d - 1
  end.

(* A site: every coordinate in range. *)
Definition site (D : dims) (B : bnds) (p : point) : Prop :=
  forall a, in_range (get a B) (get a D) (co a p).

(* Number of odd coordinates. *)
Definition nodd (p : point) : Z := co AX p mod 2 + co AY p mod 2 + co AZ p mod 2.

(* c and c' are one step apart on an axis: neighbours on the line, or the two
   ends of a periodic axis. *)
Definition wrap1 (b : bnd) (d c c' : Z) : Prop :=
  b = BPeriodic /\ ((c = 0 /\ c' = 2 * d - 1) \/ (c = 2 * d - 1 /\ c' = 0)).
Definition step1 (b : bnd) (d c c' : Z) : Prop :=
  c' = c + 1 \/ c' = c - 1 \/ wrap1 b d c c'.

(* p and q differ by one step along exactly one axis. *)
Definition step (D : dims) (B : bnds) (p q : point) : Prop :=
  exists a, step1 (get a B) (get a D) (co a p) (co a q) /\
            forall b, b <> a -> co b q = co b p.

(* ... by a wrap-around step. *)
Definition wrap (D : dims) (B : bnds) (p q : point) : Prop :=
  exists a, wrap1 (get a B) (get a D) (co a p) (co a q) /\
            forall b, b <> a -> co b q = co b p.

Definition primal_vertex (D : dims) (B : bnds) (p : point) : Prop := site D B p /\ nodd p = 2.
Definition dual_vertex (D : dims) (B : bnds) (p : point) : Prop := site D B p /\ nodd p = 1.

(* Edges of the lattice: a primal and a dual vertex one step apart. *)
Definition lattice_edge (D : dims) (B : bnds) (p q : point) : Prop :=
  primal_vertex D B p /\ dual_vertex D B q /\ step D B p q.

(* The documented sizes (surface_code.py 135-140): at least 2 along open axes,
   at least 1 along periodic axes. *)
Definition dims_ok (D : dims) (B : bnds) : Prop :=
  forall a, 1 <= get a D /\ (get a B <> BPeriodic -> 2 <= get a D).

(* Every axis of size at least 2. *)
Definition dims_ge2 (D : dims) : Prop := forall a, 2 <= get a D.
