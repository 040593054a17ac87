(* SurfaceSpec.v: cells, qubits and correlation planes of the surface code, described
   geometrically and independently of the code. *)
From Verif Require Import Base Lattice RhgModel RhgSpec SurfaceModel.
Open Scope Z_scope.

(* Cell centres: primal cells have three odd coordinates, dual cells three even ones. *)
Definition cell (D : dims) (e : ecx) (B : bnds) (c : point) : Prop :=
  site D B c /\ nodd c = match e with EcPrimal => 3 | EcDual => 0 end.

(* Syndrome qubits: the vertices of the type of the error complex. *)
Definition qubit (D : dims) (e : ecx) (B : bnds) (q : point) : Prop :=
  match e with EcPrimal => primal_vertex D B q | EcDual => dual_vertex D B q end.

(* The qubits on the faces of a cell. *)
Definition on_cell (D : dims) (e : ecx) (B : bnds) (c q : point) : Prop :=
  qubit D e B q /\ step D B c q.

(* The axis of the boundary at which error chains of complex e can end, if any. *)
Definition open_axis (e : ecx) (b : bdk) : option axis :=
  match b with
  | BdOpen => Some (match e with EcPrimal => AX | EcDual => AY end)
  | _ => None
  end.

(* The directions in which logical errors propagate. *)
Definition logical_axes (e : ecx) (b : bdk) : list axis :=
  match b with
  | BdOpen => [match e with EcPrimal => AX | EcDual => AY end]
  | BdToric => [AX; AY]
  | BdPeriodic => [AX; AY; AZ]
  end.

(* The boundaries of the six codes (documentation of SurfaceCode). *)
Definition documented_bnds (e : ecx) (b : bdk) : bnds :=
  match b, e with
  | BdOpen, EcPrimal => (BPrimal, BDual, BDual)
  | BdOpen, EcDual => (BPrimal, BDual, BPrimal)
  | BdToric, EcPrimal => (BPeriodic, BPeriodic, BDual)
  | BdToric, EcDual => (BPeriodic, BPeriodic, BPrimal)
  | BdPeriodic, _ => (BPeriodic, BPeriodic, BPeriodic)
  end.

(* The qubits of the low and of the high boundary plane of the code. *)
Definition on_low (D : dims) (e : ecx) (b : bdk) (q : point) : Prop :=
  qubit D e (documented_bnds e b) q /\
  exists a, open_axis e b = Some a /\ co a q = match e with EcPrimal => 0 | EcDual => 1 end.
Definition on_high (D : dims) (e : ecx) (b : bdk) (q : point) : Prop :=
  qubit D e (documented_bnds e b) q /\
  exists a, open_axis e b = Some a /\
    co a q = 2 * get a D - match e with EcPrimal => 2 | EcDual => 1 end.
