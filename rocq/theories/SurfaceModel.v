(* SurfaceModel.v: model of SurfaceCode (flamingpy/codes/surface_code.py 248-525), of
   Stabilizer (codes/stabilizer.py), of EGraph.slice_coords (codes/graphs/egraph.py
   180-194) and of check_correction (decoders/decoder.py 151-224). *)
From Coq Require Import String.
From Verif Require Import Base Lattice RhgModel.
Open Scope Z_scope.

(* the ec argument: 'primal' or 'dual' *)
Inductive ecx := EcPrimal | EcDual.
(* the boundaries argument: 'open', 'toric' or 'periodic' *)
Inductive bdk := BdOpen | BdToric | BdPeriodic.

Definition ec_str (e : ecx) : string := match e with EcPrimal => "primal" | EcDual => "dual" end.
Definition bd_str (b : bdk) : string :=
  match b with BdOpen => "open" | BdToric => "toric" | BdPeriodic => "periodic" end.
Definition ec_bnd (e : ecx) : bnd := match e with EcPrimal => BPrimal | EcDual => BDual end.

(* surface_code.py 326-338: argument check and self.bound_str *)
Definition bound_str (ec bd : string) : res string :=
  if negb ((String.eqb bd "open" || String.eqb bd "toric" || String.eqb bd "periodic") &&
           (String.eqb ec "primal" || String.eqb ec "dual"))
  then Err ValueError
  else if String.eqb bd "open" then
    Ok (if String.eqb ec "primal" || String.eqb ec "both" then "open_dual"%string else "open_primal"%string)
  else if String.eqb bd "toric" then
    Ok (if String.eqb ec "primal" || String.eqb ec "both" then "periodic_dual"%string else "periodic_primal"%string)
  else Ok bd.

(* self.boundaries = str_to_bound(self.bound_str), 339 *)
Definition code_bnds (e : ecx) (b : bdk) : bnds :=
  match bound_str (ec_str e) (bd_str b) with
  | Ok s => match str_to_bound s with Some B => B | None => (BPrimal, BPrimal, BPrimal) end
  | Err _ => (BPrimal, BPrimal, BPrimal)
  end.

(* ec_bound_points is empty iff "periodic" is a substring of bound_str, 498-499 *)
Definition is_periodic_str (e : ecx) (b : bdk) : bool :=
  match bound_str (ec_str e) (bd_str b) with
  | Ok s => match String.index 0 "periodic" s with Some _ => true | None => false end
  | Err _ => false
  end.

(* six_body_dual_stabilizers, 466-487 *)
Definition dual_min (b : bnd) : Z := match b with BPrimal => -1 | BDual => 0 | BPeriodic => -1 end.
Definition dual_max (b : bnd) : Z := match b with BPrimal => 1 | BDual => 1 | BPeriodic => 1 end.
Definition dual_inds (D : dims) (B : bnds) : list point :=
  let r a := py_range (dual_min (get a B)) (get a D - dual_max (get a B)) in
  product3 (r AX) (r AY) (r AZ).
Definition dual_six (ijk : point) : list point :=
  let '(i, j, k) := ijk in
  [ (2 * i + 1, 2 * j + 2, 2 * k + 2);
    (2 * i + 2, 2 * j + 1, 2 * k + 2);
    (2 * i + 2, 2 * j + 2, 2 * k + 1);
    (2 * i + 3, 2 * j + 2, 2 * k + 2);
    (2 * i + 2, 2 * j + 3, 2 * k + 2);
    (2 * i + 2, 2 * j + 2, 2 * k + 3) ].

(* generate_stabilizer_coords, 453-464 *)
Definition all_six_bodies (e : ecx) (D : dims) (B : bnds) : list (list point) :=
  match e with
  | EcPrimal => primal_cubes D B
  | EcDual => map dual_six (dual_inds D B)
  end.

Definition axis_pos (a : axis) : nat := match a with AX => 0 | AY => 1 | AZ => 2 end.

(* periodic_boundary_stabilizers, 430-451: the points appended to actual_stabe.
   stabe always has six entries, so the default of nth is never used. *)
Definition periodic_virtual (e : ecx) (D : dims) (B : bnds) (stabe : list point) : list point :=
  flat_map (fun ind =>
      match e with
      | EcDual =>
          let hp := nth (3 + axis_pos ind) stabe (0, 0, 0) in
          if co ind hp =? 1 then [setco ind (2 * get ind D - 1) hp] else []
      | EcPrimal =>
          let lp := nth (axis_pos ind) stabe (0, 0, 0) in
          if co ind lp =? 2 * get ind D - 2 then [setco ind 0 lp] else []
      end)
    (axes_of BPeriodic B).

(* actual_stabe, 414-417: the list of points of one stabilizer *)
Definition actual_stabe (e : ecx) (D : dims) (B : bnds) (g : egr) (stabe : list point) : list point :=
  let act := nodup point_eq_dec (filter (has_node g) stabe) in
  if Nat.ltb (List.length act) 6 then act ++ periodic_virtual e D B stabe else act.

(* EGraph.slice_coords, egraph.py 180-194 *)
Definition slice_coords (g : egr) (a : axis) (n : Z) : list point :=
  filter (fun p => co a p =? n) (node_list g).

(* bound_ind, 501: first axis whose boundary is of kind ec *)
Definition bound_ind (e : ecx) (B : bnds) : axis := hd AX (axes_of (ec_bnd e) B).

(* low_index / high_index, 516-517 *)
Definition low_index (e : ecx) : Z := match e with EcPrimal => 0 | EcDual => 1 end.
Definition high_index (e : ecx) (d : Z) : Z := match e with EcPrimal => 2 * d - 2 | EcDual => 2 * d - 1 end.

(* A SurfaceCode object (the attributes of the single error complex in self.ec). *)
Record scode := {
  sc_dims : dims;
  sc_ec : ecx;
  sc_bd : bdk;
  sc_graph : egr;                    (* graph *)
  sc_phys : list (list point);       (* stabilizer.physical, 419 *)
  sc_stabs : list (list point);      (* stabilizer.coords(), stabilizer.py 57-59 *)
  sc_syn : list point;               (* {ec}_syndrome_coords *)
  sc_low : list point;               (* final_low_set, as a list *)
  sc_high : list point               (* final_high_set, as a list *)
}.

(* {ec}_bound_points, 525 *)
Definition sc_bound (c : scode) : list point := sc_low c ++ sc_high c.
Definition sc_bnds (c : scode) : bnds := code_bnds (sc_ec c) (sc_bd c).

(* The result of SurfaceCode(D, e, b, polarity), 309-349, 373-428 and 489-525.  Every list
   obtained by iterating over a Python set is any enumeration of that set: the primal
   vertices (via rhg_graph), the nodes of each stabilizer's subgraph view, the syndrome
   coordinates and the two halves of the boundary points.
   Not modelled here: index_generator (see EGraphModel), subgraph edges, {ec}_syndrome_inds. *)
Definition is_surface_code (D : dims) (e : ecx) (b : bdk) (pol : option (point * point -> Z))
    (c : scode) : Prop :=
  let B := code_bnds e b in
  let cubes := all_six_bodies e D B in
  sc_dims c = D /\ sc_ec c = e /\ sc_bd c = b /\
  (exists vs, set_enum (six_body_points D B) vs /\ sc_graph c = rhg_graph D B pol vs) /\
  sc_phys c = cubes /\
  Forall2 (fun cube st => set_enum (actual_stabe e D B (sc_graph c) cube) st) cubes (sc_stabs c) /\
  set_enum (List.concat (map (actual_stabe e D B (sc_graph c)) cubes)) (sc_syn c) /\
  if is_periodic_str e b then sc_low c = [] /\ sc_high c = []
  else
    let a := bound_ind e B in
    set_enum (filter (fun p => pmem p (sc_syn c)) (slice_coords (sc_graph c) a (low_index e))) (sc_low c) /\
    set_enum (filter (fun p => pmem p (sc_syn c)) (slice_coords (sc_graph c) a (high_index e (get a D)))) (sc_high c).

(* Stabilizer.parity, stabilizer.py 43-55: bit is the node attribute bit_val (0/1 as a
   boolean, present on every node); the sum mod 2 of the values on the nodes of the subgraph. *)
Definition stab_parity (bit : point -> bool) (st : list point) : bool := xsum bit st.

(* Stabilizer.xlims / ylims / zlims / midpoint, 61-85: twice the midpoint, so as to stay
   in the integers: np.average((min, max)) = (min + max) / 2. *)
Definition lmin (l : list Z) : Z := match l with [] => 0 | x :: l' => fold_left Z.min l' x end.
Definition lmax (l : list Z) : Z := match l with [] => 0 | x :: l' => fold_left Z.max l' x end.
Definition midpoint2 (phys : list point) : point :=
  let s a := lmin (map (co a) phys) + lmax (map (co a) phys) in (s AX, s AY, s AZ).

(* check_correction, decoder.py 183-224 *)
Definition planes_to_check (e : ecx) (b : bdk) : list axis :=
  match bound_str (ec_str e) (bd_str b) with
  | Ok s =>
      if String.eqb s "periodic" then [AX; AY; AZ]
      else if String.eqb s "periodic_primal" || String.eqb s "periodic_dual" then [AX; AY]
      else if String.prefix "open" s then
        match e with EcPrimal => [AX] | EcDual => [AY] end
      else []
  | Err _ => []
  end.

(* range(minimum, maximum, 2) *)
Definition sheets (minimum maximum : Z) : list Z :=
  map (fun k => minimum + 2 * Z.of_nat k) (seq 0 (Z.to_nat ((maximum - minimum + 1) / 2))).

(* bool(1 - parity) of one sheet, 207-214; the set is iterated as any list of its
   elements: the parity does not depend on the order. *)
Definition sheet_parity (c : scode) (bit : point -> bool) (a : axis) (s : Z) : bool :=
  xsum bit (filter (fun p => pmem p (sc_syn c)) (slice_coords (sc_graph c) a s)).

Definition minimum (e : ecx) : Z := match e with EcPrimal => 0 | EcDual => 1 end.

(* truth_dict[plane], 205-214 *)
Definition truth (c : scode) (bit : point -> bool) (sanity : bool) (a : axis) : list bool :=
  let mn := minimum (sc_ec c) in
  let mx := if sanity then 2 * get a (sc_dims c) else mn + 2 in
  map (fun s => negb (sheet_parity c bit a s)) (sheets mn mx).

(* ec_checks, 219-220: truth_dict[i][0] for the planes to check; an empty list
   would raise IndexError (never for sizes >= 1, see check_correction_total). *)
Definition check_correction (c : scode) (bit : point -> bool) (sanity : bool) : res bool :=
  fold_right (fun a r =>
      match truth c bit sanity a, r with
      | t :: _, Ok acc => Ok (t && acc)
      | [], _ => Err IndexError
      | _, Err x => Err x
      end) (Ok true) (planes_to_check (sc_ec c) (sc_bd c)).
