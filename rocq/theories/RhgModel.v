(* RhgModel.v: model of RHG_graph and its helpers, flamingpy/codes/surface_code.py 26-245,
   and of the part of EGraph / networkx.Graph they use. *)
From Coq Require Import String.
From Verif Require Import Base Lattice.
Open Scope Z_scope.

(* ------------------------------------------------------------------ *)
(* networkx.Graph as used by RHG_graph: nodes with an optional "type"
   attribute and undirected edges with "weight" and "periodic" attributes,
   both in insertion order. *)

Inductive ntyp := Primal | Dual.   (* the node attribute type="primal" / "dual" *)

Record eattr := { eweight : Z; eperiodic : bool }.

Record egr := {
  gnodes : list (point * option ntyp);
  gedges : list ((point * point) * eattr)
}.

(* EGraph() -- egraph.py 123-131 *)
Definition empty_graph : egr := {| gnodes := []; gedges := [] |}.

Fixpoint upd_node (p : point) (t : ntyp) (l : list (point * option ntyp)) :=
  match l with
  | [] => [(p, Some t)]
  | (q, t') :: l' => if peqb q p then (q, Some t) :: l' else (q, t') :: upd_node p t l'
  end.

(* nx.Graph.add_node(p, type=t): inserts the node or updates its attribute. *)
Definition add_node (p : point) (t : ntyp) (g : egr) : egr :=
  {| gnodes := upd_node p t (gnodes g); gedges := gedges g |}.

Definition has_key (p : point) (l : list (point * option ntyp)) : bool :=
  existsb (fun e => peqb (fst e) p) l.

(* a node that add_edge has to create has no attributes *)
Definition ensure_node (p : point) (l : list (point * option ntyp)) :=
  if has_key p l then l else l ++ [(p, None)].

Definition same_edge (u v : point) (e : point * point) : bool :=
  (peqb (fst e) u && peqb (snd e) v) || (peqb (fst e) v && peqb (snd e) u).

(* dict.update on the edge attributes: weight is always given, the keyword
   periodic=True only by the periodic branch. *)
Fixpoint upd_edge (u v : point) (w : Z) (per : bool) (l : list ((point * point) * eattr)) :=
  match l with
  | [] => [((u, v), {| eweight := w; eperiodic := per |})]
  | (e, a) :: l' =>
      if same_edge u v e then (e, {| eweight := w; eperiodic := per || eperiodic a |}) :: l'
      else (e, a) :: upd_edge u v w per l'
  end.

(* nx.Graph.add_edge(u, v, weight=w[, periodic=True]) *)
Definition add_edge (u v : point) (w : Z) (per : bool) (g : egr) : egr :=
  {| gnodes := ensure_node v (ensure_node u (gnodes g));
     gedges := upd_edge u v w per (gedges g) |}.

(* p in G *)
Definition has_node (g : egr) (p : point) : bool := has_key p (gnodes g).

(* G.nodes[p].get("type") *)
Definition node_type (g : egr) (p : point) : option ntyp :=
  match find (fun e => peqb (fst e) p) (gnodes g) with
  | Some (_, t) => t
  | None => None
  end.

(* G.edges[(u, v)] *)
Definition edge_attr (g : egr) (u v : point) : option eattr :=
  match find (fun e => same_edge u v (fst e)) (gedges g) with
  | Some (_, a) => Some a
  | None => None
  end.

(* G.edges[(u, v)]["weight"] == w *)
Definition has_weight (g : egr) (w : Z) (u v : point) : bool :=
  match edge_attr g u v with Some a => eweight a =? w | None => false end.

(* G.nodes, in insertion order *)
Definition node_list (g : egr) : list point := map fst (gnodes g).

(* list(G[p]) *)
Definition nbrs (g : egr) (p : point) : list point :=
  flat_map (fun e => if peqb (fst (fst e)) p then [snd (fst e)]
                     else if peqb (snd (fst e)) p then [fst (fst e)] else [])
           (gedges g).

(* ------------------------------------------------------------------ *)
(* surface_code.py *)

(* alternating_polarity, 26-53.  numpy integer arrays as integer points;
   np.where(point2 - point1)[0][0] raises IndexError when the points agree.
   (-1) ** n is +1 for even and -1 for odd n (a negative exponent, for which
   numpy raises, cannot occur: lattice coordinates are >= 0).  The final else
   branch (53-54) is unreachable for three coordinates. *)
Definition pow_m1 (n : Z) : Z := if n mod 2 =? 0 then 1 else -1.

Definition alternating_polarity (e : point * point) : res Z :=
  let '((x1, y1, z1), (x2, y2, z2)) := e in
  if negb (x2 - x1 =? 0) then Ok (pow_m1 y1)
  else if negb (y2 - y1 =? 0) then Ok (pow_m1 z1)
  else if negb (z2 - z1 =? 0) then Ok (pow_m1 x1)
  else Err IndexError.

(* alternating_polarity passed as RHG_graph's polarity argument: the value where
   it returns one.  C03 shows that it never raises on an edge RHG_graph inserts, so
   the default below is never used. *)
Definition apol (e : point * point) : Z :=
  match alternating_polarity e with Ok w => w | Err _ => 0 end.

(* dual_neighbours, 56-82 *)
Definition dual_neighbours (p : point) (displace : Z) : list point :=
  let '(x, y, z) := p in
  let top := (x, y + displace, z) in
  let bottom := (x, y - displace, z) in
  let left := (x - displace, y, z) in
  let right := (x + displace, y, z) in
  if negb (z mod 2 =? 0) then
    let front := (x, y, z + displace) in
    let back := (x, y, z - displace) in
    if negb (x mod 2 =? 0) then [back; left; front; right]
    else [back; top; front; bottom]
  else [bottom; left; top; right].

(* str_to_bound, 85-112.  An unknown name gives np.array(None), modelled as None. *)
Definition str_to_bound (s : string) : option bnds :=
  if String.eqb s "open_primal" then Some (BPrimal, BDual, BPrimal)
  else if String.eqb s "open_dual" then Some (BPrimal, BDual, BDual)
  else if String.eqb s "primal" then Some (BPrimal, BPrimal, BPrimal)
  else if String.eqb s "dual" then Some (BDual, BDual, BDual)
  else if String.eqb s "periodic" then Some (BPeriodic, BPeriodic, BPeriodic)
  else if String.eqb s "periodic_primal" then Some (BPeriodic, BPeriodic, BPrimal)
  else if String.eqb s "periodic_dual" then Some (BPeriodic, BPeriodic, BDual)
  else None.

(* it.product(range(..), range(..), range(..)) *)
Definition product3 (l1 l2 l3 : list Z) : list point :=
  flat_map (fun i => flat_map (fun j => map (fun k => (i, j, k)) l3) l2) l1.

(* max_dict, 172 *)
Definition rhg_max (b : bnd) : Z :=
  match b with BPrimal => 1 | BDual => 0 | BPeriodic => 0 end.

(* inds, 173-175 *)
Definition rhg_inds (D : dims) (B : bnds) : list point :=
  let r a := py_range 0 (get a D - rhg_max (get a B)) in
  product3 (r AX) (r AY) (r AZ).

(* one entry of all_six_bodies, 179-186 *)
Definition primal_six (ijk : point) : list point :=
  let '(i, j, k) := ijk in
  [ (2 * i, 2 * j + 1, 2 * k + 1);
    (2 * i + 1, 2 * j, 2 * k + 1);
    (2 * i + 1, 2 * j + 1, 2 * k);
    (2 * i + 2, 2 * j + 1, 2 * k + 1);
    (2 * i + 1, 2 * j + 2, 2 * k + 1);
    (2 * i + 1, 2 * j + 1, 2 * k + 2) ].

(* all_six_bodies, 178-188; also G.graph["primal_cubes"], 244 *)
Definition primal_cubes (D : dims) (B : bnds) : list (list point) :=
  map primal_six (rhg_inds D B).

(* The set denested_six_bodies, 189, is iterated in an order the program does
   not control: rhg_graph below takes an enumeration of it as argument. *)
Definition six_body_points (D : dims) (B : bnds) : list point := concat (primal_cubes D B).

(* where_vertex_0 / where_neighbor_0, 201-203 and 215-217 *)
Definition where_0 (p : point) : list axis :=
  filter (fun a => co a p =? 0) axes.

(* where_vertex_max / where_neighbor_max, 204-205 and 218-219 (the elif branch) *)
Definition where_max (D : dims) (p : point) : list axis :=
  filter (fun a => negb (co a p =? 0) && (co a p =? 2 * get a D)) axes.

(* dual_inds / periodic_inds, 192-193 *)
Definition axes_of (b : bnd) (B : bnds) : list axis :=
  filter (fun a => bnd_eqb (get a B) b) axes.

Definition inter_axes (l m : list axis) : list axis :=
  filter (fun a => if in_dec axis_eq_dec a m then true else false) l.

Definition nonempty {A} (l : list A) : bool := match l with [] => false | _ => true end.

(* the negated condition of 206-210 and 220-224 *)
Definition beyond (D : dims) (B : bnds) (p : point) : bool :=
  nonempty (inter_axes (where_max D p) (axes_of BDual B))
  || nonempty (inter_axes (where_0 p) (axes_of BDual B))
  || nonempty (inter_axes (where_max D p) (axes_of BPeriodic B)).

(* One call on G inside the loops 196-241.  The loop bodies never read G, so
   the nested loops are modelled as the list of calls they make. *)
Inductive gop :=
  | OpNode (p : point) (t : ntyp)
  | OpEdge (u v : point) (w : Z) (per : bool).

Definition apply_op (g : egr) (o : gop) : egr :=
  match o with
  | OpNode p t => add_node p t g
  | OpEdge u v w per => add_edge u v w per g
  end.

(* polarity(edge) if polarity else 1, 226 and 238 *)
Definition edge_weight (pol : option (point * point -> Z)) (e : point * point) : Z :=
  match pol with Some f => f e | None => 1 end.

(* 231-241 *)
Definition periodic_ops (D : dims) (B : bnds) (pol : option (point * point -> Z))
    (nb : point) : list gop :=
  flat_map (fun ind =>
      let other := setco ind (2 * get ind D - 1) nb in
      [ OpNode other Primal;
        OpEdge nb other (edge_weight pol (nb, other)) true ])
    (inter_axes (where_0 nb) (axes_of BPeriodic B)).

(* 211-241 *)
Definition vertex_ops (D : dims) (B : bnds) (pol : option (point * point -> Z))
    (v : point) : list gop :=
  if beyond D B v then [] else
  flat_map (fun nb =>
      if beyond D B nb then [] else
      [ OpNode v Primal; OpNode nb Dual;
        OpEdge v nb (edge_weight pol (v, nb)) false ]
      ++ periodic_ops D B pol nb)
    (dual_neighbours v 1).

(* RHG_graph, 171-245; vs enumerates denested_six_bodies *)
Definition rhg_graph (D : dims) (B : bnds) (pol : option (point * point -> Z))
    (vs : list point) : egr :=
  fold_left apply_op (flat_map (vertex_ops D B pol) vs) empty_graph.
