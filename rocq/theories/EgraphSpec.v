(* EgraphSpec.v: the notions in which C28-C31 are stated. *)
From Coq Require Import Sorting.Sorted Sorting.Permutation.
From Verif Require Import Base Lattice EgraphModel.
Open Scope Z_scope.

(* the strict lexicographic order of coordinate tuples *)
Definition plt (p q : point) : Prop :=
  co AX p < co AX q \/ (co AX p = co AX q /\ (co AY p < co AY q \/ (co AY p = co AY q /\ co AZ p < co AZ q))).

(* to_indices[p] and to_points[i] *)
Definition idx (g : eg) (p : point) : option nat := match e_idx g with Some d => dget peqb d p | None => None end.
Definition pnt (g : eg) (i : nat) : option point := match e_pts g with Some d => dget Nat.eqb d i | None => None end.
(* both dictionaries exist and are inverse bijections between the nodes and a set of indices *)
Definition indexed (g : eg) : Prop :=
  e_idx g <> None /\ e_pts g <> None /\ (forall p i, idx g p = Some i <-> pnt g i = Some p) /\ (forall p, In p (e_nodes g) <-> idx g p <> None).
Definition unindexed (g : eg) : Prop := e_idx g = None /\ e_pts g = None.
(* the graph and the dictionaries are the same, whatever the cached matrix *)
Definition same_graph (g g' : eg) : Prop :=
  e_nodes g' = e_nodes g /\ e_edges g' = e_edges g /\ e_macro g' = e_macro g /\ e_m2m g' = e_m2m g.

(* a graph just built: distinct nodes, edges between nodes, and, for a macronode graph, a dictionary
   of disjoint lists of nodes *)
Definition macro_ok (ns : list point) (m : list (point * list point)) : Prop :=
  NoDup (map fst m) /\ NoDup (concat (map snd m)) /\ incl (concat (map snd m)) ns.
Definition graph_ok (g : eg) : Prop :=
  NoDup (e_nodes g) /\ (forall u v w, In (u, v, w) (e_edges g) -> In u (e_nodes g) /\ In v (e_nodes g)) /\
  match e_m2m g with Some m => macro_ok (e_nodes g) m | None => True end.
Definition fresh (g : eg) : Prop := graph_ok g /\ unindexed g /\ e_adj g = None.

(* p and q are joined by an edge of weight w *)
Definition joined (g : eg) (p q : point) (w : Z) : Prop := In (p, q, w) (e_edges g) \/ In (q, p, w) (e_edges g).
(* x is listed as a micronode of k *)
Definition micro (g : eg) (k x : point) : Prop := exists m l, e_m2m g = Some m /\ In (k, l) m /\ In x l.
(* r is the integer nearest to c (in units of 1/U), the even one in case of a tie *)
Definition nearest (U c r : Z) : Prop := exists z, r = U * z /\ 2 * Z.abs (c - r) <= U /\ (2 * Z.abs (c - r) = U -> Z.even z = true).

(* a is the adjacency matrix of the current graph, ordered by index *)
Definition current (g : eg) (a : list (list Z)) : Prop :=
  length a = length (e_nodes g) /\
  (forall i, (i < length (e_nodes g))%nat -> pnt g i <> None /\ length (nth i a []) = length (e_nodes g)) /\
  (forall i j p q, (i < length (e_nodes g))%nat -> (j < length (e_nodes g))%nat -> pnt g i = Some p -> pnt g j = Some q ->
     joined g p q (nth j (nth i a []) 0) \/ (nth j (nth i a []) 0 = 0 /\ forall w, ~ joined g p q w)).

(* calls *)
Inductive op := OAdd (q : qarg) (n : narg) (m : bool) | ORemove (r : rarg) | OIndex | OAdj (sparse : bool).
Definition run (U : Z) (g : eg) (o : op) : eg * res unit :=
  match o with
  | OAdd q n m => add_qubit U g q n m
  | ORemove r => remove_qubit g r
  | OIndex => let '(g', r) := index_generator g in (g', bind r (fun _ => Ok tt))
  | OAdj s => let '(g', r) := adj_generator g s in (g', bind r (fun _ => Ok tt))
  end.
(* neighbours given as positions are nodes of the graph *)
Definition known_neighbors (g : eg) (o : op) : Prop :=
  match o with OAdd _ (NTuples l) _ => incl l (e_nodes g) | _ => True end.
Definition is_add (o : op) : bool := match o with OAdd _ _ _ => true | _ => false end.
(* a call that succeeds, or any failing call except add_qubit *)
Definition fine_call (U : Z) (g : eg) (o : op) (g' : eg) : Prop :=
  known_neighbors g o /\ exists r, run U g o = (g', r) /\ (r = Ok tt \/ is_add o = false).
Inductive history (U : Z) : eg -> eg -> Prop :=
  | HNil g : history U g g
  | HStep g o g1 g2 : fine_call U g o g1 -> history U g1 g2 -> history U g g2.
(* a history during which the node p is never removed *)
Inductive history_keeping (U : Z) (p : point) : eg -> eg -> Prop :=
  | KNil g : In p (e_nodes g) -> history_keeping U p g g
  | KStep g o g1 g2 : In p (e_nodes g) -> fine_call U g o g1 -> history_keeping U p g1 g2 -> history_keeping U p g g2.
