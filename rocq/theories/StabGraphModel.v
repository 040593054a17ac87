(* StabGraphModel.v: model of StabilizerGraph (flamingpy/codes/graphs/stabilizer_graph.py):
   the sequence of its add_node and add_edge calls.  The two backends which receive these
   calls are in BackendModel.v. *)
From Verif Require Import Base Lattice RhgModel SurfaceModel.
Open Scope nat_scope.

(* A node of the stabilizer graph: the strings "low" and "high", a Stabilizer object
   (identified by its position in code.{ec}_stabilizers: Stabilizer defines no __eq__, so
   objects are compared by identity) or a boundary point. *)
Inductive snode := NLow | NHigh | NStab (i : nat) | NPt (p : point).

Definition snode_eq_dec (u v : snode) : {u = v} + {u <> v}.
Proof. decide equality; [apply Nat.eq_dec | apply point_eq_dec]. Defined.
Definition sneqb (u v : snode) : bool := if snode_eq_dec u v then true else false.

(* one add_edge(node1, node2, common_vertex) call; None is the default common_vertex *)
Definition sedge := (snode * snode * option point)%type.

(* mid = int(len(bound_points) / 2); bound_points[:mid]; bound_points[mid:], stabilizer_graph.py 81-87 *)
Definition low_half (bp : list point) : list point := firstn (length bp / 2) bp.
Definition high_half (bp : list point) : list point := skipn (length bp / 2) bp.

(* it.combinations(range(n), 2) *)
Definition combos (n : nat) : list (nat * nat) :=
  flat_map (fun i => map (fun j => (i, j)) (seq (S i) (n - S i))) (seq 0 n).

(* the nodes of the i-th stabilizer; every i used below is in range *)
Definition stab_of (stabs : list (list point)) (i : nat) : list point := nth i stabs [].

(* set(stab1.coords()) & set(stab2.coords()), 296 *)
Definition shared (stabs : list (list point)) (i j : nat) : list point :=
  filter (fun q => pmem q (stab_of stabs j)) (stab_of stabs i).

(* common_vertex.pop(), 298: ch i j is the element popped for the pair (i, j); the set's
   order is not under the program's control, so ch is any choice of shared points. *)
Definition valid_choice (stabs : list (list point)) (ch : nat -> nat -> point) : Prop :=
  forall i j, i < j < length stabs -> shared stabs i j <> [] -> In (ch i j) (shared stabs i j).

(* the add_edge calls of add_low_bound_points / add_high_bound_points, 224-279 *)
Definition conn_edges (low high : list point) : list sedge :=
  map (fun p => (NLow, NPt p, None)) low ++ map (fun p => (NHigh, NPt p, None)) high.

(* the first loop of connect_nodes, 295-298 *)
Definition stab_edges (stabs : list (list point)) (ch : nat -> nat -> point) : list sedge :=
  flat_map (fun ij => match shared stabs (fst ij) (snd ij) with
                      | [] => []
                      | _ => [(NStab (fst ij), NStab (snd ij), Some (ch (fst ij) (snd ij)))]
                      end) (combos (length stabs)).

(* the second loop of connect_nodes, 299-301 *)
Definition point_edges (stabs : list (list point)) (bp : list point) : list sedge :=
  flat_map (fun i => flat_map (fun p => if pmem p (stab_of stabs i) then [(NStab i, NPt p, Some p)] else []) bp)
           (seq 0 (length stabs)).

(* all add_edge calls of StabilizerGraph.__init__, 72-88, in order *)
Definition sg_edges (stabs : list (list point)) (bp : list point) (ch : nat -> nat -> point) : list sedge :=
  conn_edges (low_half bp) (high_half bp)
  ++ stab_edges stabs ch
  ++ point_edges stabs (low_half bp ++ high_half bp).

(* all add_node calls of StabilizerGraph.__init__, in order *)
Definition sg_nodes (stabs : list (list point)) (bp : list point) : list snode :=
  [NLow; NHigh] ++ map NStab (seq 0 (length stabs)) ++ map NPt (low_half bp) ++ map NPt (high_half bp).

(* odd_parity_stabilizers, 304-306 *)
Definition odd_stabs (stabs : list (list point)) (bit : point -> bool) : list nat :=
  filter (fun i => stab_parity bit (stab_of stabs i)) (seq 0 (length stabs)).

(* assign_weights, 321-329, in terms of the weights of the code's nodes: the weight of the
   common vertex, and 0 on the edges of the connectors.  Weights are integers: see MwpmModel
   for fractional ones. *)
Definition sedge_weight (w : point -> Z) (e : sedge) : Z :=
  match snd e with Some q => w q | None => 0%Z end.

(* the edge joins u and v: the graph is undirected *)
Definition same_pair {A} (u v : snode) (e : snode * snode * A) : bool :=
  (sneqb (fst (fst e)) u && sneqb (snd (fst e)) v) || (sneqb (fst (fst e)) v && sneqb (snd (fst e)) u).
Definition smem (u : snode) (l : list snode) : bool := existsb (sneqb u) l.
