(* BackendSpec.v: what it means that the two stabilizer-graph backends hold the same graph (C46). *)
From Verif Require Import Base Lattice RhgModel SurfaceModel StabGraphModel BackendModel.
Open Scope nat_scope.

(* the nodes and the edges added by a sequence of calls *)
Fixpoint hist_nodes (calls : list scall) : list snode :=
  match calls with [] => [] | CNode u :: r => u :: hist_nodes r | CEdge _ :: r => hist_nodes r end.
Fixpoint hist_edges (calls : list scall) : list sedge :=
  match calls with [] => [] | CNode _ :: r => hist_edges r | CEdge e :: r => e :: hist_edges r end.

(* Calls made after N and E were added: no node is added twice, an edge joins two different
   nodes that are there, and no pair is joined twice. *)
Fixpoint well_used (N : list snode) (E : list sedge) (calls : list scall) : Prop :=
  match calls with
  | [] => True
  | CNode u :: r => ~ In u N /\ well_used (N ++ [u]) E r
  | CEdge (u, v, cv) :: r => (In u N /\ In v N /\ u <> v /\ ~ exists x, In (u, v, x) E \/ In (v, u, x) E) /\
                             well_used N (E ++ [(u, v, cv)]) r
  end.

(* the same edges, in any order and in any direction, with the same multiplicities *)
Definition same_edges (a b : list (snode * snode)) : Prop :=
  exists o, Permutation a o /\ Forall2 (fun p q => p = q \/ p = (snd q, fst q)) o b.

(* Everything a caller can ask of the two graphs has the same answer. *)
Record agree {W} (n : nxg W) (r : rxg W) : Prop := {
  ag_nodes : nx_nodes n = rx_nodes r;
  ag_edges : same_edges (nx_edges n) (rx_edges r);
  ag_data : forall u v d, nx_edge_data n u v = Ok d <-> rx_edge_data r u v = Ok d;
  (* whatever order rustworkx reports *)
  ag_nbr : forall u, In u (nx_nodes n) -> exists l, nx_neighbors n u = Ok l /\ rx_neighbors r u (Ok l) /\
             forall l', rx_neighbors r u l' -> exists o, l' = Ok o /\ Permutation o l;
  ag_out : forall u, In u (nx_nodes n) -> exists l, nx_out_edges n u = Ok l /\ rx_out_edges r u (Ok l) /\
             forall l', rx_out_edges r u l' -> exists o, l' = Ok o /\ Permutation o l;
  (* a node that is not there is an error in both *)
  ag_unknown : forall u, ~ In u (nx_nodes n) ->
             nx_neighbors n u = Err NetworkXError /\ (forall l', rx_neighbors r u l' -> l' = Err KeyError) /\
             forall v, nx_edge_data n u v = Err KeyError /\ rx_edge_data r u v = Err KeyError /\
                       nx_edge_data n v u = Err KeyError /\ rx_edge_data r v u = Err KeyError
}.
