(* MacroSpec.v: what a macronode graph of a graph is (C32). *)
From Verif Require Import Base Lattice RhgModel MacroModel.
Open Scope Z_scope.

(* es lists the edges of g, each of them once, in some order and orientation *)
Definition edge_enum (g : egr) (es : list ((point * point) * eattr)) : Prop :=
  NoDup (map fst es) /\
  (forall u v, In (u, v) (map fst es) -> In (v, u) (map fst es) -> False) /\
  forall u v t, edge_attr g u v = Some t <-> In ((u, v), t) es \/ In ((v, u), t) es.

(* x is a micronode of the vertex v *)
Definition micronode (m : macro) (v x : point) : Prop := exists l, In (v, l) (m_dict m) /\ In x l.

(* m is a macronode version of g, with coordinates in units of 1/U *)
Record macronized (U : Z) (g : egr) (es : list ((point * point) * eattr)) (pad : bool) (m : macro) : Prop := {
  (* every vertex has a macronode, of as many distinct micronodes as it has neighbours, or padded to 4 *)
  mz_keys : NoDup (map fst (m_dict m)) /\ forall v, In v (map fst (m_dict m)) <-> In v (node_list g);
  mz_size : forall v l, In (v, l) (m_dict m) -> NoDup l /\ length l = if pad then Nat.max 4 (length (nbrs g v)) else length (nbrs g v);
  (* the nodes are the micronodes, with the type of their vertex; they round to their vertex *)
  mz_nodes : NoDup (node_list (m_graph m)) /\ forall x, In x (node_list (m_graph m)) <-> exists v, micronode m v x;
  mz_type : forall v x, micronode m v x -> node_type (m_graph m) x = node_type g v;
  mz_round : forall v x, micronode m v x -> forall i, 2 * Z.abs (co i x - U * co i v) < U;
  (* each edge becomes an edge with the same attributes between a micronode of either end, and no
     micronode is in two edges *)
  mz_edges : Forall2 (fun e e' => micronode m (fst (fst e)) (fst (fst e')) /\ micronode m (snd (fst e)) (snd (fst e')) /\ snd e' = snd e) es (gedges (m_graph m));
  mz_single : NoDup (flat_map (fun e => [fst (fst e); snd (fst e)]) (gedges (m_graph m)))
}.
