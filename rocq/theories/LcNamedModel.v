(* LcNamedModel.v: EGraph.is_lc_equivalent on the graph states of utils/graph_states.py (GraphStateModel). *)
From Coq Require Import String Reals.
From Verif Require Import Base SimModel WeightModel GraphStateModel LinModel.
Open Scope R_scope.

(* Python's < on tuples of three numbers: sorted() in EGraph.index_generator, codes/graphs/egraph.py 146 *)
Definition rltb (p q : rpoint) : bool :=
  let '(x, y, z) := p in let '(x', y', z') := q in
  if Rlt_dec x x' then true else if Rlt_dec x' x then false
  else if Rlt_dec y y' then true else if Rlt_dec y' y then false
  else if Rlt_dec z z' then true else false.
Fixpoint rinsert (p : rpoint) (l : list rpoint) : list rpoint :=
  match l with [] => [p] | q :: l' => if rltb p q then p :: q :: l' else q :: rinsert p l' end.
Definition rsorted (l : list rpoint) : list rpoint := fold_left (fun acc p => rinsert p acc) l [].

(* EGraph.adj_generator(sparse=False) of a graph without adjacency matrix, indices and macronodes, codes/graphs/egraph.py 133-178:
   nx.to_numpy_array with the sorted nodes as nodelist; the edges have no weight attribute, so every edge counts 1 *)
Definition adjacency (g : rgraph) : bmat :=
  let nodelist := rsorted (rg_nodes g) in
  map (fun p => map (fun q => if in_dec pair_eq_dec (p, q) (rg_edges g) then true else if in_dec pair_eq_dec (q, p) (rg_edges g) then true else false) nodelist) nodelist.

(* EGraph.is_lc_equivalent, codes/graphs/egraph.py 356-375, and the first lines of are_lc_equivalent, utils/linalg.py 249-253 *)
Definition is_lc_equivalent (g h : rgraph) (clifford_form : cform) : res (bool * option clifford) :=
  are_lc_equivalent (adjacency g) (adjacency h) clifford_form.
