(* WeightedModel.v: graphs with arbitrary real edge weights (a polarity function may return any number): what
   EGraph.adj_generator makes of them. *)
From Coq Require Import Reals ZArith List.
From Verif Require Import Base Lattice GkpModel OpsModel OpsNdModel EgraphModel.
Import ListNotations.
Open Scope R_scope.

(* conversion of a number to int8: the fraction is dropped (-128 .. 127); outside, the result depends on the platform *)
Definition int8 (other : R -> Z) (w : R) : Z :=
  if Rlt_dec (-129) w then if Rlt_dec w 128 then truncR w else other w else other w.
(* EGraph.adj_generator, egraph.py 172-176: to_scipy_sparse_array(..., dtype=np.int8) and to_numpy_array(..., dtype=np.int8).
   The matrix is that of the graph with converted weights; everything else of EgraphModel looks at the nodes and at
   whether there is an edge. *)
Definition converted (other : R -> Z) (es : list (point * point * R)) : list (point * point * Z) :=
  map (fun e => (fst (fst e), snd (fst e), int8 other (snd e))) es.
Definition weighted_egraph (other : R -> Z) (ns : list point) (es : list (point * point * R)) (macronodes : bool) (macro_dict : option (list (point * list point))) : eg :=
  new_egraph ns (converted other es) macronodes macro_dict.
