(* GraphStateModel.v: model of /repo/flamingpy/utils/graph_states.py.
   Coordinates are exact real numbers: cos, sin, pi and the multiplication by 10^5 in round(x, 5) are exact. *)
From Coq Require Import String Reals.
From Verif Require Import Base SimModel WeightModel.
Open Scope R_scope.

(* an EGraph with real coordinates: nodes in insertion order, edges in insertion order
   (the weights are the default and play no role) *)
Definition rpoint : Type := (R * R * R)%type.
Definition rpoint_eq_dec (p q : rpoint) : {p = q} + {p <> q}.
Proof. decide equality; [apply Req_EM_T|decide equality; apply Req_EM_T]. Defined.
Record rgraph := { rg_nodes : list rpoint; rg_edges : list (rpoint * rpoint) }.
Definition empty_rgraph : rgraph := {| rg_nodes := []; rg_edges := [] |}.

(* networkx add_node and add_edge on a simple undirected graph: an end that is missing is added *)
Definition put_node (l : list rpoint) (p : rpoint) : list rpoint := if in_dec rpoint_eq_dec p l then l else l ++ [p].
Definition pair_eq_dec (x y : rpoint * rpoint) : {x = y} + {x <> y}.
Proof. decide equality; apply rpoint_eq_dec. Defined.
Definition add_node (g : rgraph) (p : rpoint) : rgraph := {| rg_nodes := put_node (rg_nodes g) p; rg_edges := rg_edges g |}.
Definition add_edge (g : rgraph) (p q : rpoint) : rgraph :=
  {| rg_nodes := put_node (put_node (rg_nodes g) p) q;
     rg_edges := if in_dec pair_eq_dec (p, q) (rg_edges g) then rg_edges g
                 else if in_dec pair_eq_dec (q, p) (rg_edges g) then rg_edges g else rg_edges g ++ [(p, q)] |}.
Definition adjacent (g : rgraph) (p q : rpoint) : Prop := In (p, q) (rg_edges g) \/ In (q, p) (rg_edges g).

(* _generic_graph_state, graph_states.py 20-26; isinstance(True, int) holds in Python *)
Definition generic_graph_state (n : pyval) : res Z :=
  match n with
  | VInt z => if (z <? 1)%Z then Err ValueError else Ok z
  | VBool b => if (Z.b2z b <? 1)%Z then Err ValueError else Ok (Z.b2z b)
  | _ => Err ValueError
  end.

(* the point on the unit circle at the given angle *)
Definition on_circle (t : R) : rpoint := (cos t, sin t, 0).
(* float(round(x, 5)) *)
Definition round5 (x : R) : R := IZR (round_even (x * 100000)) / 100000.
Definition rounded (t : R) : rpoint := (round5 (cos t), round5 (sin t), 0).
(* 2 * np.pi * i / n *)
Definition turn (i n : Z) : R := 2 * PI * IZR i / IZR n.

(* star_graph, graph_states.py 29-40 *)
Definition star_graph (n : pyval) : res rgraph :=
  bind (generic_graph_state n) (fun n => Ok (
  if (n =? 1)%Z then add_node empty_rgraph (0, 0, 0)
  else fold_left (fun g i => add_edge g (0, 0, 0) (on_circle (turn i (n - 1)))) (py_range 0 (n - 1)) empty_rgraph)).

(* complete_graph, graph_states.py 43-60 *)
Definition complete_graph (n : pyval) : res rgraph :=
  bind (generic_graph_state n) (fun n => Ok (
  if (n =? 1)%Z then add_node empty_rgraph (0, 0, 0)
  else fold_left (fun g i => fold_left (fun g j => add_edge g (rounded (turn i n)) (rounded (turn j n + turn i n))) (py_range 1 (n - i)) g) (py_range 0 n) empty_rgraph)).

(* linear_cluster, graph_states.py 63-72 *)
Definition linear_cluster (n : pyval) : res rgraph :=
  bind (generic_graph_state n) (fun n => Ok (
  if (n =? 1)%Z then add_node empty_rgraph (0, 0, 0)
  else fold_left (fun g i => add_edge g (IZR i, 0, 0) (IZR (i + 1), 0, 0)) (py_range 0 (n - 1)) empty_rgraph)).

(* ring_graph, graph_states.py 75-92: the loop carries the coordinates (x, y) of the last point *)
Definition ring_graph (n : pyval) : res rgraph :=
  bind (generic_graph_state n) (fun n => Ok (
  if (n =? 1)%Z then add_node empty_rgraph (0, 0, 0)
  else fst (fold_left (fun (st : rgraph * (R * R)) i =>
         let '(g, (x, y)) := st in
         let x' := cos (turn i n) in let y' := sin (turn i n) in
         (add_edge g (round5 x, round5 y, 0) (round5 x', round5 y', 0), (x', y')))
       (py_range 1 (n + 1)) (empty_rgraph, (cos 0, sin 0))))).

(* bell, graph_states.py 95-97 *)
Definition bell : res rgraph := linear_cluster (VInt 2).
