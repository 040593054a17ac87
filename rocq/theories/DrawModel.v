(* DrawModel.v: what drawing does to the stabilizer graph of a code: SurfaceCode.draw_stabilizer_graph
   (flamingpy/codes/surface_code.py 545-552), StabilizerGraph.draw (codes/graphs/stabilizer_graph.py 346-353) and
   the removal of nodes, the labels and the drawn graph in flamingpy/utils/viz.py (draw_dec_graph 714-776,
   draw_decoding 1036-1084).  Only the graph handed to matplotlib is modelled, not the picture. *)
From Verif Require Import Base Lattice RhgModel SurfaceModel StabGraphModel BackendModel MwpmModel UfModel.
Open Scope nat_scope.

Section W.
Context {W : Type}.
(* networkx: one iteration of Graph.remove_nodes_from, which skips a node that is not there *)
Definition nx_remove_node (g : nxg W) (u : snode) : nxg W :=
  {| nx_adj := map (fun x => (fst x, filter (fun v => negb (sneqb v u)) (snd x)))
                   (filter (fun x => negb (sneqb (fst x) u)) (nx_adj g));
     nx_data := filter (fun e => negb (sneqb (fst (fst e)) u) && negb (sneqb (snd (fst e)) u)) (nx_data g) |}.
(* graph.graph.remove_nodes_from({"low", "high"}), viz.py 731-733; order is the iteration order of the set *)
Definition nx_remove_nodes (order : list snode) (g : nxg W) : nxg W := fold_left nx_remove_node order g.

(* draw_stabilizer_graph, surface_code.py 545-552, on each backend: the new state of the code's graph, and the graph
   that is drawn.  NxStabilizerGraph.to_nx returns the graph itself (stabilizer_graph.py 337-338), RxStabilizerGraph's
   a new one. *)
Definition nx_draw (zero : W) (node_w : point -> res (option W)) (order : list snode) (g : nxg W) : res (nxg W * nxg W) :=
  bind (nx_assign_weights zero node_w g) (fun g1 =>
    let g2 := nx_remove_nodes order g1 in Ok (g2, g2)).
Definition rx_draw (zero : W) (node_w : point -> res (option W)) (order : list snode) (g : rxg W) : res (rxg W * nxg W) :=
  bind (rx_assign_weights zero node_w g) (fun g1 =>
  bind (rx_to_nx g1) (fun h => Ok (g1, nx_remove_nodes order h))).

(* what a program does to the graph of a code between two decodings: assign_weights(code), or a drawing; the node
   weights at that moment are the argument *)
Inductive vop := VAssign (w : point -> option W) | VDraw (order : list snode) (w : point -> option W).
Definition vop_weights (x : vop) : point -> option W := match x with VAssign w => w | VDraw _ w => w end.
Definition vop_draws (x : vop) : bool := match x with VAssign _ => false | VDraw _ _ => true end.
End W.
Arguments vop : clear implicits.

(* code.graph.nodes[q].get("weight"), as PropsBackend.node_attr *)
Definition node_weight {W} (c : scode) (wq : point -> option W) (q : point) : res (option W) :=
  if pmem q (node_list (sc_graph c)) then Ok (wq q) else Err KeyError.
Definition nx_vop {W} (zero : W) (c : scode) (r : res (nxg W)) (x : vop W) : res (nxg W) :=
  bind r (fun g => match x with
    | VAssign w => nx_assign_weights zero (node_weight c w) g
    | VDraw order w => bind (nx_draw zero (node_weight c w) order g) (fun gd => Ok (fst gd))
    end).
Definition rx_vop {W} (zero : W) (c : scode) (r : res (rxg W)) (x : vop W) : res (rxg W) :=
  bind r (fun g => match x with
    | VAssign w => rx_assign_weights zero (node_weight c w) g
    | VDraw order w => bind (rx_draw zero (node_weight c w) order g) (fun gd => Ok (fst gd))
    end).

(* the labels of the nodes, draw_decoding, viz.py 1047-1049: the position in nodes()[2:] *)
Definition node_label (nodes : list snode) (u : snode) : option nat :=
  let fix go k l := match l with [] => None | x :: l' => if sneqb x u then Some k else go (S k) l' end in
  go 0 (skipn 2 nodes).

(* ------------------------------------------------------------------ *)
(* The decoders on a networkx stabilizer graph as it is, instead of the graph as it was built. *)
Definition nx_sedges {W} (g : nxg W) : list sedge := map (fun e => (fst e, ed_cv (snd e))) (nx_data g).

(* match_graph of MwpmModel (matching.py 97-172); shortest_paths_from_low and shortest_paths_from_high
   (stabilizer_graph.py 398-402) raise networkx.NodeNotFound, written NetworkXError here, when their source is missing *)
Definition nx_match_graph {W} (rp : Z -> Z) (g : nxg W) (w : point -> Z) (o : sp_oracle) (odd : list nat) (has_bound : bool)
    : res (list medge * list mnode) :=
  let E := nx_sedges g in
  match odd with
  | [] => Ok ([], [])
  | _ =>
      bind (mapM (mid_edge rp E w o) (combs odd)) (fun mids =>
      if has_bound then
        if smem NLow (nx_nodes g) && smem NHigh (nx_nodes g) then
          bind (mapM (bound_edge rp E w o) (enumerate odd)) (fun bes =>
          let virt := map me_v bes in
          Ok (mids ++ bes ++ map virt_edge (combs virt), virt))
        else Err NetworkXError
      else Ok (mids, []))
  end.
(* mwpm_decoder, decoders/mwpm/algos.py 50-96 *)
Definition nx_mwpm {W} (rp : Z -> Z) (g : nxg W) (c : scode) (w : point -> Z) (o : sp_oracle)
    (pick : list medge -> list (mnode * mnode)) (bit : point -> bool) : res (list (option point)) :=
  bind (nx_match_graph rp g w o (odd_stabs (sc_stabs c) bit) (has_bound_points (sc_bound c))) (fun gv =>
    qubits_to_flip (nx_sedges g) (fst gv) (snd gv) (pick (fst gv))).
(* uf_decoder, decoders/unionfind/algos.py 228-334; out_edges (stabilizer_graph.py 389-390) reads the graph *)
Definition nx_lib {W} (g : nxg W) (lib : ulib) : ulib :=
  {| l_out := fun u => match nx_neighbors g u with Ok l => l | Err _ => [] end;
     l_nodes := l_nodes lib; l_comps := l_comps lib; l_mst := l_mst lib |}.
Definition nx_uf {W} (g : nxg W) (c : scode) (er : point -> bool) (lib : ulib) (sch : sched) (fuel : nat) (bit : point -> bool)
    : res (list (option point)) :=
  uf_decoder (nx_sedges g) er (fun i => stab_parity bit (stab_of (sc_stabs c) i)) (nx_lib g lib) sch fuel.
(* correct(code, ..., draw=True) on a networkx graph: mwpm_decoder draws between the matching and the reading of the
   common vertices, decoders/mwpm/algos.py 75-96.  The state of the graph afterwards and the qubits to flip.  (The
   assign_weights of the drawing stores the weights that are there.) *)
Definition nx_mwpm_drawing {W} (rp : Z -> Z) (order : list snode) (g : nxg W) (c : scode) (w : point -> Z) (o : sp_oracle)
    (pick : list medge -> list (mnode * mnode)) (bit : point -> bool) : res (nxg W * list (option point)) :=
  bind (nx_match_graph rp g w o (odd_stabs (sc_stabs c) bit) (has_bound_points (sc_bound c))) (fun gv =>
    let M := pick (fst gv) in
    let g' := nx_remove_nodes order g in
    bind (qubits_to_flip (nx_sedges g') (fst gv) (snd gv) M) (fun qs => Ok (g', qs))).
