(* BackendModel.v: the two backends of StabilizerGraph, flamingpy/codes/graphs/stabilizer_graph.py
   356-516, and the methods of StabilizerGraph that go through them: __init__ 72-88, assign_weights
   321-329, real_edges 313-319, to_nx 331-344. *)
From Verif Require Import Base Lattice RhgModel SurfaceModel StabGraphModel.
Open Scope nat_scope.

Section W.
Context {W : Type}.   (* the numbers used as weights *)

(* The attribute dict of an edge: the key "common_vertex" (None is the default value, 376 and
   442) and the key "weight", absent until assign_weights, with a value that is None when the
   code's node has no weight (.get("weight"), 327). *)
Record edata := { ed_cv : option point; ed_w : option (option W) }.
Definition new_data (cv : option point) : edata := {| ed_cv := cv; ed_w := None |}.
Definition set_w (w : option W) (d : edata) : edata := {| ed_cv := ed_cv d; ed_w := Some w |}.

Definition dedge := (snode * snode * edata)%type.
(* ---------------------------------------------------------------- *)
(* NxStabilizerGraph, 356-410, on networkx.Graph: an insertion-ordered dict of insertion-ordered
   dicts of neighbours; the attribute dict of an edge is one object shared by both directions,
   so it is kept once, in nx_data. *)
Record nxg := { nx_adj : list (snode * list snode); nx_data : list dedge }.
Definition nx_empty : nxg := {| nx_adj := []; nx_data := [] |}.

(* nodes(), 373-374 *)
Definition nx_nodes (g : nxg) : list snode := map fst (nx_adj g).

(* add_node, 369-371: nothing happens when the node exists *)
Definition nx_add_node (u : snode) (g : nxg) : nxg :=
  {| nx_adj := if smem u (nx_nodes g) then nx_adj g else nx_adj g ++ [(u, [])]; nx_data := nx_data g |}.

(* adj[u][v] = datadict, a dict assignment: an existing key keeps its place *)
Definition nx_link (u v : snode) (a : list (snode * list snode)) : list (snode * list snode) :=
  map (fun x => if sneqb (fst x) u then (fst x, if smem v (snd x) then snd x else snd x ++ [v]) else x) a.

(* datadict = adj[u].get(v, {}); datadict.update(common_vertex=cv) *)
Fixpoint nx_upd (u v : snode) (cv : option point) (l : list dedge) : list dedge :=
  match l with
  | [] => [(u, v, new_data cv)]
  | e :: l' => if same_pair u v e then (fst e, {| ed_cv := cv; ed_w := ed_w (snd e) |}) :: l'
               else e :: nx_upd u v cv l'
  end.

(* add_edge, 376-378: networkx also adds missing end points *)
Definition nx_add_edge (u v : snode) (cv : option point) (g : nxg) : nxg :=
  let g' := nx_add_node v (nx_add_node u g) in
  {| nx_adj := nx_link v u (nx_link u v (nx_adj g')); nx_data := nx_upd u v cv (nx_data g') |}.

(* edge_data, 380-381: self.graph.edges[(u, v)] *)
Definition nx_edge_data (g : nxg) (u v : snode) : res edata :=
  match find (same_pair u v) (nx_data g) with Some e => Ok (snd e) | None => Err KeyError end.
(* data["weight"] = w on the dict returned by edge_data *)
Definition nx_set_weight (u v : snode) (w : option W) (g : nxg) : nxg :=
  {| nx_adj := nx_adj g;
     nx_data := map (fun e => if same_pair u v e then (fst e, set_w w (snd e)) else e) (nx_data g) |}.

(* edges(), 383-384: the loop of networkx's EdgeView.__iter__, which reports an edge at the
   first of its two end points *)
Fixpoint nx_edge_iter (seen : list snode) (a : list (snode * list snode)) : list (snode * snode) :=
  match a with
  | [] => []
  | (n, nb) :: a' => map (pair n) (filter (fun v => negb (smem v seen)) nb) ++ nx_edge_iter (n :: seen) a'
  end.
Definition nx_edges (g : nxg) : list (snode * snode) := nx_edge_iter [] (nx_adj g).

(* neighbors, 386-387 *)
Definition nx_neighbors (g : nxg) (u : snode) : res (list snode) :=
  match find (fun x => sneqb (fst x) u) (nx_adj g) with Some x => Ok (snd x) | None => Err NetworkXError end.
(* out_edges, 389-390, for a node of the graph (networkx reads any other value as a list of nodes) *)
Definition nx_out_edges (g : nxg) (u : snode) : res (list (snode * snode)) :=
  match find (fun x => sneqb (fst x) u) (nx_adj g) with
  | Some x => Ok (map (pair u) (snd x)) | None => Err NetworkXError end.

(* ---------------------------------------------------------------- *)
(* RxStabilizerGraph, 413-516, on rustworkx.PyGraph: node data by index, parallel edges
   allowed.  node_to_index is an association list in which a later entry shadows an earlier
   one (dict assignment); index_to_node is the list of nodes. *)
Record rxg := { rx_nodes : list snode; rx_index : list (snode * nat); rx_edges_i : list (nat * nat * edata) }.
Definition rx_empty : rxg := {| rx_nodes := []; rx_index := []; rx_edges_i := [] |}.

(* add_node, 433-437 *)
Definition rx_add_node (u : snode) (g : rxg) : rxg :=
  {| rx_nodes := rx_nodes g ++ [u]; rx_index := (u, length (rx_nodes g)) :: rx_index g; rx_edges_i := rx_edges_i g |}.
(* self.node_to_index[node] *)
Definition rx_lookup (g : rxg) (u : snode) : res nat :=
  match find (fun x => sneqb (fst x) u) (rx_index g) with Some x => Ok (snd x) | None => Err KeyError end.
(* add_edge, 442-446 *)
Definition rx_add_edge (u v : snode) (cv : option point) (g : rxg) : res rxg :=
  bind (rx_lookup g u) (fun i => bind (rx_lookup g v) (fun j =>
    Ok {| rx_nodes := rx_nodes g; rx_index := rx_index g; rx_edges_i := rx_edges_i g ++ [(i, j, new_data cv)] |})).
Definition rx_same (i j : nat) (e : nat * nat * edata) : bool :=
  (Nat.eqb (fst (fst e)) i && Nat.eqb (snd (fst e)) j) || (Nat.eqb (fst (fst e)) j && Nat.eqb (snd (fst e)) i).
(* edge_data, 448-451: get_edge_data raises NoEdgeBetweenNodes when there is no edge.  Of
   parallel edges it would return one: there are none in the theorems of C46. *)
Definition rx_edge_data (g : rxg) (u v : snode) : res edata :=
  bind (rx_lookup g u) (fun i => bind (rx_lookup g v) (fun j =>
    match find (rx_same i j) (rx_edges_i g) with Some e => Ok (snd e) | None => Err NoEdgeError end)).
Fixpoint upd_first {A} (P : A -> bool) (f : A -> A) (l : list A) : list A :=
  match l with [] => [] | x :: l' => if P x then f x :: l' else x :: upd_first P f l' end.
Definition rx_set_weight (u v : snode) (w : option W) (g : rxg) : res rxg :=
  bind (rx_lookup g u) (fun i => bind (rx_lookup g v) (fun j =>
    Ok {| rx_nodes := rx_nodes g; rx_index := rx_index g;
          rx_edges_i := upd_first (rx_same i j) (fun e => (fst e, set_w w (snd e))) (rx_edges_i g) |})).
(* self.graph.get_node_data(i) / self.index_to_node[i], for indices in the graph *)
Definition rx_node (g : rxg) (i : nat) : snode := nth i (rx_nodes g) NLow.
(* edges(), 453-457: edge_list() is in the order of insertion *)
Definition rx_edges (g : rxg) : list (snode * snode) :=
  map (fun e => (rx_node g (fst (fst e)), rx_node g (snd (fst e)))) (rx_edges_i g).
(* graph.neighbors(i): every neighbour once, in no specified order; [rx_nbr_i] is one order *)
Definition rx_nbr_i (g : rxg) (i : nat) : list nat :=
  nodup Nat.eq_dec (flat_map (fun e => (if Nat.eqb (fst (fst e)) i then [snd (fst e)] else []) ++
                                       (if Nat.eqb (snd (fst e)) i then [fst (fst e)] else [])) (rx_edges_i g)).
(* neighbors, 459-463: l is a possible result *)
Definition rx_neighbors (g : rxg) (u : snode) (l : res (list snode)) : Prop :=
  match rx_lookup g u with
  | Ok i => exists o, Permutation o (rx_nbr_i g i) /\ l = Ok (map (rx_node g) o)
  | Err e => l = Err e
  end.
(* graph.out_edges(i): the edges at i, i first, in no specified order *)
Definition rx_out_i (g : rxg) (i : nat) : list (nat * nat) :=
  flat_map (fun e => if Nat.eqb (fst (fst e)) i then [(i, snd (fst e))]
                     else if Nat.eqb (snd (fst e)) i then [(i, fst (fst e))] else []) (rx_edges_i g).
(* out_edges, 465-469: l is a possible result *)
Definition rx_out_edges (g : rxg) (u : snode) (l : res (list (snode * snode))) : Prop :=
  match rx_lookup g u with
  | Ok i => exists o, Permutation o (rx_out_i g i) /\
                      l = Ok (map (fun e => (rx_node g (fst e), rx_node g (snd e))) o)
  | Err e => l = Err e
  end.

(* ---------------------------------------------------------------- *)
(* StabilizerGraph.__init__, 72-88, as calls of the backend: each boundary point is added just
   before its connector edge (224-279). *)
Inductive scall := CNode (u : snode) | CEdge (e : sedge).
Definition sg_calls (stabs : list (list point)) (bp : list point) (ch : nat -> nat -> point) : list scall :=
  [CNode NLow; CNode NHigh]
  ++ map (fun i => CNode (NStab i)) (seq 0 (length stabs))
  ++ flat_map (fun p => [CNode (NPt p); CEdge (NLow, NPt p, None)]) (low_half bp)
  ++ flat_map (fun p => [CNode (NPt p); CEdge (NHigh, NPt p, None)]) (high_half bp)
  ++ map CEdge (stab_edges stabs ch)
  ++ map CEdge (point_edges stabs (low_half bp ++ high_half bp)).
Definition nx_call (g : nxg) (c : scall) : nxg :=
  match c with CNode u => nx_add_node u g | CEdge (u, v, cv) => nx_add_edge u v cv g end.
Definition nx_build (calls : list scall) : nxg := fold_left nx_call calls nx_empty.
Definition rx_call (r : res rxg) (c : scall) : res rxg :=
  bind r (fun g => match c with CNode u => Ok (rx_add_node u g) | CEdge (u, v, cv) => rx_add_edge u v cv g end).
Definition rx_build (calls : list scall) : res rxg := fold_left rx_call calls (Ok rx_empty).

(* ---------------------------------------------------------------- *)
(* the filter of real_edges, 313-319 *)
Definition not_connector (u : snode) : bool := match u with NLow | NHigh => false | _ => true end.
Definition real_edges (es : list (snode * snode)) : list (snode * snode) :=
  filter (fun e => not_connector (fst e) && not_connector (snd e)) es.

(* The weight assign_weights stores on an edge with that data, 324-329: None when neither branch
   is taken.  node_w q is code.graph.nodes[q].get("weight"), KeyError if q is not a node. *)
Definition weight_of (zero : W) (node_w : point -> res (option W)) (u v : snode) (d : edata) :
  res (option (option W)) :=
  match ed_cv d with
  | Some q => bind (node_w q) (fun w => Ok (Some w))
  | None => if not_connector u && not_connector v then Ok None else Ok (Some (Some zero))
  end.
(* assign_weights, 321-329, on the two backends; edges() is evaluated before the loop *)
Definition nx_assign1 (zero : W) (node_w : point -> res (option W)) (r : res nxg) (e : snode * snode) : res nxg :=
  bind r (fun g => bind (nx_edge_data g (fst e) (snd e)) (fun d =>
    bind (weight_of zero node_w (fst e) (snd e) d) (fun o =>
      match o with Some w => Ok (nx_set_weight (fst e) (snd e) w g) | None => Ok g end))).
Definition nx_assign_weights (zero : W) (node_w : point -> res (option W)) (g : nxg) : res nxg :=
  fold_left (nx_assign1 zero node_w) (nx_edges g) (Ok g).
Definition rx_assign1 (zero : W) (node_w : point -> res (option W)) (r : res rxg) (e : snode * snode) : res rxg :=
  bind r (fun g => bind (rx_edge_data g (fst e) (snd e)) (fun d =>
    bind (weight_of zero node_w (fst e) (snd e) d) (fun o =>
      match o with Some w => rx_set_weight (fst e) (snd e) w g | None => Ok g end))).
Definition rx_assign_weights (zero : W) (node_w : point -> res (option W)) (g : rxg) : res rxg :=
  fold_left (rx_assign1 zero node_w) (rx_edges g) (Ok g).

(* to_nx, 331-344, of the rustworkx graph: a new NxStabilizerGraph() has the nodes "low" and
   "high" (73-74) *)
Definition rx_to_nx1 (g : rxg) (r : res nxg) (e : snode * snode) : res nxg :=
  bind r (fun h => bind (rx_edge_data g (fst e) (snd e)) (fun d =>
    let h' := nx_add_edge (fst e) (snd e) (ed_cv d) h in
    match ed_w d with
    | Some w => bind (nx_edge_data h' (fst e) (snd e)) (fun _ => Ok (nx_set_weight (fst e) (snd e) w h'))
    | None => Ok h'
    end)).
Definition rx_to_nx (g : rxg) : res nxg :=
  fold_left (rx_to_nx1 g) (rx_edges g) (Ok (nx_add_node NHigh (nx_add_node NLow nx_empty))).

(* The graph searched by shortest_paths_without_high_low: networkx, 392-396, the subgraph on
   the stabilizers and the boundary points, as the pairs it joins ... *)
Definition nx_sub_edges (g : nxg) (keep : list snode) : list (snode * snode) :=
  filter (fun e => smem (fst e) keep && smem (snd e) keep) (nx_edges g).
(* ... and rustworkx, 471-475: a copy without the nodes of index 0 and 1 *)
Definition rx_sub_edges (g : rxg) : list (snode * snode) :=
  map (fun e => (rx_node g (fst (fst e)), rx_node g (snd (fst e))))
      (filter (fun e => (1 <? fst (fst e)) && (1 <? snd (fst e))) (rx_edges_i g)).
End W.
Arguments edata : clear implicits.
Arguments nxg : clear implicits.
Arguments rxg : clear implicits.
Arguments dedge : clear implicits.
