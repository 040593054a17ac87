(* VizModel.v: what flamingpy/utils/viz.py hands to matplotlib and plotly when it draws an EGraph or a syndrome: positions,
   colours, texts, limits and titles.  Not modelled: how the libraries render them, sizes and fonts, the text format of
   floats.  Nodes have integer coordinates, as in the graphs of surface codes. *)
From Coq Require Import String.
From Verif Require Import Base Lattice RhgModel SurfaceModel StabGraphModel MwpmModel SimModel.
Open Scope Z_scope.

(* ---------- Python values ---------- *)
(* bool(v) *)
Definition truthy (v : pyval) : bool :=
  match v with
  | VNone => false | VBool b => b | VInt z => negb (z =? 0) | VStr s => negb (String.eqb s "")
  | VTuple l => match l with [] => false | _ => true end
  | VList l => match l with [] => false | _ => true end
  | VDict l => match l with [] => false | _ => true end
  | VFloat s => negb (String.eqb s "0.0" || String.eqb s "-0.0") | VObj _ => true
  end.
(* v == w, for the keys of colour dictionaries.  Simplification: a float never equals an int here. *)
Fixpoint py_eqb (v w : pyval) : bool :=
  let fix all (l m : list pyval) := match l, m with [], [] => true | x :: l', y :: m' => py_eqb x y && all l' m' | _, _ => false end in
  match v, w with
  | VNone, VNone => true
  | VBool a, VBool b => Bool.eqb a b
  | VInt a, VInt b => a =? b
  | VBool a, VInt b => Z.b2z a =? b
  | VInt a, VBool b => a =? Z.b2z b
  | VFloat a, VFloat b => String.eqb a b
  | VStr a, VStr b => String.eqb a b
  | VObj a, VObj b => String.eqb a b
  | VTuple l, VTuple m => all l m
  | _, _ => false
  end.
(* hash(v) raises TypeError for lists and dictionaries, also inside tuples *)
Fixpoint hashable (v : pyval) : bool :=
  match v with VList _ | VDict _ => false | VTuple l => (fix all (l : list pyval) := match l with [] => true | x :: l' => hashable x && all l' end) l | _ => true end.
(* dict.get(key, default) *)
Definition dict_get (d : list (pyval * pyval)) (k default : pyval) : res pyval :=
  if hashable k then Ok (match find (fun kv => py_eqb k (fst kv)) d with Some kv => snd kv | None => default end) else Err TypeError.
(* the attribute dictionary of a node or an edge: .get(key) *)
Definition attr_get (a : dict) (k : string) : pyval := match lookup k a with Some v => v | None => VNone end.

(* an EGraph as the drawing functions read it: egraph.nodes with the attribute dictionaries, egraph.edges (each edge once, in the
   order and orientation of networkx), and egraph.to_indices *)
Record vgraph := { vg_nodes : list (point * dict); vg_edges : list ((point * point) * dict); vg_index : option (list (point * Z)) }.
Definition index_in (l : list (point * Z)) (p : point) : res pyval :=
  match find (fun kv => peqb (fst kv) p) l with Some kv => Ok (VInt (snd kv)) | None => Err KeyError end.

(* ---------- titles ---------- *)
Definition title_dict : list (string * string) :=
  [("p_phase", "Phase error probabilities"); ("p_phase_cond", "Conditional phase error probabilities"); ("hom_val_p", "p-homodyne outcomes");
   ("hom_val_q", "q-homodyne outcomes"); ("bit_val", "Bit values"); ("weight", "Weights"); ("index", "Indices")]%string.
Definition title_of (label : string) : string := match find (fun kv => String.eqb (fst kv) label) title_dict with Some kv => snd kv | None => label end.
(* ", ".join(l) *)
Definition py_join (l : list pyval) : res string :=
  bind (mapM (fun v => match v with VStr s => Ok s | _ => Err TypeError end) l) (fun ss => Ok (join ", " ss)).
(* _get_title, viz.py 218-263, after the label is a single value *)
Definition get_title1 (title label : pyval) : res (option string) :=
  match title with
  | VStr s => Ok (Some s)
  | _ => match label with
         | VStr l => match title with VBool _ => Ok (Some (title_of l)) | _ => Err UnboundLocalError end
         | _ => Ok None
         end
  end.
Definition get_title (title label : pyval) : res (option string) :=
  if negb (truthy title) then Ok None
  else match label with
       | VTuple l | VList l =>
           match l with
           | [] => Err IndexError
           | [x] => get_title1 title x
           | _ => bind (py_join l) (fun s => Ok (Some s))
           end
       | _ => get_title1 title label
       end.

(* ---------- colours ---------- *)
Definition str (s : string) : pyval := VStr s.
(* _get_node_color, viz.py 571-602: attrs is egraph.nodes[node] *)
Definition get_node_color (attrs : dict) (color_nodes : pyval) : res pyval :=
  match color_nodes with
  | VStr s => Ok (str s)
  | VTuple l =>
      match l with
      | [VStr a; VDict d] => dict_get d (attr_get attrs a) (str "black")
      | _ => Err ValueError
      end
  | VBool true | VInt 1 | VFloat "1.0" => Ok (match lookup "color" attrs with Some v => v | None => str "black" end)
  | _ => Ok (str "black")
  end.
(* _get_edge_color, viz.py 657-695: attrs is egraph.edges[edge] *)
Definition get_edge_color (attrs : dict) (color_edges : pyval) : res pyval :=
  match color_edges with
  | VStr s => Ok (str s)
  | VTuple l =>
      match l with
      | [VStr a; VDict d] => dict_get d (attr_get attrs a) VNone
      | _ => Err ValueError
      end
  | VBool true | VInt 1 | VFloat "1.0" => let v := attr_get attrs "color" in Ok (if truthy v then v else str "grey")
  | _ => Ok (str "grey")
  end.

(* ---------- hover texts of the plotly backend ---------- *)
(* str(node) *)
Definition str_node (p : point) : string := py_repr (VTuple [VInt (co AX p); VInt (co AY p); VInt (co AZ p)]).
(* s in t, for strings *)
Fixpoint substring_of (s t : string) : bool :=
  String.prefix s t || match t with EmptyString => false | String _ t' => substring_of s t' end.
(* list.sort() of strings *)
Definition str_leb (s t : string) : bool := match String.compare s t with Gt => false | _ => true end.
Fixpoint insert (s : string) (l : list string) : list string := match l with [] => [s] | t :: l' => if str_leb s t then s :: l else t :: insert s l' end.
Definition sort_strings (l : list string) : list string := fold_right insert [] l.
(* d[k] = v *)
Definition dict_set (k : string) (v : pyval) (d : dict) : dict :=
  match lookup k d with
  | Some _ => map (fun kv => if String.eqb (fst kv) k then (k, v) else kv) d
  | None => d ++ [(k, v)]
  end.
(* `"index" in information`, viz.py 627: raises for values that are not containers *)
Definition mentions_index (information : pyval) : res bool :=
  match information with
  | VStr s => Ok (substring_of "index" s)
  | VTuple l | VList l => Ok (existsb (py_eqb (str "index")) l)
  | VDict l => Ok (existsb (fun kv => py_eqb (str "index") (fst kv)) l)
  | _ => Err TypeError
  end.
(* one entry of the list, 643-646; info_dict.get(key) *)
Definition info_entry (d : dict) (key : pyval) : res string :=
  if hashable key then
    let v := match key with VStr s => attr_get d s | _ => VNone end in
    Ok (match v with VNone => "" | _ => "<br />" ++ py_str key ++ ": " ++ py_str v end)%string
  else Err TypeError.
(* _get_node_info, viz.py 605-654, for the node p with attributes attrs *)
Definition get_node_info (index : option (list (point * Z))) (p : point) (attrs : dict) (information : pyval) : res (option string) :=
  let information := match information with
                     | VStr "all" => VList (str "index" :: map str (sort_strings (map fst attrs)))
                     | _ => information
                     end in
  bind (mentions_index information) (fun m =>
  bind (if m then match index with None => Err TypeError | Some l => bind (index_in l p) (fun i => Ok (dict_set "index" i attrs)) end else Ok attrs) (fun d =>
  match information with
  | VStr s => if String.eqb s "coordinates" then Ok (Some (str_node p)) else Ok (Some (s ++ ": " ++ py_str (attr_get d s))%string)
  | VNone => Ok None
  | VTuple l | VList l => bind (mapM (info_entry d) l) (fun ss => Ok (Some (str_node p ++ String.concat "" ss)%string))
  | _ => Err ValueError
  end)).

(* ---------- draw_EGraph_matplotlib, viz.py 266-349 ---------- *)
(* the axes: limits and ticks; positions are those of the matplotlib axes (x, y, z) *)
Record picture := {
  pc_dots : list (point * pyval);               (* ax.scatter(x, y, z, c=color) *)
  pc_segs : list ((point * point) * pyval);     (* ax.plot([x1, x2], [y1, y2], [z1, z2], color=color) *)
  pc_texts : list (point * pyval);              (* ax.text(x + 0.05, y, z, value): the value next to the point *)
  pc_lims : (Z * Z) * (Z * Z) * (Z * Z);        (* plt.xlim, plt.ylim, ax.set_zlim *)
  pc_ticks : list Z * list Z * list Z;
  pc_title : option string;
  pc_legend : list (pyval * pyval)              (* label, colour *)
}.
(* x, z, y = node; ax.scatter(x, y, z), 530-533; likewise 481-483 *)
Definition shown (p : point) : point := (co AX p, co AZ p, co AY p).
(* `value < 0` of a label, 538-539: only numbers can be compared *)
Definition is_number (v : pyval) : bool := match v with VBool _ | VInt _ | VFloat _ => true | _ => false end.

(* the value of the label at a node, 536 *)
Definition label_value (indices : list (point * Z)) (p : point) (attrs : dict) (label : pyval) : res pyval :=
  match label with
  | VStr s => if String.eqb s "index" then index_in indices p else Ok (attr_get attrs s)
  | _ => if hashable label then Ok VNone else Err TypeError
  end.
(* _plot_EGraph_nodes, 488-568: dots, texts, number of nodes without a value *)
Definition plot_node (indices : list (point * Z)) (color_nodes label : pyval) (n : point * dict) : res ((point * pyval) * option (point * pyval)) :=
  bind (get_node_color (snd n) color_nodes) (fun c =>
  let dot := (shown (fst n), c) in
  if truthy label then
    bind (label_value indices (fst n) (snd n) label) (fun v =>
      match v with
      | VNone => Ok (dot, None)
      | _ => if is_number v then Ok (dot, Some (shown (fst n), v)) else Err TypeError
      end)
  else Ok (dot, None)).
Definition opt_list {A} (o : option A) : list A := match o with Some a => [a] | None => [] end.
(* the legend, 554-564 *)
Definition node_legend (color_nodes : pyval) (legend : bool) : list (pyval * pyval) :=
  match color_nodes with VTuple [VStr _; VDict d] => if legend then d else [] | _ => [] end.
Definition plot_nodes (g : vgraph) (indices : list (point * Z)) (color_nodes label : pyval) (name : option string) (legend : bool)
    : res (list (point * pyval) * list (point * pyval) * list (pyval * pyval)) :=
  bind (mapM (plot_node indices color_nodes label) (vg_nodes g)) (fun l =>
  let texts := flat_map (fun a => opt_list (snd a)) l in
  let missing := Nat.ltb (List.length texts) (List.length l) in
  if truthy label && missing then
    match name with
    | Some _ => Ok (map fst l, texts, node_legend color_nodes legend)      (* print(message.format(name.lower(), ...)) *)
    | None => Err AttributeError                                           (* None.lower() *)
    end
  else Ok (map fst l, texts, node_legend color_nodes legend)).
(* _plot_EGraph_edges, 460-485 *)
Definition plot_edges (g : vgraph) (color_edges : pyval) : res (list ((point * point) * pyval)) :=
  mapM (fun e => bind (get_edge_color (snd e) color_edges) (fun c => Ok ((shown (fst (fst e)), shown (snd (fst e))), c))) (vg_edges g).

(* min and max over the nodes, 300-305, and the tick ranges and limits, 327-339 *)
Definition extent (l : list point) (a : axis) : Z * Z := (lmin (map (co a) l), lmax (map (co a) l)).
Definition ticks (lim : Z * Z) : list Z := py_range (fst lim) (snd lim + 1).
Definition widened (lim : Z * Z) : Z * Z := if fst lim =? snd lim then (fst lim - 1, snd lim + 1) else lim.
(* draw_EGraph_matplotlib: `indices` is the dictionary that index_generator() returns; dims is the keyword `dimensions`.  The
   unpacking in 307 fails when there is no node. *)
Definition draw_matplotlib (g : vgraph) (indices : list (point * Z)) (color_nodes color_edges label title : pyval) (legend : bool)
    (dims : option ((Z * Z) * (Z * Z) * (Z * Z))) : res picture :=
  bind (match dims with
        | Some d => Ok d
        | None => match vg_nodes g with
                  | [] => Err ValueError
                  | _ => let e := extent (map fst (vg_nodes g)) in Ok (e AX, e AY, e AZ)
                  end
        end) (fun d =>
  let '(xlim, ylim, zlim) := d in
  bind (get_title title label) (fun t =>
  bind (plot_nodes g indices color_nodes label t legend) (fun nodes =>
  bind (plot_edges g color_edges) (fun segs =>
  Ok {| pc_dots := fst (fst nodes); pc_segs := segs; pc_texts := snd (fst nodes);
        pc_lims := (widened xlim, widened zlim, widened ylim); pc_ticks := (ticks xlim, ticks zlim, ticks ylim);
        pc_title := match t with Some s => if String.eqb s "" then None else Some s | None => None end;
        pc_legend := snd nodes |})))).

(* ---------- syndrome_plot, viz.py 811-945 ---------- *)
(* a box: lower corner and edge lengths, in hundredths; and its colour *)
Record box := { bx_lo : point; bx_size : point; bx_color : string }.
Definition red : string := "#FF000015".
Definition green : string := "#00FF0015".
(* Stabilizer.xlims, ylims, zlims, stabilizer.py 61-77 *)
Definition lims (phys : list point) (a : axis) : Z * Z := (lmin (map (co a) phys), lmax (map (co a) phys)).
(* Stabilizer.parity, stabilizer.py 43-55, when the value may be missing: bits are the values of "bit_val" *)
Definition parity (bits : point -> option Z) (st : list point) : res bool :=
  bind (mapM (fun p => match bits p with Some z => Ok z | None => Err KeyError end) st) (fun l => Ok (Z.odd (fold_right Z.add 0 l))).
(* 884-905: gap = 0.15 *)
Definition stab_box (bits : point -> option Z) (cube : list point * list point) : res box :=
  bind (parity bits (snd cube)) (fun odd =>
  let lo a := 100 * fst (lims (fst cube) a) + 15 in
  let size a := 100 * Z.abs (snd (lims (fst cube) a) - fst (lims (fst cube) a)) - 2 * 15 in
  Ok {| bx_lo := (lo AX, lo AY, lo AZ); bx_size := (size AX, size AY, size AZ); bx_color := if odd then red else green |}).

(* _cuboid_data, 978-998: the corners of the six faces of a box *)
Definition unit_faces : list (list point) :=
  [[(0, 1, 0); (0, 0, 0); (1, 0, 0); (1, 1, 0)];
   [(0, 0, 0); (0, 0, 1); (1, 0, 1); (1, 0, 0)];
   [(1, 0, 1); (1, 0, 0); (1, 1, 0); (1, 1, 1)];
   [(0, 0, 1); (0, 0, 0); (0, 1, 0); (0, 1, 1)];
   [(0, 1, 0); (0, 1, 1); (1, 1, 1); (1, 1, 0)];
   [(0, 1, 1); (0, 0, 1); (1, 0, 1); (1, 1, 1)]].
Definition cuboid_data (origin size : point) : list (list point) :=
  map (map (fun v => (co AX v * co AX size + co AX origin, co AY v * co AY size + co AY origin, co AZ v * co AZ size + co AZ origin))) unit_faces.
(* _plot_cubes_at, 948-975: the polygons with their colours; np.concatenate refuses an empty list *)
Definition plot_cubes (boxes : list box) : res (list (list point * string)) :=
  match boxes with
  | [] => Err ValueError
  | _ => let polys := List.concat (map (fun b => cuboid_data (bx_lo b) (bx_size b)) boxes) in
         let colors := flat_map (fun b => repeat (bx_color b) 6) boxes in
         Ok (combine polys colors)
  end.

Record syndrome_picture := {
  sp_nodes : option picture;                    (* the picture of the graph, with show_nodes *)
  sp_polys : list (list point * string);        (* the faces of the boxes *)
  sp_texts : list (point * Z);                  (* ax.text(xmid, ymid, zmid, index): position in halves *)
  sp_bound : list (point * Z);                  (* labelled boundary points *)
  sp_lims : (Z * Z) * (Z * Z) * (Z * Z);        (* xlim, ylim, zlim of the axes *)
  sp_title : option string
}.
(* the options of syndrome_plot with their defaults, 845-859; the axes title is ec.capitalize() + " syndrome" *)
Record syn_opts := { so_show_nodes : bool; so_color_nodes : pyval; so_color_edges : pyval; so_label : pyval; so_legend : bool;
                     so_show_title : bool; so_label_stabilizers : bool; so_label_boundary : bool }.
Definition default_opts : syn_opts :=
  {| so_show_nodes := false; so_color_nodes := VTuple [str "state"; VDict [(str "p", VNone); (str "GKP", VNone)]]; so_color_edges := str "k"; so_label := VNone;
     so_legend := true; so_show_title := true; so_label_stabilizers := true; so_label_boundary := false |}.
(* index_dict, None or a dictionary *)
Definition label_of (index_dict : list (snode * Z)) (u : snode) : option Z :=
  match find (fun kv => sneqb (fst kv) u) index_dict with Some kv => Some (snd kv) | None => None end.
Definition syndrome_plot (c : scode) (g : vgraph) (indices : list (point * Z)) (bits : point -> option Z) (index_dict : list (snode * Z)) (o : syn_opts) : res syndrome_picture :=
  bind (if so_show_nodes o then bind (draw_matplotlib g indices (so_color_nodes o) (so_color_edges o) (so_label o) VNone (so_legend o) None) (fun p => Ok (Some p)) else Ok None) (fun nodes =>
  bind (mapM (stab_box bits) (combine (sc_phys c) (sc_stabs c))) (fun boxes =>
  let texts := if so_label_stabilizers o then
                 flat_map (fun ip => match label_of index_dict (NStab (fst ip)) with Some k => [(midpoint2 (snd ip), k)] | None => [] end) (combine (seq 0 (List.length (sc_phys c))) (sc_phys c))
               else [] in
  bind (plot_cubes boxes) (fun polys =>
  bind (if so_label_boundary o && negb (match index_dict with [] => true | _ => false end) then
          mapM (fun p => match label_of index_dict (NPt p) with Some k => Ok (p, k) | None => Err KeyError end) (sc_bound c)
        else Ok []) (fun bound =>
  let ymin := match sc_ec c with EcPrimal => 0 | EcDual => -2 end in
  Ok {| sp_nodes := nodes; sp_polys := polys; sp_texts := texts; sp_bound := bound;
        sp_lims := ((0, 2 * get AX (sc_dims c)), (ymin, 2 * get AY (sc_dims c)), (0, 2 * get AZ (sc_dims c)));
        sp_title := if so_show_title o then Some (match sc_ec c with EcPrimal => "Primal syndrome" | EcDual => "Dual syndrome" end)%string else None |})))).

(* ---------- draw_EGraph_plotly, viz.py 352-457 ---------- *)
(* the trace of the edges has mode="lines", line=dict(color="black"), marker=dict(color=edgeColors), 442-453 *)
Record ply := { ply_nodes : list (point * (pyval * option string)); ply_edges : list (option point); ply_mode : string; ply_line_color : pyval;
                ply_marker_colors : list pyval; ply_title : option string }.
(* nodes[:, 0] of an empty array raises IndexError *)
Definition draw_plotly (g : vgraph) (color_nodes color_edges label title : pyval) : res ply :=
  bind (get_title title label) (fun t =>
  match vg_nodes g with
  | [] => Err IndexError
  | _ =>
      bind (mapM (fun n => get_node_color (snd n) color_nodes) (vg_nodes g)) (fun cs =>
      bind (mapM (fun n => get_node_info (vg_index g) (fst n) (snd n) label) (vg_nodes g)) (fun infos =>
      bind (mapM (fun e => get_edge_color (snd e) color_edges) (vg_edges g)) (fun es =>
      Ok {| ply_nodes := combine (map fst (vg_nodes g)) (combine cs infos);
            ply_edges := flat_map (fun e => [Some (fst (fst e)); Some (snd (fst e)); None]) (vg_edges g);
            ply_mode := "lines"; ply_line_color := str "black"; ply_marker_colors := es; ply_title := t |})))
  end).

(* ---------- SurfaceCode.draw and CVLayer.draw ---------- *)
(* surface_code.py 527-543: the default options; pol_name is polarity.__name__ *)
Definition code_node_colors : pyval := VTuple [str "type"; VDict [(str "primal", str "black"); (str "dual", str "grey")]].
Definition code_edge_colors (pol_name : option string) : pyval :=
  match pol_name with
  | Some s => if String.eqb s "alternating_polarity" then VTuple [str "weight"; VDict [(VInt 1, str "b"); (VInt (-1), str "r")]] else str "grey"
  | None => str "grey"
  end.
(* noise/cv.py 225-234 *)
Definition cv_node_colors : pyval := VTuple [str "state"; VDict [(str "GKP", str "gold"); (str "p", str "blue")]].

(* ---------- add_recovery_drawing, viz.py 1001-1033 ---------- *)
(* the position of a node of the stabilizer graph, 1019-1023, in halves; a connector is a string and its unpacking into x, y, z fails
   ("high") or gives letters instead of numbers ("low", which matplotlib refuses to place among numbers: also an error here) *)
Definition drawn_at (c : scode) (u : snode) : res point :=
  match u with
  | NStab i => Ok (midpoint2 (nth i (sc_phys c) []))
  | NPt p => Ok (2 * co AX p, 2 * co AY p, 2 * co AZ p)
  | NLow | NHigh => Err ValueError
  end.
(* one line for every matched pair that is not a pair of virtual points *)
Definition recovery_lines (c : scode) (mg : list medge) (virt : list mnode) (M : list (mnode * mnode)) : res (list (list point)) :=
  mapM (fun uv => bind (edge_path mg uv) (mapM (drawn_at c))) (filter (fun uv => negb (mmem (fst uv) virt && mmem (snd uv) virt)) M).
