(* MacroModel.v: model of macronize, flamingpy/codes/graphs/egraph.py 26-98, and of EGraph.macronize,
   196-201.  The displacement disp is the rational a / b with b > 0.  Arithmetic is exact: the
   coordinates of the new nodes are integers counted in units of 1/U, where U = 10 ^ m and m is the
   number of decimals to which the displacement is rounded (so U is at least 100 and 0.05 is U / 20).
   Floating-point error is not modelled.  Not modelled: graphs with self-loops (the code divides by
   zero and makes nodes at nan), node and edge attributes other than type, weight and periodic, graph
   attributes other than perfect_points and macro_dict. *)
From Verif Require Import Base Lattice RhgModel EgraphModel.
Open Scope Z_scope.

(* int(np.log10(disp)), negated: the largest k such that disp * 10^k <= 1 *)
Fixpoint log_steps (fuel : nat) (a b : Z) : nat :=
  match fuel with O => O | S f => if 10 * a <=? b then S (log_steps f (10 * a) b) else O end.
(* -int(np.log10(disp)) + 2, line 66 *)
Definition decimals (a b : Z) : nat := 2 + log_steps (Z.to_nat b) a b.
Definition unit_of (a b : Z) : Z := 10 ^ Z.of_nat (decimals a b).

(* np.round to an integer of the square root of n / d: to nearest, to even in case of a tie *)
Definition round_sqrt (n d : Z) : Z :=
  let s := Z.sqrt (4 * n / d) in
  let q := s / 2 in
  if Z.even s then q else if s * s * d =? 4 * n then (if Z.even q then q else q + 1) else q + 1.
(* one component of shortened_vec, 62-66, in units of 1/U: v is the component of direction_vec, n the
   square of its norm *)
Definition shorten (a b : Z) (per : bool) (n v : Z) : Z :=
  (if per then -1 else 1) * Z.sgn v * round_sqrt ((a * unit_of a b * v) ^ 2) (b ^ 2 * n).
Definition minus (q p : point) : point := (co AX q - co AX p, co AY q - co AY p, co AZ q - co AZ p).
Definition norm2 (v : point) : Z := co AX v ^ 2 + co AY v ^ 2 + co AZ v ^ 2.
Definition shortened_vec (a b : Z) (per : bool) (p q : point) : point :=
  let d := minus q p in let f := shorten a b per (norm2 d) in (f (co AX d), f (co AY d), f (co AZ d)).
Definition shifted (U : Z) (p : point) (sgn : Z) (s : point) : point :=
  (U * co AX p + sgn * co AX s, U * co AY p + sgn * co AY s, U * co AZ p + sgn * co AZ s).
(* 67-68 *)
Definition new_point_1 (a b : Z) (e : (point * point) * eattr) : point :=
  shifted (unit_of a b) (fst (fst e)) 1 (shortened_vec a b (eperiodic (snd e)) (fst (fst e)) (snd (fst e))).
Definition new_point_2 (a b : Z) (e : (point * point) * eattr) : point :=
  shifted (unit_of a b) (snd (fst e)) (-1) (shortened_vec a b (eperiodic (snd e)) (fst (fst e)) (snd (fst e))).

Record macro := {
  m_graph : egr;                                (* nodes and edges of macro_graph *)
  m_dict : list (point * list point);           (* macro_graph.graph["macro_dict"], keyed by the old vertex *)
  m_perf : option (list point)                  (* macro_graph.graph.get("perfect_points") *)
}.
(* macro_graph.add_node(p, **attributes) *)
Definition put_node (p : point) (t : option ntyp) (g : egr) : egr :=
  {| gnodes := match t with Some t => upd_node p t (gnodes g) | None => ensure_node p (gnodes g) end; gedges := gedges g |}.
(* if not macro_dict.get(k): macro_dict[k] = []; macro_dict[k].append(x) *)
Definition dappend (d : list (point * list point)) (k x : point) : list (point * list point) :=
  dset peqb d k (match dget peqb d k with Some l => l ++ [x] | None => [x] end).
(* the loop body, 59-79 *)
Definition split_edge (g : egr) (a b : Z) (st : egr * list (point * list point)) (e : (point * point) * eattr) : egr * list (point * list point) :=
  let '(mg, d) := st in
  let x1 := new_point_1 a b e in
  let x2 := new_point_2 a b e in
  let mg1 := put_node x2 (node_type g (snd (fst e))) (put_node x1 (node_type g (fst (fst e))) mg) in
  (add_edge x1 x2 (eweight (snd e)) (eperiodic (snd e)) mg1,
   dappend (dappend d (fst (fst e)) x1) (snd (fst e)) x2).
(* one padding node, 86-90 *)
Definition pad_point (U : Z) (v : point) (i : axis) : point :=
  setco i (U * co i v + U / 20) (U * co AX v, U * co AY v, U * co AZ v).
(* 81-90 *)
Definition pad_vertex (U : Z) (st : egr * list (point * list point)) (v : point * option ntyp) : res (egr * list (point * list point)) :=
  match dget peqb (snd st) (fst v) with
  | None => Err KeyError
  | Some l => Ok (fold_left (fun st i => (put_node (pad_point U (fst v) i) (snd v) (fst st), dappend (snd st) (fst v) (pad_point U (fst v) i)))
                            (firstn (4 - length l) axes) st)
  end.
Fixpoint pad_all (U : Z) (st : egr * list (point * list point)) (vs : list (point * option ntyp)) : res (egr * list (point * list point)) :=
  match vs with [] => Ok st | v :: vs' => bind (pad_vertex U st v) (fun st' => pad_all U st' vs') end.
(* macronize(can_graph, pad_boundary, a / b), 56-98.  es is can_graph.edges in the order and with the
   orientation in which networkx lists it; perf is can_graph.graph.get("perfect_points"). *)
Definition macronize (g : egr) (es : list ((point * point) * eattr)) (perf : option (list point)) (pad : bool) (a b : Z) : res macro :=
  if (b <=? 2 * a) || (a <? 0) then Err ValueError
  else if (a =? 0) && nonempty es then Err OverflowError              (* int(-inf) *)
  else
    let st := fold_left (split_edge g a b) es (empty_graph, []) in
    bind (if pad then pad_all (unit_of a b) st (gnodes g) else Ok st) (fun st' =>
    bind (match perf with
          | Some (p :: ps) => bind (mapR (fun q => match dget peqb (snd st') q with Some l => Ok l | None => Err KeyError end) (p :: ps)) (fun ls => Ok (Some (concat ls)))
          | other => Ok other
          end) (fun perf' =>
    Ok {| m_graph := fst st'; m_dict := snd st'; m_perf := perf' |})).

(* EGraph(macronize(self, ...), macronodes=True), 201, as an object of EgraphModel.v (the keys of the
   dictionary are then in units of 1/U as well) *)
Definition macro_egraph (U : Z) (m : macro) : eg :=
  new_egraph (node_list (m_graph m)) (map (fun e => (fst e, eweight (snd e))) (gedges (m_graph m))) true
    (Some (map (fun e => ((U * co AX (fst e), U * co AY (fst e), U * co AZ (fst e)), snd e)) (m_dict m))).
