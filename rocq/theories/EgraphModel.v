(* EgraphModel.v: model of the class EGraph, flamingpy/codes/graphs/egraph.py 107-355.
   Coordinates are integers counted in units of 1/U for a positive integer U (the integer
   coordinate c of the code is U * c here), so that micronodes have integer coordinates too.  A
   Python dictionary is the list of its items in insertion order.  Methods return the object
   after the call together with the result or the exception, so that a failing call may leave
   changes behind.  Not modelled: drawing, and mutation through inherited networkx methods. *)
From Verif Require Import Base Lattice.
Open Scope Z_scope.

(* ---------------- dictionaries ---------------- *)
Section Dict.
  Context {K V : Type} (eqb : K -> K -> bool).
  Fixpoint dget (d : list (K * V)) (k : K) : option V :=
    match d with [] => None | (k', v) :: d' => if eqb k' k then Some v else dget d' k end.
  (* d[k] = v *)
  Fixpoint dset (d : list (K * V)) (k : K) (v : V) : list (K * V) :=
    match d with [] => [(k, v)] | (k', v') :: d' => if eqb k' k then (k', v) :: d' else (k', v') :: dset d' k v end.
  (* d.pop(k), for a key that is present *)
  Definition dpop (d : list (K * V)) (k : K) : list (K * V) := filter (fun e => negb (eqb (fst e) k)) d.
  (* {k: v for k, v in l} *)
  Definition dict_of (l : list (K * V)) : list (K * V) := fold_left (fun d e => dset d (fst e) (snd e)) l [].
End Dict.

(* ---------------- the object ---------------- *)
Record eg := {
  e_nodes : list point;                                (* self.nodes *)
  e_edges : list (point * point * Z);                  (* self.edges, with the weight attribute (1 if absent) *)
  e_macro : bool;                                      (* self._macronodes *)
  e_m2m : option (list (point * list point));          (* self.macro_to_micro *)
  e_idx : option (list (point * nat));                 (* self.to_indices *)
  e_pts : option (list (nat * point));                 (* self.to_points *)
  e_adj : option (list (list Z))                       (* self.adj_mat, its entries *)
}.
Definition set_graph (g : eg) (ns : list point) (es : list (point * point * Z)) : eg :=
  {| e_nodes := ns; e_edges := es; e_macro := e_macro g; e_m2m := e_m2m g; e_idx := e_idx g; e_pts := e_pts g; e_adj := e_adj g |}.
Definition set_m2m (g : eg) (m : option (list (point * list point))) : eg :=
  {| e_nodes := e_nodes g; e_edges := e_edges g; e_macro := e_macro g; e_m2m := m; e_idx := e_idx g; e_pts := e_pts g; e_adj := e_adj g |}.
Definition set_dicts (g : eg) (i : option (list (point * nat))) (p : option (list (nat * point))) : eg :=
  {| e_nodes := e_nodes g; e_edges := e_edges g; e_macro := e_macro g; e_m2m := e_m2m g; e_idx := i; e_pts := p; e_adj := e_adj g |}.
Definition set_adj (g : eg) (a : option (list (list Z))) : eg :=
  {| e_nodes := e_nodes g; e_edges := e_edges g; e_macro := e_macro g; e_m2m := e_m2m g; e_idx := e_idx g; e_pts := e_pts g; e_adj := a |}.
(* EGraph(graph, macronodes=...), 123-131: the nodes and edges of a networkx graph and its
   graph["macro_dict"] *)
Definition new_egraph (ns : list point) (es : list (point * point * Z)) (macronodes : bool) (macro_dict : option (list (point * list point))) : eg :=
  {| e_nodes := ns; e_edges := es; e_macro := macronodes; e_m2m := if macronodes then macro_dict else None; e_idx := None; e_pts := None; e_adj := None |}.

(* networkx *)
Definition has_n (g : eg) (p : point) : bool := pmem p (e_nodes g).
Definition is_edge (u v : point) (e : point * point * Z) : bool :=
  (peqb (fst (fst e)) u && peqb (snd (fst e)) v) || (peqb (fst (fst e)) v && peqb (snd (fst e)) u).
(* the weight of the edge, 0 if there is none: an entry of the adjacency matrix (the conversion to
   int8 is the identity for weights between -128 and 127) *)
Definition weight (g : eg) (u v : point) : Z := match find (is_edge u v) (e_edges g) with Some e => snd e | None => 0 end.
Definition add_n (p : point) (ns : list point) : list point := if pmem p ns then ns else ns ++ [p].
(* add_edge(u, v) without attributes *)
Definition add_e (g : eg) (u v : point) : eg :=
  set_graph g (add_n v (add_n u (e_nodes g))) (if existsb (is_edge u v) (e_edges g) then e_edges g else e_edges g ++ [(u, v, 1)]).
(* remove_node(p), for a node of the graph *)
Definition remove_n (g : eg) (p : point) : eg :=
  set_graph g (filter (fun q => negb (peqb q p)) (e_nodes g)) (filter (fun e => negb (peqb (fst (fst e)) p) && negb (peqb (snd (fst e)) p)) (e_edges g)).

(* sorted() of tuples: insertion sort for the lexicographic order *)
Definition ple (p q : point) : bool :=
  let '(x, y, z) := p in let '(x', y', z') := q in
  (x <? x') || ((x =? x') && ((y <? y') || ((y =? y') && (z <=? z')))).
Fixpoint insert (p : point) (l : list point) : list point :=
  match l with [] => [p] | q :: l' => if ple p q then p :: l else q :: insert p l' end.
Definition sorted (l : list point) : list point := fold_right insert [] l.

Fixpoint mapR {A B} (f : A -> res B) (l : list A) : res (list B) :=
  match l with [] => Ok [] | x :: l' => bind (f x) (fun y => bind (mapR f l') (fun ys => Ok (y :: ys))) end.

(* index_generator, 133-158.  self.macro_to_micro is None (a macronode graph without macro_dict):
   sorted(None) raises TypeError. *)
Definition ind_dict (g : eg) : res (list (point * nat)) :=
  let N := length (e_nodes g) in
  if negb (e_macro g) then Ok (dict_of peqb (combine (sorted (e_nodes g)) (seq 0 N)))
  else match e_m2m g with
       | None => Err TypeError
       | Some m =>
           let points := flat_map (fun v => match dget peqb m v with Some l => l | None => [] end) (sorted (map fst m)) in
           if (length points <? N)%nat then Err IndexError
           else Ok (dict_of peqb (map (fun i => (nth i points (0, 0, 0), i)) (seq 0 N)))
       end.
Definition index_generator (g : eg) : eg * res (list (point * nat)) :=
  match e_idx g with
  | Some d => (g, Ok d)
  | None => match ind_dict g with
            | Err e => (g, Err e)
            | Ok d => (set_dicts g (Some d) (Some (dict_of Nat.eqb (map (fun e => (snd e, fst e)) d))), Ok d)
            end
  end.

(* nx.to_scipy_sparse_array / nx.to_numpy_array with a nodelist: NetworkXError for nodes that are
   not in the graph and for duplicates, and for the empty graph in the sparse case *)
Fixpoint nodupb (l : list point) : bool := match l with [] => true | p :: l' => negb (pmem p l') && nodupb l' end.
Definition to_array (g : eg) (sparse : bool) (nodelist : list point) : res (list (list Z)) :=
  if sparse && (length nodelist =? 0)%nat then Err NetworkXError
  else if forallb (has_n g) nodelist && nodupb nodelist then Ok (map (fun u => map (weight g u) nodelist) nodelist)
  else Err NetworkXError.
(* adj_generator, 160-183 *)
Definition adj_generator (g : eg) (sparse : bool) : eg * res (list (list Z)) :=
  match e_adj g with
  | Some a => (g, Ok a)
  | None =>
      let '(g1, r) := match e_pts g with None => let '(g1, r) := index_generator g in (g1, bind r (fun _ => Ok tt)) | Some _ => (g, Ok tt) end in
      match r with
      | Err e => (g1, Err e)
      | Ok _ =>
          match bind (mapR (fun i => match e_pts g1 with
                                     | Some d => match dget Nat.eqb d i with Some p => Ok p | None => Err KeyError end
                                     | None => Err TypeError end) (seq 0 (length (e_nodes g1)))) (to_array g1 sparse) with
          | Err e => (g1, Err e)
          | Ok a => (set_adj g1 (Some a), Ok a)
          end
      end
  end.

(* slice_coords, 185-200: plane "x", "y" or "z" as an axis (KeyError for other strings) *)
Definition slice_coords (g : eg) (plane : axis) (number : Z) : list point := filter (fun p => co plane p =? number) (e_nodes g).

(* the arguments of add_qubit: qubit is a 3-tuple, a tuple of another length, None or something
   else; neighbors is None or a list whose elements are all ints, all tuples, or of another type *)
Inductive qarg := QTuple (p : point) | QBadTuple | QNone | QOther.
Inductive narg := NNone | NInts (l : list Z) | NTuples (l : list point) | NOther.

(* round(), to the nearest even integer in case of a tie; the result is again in units of 1/U *)
Definition round_to (U c : Z) : Z :=
  let q := c / U in let r := c mod U in
  U * (if 2 * r <? U then q else if U <? 2 * r then q + 1 else if q mod 2 =? 0 then q else q + 1).

(* _update_attributes_add_qubit, 291-308 *)
Definition update_attributes (U : Z) (g : eg) (q : point) (add_to_macro : bool) : eg * res unit :=
  let '(x, y, z) := q in
  let g1 := match add_to_macro, e_m2m g with
            | true, Some m =>
                let macronode := (round_to U x, round_to U y, round_to U z) in
                set_m2m g (Some (match dget peqb m macronode with
                                 | Some l => dset peqb m macronode (l ++ [q])
                                 | None => dset peqb m macronode [q] end))
            | _, _ => g
            end in
  match e_idx g1, e_pts g1 with
  | Some ti, Some tp =>
      match map fst tp with
      | [] => (g1, Err ValueError)                       (* max() of an empty dictionary *)
      | k :: ks => let new_index := S (fold_right Nat.max k ks) in
          (set_dicts g1 (Some (dset peqb ti q new_index)) (Some (dset Nat.eqb tp new_index q)), Ok tt)
      end
  | Some _, None => (g1, Err TypeError)                  (* cannot happen: both are set together *)
  | None, _ => (g1, Ok tt)
  end.

(* 262-288: connect the new qubit *)
Definition connect (g : eg) (q : point) (l : list point) : eg := fold_left (fun g nb => add_e g nb q) l g.
Definition int_points (g : eg) (l : list Z) : res (list point) :=
  match e_pts g with
  | None => Err TypeError
  | Some tp => mapR (fun i => if i <? 0 then Err KeyError else match dget Nat.eqb tp (Z.to_nat i) with Some p => Ok p | None => Err KeyError end) l
  end.
Definition update_neighbors (g : eg) (q : point) (neighbors : narg) : eg * res unit :=
  match neighbors with
  | NNone | NInts [] | NTuples [] => (set_adj g None, Ok tt)
  | NInts l =>
      let '(g1, r) := match e_pts g with None => let '(g1, r) := index_generator g in (g1, bind r (fun _ => Ok tt)) | Some _ => (g, Ok tt) end in
      match r with
      | Err e => (g1, Err e)
      | Ok _ => match int_points g1 l with Err e => (g1, Err e) | Ok ps => (set_adj (connect g1 q ps) None, Ok tt) end
      end
  | NTuples l => (set_adj (connect g q l) None, Ok tt)
  | NOther => (g, Err TypeError)
  end.
(* add_qubit, 227-289 *)
Definition place (U : Z) (g : eg) (qubit : qarg) : res point :=
  match qubit with
  | QTuple p => if has_n g p then Err ValueError else Ok p
  | QBadTuple => Err ValueError
  | QNone => match map (co AX) (e_nodes g) with [] => Err ValueError | x :: xs => Ok (fold_right Z.max x xs + U, 0, 0) end
  | QOther => Err TypeError
  end.
Definition add_qubit (U : Z) (g : eg) (qubit : qarg) (neighbors : narg) (add_to_macronode : bool) : eg * res unit :=
  match place U g qubit with
  | Err e => (g, Err e)
  | Ok q =>
      if add_to_macronode && match e_m2m g with None => true | Some _ => false end then (g, Err ValueError)
      else
        let g1 := set_graph g (add_n q (e_nodes g)) (e_edges g) in
        let '(g2, r) := update_attributes U g1 q add_to_macronode in
        match r with Err e => (g2, Err e) | Ok _ => update_neighbors g2 q neighbors end
  end.

(* remove_qubit, 310-349; the argument is a tuple, an int, or something else *)
Inductive rarg := RTuple (p : point) | RInt (i : Z) | ROther.
Fixpoint remove_first (p : point) (l : list point) : list point := match l with [] => [] | q :: l' => if peqb q p then l' else q :: remove_first p l' end.
(* 337-346: the keys are visited in the order of a set; the iterations concern different keys *)
Definition strip (p : point) (m : list (point * list point)) : list (point * list point) :=
  flat_map (fun e => if pmem p (snd e) then match remove_first p (snd e) with [] => [] | l => [(fst e, l)] end else [e]) m.
Definition remove_qubit (g : eg) (qubit : rarg) : eg * res unit :=
  let finish (g : eg) (p : point) := (set_adj (set_m2m g (match e_m2m g with Some m => Some (strip p m) | None => None end)) None, Ok tt) in
  match e_idx g with
  | None => match qubit with
            | RTuple p => if has_n g p then finish (remove_n g p) p else (g, Err NetworkXError)
            | _ => (g, Err ValueError)
            end
  | Some ti =>
      let target := match qubit with
                    | ROther => Err TypeError
                    | RTuple p => Ok p
                    | RInt i => match e_pts g with
                                | None => Err TypeError
                                | Some tp => if i <? 0 then Err KeyError else match dget Nat.eqb tp (Z.to_nat i) with Some p => Ok p | None => Err KeyError end
                                end
                    end in
      match target with
      | Err e => (g, Err e)
      | Ok p =>
          if negb (has_n g p) then (g, Err NetworkXError)
          else
            let g1 := remove_n g p in
            match dget peqb ti p with
            | None => (g1, Err KeyError)
            | Some _ =>
                let ti' := dpop peqb ti p in
                finish (set_dicts g1 (Some ti') (Some (dict_of Nat.eqb (map (fun e => (snd e, fst e)) ti')))) p
            end
      end
  end.
