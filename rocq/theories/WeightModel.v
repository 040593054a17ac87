(* WeightModel.v: model of assign_weights (flamingpy/decoders/decoder.py 31-115) and of
   StabilizerGraph.assign_weights (codes/graphs/stabilizer_graph.py 321-329).  Weights are real
   numbers (float rounding is not modelled); exp is the parameter expf of Z_err_cond. *)
From Verif Require Import Base Lattice RhgModel SurfaceModel StabGraphModel MwpmModel GkpModel.
Open Scope R_scope.

(* the node attribute "state" *)
Inductive label := Lp | LGKP | LOther.
Definition is_p (s : label) : bool := match s with Lp => true | _ => false end.

(* the attributes of code.graph.nodes[q] that are read or written; None: the key is missing *)
Record attrs := {
  a_state : point -> option label;
  a_hom : point -> option R;        (* "hom_val_p" *)
  a_ppc : point -> option R;        (* "p_phase_cond" *)
  a_weight : point -> option R      (* "weight" *)
}.
(* G.nodes[q]["weight"] = w *)
Definition put_weight (a : attrs) (q : point) (w : R) : attrs :=
  {| a_state := a_state a; a_hom := a_hom a; a_ppc := a_ppc a;
     a_weight := fun x => if peqb x q then Some w else a_weight a x |}.

Inductive wmethod := WUniform | WBlueprint | WOther.   (* WOther: any other string *)
Inductive dname := DMWPM | DUF | DOther.
(* weight_options after merging the defaults, 49-50; delta has no default *)
Record wopts := { o_method : wmethod; o_integer : bool; o_mult : R; o_delta : option R; o_pre : bool }.

(* sys.float_info.min, 27 *)
Definition smallest_number : R := (/ 2) ^ 1022.

(* Python's round: to the nearest integer, ties to even *)
Definition round_even (x : R) : Z :=
  let n := Int_part x in
  let d := x - IZR n in
  if Rlt_dec d (/ 2) then n
  else if Rlt_dec (/ 2) d then (n + 1)%Z
  else if Z.even n then n else (n + 1)%Z.

(* 78-83 and 88-93 *)
Definition weight_of (o : wopts) (err_prob : R) : R :=
  if o_integer o then IZR (round_even (- o_mult o * ln err_prob)) else - ln err_prob.

Section Assign.
  Variable expf : R -> R.

  (* the body of the loop 60-93 *)
  Definition blueprint_node (o : wopts) (g : egr) (a : attrs) (node : point) : res R :=
    let neighbors := nbrs g node in
    bind (mapM (fun v => match a_state a v with Some s => Ok s | None => Err KeyError end) neighbors) (fun states =>
    let p_count := length (filter is_p states) in
    if (p_count <=? 1)%nat then
      bind (if o_pre o then match a_ppc a node with Some p => Ok p | None => Err KeyError end
            else match o_delta o with
                 | None => Err TypeError
                 | Some delta =>
                     match a_hom a node with
                     | None => Err KeyError
                     | Some hom_val =>
                         match Z_err_cond expf (INR (length neighbors + 1) * delta) hom_val 10 (RVal 0) false with
                         | ZNum p => Ok p
                         | ZText => Err TypeError
                         end
                     end
                 end) (fun err_prob =>
      let err_prob := Rmin err_prob 0.5 in
      let err_prob := if Req_EM_T err_prob 0 then smallest_number else err_prob in
      Ok (weight_of o err_prob))
    else
      match p_count with
      | 2%nat => Ok (weight_of o (1 / 4))
      | 3%nat => Ok (weight_of o (1 / 3))
      | 4%nat => Ok (weight_of o (2 / 5))
      | _ => Err KeyError
      end).

  (* the body of the loop 99-112 *)
  Definition uf_node (g : egr) (a : attrs) (node : point) : res R :=
    let p_count := length (filter (fun v => match a_state a v with Some s => is_p s | None => false end) (nbrs g node)) in
    Ok (if (p_count <=? 1)%nat then 2 else -1).

  Definition node_loop (f : attrs -> point -> res R) (a : attrs) (coords : list point) : res attrs :=
    foldM (fun a node => bind (f a node) (fun w => Ok (put_weight a node w))) a coords.

  (* 56-115: coords enumerates the set code.all_syndrome_coords *)
  Definition assign_nodes (dec : dname) (o : wopts) (g : egr) (coords : list point) (a : attrs) : res attrs :=
    match o_method o with
    | WBlueprint =>
        match dec with
        | DMWPM => node_loop (blueprint_node o g) a coords
        | DUF => Err PlainException
        | DOther => Ok a
        end
    | WUniform =>
        match dec with
        | DUF => node_loop (uf_node g) a coords
        | _ => node_loop (fun _ _ => Ok 1) a coords
        end
    | WOther => Ok a
    end.

  Definition is_conn (u : snode) : bool := match u with NLow | NHigh => true | _ => false end.
  (* StabilizerGraph.assign_weights, stabilizer_graph.py 321-329; nodes are those of code.graph,
     wt e is the "weight" entry of the data of edge e (None: missing, or the value None) *)
  Definition assign_edges (nodes : list point) (a : attrs) (E : list sedge) (wt : sedge -> option R) : res (sedge -> option R) :=
    foldM (fun wt e =>
        let put w := fun x : sedge => if same_pair (fst (fst e)) (snd (fst e)) x then w else wt x in
        match snd e with
        | Some q => if pmem q nodes then Ok (put (a_weight a q)) else Err KeyError
        | None => if is_conn (fst (fst e)) || is_conn (snd (fst e)) then Ok (put (Some 0)) else Ok wt
        end) wt E.

  (* assign_weights, decoder.py 31-118; code.ec has one element *)
  Definition assign_weights (c : scode) (ch : nat -> nat -> point) (dec : dname) (o : wopts) (coords : list point)
      (a : attrs) (wt : sedge -> option R) : res (attrs * (sedge -> option R)) :=
    bind (assign_nodes dec o (sc_graph c) coords a) (fun a' =>
    bind (assign_edges (node_list (sc_graph c)) a' (sg_edges (sc_stabs c) (sc_bound c) ch) wt) (fun wt' =>
    Ok (a', wt'))).
End Assign.
