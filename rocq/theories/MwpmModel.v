(* MwpmModel.v: model of the matching graph (flamingpy/decoders/mwpm/matching.py), of
   mwpm_decoder (decoders/mwpm/algos.py), of recovery and of the MWPM branch of correct
   (decoders/decoder.py). *)
From Verif Require Import Base Lattice RhgModel SurfaceModel StabGraphModel Paths.
Open Scope Z_scope.

(* for-loops that may raise *)
Fixpoint mapM {A B} (f : A -> res B) (l : list A) : res (list B) :=
  match l with
  | [] => Ok []
  | x :: l' => bind (f x) (fun y => bind (mapM f l') (fun ys => Ok (y :: ys)))
  end.
Fixpoint foldM {A S} (f : S -> A -> res S) (s : S) (l : list A) : res S :=
  match l with
  | [] => Ok s
  | x :: l' => bind (f s x) (fun s' => foldM f s' l')
  end.

(* ------------------------------------------------------------------ *)
(* Weights.  A weight is an integer number of units; floats are dyadic rationals, so the
   finitely many weights of a code are integer multiples of some common unit.  What is not
   modelled is the rounding of floating point sums of weights. *)

(* edge_data(u, v)["weight"] after assign_weights, stabilizer_graph.py 321-329 *)
Definition wt (E : list sedge) (w : point -> Z) (u v : snode) : Z :=
  match find (same_pair u v) E with Some e => sedge_weight w e | None => 0 end.

(* consecutive pairs: [(path[i], path[i + 1]) for i in range(len(path) - 1)], algos.py 92 *)
Fixpoint pairs {A} (p : list A) : list (A * A) :=
  match p with
  | x :: p' => match p' with y :: _ => (x, y) :: pairs p' | [] => [] end
  | [] => []
  end.

Definition sumZ {A} (f : A -> Z) (l : list A) : Z := fold_right (fun x s => f x + s) 0 l.

(* the length of a path, as used by Dijkstra's algorithm *)
Definition cost (E : list sedge) (w : point -> Z) (p : list snode) : Z :=
  sumZ (fun xy => wt E w (fst xy) (snd xy)) (pairs p).

(* The length of a path as reported to the matching graph.  networkx reports the length
   itself: rp is the identity.  rustworkx adds up int(weight) over the edges
   (_path_weight, stabilizer_graph.py 496-500): rp truncates to whole multiples of the
   number of units in 1, see rx_report. *)
Definition reported (rp : Z -> Z) (E : list sedge) (w : point -> Z) (p : list snode) : Z :=
  sumZ (fun xy => rp (wt E w (fst xy) (snd xy))) (pairs p).
Definition nx_report (x : Z) : Z := x.
Definition rx_report (units : Z) (x : Z) : Z := Z.quot x units.

(* ------------------------------------------------------------------ *)
(* The shortest path functions of networkx / rustworkx (single_source_dijkstra,
   graph_dijkstra_shortest_paths), stabilizer_graph.py 392-412 and 471-489, seen as
   oracles: a missing key is None. *)
Record sp_oracle := {
  sp_mid : snode -> snode -> option (list snode);   (* shortest_paths_without_high_low(u)[1][v] *)
  sp_low : snode -> option (list snode);            (* shortest_paths_from_low()[1][v] *)
  sp_high : snode -> option (list snode)            (* shortest_paths_from_high()[1][v] *)
}.

Definition real (u : snode) : bool := match u with NLow | NHigh => false | _ => true end.
(* adjacency in the stabilizer graph *)
Definition gadj (E : list sedge) (u v : snode) : Prop := exists cv, In (u, v, cv) E \/ In (v, u, cv) E.
(* adjacency after removal of "low" and "high" *)
Definition radj (E : list sedge) (u v : snode) : Prop := gadj E u v /\ real u = true /\ real v = true.

(* the documented contract of Dijkstra's algorithm *)
Definition shortest (R : snode -> snode -> Prop) (c : list snode -> Z) (u v : snode) (o : option (list snode)) : Prop :=
  match o with
  | Some p => is_path R u v p /\ forall p', is_path R u v p' -> c p <= c p'
  | None => forall p', ~ is_path R u v p'
  end.
Definition oracle_ok (E : list sedge) (w : point -> Z) (o : sp_oracle) : Prop :=
  (forall u v, real u = true -> u <> v -> shortest (radj E) (cost E w) u v (sp_mid o u v)) /\
  (forall v, v <> NLow -> shortest (gadj E) (cost E w) NLow v (sp_low o v)) /\
  (forall v, v <> NHigh -> shortest (gadj E) (cost E w) NHigh v (sp_high o v)).

(* ------------------------------------------------------------------ *)
(* The matching graph: nodes are odd stabilizers or virtual points (point, i). *)
Inductive mnode := MStab (i : nat) | MVirt (pt : snode) (k : nat).
Definition mnode_eq_dec (u v : mnode) : {u = v} + {u <> v}.
Proof. decide equality; try apply Nat.eq_dec; apply snode_eq_dec. Defined.
Definition mneqb (u v : mnode) : bool := if mnode_eq_dec u v then true else false.

Record medge := { me_u : mnode; me_v : mnode; me_w : Z; me_path : list snode }.

(* it.combinations(l, 2) *)
Fixpoint combs {A} (l : list A) : list (A * A) :=
  match l with [] => [] | x :: l' => map (fun y => (x, y)) l' ++ combs l' end.

Section Graph.
  Variables (rp : Z -> Z) (E : list sedge) (w : point -> Z) (o : sp_oracle).

  (* _with_edges_between_real_odd_nodes, matching.py 125-142.  The loops over odd_parity_stabs[:-1] and
     odd_adjacency visit the pairs in the order of it.combinations. *)
  Definition mid_edge (ab : nat * nat) : res medge :=
    match sp_mid o (NStab (fst ab)) (NStab (snd ab)) with
    | Some p => Ok {| me_u := MStab (fst ab); me_v := MStab (snd ab); me_w := reported rp E w p; me_path := p |}
    | None => Err KeyError
    end.

  (* one iteration of the loop of _with_edges_from_low_or_high_connector, matching.py 148-169;
     np.argmin returns the first minimum, so a tie goes to "low" *)
  Definition bound_edge (ki : nat * nat) : res medge :=
    match sp_low o (NStab (snd ki)), sp_high o (NStab (snd ki)) with
    | Some pl, Some ph =>
        let full := if reported rp E w pl <=? reported rp E w ph then pl else ph in
        match full with
        | _ :: pt :: rest =>
            Ok {| me_u := MStab (snd ki); me_v := MVirt pt (fst ki); me_w := reported rp E w full;
                  me_path := pt :: rest |}
        | _ => Err IndexError
        end
    | _, _ => Err KeyError
    end.

  (* enumerate(odd stabilizers) *)
  Definition enumerate {A} (l : list A) : list (nat * A) := combine (seq 0 (length l)) l.

  (* the edges of weight 0 between virtual points, matching.py 170-172 *)
  Definition virt_edge (ab : mnode * mnode) : medge :=
    {| me_u := fst ab; me_v := snd ab; me_w := 0; me_path := [] |}.

  (* with_edges_from, matching.py 97-123: the edges and the list of virtual points.  All edges join
     different pairs of nodes, so add_edge always creates a new edge. *)
  Definition match_graph (odd : list nat) (has_bound : bool) : res (list medge * list mnode) :=
    match odd with
    | [] => Ok ([], [])
    | _ =>
        bind (mapM mid_edge (combs odd)) (fun mids =>
        if has_bound then
          bind (mapM bound_edge (enumerate odd)) (fun bes =>
          let virt := map me_v bes in
          Ok (mids ++ bes ++ map virt_edge (combs virt), virt))
        else Ok (mids, []))
    end.
End Graph.

(* ------------------------------------------------------------------ *)
(* The matching library (nx.max_weight_matching, rx.max_weight_matching with max
   cardinality on the negated weights, matching.py 209-210 and 286-292), seen as an oracle returning
   any matching of maximum cardinality and, among those, of minimum weight. *)
Definition same_match (u v : mnode) (e : medge) : bool :=
  (mneqb (me_u e) u && mneqb (me_v e) v) || (mneqb (me_u e) v && mneqb (me_v e) u).
(* edge_path, matching.py 206-207 and 283-284; KeyError / NoEdgeBetweenNodes otherwise *)
Definition edge_path (mg : list medge) (uv : mnode * mnode) : res (list snode) :=
  match find (same_match (fst uv) (snd uv)) mg with Some e => Ok (me_path e) | None => Err KeyError end.
(* edge_weight *)
Definition edge_wt (mg : list medge) (uv : mnode * mnode) : Z :=
  match find (same_match (fst uv) (snd uv)) mg with Some e => me_w e | None => 0 end.
(* total_weight_of, matching.py 86-95 *)
Definition total_weight (mg : list medge) (M : list (mnode * mnode)) : Z := sumZ (edge_wt mg) M.
Definition endpoints {A} (M : list (A * A)) : list A := flat_map (fun uv => [fst uv; snd uv]) M.
Definition is_matching (mg : list medge) (M : list (mnode * mnode)) : Prop :=
  NoDup (endpoints M) /\ forall uv, In uv M -> exists e, In e mg /\ same_match (fst uv) (snd uv) e = true.
Definition best_matching (mg : list medge) (M : list (mnode * mnode)) : Prop :=
  is_matching mg M /\
  (forall M', is_matching mg M' -> (length M' <= length M)%nat) /\
  (forall M', is_matching mg M' -> length M' = length M -> total_weight mg M <= total_weight mg M').

(* ------------------------------------------------------------------ *)
(* mwpm_decoder, algos.py 88-96 *)

(* stab_graph.edge_data(u, v)["common_vertex"]; see C46 for the two backends *)
Definition edge_cv (E : list sedge) (u v : snode) : res (option point) :=
  match find (same_pair u v) E with Some e => Ok (snd e) | None => Err KeyError end.

Definition opt_eq_dec (x y : option point) : {x = y} + {x <> y}.
Proof. decide equality. apply point_eq_dec. Defined.
(* qubits_to_flip ^= {common_vertex}: a set of points or None *)
Definition toggle (s : list (option point)) (x : option point) : list (option point) :=
  if in_dec opt_eq_dec x s then remove opt_eq_dec x s else x :: s.

Definition flip_path (E : list sedge) (s : list (option point)) (p : list snode) : res (list (option point)) :=
  foldM (fun s xy => bind (edge_cv E (fst xy) (snd xy)) (fun cv => Ok (toggle s cv))) s (pairs p).

Definition mmem (u : mnode) (l : list mnode) : bool := existsb (mneqb u) l.

Definition qubits_to_flip (E : list sedge) (mg : list medge) (virt : list mnode) (M : list (mnode * mnode))
    : res (list (option point)) :=
  foldM (fun s uv =>
      if mmem (fst uv) virt && mmem (snd uv) virt then Ok s
      else bind (edge_path mg uv) (flip_path E s)) [] M.

(* recovery, decoder.py 140-141: nodes is the list of nodes of code.graph; looking up a
   coordinate outside it, or None, raises KeyError.  The list enumerates the set. *)
Definition recovery (nodes : list point) (qs : list (option point)) (bit : point -> bool) : res (point -> bool) :=
  foldM (fun bit oq =>
      match oq with
      | Some q => if pmem q nodes then Ok (fun x => if peqb x q then negb (bit x) else bit x) else Err KeyError
      | None => Err KeyError
      end) bit qs.

(* has_bound_points, stabilizer_graph.py 285-287: truth value of a list *)
Definition has_bound_points (bp : list point) : bool := match bp with [] => false | _ => true end.

(* mwpm_decoder, algos.py 50-96, without drawing.  pick stands for the matching library: it
   maps a matching graph to the matching returned for it. *)
Definition mwpm_decoder (rp : Z -> Z) (stabs : list (list point)) (bp : list point) (ch : nat -> nat -> point)
    (w : point -> Z) (o : sp_oracle) (pick : list medge -> list (mnode * mnode)) (bit : point -> bool)
    : res (list (option point)) :=
  let E := sg_edges stabs bp ch in
  bind (match_graph rp E w o (odd_stabs stabs bit) (has_bound_points bp)) (fun gv =>
    qubits_to_flip E (fst gv) (snd gv) (pick (fst gv))).

(* correct(code, decoder="MWPM"), decoder.py 270-288, after assign_weights, which gives the
   weights w (see C23): decoding, recovery and check.  The result pairs the bit values after
   recovery with the returned verdict. *)
Definition correct_mwpm (rp : Z -> Z) (c : scode) (ch : nat -> nat -> point) (w : point -> Z) (o : sp_oracle)
    (pick : list medge -> list (mnode * mnode)) (bit : point -> bool) (sanity : bool) : res ((point -> bool) * bool) :=
  bind (mwpm_decoder rp (sc_stabs c) (sc_bound c) ch w o pick bit) (fun qs =>
  bind (recovery (node_list (sc_graph c)) qs bit) (fun bit' =>
  bind (check_correction c bit' sanity) (fun ok => Ok (bit', ok)))).
