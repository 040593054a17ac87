(* UfModel.v: model of the Union-Find decoder, flamingpy/decoders/unionfind/uf_classes.py and
   flamingpy/decoders/unionfind/algos.py. *)
From Verif Require Import Base Lattice RhgModel SurfaceModel StabGraphModel Paths MwpmModel.
Open Scope nat_scope.

Definition supd {B} (f : snode -> B) (x : snode) (y : B) : snode -> B := fun z => if snode_eq_dec z x then y else f z.

(* ------------------------------------------------------------------ *)
(* Cluster trees, uf_classes.py 19-104.

   A Node object is identified by its id, a node of the stabilizer graph (node_dict is a
   bijection, algos.py 95-99).  A Root object is identified by its node: the decoder makes at
   most one Root per Node.  node.parent is the node itself (fresh Node, 36), another Node or
   a Root. *)
Inductive parent := PSelf | PUp (u : snode) | PRoot.

Record heap := {
  h_par : snode -> parent;              (* Node.parent *)
  h_kids : snode -> list snode;         (* Node.children, a set *)
  h_size : snode -> nat;                (* Root.size *)
  h_pty : snode -> bool;                (* Root.parity *)
  h_bnd : snode -> option snode         (* Root.boundary *)
}.

(* Node(id) for all nodes, 35-38 *)
Definition fresh_heap : heap :=
  {| h_par := fun _ => PSelf; h_kids := fun _ => []; h_size := fun _ => 0; h_pty := fun _ => false; h_bnd := fun _ => None |}.

(* Root(node, parity), 90-101; lab = None is parity="boundary" *)
Definition new_root (x : snode) (lab : option bool) (h : heap) : heap :=
  {| h_par := supd (h_par h) x PRoot; h_kids := h_kids h; h_size := supd (h_size h) x 1;
     h_pty := supd (h_pty h) x (match lab with Some p => p | None => false end);
     h_bnd := supd (h_bnd h) x (match lab with Some _ => None | None => Some x end) |}.

(* the while loop of Node.find_root, 51-60: traversed nodes and children sets so far.  The
   loop is bounded by fuel; OutOfFuel never occurs on the trees the decoder builds (UfTrees). *)
Fixpoint climb (fuel : nat) (h : heap) (self node : snode) (trav : list snode) (kids : snode -> list snode)
    : res (option snode * list snode * (snode -> list snode)) :=
  match h_par h node with
  | PRoot => Ok (Some node, trav, kids)
  | p =>
      let up := match p with PUp u => u | _ => node end in
      if snode_eq_dec up self then Ok (None, trav, kids)
      else match fuel with
           | 0 => Err OutOfFuel
           | S fuel' =>
               if smem node (kids up)
               then climb fuel' h self up (node :: trav) (supd kids up (remove snode_eq_dec node (kids up)))
               else Err KeyError
           end
  end.

(* set union, as duplicate-free lists *)
Definition sunion (l m : list snode) : list snode := l ++ filter (fun x => negb (smem x l)) m.

(* Node.find_root, 46-64 *)
Definition find_root (fuel : nat) (h : heap) (x : snode) : res (option snode * heap) :=
  bind (climb fuel h x x [] (h_kids h)) (fun r =>
    match r with
    | (Some root, trav, kids) =>
        Ok (Some root,
            {| h_par := fun z => if smem z trav then PUp root else h_par h z;
               h_kids := supd kids root (sunion (kids root) trav);
               h_size := h_size h; h_pty := h_pty h; h_bnd := h_bnd h |})
    | (None, _, kids) =>
        Ok (None, {| h_par := h_par h; h_kids := kids; h_size := h_size h; h_pty := h_pty h; h_bnd := h_bnd h |})
    end).

(* union(root1, root2) on two Root objects, algos.py 36-56: the new heap and, if the roots
   differ, the nodes of the big and of the small root *)
Definition union (h : heap) (r1 r2 : snode) : heap * option (snode * snode) :=
  if snode_eq_dec r1 r2 then (h, None)
  else
    let (big, small) := if h_size h r2 <=? h_size h r1 then (r1, r2) else (r2, r1) in
    ({| h_par := supd (h_par h) small (PUp big);
        h_kids := supd (h_kids h) big (sunion (h_kids h big) [small]);
        h_size := supd (h_size h) big (h_size h big + h_size h small);
        h_pty := supd (h_pty h) big (xorb (h_pty h big) (h_pty h small));
        h_bnd := supd (h_bnd h) big (match h_bnd h small with Some x => Some x | None => h_bnd h big end) |},
     Some (big, small)).

(* ------------------------------------------------------------------ *)
(* The decoder.  Sets are duplicate-free lists; wherever the program iterates over a set, the
   order is given by a schedule: an arbitrary function that may depend on the round and on the
   cluster. *)
Record sched := {
  sc_odd : nat -> list snode -> list snode;            (* odd_clusters, 159 *)
  sc_nodes : nat -> snode -> list snode -> list snode; (* boundary[cluster.node].nodes, 160 *)
  sc_upd : nat -> list snode -> list snode;            (* odd_clusters, 180 *)
  sc_kids : list snode -> list snode -> list snode     (* node.children in find_child, 183; the
                                                          first argument is visited *)
}.
Definition sched_ok (s : sched) : Prop :=
  (forall k l, Permutation (sc_odd s k l) l) /\ (forall k c l, Permutation (sc_nodes s k c l) l) /\
  (forall k l, Permutation (sc_upd s k l) l) /\ (forall v l, Permutation (sc_kids s v l) l).

Inductive growth := Empty | Half | Grown.
Definition grownb (g : growth) : bool := match g with Grown => true | _ => false end.

Definition sedge_eq_dec (x y : sedge) : {x = y} + {x <> y}.
Proof. repeat decide equality. Defined.

Section Decoder.
  (* E: the edges of the stabilizer graph; er q: the weight of qubit q is -1; sp i: the
     parity of the i-th stabilizer; oe u: the neighbours of u in the order of
     stabilizer_graph.out_edges(u) *)
  Variables (E : list sedge) (er : point -> bool) (sp : nat -> bool) (oe : snode -> list snode).
  Variable sch : sched.
  Variable fuel : nat.

  (* the edges that do not touch "low" or "high", algos.py 79 and 162, uf_classes.py 131 *)
  Definition real_edge (e : sedge) : bool := real (fst (fst e)) && real (snd (fst e)).
  Definition RE : list sedge := filter real_edge E.
  (* edge_data(u, v)["weight"] == -1 *)
  Definition erased (e : sedge) : bool := match snd e with Some q => er q | None => false end.

  (* Support.status, uf_classes.py 126-136: the keys frozenset((u, v)) are the real edges *)
  Definition key (u v : snode) : option sedge := find (same_pair u v) RE.
  Definition init_status (e : sedge) : growth := if erased e then Grown else Empty.

  (* parity label of a node, algos.py 111-113 and 121-125 *)
  Definition label (x : snode) : option bool := match x with NStab i => Some (sp i) | _ => None end.

  (* one component of initialize_cluster_trees, 106-130: the popped vertex is the head *)
  Definition init_component (h : heap) (comp : list snode) : res (heap * snode) :=
    match comp with
    | [] => Err KeyError
    | r :: rest =>
        Ok (fold_left (fun h x => fst (union (new_root x (label x) h) r x)) rest (new_root r (label r) h), r)
    end.
  (* initialize_cluster_trees, 73-132, given rx.connected_components(erasure_graph): heap,
     cluster_trees and odd_clusters *)
  Definition initialize (comps : list (list snode)) : res (heap * list snode * list snode) :=
    bind (foldM (fun s comp => bind (init_component (fst s) comp) (fun hr => Ok (fst hr, snd s ++ [snd hr])))
            (fresh_heap, []) comps) (fun s =>
    Ok (fst s, snd s, filter (h_pty (fst s)) (snd s))).

  (* support.status[frozenset((n, v))] != "grown" for some real edge (n, v),
     uf_classes.py 222-226 and 244-248 *)
  Definition on_boundary (st : sedge -> growth) (n : snode) : res bool :=
    bind (mapM (fun v => match key n v with Some e => Ok (negb (grownb (st e))) | None => Err KeyError end)
            (filter real (if real n then oe n else []))) (fun l => Ok (existsb (fun b => b) l)).
  Fixpoint filterM (f : snode -> res bool) (l : list snode) : res (list snode) :=
    match l with
    | [] => Ok []
    | x :: l' => bind (f x) (fun b => bind (filterM f l') (fun m => Ok (if b then x :: m else m)))
    end.

  (* find_child, uf_classes.py 181-186 *)
  Fixpoint find_child (fuel : nat) (h : heap) (visited : list snode) (node : snode) : res snode :=
    match find (fun c => negb (smem c visited)) (sc_kids sch visited (h_kids h node)) with
    | None => Ok node
    | Some c => match fuel with 0 => Err OutOfFuel | S f => find_child f h visited c end
    end.
  (* Boundary.__init__, uf_classes.py 206-230 *)
  Fixpoint boundary_walk (n : nat) (h : heap) (st : sedge -> growth) (root node : snode) (visited acc : list snode)
      : res (list snode) :=
    bind (find_child fuel h visited node) (fun node' =>
    bind (on_boundary st node') (fun b =>
    let acc' := if b then sunion acc [node'] else acc in
    if snode_eq_dec node' root then Ok acc'
    else match n, h_par h node' with
         | S n', PUp u => boundary_walk n' h st root u (visited ++ [node']) acc'
         | 0, _ => Err OutOfFuel
         | _, _ => Err AttributeError
         end)).
  Definition boundary_init (h : heap) (st : sedge -> growth) (root : snode) : res (list snode) :=
    boundary_walk fuel h st root root [] [].

  (* Boundary.prune, uf_classes.py 231-249 *)
  Definition prune (st : sedge -> growth) (l : list snode) : res (list snode) := filterM (on_boundary st) l.

  Record ust := { u_heap : heap; u_st : sedge -> growth; u_bd : snode -> option (list snode) }.

  (* Support.grow, uf_classes.py 138-146, and the fusion list, algos.py 163-165 *)
  Definition estupd (st : sedge -> growth) (e : sedge) (g : growth) : sedge -> growth :=
    fun e' => if sedge_eq_dec e' e then g else st e'.
  Definition grow (s : (sedge -> growth) * list (snode * snode)) (uv : snode * snode)
      : res ((sedge -> growth) * list (snode * snode)) :=
    let (st, fl) := s in
    match key (fst uv) (snd uv) with
    | None => Err KeyError
    | Some e =>
        match st e with
        | Empty => Ok (estupd st e Half, fl)
        | Half => Ok (estupd st e Grown, fl ++ [uv])
        | Grown => Ok (st, fl)
        end
    end.
  (* the calls of support.grow in one round, algos.py 159-163 *)
  Definition grow_calls (k : nat) (s : ust) (odd : list snode) : res (list (snode * snode)) :=
    bind (mapM (fun c => match u_bd s c with
                         | None => Err KeyError
                         | Some l => Ok (flat_map (fun n => map (pair n) (filter real (if real n then oe n else [])))
                                                  (sc_nodes sch k c l))
                         end) (sc_odd sch k odd)) (fun l => Ok (concat l)).

  (* one entry of the fusion list, algos.py 166-176 *)
  Definition fuse (s : ust) (uv : snode * snode) : res ust :=
    bind (find_root fuel (u_heap s) (fst uv)) (fun r0 =>
    bind (find_root fuel (snd r0) (snd uv)) (fun r1 =>
    let h := snd r1 in
    match fst r0, fst r1 with
    | Some a, Some b =>
        match union h a b with
        | (_, None) => Ok {| u_heap := h; u_st := u_st s; u_bd := u_bd s |}
        | (h', Some (big, small)) =>
            match u_bd s big, u_bd s small with
            | Some lb, Some ls =>
                bind (prune (u_st s) (sunion lb ls)) (fun l =>
                Ok {| u_heap := h'; u_st := u_st s; u_bd := supd (u_bd s) big (Some l) |})
            | _, _ => Err KeyError
            end
        end
    | None, None => Ok {| u_heap := h; u_st := u_st s; u_bd := u_bd s |}
    | _, _ => Err AttributeError
    end)).

  (* the new odd clusters, algos.py 179-190 *)
  Definition update_odd (k : nat) (h : heap) (odd : list snode) : res (heap * list snode) :=
    bind (foldM (fun hs c => bind (find_root fuel (fst hs) c) (fun r =>
            match fst r with
            | Some x => Ok (snd r, sunion (snd hs) [x])
            | None => Err AttributeError
            end)) (h, []) (sc_upd sch k odd)) (fun hs =>
    Ok (fst hs, filter (fun c => h_pty (fst hs) c && match h_bnd (fst hs) c with None => true | _ => false end) (snd hs))).

  (* one iteration of the while loop, algos.py 155-190 *)
  Definition round (k : nat) (s : ust) (odd : list snode) : res (ust * list snode) :=
    bind (grow_calls k s odd) (fun calls =>
    bind (foldM grow (u_st s, []) calls) (fun sf =>
    bind (foldM fuse {| u_heap := u_heap s; u_st := fst sf; u_bd := u_bd s |} (snd sf)) (fun s' =>
    bind (update_odd k (u_heap s') odd) (fun ho =>
    Ok ({| u_heap := fst ho; u_st := u_st s'; u_bd := u_bd s' |}, snd ho))))).

  (* union_find, algos.py 155-190, with at most n iterations *)
  Fixpoint union_find (n k : nat) (s : ust) (odd : list snode) : res ust :=
    match odd with
    | [] => Ok s
    | _ => match n with
           | 0 => Err OutOfFuel
           | S n' => bind (round k s odd) (fun so => union_find n' (S k) (fst so) (snd so))
           end
    end.

  (* uf_decode up to the growth loop, algos.py 245-251 *)
  Definition grow_clusters (n : nat) (comps : list (list snode)) : res ust :=
    bind (initialize comps) (fun hto =>
    let '(h, trees, odd) := hto in
    bind (foldM (fun bd c => bind (boundary_init h init_status c) (fun l => Ok (supd bd c (Some l))))
            (fun _ => None) trees) (fun bd =>
    union_find n 0 {| u_heap := h; u_st := init_status; u_bd := bd |} odd)).
End Decoder.

(* ------------------------------------------------------------------ *)
(* Peeling, algos.py 259-311.  A forest is its list of edges; its nodes are identified with
   the nodes of the stabilizer graph they carry. *)
Definition incident (x : snode) (e : sedge) : bool := sneqb (fst (fst e)) x || sneqb (snd (fst e)) x.
Definition degree (F : list sedge) (x : snode) : nat := length (filter (incident x) F).
Definition other (x : snode) (e : sedge) : snode := if snode_eq_dec (fst (fst e)) x then snd (fst e) else fst (fst e).

(* (spanning_forest, parity_dict, recovery) *)
Record pst := { p_F : list sedge; p_pd : snode -> option bool; p_rec : list (option point) }.

(* recovery.add *)
Definition set_add (x : option point) (l : list (option point)) : list (option point) :=
  if in_dec opt_eq_dec x l then l else x :: l.

(* trim_forest, 271-287.  remove_edge removes the edge between two nodes, which is unique. *)
Fixpoint trim (fuel : nat) (s : pst) (leaf : snode) : res pst :=
  match filter (incident leaf) (p_F s) with
  | [] => Ok s
  | e :: _ =>
      let new := other leaf e in
      let F' := remove sedge_eq_dec e (p_F s) in
      match p_pd s leaf with
      | None => Err KeyError
      | Some pl =>
          let pdn := if pl then match supd (p_pd s) leaf (Some false) new with
                                | None => Err KeyError
                                | Some pn => Ok (supd (supd (p_pd s) leaf (Some false)) new (Some (negb pn)))
                                end
                     else Ok (p_pd s) in
          bind pdn (fun pd' =>
          let s' := {| p_F := F'; p_pd := pd'; p_rec := if pl then set_add (snd e) (p_rec s) else p_rec s |} in
          if degree F' new =? 1 then
            match fuel with 0 => Err OutOfFuel | S f => trim f s' new end
          else Ok s')
      end
  end.

(* peeling, 303-311; nodes lists the nodes of the forest by index *)
Definition peeling (fuel : nat) (nodes : list snode) (F : list sedge) (pd : snode -> option bool) : res (list (option point)) :=
  bind (foldM (trim fuel) {| p_F := F; p_pd := pd; p_rec := [] |} (filter (fun x => degree F x =? 1) nodes)) (fun s =>
  Ok (p_rec s)).

(* ------------------------------------------------------------------ *)
(* obtain_spanning_forest, algos.py 206-225, given the nodes of the forest by component *)
Definition tree_parity (sp : nat -> bool) (tree : list snode) : snode -> option bool :=
  let pd0 := fold_left (fun pd x => match x with
                                    | NStab i => supd pd x (Some (sp i))
                                    | _ => supd pd x (Some false)
                                    end) tree (fun _ => None) in
  let nb_odd := length (filter (fun x => match x with NStab i => sp i | _ => false end) tree) in
  let bnode := fold_left (fun b x => match x with NStab _ => b | _ => Some x end) tree None in
  if Nat.odd nb_odd then match bnode with Some b => supd pd0 b (Some true) | None => pd0 end else pd0.
Definition parity_dict (sp : nat -> bool) (trees : list (list snode)) : snode -> option bool :=
  fold_left (fun pd tree x => match tree_parity sp tree x with Some b => Some b | None => pd x end) trees (fun _ => None).

(* the grown edges, in the order in which span_forest pops them, uf_classes.py 148-173 *)
Definition grown_edges (E : list sedge) (st : sedge -> growth) : list sedge := filter (fun e => grownb (st e)) (RE E).

(* ------------------------------------------------------------------ *)
(* What the decoder asks of rustworkx and of the set and dictionary orders *)
Record ulib := {
  l_out : snode -> list snode;                               (* stabilizer_graph.out_edges(u): the other ends *)
  l_nodes : list sedge -> list snode;                        (* the nodes of a graph built from these edges, by index,
                                                                algos.py 73-91 and uf_classes.py 149-171 *)
  l_comps : list snode -> list sedge -> list (list snode);   (* rx.connected_components, each set in its iteration order *)
  l_mst : list snode -> list sedge -> list sedge             (* rx.minimum_spanning_tree, all weights equal *)
}.

(* uf_decode (algos.py 228-256) followed by peeling, as in uf_decoder (314-334) without
   drawing: the recovery set.  One number bounds all loops. *)
Definition uf_decoder (E : list sedge) (er : point -> bool) (sp : nat -> bool) (lib : ulib) (sch : sched) (fuel : nat)
    : res (list (option point)) :=
  let comps := l_comps lib (l_nodes lib (RE E)) (filter (erased er) (RE E)) in
  bind (grow_clusters E er sp (l_out lib) sch fuel fuel comps) (fun s =>
  let G := grown_edges E (u_st s) in
  let nodes := l_nodes lib G in
  let F := l_mst lib nodes G in
  peeling fuel nodes F (parity_dict sp (l_comps lib nodes F))).

(* correct(code, decoder="UF"), decoder.py 270-288, after assign_weights: er q says that
   the weight of q is -1 (see C23) *)
Definition correct_uf (c : scode) (ch : nat -> nat -> point) (er : point -> bool) (lib : ulib) (sch : sched) (fuel : nat)
    (bit : point -> bool) (sanity : bool) : res ((point -> bool) * bool) :=
  bind (uf_decoder (sg_edges (sc_stabs c) (sc_bound c) ch) er (fun i => stab_parity bit (stab_of (sc_stabs c) i)) lib sch fuel) (fun qs =>
  bind (recovery (node_list (sc_graph c)) qs bit) (fun bit' =>
  bind (check_correction c bit' sanity) (fun ok => Ok (bit', ok)))).
