(* UfSpec.v: specification vocabulary for the Union-Find decoder and the contracts of the
   library functions it calls. *)
From Coq Require Import Relations.
From Verif Require Import Base Lattice RhgModel SurfaceModel StabGraphModel MwpmModel UfModel.
Open Scope nat_scope.

(* two nodes are connected by a list of edges *)
Definition conn (F : list sedge) : snode -> snode -> Prop :=
  clos_refl_sym_trans _ (fun a b => exists cv, In (a, b, cv) F).
(* no edge lies on a cycle: its ends are not connected by the other edges *)
Definition forest (F : list sedge) : Prop :=
  NoDup F /\ forall a b cv, In (a, b, cv) F -> ~ conn (remove sedge_eq_dec (a, b, cv) F) a b.

(* parts are the connected components of the graph with nodes V and edges F *)
Definition components (V : list snode) (F : list sedge) (parts : list (list snode)) : Prop :=
  Permutation (concat parts) V /\ (forall c, In c parts -> c <> []) /\
  (forall c x y, In c parts -> In x c -> In y c -> conn F x y) /\
  (forall c a b cv, In c parts -> In (a, b, cv) F -> In a c <-> In b c).

(* F is a spanning forest of the graph with edges G *)
Definition spanning_forest (G F : list sedge) : Prop :=
  incl F G /\ forest F /\ forall a b cv, In (a, b, cv) G -> conn F a b.

(* the contracts *)
Definition lib_ok (E : list sedge) (lib : ulib) : Prop :=
  (forall u v, In v (l_out lib u) <-> gadj E u v) /\
  (forall es, NoDup (l_nodes lib es) /\ forall x, In x (l_nodes lib es) <-> exists e, In e es /\ incident x e = true) /\
  (forall V es, NoDup V -> (forall a b cv, In (a, b, cv) es -> In a V /\ In b V) -> components V es (l_comps lib V es)) /\
  (forall V es, NoDup es -> (forall a b cv, In (a, b, cv) es -> In a V /\ In b V) -> spanning_forest es (l_mst lib V es)).
