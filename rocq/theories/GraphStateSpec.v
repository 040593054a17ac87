(* GraphStateSpec.v: the named graphs on the vertices 0, ..., n-1. *)
From Coq Require Import String Reals.
From Verif Require Import Base SimModel GraphStateModel.
Open Scope Z_scope.

(* g is the graph with vertices f 0, ..., f (n-1), all different, and the edges {f i, f j} for edge i j;
   no node and no edge is stored twice *)
Definition represents (g : rgraph) (n : Z) (f : Z -> rpoint) (edge : Z -> Z -> Prop) : Prop :=
  NoDup (rg_nodes g) /\ Z.of_nat (List.length (rg_nodes g)) = n /\
  (forall p, In p (rg_nodes g) <-> exists i, 0 <= i < n /\ f i = p) /\
  (forall i j, 0 <= i < n -> 0 <= j < n -> f i = f j -> i = j) /\
  (forall p q, adjacent g p q <-> exists i j, 0 <= i < n /\ 0 <= j < n /\ edge i j /\ f i = p /\ f j = q) /\
  NoDup (rg_edges g) /\ (forall p q, In (p, q) (rg_edges g) -> ~ In (q, p) (rg_edges g)).

Definition path_edge (i j : Z) : Prop := j = i + 1 \/ i = j + 1.
Definition star_edge (i j : Z) : Prop := (i = 0 /\ j <> 0) \/ (j = 0 /\ i <> 0).
Definition complete_edge (i j : Z) : Prop := i <> j.
Definition ring_edge (n i j : Z) : Prop := i <> j /\ (j = (i + 1) mod n \/ i = (j + 1) mod n).
Definition is_int (v : pyval) (n : Z) : Prop := v = VInt n \/ exists b, v = VBool b /\ n = Z.b2z b.
