(* LcNamedSpec.v: what a positive and a negative answer of is_lc_equivalent mean. *)
From Coq Require Import Reals.
From Verif Require Import Base LinModel LinSpec GraphStateModel LcNamedModel.
Open Scope nat_scope.

Definition nodes (g : rgraph) : nat := length (rg_nodes g).
(* True with a local Clifford operation: one invertible 2 x 2 matrix per qubit that maps the stabilizer group of the first graph state onto that
   of the second one; with clifford_form = 'global' a 2n x 2n matrix with the same action *)
Definition says_equivalent (g h : rgraph) : Prop := exists Q m,
  is_lc_equivalent g h FTensor = Ok (true, Some (CTensor Q)) /\ local_clifford (nodes g) Q /\ maps_onto (nodes g) Q (adjacency g) (adjacency h) /\
  is_lc_equivalent g h FGlobal = Ok (true, Some (CGlobal m)) /\ (forall z x, length z = nodes g -> length x = nodes g -> apply_global (nodes g) m z x = apply_local Q z x).
(* False and None, for either form *)
Definition says_different (g h : rgraph) : Prop := is_lc_equivalent g h FTensor = Ok (false, None) /\ is_lc_equivalent g h FGlobal = Ok (false, None).
(* the two graph states are related by a local Clifford operation *)
Definition states_equivalent (g h : rgraph) : Prop := nodes g = nodes h /\ lc_equivalent (nodes g) (adjacency g) (adjacency h).
