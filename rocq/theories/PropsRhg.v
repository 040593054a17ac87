(* PropsRhg.v: properties C01-C03 of RHG_graph. *)
From Verif Require Import Base Lattice RhgModel RhgSpec RhgProofs RhgDegree.
Open Scope Z_scope.

(* C01.  For every documented size and boundary choice and every iteration order vs of
   the set of primal vertices, the graph is exactly the RHG lattice of RhgSpec.v. *)
Theorem C01_rhg_exact_lattice :
  forall (D : dims) (B : bnds) (pol : option (point * point -> Z)) (vs : list point),
  dims_ok D B -> set_enum (six_body_points D B) vs ->
  let G := rhg_graph D B pol vs in
  NoDup (node_list G) /\
  (forall p, In p (node_list G) <-> primal_vertex D B p \/ dual_vertex D B p) /\
  (forall p, primal_vertex D B p -> node_type G p = Some Primal) /\
  (forall p, dual_vertex D B p -> node_type G p = Some Dual) /\
  (forall p q, edge_attr G p q <> None <-> lattice_edge D B p q \/ lattice_edge D B q p) /\
  (forall p q a, edge_attr G p q = Some a -> (eperiodic a = true <-> wrap D B p q)) /\
  (pol = None -> forall p q a, edge_attr G p q = Some a -> eweight a = 1).
Proof. exact rhg_exact_lattice. Qed.
Print Assumptions C01_rhg_exact_lattice.

(* the hypotheses are met for every size and boundary, e.g. a mixed 2x3x1 lattice *)
Example C01_nonvacuous :
  let D := (2, 3, 1) in let B := (BPrimal, BDual, BPeriodic) in
  let vs := nodup point_eq_dec (six_body_points D B) in
  dims_ok D B /\ set_enum (six_body_points D B) vs /\
  length (node_list (rhg_graph D B None vs)) = 23%nat.
Proof.
  split; [intros []; simpl; split; try lia; intros H; try lia; exfalso; apply H; reflexivity|].
  split; [apply set_enum_nodup|vm_compute; reflexivity].
Qed.

(* C02 *)
Theorem C02_periodic_size_and_degree :
  forall (D : dims) (pol : option (point * point -> Z)) (vs : list point),
  let B := (BPeriodic, BPeriodic, BPeriodic) in
  dims_ge2 D -> set_enum (six_body_points D B) vs ->
  let G := rhg_graph D B pol vs in
  Z.of_nat (length (node_list G)) = 6 * get AX D * get AY D * get AZ D /\
  forall p, In p (node_list G) ->
    length (nbrs G p) = 4%nat /\ NoDup (nbrs G p) /\
    forall q, In q (nbrs G p) <-> edge_attr G p q <> None.
Proof. exact periodic_size_and_degree. Qed.
Print Assumptions C02_periodic_size_and_degree.

Example C02_nonvacuous :
  let D := (2, 2, 3) in let B := (BPeriodic, BPeriodic, BPeriodic) in
  let vs := nodup point_eq_dec (six_body_points D B) in
  dims_ge2 D /\ set_enum (six_body_points D B) vs /\
  length (node_list (rhg_graph D B None vs)) = 72%nat.
Proof.
  split; [intros []; simpl; lia|]. split; [apply set_enum_nodup|vm_compute; reflexivity].
Qed.

(* C03.  With polarity=alternating_polarity (which does not raise on any edge): weights
   are +1 or -1; a vertex with four neighbours (every vertex of the periodic lattice)
   has two of each. *)
Theorem C03_alternating_polarity_balanced :
  forall (D : dims) (B : bnds) (vs : list point),
  dims_ok D B -> dims_ge2 D -> set_enum (six_body_points D B) vs ->
  let G := rhg_graph D B (Some apol) vs in
  (forall p q a, edge_attr G p q = Some a ->
     alternating_polarity (p, q) = Ok (eweight a) /\
     (eweight a = 1 \/ eweight a = -1)) /\
  (forall p, In p (node_list G) ->
     length (nbrs G p) = 4%nat \/ B = (BPeriodic, BPeriodic, BPeriodic) ->
     length (filter (has_weight G 1 p) (nbrs G p)) = 2%nat /\
     length (filter (has_weight G (-1) p) (nbrs G p)) = 2%nat).
Proof. exact polarity_balanced. Qed.
Print Assumptions C03_alternating_polarity_balanced.

Example C03_nonvacuous :
  let D := (3, 3, 2) in let B := (BPrimal, BDual, BDual) in
  let vs := nodup point_eq_dec (six_body_points D B) in
  dims_ok D B /\ dims_ge2 D /\ set_enum (six_body_points D B) vs /\
  length (nbrs (rhg_graph D B (Some apol) vs) (1, 3, 2)) = 4%nat.
Proof.
  split; [intros []; simpl; (split; [|intros _]); lia|].
  split; [intros []; simpl; lia|]. split; [apply set_enum_nodup|vm_compute; reflexivity].
Qed.

(* C03 for a polarity of the user's: it is called with the primal end first on an edge inside the lattice, and with the
   dual end first on a wrap-around edge.  A symmetric one gives the weight of the edge whichever way it is written. *)
Theorem C03_any_polarity :
  forall (D : dims) (B : bnds) (f : point * point -> Z) (vs : list point),
  dims_ok D B -> dims_ge2 D -> set_enum (six_body_points D B) vs ->
  let G := rhg_graph D B (Some f) vs in
  (forall p q a, primal_vertex D B p -> dual_vertex D B q -> edge_attr G p q = Some a ->
     (eperiodic a = false -> eweight a = f (p, q)) /\ (eperiodic a = true -> eweight a = f (q, p))) /\
  ((forall p q, f (p, q) = f (q, p)) -> forall p q a, edge_attr G p q = Some a -> eweight a = f (p, q)).
Proof.
  intros D B f vs HD H2 Hvs G. destruct (C01_rhg_exact_lattice D B (Some f) vs HD Hvs) as (_ & _ & _ & _ & He & Hper & _). fold G in He, Hper.
  assert (K : forall p q a, lattice_edge D B p q -> edge_attr G p q = Some a ->
     (eperiodic a = false -> eweight a = f (p, q)) /\ (eperiodic a = true -> eweight a = f (q, p))).
  { intros p q a HL Ha. destruct (G_weight D B HD (Some f) vs Hvs p q a H2 HL Ha) as [W1 W2]. specialize (Hper p q a Ha). split; intros Hb.
    - apply W2. intros Hw. apply Hper in Hw. congruence.
    - apply W1. apply Hper. assumption. }
  split.
  - intros p q a Hp Hq Ha. apply K; [|assumption]. destruct (proj1 (He p q)) as [HL|HL]; [congruence|assumption|]. exfalso. destruct HL as (Hq' & _). destruct Hp as [_ Hp], Hq as [_ Hq], Hq' as [_ Hq']. lia.
  - intros Hs p q a Ha. destruct (proj1 (He p q)) as [HL|HL]; [congruence| |].
    + destruct (K p q a HL Ha) as [K1 K2]. destruct (eperiodic a); [rewrite K2; [apply Hs|reflexivity]|apply K1; reflexivity].
    + assert (Ha' : edge_attr G q p = Some a) by (rewrite <- Ha; apply edge_attr_sym).
      destruct (K q p a HL Ha') as [K1 K2]. destruct (eperiodic a); [apply K2; reflexivity|rewrite K1; [apply Hs|reflexivity]].
Qed.
Print Assumptions C03_any_polarity.
