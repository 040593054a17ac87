(* PropsSym.v: C84, the symmetries of the codes: no place, direction or kind of qubit is special. *)
From Verif Require Import Base Lattice RhgModel RhgSpec RhgProofs RhgDegree PropsRhg SurfaceModel SurfaceSpec SurfaceProofs SurfaceIncidence SurfaceTheorems StabGraphModel Complex SurfaceComplex PropsSurface PropsSim PropsHomology SymSpec SymProofs.
Open Scope Z_scope.

(* f turns the first code into the second: vertices, neighbourhoods, syndrome qubits, boundary qubits and
   stabilizers correspond; so do the syndromes of any errors and, when there is none, the verdicts. *)
Definition same_code (c1 c2 : scode) (f : point -> point) : Prop :=
  Permutation (map f (node_list (sc_graph c1))) (node_list (sc_graph c2)) /\
  (forall p, In p (node_list (sc_graph c1)) -> Permutation (map f (nbrs (sc_graph c1) p)) (nbrs (sc_graph c2) (f p))) /\
  Permutation (map f (sc_syn c1)) (sc_syn c2) /\
  (forall q, In q (sc_syn c1) -> (In q (sc_bound c1) <-> In (f q) (sc_bound c2))) /\
  (exists stabs, Permutation stabs (sc_stabs c2) /\
     Forall2 (fun st st' => Permutation (map f st) st' /\ forall bit, stab_parity (fun q => bit (f q)) st = stab_parity bit st') (sc_stabs c1) stabs) /\
  (forall bit sanity, (forall st, In st (sc_stabs c2) -> stab_parity bit st = false) ->
     check_correction c1 (fun q => bit (f q)) sanity = check_correction c2 bit sanity).

(* C84.  Every relabelling of the lattice that respects neighbours and the kinds of the points turns one
   code into the other. *)
Theorem C84_relabelling :
  forall D1 e1 b1 pol1 c1 D2 e2 b2 pol2 c2 f g,
  dims_ge2 D1 -> dims_ge2 D2 -> is_surface_code D1 e1 b1 pol1 c1 -> is_surface_code D2 e2 b2 pol2 c2 ->
  relabelling D1 e1 b1 D2 e2 b2 f g -> same_code c1 c2 f.
Proof.
  intros D1 e1 b1 pol1 c1 D2 e2 b2 pol2 c2 f g G1 G2 K1 K2 R.
  assert (NI : forall D e b pol c, dims_ge2 D -> is_surface_code D e b pol c -> forall p, In p (node_list (sc_graph c)) <-> site D (code_bnds e b) p /\ (level e p = 2 \/ level e p = 1)).
  { intros D e b pol c G K p. destruct K as (_ & _ & _ & (vs & Hvs & ->) & _).
    rewrite (proj1 (proj2 (C01_rhg_exact_lattice D (code_bnds e b) pol vs (ge2_ok D (code_bnds e b) G) Hvs)) p).
    unfold primal_vertex, dual_vertex, level. destruct e; split; intros X; repeat match goal with H : _ /\ _ |- _ => destruct H end;
      try (destruct X as [[? ?]|[? ?]]; (split; [assumption|lia])).
    - destruct H0; [left|right]; auto.
    - destruct H0; [right|left]; split; auto; lia. }
  split; [|split; [|split; [|split; [|split]]]].
  - apply (map_perm D1 e1 b1 D2 e2 b2 f g R).
    + apply (code_nodes_NoDup D1 e1 b1 pol1 c1 G1 K1). + apply (code_nodes_NoDup D2 e2 b2 pol2 c2 G2 K2).
    + intros p Hp. apply (NI _ _ _ _ _ G1 K1) in Hp. apply Hp. + intros p Hp. apply (NI _ _ _ _ _ G2 K2) in Hp. apply Hp.
    + intros p Hp. rewrite (NI _ _ _ _ _ G1 K1), (NI _ _ _ _ _ G2 K2). destruct (R_f D1 e1 b1 D2 e2 b2 f g R p Hp) as (S & _ & L). rewrite L. tauto.
  - intros p Hp. apply (NI _ _ _ _ _ G1 K1) in Hp. apply (nbrs_perm D1 e1 b1 pol1 c1 D2 e2 b2 pol2 c2 f g G1 G2 K1 K2 R). apply Hp.
  - exact (syn_perm D1 e1 b1 pol1 c1 D2 e2 b2 pol2 c2 f g G1 G2 K1 K2 R).
  - exact (bound_iff D1 e1 b1 pol1 c1 D2 e2 b2 pol2 c2 f g G1 G2 K1 K2 R).
  - destruct (stabs_perm D1 e1 b1 pol1 c1 D2 e2 b2 pol2 c2 f g G1 G2 K1 K2 R) as (stabs & P & F). exists stabs. split; [assumption|].
    eapply Forall2_impl_in; [|exact F]. intros st st' _ Hst. split; [assumption|]. intros bit. apply parity_of. assumption.
  - intros bit sanity Q. exact (verdict_same D1 e1 b1 pol1 c1 D2 e2 b2 pol2 c2 f g G1 G2 K1 K2 R bit sanity Q).
Qed.
Print Assumptions C84_relabelling.

(* C84.  Translations: the periodic and toric codes look the same from every place.  Moving everything
   along the periodic axes, by even distances, changes nothing. *)
Theorem C84_translation :
  forall D e b pol c pol' c' v, dims_ge2 D -> is_surface_code D e b pol c -> is_surface_code D e b pol' c' ->
  (forall a, co a v mod 2 = 0) -> same_code c c' (shift D e b v).
Proof.
  intros D e b pol c pol' c' v G K K' Hv.
  pose (h := fun a => match get a (documented_bnds e b) with BPeriodic => around (2 * get a D) (co a v) | _ => fun x => x end).
  pose (k := fun a => match get a (documented_bnds e b) with BPeriodic => around (2 * get a D) (- co a v) | _ => fun x => x end).
  assert (R : relabelling D e b D e b (three h (fun a => a)) (three (fun a => k a) (fun a => a))).
  { apply three_relabels with (fl := false) (k := k) (s := fun a => a); [left; reflexivity|split; [discriminate|congruence]|].
    intros a. unfold h, k. destruct (get a (documented_bnds e b)); [apply iso_id|apply iso_id|].
    pose proof (iso_around (get a D) (co a v)) as X. rewrite (Hv a) in X. change (0 =? 1) with false in X. apply X. specialize (G a). lia. }
  assert (E : shift D e b v = three h (fun a => a)) by (unfold shift, three, h; destruct e, b; reflexivity).
  rewrite E. apply (C84_relabelling D e b pol c D e b pol' c' _ _ G G K K' R).
Qed.
Print Assumptions C84_translation.

(* C84.  Mirrors: every code is its own mirror image along every axis (the two open boundaries are exchanged
   by the mirror across them). *)
Theorem C84_mirror :
  forall D e b pol c pol' c' m, dims_ge2 D -> is_surface_code D e b pol c -> is_surface_code D e b pol' c' ->
  same_code c c' (mirror D e b m).
Proof.
  intros D e b pol c pol' c' m G K K'.
  pose (h := fun a => if m a then match get a (documented_bnds e b) with BPrimal => fun x => 2 * get a D - 2 - x | BDual => fun x => 2 * get a D - x | BPeriodic => fun x => around (2 * get a D) (- x) 0 end else fun x => x).
  assert (R : relabelling D e b D e b (three h (fun a => a)) (three (fun a => h a) (fun a => a))).
  { apply three_relabels with (fl := false) (k := h) (s := fun a => a); [left; reflexivity|split; [discriminate|congruence]|].
    intros a. unfold h. destruct (m a); [|apply iso_id]. destruct (get a (documented_bnds e b)); [apply iso_mirror_primal|apply iso_mirror_dual|apply iso_mirror_periodic].
    specialize (G a). lia. }
  assert (E : mirror D e b m = three h (fun a => a)) by (unfold mirror, three, h; destruct e, b, (m AX), (m AY), (m AZ); reflexivity).
  rewrite E. apply (C84_relabelling D e b pol c D e b pol' c' _ _ G G K K' R).
Qed.
Print Assumptions C84_mirror.

(* C84.  The toric and the periodic codes treat the first two axes alike. *)
Theorem C84_exchange :
  forall D e b pol c pol' c', dims_ge2 D -> b <> BdOpen -> is_surface_code D e b pol c ->
  is_surface_code (get AY D, get AX D, get AZ D) e b pol' c' -> same_code c c' exch.
Proof.
  intros D e b pol c pol' c' G Hb K K'.
  assert (G' : dims_ge2 (get AY D, get AX D, get AZ D)) by (intros []; cbn [get]; apply (G AY) || apply (G AX) || apply (G AZ)).
  pose (s := fun a => match a with AX => AY | AY => AX | AZ => AZ end).
  assert (R : relabelling D e b (get AY D, get AX D, get AZ D) e b (three (fun _ x => x) s) (three (fun _ x => x) s)).
  { apply (three_relabels D e b (get AY D, get AX D, get AZ D) e b false (fun _ x => x) (fun _ x => x) s); [right; reflexivity|split; [discriminate|congruence]|].
    intros a. destruct b; [congruence| |]; destruct e, a; cbn [s get documented_bnds]; apply iso_id. }
  exact (C84_relabelling D e b pol c _ e b pol' c' _ _ G G' K K' R).
Qed.
Print Assumptions C84_exchange.

(* C84.  Primal and dual: the dual code of a kind is the primal code of that kind with other names for its
   points (for the open codes, with the first two sizes exchanged as well). *)
Theorem C84_primal_dual :
  forall D b pol c pol' c', dims_ge2 D -> is_surface_code D EcPrimal b pol c -> is_surface_code (twin_dims b D) EcDual b pol' c' ->
  same_code c c' (twin D b).
Proof.
  intros D b pol c pol' c' G K K'.
  assert (G' : dims_ge2 (twin_dims b D)) by (destruct b; [intros []; cbn [twin_dims get]; apply (G AY) || apply (G AX) || apply (G AZ)|exact G|exact G]).
  pose (up := fun x => x + 1). pose (dn := fun x => x - 1).
  pose (ar := fun a => around (2 * get a D) 1). pose (br := fun a => around (2 * get a D) (- 1)).
  assert (IA : forall a, axis_iso BPeriodic (get a D) BPeriodic (get a D) true (ar a) (br a)).
  { intros a. apply (iso_around (get a D) 1). specialize (G a). lia. }
  destruct b.
  - assert (R := three_relabels D EcPrimal BdOpen (twin_dims BdOpen D) EcDual BdOpen true (fun a => match a with AY => up | _ => dn end) (fun a => match a with AY => dn | _ => up end)
      (fun a => match a with AX => AY | AY => AX | AZ => AZ end)).
    refine (C84_relabelling D _ _ pol c _ _ _ pol' c' _ _ G G' K K' (R _ _ _)); [right; reflexivity|split; [discriminate|reflexivity]|].
    intros []; cbn [get documented_bnds twin_dims]; [apply iso_down|apply iso_up|apply iso_down].
  - assert (R := three_relabels D EcPrimal BdToric (twin_dims BdToric D) EcDual BdToric true (fun a => match a with AZ => dn | _ => ar a end) (fun a => match a with AZ => up | _ => br a end) (fun a => a)).
    refine (C84_relabelling D _ _ pol c _ _ _ pol' c' _ _ G G' K K' (R _ _ _)); [left; reflexivity|split; [discriminate|reflexivity]|].
    intros []; cbn [get documented_bnds twin_dims]; [apply (IA AX)|apply (IA AY)|apply iso_down].
  - assert (R := three_relabels D EcPrimal BdPeriodic (twin_dims BdPeriodic D) EcDual BdPeriodic true ar br (fun a => a)).
    refine (C84_relabelling D _ _ pol c _ _ _ pol' c' _ _ G G' K K' (R _ _ _)); [left; reflexivity|split; [discriminate|reflexivity]|].
    intros []; cbn [get documented_bnds twin_dims]; [apply (IA AX)|apply (IA AY)|apply (IA AZ)].
Qed.
Print Assumptions C84_primal_dual.

(* the hypotheses are met: the primal open 2 x 3 x 2 code and its twin, the dual open 3 x 2 x 2 code *)
Example C84_nonvacuous :
  is_surface_code (2, 3, 2) EcPrimal BdOpen None (mk_code (2, 3, 2) EcPrimal BdOpen None) /\
  is_surface_code (3, 2, 2) EcDual BdOpen None (mk_code (3, 2, 2) EcDual BdOpen None) /\
  twin_dims BdOpen (2, 3, 2) = (3, 2, 2) /\ twin (2, 3, 2) BdOpen (0, 1, 1) = (0, 1, 0) /\
  shift (3, 3, 3) EcPrimal BdPeriodic (2, 4, -2) (5, 3, 1) = (1, 1, 5) /\ mirror (2, 3, 2) EcPrimal BdOpen (fun _ => true) (0, 1, 3) = (2, 5, 1).
Proof.
  split; [apply mk_code_ok|]. split; [apply mk_code_ok|]. split; [reflexivity|]. split; [reflexivity|].
  split; reflexivity.
Qed.
