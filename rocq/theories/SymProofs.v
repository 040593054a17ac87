(* SymProofs.v: what a relabelling preserves, and the four families of relabellings. *)
From Verif Require Import Base Lattice RhgModel RhgSpec RhgProofs RhgDegree SurfaceModel SurfaceSpec SurfaceProofs SurfaceIncidence SurfaceTheorems StabGraphModel Complex SurfaceComplex PropsSurface PropsHomology SymSpec.
Open Scope Z_scope.

Lemma level_qubit D e B p : qubit D e B p <-> site D B p /\ level e p = 2.
Proof. unfold qubit, level, primal_vertex, dual_vertex. destruct e; [tauto|]. split; intros [? ?]; split; auto; lia. Qed.
Lemma level_cell D e B p : cell D e B p <-> site D B p /\ level e p = 3.
Proof. unfold cell, level. destruct e; [tauto|]. split; intros [? ?]; split; auto; lia. Qed.
Lemma step_sym D B p q : step D B p q -> step D B q p.
Proof.
  intros (a & Ha & Hb). exists a. split; [|intros b' K; symmetry; auto].
  unfold step1, wrap1 in *. intuition (subst; try lia).
Qed.
Definition edge_levels (D : dims) (e : ecx) (B : bnds) (p q : point) : Prop :=
  site D B p /\ site D B q /\ step D B p q /\ (level e p = 2 /\ level e q = 1 \/ level e p = 1 /\ level e q = 2).
Lemma edge_levels_iff D e B p q : edge_levels D e B p q <-> lattice_edge D B p q \/ lattice_edge D B q p.
Proof.
  unfold edge_levels, lattice_edge, primal_vertex, dual_vertex, level. split.
  - intros (S1 & S2 & St & K). pose proof (step_sym _ _ _ _ St) as St'. destruct e; destruct K as [[? ?]|[? ?]].
    + left; auto. + right; auto. + right; repeat split; auto; lia. + left; repeat split; auto; lia.
  - intros [([? ?] & [? ?] & St)|([? ?] & [? ?] & St)]; repeat split; auto using step_sym; destruct e; lia.
Qed.

Section Relabel.
  Variables (D1 : dims) (e1 : ecx) (b1 : bdk) (pol1 : option (point * point -> Z)) (c1 : scode).
  Variables (D2 : dims) (e2 : ecx) (b2 : bdk) (pol2 : option (point * point -> Z)) (c2 : scode).
  Variables (f g : point -> point).
  Hypothesis G1 : dims_ge2 D1. Hypothesis G2 : dims_ge2 D2.
  Hypothesis K1 : is_surface_code D1 e1 b1 pol1 c1. Hypothesis K2 : is_surface_code D2 e2 b2 pol2 c2.
  Hypothesis R : relabelling D1 e1 b1 D2 e2 b2 f g.
  Let B1 := code_bnds e1 b1. Let B2 := code_bnds e2 b2.
  Let CF1 : code_facts D1 e1 b1 pol1 c1 := surface_code_facts D1 e1 b1 pol1 c1 (ge2_ok D1 _ G1) K1.
  Let CF2 : code_facts D2 e2 b2 pol2 c2 := surface_code_facts D2 e2 b2 pol2 c2 (ge2_ok D2 _ G2) K2.

  Lemma R_f p : site D1 B1 p -> site D2 B2 (f p) /\ g (f p) = p /\ level e2 (f p) = level e1 p.
  Proof. unfold B1, B2. rewrite !code_bnds_eq. apply R. Qed.
  Lemma R_g p : site D2 B2 p -> site D1 B1 (g p) /\ f (g p) = p.
  Proof. unfold B1, B2. rewrite !code_bnds_eq. apply R. Qed.
  Lemma R_s p q : site D1 B1 p -> site D1 B1 q -> (step D1 B1 p q <-> step D2 B2 (f p) (f q)).
  Proof. unfold B1, B2. rewrite !code_bnds_eq. apply R. Qed.
  Lemma f_inj p q : site D1 B1 p -> site D1 B1 q -> f p = f q -> p = q.
  Proof. intros Hp Hq E. rewrite <- (proj1 (proj2 (R_f p Hp))), E. apply R_f. assumption. Qed.

  (* lists with the same elements up to f *)
  Lemma map_perm l1 l2 : NoDup l1 -> NoDup l2 -> (forall p, In p l1 -> site D1 B1 p) -> (forall q, In q l2 -> site D2 B2 q) ->
    (forall p, site D1 B1 p -> (In p l1 <-> In (f p) l2)) -> Permutation (map f l1) l2.
  Proof.
    intros N1 N2 S1 S2 H. apply NoDup_Permutation; [|assumption|].
    - apply NoDup_map_inj; [intros x y Hx Hy; apply f_inj; auto|assumption].
    - intros q. rewrite in_map_iff. split.
      + intros (p & <- & Hp). apply H; auto.
      + intros Hq. destruct (R_g q (S2 q Hq)) as [Sg Eg]. exists (g q). split; [assumption|]. apply H; [assumption|]. rewrite Eg. assumption.
  Qed.
  Lemma qubit_iff p : site D1 B1 p -> (qubit D1 e1 B1 p <-> qubit D2 e2 B2 (f p)).
  Proof. intros Hp. rewrite !level_qubit. destruct (R_f p Hp) as (S & _ & L). rewrite L. tauto. Qed.
  Lemma cell_iff p : site D1 B1 p -> (cell D1 e1 B1 p <-> cell D2 e2 B2 (f p)).
  Proof. intros Hp. rewrite !level_cell. destruct (R_f p Hp) as (S & _ & L). rewrite L. tauto. Qed.
  Lemma on_cell_iff x p : site D1 B1 x -> site D1 B1 p -> (on_cell D1 e1 B1 x p <-> on_cell D2 e2 B2 (f x) (f p)).
  Proof. intros Hx Hp. unfold on_cell. rewrite (qubit_iff p Hp), (R_s x p Hx Hp). tauto. Qed.
  Lemma qubit_site D e B p : qubit D e B p -> site D B p.
  Proof. rewrite level_qubit. tauto. Qed.

  Lemma syn_perm : Permutation (map f (sc_syn c1)) (sc_syn c2).
  Proof.
    apply map_perm; [apply (cf_syn_nd _ _ _ _ _ CF1)|apply (cf_syn_nd _ _ _ _ _ CF2)| | |].
    - intros p Hp. apply (cf_syn _ _ _ _ _ CF1) in Hp. apply (qubit_site _ _ _ _ Hp).
    - intros p Hp. apply (cf_syn _ _ _ _ _ CF2) in Hp. apply (qubit_site _ _ _ _ Hp).
    - intros p Hp. rewrite (cf_syn _ _ _ _ _ CF1), (cf_syn _ _ _ _ _ CF2). apply qubit_iff. assumption.
  Qed.

  Lemma stabs_perm : exists stabs, Permutation stabs (sc_stabs c2) /\ Forall2 (fun st st' => Permutation (map f st) st') (sc_stabs c1) stabs.
  Proof.
    destruct (proj1 (C04_stabilizers_are_cube_faces D1 e1 b1 pol1 c1 G1 K1)) as (x1 & N1 & I1 & _ & F1).
    destruct (proj1 (C04_stabilizers_are_cube_faces D2 e2 b2 pol2 c2 G2 K2)) as (x2 & N2 & I2 & _ & F2).
    rewrite <- code_bnds_eq in I1, F1. rewrite <- code_bnds_eq in I2, F2.
    assert (CS : forall D e B p, cell D e B p -> site D B p) by (intros ? ? ? ? [? ?]; assumption).
    assert (P : Permutation (map f x1) x2).
    { apply map_perm; auto.
      - intros p Hp. apply I1 in Hp. eauto.
      - intros p Hp. apply I2 in Hp. eauto.
      - intros p Hp. rewrite I1, I2. apply cell_iff. assumption. }
    destruct (Permutation_Forall2 (Permutation_sym P) F2) as (stabs & Ps & Fs). exists stabs. split; [apply Permutation_sym; assumption|].
    assert (I1' : forall x, In x x1 -> cell D1 e1 (code_bnds e1 b1) x) by (intros; apply I1; assumption).
    clear I1 I2 P Ps F2 N1 N2. revert stabs Fs I1'. induction F1 as [|x st l1 l2 [Nst Hst] F1 IH]; intros stabs Fs I1.
    - inversion Fs; subst. constructor.
    - cbn [map] in Fs. inversion Fs as [|y st' l1' l2' [Nst' Hst'] Fs' E1 E2]; subst. constructor; [|apply IH; [assumption|intros; apply I1; right; assumption]].
      assert (Sx : site D1 B1 x) by (apply (CS _ e1), I1; left; reflexivity).
      apply map_perm; auto.
      + intros p Hp. apply Hst in Hp. destruct Hp as [Hq _]. apply (qubit_site _ _ _ _ Hq).
      + intros p Hp. apply Hst' in Hp. destruct Hp as [Hq _]. apply (qubit_site _ _ _ _ Hq).
      + intros p Hp. rewrite Hst, Hst'. apply on_cell_iff; assumption.
  Qed.

  Lemma nbrs_in D e b pol c : dims_ge2 D -> is_surface_code D e b pol c -> forall p,
    NoDup (nbrs (sc_graph c) p) /\ forall q, In q (nbrs (sc_graph c) p) <-> edge_levels D e (code_bnds e b) p q.
  Proof.
    intros G K p. pose proof (surface_code_facts D e b pol c (ge2_ok D _ G) K) as CF. destruct (cf_graph _ _ _ _ _ CF) as (vs & Hvs & ->).
    split; [apply G_nbrs_NoDup; solve [assumption | apply ge2_ok; assumption]|].
    intros q. rewrite edge_levels_iff. apply G_nbrs_iff; solve [assumption | apply ge2_ok; assumption].
  Qed.
  Lemma nbrs_perm p : site D1 B1 p -> Permutation (map f (nbrs (sc_graph c1) p)) (nbrs (sc_graph c2) (f p)).
  Proof.
    intros Hp. destruct (nbrs_in _ _ _ _ _ G1 K1 p) as [N1 I1]. destruct (nbrs_in _ _ _ _ _ G2 K2 (f p)) as [N2 I2].
    apply map_perm; auto.
    - intros q Hq. apply I1 in Hq. apply Hq.
    - intros q Hq. apply I2 in Hq. apply Hq.
    - intros q Hq. rewrite I1, I2. unfold edge_levels. fold B1 B2. destruct (R_f p Hp) as (S1 & _ & L1). destruct (R_f q Hq) as (S2 & _ & L2).
      rewrite L1, L2, (R_s p q Hp Hq). tauto.
  Qed.

  Lemma parity_of st st' bit : Permutation (map f st) st' -> stab_parity (fun q => bit (f q)) st = stab_parity bit st'.
  Proof. intros P. unfold stab_parity. rewrite <- (xsum_map f bit). apply xsum_perm. assumption. Qed.
  Lemma quiet_iff bit : (forall st, In st (sc_stabs c1) -> stab_parity (fun q => bit (f q)) st = false) <-> (forall st, In st (sc_stabs c2) -> stab_parity bit st = false).
  Proof.
    destruct stabs_perm as (stabs & P & F). split; intros H st Hst.
    - apply (Permutation_in _ (Permutation_sym P)) in Hst. revert H st Hst. clear P. induction F as [|s1 s2 l1 l2 Hs F IH]; intros H st [].
      + subst. rewrite <- (parity_of _ _ _ Hs). apply H. left; reflexivity.
      + apply IH; auto. intros; apply H; right; assumption.
    - assert (H' : forall st, In st stabs -> stab_parity bit st = false) by (intros; apply H; apply (Permutation_in _ P); assumption).
      clear H P. revert H' st Hst. induction F as [|s1 s2 l1 l2 Hs F IH]; intros H st [].
      + subst. rewrite (parity_of _ _ _ Hs). apply H. left; reflexivity.
      + apply IH; auto. intros; apply H; right; assumption.
  Qed.
  Lemma gauge_iff bit : gauge_pattern c1 (fun q => bit (f q)) <-> gauge_pattern c2 bit.
  Proof.
    assert (S1 : forall q, In q (sc_syn c1) -> site D1 B1 q) by (intros q Hq; apply (cf_syn _ _ _ _ _ CF1) in Hq; apply (qubit_site _ _ _ _ Hq)).
    split; intros (s & Hs).
    - exists (fun p => s (g p)). intros q Hq. apply (Permutation_in _ (Permutation_sym syn_perm)) in Hq. apply in_map_iff in Hq. destruct Hq as (p & <- & Hp).
      rewrite (Hs p Hp), <- (xsum_perm _ _ _ (nbrs_perm p (S1 p Hp))), xsum_map. apply xsum_ext. intros x Hx.
      apply (proj2 (nbrs_in _ _ _ _ _ G1 K1 p)) in Hx. destruct Hx as (_ & Hx & _). rewrite (proj1 (proj2 (R_f x Hx))). reflexivity.
    - exists (fun p => s (f p)). intros q Hq. rewrite <- (xsum_map f s), (xsum_perm _ _ _ (nbrs_perm q (S1 q Hq))). apply Hs.
      apply (Permutation_in _ syn_perm). apply in_map. assumption.
  Qed.
  Lemma verdict_same bit sanity : (forall st, In st (sc_stabs c2) -> stab_parity bit st = false) ->
    check_correction c1 (fun q => bit (f q)) sanity = check_correction c2 bit sanity.
  Proof.
    intros Q. pose proof (proj2 (quiet_iff bit) Q) as Q1.
    pose proof (C61_verdict_exact D1 e1 b1 pol1 c1 (fun q => bit (f q)) sanity G1 K1) as V1.
    pose proof (C61_verdict_exact D2 e2 b2 pol2 c2 bit sanity G2 K2) as V2. rewrite gauge_iff in V1.
    rewrite (check_correction_eq D1 e1 b1 pol1 c1 G1 K1) in *. rewrite (check_correction_eq D2 e2 b2 pol2 c2 G2 K2) in *. f_equal.
    match type of V1 with (_ /\ Ok ?x = _) <-> _ => destruct x end; match type of V2 with (_ /\ Ok ?x = _) <-> _ => destruct x end; try reflexivity.
    - exfalso. assert (X : Ok false = Ok true) by (apply V2, V1; auto). discriminate X.
    - exfalso. assert (X : Ok false = Ok true) by (apply V1, V2; auto). discriminate X.
  Qed.
  Lemma count_f p : site D1 B1 p -> length (filter (pmem p) (sc_stabs c1)) = length (filter (pmem (f p)) (sc_stabs c2)).
  Proof.
    intros Hp. destruct stabs_perm as (stabs & P & F).
    assert (L : forall h (l l' : list (list point)), Permutation l l' -> length (filter h l) = length (filter h l')).
    { intros h l l' PP. induction PP; cbn [filter]; auto; repeat (destruct (h _)); cbn [length]; congruence. }
    rewrite <- (L _ _ _ P). clear P.
    assert (SS : forall st, In st (sc_stabs c1) -> forall q, In q st -> site D1 B1 q).
    { intros st Hst q Hq. pose proof (SurfaceComplex.stab_syn D1 e1 b1 pol1 c1 G1 K1 st q Hst Hq) as X. apply (cf_syn _ _ _ _ _ CF1) in X. apply (qubit_site _ _ _ _ X). }
    revert SS. induction F as [|s1 s2 l1 l2 Hs F IH]; intros SS; [reflexivity|]. cbn [filter].
    assert (E : pmem p s1 = pmem (f p) s2).
    { apply eq_true_iff_eq. rewrite !pmem_In. split; intros X.
      - apply (Permutation_in _ Hs). apply in_map. assumption.
      - apply (Permutation_in _ (Permutation_sym Hs)) in X. apply in_map_iff in X. destruct X as (q & Eq & Hq).
        rewrite <- (f_inj q p (SS s1 (or_introl eq_refl) q Hq) Hp Eq). assumption. }
    rewrite E. destruct (pmem (f p) s2); cbn [length]; rewrite IH; auto; intros; eapply SS; try right; eassumption.
  Qed.
  Lemma bound_iff q : In q (sc_syn c1) -> (In q (sc_bound c1) <-> In (f q) (sc_bound c2)).
  Proof.
    intros Hq. pose proof Hq as Hq'. apply (cf_syn _ _ _ _ _ CF1) in Hq'. apply qubit_site in Hq'.
    destruct (C05_qubits_checked_once_or_twice D1 e1 b1 pol1 c1 G1 K1) as (_ & _ & _ & X1 & _).
    destruct (C05_qubits_checked_once_or_twice D2 e2 b2 pol2 c2 G2 K2) as (_ & _ & _ & X2 & _).
    specialize (X1 q Hq). specialize (X2 (f q) (Permutation_in _ syn_perm (in_map f _ _ Hq))). rewrite (count_f q Hq'), X2 in X1.
    rewrite <- !pmem_In. destruct (pmem q (sc_bound c1)), (pmem (f q) (sc_bound c2)); split; congruence.
  Qed.
End Relabel.

(* ---------- one axis at a time ---------- *)
(* h carries the coordinates of one axis onto those of another; k undoes it; fl tells if it exchanges
   even and odd *)
Definition axis_iso (b1 : bnd) (d1 : Z) (b2 : bnd) (d2 : Z) (fl : bool) (h k : Z -> Z) : Prop :=
  (forall x, in_range b1 d1 x -> in_range b2 d2 (h x) /\ k (h x) = x /\ h x mod 2 = (if fl then 1 - x mod 2 else x mod 2)) /\
  (forall x, in_range b2 d2 x -> in_range b1 d1 (k x) /\ h (k x) = x) /\
  (forall x y, in_range b1 d1 x -> in_range b1 d1 y -> (step1 b1 d1 x y <-> step1 b2 d2 (h x) (h y))).

Lemma iso_id b d : axis_iso b d b d false (fun x => x) (fun x => x).
Proof. repeat split; auto; tauto. Qed.
Lemma iso_mirror_primal d : axis_iso BPrimal d BPrimal d false (fun x => 2 * d - 2 - x) (fun x => 2 * d - 2 - x).
Proof.
  unfold axis_iso, in_range, step1, wrap1. split; [intros x Hx; repeat split; try lia; Z.div_mod_to_equations; lia|]. split; [intros; lia|].
  intros x y Hx Hy. split; intros [?|[?|[? ?]]]; try discriminate; lia.
Qed.
Lemma iso_mirror_dual d : axis_iso BDual d BDual d false (fun x => 2 * d - x) (fun x => 2 * d - x).
Proof.
  unfold axis_iso, in_range, step1, wrap1. split; [intros x Hx; repeat split; try lia; Z.div_mod_to_equations; lia|]. split; [intros; lia|].
  intros x y Hx Hy. split; intros [?|[?|[? ?]]]; try discriminate; lia.
Qed.
Lemma around_cases n v x : 0 < n -> 0 <= v < n -> 0 <= x < n -> around n v x = if x + v <? n then x + v else x + v - n.
Proof.
  intros Hn Hv Hx. unfold around. destruct (Z.ltb_spec (x + v) n); [apply Z.mod_small; lia|].
  symmetry. apply Z.mod_unique with 1; lia.
Qed.
Lemma around_red n v x : 0 < n -> around n v x = around n (v mod n) x.
Proof. intros Hn. unfold around. rewrite Zplus_mod_idemp_r. reflexivity. Qed.
Lemma mod2_of_mod d v : 0 < d -> (v mod (2 * d)) mod 2 = v mod 2.
Proof. intros Hd. rewrite (Z.rem_mul_r v 2 d) by lia. rewrite Z.add_mod, Z.mul_comm, Z.mod_mul, Z.add_0_r, !Z.mod_mod by lia. reflexivity. Qed.
Lemma iso_around d v : 1 <= d -> axis_iso BPeriodic d BPeriodic d (v mod 2 =? 1) (around (2 * d) v) (around (2 * d) (- v)).
Proof.
  intros Hd.
  set (w := v mod (2 * d)). assert (Hw : 0 <= w < 2 * d) by (apply Z.mod_pos_bound; lia).
  assert (Hp : w mod 2 = v mod 2) by (apply mod2_of_mod; lia).
  set (w' := if w =? 0 then 0 else 2 * d - w). assert (Hw' : (- v) mod (2 * d) = w').
  { unfold w'. destruct (Z.eqb_spec w 0) as [E|E]; [apply Z.mod_opp_l_z; [lia|exact E]|apply Z.mod_opp_l_nz; [lia|exact E]]. }
  assert (EF : forall x, 0 <= x < 2 * d -> around (2 * d) v x = if x + w <? 2 * d then x + w else x + w - 2 * d).
  { intros x Hx. rewrite around_red by lia. fold w. apply around_cases; lia. }
  assert (EB : forall x, 0 <= x < 2 * d -> around (2 * d) (- v) x = if x + w' <? 2 * d then x + w' else x + w' - 2 * d).
  { intros x Hx. rewrite around_red by lia. rewrite Hw'. assert (0 <= w' < 2 * d) by (unfold w'; destruct (Z.eqb_spec w 0); lia). apply around_cases; lia. }
  clearbody w. clear Hw'. unfold axis_iso, in_range. split; [|split].
  - intros x Hx. rewrite (EF x) by lia.
    assert (Hr : 0 <= (if x + w <? 2 * d then x + w else x + w - 2 * d) < 2 * d) by (destruct (Z.ltb_spec (x + w) (2 * d)); lia).
    split; [lia|]. split.
    + rewrite EB by lia. unfold w'. destruct (Z.ltb_spec (x + w) (2 * d)), (Z.eqb_spec w 0); match goal with |- context [?a <? ?b] => destruct (Z.ltb_spec a b) end; lia.
    + destruct (Z.eqb_spec (v mod 2) 1); destruct (Z.ltb_spec (x + w) (2 * d)); Z.div_mod_to_equations; lia.
  - intros x Hx. rewrite (EB x) by lia.
    assert (Hr : 0 <= (if x + w' <? 2 * d then x + w' else x + w' - 2 * d) < 2 * d) by (unfold w'; destruct (Z.eqb_spec w 0); match goal with |- context [?a <? ?b] => destruct (Z.ltb_spec a b) end; lia).
    split; [lia|]. rewrite EF by lia. unfold w'. destruct (Z.eqb_spec w 0); repeat match goal with |- context [?a <? ?b] => destruct (Z.ltb_spec a b) end; lia.
  - intros x y Hx Hy. rewrite (EF x), (EF y) by lia. unfold step1, wrap1.
    destruct (Z.ltb_spec (x + w) (2 * d)), (Z.ltb_spec (y + w) (2 * d)); split; intros [?|[?|(_ & ?)]];
      try (left; lia); try (right; left; lia); right; right; split; auto; lia.
Qed.
Lemma iso_mirror_periodic d : 1 <= d -> axis_iso BPeriodic d BPeriodic d false (fun x => around (2 * d) (- x) 0) (fun x => around (2 * d) (- x) 0).
Proof.
  intros Hd. assert (E : forall x, 0 <= x < 2 * d -> around (2 * d) (- x) 0 = if x =? 0 then 0 else 2 * d - x).
  { intros x Hx. unfold around. rewrite Z.add_0_l. destruct (Z.eqb_spec x 0) as [-> |]; [apply Z.mod_0_l; lia|].
    symmetry. apply Z.mod_unique with (-1); lia. }
  unfold axis_iso, in_range. split; [|split].
  - intros x Hx. rewrite (E x) by lia. destruct (Z.eqb_spec x 0) as [-> |]; (split; [lia|]; split; [rewrite E by lia; match goal with |- context [?a =? ?b] => destruct (Z.eqb_spec a b) end; lia|Z.div_mod_to_equations; lia]).
  - intros x Hx. rewrite (E x) by lia. destruct (Z.eqb_spec x 0) as [-> |]; (split; [lia|]; rewrite E by lia; match goal with |- context [?a =? ?b] => destruct (Z.eqb_spec a b) end; lia).
  - intros x y Hx Hy. rewrite (E x), (E y) by lia. unfold step1, wrap1.
    destruct (Z.eqb_spec x 0), (Z.eqb_spec y 0); split; intros [?|[?|(_ & ?)]];
      try (left; lia); try (right; left; lia); right; right; split; auto; lia.
Qed.
Lemma iso_up d : axis_iso BPrimal d BDual d true (fun x => x + 1) (fun x => x - 1).
Proof.
  unfold axis_iso, in_range, step1, wrap1. split; [intros x Hx; repeat split; try lia; Z.div_mod_to_equations; lia|]. split; [intros; lia|].
  intros x y Hx Hy. split; intros [?|[?|[? ?]]]; try discriminate; lia.
Qed.
Lemma iso_down d : axis_iso BDual d BPrimal d true (fun x => x - 1) (fun x => x + 1).
Proof.
  unfold axis_iso, in_range, step1, wrap1. split; [intros x Hx; repeat split; try lia; Z.div_mod_to_equations; lia|]. split; [intros; lia|].
  intros x y Hx Hy. split; intros [?|[?|[? ?]]]; try discriminate; lia.
Qed.

(* three axes at once *)
Definition three (h : axis -> Z -> Z) (s : axis -> axis) (p : point) : point := (h AX (co (s AX) p), h AY (co (s AY) p), h AZ (co (s AZ) p)).
Lemma co_three h s a p : co a (three h s p) = h a (co (s a) p).
Proof. destruct a; reflexivity. Qed.
Lemma point_eq p q : (forall a, co a p = co a q) -> p = q.
Proof. intros H. destruct p as [[x y] z], q as [[x' y'] z']. pose proof (H AX) as X. pose proof (H AY) as Y. pose proof (H AZ) as Z. cbn in X, Y, Z. subst. reflexivity. Qed.

(* coordinate a of the image comes from coordinate s a of the source; s is its own inverse *)
Lemma three_relabels D1 e1 b1 D2 e2 b2 fl (h k : axis -> Z -> Z) (s : axis -> axis) :
  s = (fun a => a) \/ s = (fun a => match a with AX => AY | AY => AX | AZ => AZ end) ->
  (fl = true <-> e1 <> e2) ->
  (forall a, axis_iso (get (s a) (documented_bnds e1 b1)) (get (s a) D1) (get a (documented_bnds e2 b2)) (get a D2) fl (h a) (k a)) ->
  relabelling D1 e1 b1 D2 e2 b2 (three h s) (three (fun a => k (s a)) s).
Proof.
  intros Hs Hfl H. assert (SS : forall a, s (s a) = a) by (destruct Hs as [-> | ->]; intros []; reflexivity).
  assert (NI : forall a b, b <> a -> s b <> s a) by (intros a b N E; apply N; rewrite <- (SS a), <- (SS b), E; reflexivity).
  unfold relabelling. split; [|split].
  - intros p Hp. assert (K : forall a, in_range (get a (documented_bnds e2 b2)) (get a D2) (h a (co (s a) p)) /\ k a (h a (co (s a) p)) = co (s a) p /\
      h a (co (s a) p) mod 2 = (if fl then 1 - co (s a) p mod 2 else co (s a) p mod 2)) by (intros a; apply (H a), Hp).
    split; [intros a; rewrite co_three; apply K|]. split.
    + apply point_eq. intros a. rewrite co_three, co_three. rewrite (proj1 (proj2 (K (s a)))), SS. reflexivity.
    + unfold level, nodd. rewrite !co_three. rewrite (proj2 (proj2 (K AX))), (proj2 (proj2 (K AY))), (proj2 (proj2 (K AZ))).
      assert (F : e1 = e2 /\ fl = false \/ e1 <> e2 /\ fl = true).
      { destruct fl; [right; split; [apply Hfl; reflexivity|reflexivity]|left; split; [|reflexivity]]. destruct e1, e2; try reflexivity; exfalso; assert (X : false = true) by (apply Hfl; discriminate); discriminate X. }
      destruct F as [[F ->]|[F ->]]; destruct Hs as [-> | ->]; destruct e1, e2; try congruence; try (exfalso; apply F; reflexivity); try discriminate F; lia.
  - intros p Hp. split.
    + intros a. rewrite co_three. specialize (H (s a)). rewrite SS in H. apply H, Hp.
    + apply point_eq. intros a. rewrite !co_three, SS. apply (H a), Hp.
  - intros p q Hp Hq. assert (KK : forall a, k a (h a (co (s a) p)) = co (s a) p /\ k a (h a (co (s a) q)) = co (s a) q) by (intros a; split; apply (H a); auto).
    assert (IJ : forall a, h a (co (s a) q) = h a (co (s a) p) <-> co (s a) q = co (s a) p).
    { intros a. split; [intros E; rewrite <- (proj2 (KK a)), E; apply KK|congruence]. }
    split; intros (a & Ha & Hb); exists (s a); (split; [|intros b Nb]).
    + rewrite !co_three. pose proof (proj2 (proj2 (H (s a)))) as X. rewrite SS in X. rewrite SS. apply X; auto.
    + rewrite !co_three. apply IJ. apply Hb. intros E. apply Nb. rewrite <- E, SS. reflexivity.
    + rewrite !co_three in Ha. apply (proj2 (proj2 (H a))) in Ha; auto.
    + specialize (Hb (s b)). rewrite !co_three in Hb. specialize (IJ (s b)). rewrite SS in IJ, Hb. apply IJ, Hb. intros E. apply Nb. rewrite <- E, SS. reflexivity.
Qed.
