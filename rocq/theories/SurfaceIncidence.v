(* SurfaceIncidence.v: incidence of qubits and cells; parity sums over stabilizers. *)
From Verif Require Import Base Lattice RhgModel RhgSpec RhgProofs RhgDegree SurfaceModel SurfaceSpec SurfaceProofs.
Open Scope Z_scope.

Definition in_rangeb (b : bnd) (d c : Z) : bool :=
  match b with
  | BPrimal => (0 <=? c) && (c <=? 2 * d - 2)
  | BDual => (1 <=? c) && (c <=? 2 * d - 1)
  | BPeriodic => (0 <=? c) && (c <=? 2 * d - 1)
  end.

Lemma in_rangeb_true b d c : in_rangeb b d c = true <-> in_range b d c.
Proof. destruct b; simpl; rewrite andb_true_iff; lia. Qed.

Definition siteb (D : dims) (B : bnds) (p : point) : bool :=
  forallb (fun a => in_rangeb (get a B) (get a D) (co a p)) axes.

Lemma siteb_true D B p : siteb D B p = true <-> site D B p.
Proof.
  unfold siteb, site. rewrite forallb_forall. split.
  - intros H a. apply in_rangeb_true. apply H. apply axes_all.
  - intros H a _. apply in_rangeb_true. apply H.
Qed.

Lemma in_moves D a p q : In q (moves D a p) <->
  (co a q = nxt (get a D) (co a p) \/ co a q = prv (get a D) (co a p)) /\
  forall b, b <> a -> co b q = co b p.
Proof.
  unfold moves. simpl. split.
  - intros [<-|[<-|[]]]; rewrite co_setco_same; (split; [auto|intros; apply co_setco_other; congruence]).
  - intros [H Ho]. apply axis_point in Ho. rewrite Ho. destruct H as [H|H]; rewrite H; auto.
Qed.

Definition on_cellb (D : dims) (B : bnds) (c q : point) : bool :=
  siteb D B q && existsb (fun a => pmem q (moves D a c)) axes.

(* the largest coordinate of a qubit along the open axis *)
Definition hi (e : ecx) (d : Z) : Z := 2 * d - 2 + par e.

(* Do both neighbours along an axis of a coordinate of parity par e stay in range? *)
Lemma range_moves e k d x :
  2 <= d -> in_range k d x -> x mod 2 = par e ->
  (in_range k d (nxt d x) <-> ~ (k = ec_bnd e /\ x = hi e d)) /\
  (in_range k d (prv d x) <-> ~ (k = ec_bnd e /\ x = par e)).
Proof.
  intros Hd Hr Hp. unfold nxt, prv, hi, par in *.
  destruct (x =? 2 * d - 1) eqn:E1, (x =? 0) eqn:E2; destruct k, e; simpl in *;
    split; (split; [intros H [H1 H2]; try discriminate H1; lia|intros H]);
    first [lia | (match type of H with ~ (_ /\ ?P) =>
      assert (~ P) by (intros ?; apply H; split; [reflexivity|assumption]); lia end)].
Qed.

Section Inc.
  Variables (D : dims) (e : ecx) (B : bnds).
  Hypothesis H2 : dims_ge2 D.

  Lemma site_bounds p a : site D B p -> 0 <= co a p <= 2 * get a D - 1.
  Proof. intros H. specialize (H a). destruct (get a B); simpl in *; lia. Qed.

  Lemma moves_sym p q a : site D B p -> site D B q -> In q (moves D a p) -> In p (moves D a q).
  Proof.
    intros Hp Hq H. apply in_moves in H. destruct H as [H Ho]. apply in_moves.
    split; [|intros; symmetry; auto].
    pose proof (site_bounds p a Hp). pose proof (site_bounds q a Hq). specialize (H2 a).
    unfold nxt, prv in *.
    destruct (co a p =? 2 * get a D - 1) eqn:?, (co a p =? 0) eqn:?, (co a q =? 2 * get a D - 1) eqn:?, (co a q =? 0) eqn:?; lia.
  Qed.

  Lemma moves_step p q a : site D B p -> site D B q -> In q (moves D a p) -> step D B p q.
  Proof.
    intros Hp Hq H. apply in_moves in H. destruct H as [H Ho]. exists a. split; [|assumption].
    specialize (Hp a). specialize (Hq a). specialize (H2 a). unfold step1, wrap1, nxt, prv in *.
    destruct (co a p =? 2 * get a D - 1) eqn:?, (co a p =? 0) eqn:?; destruct (get a B); simpl in *;
      destruct H as [H|H]; try lia; right; right; (split; [reflexivity|lia]).
  Qed.

  Lemma on_cellb_true c q : cell D e B c -> (on_cellb D B c q = true <-> on_cell D e B c q).
  Proof.
    intros Hc. apply cell_par in Hc. destruct Hc as [Hs Hp].
    unfold on_cellb, on_cell. rewrite andb_true_iff, siteb_true, existsb_exists. split.
    - intros [Hq [a [_ Hm]]]. apply pmem_In in Hm. split; [|apply (moves_step c q a); assumption].
      apply qubit_axis_iff. split; [assumption|]. exists a.
      apply in_moves in Hm. destruct Hm as [Hm Ho].
      split; [|intros b Hb; rewrite Ho by assumption; apply Hp].
      specialize (Hp a). pose proof (site_bounds c a Hs). unfold nxt, prv, par in *.
      destruct (co a c =? 2 * get a D - 1) eqn:?, (co a c =? 0) eqn:?; destruct e; lia.
    - intros [Hq Hst]. apply qubit_axis_iff in Hq. destruct Hq as [Hq _]. split; [assumption|].
      destruct (step_in_moves D B H2 c q Hs Hq Hst) as [a [Hm _]].
      exists a. split; [apply axes_all|apply pmem_In; assumption].
  Qed.

  (* the cells around a qubit are its two neighbours along its axis, when in range *)
  Lemma cells_of_qubit q a : site D B q -> has_axis e q a ->
    forall c, (cell D e B c /\ on_cell D e B c q) <-> (site D B c /\ In c (moves D a q)).
  Proof.
    intros Hq Ha c. split.
    - intros [Hc [Hqq Hst]]. pose proof (proj1 (cell_par D e B c) Hc) as [Hs Hp]. split; [assumption|].
      destruct (step_in_moves D B H2 c q Hs Hq Hst) as [a' [Hm _]].
      assert (a' = a).
      { apply (has_axis_unique e q); [|assumption].
        apply in_moves in Hm. destruct Hm as [Hm Ho]. split; [|intros b Hb; rewrite Ho by assumption; apply Hp].
        specialize (Hp a'). pose proof (site_bounds c a' Hs). unfold nxt, prv, par in *.
        destruct (co a' c =? 2 * get a' D - 1) eqn:?, (co a' c =? 0) eqn:?; destruct e; lia. }
      subst a'. apply moves_sym; assumption.
    - intros [Hs Hm].
      assert (Hc : cell D e B c).
      { apply cell_par. split; [assumption|]. intros b. destruct Ha as [Ha1 Ha2].
        apply in_moves in Hm. destruct Hm as [Hm Ho]. destruct (axis_eq_dec b a) as [->|n].
        - pose proof (site_bounds q a Hq). unfold nxt, prv, par in *.
          destruct (co a q =? 2 * get a D - 1) eqn:?, (co a q =? 0) eqn:?; destruct e; lia.
        - rewrite Ho by assumption. apply Ha2. assumption. }
      split; [assumption|]. split.
      + apply qubit_axis_iff. eauto.
      + apply step_sym. apply (moves_step q c a); assumption.
  Qed.

  Lemma moves_NoDup a q : NoDup (moves D a q).
  Proof.
    unfold moves. repeat constructor; simpl; auto.
    intros [H|[]]. apply setco_inj in H. exact (nxt_ne_prv _ _ (H2 a) (eq_sym H)).
  Qed.

  Lemma move_site q a x : site D B q -> (site D B (setco a x q) <-> in_range (get a B) (get a D) x).
  Proof.
    intros Hq. split.
    - intros H. specialize (H a). rewrite co_setco_same in H. assumption.
    - intros H b. destruct (axis_eq_dec a b) as [<-|n]; [rewrite co_setco_same; assumption|].
      rewrite co_setco_other by assumption. apply Hq.
  Qed.

  (* centres containing q, as a list *)
  Lemma centres_of_qubit (f : point -> bool) q a : site D B q -> has_axis e q a ->
    Permutation (filter (fun c => f c && on_cellb D B c q) (centres D e B))
                (filter (fun c => f c && siteb D B c) (moves D a q)).
  Proof.
    intros Hq Ha. apply NoDup_Permutation.
    - apply NoDup_filter, centres_NoDup.
    - apply NoDup_filter, moves_NoDup.
    - intros c. rewrite !filter_In, in_centres, !andb_true_iff, siteb_true.
      pose proof (cells_of_qubit q a Hq Ha c) as Hc. split.
      + intros (H1 & H3 & H4). apply on_cellb_true in H4; [|assumption]. tauto.
      + intros (H1 & H3 & H4). destruct Hc as [_ Hc]. destruct (Hc (conj H4 H1)) as [Hc1 Hc2].
        split; [assumption|]. split; [assumption|]. apply on_cellb_true; assumption.
  Qed.

  (* number of cells of a qubit *)
  Lemma cell_count q a : site D B q -> has_axis e q a ->
    length (filter (fun c => on_cellb D B c q) (centres D e B)) =
    (if bnd_eqb (get a B) (ec_bnd e) && ((co a q =? par e) || (co a q =? hi e (get a D))) then 1%nat else 2%nat).
  Proof.
    intros Hq Ha.
    change (filter (fun c => on_cellb D B c q)) with (filter (fun c => true && on_cellb D B c q)).
    rewrite (Permutation_length (centres_of_qubit (fun _ => true) q a Hq Ha)).
    destruct (range_moves e (get a B) (get a D) (co a q) (H2 a) (Hq a) (proj1 Ha)) as [R1 R2].
    unfold moves. cbn [filter andb].
    assert (E1 : siteb D B (setco a (nxt (get a D) (co a q)) q) =
                 negb (bnd_eqb (get a B) (ec_bnd e) && (co a q =? hi e (get a D)))).
    { apply eq_true_iff_eq. rewrite siteb_true, (move_site q a _ Hq), R1.
      rewrite negb_true_iff, andb_false_iff, Z.eqb_neq.
      rewrite <- not_true_iff_false, bnd_eqb_true. split; [|tauto].
      destruct (bnd_eq_dec (get a B) (ec_bnd e)); [|tauto]. right. intros Hx. tauto. }
    assert (E2 : siteb D B (setco a (prv (get a D) (co a q)) q) =
                 negb (bnd_eqb (get a B) (ec_bnd e) && (co a q =? par e))).
    { apply eq_true_iff_eq. rewrite siteb_true, (move_site q a _ Hq), R2.
      rewrite negb_true_iff, andb_false_iff, Z.eqb_neq.
      rewrite <- not_true_iff_false, bnd_eqb_true. split; [|tauto].
      destruct (bnd_eq_dec (get a B) (ec_bnd e)); [|tauto]. right. intros Hx. tauto. }
    rewrite E1, E2. pose proof (H2 a).
    destruct (bnd_eqb _ _); simpl; [|reflexivity].
    unfold hi. destruct (co a q =? par e) eqn:F1, (co a q =? 2 * get a D - 2 + par e) eqn:F2; simpl; try reflexivity.
    lia.
  Qed.
End Inc.

(* ------------------------------------------------------------------ *)
(* parity sums *)

Section Sums.
  Variables (D : dims) (e : ecx) (B : bnds) (syn : list point).
  Hypothesis H2 : dims_ge2 D.
  Hypothesis Hnd : NoDup syn.
  Hypothesis Hsyn : forall q, In q syn <-> qubit D e B q.
  Variable bit : point -> bool.

  (* parity of the cell with centre c *)
  Definition cpar (c : point) : bool := xsum (fun q => on_cellb D B c q && bit q) syn.

  Lemma stab_cpar c st : cell D e B c -> NoDup st -> (forall q, In q st <-> on_cell D e B c q) ->
    xsum bit st = cpar c.
  Proof.
    intros Hc Hn Hst. unfold cpar. rewrite <- xsum_filter. apply xsum_perm.
    apply NoDup_Permutation; [assumption|apply NoDup_filter; assumption|].
    intros q. rewrite filter_In, Hst, Hsyn, (on_cellb_true D e B H2 c q Hc).
    split; [intros H; split; [apply H|assumption]|tauto].
  Qed.

  (* a sum over selected cells, seen from the qubits *)
  Definition around (f : point -> bool) (q : point) : bool :=
    xsum (fun c => f c && on_cellb D B c q) (centres D e B).

  Lemma sum_cells f :
    xsum (fun c => f c && cpar c) (centres D e B) = xsum (fun q => around f q && bit q) syn.
  Proof.
    unfold cpar, around.
    transitivity (xsum (fun c => xsum (fun q => f c && (on_cellb D B c q && bit q)) syn) (centres D e B)).
    { apply xsum_ext. intros c _. symmetry. apply xsum_andb_l. }
    rewrite xsum_swap. apply xsum_ext. intros q _.
    rewrite andb_comm. rewrite <- xsum_andb_l. apply xsum_ext. intros c _.
    destruct (f c), (on_cellb D B c q), (bit q); reflexivity.
  Qed.

  Lemma around_moves f q a : site D B q -> has_axis e q a ->
    around f q = xorb (f (setco a (nxt (get a D) (co a q)) q) && siteb D B (setco a (nxt (get a D) (co a q)) q))
                      (f (setco a (prv (get a D) (co a q)) q) && siteb D B (setco a (prv (get a D) (co a q)) q)).
  Proof.
    intros Hq Ha. unfold around.
    rewrite xsum_odd, (Permutation_length (centres_of_qubit D e B H2 f q a Hq Ha)), <- xsum_odd.
    unfold moves. simpl. rewrite xorb_false_r. reflexivity.
  Qed.

  (* on an axis that is not of the boundary kind of e both neighbouring cells exist *)
  Lemma full_sites q a : site D B q -> has_axis e q a -> get a B <> ec_bnd e ->
    siteb D B (setco a (nxt (get a D) (co a q)) q) = true /\
    siteb D B (setco a (prv (get a D) (co a q)) q) = true.
  Proof.
    intros Hq Ha Hf. rewrite !siteb_true, !(move_site D B q a _ Hq).
    destruct (range_moves e (get a B) (get a D) (co a q) (H2 a) (Hq a) (proj1 Ha)) as [R1 R2].
    rewrite R1, R2. tauto.
  Qed.

  (* plane parity *)
  Definition plane (a : axis) (s : Z) : bool := xsum (fun q => (co a q =? s) && bit q) syn.

  Lemma plane_step a s :
    (forall b, b <> a -> get b B <> ec_bnd e) ->
    s mod 2 = par e -> par e <= s -> s + 2 <= hi e (get a D) ->
    xsum (fun c => (co a c =? s + 1) && cpar c) (centres D e B) = xorb (plane a s) (plane a (s + 2)).
  Proof.
    intros Hfull Hs Hs0 Hs2. rewrite sum_cells. unfold plane. rewrite <- xsum_xorb.
    apply xsum_ext. intros q Hq. apply Hsyn in Hq. apply qubit_axis_iff in Hq. destruct Hq as [Hsite [b Hb]].
    rewrite (around_moves _ q b Hsite Hb).
    assert (Hpar : par e = 0 \/ par e = 1) by (unfold par; destruct e; auto).
    destruct (axis_eq_dec b a) as [->|n].
    - rewrite !co_setco_same.
      pose proof (site_bounds D B q a Hsite) as Hbd. pose proof (H2 a) as Hd2. destruct Hb as [Hb1 _].
      destruct (range_moves e (get a B) (get a D) (co a q) (H2 a) (Hsite a) Hb1) as [R1 R2].
      assert (E1 : (nxt (get a D) (co a q) =? s + 1) && siteb D B (setco a (nxt (get a D) (co a q)) q) = (co a q =? s)).
      { apply eq_true_iff_eq. rewrite andb_true_iff, siteb_true, (move_site D B q a _ Hsite), R1, !Z.eqb_eq.
        unfold nxt, hi in *. split.
        - intros [H _]. destruct (co a q =? 2 * get a D - 1) eqn:?; lia.
        - intros H. destruct (co a q =? 2 * get a D - 1) eqn:?; [lia|]. split; [lia|].
          intros [_ Hh]. lia. }
      assert (E2 : (prv (get a D) (co a q) =? s + 1) && siteb D B (setco a (prv (get a D) (co a q)) q) = (co a q =? s + 2)).
      { apply eq_true_iff_eq. rewrite andb_true_iff, siteb_true, (move_site D B q a _ Hsite), R2, !Z.eqb_eq.
        unfold prv, hi in *. split.
        - intros [H _]. destruct (co a q =? 0) eqn:?; lia.
        - intros H. destruct (co a q =? 0) eqn:?; [lia|]. split; [lia|].
          intros [_ Hh]. lia. }
      rewrite E1, E2. destruct (co a q =? s), (co a q =? s + 2), (bit q); reflexivity.
    - destruct (full_sites q b Hsite Hb (Hfull b n)) as [F1 F2]. rewrite F1, F2.
      rewrite !co_setco_other by assumption. rewrite xorb_nilpotent. simpl.
      destruct Hb as [_ Hb]. specialize (Hb a (fun E => n (eq_sym E))).
      assert (E1 : (co a q =? s) = false) by (apply Z.eqb_neq; lia).
      assert (E2 : (co a q =? s + 2) = false) by (apply Z.eqb_neq; lia).
      rewrite E1, E2. reflexivity.
  Qed.

  Lemma planes_equal a :
    (forall b, b <> a -> get b B <> ec_bnd e) ->
    (forall c, cell D e B c -> cpar c = false) ->
    forall k : nat, par e + 2 * Z.of_nat k <= hi e (get a D) -> plane a (par e + 2 * Z.of_nat k) = plane a (par e).
  Proof.
    intros Hfull Htriv. induction k as [|k IH]; intros Hk.
    - f_equal. lia.
    - rewrite <- IH by lia.
      assert (Hz : xsum (fun c => (co a c =? (par e + 2 * Z.of_nat k) + 1) && cpar c) (centres D e B) = false).
      { apply xsum_all_false. intros c Hc. apply in_centres in Hc. rewrite (Htriv c Hc). apply andb_false_r. }
      rewrite (plane_step a (par e + 2 * Z.of_nat k) Hfull) in Hz; try lia.
      + replace (par e + 2 * Z.of_nat (S k)) with (par e + 2 * Z.of_nat k + 2) by lia.
        destruct (plane a (par e + 2 * Z.of_nat k)), (plane a (par e + 2 * Z.of_nat k + 2)); simpl in Hz; congruence.
      + assert (par e = 0 \/ par e = 1) by (unfold par; destruct e; auto). lia.
  Qed.

  (* no boundary: the number of odd cells is even *)
  Lemma total_parity : (forall a, get a B <> ec_bnd e) -> xsum cpar (centres D e B) = false.
  Proof.
    intros Hfull.
    rewrite (xsum_ext cpar (fun c => true && cpar c)) by reflexivity.
    rewrite (sum_cells (fun _ => true)). apply xsum_all_false. intros q Hq.
    apply Hsyn in Hq. apply qubit_axis_iff in Hq. destruct Hq as [Hs [a Ha]].
    rewrite (around_moves _ q a Hs Ha).
    destruct (full_sites q a Hs Ha (Hfull a)) as [F1 F2]. rewrite F1, F2. reflexivity.
  Qed.
End Sums.
