(* SurfaceComplex.v: the stabilizers of a SurfaceCode form a well-formed complex;
   lemmas behind C08 and C09. *)
From Coq Require Import Relations.
From Verif Require Import Base Lattice RhgModel RhgSpec RhgProofs RhgDegree SurfaceModel SurfaceSpec
  SurfaceProofs SurfaceIncidence SurfaceTheorems StabGraphModel Complex Paths.
Open Scope Z_scope.

Lemma setco_setco a x y p : setco a x (setco a y p) = setco a x p.
Proof.
  apply point_ext. intros b. destruct (axis_eq_dec a b) as [<-|n].
  - rewrite !co_setco_same. reflexivity.
  - rewrite !co_setco_other by assumption. reflexivity.
Qed.

Lemma setco_self a p : setco a (co a p) p = p.
Proof.
  apply point_ext. intros b. destruct (axis_eq_dec a b) as [<-|n].
  - apply co_setco_same.
  - apply co_setco_other; assumption.
Qed.

Section SC.
  Variables (D : dims) (e : ecx) (b : bdk) (pol : option (point * point -> Z)) (c : scode).
  Hypothesis H2 : dims_ge2 D.
  Hypothesis HC : is_surface_code D e b pol c.
  Let B := code_bnds e b.
  Let HD : dims_ok D B := ge2_ok D B H2.
  Let CF : code_facts D e b pol c := surface_code_facts D e b pol c HD HC.

  Lemma low_high_disjoint q : In q (sc_low c) -> ~ In q (sc_high c).
  Proof.
    rewrite (cf_low _ _ _ _ _ CF), (cf_high _ _ _ _ _ CF). intros [_ [a [Ha Ea]]] [_ [a' [Ha' Ea']]].
    rewrite Ha in Ha'. injection Ha' as <-. pose proof (H2 a). clear - Ea Ea' H. destruct e; lia.
  Qed.

  Lemma bound_NoDup : NoDup (sc_bound c).
  Proof.
    unfold sc_bound. apply NoDup_app_intro; [apply (cf_low_nd _ _ _ _ _ CF)|apply (cf_high_nd _ _ _ _ _ CF)|].
    apply low_high_disjoint.
  Qed.

  Lemma bound_syn q : In q (sc_bound c) -> In q (sc_syn c).
  Proof.
    unfold sc_bound. rewrite in_app_iff, (cf_low _ _ _ _ _ CF), (cf_high _ _ _ _ _ CF), (cf_syn _ _ _ _ _ CF).
    intros [[H _]|[H _]]; exact H.
  Qed.

  Lemma stab_syn st q : In st (sc_stabs c) -> In q st -> In q (sc_syn c).
  Proof.
    intros Hst Hq. apply (cf_syn _ _ _ _ _ CF). fold B.
    pose proof (cf_stabs _ _ _ _ _ CF) as HF. fold B in HF.
    destruct (Forall2_in_r _ _ _ _ HF Hst) as [x [Hx [_ HR]]]. apply HR in Hq. apply Hq.
  Qed.

  Lemma surface_wf : wf_complex (sc_stabs c) (sc_bound c).
  Proof.
    constructor.
    - intros st Hst. pose proof (cf_stabs _ _ _ _ _ CF) as HF. fold B in HF.
      destruct (Forall2_in_r _ _ _ _ HF Hst) as [x [Hx [HR _]]]. assumption.
    - apply bound_NoDup.
    - intros q Hq. rewrite (stab_count D e b pol c H2 HC q (bound_syn q Hq)).
      apply pmem_In in Hq. rewrite Hq. reflexivity.
    - intros q Hq Hb. apply in_concat in Hq. destruct Hq as [st [Hst Hq]].
      rewrite (stab_count D e b pol c H2 HC q (stab_syn st q Hst Hq)).
      apply pmem_false in Hb. rewrite Hb. reflexivity.
  Qed.

  Lemma halves_low_high : low_half (sc_bound c) = sc_low c /\ high_half (sc_bound c) = sc_high c.
  Proof.
    unfold low_half, high_half, sc_bound. pose proof (low_high_length D e b pol c H2 HC) as Hl.
    assert (E : (length (sc_low c ++ sc_high c) / 2 = length (sc_low c))%nat).
    { rewrite app_length, <- Hl. replace (length (sc_low c) + length (sc_low c))%nat with (length (sc_low c) * 2)%nat by lia.
      apply Nat.div_mul. lia. }
    rewrite E. split.
    - rewrite firstn_app, Nat.sub_diag, firstn_all, app_nil_r. reflexivity.
    - rewrite skipn_app, Nat.sub_diag, skipn_all. reflexivity.
  Qed.

  Lemma Forall2_nth {A A'} (R : A -> A' -> Prop) l m : Forall2 R l m -> forall i d d',
    (i < length l)%nat -> R (nth i l d) (nth i m d').
  Proof.
    induction 1; intros i d d' Hi; simpl in *; [lia|]. destruct i; [assumption|]. apply IHForall2. lia.
  Qed.

  Definition ctr (i : nat) : point := nth i (centres D e B) (0, 0, 0).

  Lemma stabs_length : length (sc_stabs c) = length (centres D e B).
  Proof. symmetry. pose proof (cf_stabs _ _ _ _ _ CF) as HF. fold B in HF. induction HF; simpl; congruence. Qed.

  Lemma stab_ctr i : (i < length (sc_stabs c))%nat ->
    cell D e B (ctr i) /\ forall q, In q (stab_of (sc_stabs c) i) <-> on_cell D e B (ctr i) q.
  Proof.
    intros Hi. pose proof (cf_stabs _ _ _ _ _ CF) as HF. fold B in HF. rewrite stabs_length in Hi. split.
    - apply in_centres. apply nth_In. assumption.
    - apply (Forall2_nth _ _ _ HF i (0,0,0) [] Hi).
  Qed.

  Lemma ctr_inj i j : (i < length (sc_stabs c))%nat -> (j < length (sc_stabs c))%nat -> ctr i = ctr j -> i = j.
  Proof.
    rewrite stabs_length. intros Hi Hj Hij. eapply (NoDup_nth (centres D e B)); eauto. apply centres_NoDup.
  Qed.

  Lemma ctr_surj x : cell D e B x -> exists i, (i < length (sc_stabs c))%nat /\ ctr i = x.
  Proof.
    intros Hx. apply in_centres in Hx. destruct (In_nth _ _ (0,0,0) Hx) as [i [Hi E]].
    exists i. rewrite stabs_length. auto.
  Qed.

  (* two different cells share at most one qubit when periodic sizes are at least 3 *)
  Lemma unique_shared x y q q' : (forall a, get a B = BPeriodic -> 3 <= get a D) ->
    cell D e B x -> cell D e B y -> x <> y ->
    on_cell D e B x q -> on_cell D e B y q -> on_cell D e B x q' -> on_cell D e B y q' -> q = q'.
  Proof.
    intros H3 Hx Hy Hxy Q1 Q2 Q3 Q4.
    assert (Hmv : forall q, on_cell D e B x q -> on_cell D e B y q -> exists a, site D B q /\ In x (moves D a q) /\ In y (moves D a q)).
    { intros p P1 P2. pose proof (proj1 P1) as Hp. apply qubit_axis_iff in Hp. destruct Hp as [Hs [a Ha]].
      exists a. split; [assumption|]. split; apply (cells_of_qubit D e B H2 p a Hs Ha); auto. }
    destruct (Hmv q Q1 Q2) as (a & S1 & X1 & Y1). destruct (Hmv q' Q3 Q4) as (a' & S2 & X2 & Y2). clear Hmv.
    apply in_moves in X1, Y1, X2, Y2.
    assert (a' = a).
    { destruct (axis_eq_dec a' a) as [|n]; [assumption|exfalso]. apply Hxy. apply point_ext. intros a''.
      destruct (axis_eq_dec a'' a) as [->|n'].
      - rewrite (proj2 X2) by congruence. symmetry. apply Y2. congruence.
      - rewrite (proj2 X1) by congruence. symmetry. apply Y1. congruence. }
    subst a'.
    assert (Hc : co a x <> co a y).
    { intros F. apply Hxy. apply point_ext. intros a''. destruct (axis_eq_dec a'' a) as [->|n']; [assumption|].
      rewrite (proj2 X1) by congruence. symmetry. apply Y1. congruence. }
    apply point_ext. intros a''. destruct (axis_eq_dec a'' a) as [->|n'].
    - destruct X1 as [X1 _], X2 as [X2 _], Y1 as [Y1 _], Y2 as [Y2 _].
      assert (Sx : in_range (get a B) (get a D) (co a x)) by (apply cell_par in Hx; apply Hx).
      assert (Sy : in_range (get a B) (get a D) (co a y)) by (apply cell_par in Hy; apply Hy).
      specialize (S1 a). specialize (S2 a). specialize (H3 a). pose proof (H2 a) as Hd.
      clear - Hc X1 X2 Y1 Y2 S1 S2 H3 Hd Sx Sy.
      unfold nxt, prv in *.
      destruct (co a q =? 2 * get a D - 1) eqn:?, (co a q =? 0) eqn:?, (co a q' =? 2 * get a D - 1) eqn:?, (co a q' =? 0) eqn:?;
        destruct (get a B); simpl in *; try specialize (H3 eq_refl); lia.
    - rewrite <- (proj2 X1 a'' n'), <- (proj2 X2 a'' n'). reflexivity.
  Qed.

  Definition cell_adj (x y : point) : Prop :=
    cell D e B x /\ cell D e B y /\ exists q, on_cell D e B x q /\ on_cell D e B y q.

  Lemma cell_adj_sym x y : cell_adj x y -> cell_adj y x.
  Proof. intros (H & H' & q & H3 & H4). split; [assumption|]. split; [assumption|]. exists q; auto. Qed.

  Lemma in_range_mid k d x y z : in_range k d x -> in_range k d z -> x <= y <= z -> in_range k d y.
  Proof. destruct k; simpl; lia. Qed.

  Lemma cell_step x a : cell D e B x -> cell D e B (setco a (co a x + 2) x) -> cell_adj x (setco a (co a x + 2) x).
  Proof.
    intros Hx Hy. split; [assumption|]. split; [assumption|].
    pose proof (proj1 (cell_par D e B x) Hx) as [Sx Px].
    pose proof (proj1 (cell_par D e B _) Hy) as [Sy _].
    exists (setco a (co a x + 1) x).
    assert (Hr : in_range (get a B) (get a D) (co a x + 1)).
    { apply (in_range_mid _ _ (co a x) _ (co a x + 2)); [apply Sx| |lia].
      specialize (Sy a). rewrite co_setco_same in Sy. assumption. }
    assert (Hq : qubit D e B (setco a (co a x + 1) x)).
    { apply qubit_axis_iff. split; [apply move_site; assumption|]. exists a. split.
      - rewrite co_setco_same. specialize (Px a). pose proof (par_cases e). lia.
      - intros a' Ha'. rewrite co_setco_other by congruence. apply Px. }
    split; (split; [assumption|]); apply step_split; left; exists a; rewrite !co_setco_same.
    - split; [lia|]. intros a' Ha'. apply co_setco_other. congruence.
    - split; [lia|]. intros a' Ha'. rewrite !co_setco_other by congruence. reflexivity.
  Qed.

  Lemma cell_move x a v : cell D e B x -> in_range (get a B) (get a D) v -> v mod 2 = 1 - par e ->
    cell D e B (setco a v x).
  Proof.
    intros Hx Hv Hp. apply cell_par in Hx. destruct Hx as [Sx Px]. apply cell_par. split.
    - apply move_site; assumption.
    - intros a'. destruct (axis_eq_dec a a') as [<-|n]; [rewrite co_setco_same; assumption|].
      rewrite co_setco_other by assumption. apply Px.
  Qed.

  Lemma cell_walk a (n : nat) : forall x, cell D e B x -> cell D e B (setco a (co a x + 2 * Z.of_nat n) x) ->
    clos_refl_trans point cell_adj x (setco a (co a x + 2 * Z.of_nat n) x).
  Proof.
    induction n as [|n IH]; intros x Hx Hy.
    - replace (co a x + 2 * Z.of_nat 0) with (co a x) by lia. rewrite setco_self. apply rt_refl.
    - pose proof (proj1 (cell_par D e B x) Hx) as [Sx Px].
      pose proof (proj1 (cell_par D e B _) Hy) as [Sy _]. specialize (Sy a). rewrite co_setco_same in Sy.
      assert (Hz : cell D e B (setco a (co a x + 2) x)).
      { apply cell_move; [assumption| |specialize (Px a); lia].
        apply (in_range_mid _ _ (co a x) _ (co a x + 2 * Z.of_nat (S n))); [apply Sx|assumption|lia]. }
      eapply rt_trans; [apply rt_step, cell_step; eassumption|].
      specialize (IH _ Hz). rewrite co_setco_same, setco_setco in IH.
      replace (co a x + 2 + 2 * Z.of_nat n) with (co a x + 2 * Z.of_nat (S n)) in IH by lia.
      apply IH. assumption.
  Qed.

  Lemma rt_sym {A} (R : A -> A -> Prop) : (forall x y, R x y -> R y x) ->
    forall x y, clos_refl_trans A R x y -> clos_refl_trans A R y x.
  Proof. intros Hs x y H. induction H; [apply rt_step; auto|apply rt_refl|eapply rt_trans; eauto]. Qed.

  Lemma cell_along x a v : cell D e B x -> in_range (get a B) (get a D) v -> v mod 2 = 1 - par e ->
    clos_refl_trans point cell_adj x (setco a v x).
  Proof.
    intros Hx Hv Hp. pose proof (cell_move x a v Hx Hv Hp) as Hy.
    pose proof (proj1 (cell_par D e B x) Hx) as [Sx Px]. specialize (Px a).
    destruct (Z.le_ge_cases (co a x) v) as [Hle|Hge].
    - assert (E : v = co a x + 2 * Z.of_nat (Z.to_nat ((v - co a x) / 2))) by lia.
      rewrite E in *. apply cell_walk; assumption.
    - apply rt_sym; [apply cell_adj_sym|].
      pose proof (cell_walk a (Z.to_nat ((co a x - v) / 2)) (setco a v x) Hy) as W.
      rewrite co_setco_same, setco_setco in W.
      replace (v + 2 * Z.of_nat (Z.to_nat ((co a x - v) / 2))) with (co a x) in W by lia.
      rewrite setco_self in W. apply W. assumption.
  Qed.

  Lemma cells_connected x y : cell D e B x -> cell D e B y -> clos_refl_trans point cell_adj x y.
  Proof.
    intros Hx Hy. pose proof (proj1 (cell_par D e B y) Hy) as [Sy Py].
    set (x1 := setco AX (co AX y) x). set (x2 := setco AY (co AY y) x1). set (x3 := setco AZ (co AZ y) x2).
    assert (H1 : cell D e B x1) by (apply cell_move; auto).
    assert (H3 : cell D e B x2) by (apply cell_move; auto).
    assert (E : x3 = y).
    { apply point_ext. intros []; unfold x3, x2, x1; rewrite ?co_setco_same;
        repeat (rewrite co_setco_other by discriminate); rewrite ?co_setco_same; reflexivity. }
    rewrite <- E.
    eapply rt_trans; [apply (cell_along x AX (co AX y)); auto|].
    eapply rt_trans; [apply (cell_along x1 AY (co AY y)); auto|].
    apply (cell_along x2 AZ (co AZ y)); auto.
  Qed.

  Variable ch : nat -> nat -> point.
  Hypothesis Hch : valid_choice (sc_stabs c) ch.
  Let E := sg_edges (sc_stabs c) (sc_bound c) ch.

  Definition stab_step (u v : snode) : Prop := sadj E u v /\ (exists i, (i < length (sc_stabs c))%nat /\ u = NStab i) /\
    exists j, (j < length (sc_stabs c))%nat /\ v = NStab j.

  Lemma cells_stabs x y : clos_refl_trans point cell_adj x y -> forall i j,
    (i < length (sc_stabs c))%nat -> (j < length (sc_stabs c))%nat -> ctr i = x -> ctr j = y ->
    clos_refl_trans snode stab_step (NStab i) (NStab j).
  Proof.
    intros H. apply clos_rt_rt1n in H. induction H as [x|x y z Hxy _ IH]; intros i j Hi Hj Ei Ej.
    - assert (i = j) by (apply ctr_inj; auto; congruence). subst. apply rt_refl.
    - destruct Hxy as (Hx & Hy & q & Q1 & Q2). destruct (ctr_surj y Hy) as [k [Hk Ek]].
      eapply rt_trans; [|apply (IH k j); auto].
      destruct (Nat.eq_dec i k) as [->|n]; [apply rt_refl|]. apply rt_step. split.
      + apply (stab_adj (sc_stabs c) (sc_bound c) ch Hch); auto.
        exists q. split.
        * apply (proj2 (stab_ctr i Hi)). rewrite Ei. assumption.
        * apply (proj2 (stab_ctr k Hk)). rewrite Ek. assumption.
      + split; eauto.
  Qed.

  Lemma stabs_connected i j : (i < length (sc_stabs c))%nat -> (j < length (sc_stabs c))%nat ->
    exists p, is_path (sadj E) (NStab i) (NStab j) p /\
      forall u, In u p -> exists k, (k < length (sc_stabs c))%nat /\ u = NStab k.
  Proof.
    intros Hi Hj. destruct (stab_ctr i Hi) as [Ci _]. destruct (stab_ctr j Hj) as [Cj _].
    pose proof (cells_stabs _ _ (cells_connected _ _ Ci Cj) i j Hi Hj eq_refl eq_refl) as H.
    apply clos_rt_rt1n in H. remember (NStab i) as u eqn:Eu. remember (NStab j) as v eqn:Ev.
    assert (Hu : exists k, (k < length (sc_stabs c))%nat /\ u = NStab k) by eauto.
    clear Eu Ev. induction H as [u|u x v Hs _ IH].
    - exists [u]. split; [apply is_path_one|]. intros w [<-|[]]. assumption.
    - destruct Hs as (Ha & _ & Hx). destruct (IH Hx) as [p [Hp Hin]]. exists (u :: p). split.
      + eapply is_path_cons; eauto.
      + intros w [<-|Hw]; auto.
  Qed.
End SC.
