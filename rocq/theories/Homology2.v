(* Homology2.v: pushing a pattern of bit flips along an axis (see Homology.v). *)
From Verif Require Import Base Lattice RhgModel RhgSpec RhgProofs RhgDegree SurfaceModel SurfaceSpec
  SurfaceProofs SurfaceIncidence SurfaceTheorems SurfaceGauge PropsSurface CvMacroGauge Homology.
Open Scope Z_scope.

Lemma setco_setco a x y p : setco a x (setco a y p) = setco a x p.
Proof.
  apply point_ext. intros b. destruct (axis_eq_dec a b) as [<-|n]; [rewrite !co_setco_same; reflexivity|].
  rewrite !co_setco_other by assumption. reflexivity.
Qed.
Lemma setco_comm a b x y p : a <> b -> setco a x (setco b y p) = setco b y (setco a x p).
Proof.
  intros N. apply point_ext. intros k. destruct (axis_eq_dec a k) as [<-|n].
  - rewrite co_setco_same, co_setco_other, co_setco_same by congruence. reflexivity.
  - rewrite (co_setco_other a k) by assumption. destruct (axis_eq_dec b k) as [<-|n']; [rewrite !co_setco_same; reflexivity|].
    rewrite !co_setco_other by assumption. reflexivity.
Qed.
Lemma setco_id a p : setco a (co a p) p = p.
Proof.
  apply point_ext. intros b. destruct (axis_eq_dec a b) as [<-|n]; [rewrite co_setco_same; reflexivity|].
  rewrite co_setco_other by assumption. reflexivity.
Qed.
Lemma cumZ_andb b F y : b && cumZ F y = cumZ (fun x => b && F x) y.
Proof. destruct b; [reflexivity|]. symmetry. apply cumZ_false. reflexivity. Qed.
Lemma nxt_ne d x : 2 <= d -> nxt d x <> x.
Proof. intros. unfold nxt. destruct (Z.eqb_spec x (2 * d - 1)); lia. Qed.
Lemma prv_ne d x : 2 <= d -> prv d x <> x.
Proof. intros. unfold prv. destruct (Z.eqb_spec x 0); lia. Qed.
Lemma nxt_mod d x : nxt d x mod 2 = 1 - x mod 2.
Proof. unfold nxt. destruct (Z.eqb_spec x (2 * d - 1)); lia. Qed.
Lemma prv_mod d x : prv d x mod 2 = 1 - x mod 2.
Proof. unfold prv. destruct (Z.eqb_spec x 0); lia. Qed.

Section Push.
  Variables (D : dims) (e : ecx) (b : bdk) (pol : option (point * point -> Z)) (c : scode).
  Hypothesis H2 : dims_ge2 D.
  Hypothesis HC : is_surface_code D e b pol c.
  Let B := code_bnds e b.
  Let HD : dims_ok D B := ge2_ok D B H2.
  Let CF : code_facts D e b pol c := surface_code_facts D e b pol c HD HC.

  Definition kb (a : axis) : bnd := get a B.
  (* the sum over the two neighbours along an axis *)
  Definition mv (a : axis) (f : point -> bool) (p : point) : bool :=
    let d := get a D in let x := co a p in
    xorb (inr (kb a) d (nxt d x) && f (setco a (nxt d x) p)) (inr (kb a) d (prv d x) && f (setco a (prv d x) p)).

  Lemma site_mv a f p : site D B p -> xsum f (filter (siteb D B) (moves D a p)) = mv a f p.
  Proof.
    intros Hp. unfold mv, moves, inr, kb. cbn zeta.
    assert (K : forall x, siteb D B (setco a x p) = in_rangeb (get a B) (get a D) x).
    { intros x. destruct (in_rangeb (get a B) (get a D) x) eqn:E.
      - apply siteb_true, (move_site D B p a x Hp). apply in_rangeb_true. assumption.
      - destruct (siteb D B (setco a x p)) eqn:E'; [|reflexivity]. apply siteb_true, (move_site D B p a x Hp), in_rangeb_true in E'. congruence. }
    rewrite xsum_filter. cbn [xsum]. rewrite !K, xorb_false_r. reflexivity.
  Qed.
  Lemma moves_apart a a' p q : a <> a' -> In q (moves D a p) -> ~ In q (moves D a' p).
  Proof.
    intros N H H'. apply in_moves in H, H'. destruct H as [H _], H' as [_ H']. rewrite (H' a N) in H.
    destruct H as [H|H]; symmetry in H; [apply (nxt_ne _ _ (H2 a)) in H|apply (prv_ne _ _ (H2 a)) in H]; assumption.
  Qed.

  (* the neighbours of a syndrome qubit *)
  Lemma qubit_nbrs p q : qubit D e B q -> (In p (nbrs (sc_graph c) q) <-> qubit D (anti e) B p /\ step D B q p).
  Proof.
    intros Hq. destruct (cf_graph _ _ _ _ _ CF) as [vs [Hvs HG]]. fold B in Hvs, HG. rewrite HG.
    rewrite (G_nbrs_iff D B HD pol vs Hvs). unfold lattice_edge.
    assert (Hx : forall p, ~ (primal_vertex D B p /\ dual_vertex D B p)). { intros v [[_ X] [_ Y]]. lia. }
    pose proof (Hx p). pose proof (Hx q). pose proof (step_sym D B p q). pose proof (step_sym D B q p).
    unfold qubit, anti in *. destruct e; tauto.
  Qed.

  Section Axes.
    Variables (a b1 b2 : axis).
    Hypothesis N1 : b1 <> a.
    Hypothesis N2 : b2 <> a.
    Hypothesis N12 : b1 <> b2.
    Hypothesis Hall : forall x, x = a \/ x = b1 \/ x = b2.

    Lemma nbrs_sum s q : site D B q -> has_axis e q a -> xsum s (nbrs (sc_graph c) q) = xorb (mv b1 s q) (mv b2 s q).
    Proof.
      intros Hs Ha. assert (Hq : qubit D e B q) by (apply qubit_axis_iff; eauto).
      rewrite <- !site_mv by assumption. rewrite <- xsum_app, <- filter_app. apply xsum_perm. apply NoDup_Permutation.
      - destruct (cf_graph _ _ _ _ _ CF) as [vs [Hvs HG]]. rewrite HG. apply G_nbrs_NoDup.
      - apply NoDup_filter, NoDup_app_intro; [apply moves_NoDup; assumption|apply moves_NoDup; assumption|].
        intros x Hx Hx'. exact (moves_apart b1 b2 q x N12 Hx Hx').
      - intros p. rewrite (qubit_nbrs p q Hq), filter_In, in_app_iff, siteb_true. split.
        + intros [Hp Hst]. apply qubit_axis_iff in Hp. destruct Hp as [Hsp [x Hx]]. split; [|assumption].
          destruct (step_in_moves D B H2 q p Hs Hsp Hst) as [a' [Hm Hpar]].
          destruct (Hall a') as [-> | [-> | -> ]]; auto. exfalso.
          apply in_moves in Hm. destruct Hm as [_ Hm]. pose proof (proj1 Ha) as Pa.
          pose proof (proj2 Ha b1 N1) as P1. pose proof (proj2 Ha b2 N2) as P2. rewrite <- Hm in P1, P2 by assumption.
          destruct Hx as [Q1 Q2]. rewrite par_anti in Q1, Q2.
          destruct (Hall x) as [-> | [-> | -> ]].
          * specialize (Q2 b1 N1). destruct (par_cases e); lia.
          * assert (Qa := Q2 a ltac:(congruence)). specialize (Q2 b2 ltac:(congruence)). destruct (par_cases e); lia.
          * specialize (Q2 b1 ltac:(congruence)). destruct (par_cases e); lia.
        + intros [Hm Hsp]. assert (K : forall x y, x <> a -> y <> a -> x <> y -> (forall z, z = a \/ z = x \/ z = y) -> In p (moves D x q) -> qubit D (anti e) B p /\ step D B q p).
          { intros x y Nx Ny Nxy Hall' Hm'. split; [|apply (moves_step D B H2 q p x); assumption]. apply qubit_axis_iff. split; [assumption|].
            apply in_moves in Hm'. destruct Hm' as [M1 M2]. exists y. split.
            - rewrite M2 by congruence. rewrite (proj2 Ha y Ny), par_anti. reflexivity.
            - intros z Hz. rewrite par_anti. destruct (Hall' z) as [-> | [-> | -> ]]; [|  |congruence].
              + rewrite M2 by congruence. rewrite (proj1 Ha). lia.
              + pose proof (proj2 Ha x Nx) as Px. destruct M1 as [-> | ->]; [rewrite nxt_mod|rewrite prv_mod]; lia. }
          destruct Hm as [Hm|Hm]; [apply (K b1 b2); auto|apply (K b2 b1); auto].
          intros z. destruct (Hall z) as [|[|]]; auto.
    Qed.

    Lemma cell_sum z x : cell D e B x -> cpar D B (sc_syn c) z x = xorb (mv a z x) (xorb (mv b1 z x) (mv b2 z x)).
    Proof.
      intros Hx. pose proof (proj1 (cell_par D e B x) Hx) as [Hs _]. unfold cpar. rewrite <- xsum_filter.
      rewrite <- !site_mv by assumption. rewrite <- !xsum_app, <- !filter_app. apply xsum_perm. apply NoDup_Permutation.
      - apply NoDup_filter, (cf_syn_nd _ _ _ _ _ CF).
      - apply NoDup_filter, NoDup_app_intro; [apply moves_NoDup; assumption|apply NoDup_app_intro; try (apply moves_NoDup; assumption)|].
        + intros y Hy Hy'. exact (moves_apart b1 b2 x y N12 Hy Hy').
        + intros y Hy Hy'. apply in_app_iff in Hy'. destruct Hy' as [Hy'|Hy']; [exact (moves_apart a b1 x y ltac:(congruence) Hy Hy')|exact (moves_apart a b2 x y ltac:(congruence) Hy Hy')].
      - intros q. rewrite !filter_In, !in_app_iff, (cf_syn _ _ _ _ _ CF). fold B. split.
        + intros [_ Ho]. unfold on_cellb in Ho. apply andb_true_iff in Ho. destruct Ho as [H1 Ho]. split; [|assumption].
          apply existsb_exists in Ho. destruct Ho as (a' & _ & Hm). apply pmem_In in Hm. destruct (Hall a') as [-> | [-> | -> ]]; auto.
        + intros [Hm Hsq]. assert (Ho : on_cellb D B x q = true).
          { unfold on_cellb. rewrite Hsq. apply existsb_exists. destruct Hm as [Hm|[Hm|Hm]]; [exists a|exists b1|exists b2]; (split; [apply axes_all|apply pmem_In; assumption]). }
          split; [|assumption]. apply (on_cellb_true D e B H2 x q Hx) in Ho. apply Ho.
    Qed.

    Variable z : point -> bool.
    Hypothesis Hz : forall x, cell D e B x -> cpar D B (sc_syn c) z x = false.
    (* flips that push the pattern along the axis a *)
    Definition pusher (p : point) : bool :=
      (co a p mod 2 =? par e) && cumZ (fun x => cellc e (kb a) (get a D) x && z (setco a x p)) (co a p).
    Definition pushed (q : point) : bool := xorb (xsum pusher (nbrs (sc_graph c) q)) (z q).
    Definition colsum (q : point) : bool := cumZ (fun x => cellc e (kb a) (get a D) x && z (setco a x q)) (2 * get a D).

    (* a qubit whose own axis is b1 *)
    Lemma pushed_same q : site D B q -> has_axis e q a ->
      pushed q = match cut e (kb a) (get a D) with Some s => z (setco a s q) | None => false end.
    Proof.
      intros Hs Ha. unfold pushed. rewrite (nbrs_sum pusher q Hs Ha).
      set (dd := get a D). set (y := co a q).
      assert (K : forall x, x <> a -> mv x pusher q = cumZ (fun v => cellc e (kb a) dd v && mv x z (setco a v q)) y).
      { intros x Nx. unfold mv. cbn zeta.
        assert (G : forall w, pusher (setco x w q) = cumZ (fun v => cellc e (kb a) dd v && z (setco x w (setco a v q))) y).
        { intros w. unfold pusher. rewrite co_setco_other by assumption. rewrite (proj1 Ha), Z.eqb_refl. cbn [andb]. fold y dd.
          apply cumZ_ext. intros v _. rewrite (setco_comm a x) by congruence. reflexivity. }
        rewrite !G, !cumZ_andb, <- cumZ_xor. apply cumZ_ext. intros v _. rewrite co_setco_other by congruence.
        destruct (cellc e (kb a) dd v), (inr (kb x) (get x D) (nxt (get x D) (co x q))), (inr (kb x) (get x D) (prv (get x D) (co x q))),
          (z (setco x (nxt (get x D) (co x q)) (setco a v q))), (z (setco x (prv (get x D) (co x q)) (setco a v q))); reflexivity. }
      rewrite !K by assumption. rewrite <- cumZ_xor.
      rewrite (cumZ_ext _ (fun v => cellc e (kb a) dd v && xorb (inr (kb a) dd (nxt dd v) && z (setco a (nxt dd v) q)) (inr (kb a) dd (prv dd v) && z (setco a (prv dd v) q)))).
      - rewrite (push_edges e (kb a) dd (H2 a) (fun v => z (setco a v q)) y (Hs a) (proj1 Ha)). unfold y. rewrite setco_id.
        destruct (cut e (kb a) dd) as [s|]; [destruct (z q), (z (setco a s q)); reflexivity|destruct (z q); reflexivity].
      - intros v _. destruct (cellc e (kb a) dd v) eqn:Ec; [|reflexivity]. cbn [andb].
        assert (Hcell : cell D e B (setco a v q)).
        { apply cell_par. unfold cellc in Ec. apply andb_true_iff in Ec. destruct Ec as [E1 E2]. apply Z.eqb_eq in E2. split.
          - apply (move_site D B q a v Hs). apply in_rangeb_true. exact E1.
          - intros x. destruct (axis_eq_dec a x) as [<-|n]; [rewrite co_setco_same; assumption|]. rewrite co_setco_other by assumption. apply (proj2 Ha). congruence. }
        pose proof (Hz _ Hcell) as Hc. rewrite (cell_sum z _ Hcell) in Hc.
        assert (E : mv a z (setco a v q) = xorb (inr (kb a) dd (nxt dd v) && z (setco a (nxt dd v) q)) (inr (kb a) dd (prv dd v) && z (setco a (prv dd v) q))).
        { unfold mv. cbn zeta. rewrite co_setco_same, !setco_setco. reflexivity. }
        rewrite <- E. destruct (mv a z (setco a v q)), (mv b1 z (setco a v q)), (mv b2 z (setco a v q)); try reflexivity; discriminate.
    Qed.
  End Axes.

  Lemma pushed_other a b1 b2 z q : b1 <> a -> b2 <> a -> b1 <> b2 -> (forall x, x = a \/ x = b1 \/ x = b2) ->
    site D B q -> has_axis e q b1 ->
    pushed a z q = isbase e (kb a) (get a D) (co a q) && colsum a z q.
  Proof.
    intros N1 N2 N12 Hall Hs Ha. unfold pushed.
    rewrite (nbrs_sum b1 a b2 ltac:(congruence) ltac:(congruence) ltac:(congruence) ltac:(intros x; destruct (Hall x) as [|[|]]; auto) (pusher a z) q Hs Ha).
    assert (Pa : co a q mod 2 = 1 - par e) by (apply (proj2 Ha); congruence).
    assert (E2 : mv b2 (pusher a z) q = false).
    { unfold mv. cbn zeta. assert (G : forall w, pusher a z (setco b2 w q) = false).
      { intros w. unfold pusher. rewrite co_setco_other by congruence. rewrite Pa. destruct (Z.eqb_spec (1 - par e) (par e)); [lia|reflexivity]. }
      rewrite !G, !andb_false_r. reflexivity. }
    rewrite E2, xorb_false_r. set (F := fun x => cellc e (kb a) (get a D) x && z (setco a x q)).
    assert (G : forall w, w mod 2 = par e -> pusher a z (setco a w q) = cumZ F w).
    { intros w Hw. unfold pusher. rewrite co_setco_same, Hw, Z.eqb_refl. cbn [andb]. apply cumZ_ext. intros v _. rewrite setco_setco. reflexivity. }
    unfold mv. cbn zeta. rewrite !G by (rewrite ?nxt_mod, ?prv_mod; lia).
    assert (Hc : cellc e (kb a) (get a D) (co a q) = true).
    { unfold cellc. rewrite Pa, Z.eqb_refl, andb_true_r. apply in_rangeb_true. apply (Hs a). }
    rewrite (push_cells e (kb a) (get a D) (H2 a) F (co a q)); [|intros y Hy; unfold F; rewrite Hy; reflexivity|exact Hc].
    assert (EF : F (co a q) = z q) by (unfold F; rewrite Hc, setco_id; reflexivity). rewrite EF.
    change (cumZ F (2 * get a D)) with (colsum a z q). destruct (z q), (isbase e (kb a) (get a D) (co a q) && colsum a z q); reflexivity.
  Qed.

  (* what is left after pushing along a: away from the axis a only the base layer, along it the
     same value at every step *)
  Definition normal (a : axis) (z : point -> bool) : Prop :=
    (forall q x, site D B q -> has_axis e q x -> x <> a -> z q = true -> isbase e (kb a) (get a D) (co a q) = true) /\
    (forall q, site D B q -> has_axis e q a -> z q = match cut e (kb a) (get a D) with Some s => z (setco a s q) | None => false end).
  Lemma others (a x : axis) : x <> a -> exists y, x <> a /\ y <> a /\ x <> y /\ forall w, w = a \/ w = x \/ w = y.
  Proof.
    intros N. destruct a, x; try congruence;
      [exists AZ|exists AY|exists AZ|exists AX|exists AY|exists AX]; (split; [discriminate|split; [discriminate|split; [discriminate|intros []; auto]]]).
  Qed.
  Lemma cut_range a s : cut e (kb a) (get a D) = Some s -> in_range (get a B) (get a D) s /\ s mod 2 = par e.
  Proof.
    unfold cut, kb. pose proof (H2 a). destruct (get a B), e; intros E; try discriminate; injection E as <-; cbn [in_range par]; (split; [lia|]); try reflexivity; lia.
  Qed.
  Lemma cut_qubit a s q : cut e (kb a) (get a D) = Some s -> site D B q -> has_axis e q a -> site D B (setco a s q) /\ has_axis e (setco a s q) a.
  Proof.
    intros Hc Hs Ha. apply cut_range in Hc. destruct Hc as [C1 C2]. split; [apply (move_site D B q a s Hs); assumption|]. split.
    - rewrite co_setco_same. assumption.
    - intros x Hx. rewrite co_setco_other by congruence. apply (proj2 Ha). assumption.
  Qed.
  Lemma col_qubit a x v q : x <> a -> cellc e (kb a) (get a D) v = true -> site D B q -> has_axis e q x -> site D B (setco a v q) /\ has_axis e (setco a v q) x.
  Proof.
    intros N Hc Hs Ha. unfold cellc in Hc. apply andb_true_iff in Hc. destruct Hc as [C1 C2]. apply Z.eqb_eq in C2. split.
    - apply (move_site D B q a v Hs), in_rangeb_true. exact C1.
    - split; [rewrite co_setco_other by congruence; apply Ha|]. intros y Hy. destruct (axis_eq_dec a y) as [<-|n]; [rewrite co_setco_same; assumption|].
      rewrite co_setco_other by assumption. apply (proj2 Ha). assumption.
  Qed.

  Lemma pushed_normal a z : (forall x, cell D e B x -> cpar D B (sc_syn c) z x = false) -> normal a (pushed a z).
  Proof.
    intros Hz. destruct (three_axes a) as (b1 & b2 & N1 & N2 & N12 & Hall). split.
    - intros q x Hs Hx Nx Hp. destruct (others a x Nx) as (y & _ & Ny & Nxy & Hall').
      rewrite (pushed_other a x y z q) in Hp by assumption. apply andb_true_iff in Hp. apply Hp.
    - intros q Hs Ha. pose proof (pushed_same a b1 b2 N1 N2 N12 Hall z Hz) as K. rewrite (K q Hs Ha).
      destruct (cut e (kb a) (get a D)) as [s|] eqn:Ec; [|reflexivity].
      destruct (cut_qubit a s q Ec Hs Ha) as [S1 S2]. rewrite (K _ S1 S2), setco_setco. reflexivity.
  Qed.
  (* pushing along another axis keeps what was achieved *)
  Lemma pushed_keeps a a' z : a' <> a -> (forall x, cell D e B x -> cpar D B (sc_syn c) z x = false) -> normal a z -> normal a (pushed a' z).
  Proof.
    intros N Hz [K1 K2]. destruct (three_axes a') as (b1 & b2 & N1 & N2 & N12 & Hall). 
    pose proof (pushed_same a' b1 b2 N1 N2 N12 Hall z Hz) as Ks. split.
    - intros q x Hs Hx Nx Hp. destruct (axis_eq_dec x a') as [-> |Nx'].
      + rewrite (Ks q Hs Hx) in Hp. destruct (cut e (kb a') (get a' D)) as [s|] eqn:Ec; [|discriminate].
        destruct (cut_qubit a' s q Ec Hs Hx) as [S1 S2]. rewrite <- (co_setco_other a' a s q N). apply (K1 _ a'); assumption.
      + destruct (others a' x Nx') as (y & _ & Ny & Nxy & Hall').
        rewrite (pushed_other a' x y z q) in Hp by assumption. apply andb_true_iff in Hp. destruct Hp as [_ Hp].
        apply cumZ_true in Hp. destruct Hp as (v & _ & Hv). apply andb_true_iff in Hv. destruct Hv as [V1 V2].
        destruct (col_qubit a' x v q Nx' V1 Hs Hx) as [S1 S2]. rewrite <- (co_setco_other a' a v q N). apply (K1 _ x); assumption.
    - intros q Hs Ha. destruct (others a' a ltac:(congruence)) as (y & _ & Ny & Nay & Hall').
      assert (G : forall q', site D B q' -> has_axis e q' a -> pushed a' z q' = isbase e (kb a') (get a' D) (co a' q') && colsum a' z q').
      { intros q' Hs' Ha'. apply (pushed_other a' a y z q'); auto. }
      rewrite (G q Hs Ha). destruct (cut e (kb a) (get a D)) as [s|] eqn:Ec.
      + destruct (cut_qubit a s q Ec Hs Ha) as [S1 S2]. rewrite (G _ S1 S2). rewrite co_setco_other by congruence. f_equal.
        unfold colsum. apply cumZ_ext. intros v _. destruct (cellc e (kb a') (get a' D) v) eqn:Ev; [|reflexivity]. cbn [andb].
        destruct (col_qubit a' a v q ltac:(congruence) Ev Hs Ha) as [T1 T2]. rewrite (K2 _ T1 T2). rewrite (setco_comm a' a) by assumption. reflexivity.
      + unfold colsum. rewrite (cumZ_false _ (2 * get a' D)); [apply andb_false_r|]. intros v _. destruct (cellc e (kb a') (get a' D) v) eqn:Ev; [|reflexivity]. cbn [andb].
        destruct (col_qubit a' a v q ltac:(congruence) Ev Hs Ha) as [T1 T2]. rewrite (K2 _ T1 T2). reflexivity.
  Qed.
End Push.
