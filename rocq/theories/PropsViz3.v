(* PropsViz3.v: C64, the axes limits of the syndrome plot, the nodes shown with it and the lines of the recovery. *)
From Coq Require Import String.
From Verif Require Import Base Lattice RhgModel RhgSpec RhgProofs SurfaceModel SurfaceSpec SurfaceProofs SurfaceIncidence SurfaceTheorems SurfaceGauge StabGraphModel Paths Complex
  SurfaceComplex PropsRhg PropsSurface MwpmModel MwpmProofs MwpmInst MwpmSides PropsMwpm PropsMwpm2 SimModel VizModel PropsViz PropsViz2.
Open Scope Z_scope.

(* a point (in hundredths) inside the limits of the axes *)
Definition inside (lims : (Z * Z) * (Z * Z) * (Z * Z)) (v : point) : Prop := forall a, 100 * fst (get a lims) <= co a v <= 100 * snd (get a lims).

Lemma plot_limits D e b pol c g indices bits index_dict o pic : is_surface_code D e b pol c -> syndrome_plot c g indices bits index_dict o = Ok pic ->
  sp_lims pic = ((0, 2 * get AX D), (match e with EcPrimal => 0 | EcDual => -2 end, 2 * get AY D), (0, 2 * get AZ D)) /\
  (so_show_nodes o = true -> exists p, sp_nodes pic = Some p /\ draw_matplotlib g indices (so_color_nodes o) (so_color_edges o) (so_label o) VNone (so_legend o) None = Ok p).
Proof.
  intros (ED & EE & _) H. unfold syndrome_plot in H.
  destruct (if so_show_nodes o then bind (draw_matplotlib g indices (so_color_nodes o) (so_color_edges o) (so_label o) VNone (so_legend o) None) (fun p => Ok (Some p)) else Ok None) as [nd|] eqn:En; [|discriminate H].
  cbn [bind] in H. destruct (mapM (stab_box bits) (combine (sc_phys c) (sc_stabs c))) as [boxes|]; [|discriminate H]. cbn [bind] in H. destruct (plot_cubes boxes) as [polys|]; [|discriminate H]. cbn [bind] in H.
  destruct (if so_label_boundary o && _ then _ else Ok []) as [bd|]; [|discriminate H]. cbn [bind] in H. injection H as <-. cbn [sp_lims sp_nodes]. rewrite ED, EE. split; [reflexivity|].
  intros Hs. rewrite Hs in En. destruct (draw_matplotlib g indices (so_color_nodes o) (so_color_edges o) (so_label o) VNone (so_legend o) None) as [p|]; [|discriminate En]. cbn [bind] in En. injection En as <-. eauto.
Qed.
Lemma in_faces (P : point * list point -> list (list point * string) -> Prop) l faces poly col : Forall2 P l faces -> In (poly, col) (List.concat faces) -> exists xs fs, In xs l /\ P xs fs /\ In (poly, col) fs.
Proof. intros F H. apply in_concat in H. destruct H as (fs & H1 & H2). destruct (F2_in_r _ _ _ _ F H1) as (xs & H3 & H4). eauto. Qed.
Lemma box_corners lo hi polys poly v : is_box lo hi polys -> In poly polys -> In v poly -> corner lo hi v.
Proof. intros (sides & _ & _ & F) Hp Hv. destruct (F2_in_r _ _ _ _ F Hp) as (sd & _ & (v1 & v2 & v3 & v4 & _ & _ & K & _)). apply K. exact Hv. Qed.
Lemma box_side lo hi polys a s : is_box lo hi polys -> s = co a lo \/ s = co a hi -> exists poly v, In poly polys /\ In v poly /\ co a v = s.
Proof.
  intros (sides & _ & Hs & F) H. apply (proj2 (Hs a s)) in H. destruct (F2_in_l _ _ _ _ F H) as (poly & Hp & (v1 & v2 & v3 & v4 & E & _ & K & _)). exists poly, v1. split; [exact Hp|].
  assert (Hv : In v1 poly) by (rewrite E; left; reflexivity). split; [exact Hv|]. apply (K v1 Hv).
Qed.
Lemma coord_parity e x : nodd x = match e with EcPrimal => 3 | EcDual => 0 end -> forall a, co a x mod 2 = match e with EcPrimal => 1 | EcDual => 0 end.
Proof.
  intros Hp a. unfold nodd in Hp. pose proof (Z.mod_pos_bound (co AX x) 2 ltac:(lia)). pose proof (Z.mod_pos_bound (co AY x) 2 ltac:(lia)). pose proof (Z.mod_pos_bound (co AZ x) 2 ltac:(lia)).
  destruct e, a; lia.
Qed.

(* C64.  "Setting plot limits to give some room to the boxes": in a primal code every box is inside the limits of the axes ... *)
Theorem C64_limits_primal : forall D b pol c g indices bits index_dict o pic, dims_ge2 D -> is_surface_code D EcPrimal b pol c -> syndrome_plot c g indices bits index_dict o = Ok pic ->
  forall poly col v, In (poly, col) (sp_polys pic) -> In v poly -> inside (sp_lims pic) v.
Proof.
  intros D b pol c g indices bits index_dict o pic HD HC Hp poly col v H1 H2.
  destruct (C64_boxes D EcPrimal b pol c g indices bits index_dict o pic HD HC Hp) as (ctrs & faces & _ & Hc & _ & Ef & F & _). destruct (plot_limits _ _ _ _ _ _ _ _ _ _ _ HC Hp) as [-> _].
  rewrite Ef in H1. destruct (in_faces _ _ _ _ _ F H1) as ((x & st) & fs & Hx & (HB & _) & Hin). cbn [fst snd] in *. apply in_combine_l in Hx. apply Hc in Hx. destruct Hx as [Hs Hn].
  pose proof (box_corners _ _ _ _ _ HB (in_map fst _ _ Hin) H2) as K. pose proof (coord_parity EcPrimal x Hn) as P. intros a. specialize (K a). specialize (P a). cbn match in P. specialize (Hs a). pose proof (HD a).
  assert (E : co a (cube_lo x) = 100 * co a x - 85 /\ co a (cube_hi x) = 100 * co a x + 85) by (destruct a; split; reflexivity). destruct E as [E1 E2]. rewrite E1, E2 in K. clear E1 E2.
  assert (R : 1 <= co a x <= 2 * get a D - 1) by (unfold in_range in Hs; destruct (get a (documented_bnds EcPrimal b)); lia).
  clear - R K. destruct D as [[dx dy] dz]. destruct a; cbn [get fst snd] in *; lia.
Qed.
Print Assumptions C64_limits_primal.

(* ... but in no dual code: some box sticks out of the axes, at x < 0. *)
Theorem C64_limits_dual_refuted : forall D b pol c g indices bits index_dict o pic, dims_ge2 D -> is_surface_code D EcDual b pol c -> syndrome_plot c g indices bits index_dict o = Ok pic ->
  exists poly col v, In (poly, col) (sp_polys pic) /\ In v poly /\ co AX v = -85 /\ ~ inside (sp_lims pic) v.
Proof.
  intros D b pol c g indices bits index_dict o pic HD HC Hp.
  destruct (C64_boxes D EcDual b pol c g indices bits index_dict o pic HD HC Hp) as (ctrs & faces & _ & Hc & Fs & Ef & F & _). destruct (plot_limits _ _ _ _ _ _ _ _ _ _ _ HC Hp) as [-> _].
  assert (Hx : In (0, 2, 2) ctrs). { apply Hc. pose proof (HD AX). pose proof (HD AY). pose proof (HD AZ). split; [intros a; destruct b, a; cbn; unfold co in *; cbn in *; lia|reflexivity]. }
  destruct (F2_in_l _ _ _ _ Fs Hx) as (st & _).
  assert (Hx2 : exists st, In ((0, 2, 2), st) (combine ctrs (sc_stabs c))).
  { clear - Fs Hx. induction Fs as [|x s l m H Fs IH]; [destruct Hx|]. destruct Hx as [-> |Hx]; [exists s; left; reflexivity|]. destruct (IH Hx) as (t & Ht). exists t. right. exact Ht. }
  destruct Hx2 as (st' & Hx2). destruct (F2_in_l _ _ _ _ F Hx2) as (fs & Hfs & HB & _). cbn [fst] in HB.
  destruct (box_side _ _ _ AX (-85) HB) as (poly & v & H1 & H2 & H3); [left; reflexivity|]. apply in_map_iff in H1. destruct H1 as ((poly' & col) & E & H1). cbn [fst] in E. subst poly'.
  exists poly, col, v. rewrite Ef. split; [apply in_concat; eauto|]. split; [exact H2|]. split; [exact H3|]. intros K. specialize (K AX). rewrite H3 in K. cbn in K. lia.
Qed.
Print Assumptions C64_limits_dual_refuted.

(* C64.  With show_nodes the dots have y and z exchanged, the boxes have not.  Around the box of a stabilizer with equal y and z the dots are
   those of its qubits ... *)
Theorem C64_diagonal_cells : forall D e B x q, co AY x = co AZ x -> on_cell D e B x q -> (forall a, Z.abs (co a q - co a x) <= 1) ->
  exists a, Z.abs (co a (exchange q) - co a x) = 1 /\ forall b, b <> a -> co b (exchange q) = co b x.
Proof.
  intros D e B [[x1 x2] x3] [[q1 q2] q3] Hd (_ & a & H1 & H2) Hq. pose proof (Hq a) as Ha. unfold step1, wrap1 in H1.
  assert (N : co a (q1, q2, q3) <> co a (x1, x2, x3)).
  { intros E. rewrite E in H1. destruct H1 as [H1|[H1|(_ & [[H1 H1']|[H1 H1']])]]; try lia. }
  exists (match a with AX => AX | AY => AZ | AZ => AY end). unfold exchange. split.
  - destruct a; unfold co in *; cbn [get fst snd] in *; lia.
  - intros b Hb. pose proof (H2 AX) as K1. pose proof (H2 AY) as K2. pose proof (H2 AZ) as K3. destruct a, b; try congruence; unfold co in *; cbn [get fst snd] in *;
      repeat match goal with K : _ <> _ -> _ |- _ => first [specialize (K ltac:(discriminate))|clear K] end; lia.
Qed.
Print Assumptions C64_diagonal_cells.

(* ... but every code has a stabilizer all of whose qubits are shown away from its box. *)
Theorem C64_misplaced_refuted : forall D e b pol c g indices bits index_dict o pic, dims_ge2 D -> is_surface_code D e b pol c -> syndrome_plot c g indices bits index_dict o = Ok pic ->
  so_show_nodes o = true -> (forall q, qubit D e (documented_bnds e b) q -> In q (map fst (vg_nodes g))) ->
  exists dots x, sp_nodes pic = Some dots /\ cell D e (documented_bnds e b) x /\
    (exists poly col v, In (poly, col) (sp_polys pic) /\ In v poly /\ corner (cube_lo x) (cube_hi x) v) /\
    forall q, on_cell D e (documented_bnds e b) x q -> (forall a, Z.abs (co a q - co a x) <= 1) ->
      In (exchange q) (map fst (pc_dots dots)) /\ exists a, Z.abs (co a (exchange q) - co a x) > 1.
Proof.
  intros D e b pol c g indices bits index_dict o pic HD HC Hp Hs Hg. destruct (plot_limits _ _ _ _ _ _ _ _ _ _ _ HC Hp) as [_ K]. destruct (K Hs) as (dots & En & Ed). clear K.
  destruct (C64_boxes D e b pol c g indices bits index_dict o pic HD HC Hp) as (ctrs & faces & _ & Hc & Fs & Ef & F & _).
  set (x := match e with EcPrimal => (1, 1, 3) | EcDual => (0, 2, 0) end).
  assert (Hx : cell D e (documented_bnds e b) x). { pose proof (HD AX). pose proof (HD AY). pose proof (HD AZ). unfold x. split; [intros a; destruct e, b, a; cbn; unfold co in *; cbn in *; lia|destruct e; reflexivity]. }
  exists dots, x. split; [exact En|]. split; [exact Hx|]. split.
  - apply Hc in Hx. assert (Hx2 : exists st, In (x, st) (combine ctrs (sc_stabs c))).
    { clear - Fs Hx. induction Fs as [|y s l m H Fs IH]; [destruct Hx|]. destruct Hx as [-> |Hx]; [exists s; left; reflexivity|]. destruct (IH Hx) as (t & Ht). exists t. right. exact Ht. }
    destruct Hx2 as (st' & Hx2). destruct (F2_in_l _ _ _ _ F Hx2) as (fs & Hfs & HB & _). cbn [fst] in HB.
    destruct (box_side _ _ _ AX _ HB (or_introl eq_refl)) as (poly & v & H1 & H2 & _). pose proof (box_corners _ _ _ _ _ HB H1 H2) as H3. apply in_map_iff in H1. destruct H1 as ((poly' & col) & E & H1). cbn [fst] in E. subst poly'.
    exists poly, col, v. rewrite Ef. split; [apply in_concat; eauto|]. split; [exact H2|exact H3].
  - intros q Hq Hn. split.
    + destruct (C64_graph _ _ _ _ _ _ _ _ Ed) as (-> & _). assert (Hin : In q (map fst (vg_nodes g))) by (apply Hg, Hq). apply in_map_iff in Hin. destruct Hin as (n & <- & Hin). apply in_map_iff. exists n. auto.
    + pose proof (Hn AX) as K1. pose proof (Hn AY) as K2. pose proof (Hn AZ) as K3. destruct Hq as (_ & a & _ & H2). pose proof (H2 AX) as J1. pose proof (H2 AY) as J2. pose proof (H2 AZ) as J3. clear H2 Hn.
      destruct q as [[q1 q2] q3]. unfold x in *. clear - K1 K2 K3 J1 J2 J3. unfold exchange, co in *. destruct e; cbn [get fst snd] in *.
      * destruct (Z.eq_dec q3 2); [exists AZ|exists AY]; destruct a; repeat match goal with K : _ <> _ -> _ |- _ => first [specialize (K ltac:(discriminate))|clear K] end; cbn [get fst snd]; lia.
      * destruct (Z.eq_dec q3 1); [exists AZ|exists AY]; destruct a; repeat match goal with K : _ <> _ -> _ |- _ => first [specialize (K ltac:(discriminate))|clear K] end; cbn [get fst snd]; lia.
Qed.
Print Assumptions C64_misplaced_refuted.

(* ---------- the lines of the recovery ---------- *)
(* positions in halves *)
Definition double (p : point) : point := (2 * co AX p, 2 * co AY p, 2 * co AZ p).
(* a stabilizer is placed at the centre of its cell, a boundary point at its qubit *)
Definition placed D e b (c : scode) (u : snode) (pos : point) : Prop :=
  match u with
  | NStab i => exists x, cell D e (documented_bnds e b) x /\ pos = double x /\ (i < List.length (sc_stabs c))%nat /\ forall q, In q (nth i (sc_stabs c) []) <-> on_cell D e (documented_bnds e b) x q
  | NPt p => pos = double p /\ qubit D e (documented_bnds e b) p
  | _ => False
  end.
(* the segment from x to y meets the qubit: in its middle or at one of its ends *)
Definition meets (q x y : point) : Prop := (forall a, co a x + co a y = 2 * co a (double q)) \/ x = double q \/ y = double q.

Lemma pair_or_last {A} (p : list A) z u : In z p -> z = last p u \/ exists y, In (z, y) (pairs p).
Proof.
  revert u. induction p as [|a p IH]; intros u H; [destruct H|]. destruct p as [|b p].
  - destruct H as [<-|[]]. left. reflexivity.
  - destruct H as [<-|H]; [right; exists b; left; reflexivity|]. destruct (IH u H) as [K|(y & K)]; [left; exact K|right; exists y; right; exact K].
Qed.
Lemma F2_weaken {A B} (P Q : A -> B -> Prop) l m : (forall x y, P x y -> Q x y) -> Forall2 P l m -> Forall2 Q l m.
Proof. intros H F. induction F; constructor; auto. Qed.
Lemma edge_cv_in E u v q : edge_cv E u v = Ok q -> In (u, v, q) E \/ In (v, u, q) E.
Proof.
  unfold edge_cv. intros H. destruct (find (same_pair u v) E) as [[[a b] cv]|] eqn:F; [|discriminate H]. injection H as <-. apply find_some in F. destruct F as [F1 F2]. apply same_pair_iff in F2. cbn [fst snd] in *.
  destruct F2 as [[-> ->]|[-> ->]]; auto.
Qed.

Section Lines.
  Variables (D : dims) (e : ecx) (b : bdk) (pol : option (point * point -> Z)) (c : scode) (ch : nat -> nat -> point).
  Hypotheses (H2 : dims_ge2 D) (HC : is_surface_code D e b pol c) (Hch : valid_choice (sc_stabs c) ch).
  Let E := sg_edges (sc_stabs c) (sc_bound c) ch.
  Let n := List.length (sc_stabs c).
  Definition valid (u : snode) : Prop := match u with NStab i => (i < n)%nat | NPt p => In p (sc_bound c) | _ => False end.

  Lemma edge_valid u v q : In (u, v, Some q) E -> valid u /\ valid v.
  Proof.
    intros H. destruct (C08_stabilizer_graph_edges D e b pol c ch H2 HC Hch) as (_ & _ & Kp & Ke & _). fold E in Kp, Ke. destruct (Ke _ _ _ H) as [(j & -> & Hj & i & -> & Hi)|(p & ->)].
    - split; cbn [valid]; unfold n in *; lia.
    - apply Kp in H. destruct H as [(i & Hi & -> & _ & Hp & _)|[(_ & _ & F)|(_ & _ & F)]]; try discriminate F. split; assumption.
  Qed.
  Lemma stab_centre i : (i < n)%nat -> exists x, nth_error (centres D e (code_bnds e b)) i = Some x /\ cell D e (documented_bnds e b) x /\ drawn_at c (NStab i) = Ok (double x) /\
    forall q, In q (nth i (sc_stabs c) []) <-> on_cell D e (documented_bnds e b) x q.
  Proof.
    pose proof (surface_code_facts D e b pol c (ge2_ok D _ H2) HC) as CF. pose proof (cf_phys _ _ _ _ _ CF) as Hph. pose proof (cf_stabs _ _ _ _ _ CF) as HF.
    intros Hi. assert (K : exists x, nth_error (centres D e (code_bnds e b)) i = Some x /\ forall q, In q (nth i (sc_stabs c) []) <-> on_cell D e (code_bnds e b) x q).
    { unfold n in Hi. clear - HF Hi. revert i Hi. induction HF as [|x st l m [_ H] HF IH]; intros i Hi; [cbn in Hi; lia|]. destruct i as [|i]; [exists x; split; [reflexivity|exact H]|]. apply IH. cbn in Hi. lia. }
    destruct K as (x & Hx & Hq). exists x. split; [exact Hx|]. rewrite <- code_bnds_eq. split; [apply in_centres; apply (nth_error_In _ _ Hx)|]. split; [|exact Hq]. cbn [drawn_at].
    rewrite Hph. rewrite (nth_error_nth (map six (centres D e (code_bnds e b))) i [] (map_nth_error six _ _ Hx)), six_midpoint. reflexivity.
  Qed.
  Lemma valid_placed u : valid u -> exists pos, drawn_at c u = Ok pos /\ placed D e b c u pos.
  Proof.
    pose proof (surface_code_facts D e b pol c (ge2_ok D _ H2) HC) as CF. destruct u as [| |i|p]; cbn [valid]; try tauto.
    - intros Hi. destruct (stab_centre i Hi) as (x & _ & Cx & Ex & Qx). exists (double x). split; [exact Ex|]. exists x. auto.
    - intros Hp. exists (double p). split; [reflexivity|]. cbn [placed]. split; [reflexivity|]. rewrite <- code_bnds_eq. apply (cf_syn _ _ _ _ _ CF).
      destruct (C05_qubits_checked_once_or_twice D e b pol c H2 HC) as (_ & _ & K & _). apply K. exact Hp.
  Qed.
  (* two cells sharing a qubit in an open code: the qubit is in the middle *)
  Lemma cells_meet x y q : b = BdOpen -> cell D e (documented_bnds e b) x -> cell D e (documented_bnds e b) y -> on_cell D e (documented_bnds e b) x q -> on_cell D e (documented_bnds e b) y q -> x <> y ->
    forall a, co a x + co a y = 2 * co a q.
  Proof.
    intros Hb [_ Nx] [_ Ny] (_ & a1 & S1 & T1) (_ & a2 & S2 & T2) Hne. pose proof (coord_parity e x Nx) as Px. pose proof (coord_parity e y Ny) as Py.
    assert (NB : forall a, get a (documented_bnds e b) <> BPeriodic) by (intros a; subst b; destruct e, a; discriminate).
    assert (S1' : co a1 q = co a1 x + 1 \/ co a1 q = co a1 x - 1) by (destruct S1 as [S1|[S1|[F _]]]; [left; exact S1|right; exact S1|destruct (NB _ F)]).
    assert (S2' : co a2 q = co a2 y + 1 \/ co a2 q = co a2 y - 1) by (destruct S2 as [S2|[S2|[F _]]]; [left; exact S2|right; exact S2|destruct (NB _ F)]). clear S1 S2.
    assert (a1 = a2). { destruct (axis_eq_dec a1 a2) as [K|K]; [exact K|]. exfalso. pose proof (T2 a1 K) as T. pose proof (Px a1). pose proof (Py a1). destruct e; lia. } subst a2.
    intros a. destruct (axis_eq_dec a a1) as [-> |Ka].
    - assert (Nab : co a1 x <> co a1 y). { intros Eq. apply Hne. apply point_ext. intros a. destruct (axis_eq_dec a a1) as [-> |Ka]; [exact Eq|]. rewrite <- (T1 a Ka), <- (T2 a Ka). reflexivity. } lia.
    - rewrite <- (T1 a Ka), (T2 a Ka). rewrite <- (T2 a Ka). lia.
  Qed.
  Lemma step_meets u v q pu pv : In (u, v, Some q) E -> drawn_at c u = Ok pu -> drawn_at c v = Ok pv -> b = BdOpen -> meets q pu pv.
  Proof.
    intros H Pu Pv Hb. destruct (C08_stabilizer_graph_edges D e b pol c ch H2 HC Hch) as (_ & Ks & Kp & Ke & _). fold E in Ks, Kp, Ke. destruct (Ke _ _ _ H) as [(j & -> & Hj & i & -> & Hi)|(p & ->)].
    - destruct (Ks _ _ _ H) as (q' & Eq & Q1 & Q2). injection Eq as <-. left.
      destruct (stab_centre i) as (x & Nx & Cx & Ex & Qx); [unfold n in *; lia|]. destruct (stab_centre j Hj) as (y & Ny & Cy & Ey & Qy). rewrite Pu in Ex. rewrite Pv in Ey. injection Ex as ->. injection Ey as ->.
      assert (Hne : x <> y).
      { intros ->. rewrite <- Nx in Ny. apply (proj1 (NoDup_nth_error _) (centres_NoDup D e (code_bnds e b))) in Ny; [lia|]. apply nth_error_Some. congruence. }
      intros a. pose proof (cells_meet x y q Hb Cx Cy (proj1 (Qx q) Q1) (proj1 (Qy q) Q2) Hne a). unfold double, co in *. destruct x as [[? ?] ?], y as [[? ?] ?], q as [[? ?] ?], a; cbn [get fst snd] in *; lia.
    - apply Kp in H. destruct H as [(i & _ & _ & _ & _ & F)|[(_ & _ & F)|(_ & _ & F)]]; try discriminate F. injection F as ->. cbn [drawn_at] in Pv. injection Pv as <-. right. right. reflexivity.
  Qed.
  Lemma meets_sym q x y : meets q x y -> meets q y x.
  Proof. intros [H|[H|H]]; [left; intros a; specialize (H a); lia|right; right; exact H|right; left; exact H]. Qed.

  (* the path of an edge of the matching graph is drawn, segment by segment over the qubits of its steps *)
  Lemma path_drawn p : (forall u, In u p -> valid u) -> (forall u v, In (u, v) (pairs p) -> exists q, edge_cv E u v = Ok (Some q)) ->
    exists line, mapM (drawn_at c) p = Ok line /\ Forall2 (placed D e b c) p line /\
      Forall2 (fun uv xy => exists q, edge_cv E (fst uv) (snd uv) = Ok (Some q) /\ (b = BdOpen -> meets q (fst xy) (snd xy))) (pairs p) (pairs line).
  Proof.
    induction p as [|u p IH]; intros Hv He; [exists []; split; [reflexivity|split; constructor]|].
    destruct IH as (line & E1 & F1 & G1). { intros; apply Hv; right; assumption. } { intros x y Hxy. apply He. destruct p as [|v p]; [destruct Hxy|]. right. exact Hxy. }
    destruct (valid_placed u (Hv u (or_introl eq_refl))) as (pos & Ep & Pp). exists (pos :: line). cbn [mapM]. rewrite Ep. cbn [bind]. rewrite E1. split; [reflexivity|]. split; [constructor; assumption|].
    destruct p as [|v p]; [inversion F1; subst; constructor|]. destruct line as [|pv line]; [inversion F1|]. constructor; [|exact G1]. cbn [fst snd].
    destruct (He u v (or_introl eq_refl)) as (q & Hq). exists q. split; [exact Hq|]. intros Hb.
    assert (Ev : drawn_at c v = Ok pv). { apply mapM_inv in E1. inversion E1; subst; assumption. }
    destruct (edge_cv_in _ _ _ _ Hq) as [K|K]; [apply (step_meets u v q); assumption|apply meets_sym, (step_meets v u q); assumption].
  Qed.
End Lines.

(* C64.  The recovery drawing: whenever the paths of the matching graph stay inside the code (see C17), every matched pair is drawn as a line
   through the centres of the stabilizers and the boundary point of its path; on an open code each segment of a line passes over the qubit
   that this step of the path flips. *)
Theorem C64_recovery_lines : forall D e b pol c ch rp k w o bit mg virt M, dims_ge2 D -> is_surface_code D e b pol c -> valid_choice (sc_stabs c) ch ->
  oracle_ok (sg_edges (sc_stabs c) (sc_bound c) ch) w o -> oracle_simple o -> exact k rp w -> (forall q, 0 < w q) ->
  match_graph rp (sg_edges (sc_stabs c) (sc_bound c) ch) w o (odd_stabs (sc_stabs c) bit) (has_bound_points (sc_bound c)) = Ok (mg, virt) -> is_matching mg M ->
  exists lines, recovery_lines c mg virt M = Ok lines /\
    Forall2 (fun uv line => exists p, edge_path mg uv = Ok p /\ Forall2 (placed D e b c) p line /\
               Forall2 (fun uv xy => exists q, edge_cv (sg_edges (sc_stabs c) (sc_bound c) ch) (fst uv) (snd uv) = Ok (Some q) /\ (b = BdOpen -> meets q (fst xy) (snd xy))) (pairs p) (pairs line))
            (filter (fun uv => negb (mmem (fst uv) virt && mmem (snd uv) virt)) M) lines.
Proof.
  intros D e b pol c ch rp k w o bit mg virt M H2 HC Hch Ho Hs Hex Hw Hmg [_ HM].
  assert (PV : forall x, In x mg -> exists line, mapM (drawn_at c) (me_path x) = Ok line /\ Forall2 (placed D e b c) (me_path x) line /\
      Forall2 (fun uv xy => exists q, edge_cv (sg_edges (sc_stabs c) (sc_bound c) ch) (fst uv) (snd uv) = Ok (Some q) /\ (b = BdOpen -> meets q (fst xy) (snd xy))) (pairs (me_path x)) (pairs line)).
  { intros x Hx. destruct (C17_paths_stay_inside_partial D e b pol c ch rp k w o bit mg virt H2 HC Hch Ho Hs Hex Hw Hmg x Hx) as [_ Kp].
    apply (path_drawn D e b pol c ch H2 HC Hch); [|exact Kp]. intros z Hz.
    assert (Kv : forall u v, In (u, v) (pairs (me_path x)) -> valid c u).
    { intros u v Huv. destruct (Kp u v Huv) as (q & Hq). destruct (edge_cv_in _ _ _ _ Hq) as [K|K]; apply (edge_valid D e b pol c ch H2 HC Hch) in K; apply K. }
    assert (Oi : forall i, In i (odd_stabs (sc_stabs c) bit) -> (i < List.length (sc_stabs c))%nat). { intros i Hi. apply odd_lt in Hi. exact Hi. }
    destruct (match_graph_inv _ _ _ _ _ _ _ _ Hmg x Hx) as [(ab & Hab & He)|[[_ (ki & Hki & He)]|[_ (ab & _ & ->)]]]; [| |destruct Hz].
    - unfold mid_edge in He. destruct (sp_mid o _ _) as [p|] eqn:Hp; [|discriminate]. injection He as <-. cbn [me_path] in *.
      destruct Ho as (Ho & _). assert (Hne : NStab (fst ab) <> NStab (snd ab)). { destruct ab as [i j]. simpl. intros F. injection F as ->. eapply in_combs_neq in Hab; [congruence|apply odd_nd]. }
      specialize (Ho (NStab (fst ab)) (NStab (snd ab)) eq_refl Hne). rewrite Hp in Ho. destruct Ho as [(_ & _ & Hl) _].
      destruct (pair_or_last p z (NStab (fst ab)) Hz) as [K|(y & K)]; [|apply (Kv z y K)]. rewrite K, Hl. cbn [valid]. apply Oi. destruct ab as [i j]. apply in_combs in Hab. apply Hab.
    - unfold bound_edge in He. destruct Ho as (_ & Hl & Hh). specialize (Hl (NStab (snd ki)) ltac:(discriminate)). specialize (Hh (NStab (snd ki)) ltac:(discriminate)).
      destruct (sp_low o _) as [pl|]; [|discriminate]. destruct (sp_high o _) as [ph|]; [|discriminate].
      assert (G : exists cc, is_path (gadj (sg_edges (sc_stabs c) (sc_bound c) ch)) cc (NStab (snd ki)) (if reported rp (sg_edges (sc_stabs c) (sc_bound c) ch) w pl <=? reported rp (sg_edges (sc_stabs c) (sc_bound c) ch) w ph then pl else ph)).
      { destruct (_ <=? _); [exists NLow|exists NHigh]; [apply Hl|apply Hh]. }
      destruct G as (cc & (_ & _ & G)). destruct (if _ <=? _ then pl else ph) as [|y [|z' r]]; try discriminate. injection He as <-. cbn [me_path] in *.
      destruct (pair_or_last (z' :: r) z cc Hz) as [K|(y' & K)]; [|apply (Kv z y' K)]. change (last (y :: z' :: r) cc) with (last (z' :: r) cc) in G. rewrite K, G. cbn [valid]. apply Oi. destruct ki as [k' i]. unfold enumerate in Hki. apply in_combine_r in Hki. exact Hki. }
  destruct (mapM_ok (fun uv => bind (edge_path mg uv) (mapM (drawn_at c))) (filter (fun uv => negb (mmem (fst uv) virt && mmem (snd uv) virt)) M)) as (lines & El & Fl).
  { intros uv Huv. apply filter_In in Huv. destruct Huv as [Huv _]. destruct (HM uv Huv) as (x & Hx & Sx). unfold edge_path.
    destruct (find (same_match (fst uv) (snd uv)) mg) as [x'|] eqn:Ef; [|pose proof (find_none _ _ Ef x Hx); congruence]. apply find_some in Ef. destruct Ef as [Ef _]. cbn [bind]. destruct (PV x' Ef) as (line & E1 & _). eauto. }
  exists lines. split; [exact El|]. clear El. refine (F2_weaken _ _ _ _ _ Fl). intros uv line K. unfold edge_path in *. destruct (find (same_match (fst uv) (snd uv)) mg) as [x'|] eqn:Ef; [|discriminate K].
  apply find_some in Ef. destruct Ef as [Ef _]. cbn [bind] in K. destruct (PV x' Ef) as (line' & E1 & E2 & E3). rewrite K in E1. injection E1 as <-. exists (me_path x'). auto.
Qed.
Print Assumptions C64_recovery_lines.

(* In a periodic code a step may go around the torus, and its segment then crosses the whole picture instead of the qubit. *)
Theorem C64_wrapped_lines_refuted :
  let c := mk_code (3, 2, 2) EcPrimal BdToric None in
  let E := sg_edges (sc_stabs c) (sc_bound c) (fun i j => hd (0, 0, 0) (shared (sc_stabs c) i j)) in
  exists u v q pu pv, edge_cv E u v = Ok (Some q) /\ drawn_at c u = Ok pu /\ drawn_at c v = Ok pv /\ ~ meets q pu pv.
Proof.
  exists (NStab 0), (NStab 8), (0, 1, 1), (2, 2, 2), (10, 2, 2). split; [vm_compute; reflexivity|]. split; [vm_compute; reflexivity|]. split; [vm_compute; reflexivity|].
  intros [H|[H|H]]; [specialize (H AX); cbn in H; lia|discriminate H|discriminate H].
Qed.
Print Assumptions C64_wrapped_lines_refuted.

(* one flipped qubit of the smallest open code, at the low boundary: one red box out of four, and one line from the centre of the box to the qubit *)
Example C64_nonvacuous :
  let c := mk_code (2, 2, 2) EcPrimal BdOpen None in
  let bit := peqb (0, 1, 1) in
  let E := sg_edges (sc_stabs c) (sc_bound c) (fun i j => hd (0, 0, 0) (shared (sc_stabs c) i j)) in
  (exists pic, syndrome_plot c (view (sc_graph c)) [] (fun q => Some (Z.b2z (bit q))) [(NStab 0, 7)] default_opts = Ok pic /\
     map snd (sp_polys pic) = repeat red 6 ++ repeat green 18 /\ sp_texts pic = [((2, 2, 2), 7)]) /\
  let mg := [{| me_u := MStab 0; me_v := MVirt (NPt (0, 1, 1)) 0; me_w := 1; me_path := [NPt (0, 1, 1); NStab 0] |}] in
  recovery_lines c mg [MVirt (NPt (0, 1, 1)) 0] [(MStab 0, MVirt (NPt (0, 1, 1)) 0)] = Ok [[(0, 2, 2); (2, 2, 2)]].
Proof. split; [|vm_compute; reflexivity]. eexists. split; [vm_compute; reflexivity|]. split; vm_compute; reflexivity. Qed.

(* The title of a syndrome plot names the error complex, when it is shown. *)
Theorem C64_syndrome_title : forall D e b pol c g indices bits index_dict o pic, is_surface_code D e b pol c -> syndrome_plot c g indices bits index_dict o = Ok pic ->
  sp_title pic = if so_show_title o then Some (match e with EcPrimal => "Primal syndrome" | EcDual => "Dual syndrome" end)%string else None.
Proof.
  intros D e b pol c g indices bits index_dict o pic (_ & EE & _) H. unfold syndrome_plot in H.
  destruct (if so_show_nodes o then bind (draw_matplotlib g indices (so_color_nodes o) (so_color_edges o) (so_label o) VNone (so_legend o) None) (fun p => Ok (Some p)) else Ok None) as [nd|]; [|discriminate H].
  cbn [bind] in H. destruct (mapM (stab_box bits) (combine (sc_phys c) (sc_stabs c))) as [boxes|]; [|discriminate H]. cbn [bind] in H. destruct (plot_cubes boxes) as [polys|]; [|discriminate H]. cbn [bind] in H.
  destruct (if so_label_boundary o && _ then _ else Ok []) as [bd|]; [|discriminate H]. cbn [bind] in H. injection H as <-. cbn [sp_title]. rewrite EE. reflexivity.
Qed.
Print Assumptions C64_syndrome_title.
