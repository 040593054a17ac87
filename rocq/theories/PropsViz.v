(* PropsViz.v: C64, what the pictures of a code and of its syndrome show. *)
From Coq Require Import String.
From Verif Require Import Base Lattice RhgModel RhgSpec RhgProofs SurfaceModel SurfaceSpec SurfaceProofs SurfaceIncidence SurfaceTheorems SurfaceGauge StabGraphModel Paths Complex
  SurfaceComplex PropsRhg PropsSurface MwpmModel MwpmProofs MwpmSides PropsMwpm PropsMwpm2 SimModel VizModel.
Open Scope Z_scope.

(* ---------- specification ---------- *)
(* v is a corner of the box between lo and hi *)
Definition corner (lo hi v : point) : Prop := forall a, co a v = co a lo \/ co a v = co a hi.
(* two corners joined by an edge of the box *)
Definition box_edge (v w : point) : Prop := exists a, co a v <> co a w /\ forall b, b <> a -> co b v = co b w.
(* the side of the box on which coordinate a has the value s, as a closed polygon *)
Definition is_side (lo hi : point) (side : axis * Z) (poly : list point) : Prop :=
  exists v1 v2 v3 v4, poly = [v1; v2; v3; v4] /\ NoDup poly /\ (forall v, In v poly -> corner lo hi v /\ co (fst side) v = snd side) /\
    box_edge v1 v2 /\ box_edge v2 v3 /\ box_edge v3 v4 /\ box_edge v4 v1.
(* the six sides, each once *)
Definition is_box (lo hi : point) (polys : list (list point)) : Prop :=
  exists sides, NoDup sides /\ (forall a s, In (a, s) sides <-> s = co a lo \/ s = co a hi) /\ Forall2 (is_side lo hi) sides polys.
(* the cube of edge length 1.7 around a lattice point, in hundredths *)
Definition cube_lo (x : point) : point := (100 * co AX x - 85, 100 * co AY x - 85, 100 * co AZ x - 85).
Definition cube_hi (x : point) : point := (100 * co AX x + 85, 100 * co AY x + 85, 100 * co AZ x + 85).
(* the parity of the bits of a stabilizer *)
Definition odd_bits (bits : point -> option Z) (st : list point) : bool := xsum (fun q => match bits q with Some z => Z.odd z | None => false end) st.

(* ---------- boxes ---------- *)
Lemma cuboid_is_box lo size : (forall a, 0 < co a size) ->
  is_box lo (co AX lo + co AX size, co AY lo + co AY size, co AZ lo + co AZ size) (cuboid_data lo size).
Proof.
  intros Hs. pose proof (Hs AX) as Hx. pose proof (Hs AY) as Hy. pose proof (Hs AZ) as Hz. clear Hs. destruct lo as [[lx ly] lz], size as [[sx sy] sz].
  unfold co in *. cbn [get fst snd] in *.
  exists [(AZ, lz); (AY, ly); (AX, lx + sx); (AX, lx); (AY, ly + sy); (AZ, lz + sz)]. split; [|split].
  - repeat (constructor; [simpl; intros H; repeat (destruct H as [H|H]; [injection H; try discriminate; intros; lia|]); destruct H|]). constructor.
  - intros a s. split.
    + simpl. intros H. repeat (destruct H as [H|H]; [injection H as <- <-; cbn [get fst snd]; auto|]). destruct H.
    + destruct a; cbn [get fst snd]; intros [-> | ->]; simpl; auto 10.
  - unfold cuboid_data, unit_faces. cbn [map]. unfold co. cbn [get fst snd].
    rewrite !Z.mul_0_l, !Z.mul_1_l, !Z.add_0_l, !(Z.add_comm sx), !(Z.add_comm sy), !(Z.add_comm sz).
    assert (E1 : forall (x y y' z : Z), y <> y' -> box_edge (x, y, z) (x, y', z)) by (intros; exists AY; unfold co; cbn [get fst snd]; split; [assumption|intros [] ?; cbn [get fst snd]; congruence]).
    assert (E2 : forall (x x' y z : Z), x <> x' -> box_edge (x, y, z) (x', y, z)) by (intros; exists AX; unfold co; cbn [get fst snd]; split; [assumption|intros [] ?; cbn [get fst snd]; congruence]).
    assert (E3 : forall (x y z z' : Z), z <> z' -> box_edge (x, y, z) (x, y, z')) by (intros; exists AZ; unfold co; cbn [get fst snd]; split; [assumption|intros [] ?; cbn [get fst snd]; congruence]).
    repeat (constructor; [eexists _, _, _, _; split; [reflexivity|]; split;
      [repeat (constructor; [simpl; intros H; repeat (destruct H as [H|H]; [injection H; intros; lia|]); destruct H|]); constructor|];
      split; [intros v Hv; simpl in Hv; repeat (destruct Hv as [<-|Hv]; [split; [intros []; unfold co; cbn [get fst snd]; auto|reflexivity]|]); destruct Hv|];
      repeat split; first [apply E1; lia|apply E2; lia|apply E3; lia]|]).
    constructor.
Qed.

Lemma lims_six x a : lims (six x) a = (co a x - 1, co a x + 1).
Proof. destruct x as [[u v] w]. unfold lims, six, lmin, lmax, co. destruct a; cbn [map fold_left get setco fst snd]; f_equal; lia. Qed.

Lemma parity_ok bits st : (forall q, In q st -> bits q <> None) -> parity bits st = Ok (odd_bits bits st).
Proof.
  unfold parity, odd_bits. intros H. assert (K : exists l, mapM (fun p => match bits p with Some z => Ok z | None => Err KeyError end) st = Ok l /\
    Z.odd (fold_right Z.add 0 l) = xsum (fun q => match bits q with Some z => Z.odd z | None => false end) st).
  { induction st as [|q st IH]; [exists []; split; reflexivity|]. destruct IH as (l & E1 & E2); [intros; apply H; right; assumption|].
    cbn [mapM]. specialize (H q (or_introl eq_refl)). destruct (bits q) as [z|] eqn:Eb; [|congruence]. cbn [bind]. rewrite E1. cbn [bind]. exists (z :: l). split; [reflexivity|].
    cbn [fold_right xsum]. rewrite Z.odd_add, E2, Eb. reflexivity. }
  destruct K as (l & E1 & E2). rewrite E1. cbn [bind]. rewrite E2. reflexivity.
Qed.

Lemma stab_box_six bits x st : (forall q, In q st -> bits q <> None) -> exists b, stab_box bits (six x, st) = Ok b /\ bx_lo b = cube_lo x /\ bx_size b = (170, 170, 170) /\
  bx_color b = if odd_bits bits st then red else green.
Proof.
  intros H. unfold stab_box. cbn [fst snd]. rewrite (parity_ok bits st H). cbn [bind]. eexists. split; [reflexivity|]. cbn [bx_lo bx_size bx_color]. rewrite !lims_six. cbn [fst snd]. split; [|split; [|reflexivity]].
  - unfold cube_lo. f_equal; [f_equal|]; lia.
  - f_equal; [f_equal|]; lia.
Qed.

Lemma combine_map_app {A B C} (f : A -> list B) (g : A -> list C) (l : list A) n : (forall x, List.length (f x) = n /\ List.length (g x) = n) ->
  combine (List.concat (map f l)) (flat_map g l) = List.concat (map (fun x => combine (f x) (g x)) l).
Proof.
  intros H. induction l as [|x l IH]; [reflexivity|]. cbn [map List.concat flat_map]. rewrite <- IH. destruct (H x) as [H1 H2]. clear IH H.
  assert (G : forall (u : list B) (v : list C) u' v', List.length u = List.length v -> combine (u ++ u') (v ++ v') = combine u v ++ combine u' v').
  { induction u as [|a u IH]; intros [|b v] u' v' E; try discriminate; [reflexivity|]. cbn. f_equal. apply IH. cbn in E. lia. }
  apply G. congruence.
Qed.

Lemma in_combine_of {A B} (l : list A) (m : list B) y : List.length l = List.length m -> In y m -> exists x, In (x, y) (combine l m).
Proof. revert m. induction l as [|a l IH]; intros [|b m] E Hy; try discriminate; [destruct Hy|]. destruct Hy as [<-|Hy]; [exists a; left; reflexivity|]. destruct (IH m) as (x & Hx); [cbn in E; lia|exact Hy|exists x; right; exact Hx]. Qed.
Lemma cell_of_qubit D e b pol c : dims_ge2 D -> is_surface_code D e b pol c -> forall q, qubit D e (code_bnds e b) q -> exists st, In st (sc_stabs c) /\ In q st.
Proof.
  intros HD HC q Hq. pose proof (surface_code_facts D e b pol c (ge2_ok D _ HD) HC) as CF. apply (cf_syn _ _ _ _ _ CF) in Hq.
  destruct (C05_qubits_checked_once_or_twice D e b pol c HD HC) as (_ & _ & _ & K & _). specialize (K q Hq).
  destruct (filter (pmem q) (sc_stabs c)) as [|st l] eqn:E; [destruct (pmem q (sc_bound c)); discriminate K|]. exists st.
  assert (H : In st (filter (pmem q) (sc_stabs c))) by (rewrite E; left; reflexivity). apply filter_In in H. destruct H as [H1 H2]. split; [exact H1|apply pmem_In; exact H2].
Qed.
Lemma code_has_cell D e b pol c : dims_ge2 D -> is_surface_code D e b pol c -> exists st, In st (sc_stabs c).
Proof.
  intros HD HC. pose proof (surface_code_facts D e b pol c (ge2_ok D _ HD) HC) as CF. pose proof (cf_stabs _ _ _ _ _ CF) as HF.
  assert (Hc : In (match e with EcPrimal => (1, 1, 1) | EcDual => (2, 2, 2) end) (centres D e (code_bnds e b))).
  { apply in_centres. pose proof (HD AX). pose proof (HD AY). pose proof (HD AZ). 
    split; [intros a; destruct e, b, a; cbn; unfold co in *; cbn in *; lia|destruct e; reflexivity]. }
  destruct (F2_in_l _ _ _ _ HF Hc) as (st & Hst & _). eauto.
Qed.

(* C64.  The syndrome plot of a surface code is drawn exactly when every syndrome qubit has a bit value (and the graph can be drawn, and every
   boundary point has a label, if these are asked for).  *)
Lemma plot_steps D e b pol c g indices bits index_dict o : dims_ge2 D -> is_surface_code D e b pol c ->
  (exists pic, syndrome_plot c g indices bits index_dict o = Ok pic) <->
  (forall q, In q (sc_syn c) -> bits q <> None) /\
  (so_show_nodes o = true -> exists p, draw_matplotlib g indices (so_color_nodes o) (so_color_edges o) (so_label o) VNone (so_legend o) None = Ok p) /\
  (so_label_boundary o = true -> index_dict <> [] -> forall p, In p (sc_bound c) -> label_of index_dict (NPt p) <> None).
Proof.
  intros HD HC. pose proof (surface_code_facts D e b pol c (ge2_ok D _ HD) HC) as CF. set (B := code_bnds e b) in *.
  pose proof (cf_phys _ _ _ _ _ CF) as Hph. pose proof (cf_stabs _ _ _ _ _ CF) as HF. fold B in Hph, HF. set (ctrs := centres D e B) in *.
  assert (Hlen : List.length (sc_phys c) = List.length (sc_stabs c)) by (rewrite Hph, map_length; clear - HF; induction HF; cbn; congruence).
  split.
  - intros (pic & H). unfold syndrome_plot in H.
    destruct (if so_show_nodes o then bind (draw_matplotlib g indices (so_color_nodes o) (so_color_edges o) (so_label o) VNone (so_legend o) None) (fun p => Ok (Some p)) else Ok None) as [nd|] eqn:En; [|discriminate H].
    cbn [bind] in H. destruct (mapM (stab_box bits) (combine (sc_phys c) (sc_stabs c))) as [boxes|] eqn:Eb; [|discriminate H]. cbn [bind] in H. destruct (plot_cubes boxes) as [polys|]; [|discriminate H]. cbn [bind] in H.
    split; [|split].
    + intros q Hq. apply (cf_syn _ _ _ _ _ CF) in Hq. destruct (cell_of_qubit D e b pol c HD HC q Hq) as (st & Hst & Hin).
      apply mapM_inv in Eb. destruct (in_combine_of (sc_phys c) (sc_stabs c) st Hlen Hst) as (ph & Hc). destruct (F2_in_l _ _ _ _ Eb Hc) as (bx & _ & K).
      unfold stab_box, parity in K. cbn [fst snd] in K. destruct (mapM (fun p => match bits p with Some z => Ok z | None => Err KeyError end) st) as [zs|] eqn:Ez; [|discriminate K].
      apply mapM_inv in Ez. destruct (F2_in_l _ _ _ _ Ez Hin) as (z & _ & Hz). destruct (bits q); [discriminate|discriminate Hz].
    + intros Hs. rewrite Hs in En. destruct (draw_matplotlib _ _ _ _ _ _ _ _) as [p|]; [eauto|discriminate En].
    + intros Hl Hd p Hp. rewrite Hl in H. assert (Hm : negb (match index_dict with [] => true | _ => false end) = true) by (destruct index_dict; [congruence|reflexivity]). rewrite Hm in H. cbn [andb] in H.
      destruct (mapM (fun p => match label_of index_dict (NPt p) with Some k => Ok (p, k) | None => Err KeyError end) (sc_bound c)) as [ys|] eqn:Ey; [|discriminate H].
      apply mapM_inv in Ey. destruct (F2_in_l _ _ _ _ Ey Hp) as (y & _ & K). destruct (label_of index_dict (NPt p)); [discriminate|discriminate K].
  - intros (Hbits & Hnodes & Hbound). unfold syndrome_plot.
    assert (N : exists nd, (if so_show_nodes o then bind (draw_matplotlib g indices (so_color_nodes o) (so_color_edges o) (so_label o) VNone (so_legend o) None) (fun p => Ok (Some p)) else Ok None) = Ok nd).
    { destruct (so_show_nodes o); [destruct (Hnodes eq_refl) as (p & ->); cbn [bind]; eauto|eauto]. }
    destruct N as (nd & ->). cbn [bind].
    destruct (mapM_ok (stab_box bits) (combine (sc_phys c) (sc_stabs c))) as (boxes & Eb & Fb).
    { intros [ph st] Hc. apply in_combine_r in Hc. unfold stab_box. cbn [fst snd]. rewrite (parity_ok bits st); [cbn [bind]; eauto|].
      intros q Hq. apply Hbits. apply (cf_syn _ _ _ _ _ CF). destruct (F2_in_r _ _ _ _ HF Hc) as (x & _ & _ & K). apply K in Hq. apply Hq. }
    rewrite Eb. cbn [bind].
    assert (Ne : boxes <> []).
    { intros ->. destruct (code_has_cell D e b pol c HD HC) as (st & Hst). destruct (in_combine_of (sc_phys c) (sc_stabs c) st Hlen Hst) as (ph & Hc). destruct (F2_in_l _ _ _ _ Fb Hc) as (y & [] & _). }
    unfold plot_cubes. destruct boxes as [|b0 boxes0] eqn:Eq; [congruence|]. cbn [bind].
    assert (Bd : exists bd, (if so_label_boundary o && negb (match index_dict with [] => true | _ => false end) then
          mapM (fun p => match label_of index_dict (NPt p) with Some k => Ok (p, k) | None => Err KeyError end) (sc_bound c) else Ok []) = Ok bd).
    { destruct (so_label_boundary o); [|exists []; reflexivity]. destruct index_dict as [|kv l] eqn:Ei; [exists []; reflexivity|]. rewrite <- Ei in *.
      destruct (mapM_ok (fun p => match label_of index_dict (NPt p) with Some k => Ok (p, k) | None => Err KeyError end) (sc_bound c)) as (ys & E & _).
      - intros p Hp. assert (Hd : index_dict <> []) by (rewrite Ei; discriminate). specialize (Hbound eq_refl Hd p Hp). destruct (label_of index_dict (NPt p)); [eauto|congruence].
      - exists ys. rewrite <- E. rewrite Ei. reflexivity. }
    destruct Bd as (bd & ->). cbn [bind]. eauto.
Qed.
Theorem C64_syndrome_drawn : forall D e b pol c g indices bits index_dict o, dims_ge2 D -> is_surface_code D e b pol c ->
  (exists pic, syndrome_plot c g indices bits index_dict o = Ok pic) <->
  (forall q, qubit D e (documented_bnds e b) q -> bits q <> None) /\
  (so_show_nodes o = true -> exists p, draw_matplotlib g indices (so_color_nodes o) (so_color_edges o) (so_label o) VNone (so_legend o) None = Ok p) /\
  (so_label_boundary o = true -> index_dict <> [] -> forall p, on_low D e b p \/ on_high D e b p -> label_of index_dict (NPt p) <> None).
Proof.
  intros D e b pol c g indices bits index_dict o HD HC. rewrite (plot_steps D e b pol c g indices bits index_dict o HD HC).
  pose proof (surface_code_facts D e b pol c (ge2_ok D _ HD) HC) as CF. destruct (C06_low_high_halves D e b pol c HD HC) as (L & H & _).
  assert (BP : forall p, In p (sc_bound c) <-> on_low D e b p \/ on_high D e b p). { intros p. rewrite <- L, <- H, <- in_app_iff, halves. reflexivity. }
  rewrite <- code_bnds_eq. split; intros (H1 & H2 & H3); (split; [|split; [exact H2|]]).
  - intros q Hq. apply H1, (cf_syn _ _ _ _ _ CF), Hq.
  - intros Hl Hd p Hp. apply (H3 Hl Hd), BP, Hp.
  - intros q Hq. apply H1, (cf_syn _ _ _ _ _ CF), Hq.
  - intros Hl Hd p Hp. apply (H3 Hl Hd), BP, Hp.
Qed.
Print Assumptions C64_syndrome_drawn.

(* C64.  The plot shows one box for every stabilizer, around the centre of its cell, red if the parity of its bits is odd and green if it is
   even, and the number of a labelled stabilizer in the middle of its box. *)
Theorem C64_boxes : forall D e b pol c g indices bits index_dict o pic, dims_ge2 D -> is_surface_code D e b pol c -> syndrome_plot c g indices bits index_dict o = Ok pic ->
  exists centres faces, NoDup centres /\ (forall x, In x centres <-> cell D e (documented_bnds e b) x) /\
    Forall2 (fun x st => forall q, In q st <-> on_cell D e (documented_bnds e b) x q) centres (sc_stabs c) /\
    sp_polys pic = List.concat faces /\
    Forall2 (fun xs fs => is_box (cube_lo (fst xs)) (cube_hi (fst xs)) (map fst fs) /\
                          map snd fs = repeat (if odd_bits bits (snd xs) then red else green) 6) (combine centres (sc_stabs c)) faces /\
    (so_label_stabilizers o = true -> forall i x k, nth_error centres i = Some x -> label_of index_dict (NStab i) = Some k ->
       In ((2 * co AX x, 2 * co AY x, 2 * co AZ x), k) (sp_texts pic)) /\
    (forall t k, In (t, k) (sp_texts pic) -> exists i x, nth_error centres i = Some x /\ label_of index_dict (NStab i) = Some k /\ t = (2 * co AX x, 2 * co AY x, 2 * co AZ x)).
Proof.
  intros D e b pol c g indices bits index_dict o pic HD HC Hpic.
  destruct (proj1 (plot_steps D e b pol c g indices bits index_dict o HD HC) (ex_intro _ pic Hpic)) as (Hbits & _).
  pose proof (surface_code_facts D e b pol c (ge2_ok D _ HD) HC) as CF. rewrite <- code_bnds_eq. set (B := code_bnds e b) in *.
  pose proof (cf_phys _ _ _ _ _ CF) as Hph. pose proof (cf_stabs _ _ _ _ _ CF) as HF. fold B in Hph, HF. set (ctrs := centres D e B) in *.
  unfold syndrome_plot in Hpic.
  destruct (if so_show_nodes o then bind (draw_matplotlib g indices (so_color_nodes o) (so_color_edges o) (so_label o) VNone (so_legend o) None) (fun p => Ok (Some p)) else Ok None) as [nd|]; [|discriminate Hpic].
  cbn [bind] in Hpic.
  assert (Hst : forall st q, In st (sc_stabs c) -> In q st -> bits q <> None).
  { intros st q H1 H2. apply Hbits. apply (cf_syn _ _ _ _ _ CF). destruct (F2_in_r _ _ _ _ HF H1) as (x & _ & _ & K). apply K in H2. apply H2. }
  assert (Bx : exists boxes, mapM (stab_box bits) (combine (sc_phys c) (sc_stabs c)) = Ok boxes /\
    Forall2 (fun xs bx => bx_lo bx = cube_lo (fst xs) /\ bx_size bx = (170, 170, 170) /\ bx_color bx = if odd_bits bits (snd xs) then red else green) (combine ctrs (sc_stabs c)) boxes).
  { rewrite Hph. clear - HF Hst. induction HF as [|x st l m HR HF IH]; [exists []; split; [reflexivity|constructor]|]. destruct IH as (bs & E & F); [intros; eapply Hst; [right; eassumption|assumption]|].
    destruct (stab_box_six bits x st) as (bx & E1 & E2); [intros; eapply Hst; [left; reflexivity|assumption]|]. exists (bx :: bs). cbn [map combine mapM]. rewrite E1. cbn [bind]. rewrite E. split; [reflexivity|]. constructor; [exact E2|exact F]. }
  destruct Bx as (boxes & Eb & FB). rewrite Eb in Hpic. cbn [bind] in Hpic.
  destruct (plot_cubes boxes) as [polys|] eqn:Ep; [|discriminate Hpic]. cbn [bind] in Hpic.
  assert (Epo : polys = combine (List.concat (map (fun b => cuboid_data (bx_lo b) (bx_size b)) boxes)) (flat_map (fun b => repeat (bx_color b) 6) boxes)).
  { unfold plot_cubes in Ep. destruct boxes; [discriminate Ep|]. injection Ep as <-. reflexivity. }
  destruct (if so_label_boundary o && _ then _ else Ok []) as [bd|]; [|discriminate Hpic]. cbn [bind] in Hpic. injection Hpic as <-. cbn [sp_polys sp_texts].
  assert (G : forall l n i (x : list point), In (i, x) (combine (seq n (List.length l)) l) <-> exists j, i = (n + j)%nat /\ nth_error l j = Some x).
  { induction l as [|y l IH]; intros n i x; cbn [List.length seq combine].
    - split; [intros []|intros (j & _ & H); destruct j; discriminate H].
    - cbn [In]. rewrite IH. split.
      + intros [E|(j & -> & H)]; [injection E as -> ->; exists 0%nat; split; [lia|reflexivity]|exists (S j); split; [lia|exact H]].
      + intros (j & -> & H). destruct j as [|j]; [left; injection H as ->; f_equal; lia|right; exists j; split; [lia|exact H]]. }
  exists ctrs, (map (fun bx => combine (cuboid_data (bx_lo bx) (bx_size bx)) (repeat (bx_color bx) 6)) boxes).
  split; [apply centres_NoDup|]. split; [intros x; apply in_centres|]. split; [|split; [|split; [|split]]].
  - clear - HF. induction HF as [|x st l m [_ H] HF IH]; constructor; assumption.
  - rewrite Epo. apply (combine_map_app _ _ _ 6). intros bx. split; [reflexivity|apply repeat_length].
  - clear - FB. induction FB as [|[x st] bx l m (H1 & H2 & H3) FB IH]; cbn [map]; constructor; [|exact IH]. cbn [fst snd] in *.
    rewrite H1, H2, H3. split.
    + match goal with |- is_box _ _ ?l => replace l with (cuboid_data (cube_lo x) (170, 170, 170)) by reflexivity end.
      replace (cube_hi x) with (co AX (cube_lo x) + co AX (170, 170, 170), co AY (cube_lo x) + co AY (170, 170, 170), co AZ (cube_lo x) + co AZ (170, 170, 170)).
      * apply cuboid_is_box. intros []; reflexivity.
      * unfold cube_hi, cube_lo, co. cbn [get fst snd]. f_equal; [f_equal|]; lia.
    + reflexivity.
  - intros Hl i x k Hi Hk. rewrite Hl. apply in_flat_map. exists (i, six x). split.
    + apply G. exists i. split; [reflexivity|]. rewrite Hph. apply map_nth_error. exact Hi.
    + cbn [fst snd]. rewrite Hk, six_midpoint. left. reflexivity.
  - intros t k Ht. destruct (so_label_stabilizers o); [|destruct Ht]. apply in_flat_map in Ht. destruct Ht as ((i & ph) & H1 & H2). cbn [fst snd] in H2. destruct (label_of index_dict (NStab i)) as [k'|] eqn:Ek; [|destruct H2].
    destruct H2 as [E|[]]. injection E as <- ->. apply G in H1. destruct H1 as (j & -> & Hj). cbn [Nat.add] in *. rewrite Hph, nth_error_map in Hj. destruct (nth_error ctrs j) as [x|] eqn:Ej; [|discriminate Hj]. injection Hj as <-.
    exists j, x. rewrite six_midpoint. auto.
Qed.
Print Assumptions C64_boxes.

(* The boxes of different stabilizers are at least 0.3 apart, and every box is inside the cell of its stabilizer. *)
Theorem C64_boxes_apart : forall D e B x y, cell D e B x -> cell D e B y -> x <> y -> exists a, co a (cube_hi x) + 30 <= co a (cube_lo y) \/ co a (cube_hi y) + 30 <= co a (cube_lo x).
Proof.
  intros D e B x y [_ Hx] [_ Hy] Hne.
  assert (P : forall p, nodd p = match e with EcPrimal => 3 | EcDual => 0 end -> forall a, co a p mod 2 = match e with EcPrimal => 1 | EcDual => 0 end).
  { intros p Hp a. unfold nodd in Hp. pose proof (Z.mod_pos_bound (co AX p) 2 ltac:(lia)). pose proof (Z.mod_pos_bound (co AY p) 2 ltac:(lia)). pose proof (Z.mod_pos_bound (co AZ p) 2 ltac:(lia)).
    destruct e, a; lia. }
  pose proof (P x Hx) as Px. pose proof (P y Hy) as Py. clear P.
  assert (K : exists a, co a x <> co a y).
  { destruct (Z.eq_dec (co AX x) (co AX y)); [|eauto]. destruct (Z.eq_dec (co AY x) (co AY y)); [|eauto]. destruct (Z.eq_dec (co AZ x) (co AZ y)); [|eauto].
    exfalso. apply Hne. destruct x as [[? ?] ?], y as [[? ?] ?]. unfold co in *. cbn [get fst snd] in *. congruence. }
  destruct K as (a & Ha). exists a. specialize (Px a). specialize (Py a).
  assert (E : forall p, co a (cube_hi p) = 100 * co a p + 85 /\ co a (cube_lo p) = 100 * co a p - 85) by (intros p; destruct a; split; reflexivity).
  destruct (E x) as [-> ->], (E y) as [-> ->]. destruct e; lia.
Qed.
Print Assumptions C64_boxes_apart.
