(* PropsMacro.v: C32. *)
From Verif Require Import Base Lattice RhgModel RhgSpec RhgProofs RhgDegree EgraphModel EgraphSpec EgraphProofs MacroModel MacroSpec MacroArith MacroProofs MacroMain.
Open Scope Z_scope.

(* ------------------------------------------------------------------ *)
(* edges of the RHG lattice: along an axis, in different directions *)
Section Rhg.
  Variables (D : dims) (B : bnds) (pol : option (point * point -> Z)) (vs : list point).
  Hypothesis HD : dims_ok D B.
  Hypothesis Hvs : set_enum (six_body_points D B) vs.
  Let G := rhg_graph D B pol vs.
  Definition heading (v w : point) (i : axis) (s : Z) : Prop :=
    (s = 1 \/ s = -1) /\ (forall j, j <> i -> co j w = co j v) /\
    ((per_of G v w = false /\ co i w = co i v + s) \/
     (per_of G v w = true /\ ((s = -1 /\ co i v = 0 /\ co i w = 2 * get i D - 1) \/ (s = 1 /\ co i v = 2 * get i D - 1 /\ co i w = 0)))).
  Lemma edge_sites v w : edge_attr G v w <> None -> (site D B v /\ site D B w) /\ step D B v w /\ nodd v <> nodd w.
  Proof.
    intros H. destruct (rhg_exact_lattice D B pol vs HD Hvs) as (_ & _ & _ & _ & E & _). apply E in H.
    assert (Hsym : forall p q, step D B p q -> step D B q p).
    { intros p q (a & H1 & H2). exists a. split; [|intros b Hb; symmetry; auto]. unfold step1, wrap1 in *. intuition lia. }
    destruct H as [(H1 & H2 & H3)|(H1 & H2 & H3)]; unfold primal_vertex, dual_vertex in *; destruct H1, H2; repeat split; auto; lia.
  Qed.
  Lemma rhg_heading v w : In w (nbrs G v) -> exists i s, heading v w i s.
  Proof.
    intros H. apply nbrs_iff in H. destruct (edge_sites v w H) as (Hs & (i & Hst & Hoth) & _). destruct (rhg_exact_lattice D B pol vs HD Hvs) as (_ & _ & _ & _ & _ & EP & _).
    unfold per_of, heading. fold G in EP. destruct (edge_attr G v w) as [t|] eqn:Et; [|congruence]. specialize (EP v w t Et). exists i.
    unfold per_of. rewrite Et. destruct (eperiodic t).
    - destruct (proj1 EP eq_refl) as (j & (Hb & Hw) & Hj). destruct (HD j) as [HDj _]. assert (j = i). { destruct (axis_eq_dec j i); [assumption|]. exfalso. rewrite (Hoth j) in Hw by assumption. lia. } subst j.
      destruct Hw as [(E1 & E2)|(E1 & E2)]; [exists (-1)|exists 1]; (split; [auto|]); (split; [assumption|]); right; auto.
    - destruct Hst as [E|[E|E]]; [exists 1|exists (-1)|exfalso]; [split; [auto|]; split; [assumption|]; left; split; [reflexivity|lia]..|].
      assert (wrap D B v w) as Hw by (exists i; split; assumption). apply EP in Hw. discriminate.
  Qed.
  Lemma heading_unique v w w' i s : In w (nbrs G v) -> In w' (nbrs G v) -> heading v w i s -> heading v w' i s -> w = w'.
  Proof.
    intros Hw Hw' (Hs & Ho & Hc) (_ & Ho' & Hc'). apply nbrs_iff in Hw, Hw'. destruct (edge_sites v w Hw) as ((_ & S1) & _). destruct (edge_sites v w' Hw') as ((_ & S2) & _).
    specialize (S1 i). specialize (S2 i). apply point_ext. intros j. destruct (axis_eq_dec j i) as [->|Hj]; [|rewrite Ho, Ho' by assumption; reflexivity].
    assert (HB1 : in_range (get i B) (get i D) (co i w) -> 0 <= co i w <= 2 * get i D - 1) by (destruct (get i B); simpl; lia).
    assert (HB2 : in_range (get i B) (get i D) (co i w') -> 0 <= co i w' <= 2 * get i D - 1) by (destruct (get i B); simpl; lia).
    specialize (HB1 S1). specialize (HB2 S2). destruct Hc as [(_ & E1)|(_ & [(E1 & E2 & E3)|(E1 & E2 & E3)])], Hc' as [(_ & F1)|(_ & [(F1 & F2 & F3)|(F1 & F2 & F3)])]; lia.
  Qed.
  Variables (a b : Z).
  Hypothesis Ha : 0 < a.
  Hypothesis Hdisp : 1000 * a < 495 * b.
  Notation U := (unit_of a b).
  Lemma pos_heading v w i s : heading v w i s -> exists r, 10 <= r /\ (10000 * a < 495 * b \/ 505 * b < 10000 * a -> r <> U / 20) /\
    co i (pos G a b v w) = U * co i v + s * r /\ forall j, j <> i -> co j (pos G a b v w) = U * co j v.
  Proof.
    intros (Hs & Ho & Hc). destruct (HD i) as [HDi _].
    assert (Hm : forall j, co j (minus w v) = co j w - co j v) by (intros []; reflexivity).
    assert (Hd0 : co i (minus w v) <> 0) by (rewrite Hm; destruct Hc as [(_ & E1)|(_ & [(E1 & E2 & E3)|(E1 & E2 & E3)])]; lia).
    assert (Hn : norm2 (minus w v) = co i (minus w v) ^ 2).
    { assert (Hz : forall j, j <> i -> co j (minus w v) = 0) by (intros j Hj; rewrite Hm, (Ho j Hj); lia). unfold norm2. destruct i.
      - rewrite (Hz AY), (Hz AZ) by discriminate. ring.
      - rewrite (Hz AX), (Hz AZ) by discriminate. ring.
      - rewrite (Hz AX), (Hz AY) by discriminate. ring. }
    exists (comp a b (co i (minus w v) ^ 2) (co i (minus w v))). split; [apply comp_pos; assumption|]. split; [intros Hp; apply comp_not_pad; assumption|]. unfold pos. split.
    - rewrite co_shifted, co_shortened, Hn. assert (Hsg : (if per_of G v w then -1 else 1) * Z.sgn (co i (minus w v)) = s); [|rewrite Hsg; ring].
      rewrite Hm. destruct Hc as [(-> & E1)|(-> & [(E1 & E2 & E3)|(E1 & E2 & E3)])].
      + rewrite E1. replace (co i v + s - co i v) with s by lia. destruct Hs; subst s; reflexivity.
      + rewrite E2, E3, E1. rewrite Z.sgn_pos by lia. reflexivity.
      + rewrite E2, E3, E1. rewrite Z.sgn_neg by lia. reflexivity.
    - intros j Hj. rewrite co_shifted, co_shortened, Hm, (Ho j Hj). rewrite Z.sub_diag. change (Z.sgn 0) with 0. ring.
  Qed.
  Lemma rhg_spread v w w' : In w (nbrs G v) -> In w' (nbrs G v) -> pos G a b v w = pos G a b v w' -> w = w'.
  Proof.
    intros Hw Hw' E. destruct (rhg_heading v w Hw) as (i & s & Hh). destruct (rhg_heading v w' Hw') as (i' & s' & Hh').
    destruct (pos_heading v w i s Hh) as (r & Hr & _ & E1 & E2). destruct (pos_heading v w' i' s' Hh') as (r' & Hr' & _ & F1 & F2). rewrite E in E1, E2.
    assert (Hs : s = 1 \/ s = -1) by apply Hh. assert (Hs' : s' = 1 \/ s' = -1) by apply Hh'.
    destruct (axis_eq_dec i i') as [<-|Hi]; [|exfalso; rewrite (F2 i Hi) in E1; destruct Hs; subst s; lia].
    assert (s = s') by (destruct Hs, Hs'; subst; try reflexivity; exfalso; lia). subst s'. apply (heading_unique v w w' i s); assumption.
  Qed.
  Lemma rhg_pads v w i : 10000 * a < 495 * b \/ 505 * b < 10000 * a -> In w (nbrs G v) -> pos G a b v w <> pad_point U v i.
  Proof.
    intros Hp Hw E. destruct (rhg_heading v w Hw) as (j & s & Hh). destruct (pos_heading v w j s Hh) as (r & Hr & Hne & E1 & E2). rewrite E in E1, E2. specialize (Hne Hp).
    assert (Hs : s = 1 \/ s = -1) by apply Hh. assert (HU : 1 <= U / 20) by (pose proof (unit_pos a b); apply Z.div_le_lower_bound; lia). unfold pad_point in E1, E2.
    destruct (axis_eq_dec i j) as [<-|Hij]; [rewrite co_setco_same in E1; destruct Hs; subst s; lia|]. specialize (E2 i Hij). rewrite co_setco_same in E2. lia.
  Qed.
End Rhg.
Lemma nodd_setco i c p : nodd (setco i c p) = nodd p - co i p mod 2 + c mod 2.
Proof. destruct p as [[x y] z], i; unfold nodd, co; cbn [setco get]; lia. Qed.
Lemma site_setco D B i c p : site D B p -> in_range (get i B) (get i D) c -> site D B (setco i c p).
Proof. intros Hp Hc j. destruct (axis_eq_dec i j) as [<-|Hj]; [rewrite co_setco_same; assumption|rewrite co_setco_other by assumption; apply Hp]. Qed.
Lemma rhg_neighbour D B pol vs : dims_ok D B -> set_enum (six_body_points D B) vs ->
  forall v, In v (node_list (rhg_graph D B pol vs)) -> nbrs (rhg_graph D B pol vs) v <> [].
Proof.
  intros HD Hvs v Hv. destruct (rhg_exact_lattice D B pol vs HD Hvs) as (_ & EN & _ & _ & EE & _). apply EN in Hv.
  assert (Hgo : forall w, edge_attr (rhg_graph D B pol vs) v w <> None -> nbrs (rhg_graph D B pol vs) v <> []) by (intros w Hw E; apply nbrs_iff in Hw; rewrite E in Hw; destruct Hw).
  assert (Hpar : forall i, co i v mod 2 = 0 \/ co i v mod 2 = 1) by (intros i; lia).
  assert (Hstep : forall i c, (c = co i v + 1 \/ c = co i v - 1) -> step D B v (setco i c v) /\ step D B (setco i c v) v).
  { intros i c Hc. split; exists i; (split; [|intros j Hj; rewrite co_setco_other by congruence; reflexivity]); rewrite co_setco_same; unfold step1; lia. }
  destruct Hv as [(Hs & Hn)|(Hs & Hn)].
  - assert (Hi : exists i, co i v mod 2 = 1). { unfold nodd in Hn. destruct (Hpar AX); [|exists AX; assumption]. destruct (Hpar AY); [|exists AY; assumption]. exists AZ. lia. }
    destruct Hi as (i & Hi). assert (Hc : exists c, (c = co i v + 1 \/ c = co i v - 1) /\ in_range (get i B) (get i D) c).
    { specialize (Hs i). destruct (HD i) as [D1 D2]. destruct (get i B); simpl in *.
      - exists (co i v - 1). lia.
      - assert (2 <= get i D) by (apply D2; discriminate). destruct (Z.eq_dec (co i v) 1); [exists (co i v + 1)|exists (co i v - 1)]; lia.
      - exists (co i v - 1). lia. }
    destruct Hc as (c & Hc & Hr). apply (Hgo (setco i c v)). apply EE. left. split; [split; assumption|]. split; [|apply Hstep; assumption]. split; [apply site_setco; assumption|]. rewrite nodd_setco. lia.
  - assert (Hi : exists i, co i v mod 2 = 0). { unfold nodd in Hn. destruct (Hpar AX); [exists AX; assumption|]. destruct (Hpar AY); [exists AY; assumption|]. exists AZ. lia. }
    destruct Hi as (i & Hi). assert (Hc : exists c, (c = co i v + 1 \/ c = co i v - 1) /\ in_range (get i B) (get i D) c).
    { specialize (Hs i). destruct (HD i) as [D1 D2]. destruct (get i B); simpl in *.
      - assert (2 <= get i D) by (apply D2; discriminate). destruct (Z.eq_dec (co i v) (2 * get i D - 2)); [exists (co i v - 1)|exists (co i v + 1)]; lia.
      - exists (co i v - 1). lia.
      - exists (co i v + 1). lia. }
    destruct Hc as (c & Hc & Hr). apply (Hgo (setco i c v)). apply EE. right. split; [|split; [split; assumption|apply Hstep; assumption]]. split; [apply site_setco; assumption|]. rewrite nodd_setco. lia.
Qed.
Lemma rhg_ends D B pol vs u v : dims_ok D B -> set_enum (six_body_points D B) vs ->
  edge_attr (rhg_graph D B pol vs) u v <> None -> In u (node_list (rhg_graph D B pol vs)).
Proof. intros HD Hvs H. destruct (rhg_exact_lattice D B pol vs HD Hvs) as (_ & EN & _ & _ & EE & _). apply EN. apply EE in H. destruct H as [(H & _)|(_ & H & _)]; auto. Qed.

(* ------------------------------------------------------------------ *)
(* C32.  For every RHG lattice of documented size, in whatever order and orientation its edges are
   listed, and every displacement 0 < a/b < 0.495, macronize returns a macronode version of the lattice
   in the sense of MacroSpec.v; with padding, for displacements outside [0.0495, 0.0505].  The perfect
   points become the micronodes of the perfect points.  Missing for the full statement: displacements
   in [0.495, 0.5), and padding with displacements that round to 0.05, where it is false (below). *)
Theorem C32_macronize_partial : forall D B pol vs es perf pad a b,
  dims_ok D B -> set_enum (six_body_points D B) vs -> let G := rhg_graph D B pol vs in
  edge_enum G es -> match perf with Some l => incl l (node_list G) | None => True end ->
  0 < a -> 1000 * a < 495 * b -> (pad = true -> 10000 * a < 495 * b \/ 505 * b < 10000 * a) ->
  exists m, macronize G es perf pad a b = Ok m /\ macronized (unit_of a b) G es pad m /\
    match perf, m_perf m with
    | Some l, Some l' => forall x, In x l' <-> exists v, In v l /\ micronode m v x
    | None, None => True
    | _, _ => False
    end.
Proof.
  intros D B pol vs es perf pad a b HD Hvs G He Hp Ha Hd Hpad.
  destruct (macronize_ok G es a b Ha Hd He (proj1 (rhg_exact_lattice D B pol vs HD Hvs)) (fun u v => rhg_ends D B pol vs u v HD Hvs) (G_nbrs_NoDup D B pol vs) (rhg_neighbour D B pol vs HD Hvs)
    (rhg_spread D B pol vs HD Hvs a b Ha Hd) pad (fun E v w i => rhg_pads D B pol vs HD Hvs a b Ha Hd v w i (Hpad E)) perf Hp) as (m & E1 & E2 & E3 & E4).
  exists m. split; [assumption|]. split; [assumption|].
  assert (Hmic : forall v x, micronode m v x <-> In x (at_vertex v (HF G es a b pad))).
  { intros v x. unfold micronode. rewrite E4. split.
    - intros (l & H1 & H2). apply group_in in H1. destruct H1 as [-> _]. assumption.
    - intros H. exists (at_vertex v (HF G es a b pad)). split; [|assumption]. apply group_in. split; [reflexivity|]. intros E. rewrite E in H. destruct H. }
  destruct perf as [[|p ps]|]; rewrite E3; [|intros x; rewrite in_flat_map; setoid_rewrite Hmic; reflexivity|exact I].
  intros x. split; [intros []|intros (v & [] & _)].
Qed.
Print Assumptions C32_macronize_partial.

(* the hypotheses hold: the edges as stored are an enumeration (for every lattice) *)
Lemma find_first {A} (f : A -> bool) l x : (forall y, In y l -> f y = true -> y = x) -> In x l -> f x = true -> find f l = Some x.
Proof.
  intros Hu Hi Hf. induction l as [|y l IH]; [destruct Hi|]. simpl. destruct (f y) eqn:E; [f_equal; apply Hu; [left; reflexivity|assumption]|].
  apply IH; [intros z Hz; apply Hu; right; assumption|]. destruct Hi as [->|Hi]; [congruence|assumption].
Qed.
Lemma simple_unique l : simple_edges l -> forall e e', In e l -> In e' l -> same_edge (fst (fst e)) (snd (fst e)) (fst e') = true -> e = e'.
Proof.
  induction l as [|(uv & t) l IH]; simpl; intros H e e' He He' Hs; [destruct He|]. destruct H as [H1 H2].
  assert (Hsym : forall x y : (point * point) * eattr, same_edge (fst (fst x)) (snd (fst x)) (fst y) = same_edge (fst (fst y)) (snd (fst y)) (fst x)).
  { intros ((x1 & x2) & tx) ((y1 & y2) & ty). apply same_edge_swap. }
  destruct He as [<-|He], He' as [<-|He'].
  - reflexivity.
  - cbn [fst] in Hs. rewrite (H1 e' He') in Hs. discriminate.
  - rewrite Hsym in Hs. cbn [fst] in Hs. rewrite (H1 e He) in Hs. discriminate.
  - apply IH; assumption.
Qed.
Lemma simple_nodup l : simple_edges l -> NoDup (map fst l).
Proof.
  induction l as [|(uv & t) l IH]; simpl; intros H; [constructor|]. destruct H as [H1 H2]. constructor; [|apply IH; assumption].
  intros H. apply in_map_iff in H. destruct H as (x & E & Hx). specialize (H1 x Hx). rewrite E in H1. destruct uv as [u v]. cbn [fst snd] in H1. assert (same_edge u v (u, v) = true) by (apply same_edge_true; auto). congruence.
Qed.
Lemma rhg_edge_enum D B pol vs : dims_ok D B -> set_enum (six_body_points D B) vs -> let G := rhg_graph D B pol vs in edge_enum G (gedges G).
Proof.
  intros HD Hvs G. assert (Hs : simple_edges (gedges G)) by (apply fold_simple; exact I).
  assert (Hattr : forall u v t, edge_attr G u v = Some t <-> In ((u, v), t) (gedges G) \/ In ((v, u), t) (gedges G)).
  { intros u v t. unfold edge_attr. split.
    - destruct (find _ _) as [(e & t')|] eqn:Ef; [|discriminate]. intros E. injection E as <-. apply find_some in Ef. destruct Ef as [Ef1 Ef2]. cbn [fst] in Ef2. apply same_edge_true in Ef2. destruct Ef2 as [-> | ->]; auto.
    - intros H. assert (Hx : exists e, In (e, t) (gedges G) /\ same_edge u v e = true) by (destruct H as [H|H]; eexists; (split; [exact H|]); apply same_edge_true; auto).
      destruct Hx as (e & Hi & He). rewrite (find_first _ (gedges G) (e, t)); [reflexivity| |assumption|exact He].
      intros y Hy Hsy. symmetry. apply (simple_unique _ Hs); [assumption|assumption|]. destruct e as [e1 e2], y as [[y1 y2] ty]. cbn [fst snd] in *. apply same_edge_true in He, Hsy. apply same_edge_true.
      destruct He as [He|He], Hsy as [Hsy|Hsy]; injection He as -> ->; injection Hsy as -> ->; auto. }
  split; [apply simple_nodup; assumption|]. split; [|assumption].
  intros u v Hu Hv. apply in_map_iff in Hu, Hv. destruct Hu as ((uv & t) & E & Hu), Hv as ((vu & t') & E' & Hv). cbn [fst] in *. subst uv vu.
  assert (E : ((u, v), t) = ((v, u), t')) by (apply (simple_unique _ Hs); [assumption|assumption|]; cbn [fst snd]; apply same_edge_true; auto). injection E as E _ _. subst v.
  assert (Ha : edge_attr G u u <> None) by (rewrite (proj2 (Hattr u u t) (or_introl Hu)); discriminate). apply (edge_sites D B pol vs HD Hvs) in Ha. destruct Ha as (_ & _ & Ha). congruence.
Qed.
Definition w_D : dims := (2, 2, 2).
Definition w_B : bnds := (BPeriodic, BPrimal, BDual).
Definition w_vs : list point := nodup point_eq_dec (six_body_points w_D w_B).
Definition w_G : egr := rhg_graph w_D w_B None w_vs.
Lemma w_ok : dims_ok w_D w_B /\ set_enum (six_body_points w_D w_B) w_vs /\ edge_enum w_G (gedges w_G).
Proof.
  assert (HD : dims_ok w_D w_B) by (intros []; simpl; lia).
  split; [assumption|]. split; [apply set_enum_nodup|]. apply rhg_edge_enum; [assumption|apply set_enum_nodup].
Qed.
Example C32_witness : length (gedges w_G) = 44%nat /\
  match macronize w_G (gedges w_G) (Some [(1, 1, 2)]) true 1 10 with
  | Ok m => length (node_list (m_graph m)) = 112%nat /\ m_perf m = Some [(1000, 900, 2000); (900, 1000, 2000); (1000, 1100, 2000); (1100, 1000, 2000)]
  | Err _ => False end.
Proof. vm_compute. repeat split; reflexivity. Qed.

(* false for some displacements in (0, 0.5): with 0.499 the two ends of an edge are rounded to the same
   point, so that edges become self-loops *)
Theorem C32_large_displacement_refuted : exists D B vs a b, dims_ok D B /\ set_enum (six_body_points D B) vs /\ 0 < a /\ 2 * a < b /\ let G := rhg_graph D B None vs in
  edge_enum G (gedges G) /\ exists m, macronize G (gedges G) None false a b = Ok m /\ ~ macronized (unit_of a b) G (gedges G) false m /\
    In (150, 0, 100) (node_list (m_graph m)) /\ edge_attr (m_graph m) (150, 0, 100) (150, 0, 100) <> None.
Proof.
  exists w_D, w_B, w_vs, 499, 1000. destruct w_ok as (H1 & H2 & H3). split; [exact H1|]. split; [exact H2|]. split; [lia|]. split; [lia|]. cbv zeta. fold w_G. split; [exact H3|].
  destruct (macronize w_G (gedges w_G) None false 499 1000) as [m|e] eqn:E.
  - exists m. split; [reflexivity|].
    assert (Hin : existsb (peqb (150, 0, 100)) (node_list (m_graph m)) = true /\ edge_attr (m_graph m) (150, 0, 100) (150, 0, 100) <> None /\ In ((150, 0, 100), (150, 0, 100)) (map fst (gedges (m_graph m)))).
    { vm_compute in E. injection E as <-. vm_compute. split; [reflexivity|]. split; [discriminate|]. auto 20. }
    destruct Hin as (Hin & Hat & Hed). split; [|split; [apply pmem_In; exact Hin|exact Hat]].
    intros Hm. pose proof (mz_single _ _ _ _ _ Hm) as Hs. clear - Hs Hed. induction (gedges (m_graph m)) as [|((u & v) & t) l IH]; [destruct Hed|]. cbn [flat_map app fst snd] in Hs. inversion Hs as [|? ? Hn Hs']; subst. inversion Hs' as [|? ? _ Hs'']; subst.
    destruct Hed as [Hed|Hed]; [cbn [fst] in Hed; injection Hed as -> ->; apply Hn; left; reflexivity|apply IH; assumption].
  - vm_compute in E. discriminate.
Qed.
(* ... and with padding and displacement 0.05 a padding node falls on a micronode: the macronode of
   (1, 0, 1) then has three distinct micronodes *)
Theorem C32_padding_refuted : exists D B vs a b, dims_ok D B /\ set_enum (six_body_points D B) vs /\ 0 < a /\ 2 * a < b /\ let G := rhg_graph D B None vs in
  edge_enum G (gedges G) /\ exists m l, macronize G (gedges G) None true a b = Ok m /\ In ((1, 0, 1), l) (m_dict m) /\ length (nodup point_eq_dec l) = 3%nat.
Proof.
  exists w_D, w_B, w_vs, 1, 20. destruct w_ok as (H1 & H2 & H3). split; [exact H1|]. split; [exact H2|]. split; [lia|]. split; [lia|]. cbv zeta. fold w_G. split; [exact H3|].
  destruct (macronize w_G (gedges w_G) None true 1 20) as [m|e] eqn:E.
  - exists m, [(950, 0, 1000); (1000, 0, 1050); (1050, 0, 1000); (1050, 0, 1000)]. split; [reflexivity|]. split; [|reflexivity].
    apply (dget_In peqb peqb_true). vm_compute in E. injection E as <-. vm_compute. reflexivity.
  - vm_compute in E. discriminate.
Qed.
(* displacements outside [0, 0.5) are rejected; displacement 0 passes the test but fails on any graph
   with an edge; padding fails on a graph with an isolated vertex *)
Theorem C32_errors : forall G es perf pad a b, 0 < b ->
  (b <= 2 * a \/ a < 0 -> macronize G es perf pad a b = Err ValueError) /\
  (es <> [] -> macronize G es perf pad 0 b = Err OverflowError) /\
  (0 < a -> 2 * a < b -> forall v t, gnodes G = [(v, t)] -> macronize G [] perf true a b = Err KeyError).
Proof.
  intros G es perf pad a b Hb. unfold macronize. split; [|split].
  - intros H. destruct (Z.leb_spec b (2 * a)); [reflexivity|]. destruct (Z.ltb_spec a 0); [reflexivity|]. lia.
  - intros H. destruct (Z.leb_spec b (2 * 0)); [lia|]. destruct es; [congruence|]. reflexivity.
  - intros H1 H2 v t E. destruct (Z.leb_spec b (2 * a)); [lia|]. destruct (Z.ltb_spec a 0); [lia|]. rewrite E. simpl. destruct (a =? 0); reflexivity.
Qed.
(* The macronode graph is ready for index_generator and for the qubit updates (C28-C31): its nodes are
   distinct, edges join nodes, the micronode lists are disjoint and together contain every node, and
   every micronode rounds to the key of its list. *)
Theorem C32_macro_egraph : forall U g es pad m, 0 < U -> macronized U g es pad m -> let h := macro_egraph U m in
  fresh h /\ (forall x, In x (e_nodes h) -> exists k, micro h k x) /\
  (forall k x, micro h k x -> forall i, nearest U (co i x) (co i k) /\ co i k = round_to U (co i x)).
Proof.
  intros U g es pad m HU Hm h. destruct Hm as [[Hk1 Hk2] Hsz [Hn1 Hn2] _ Hr He _].
  assert (Hmic : forall k x, micro h k x <-> exists v, k = (U * co AX v, U * co AY v, U * co AZ v) /\ micronode m v x).
  { intros k x. unfold micro, h, macro_egraph, new_egraph, micronode. cbn [e_m2m]. split.
    - intros (mm & l & E & H1 & H2). injection E as <-. apply in_map_iff in H1. destruct H1 as ((v & l') & E & H1). injection E as <- <-. cbn [fst snd] in *. exists v. split; [reflexivity|]. exists l'. auto.
    - intros (v & -> & l & H1 & H2). eexists _, l. split; [reflexivity|]. split; [|assumption]. apply in_map_iff. exists (v, l). auto. }
  assert (Hsame : forall v v' x, micronode m v x -> micronode m v' x -> v = v').
  { intros v v' x H1 H2. apply point_ext. intros i. apply (near_inj U (co i x) (co i x)); [assumption|apply Hr; assumption|apply Hr; assumption|reflexivity]. }
  split; [|split].
  - split; [|split; [split; reflexivity|reflexivity]]. split; [exact Hn1|]. split.
    + intros u v w H. unfold h, macro_egraph, new_egraph in H |- *. cbn [e_edges e_nodes] in *. apply in_map_iff in H. destruct H as (((u' & v') & t) & E & H). cbn [fst snd] in E. injection E as -> -> _.
      clear - H He Hn2. assert (G : (exists y, micronode m y u) /\ (exists y, micronode m y v)); [|destruct G; split; apply Hn2; assumption].
      induction He as [|e e' l l' (A1 & A2 & _) _ IH]; [destruct H|]. destruct H as [->|H]; [cbn [fst snd] in *; split; eauto|auto].
    + unfold h, macro_egraph, new_egraph. cbn [e_m2m e_nodes]. unfold macro_ok. rewrite !map_map. cbn [fst snd]. split; [|split].
      * rewrite <- (map_map fst (fun v => (U * co AX v, U * co AY v, U * co AZ v))). apply (FinFun.Injective_map_NoDup (f := fun v : point => (U * co AX v, U * co AY v, U * co AZ v))); [|assumption].
        intros v v' E. injection E as E1 E2 E3. apply point_ext. intros []; nia.
      * 
        assert (Hall : forall d, NoDup (map fst d) -> incl d (m_dict m) -> NoDup (concat (map (fun x : point * list point => snd x) d))).
        { induction d as [|(v & l) d IH]; intros Hd Hi; [constructor|]. cbn [map concat snd]. inversion Hd as [|? ? Hd1 Hd2]; subst. apply NoDup_app_intro.
          - apply (Hsz v). apply Hi. left. reflexivity.
          - apply IH; [assumption|]. intros y Hy. apply Hi. right. assumption.
          - intros x Hx Hx'. apply in_concat in Hx'. destruct Hx' as (l' & Hl' & Hx'). apply in_map_iff in Hl'. destruct Hl' as ((v' & l'') & E & Hin). cbn [snd] in E. subst l''.
            assert (v = v'); [|subst; apply Hd1; apply (in_map fst) in Hin; exact Hin]. apply (Hsame v v' x); [exists l; split; [apply Hi; left; reflexivity|assumption]|exists l'; split; [apply Hi; right; assumption|assumption]]. }
        apply Hall; [assumption|apply incl_refl].
      * intros x Hx. apply Hn2. apply in_concat in Hx. destruct Hx as (l & Hl & Hx). apply in_map_iff in Hl. destruct Hl as ((v & l') & E & Hin). cbn [snd] in E. subst l'. exists v, l. auto.
  - intros x Hx. unfold h, macro_egraph, new_egraph in Hx. cbn [e_nodes] in Hx. apply Hn2 in Hx. destruct Hx as (v & Hv). eexists. apply Hmic. exists v. split; [reflexivity|assumption].
  - intros k x H i. apply Hmic in H. destruct H as (v & -> & H). specialize (Hr v x H i). assert (Ei : co i (U * co AX v, U * co AY v, U * co AZ v) = U * co i v) by (destruct i; reflexivity). rewrite Ei. split.
    + exists (co i v). split; [reflexivity|]. split; lia.
    + unfold round_to. cbv zeta. pose proof (Z.div_mod (co i x) U ltac:(lia)) as Hd. pose proof (Z.mod_pos_bound (co i x) U HU) as Hb. set (q := co i x / U) in *. set (r := co i x mod U) in *. clearbody q r.
      f_equal. destruct (Z.ltb_spec (2 * r) U); [nia|]. destruct (Z.ltb_spec U (2 * r)); [nia|]. exfalso. assert (2 * r = U) by lia. assert (co i v - q = 0 \/ co i v - q = 1 \/ co i v - q <= -1 \/ co i v - q >= 2) as [E|[E|[E|E]]] by lia; nia.
Qed.
Print Assumptions C32_macro_egraph.
