(* SurfaceGauge.v: lemmas behind C12 (gauge invariance) and C04 (packaging). *)
From Verif Require Import Base Lattice RhgModel RhgSpec RhgProofs RhgDegree SurfaceModel SurfaceSpec
  SurfaceProofs SurfaceIncidence SurfaceTheorems.
Open Scope Z_scope.

(* vertices of the type opposite to the error complex *)
Definition anti (e : ecx) : ecx := match e with EcPrimal => EcDual | EcDual => EcPrimal end.

Definition flip (l : list point) (bit : point -> bool) (q : point) : bool := xorb (bit q) (pmem q l).

Lemma par_anti e : par (anti e) = 1 - par e.
Proof. destruct e; reflexivity. Qed.

Lemma three_axes (a0 : axis) : exists b1 b2, b1 <> a0 /\ b2 <> a0 /\ b1 <> b2 /\ forall a, a = a0 \/ a = b1 \/ a = b2.
Proof.
  destruct a0; [exists AY, AZ|exists AX, AZ|exists AX, AY]; repeat split; try discriminate; intros []; auto.
Qed.

Section Gauge.
  Variables (D : dims) (e : ecx) (b : bdk) (pol : option (point * point -> Z)) (c : scode).
  Hypothesis H2 : dims_ge2 D.
  Hypothesis HC : is_surface_code D e b pol c.
  Let B := code_bnds e b.
  Let HD : dims_ok D B := ge2_ok D B H2.
  Let CF : code_facts D e b pol c := surface_code_facts D e b pol c HD HC.

  Lemma anti_vertex v : In v (node_list (sc_graph c)) -> node_type (sc_graph c) v <> Some (sel e) ->
    qubit D (anti e) B v.
  Proof.
    intros Hn Ht. pose proof (graph_nodes D e b pol c H2 HC v) as HN. fold B in HN. apply HN in Hn.
    destruct (cf_graph _ _ _ _ _ CF) as [vs [Hvs HG]]. fold B in Hvs, HG. rewrite HG in Ht.
    rewrite (G_type D B HD pol vs Hvs v Hn) in Ht.
    assert (Hs : ntyp_of v = sel (anti e)).
    { unfold anti, sel in *. destruct (ntyp_of v), e; congruence. }
    apply qubit_type. auto.
  Qed.

  Lemma anti_nbrs v q : qubit D (anti e) B v -> 
    (In q (nbrs (sc_graph c) v) <-> qubit D e B q /\ step D B v q).
  Proof.
    intros Hv. destruct (cf_graph _ _ _ _ _ CF) as [vs [Hvs HG]]. fold B in Hvs, HG. rewrite HG.
    rewrite (G_nbrs_iff D B HD pol vs Hvs). unfold lattice_edge.
    assert (Hx : forall p, ~ (primal_vertex D B p /\ dual_vertex D B p)).
    { intros p [[_ X] [_ Y]]. lia. }
    pose proof (Hx v). pose proof (Hx q).
    pose proof (step_sym D B v q). pose proof (step_sym D B q v).
    unfold qubit, anti in *. destruct e; tauto.
  Qed.

  Section V.
    Variables (v : point) (a0 b1 b2 : axis).
    Hypothesis Hv : site D B v.
    Hypothesis Ha0 : has_axis (anti e) v a0.
    Hypothesis N1 : b1 <> a0.
    Hypothesis N2 : b2 <> a0.
    Hypothesis N12 : b1 <> b2.
    Hypothesis Hall : forall a, a = a0 \/ a = b1 \/ a = b2.
    Let Hqv : qubit D (anti e) B v.
    Proof. apply qubit_axis_iff. eauto. Qed.

    Lemma v_par a : a <> a0 -> co a v mod 2 = par e.
    Proof. intros H. rewrite (proj2 Ha0 a H), par_anti. lia. Qed.
    Lemma v_par0 : co a0 v mod 2 = 1 - par e.
    Proof. rewrite (proj1 Ha0), par_anti. reflexivity. Qed.

    Lemma moved_par a x : In x (moves D a v) -> co a x mod 2 = 1 - co a v mod 2.
    Proof.
      intros H. apply in_moves in H. destruct H as [H _].
      pose proof (site_bounds D B v a Hv). unfold nxt, prv in *.
      destruct (co a v =? 2 * get a D - 1) eqn:?, (co a v =? 0) eqn:?; lia.
    Qed.

    Lemma nbr_moves q : In q (nbrs (sc_graph c) v) <-> site D B q /\ (In q (moves D b1 v) \/ In q (moves D b2 v)).
    Proof.
      rewrite (anti_nbrs v q Hqv). split.
      - intros [Hq Hst]. apply qubit_axis_iff in Hq. destruct Hq as [Hs [a Ha]]. split; [assumption|].
        destruct (step_in_moves D B H2 v q Hv Hs Hst) as [a' [Hm _]].
        destruct (Hall a') as [-> | [-> | -> ]]; auto. exfalso.
        pose proof (moved_par a0 q Hm) as P0. rewrite v_par0 in P0.
        apply in_moves in Hm. destruct Hm as [_ Hm].
        assert (P1 : co b1 q mod 2 = par e) by (rewrite Hm by assumption; apply v_par; assumption).
        assert (P2 : co b2 q mod 2 = par e) by (rewrite Hm by assumption; apply v_par; assumption).
        destruct Ha as [Q1 Q2]. pose proof (par_cases e).
        destruct (axis_eq_dec b1 a) as [<-|n1].
        + specialize (Q2 b2 (fun E => N12 (eq_sym E))). lia.
        + specialize (Q2 b1 n1). lia.
      - intros [Hs Hm]. split.
        + apply qubit_axis_iff. split; [assumption|]. destruct Hm as [Hm|Hm].
          * exists b2. pose proof (moved_par b1 q Hm) as P1. rewrite v_par in P1 by assumption.
            apply in_moves in Hm. destruct Hm as [_ Hm]. split.
            -- rewrite Hm by congruence. apply v_par; assumption.
            -- intros a Ha. destruct (Hall a) as [-> | [-> | -> ]]; [|assumption|congruence].
               rewrite Hm by congruence. apply v_par0.
          * exists b1. pose proof (moved_par b2 q Hm) as P1. rewrite v_par in P1 by assumption.
            apply in_moves in Hm. destruct Hm as [_ Hm]. split.
            -- rewrite Hm by congruence. apply v_par; assumption.
            -- intros a Ha. destruct (Hall a) as [-> | [-> | -> ]]; [|congruence|assumption].
               rewrite Hm by congruence. apply v_par0.
        + destruct Hm as [Hm|Hm]; [apply (moves_step D B H2 v q b1)|apply (moves_step D B H2 v q b2)]; assumption.
    Qed.

    (* a cell sees 0 or 2 of the neighbours of v *)
    Definition diag (x : point) : bool :=
      (co a0 x =? co a0 v) && ((co b1 x =? nxt (get b1 D) (co b1 v)) || (co b1 x =? prv (get b1 D) (co b1 v)))
      && ((co b2 x =? nxt (get b2 D) (co b2 v)) || (co b2 x =? prv (get b2 D) (co b2 v))).

    Lemma gauge_cell x : cell D e B x -> cpar D B (sc_syn c) (fun q => pmem q (nbrs (sc_graph c) v)) x = false.
    Proof.
      intros Hx. pose proof (proj1 (cell_par D e B x) Hx) as [Hsx Hpx].
      unfold cpar. rewrite xsum_odd.
      assert (Hon : forall q, In q (filter (fun q => on_cellb D B x q && pmem q (nbrs (sc_graph c) v)) (sc_syn c)) <->
        diag x = true /\ (q = setco b1 (co b1 x) v \/ q = setco b2 (co b2 x) v)).
      { intros q. rewrite filter_In, andb_true_iff, pmem_In, nbr_moves, (cf_syn _ _ _ _ _ CF). fold B.
        unfold diag. rewrite !andb_true_iff, !orb_true_iff, !Z.eqb_eq. split.
        - intros (Hq & Ho & Hs & Hm). apply (on_cellb_true D e B H2 x q Hx) in Ho. destruct Ho as [_ Hst].
          destruct (step_in_moves D B H2 x q Hsx Hs Hst) as [a [Hxm _]].
          assert (Pv : forall b', b' <> a0 -> In q (moves D b' v) -> forall b'', b'' <> a0 -> b'' <> b' -> a = b'').
          { intros b' Nb' Hb b'' Nb'' Nbb. apply in_moves in Hb. destruct Hb as [_ Hb].
            destruct (axis_eq_dec a b'') as [|n]; [assumption|exfalso].
            apply in_moves in Hxm. destruct Hxm as [_ Hxm].
            assert (E : co b'' x = co b'' v) by (rewrite <- (Hxm b'' (fun E => n (eq_sym E))); apply Hb; assumption).
            specialize (Hpx b''). rewrite E, (v_par b'' Nb'') in Hpx. pose proof (par_cases e). lia. }
          destruct Hm as [Hm|Hm].
          + assert (a = b2) by (apply (Pv b1); auto; congruence). subst a.
            apply (moves_sym D B H2 x q b2 Hsx Hs) in Hxm.
            apply in_moves in Hm, Hxm. destruct Hm as [M1 M2], Hxm as [X1 X2].
            rewrite (M2 b2) in X1 by congruence.
            split; [split; [split|]|].
            * rewrite X2 by congruence. apply M2. congruence.
            * rewrite X2 by congruence. exact M1.
            * exact X1.
            * left. rewrite X2 by congruence. apply axis_point. assumption.
          + assert (a = b1) by (apply (Pv b2); auto). subst a.
            apply (moves_sym D B H2 x q b1 Hsx Hs) in Hxm.
            apply in_moves in Hm, Hxm. destruct Hm as [M1 M2], Hxm as [X1 X2].
            rewrite (M2 b1) in X1 by congruence.
            split; [split; [split|]|].
            * rewrite X2 by congruence. apply M2. congruence.
            * exact X1.
            * rewrite X2 by congruence. exact M1.
            * right. rewrite X2 by congruence. apply axis_point. assumption.
        - intros [[[D0 D1] D2] Hq].
          assert (Hsq : site D B q).
          { destruct Hq as [->| ->]; apply move_site; auto. }
          assert (Hm : In q (moves D b1 v) \/ In q (moves D b2 v)).
          { destruct Hq as [->| ->]; [left|right]; apply in_moves; rewrite co_setco_same; (split; [assumption|]);
              intros; apply co_setco_other; congruence. }
          assert (Hqq : qubit D e B q).
          { apply (anti_nbrs v q Hqv). apply nbr_moves. auto. }
          split; [assumption|]. split; [|auto].
          apply (on_cellb_true D e B H2 x q Hx). split; [assumption|]. apply step_sym.
          destruct Hq as [->| ->].
          + apply (moves_step D B H2 _ _ b2); [assumption|assumption|]. apply in_moves.
            rewrite co_setco_other by assumption. split; [exact D2|]. intros a Ha.
            destruct (Hall a) as [-> | [-> | -> ]]; [|rewrite co_setco_same; reflexivity|congruence].
            rewrite co_setco_other by assumption. assumption.
          + apply (moves_step D B H2 _ _ b1); [assumption|assumption|]. apply in_moves.
            rewrite co_setco_other by congruence. split; [exact D1|]. intros a Ha.
            destruct (Hall a) as [-> | [-> | -> ]]; [|congruence|rewrite co_setco_same; reflexivity].
            rewrite co_setco_other by assumption. assumption. }
      destruct (diag x) eqn:Ed.
      - rewrite (NoDup_same_length _ [setco b1 (co b1 x) v; setco b2 (co b2 x) v]).
        + reflexivity.
        + apply NoDup_filter, (cf_syn_nd _ _ _ _ _ CF).
        + repeat constructor; [|auto]. intros [E|[]]. apply (f_equal (co b1)) in E.
          rewrite co_setco_same, co_setco_other in E by congruence.
          pose proof (Hpx b1) as P. rewrite <- E, (v_par b1 N1) in P. pose proof (par_cases e). lia.
        + intros q. rewrite Hon. cbn [In]. split; [intros [_ [->| ->]]; auto|intros [<-|[<-|[]]]; auto].
      - destruct (filter _ (sc_syn c)) as [|q l]; [reflexivity|]. exfalso.
        assert (Hd : false = true) by (apply (Hon q); left; reflexivity). discriminate.
    Qed.

    Lemma gauge_plane a s : In a (logical_axes e b) -> s mod 2 = par e ->
      plane (sc_syn c) (fun q => pmem q (nbrs (sc_graph c) v)) a s = false.
    Proof.
      intros Hla Hsp. unfold plane. rewrite xsum_odd.
      assert (Hgen : forall b', b' <> a0 -> b' <> a ->
        (forall q, site D B q /\ (In q (moves D b1 v) \/ In q (moves D b2 v)) /\ co a q = s <-> 
                   (In q (moves D b' v) /\ co a v = s)) ->
        Nat.odd (length (filter (fun q => (co a q =? s) && pmem q (nbrs (sc_graph c) v)) (sc_syn c))) = false).
      { intros b' Nb0 Nba Hiff.
        assert (Hon : forall q, In q (filter (fun q => (co a q =? s) && pmem q (nbrs (sc_graph c) v)) (sc_syn c)) <->
           In q (moves D b' v) /\ co a v = s).
        { intros q. rewrite <- Hiff, filter_In, andb_true_iff, pmem_In, nbr_moves, (cf_syn _ _ _ _ _ CF), Z.eqb_eq. fold B.
          split; [tauto|]. intros (P1 & P2 & P3). split; [|tauto].
          apply (anti_nbrs v q Hqv), nbr_moves. auto. }
        destruct (Z.eq_dec (co a v) s) as [Es|Ns].
        - rewrite (NoDup_same_length _ (moves D b' v)).
          + reflexivity.
          + apply NoDup_filter, (cf_syn_nd _ _ _ _ _ CF).
          + apply moves_NoDup; assumption.
          + intros q. rewrite Hon. tauto.
        - destruct (filter _ (sc_syn c)) as [|q l]; [reflexivity|]. exfalso.
          apply Ns. apply (Hon q). left; reflexivity. }
      assert (Hfull : forall b', b' <> a0 -> b' <> a -> forall q, In q (moves D b' v) -> site D B q).
      { intros b' Nb0 Nba q Hq.
        destruct (range_moves e (get b' B) (get b' D) (co b' v) (H2 b') (Hv b') (v_par b' Nb0)) as [R1 R2].
        pose proof (full_of_logical e b a Hla b' Nba) as Hf. fold B in Hf.
        pose proof Hq as Hq'. apply in_moves in Hq'. destruct Hq' as [M1 M2]. apply axis_point in M2. rewrite M2.
        apply move_site; [assumption|]. destruct M1 as [M1|M1]; rewrite M1; tauto. }
      pose proof (par_cases e) as Hpc.
      destruct (Hall a) as [-> | [-> | -> ]].
      - (* no neighbour of v is on such a plane *)
        apply (Hgen b1); [assumption|assumption|]. intros q. pose proof v_par0 as P0. split.
        + intros (_ & Hm & Hc). exfalso. destruct Hm as [Hm|Hm]; apply in_moves in Hm; rewrite (proj2 Hm) in Hc by congruence; rewrite Hc in P0; lia.
        + intros [_ Hc]. rewrite Hc in P0. lia.
      - apply (Hgen b2); [assumption|congruence|]. intros q. split.
        + intros (_ & Hm & Hc). destruct Hm as [Hm|Hm].
          * pose proof (moved_par b1 q Hm) as P. rewrite (v_par b1 N1), Hc in P. lia.
          * split; [assumption|]. apply in_moves in Hm. rewrite (proj2 Hm) in Hc by congruence. assumption.
        + intros [Hm Hc]. split; [apply (Hfull b2); auto|]. split; [auto|].
          apply in_moves in Hm. rewrite (proj2 Hm) by congruence. assumption.
      - apply (Hgen b1); [assumption|congruence|]. intros q. split.
        + intros (_ & Hm & Hc). destruct Hm as [Hm|Hm].
          * split; [assumption|]. apply in_moves in Hm. rewrite (proj2 Hm) in Hc by congruence. assumption.
          * pose proof (moved_par b2 q Hm) as P. rewrite (v_par b2 N2), Hc in P. lia.
        + intros [Hm Hc]. split; [apply (Hfull b1); auto|]. split; [auto|].
          apply in_moves in Hm. rewrite (proj2 Hm) by congruence. assumption.
    Qed.
  End V.

  Lemma cpar_flip l bit x : cpar D B (sc_syn c) (flip l bit) x =
    xorb (cpar D B (sc_syn c) bit x) (cpar D B (sc_syn c) (fun q => pmem q l) x).
  Proof.
    unfold cpar. rewrite <- xsum_xorb. apply xsum_ext. intros q _. unfold flip.
    destruct (on_cellb D B x q), (bit q), (pmem q l); reflexivity.
  Qed.
  Lemma plane_flip l bit a s : plane (sc_syn c) (flip l bit) a s =
    xorb (plane (sc_syn c) bit a s) (plane (sc_syn c) (fun q => pmem q l) a s).
  Proof.
    unfold plane. rewrite <- xsum_xorb. apply xsum_ext. intros q _. unfold flip.
    destruct (co a q =? s), (bit q), (pmem q l); reflexivity.
  Qed.

  Lemma gauge_syndrome v bit st : In v (node_list (sc_graph c)) -> node_type (sc_graph c) v <> Some (sel e) ->
    In st (sc_stabs c) -> stab_parity (flip (nbrs (sc_graph c) v) bit) st = stab_parity bit st.
  Proof.
    intros Hn Ht Hst. pose proof (anti_vertex v Hn Ht) as Hv.
    apply qubit_axis_iff in Hv. destruct Hv as [Hs [a0 Ha0]].
    destruct (three_axes a0) as (b1 & b2 & N1 & N2 & N12 & Hall).
    pose proof (cf_stabs _ _ _ _ _ CF) as HF. fold B in HF.
    destruct (Forall2_in_r _ _ _ _ HF Hst) as [x [Hx HR]].
    unfold stab_parity. rewrite <- !(stab_is_cpar D e b pol c H2 HC _ x st Hx HR). fold B.
    rewrite cpar_flip. apply in_centres in Hx.
    rewrite (gauge_cell v a0 b1 b2 Hs Ha0 N1 N2 N12 Hall x Hx). apply xorb_false_r.
  Qed.

  Lemma gauge_verdict v bit sanity : In v (node_list (sc_graph c)) -> node_type (sc_graph c) v <> Some (sel e) ->
    check_correction c (flip (nbrs (sc_graph c) v) bit) sanity = check_correction c bit sanity.
  Proof.
    intros Hn Ht. pose proof (anti_vertex v Hn Ht) as Hv.
    apply qubit_axis_iff in Hv. destruct Hv as [Hs [a0 Ha0]].
    destruct (three_axes a0) as (b1 & b2 & N1 & N2 & N12 & Hall).
    rewrite !(check_correction_eq D e b pol c H2 HC). f_equal.
    assert (Hf : forall a, In a (logical_axes e b) ->
      plane (sc_syn c) (flip (nbrs (sc_graph c) v) bit) a (par e) = plane (sc_syn c) bit a (par e)).
    { intros a Ha. rewrite plane_flip, (gauge_plane v a0 b1 b2 Hs Ha0 N1 N2 N12 Hall a (par e) Ha).
      - apply xorb_false_r.
      - pose proof (par_cases e). lia. }
    induction (logical_axes e b) as [|a l IH]; [reflexivity|]. simpl.
    rewrite (Hf a) by (left; reflexivity). f_equal. apply IH. intros a' Ha'. apply Hf. right; assumption.
  Qed.

  (* C04: stabilizers <-> cells *)
  Lemma six_midpoint x : midpoint2 (six x) = (2 * co AX x, 2 * co AY x, 2 * co AZ x).
  Proof.
    destruct x as [[u v] w]. unfold midpoint2, six, lmin, lmax, co. cbn [map fold_left get setco].
    f_equal; [f_equal|]; lia.
  Qed.

  Lemma stab_cells : exists ctrs, NoDup ctrs /\ (forall x, In x ctrs <-> cell D e B x) /\
    map midpoint2 (sc_phys c) = map (fun x => (2 * co AX x, 2 * co AY x, 2 * co AZ x)) ctrs /\
    Forall2 (fun x st => NoDup st /\ forall q, In q st <-> on_cell D e B x q) ctrs (sc_stabs c).
  Proof.
    exists (centres D e B). split; [apply centres_NoDup|]. split; [intros x; apply in_centres|]. split.
    - rewrite (cf_phys _ _ _ _ _ CF), map_map. apply map_ext. intros x. apply six_midpoint.
    - apply (cf_stabs _ _ _ _ _ CF).
  Qed.

  Lemma stab_nodes st q : In st (sc_stabs c) -> In q st ->
    In q (node_list (sc_graph c)) /\ node_type (sc_graph c) q = Some (sel e).
  Proof.
    intros Hst Hq. apply (syn_graph D e b pol c H2 HC). apply (cf_syn _ _ _ _ _ CF). fold B.
    pose proof (cf_stabs _ _ _ _ _ CF) as HF. fold B in HF.
    destruct (Forall2_in_r _ _ _ _ HF Hst) as [x [Hx [_ HR]]]. apply HR in Hq. apply Hq.
  Qed.
End Gauge.
