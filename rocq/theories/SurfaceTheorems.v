(* SurfaceTheorems.v: lemmas behind properties C04-C07 and C10-C12. *)
From Verif Require Import Base Lattice RhgModel RhgSpec RhgProofs RhgDegree SurfaceModel SurfaceSpec
  SurfaceProofs SurfaceIncidence.
Open Scope Z_scope.

Lemma ge2_ok D B : dims_ge2 D -> dims_ok D B.
Proof. intros H a. specialize (H a). split; [lia|auto]. Qed.

Definition sel (e : ecx) : ntyp := match e with EcPrimal => Primal | EcDual => Dual end.

Lemma qubit_type D e B q : qubit D e B q <-> (primal_vertex D B q \/ dual_vertex D B q) /\ ntyp_of q = sel e.
Proof.
  unfold qubit, primal_vertex, dual_vertex, ntyp_of, sel. destruct e; split.
  - intros [H1 H2]. split; [auto|]. rewrite H2. reflexivity.
  - intros [[H|H] Ht]; [assumption|]. destruct H as [_ H]. rewrite H in Ht. discriminate.
  - intros [H1 H2]. split; [auto|]. rewrite H2. reflexivity.
  - intros [[H|H] Ht]; [|assumption]. destruct H as [_ H]. rewrite H in Ht. discriminate.
Qed.

Lemma ec_bnd_open_axis e b a : get a (code_bnds e b) = ec_bnd e <-> 
  (open_axis e b = Some a).
Proof. rewrite code_bnds_eq. destruct e, b, a; simpl; split; congruence. Qed.

Lemma full_of_logical e b a : In a (logical_axes e b) -> forall a', a' <> a -> get a' (code_bnds e b) <> ec_bnd e.
Proof.
  intros H a' Hne. rewrite ec_bnd_open_axis. destruct e, b; simpl in *; try congruence;
    destruct H as [<-|[]]; congruence.
Qed.

Lemma Forall2_in_l {A B} (R : A -> B -> Prop) l m x : Forall2 R l m -> In x l -> exists y, In y m /\ R x y.
Proof.
  induction 1; intros Hin; [destruct Hin|]. destruct Hin as [->|Hin].
  - exists y. split; [left; reflexivity|assumption].
  - destruct (IHForall2 Hin) as [z [Hz1 Hz2]]. exists z. split; [right|]; assumption.
Qed.

Lemma Forall2_in_r {A B} (R : A -> B -> Prop) l m y : Forall2 R l m -> In y m -> exists x, In x l /\ R x y.
Proof.
  induction 1; intros Hin; [destruct Hin|]. destruct Hin as [->|Hin].
  - exists x. split; [left; reflexivity|assumption].
  - destruct (IHForall2 Hin) as [z [Hz1 Hz2]]. exists z. split; [right|]; assumption.
Qed.

Lemma Forall2_filter_length {A B} (R : A -> B -> Prop) (f : A -> bool) (g : B -> bool) l m :
  (forall x y, In x l -> R x y -> f x = g y) -> Forall2 R l m ->
  length (filter f l) = length (filter g m).
Proof.
  intros H HF. induction HF; simpl; [reflexivity|].
  rewrite (H x y) by (auto; left; reflexivity).
  destruct (g y); simpl; [f_equal|]; apply IHHF; intros; apply H; auto; right; assumption.
Qed.

Lemma Forall2_xsum {A B} (R : A -> B -> Prop) (f : A -> bool) (g : B -> bool) l m :
  (forall x y, In x l -> R x y -> f x = g y) -> Forall2 R l m -> xsum f l = xsum g m.
Proof.
  intros H HF. induction HF; simpl; [reflexivity|].
  rewrite (H x y) by (auto; left; reflexivity). f_equal. apply IHHF. intros; apply H; auto; right; assumption.
Qed.

Lemma par_cases e : par e = 0 \/ par e = 1.
Proof. destruct e; auto. Qed.

Section SC.
  Variables (D : dims) (e : ecx) (b : bdk) (pol : option (point * point -> Z)) (c : scode).
  Hypothesis H2 : dims_ge2 D.
  Hypothesis HC : is_surface_code D e b pol c.
  Let B := code_bnds e b.

  Let HD : dims_ok D B := ge2_ok D B H2.
  Let CF : code_facts D e b pol c := surface_code_facts D e b pol c HD HC.

  Lemma stab_is_cpar bit ctr st :
    In ctr (centres D e B) -> NoDup st /\ (forall q, In q st <-> on_cell D e B ctr q) ->
    cpar D B (sc_syn c) bit ctr = xsum bit st.
  Proof.
    intros Hin [Hn Hs]. symmetry. apply (stab_cpar D e B); auto.
    - apply (cf_syn_nd _ _ _ _ _ CF).
    - apply (cf_syn _ _ _ _ _ CF).
    - apply in_centres. assumption.
  Qed.

  Lemma trivial_iff bit :
    (forall st, In st (sc_stabs c) -> stab_parity bit st = false) <->
    (forall ctr, cell D e B ctr -> cpar D B (sc_syn c) bit ctr = false).
  Proof.
    pose proof (cf_stabs _ _ _ _ _ CF) as HF. fold B in HF. split.
    - intros H ctr Hc. apply in_centres in Hc. destruct (Forall2_in_l _ _ _ _ HF Hc) as [st [Hst HR]].
      rewrite (stab_is_cpar bit ctr st Hc HR). apply H; assumption.
    - intros H st Hst. destruct (Forall2_in_r _ _ _ _ HF Hst) as [ctr [Hc HR]].
      unfold stab_parity. rewrite <- (stab_is_cpar bit ctr st Hc HR). apply H. apply in_centres; assumption.
  Qed.

  Lemma graph_nodes q : In q (node_list (sc_graph c)) <-> primal_vertex D B q \/ dual_vertex D B q.
  Proof.
    destruct (cf_graph _ _ _ _ _ CF) as [vs [Hvs HG]]. rewrite HG. apply G_nodes; assumption.
  Qed.

  Lemma syn_graph q : In q (sc_syn c) <-> In q (node_list (sc_graph c)) /\ node_type (sc_graph c) q = Some (sel e).
  Proof.
    rewrite (cf_syn _ _ _ _ _ CF q). fold B. rewrite graph_nodes, qubit_type.
    destruct (cf_graph _ _ _ _ _ CF) as [vs [Hvs HG]]. fold B in Hvs, HG. rewrite HG.
    split; intros [H1 H3]; (split; [assumption|]).
    - rewrite (G_type D B HD pol vs Hvs q H1). congruence.
    - rewrite (G_type D B HD pol vs Hvs q H1) in H3. congruence.
  Qed.

  (* C05: number of stabilizers of a qubit *)
  Lemma stab_count q : In q (sc_syn c) ->
    length (filter (pmem q) (sc_stabs c)) = if pmem q (sc_bound c) then 1%nat else 2%nat.
  Proof.
    intros Hq. apply (cf_syn _ _ _ _ _ CF) in Hq. fold B in Hq.
    pose proof Hq as Hq'. apply qubit_axis_iff in Hq'. destruct Hq' as [Hs [a Ha]].
    pose proof (cf_stabs _ _ _ _ _ CF) as HF. fold B in HF.
    rewrite <- (Forall2_filter_length _ (fun ctr => on_cellb D B ctr q) (pmem q) _ _) with (2 := HF).
    - rewrite (cell_count D e B H2 q a Hs Ha).
      assert (E : bnd_eqb (get a B) (ec_bnd e) && ((co a q =? par e) || (co a q =? hi e (get a D))) = pmem q (sc_bound c)).
      { apply eq_true_iff_eq. rewrite andb_true_iff, bnd_eqb_true, orb_true_iff, !Z.eqb_eq, pmem_In.
        unfold sc_bound. rewrite in_app_iff, (cf_low _ _ _ _ _ CF), (cf_high _ _ _ _ _ CF).
        unfold low_plane, high_plane. unfold B. rewrite ec_bnd_open_axis. fold B.
        unfold hi. split.
        - intros [Ho [Hx|Hx]]; [left|right]; (split; [assumption|]); exists a; (split; [assumption|]);
            unfold par in *; destruct e; lia.
        - intros [[_ [a' [Ho Hx]]]|[_ [a' [Ho Hx]]]].
          + assert (a' = a).
            { apply (has_axis_unique e q); [|assumption]. pose proof (proj1 (qubit_axis_iff D e B q) Hq) as [_ [a'' Ha'']].
              destruct (axis_eq_dec a' a'') as [->|n]; [assumption|].
              pose proof (proj2 Ha'' a' n). unfold par in *; destruct e; lia. }
            subst a'. split; [assumption|]. left. unfold par; destruct e; lia.
          + assert (a' = a).
            { apply (has_axis_unique e q); [|assumption]. pose proof (proj1 (qubit_axis_iff D e B q) Hq) as [_ [a'' Ha'']].
              destruct (axis_eq_dec a' a'') as [->|n]; [assumption|].
              pose proof (proj2 Ha'' a' n). unfold par in *; destruct e; lia. }
            subst a'. split; [assumption|]. right. unfold par; destruct e; lia. }
      rewrite E. reflexivity.
    - intros ctr st Hc [Hn Hst]. apply eq_true_iff_eq. rewrite pmem_In, Hst.
      apply on_cellb_true; [assumption|]. apply in_centres; assumption.
  Qed.

  (* C06 *)
  Lemma low_high_length : length (sc_low c) = length (sc_high c).
  Proof.
    destruct (open_axis e b) as [a|] eqn:Ho.
    - set (f := setco a (hi e (get a D))).
      rewrite <- (map_length f (sc_low c)). apply NoDup_same_length.
      + apply NoDup_map_inj; [|apply (cf_low_nd _ _ _ _ _ CF)].
        intros x y Hx Hy Hxy. apply (cf_low _ _ _ _ _ CF) in Hx, Hy.
        destruct Hx as [_ [a1 [E1 X1]]], Hy as [_ [a2 [E2 X2]]].
        rewrite Ho in E1, E2. injection E1 as <-. injection E2 as <-.
        apply point_ext. intros a'. destruct (axis_eq_dec a a') as [<-|n]; [congruence|].
        apply (f_equal (co a')) in Hxy. unfold f in Hxy. rewrite !co_setco_other in Hxy by assumption. assumption.
      + apply (cf_high_nd _ _ _ _ _ CF).
      + assert (Hmove : forall q x y, qubit D e B q -> co a q = x -> (x = par e /\ y = hi e (get a D) \/ x = hi e (get a D) /\ y = par e) ->
                   qubit D e B (setco a y q)).
        { intros q x y Hq Hx Hxy. apply qubit_axis_iff in Hq. destruct Hq as [Hs [a' Ha']].
          assert (a' = a).
          { destruct (axis_eq_dec a a') as [<-|n]; [reflexivity|].
            pose proof (proj2 Ha' a n). unfold hi, par in *; destruct e; lia. }
          subst a'. apply qubit_axis_iff. split.
          - apply move_site; [assumption|]. pose proof (H2 a). specialize (Hs a).
            assert (Hk : get a B = ec_bnd e) by (apply ec_bnd_open_axis; assumption). rewrite Hk in *.
            unfold hi, par in *. destruct e; simpl in *; lia.
          - exists a. split; [rewrite co_setco_same|intros b' Hb'; rewrite co_setco_other by congruence].
            + unfold hi, par in *. destruct e; lia.
            + apply Ha'. assumption. }
        intros x. rewrite in_map_iff, (cf_high _ _ _ _ _ CF). unfold high_plane. fold B. split.
        * intros [y [<- Hy]]. apply (cf_low _ _ _ _ _ CF) in Hy. destruct Hy as [Hq [a1 [E1 X1]]].
          rewrite Ho in E1. injection E1 as <-. split.
          -- apply (Hmove y (co a y) _ Hq eq_refl). left. split; [|reflexivity]. rewrite X1. destruct e; reflexivity.
          -- exists a. split; [assumption|]. unfold f. rewrite co_setco_same. unfold hi, par. destruct e; lia.
        * intros [Hq [a1 [E1 X1]]]. rewrite Ho in E1. injection E1 as <-.
          exists (setco a (par e) x). split.
          -- unfold f. apply point_ext. intros a'. destruct (axis_eq_dec a a') as [<-|n].
             ++ rewrite co_setco_same. rewrite X1. unfold hi, par. destruct e; lia.
             ++ rewrite !co_setco_other by assumption. reflexivity.
          -- apply (cf_low _ _ _ _ _ CF). split.
             ++ apply (Hmove x (co a x) _ Hq eq_refl). right. split; [|reflexivity].
                rewrite X1. unfold hi, par. destruct e; lia.
             ++ exists a. split; [assumption|]. rewrite co_setco_same. destruct e; reflexivity.
    - assert (Hl : sc_low c = []).
      { destruct (sc_low c) as [|x l] eqn:E; [reflexivity|]. exfalso.
        assert (Hx : In x (sc_low c)) by (rewrite E; left; reflexivity).
        apply (cf_low _ _ _ _ _ CF) in Hx. destruct Hx as [_ [a [E1 _]]]. congruence. }
      assert (Hh : sc_high c = []).
      { destruct (sc_high c) as [|x l] eqn:E; [reflexivity|]. exfalso.
        assert (Hx : In x (sc_high c)) by (rewrite E; left; reflexivity).
        apply (cf_high _ _ _ _ _ CF) in Hx. destruct Hx as [_ [a [E1 _]]]. congruence. }
      rewrite Hl, Hh. reflexivity.
  Qed.

  (* C07 *)
  Lemma even_syndrome bit : b <> BdOpen -> Nat.even (length (filter (stab_parity bit) (sc_stabs c))) = true.
  Proof.
    intros Hb.
    assert (Hx : xsum (stab_parity bit) (sc_stabs c) = false).
    { pose proof (cf_stabs _ _ _ _ _ CF) as HF. fold B in HF.
      rewrite <- (Forall2_xsum _ (cpar D B (sc_syn c) bit) _ _ _) with (2 := HF).
      - apply (total_parity D e B (sc_syn c) H2).
        + apply (cf_syn _ _ _ _ _ CF).
        + intros a. unfold B. rewrite ec_bnd_open_axis. destruct b; simpl; congruence.
      - intros ctr st Hc HR. apply stab_is_cpar; assumption. }
    rewrite xsum_odd in Hx. rewrite <- Nat.negb_odd, Hx. reflexivity.
  Qed.

  (* sheets *)
  Lemma sheet_plane bit a s : sheet_parity c bit a s = plane (sc_syn c) bit a s.
  Proof.
    unfold sheet_parity, plane. rewrite <- xsum_filter. apply xsum_perm. apply NoDup_Permutation.
    - apply NoDup_filter. unfold slice_coords. apply NoDup_filter.
      destruct (cf_graph _ _ _ _ _ CF) as [vs [Hvs HG]]. rewrite HG. apply G_NoDup.
    - apply NoDup_filter. apply (cf_syn_nd _ _ _ _ _ CF).
    - intros q. unfold slice_coords. rewrite !filter_In, pmem_In. split; [tauto|].
      intros [Hq Hs]. split; [split; [|assumption]|assumption]. apply syn_graph in Hq. apply Hq.
  Qed.

  Lemma minimum_par : minimum e = par e.
  Proof. destruct e; reflexivity. Qed.

  Lemma sheets_in mn mx s : In s (sheets mn mx) <-> exists k : nat, s = mn + 2 * Z.of_nat k /\ s < mx.
  Proof.
    unfold sheets. rewrite in_map_iff. split.
    - intros [k [<- Hk]]. apply in_seq in Hk. exists k. split; [reflexivity|]. lia.
    - intros [k [-> Hk]]. exists k. split; [reflexivity|]. apply in_seq. lia.
  Qed.

  Lemma sheets_head mn mx : mn < mx -> exists l, sheets mn mx = mn :: l.
  Proof.
    intros H. unfold sheets. destruct (Z.to_nat ((mx - mn + 1) / 2)) as [|n] eqn:E; [lia|].
    simpl. eexists. f_equal. lia.
  Qed.

  Lemma truth_head bit sanity a : exists l, truth c bit sanity a = negb (plane (sc_syn c) bit a (par e)) :: l.
  Proof.
    unfold truth. rewrite (cf_ec _ _ _ _ _ CF), (cf_dims _ _ _ _ _ CF), minimum_par.
    destruct (sheets_head (par e) (if sanity then 2 * get a D else par e + 2)) as [l Hl].
    - pose proof (H2 a). unfold par. destruct sanity, e; lia.
    - rewrite Hl. simpl. rewrite sheet_plane. eexists; reflexivity.
  Qed.

  (* check_correction looks at the first plane of each direction *)
  Lemma check_correction_eq bit sanity :
    check_correction c bit sanity =
    Ok (forallb (fun a => negb (plane (sc_syn c) bit a (par e))) (logical_axes e b)).
  Proof.
    unfold check_correction. rewrite (cf_ec _ _ _ _ _ CF), (cf_bd _ _ _ _ _ CF), planes_to_check_eq.
    induction (logical_axes e b) as [|a l IH]; simpl; [reflexivity|].
    destruct (truth_head bit sanity a) as [l' Hl']. rewrite Hl', IH. reflexivity.
  Qed.

  Lemma truth_all_equal bit a :
    (forall st, In st (sc_stabs c) -> stab_parity bit st = false) -> In a (logical_axes e b) ->
    forall t, In t (truth c bit true a) -> t = negb (plane (sc_syn c) bit a (par e)).
  Proof.
    intros Ht Ha t Hin. unfold truth in Hin.
    rewrite (cf_ec _ _ _ _ _ CF), (cf_dims _ _ _ _ _ CF), minimum_par in Hin.
    apply in_map_iff in Hin. destruct Hin as [s [<- Hs]]. f_equal. rewrite sheet_plane.
    apply sheets_in in Hs. destruct Hs as [k [-> Hk]].
    apply (planes_equal D e B (sc_syn c) H2).
    - apply (cf_syn _ _ _ _ _ CF).
    - apply full_of_logical; assumption.
    - apply trivial_iff; assumption.
    - unfold hi. pose proof (H2 a). unfold par in *. destruct e; lia.
  Qed.

  Lemma truth_length bit a : length (truth c bit true a) = Z.to_nat (get a D).
  Proof.
    unfold truth. rewrite map_length. unfold sheets. rewrite map_length, seq_length.
    rewrite (cf_ec _ _ _ _ _ CF), (cf_dims _ _ _ _ _ CF), minimum_par. unfold par. destruct e; lia.
  Qed.

  (* C11, lower bound *)
  Lemma plane_witness bit a s : plane (sc_syn c) bit a s = true ->
    exists q, In q (sc_syn c) /\ co a q = s /\ bit q = true.
  Proof.
    unfold plane. intros H.
    destruct (existsb (fun q => (co a q =? s) && bit q) (sc_syn c)) eqn:E.
    - apply existsb_exists in E. destruct E as [q [Hq E]]. apply andb_true_iff in E.
      exists q. rewrite Z.eqb_eq in E. tauto.
    - exfalso. rewrite xsum_all_false in H; [discriminate|]. intros q Hq.
      destruct (((co a q =? s) && bit q)) eqn:F; [|reflexivity].
      assert (existsb (fun q => (co a q =? s) && bit q) (sc_syn c) = true); [|congruence].
      apply existsb_exists. exists q; auto.
  Qed.

  Lemma distinct_heights (f : nat -> Z) (co' : point -> Z) l : 
    (forall i j, f i = f j -> i = j) ->
    forall n, (forall k, (k < n)%nat -> exists q, In q l /\ co' q = f k) -> (n <= length l)%nat.
  Proof.
    intros Hf n H.
    assert (Hincl : incl (map f (seq 0 n)) (map co' l)).
    { intros x Hx. apply in_map_iff in Hx. destruct Hx as [k [<- Hk]]. apply in_seq in Hk.
      destruct (H k ltac:(lia)) as [q [Hq Hc]]. rewrite <- Hc. apply in_map. assumption. }
    apply NoDup_incl_length in Hincl.
    - rewrite !map_length, seq_length in Hincl. assumption.
    - apply NoDup_map_inj; [auto|apply seq_NoDup].
  Qed.

  Lemma distance_bound bit :
    (forall st, In st (sc_stabs c) -> stab_parity bit st = false) ->
    check_correction c bit false = Ok false ->
    exists a, In a (logical_axes e b) /\ get a D <= Z.of_nat (length (filter bit (sc_syn c))).
  Proof.
    intros Ht Hf. rewrite check_correction_eq in Hf. injection Hf as Hf.
    assert (He : exists a, In a (logical_axes e b) /\ plane (sc_syn c) bit a (par e) = true).
    { induction (logical_axes e b) as [|a l IH]; [discriminate|]. simpl in Hf.
      destruct (plane (sc_syn c) bit a (par e)) eqn:E.
      - exists a. split; [left; reflexivity|assumption].
      - simpl in Hf. destruct (IH Hf) as [a' [Ha' E']]. exists a'. split; [right|]; assumption. }
    destruct He as [a [Ha Hp]]. exists a. split; [assumption|].
    assert (Z.to_nat (get a D) <= length (filter bit (sc_syn c)))%nat; [|lia].
    apply (distinct_heights (fun k => par e + 2 * Z.of_nat k) (co a)).
    - intros i j Hij. lia.
    - intros k Hk.
      assert (Hpk : plane (sc_syn c) bit a (par e + 2 * Z.of_nat k) = true).
      { rewrite (planes_equal D e B (sc_syn c) H2); auto.
        - apply (cf_syn _ _ _ _ _ CF).
        - apply full_of_logical; assumption.
        - apply trivial_iff; assumption.
        - unfold hi. lia. }
      apply plane_witness in Hpk. destruct Hpk as [q (Hq & Hc & Hb)].
      exists q. split; [apply filter_In; auto|assumption].
  Qed.

  (* C11, a logical operator of weight d: a straight line along a *)
  Definition base_coord (k : bnd) : Z := match e, k with
    | EcPrimal, _ => 1 | EcDual, BDual => 2 | EcDual, _ => 0 end.
  Definition line (a : axis) (q : point) : bool :=
    (co a q mod 2 =? par e) &&
    forallb (fun a' => if axis_eq_dec a' a then true else co a' q =? base_coord (get a' B)) axes.

  Definition base_point : point := (base_coord (get AX B), base_coord (get AY B), base_coord (get AZ B)).

  Lemma base_co a : co a base_point = base_coord (get a B).
  Proof. destruct a; reflexivity. Qed.

  Lemma base_range a : in_range (get a B) (get a D) (base_coord (get a B)) /\ base_coord (get a B) mod 2 = 1 - par e.
  Proof.
    pose proof (H2 a). unfold base_coord, par. destruct e, (get a B); simpl; lia.
  Qed.

  Lemma line_true a q : line a q = true <-> co a q mod 2 = par e /\ q = setco a (co a q) base_point.
  Proof.
    unfold line. rewrite andb_true_iff, Z.eqb_eq, forallb_forall. rewrite <- axis_point.
    split; intros [H1 H3]; (split; [assumption|]).
    - intros a' Ha'. specialize (H3 a' (axes_all a')). destruct (axis_eq_dec a' a); [congruence|].
      rewrite base_co. lia.
    - intros a' _. destruct (axis_eq_dec a' a); [reflexivity|]. rewrite H3, base_co by assumption. lia.
  Qed.

  Lemma logical_bnd a : In a (logical_axes e b) -> get a B = BPeriodic \/ get a B = ec_bnd e.
  Proof.
    unfold B. rewrite code_bnds_eq. clear. destruct e, b; simpl; intros H;
      repeat (destruct H as [<-|H]; [auto|]); destruct H.
  Qed.

  Lemma line_qubit a x : In a (logical_axes e b) -> x mod 2 = par e -> par e <= x <= hi e (get a D) ->
    qubit D e B (setco a x base_point).
  Proof.
    intros Hla Hx Hr. apply qubit_axis_iff. split.
    - intros a'. destruct (axis_eq_dec a a') as [<-|n].
      + rewrite co_setco_same. pose proof (H2 a) as Hd. apply logical_bnd in Hla.
        clear - Hx Hr Hd Hla. unfold hi, par in *.
        destruct Hla as [-> | ->]; destruct e; simpl in *; lia.
      + rewrite co_setco_other, base_co by assumption. apply base_range.
    - exists a. split; [rewrite co_setco_same; assumption|].
      intros b' Hb'. rewrite co_setco_other, base_co by congruence. apply base_range.
  Qed.

  Lemma line_range a q : In a (logical_axes e b) -> qubit D e B q -> line a q = true -> par e <= co a q <= hi e (get a D).
  Proof.
    intros Hla Hq Hl. apply line_true in Hl. destruct Hl as [Hp _].
    assert (Hs : site D B q) by (apply qubit_axis_iff in Hq; apply Hq). specialize (Hs a). pose proof (H2 a) as Hd.
    apply logical_bnd in Hla. clear - Hs Hd Hla Hp. unfold hi, par in *.
    destruct Hla as [E|E]; rewrite E in Hs; destruct e; simpl in *; lia.
  Qed.

  Lemma line_count a : In a (logical_axes e b) -> Z.of_nat (length (filter (line a) (sc_syn c))) = get a D.
  Proof.
    intros Hla.
    set (l := map (fun k => setco a (par e + 2 * Z.of_nat k) base_point) (seq 0 (Z.to_nat (get a D)))).
    assert (Hlen : length (filter (line a) (sc_syn c)) = length l).
    { apply NoDup_same_length.
      - apply NoDup_filter, (cf_syn_nd _ _ _ _ _ CF).
      - unfold l. apply NoDup_map_inj; [|apply seq_NoDup]. intros x y _ _ H. apply setco_inj in H. lia.
      - intros q. rewrite filter_In, (cf_syn _ _ _ _ _ CF). fold B. split.
        + intros [Hq Hl]. pose proof (line_range a q Hla Hq Hl) as Hr. apply line_true in Hl. destruct Hl as [Hp Hq'].
          unfold l. apply in_map_iff. exists (Z.to_nat ((co a q - par e) / 2)). split.
          * rewrite Hq' at 2. f_equal. pose proof (par_cases e). lia.
          * apply in_seq. unfold hi in Hr. lia.
        + unfold l. intros Hq. apply in_map_iff in Hq. destruct Hq as [k [<- Hk]]. apply in_seq in Hk.
          pose proof (par_cases e).
          split; [apply line_qubit; [assumption|lia|unfold hi; lia]|].
          apply line_true. rewrite co_setco_same. split; [lia|reflexivity]. }
    rewrite Hlen. unfold l. rewrite map_length, seq_length. pose proof (H2 a). lia.
  Qed.

  Lemma line_syndrome a ctr : In a (logical_axes e b) -> cell D e B ctr -> cpar D B (sc_syn c) (line a) ctr = false.
  Proof.
    intros Hla Hc.
    pose proof (par_cases e) as Hpar.
    pose proof (proj1 (cell_par D e B ctr) Hc) as [Hs Hp].
    (* the qubits of the cell on the line *)
    assert (Hon : forall q, (In q (sc_syn c) /\ on_cellb D B ctr q && line a q = true) <->
                   (In q (moves D a ctr) /\ forall a', a' <> a -> co a' ctr = base_coord (get a' B))).
    { intros q. rewrite (cf_syn _ _ _ _ _ CF), andb_true_iff. fold B. split.
      - intros (Hq & Ho & Hl). apply (on_cellb_true D e B H2 ctr q Hc) in Ho.
        pose proof (proj1 (qubit_axis_iff D e B q) Hq) as [Hqs _].
        destruct Ho as [_ Hst].
        destruct (step_in_moves D B H2 ctr q Hs Hqs Hst) as [a' [Hm Hpa]].
        apply line_true in Hl. destruct Hl as [Hl1 Hl2].
        assert (a' = a).
        { destruct (axis_eq_dec a' a) as [|n]; [assumption|]. apply in_moves in Hm. destruct Hm as [_ Hm].
          rewrite Hm in Hl1 by congruence. specialize (Hp a). lia. }
        subst a'. split; [assumption|]. intros a' Ha'. apply in_moves in Hm. destruct Hm as [_ Hm].
        rewrite <- (Hm a' Ha'). rewrite Hl2, co_setco_other, base_co by congruence. reflexivity.
      - intros [Hm Hb].
        assert (Hq : q = setco a (co a q) base_point).
        { apply in_moves in Hm. apply axis_point. intros a' Ha'. rewrite (proj2 Hm) by assumption.
          rewrite base_co. apply Hb. assumption. }
        assert (Hr : co a q mod 2 = par e /\ par e <= co a q <= hi e (get a D)).
        { apply in_moves in Hm. destruct Hm as [Hm _]. specialize (Hs a). specialize (Hp a). pose proof (H2 a) as Hd.
          apply logical_bnd in Hla. clear - Hs Hd Hla Hp Hm. unfold nxt, prv, hi, par in *.
          destruct (co a ctr =? 2 * get a D - 1) eqn:?, (co a ctr =? 0) eqn:?;
          destruct Hla as [E|E]; rewrite E in Hs; destruct e; simpl in *; lia. }
        assert (Hqq : qubit D e B q) by (rewrite Hq; apply line_qubit; tauto).
        split; [assumption|]. split.
        + apply (on_cellb_true D e B); [assumption|assumption|]. split; [assumption|].
          apply (moves_step D B H2 ctr q a); [assumption| |assumption]. apply qubit_axis_iff in Hqq; apply Hqq.
        + apply line_true. tauto. }
    unfold cpar. rewrite xsum_odd.
    destruct (forallb (fun a' => if axis_eq_dec a' a then true else co a' ctr =? base_coord (get a' B)) axes) eqn:E.
    - rewrite forallb_forall in E.
      assert (Hb : forall a', a' <> a -> co a' ctr = base_coord (get a' B)).
      { intros a' Ha'. specialize (E a' (axes_all a')). destruct (axis_eq_dec a' a); [congruence|]. lia. }
      rewrite (NoDup_same_length _ (moves D a ctr)).
      + reflexivity.
      + apply NoDup_filter, (cf_syn_nd _ _ _ _ _ CF).
      + apply moves_NoDup; assumption.
      + intros q. rewrite filter_In, Hon. tauto.
    - assert (Hnil : filter (fun q => on_cellb D B ctr q && line a q) (sc_syn c) = []).
      { destruct (filter _ (sc_syn c)) as [|q l] eqn:F; [reflexivity|]. exfalso.
        assert (Hq : In q (filter (fun q => on_cellb D B ctr q && line a q) (sc_syn c))) by (rewrite F; left; reflexivity).
        apply filter_In in Hq. apply Hon in Hq. destruct Hq as [_ Hb].
        assert (forallb (fun a' => if axis_eq_dec a' a then true else co a' ctr =? base_coord (get a' B)) axes = true); [|congruence].
        apply forallb_forall. intros a' _. destruct (axis_eq_dec a' a); [reflexivity|]. rewrite Hb by assumption. lia. }
      rewrite Hnil. reflexivity.
  Qed.

  Lemma line_plane a : In a (logical_axes e b) -> plane (sc_syn c) (line a) a (par e) = true.
  Proof.
    intros Hla. unfold plane. rewrite xsum_odd.
    pose proof (par_cases e) as Hpar.
    rewrite (NoDup_same_length _ [setco a (par e) base_point]).
    - reflexivity.
    - apply NoDup_filter, (cf_syn_nd _ _ _ _ _ CF).
    - repeat constructor. auto.
    - intros q. rewrite filter_In, (cf_syn _ _ _ _ _ CF), andb_true_iff, line_true, Z.eqb_eq. fold B. cbn [In]. split.
      + intros (Hq & H1 & H3 & H4). left. rewrite H4, H1. reflexivity.
      + intros [<-|[]]. rewrite co_setco_same. split; [|split; [reflexivity|split; [lia|reflexivity]]].
        apply line_qubit; [assumption|lia|]. unfold hi. pose proof (H2 a). lia.
  Qed.

  Lemma distance_tight a : In a (logical_axes e b) ->
    exists bit, (forall st, In st (sc_stabs c) -> stab_parity bit st = false) /\
      check_correction c bit false = Ok false /\
      Z.of_nat (length (filter bit (sc_syn c))) = get a D.
  Proof.
    intros Hla. exists (line a). split; [|split].
    - apply trivial_iff. intros ctr Hc. apply line_syndrome; assumption.
    - rewrite check_correction_eq. f_equal.
      assert (Hf : forall l, In a l -> forallb (fun a0 => negb (plane (sc_syn c) (line a) a0 (par e))) l = false).
      { induction l as [|x l IH]; intros Hin; [destruct Hin|]. simpl. destruct Hin as [->|Hin].
        - rewrite (line_plane a Hla). reflexivity.
        - rewrite (IH Hin). apply andb_false_r. }
      apply Hf. assumption.
    - apply line_count. assumption.
  Qed.
End SC.
