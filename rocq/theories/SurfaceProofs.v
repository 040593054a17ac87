(* SurfaceProofs.v: the stabilizers of a SurfaceCode are the cells of SurfaceSpec.v. *)
From Coq Require Import String.
From Verif Require Import Base Lattice RhgModel RhgSpec RhgProofs RhgDegree SurfaceModel SurfaceSpec.
Open Scope Z_scope.

Lemma code_bnds_eq e b : code_bnds e b = documented_bnds e b.
Proof. destruct e, b; reflexivity. Qed.

Lemma is_periodic_str_eq e b : is_periodic_str e b = match b with BdOpen => false | _ => true end.
Proof. destruct e, b; reflexivity. Qed.

Lemma planes_to_check_eq e b : planes_to_check e b = logical_axes e b.
Proof. destruct e, b; reflexivity. Qed.

(* parity of the coordinate along which a qubit of complex e separates two cells *)
Definition par (e : ecx) : Z := match e with EcPrimal => 0 | EcDual => 1 end.

Lemma cell_par D e B c : cell D e B c <-> site D B c /\ forall a, co a c mod 2 = 1 - par e.
Proof.
  unfold cell, nodd, par. split; intros [H1 H2]; (split; [assumption|]).
  - intros a. destruct e, a; lia.
  - pose proof (H2 AX); pose proof (H2 AY); pose proof (H2 AZ). destruct e; lia.
Qed.

Definition has_axis (e : ecx) (q : point) (a : axis) : Prop :=
  co a q mod 2 = par e /\ forall b, b <> a -> co b q mod 2 = 1 - par e.

Lemma qubit_axis_iff D e B q : qubit D e B q <-> site D B q /\ exists a, has_axis e q a.
Proof.
  unfold qubit, primal_vertex, dual_vertex, nodd, has_axis, par. split.
  - intros H. assert (Hs : site D B q) by (destruct e; apply H). split; [assumption|].
    assert (Hn : co AX q mod 2 + co AY q mod 2 + co AZ q mod 2 = match e with EcPrimal => 2 | EcDual => 1 end)
      by (destruct e; apply H). clear H.
    destruct (Z.eq_dec (co AX q mod 2) (match e with EcPrimal => 0 | EcDual => 1 end)) as [Ex|Ex];
      [exists AX|destruct (Z.eq_dec (co AY q mod 2) (match e with EcPrimal => 0 | EcDual => 1 end)) as [Ey|Ey];
                 [exists AY|exists AZ]];
      (split; [destruct e; lia|intros [] Hb; try congruence; destruct e; lia]).
  - intros [Hs [a [H1 H2]]].
    pose proof (H2 AX); pose proof (H2 AY); pose proof (H2 AZ).
    destruct a; destruct e; (split; [assumption|]);
      repeat match goal with H : ?x <> ?y -> _ |- _ => 
        first [specialize (H ltac:(discriminate)) | clear H] end; lia.
Qed.

Lemma has_axis_unique e q a b : has_axis e q a -> has_axis e q b -> a = b.
Proof.
  intros [H1 H2] [H3 H4]. destruct (axis_eq_dec a b) as [|n]; [assumption|].
  specialize (H4 a n). unfold par in *. destruct e; lia.
Qed.

(* ------------------------------------------------------------------ *)
(* cells and their six neighbours *)

Definition six (c : point) : list point :=
  [ setco AX (co AX c - 1) c; setco AY (co AY c - 1) c; setco AZ (co AZ c - 1) c;
    setco AX (co AX c + 1) c; setco AY (co AY c + 1) c; setco AZ (co AZ c + 1) c ].

Definition centre (e : ecx) (ijk : point) : point :=
  let '(i, j, k) := ijk in
  match e with
  | EcPrimal => (2 * i + 1, 2 * j + 1, 2 * k + 1)
  | EcDual => (2 * i + 2, 2 * j + 2, 2 * k + 2)
  end.

Definition centres (D : dims) (e : ecx) (B : bnds) : list point :=
  map (centre e) (match e with EcPrimal => rhg_inds D B | EcDual => dual_inds D B end).

Lemma six_centre e ijk :
  six (centre e ijk) = match e with EcPrimal => primal_six ijk | EcDual => dual_six ijk end.
Proof.
  destruct ijk as [[i j] k]. unfold six, centre, co, primal_six, dual_six.
  destruct e; cbn [setco get]; repeat (f_equal; try lia).
Qed.

Lemma all_six_centres D e B : all_six_bodies e D B = map six (centres D e B).
Proof.
  unfold centres, all_six_bodies, primal_cubes. destruct e; rewrite map_map; apply map_ext;
    intros ijk; [rewrite (six_centre EcPrimal)|rewrite (six_centre EcDual)]; reflexivity.
Qed.

Lemma centres_NoDup D e B : NoDup (centres D e B).
Proof.
  unfold centres. apply NoDup_map_inj.
  - intros [[i j] k] [[i' j'] k'] _ _ H. unfold centre in H. destruct e; injection H; intros;
      f_equal; try f_equal; lia.
  - destruct e; apply product3_NoDup; apply NoDup_py_range.
Qed.

Lemma in_centres D e B c : In c (centres D e B) <-> cell D e B c.
Proof.
  rewrite cell_par. unfold centres. rewrite in_map_iff. split.
  - intros [[[i j] k] [<- Hin]]. unfold centre, site, in_range, par.
    destruct e; unfold rhg_inds, dual_inds in Hin; rewrite in_product3, !in_py_range in Hin;
      destruct Hin as (Hi & Hj & Hk); split; intros a; unfold co; 
      [destruct a; cbn [get] in *; [destruct (get AX B)|destruct (get AY B)|destruct (get AZ B)];
        cbn [rhg_max] in *; lia | destruct a; cbn [get]; lia |
       destruct a; cbn [get] in *; [destruct (get AX B)|destruct (get AY B)|destruct (get AZ B)];
        cbn [dual_min dual_max] in *; lia | destruct a; cbn [get]; lia].
  - intros [Hs Hp]. destruct c as [[x y] z].
    pose proof (Hs AX) as Sx; pose proof (Hs AY) as Sy; pose proof (Hs AZ) as Sz.
    pose proof (Hp AX) as Px; pose proof (Hp AY) as Py; pose proof (Hp AZ) as Pz.
    unfold co, par in *. cbn [get] in *.
    destruct e.
    + exists ((x - 1) / 2, (y - 1) / 2, (z - 1) / 2). split.
      * unfold centre. f_equal; [f_equal|]; lia.
      * unfold rhg_inds. rewrite in_product3, !in_py_range.
        split; [|split]; [destruct (get AX B)|destruct (get AY B)|destruct (get AZ B)];
          cbn [in_range rhg_max] in *; lia.
    + exists ((x - 2) / 2, (y - 2) / 2, (z - 2) / 2). split.
      * unfold centre. f_equal; [f_equal|]; lia.
      * unfold dual_inds. rewrite in_product3, !in_py_range.
        split; [|split]; [destruct (get AX B)|destruct (get AY B)|destruct (get AZ B)];
          cbn [in_range dual_min dual_max] in *; lia.
Qed.

Lemma in_six c q : In q (six c) <-> exists a, (co a q = co a c + 1 \/ co a q = co a c - 1) /\
  forall b, b <> a -> co b q = co b c.
Proof.
  split.
  - intros H. unfold six in H. cbn [In] in H.
    decompose [or] H; clear H; try contradiction; subst q;
      [exists AX|exists AY|exists AZ|exists AX|exists AY|exists AZ];
      rewrite co_setco_same; (split; [auto|intros b Hb; apply co_setco_other; congruence]).
  - intros [a [Hc Ho]]. apply axis_point in Ho. rewrite Ho.
    unfold six. destruct a; destruct Hc as [Hc|Hc]; rewrite Hc; cbn [In]; tauto.
Qed.

Lemma NoDup_six c : NoDup (six c).
Proof.
  destruct c as [[x y] z]. unfold six, co. cbn [get setco].
  repeat (constructor; [cbn [In]; intros H; decompose [or] H; try contradiction;
    match goal with E : (_, _, _) = (_, _, _) |- _ => injection E; lia end|]).
  constructor.
Qed.

Lemma nth_six c a :
  nth (axis_pos a) (six c) (0, 0, 0) = setco a (co a c - 1) c /\
  nth (3 + axis_pos a) (six c) (0, 0, 0) = setco a (co a c + 1) c.
Proof. destruct a; split; reflexivity. Qed.

Lemma nodup_id {A} dec (l : list A) : NoDup l -> nodup dec l = l.
Proof. apply nodup_fixed_point. Qed.

Lemma filter_length_all {A} (f : A -> bool) l :
  length (filter f l) = length l -> forall x, In x l -> f x = true.
Proof.
  induction l as [|y l IH]; simpl; intros H x Hx; [contradiction|].
  assert (Hle : forall m : list A, (length (filter f m) <= length m)%nat).
  { intros m; induction m as [|z m IHm]; simpl; [lia|]. destruct (f z); simpl; lia. }
  destruct (f y) eqn:E; simpl in H.
  - destruct Hx as [->|Hx]; [assumption|]. apply IH; auto.
  - specialize (Hle l). lia.
Qed.

Section Code.
  Variables (D : dims) (e : ecx) (B : bnds).
  Hypothesis HD : dims_ok D B.
  Variable pol : option (point * point -> Z).
  Variable vs : list point.
  Hypothesis Hvs : set_enum (six_body_points D B) vs.
  Let G := rhg_graph D B pol vs.

  Lemma has_node_vertex p : has_node G p = true <-> primal_vertex D B p \/ dual_vertex D B p.
  Proof. rewrite has_node_In. apply G_nodes; assumption. Qed.

  Lemma qubit_vertex q : qubit D e B q -> primal_vertex D B q \/ dual_vertex D B q.
  Proof. unfold qubit. destruct e; auto. Qed.

  Lemma six_qubit c q : (forall a, co a c mod 2 = 1 - par e) -> In q (six c) -> exists a, has_axis e q a.
  Proof.
    intros Hc Hq. apply in_six in Hq. destruct Hq as [a [Hs Ho]]. exists a. split.
    - specialize (Hc a). unfold par in *; destruct e; lia.
    - intros b Hb. rewrite Ho by assumption. apply Hc.
  Qed.

  Lemma six_has_node c q : cell D e B c -> In q (six c) -> (has_node G q = true <-> site D B q).
  Proof.
    intros Hc Hq. rewrite has_node_vertex. split.
    - intros [[H _]|[H _]]; assumption.
    - intros Hs. apply qubit_vertex. apply qubit_axis_iff. split; [assumption|].
      apply (six_qubit c); [apply cell_par in Hc; apply Hc|assumption].
  Qed.

  Lemma in_virtual c q : cell D e B c ->
    In q (periodic_virtual e D B (six c)) <-> wrap D B c q /\ qubit D e B q.
  Proof.
    intros Hc. apply cell_par in Hc. destruct Hc as [Hs Hp].
    unfold periodic_virtual. rewrite in_flat_map. split.
    - intros [a [Ha Hq]]. apply in_axes_of in Ha.
      destruct (nth_six c a) as [N1 N2]. rewrite N1, N2 in Hq. rewrite !co_setco_same in Hq.
      assert (Hv : q = setco a (par e * (2 * get a D - 1)) c /\ co a c = (1 - par e) * (2 * get a D - 1)).
      { unfold par. destruct e.
        - destruct (_ =? _) eqn:E; [|destruct Hq]. destruct Hq as [<-|[]].
          split; [|lia]. apply point_ext. intros b. destruct (axis_eq_dec a b) as [<-|n].
          + rewrite !co_setco_same. lia.
          + rewrite !co_setco_other by assumption. reflexivity.
        - destruct (_ =? _) eqn:E; [|destruct Hq]. destruct Hq as [<-|[]].
          split; [|lia]. apply point_ext. intros b. destruct (axis_eq_dec a b) as [<-|n].
          + rewrite !co_setco_same. lia.
          + rewrite !co_setco_other by assumption. reflexivity. }
      destruct Hv as [Hv Hca]. pose proof (HD a) as [Hd1 _].
      split.
      + apply wrap_setco. exists a. subst q. rewrite co_setco_same.
        split; [|reflexivity]. split; [assumption|]. unfold par in *; destruct e; lia.
      + apply qubit_axis_iff. split.
        * intros b. subst q. destruct (axis_eq_dec a b) as [<-|n].
          -- rewrite co_setco_same, Ha. unfold par; destruct e; simpl; lia.
          -- rewrite co_setco_other by assumption. apply Hs.
        * exists a. subst q. split; [rewrite co_setco_same; unfold par; destruct e; lia|].
          intros b Hb. rewrite co_setco_other by congruence. apply Hp.
    - intros [Hw Hq]. apply wrap_setco in Hw. destruct Hw as [a [[Ha Hw] Hqe]].
      exists a. split; [apply in_axes_of; assumption|].
      destruct (nth_six c a) as [N1 N2]. rewrite N1, N2. rewrite !co_setco_same.
      specialize (Hp a). unfold par in *. pose proof (HD a) as [Hd1 _].
      assert (Hidem : forall v w, setco a v (setco a w c) = setco a v c).
      { intros v w. apply point_ext. intros b. destruct (axis_eq_dec a b) as [<-|n].
        - rewrite !co_setco_same. reflexivity.
        - rewrite !co_setco_other by assumption. reflexivity. }
      destruct e.
      + destruct (_ =? _) eqn:E; [|lia]. left. rewrite Hidem. rewrite Hqe. f_equal. lia.
      + destruct (_ =? _) eqn:E; [|lia]. left. rewrite Hidem. rewrite Hqe. f_equal. lia.
  Qed.

  Lemma in_actual c q : cell D e B c ->
    In q (actual_stabe e D B G (six c)) <-> on_cell D e B c q.
  Proof.
    intros Hc. unfold actual_stabe, on_cell.
    rewrite (nodup_id _ (filter _ _)) by (apply NoDup_filter, NoDup_six).
    assert (Hin : In q (filter (has_node G) (six c)) <-> qubit D e B q /\ unit_step c q).
    { rewrite filter_In. rewrite qubit_axis_iff. split.
      - intros [H1 H2]. pose proof H1 as H1'. apply in_six in H1'. apply (six_has_node c q Hc H1) in H2.
        repeat split; [assumption| |assumption].
        apply (six_qubit c); [apply cell_par in Hc; apply Hc|assumption].
      - intros [[H1 _] H2]. apply in_six in H2. split; [assumption|]. apply (six_has_node c); assumption. }
    rewrite step_split.
    destruct (Nat.ltb _ 6) eqn:E.
    - rewrite in_app_iff, Hin, (in_virtual c q Hc). tauto.
    - rewrite Hin. split; [tauto|]. intros [Hq [H|Hw]]; [tauto|]. exfalso.
      apply Nat.ltb_ge in E.
      assert (Hall : forall x, In x (six c) -> has_node G x = true).
      { apply filter_length_all. apply Nat.le_antisymm; [|exact E].
        apply NoDup_incl_length; [apply NoDup_filter, NoDup_six|]. intros x Hx. apply filter_In in Hx. apply Hx. }
      apply wrap_setco in Hw. destruct Hw as [a [[Ha Hw] Hqe]].
      assert (Hup : site D B (setco a (co a c + 1) c)).
      { apply (six_has_node c); [assumption| |apply Hall].
        - apply in_six. exists a. rewrite co_setco_same. split; [lia|].
          intros b Hb; apply co_setco_other; congruence.
        - apply in_six. exists a. rewrite co_setco_same. split; [lia|].
          intros b Hb; apply co_setco_other; congruence. }
      assert (Hdn : site D B (setco a (co a c - 1) c)).
      { apply (six_has_node c); [assumption| |apply Hall].
        - apply in_six. exists a. rewrite co_setco_same. split; [lia|].
          intros b Hb; apply co_setco_other; congruence.
        - apply in_six. exists a. rewrite co_setco_same. split; [lia|].
          intros b Hb; apply co_setco_other; congruence. }
      specialize (Hup a). specialize (Hdn a). rewrite co_setco_same, Ha in *. simpl in *. lia.
  Qed.

  (* every qubit is on some cell *)
  Lemma qubit_on_some_cell q : (forall a, get a B = BPeriodic -> 1 <= get a D) ->
    qubit D e B q -> exists c, cell D e B c /\ on_cell D e B c q.
  Proof.
    intros _ Hq. pose proof Hq as Hq'. apply qubit_axis_iff in Hq'. destruct Hq' as [Hs [a [Ha1 Ha2]]].
    pose proof (HD a) as [Hd1 Hd2]. pose proof (Hs a) as Hr.
    assert (Hc : exists x, in_range (get a B) (get a D) x /\ x mod 2 = 1 - par e /\ (co a q = x + 1 \/ co a q = x - 1)).
    { unfold par in *. destruct (get a B) eqn:EB; simpl in *; try specialize (Hd2 ltac:(discriminate)).
      - destruct (Z.eq_dec (co a q) 0); [exists (co a q + 1)|exists (co a q - 1)]; destruct e; lia.
      - destruct (Z.eq_dec (co a q) 1); [exists (co a q + 1)|exists (co a q - 1)]; destruct e; lia.
      - destruct (Z.eq_dec (co a q) 0); [exists (co a q + 1)|exists (co a q - 1)]; destruct e; lia. }
    destruct Hc as (x & Hx1 & Hx2 & Hx3).
    exists (setco a x q). split.
    - apply cell_par. split.
      + intros b. destruct (axis_eq_dec a b) as [<-|n];
          [rewrite co_setco_same|rewrite co_setco_other by assumption]; [assumption|apply Hs].
      + intros b. destruct (axis_eq_dec a b) as [<-|n];
          [rewrite co_setco_same; assumption|rewrite co_setco_other by assumption].
        apply Ha2. congruence.
    - split; [assumption|]. apply step_split. left. exists a. rewrite co_setco_same.
      split; [assumption|]. intros b Hb. symmetry. apply co_setco_other. congruence.
  Qed.
End Code.

(* what is_surface_code says, in terms of cells *)
(* The qubits of the low and of the high boundary plane. *)
Definition low_plane (D : dims) (e : ecx) (b : bdk) (q : point) : Prop :=
  qubit D e (code_bnds e b) q /\
  exists a, open_axis e b = Some a /\ co a q = match e with EcPrimal => 0 | EcDual => 1 end.
Definition high_plane (D : dims) (e : ecx) (b : bdk) (q : point) : Prop :=
  qubit D e (code_bnds e b) q /\
  exists a, open_axis e b = Some a /\
    co a q = 2 * get a D - match e with EcPrimal => 2 | EcDual => 1 end.

Lemma low_plane_iff D e b q : low_plane D e b q <-> on_low D e b q.
Proof. unfold low_plane, on_low. rewrite code_bnds_eq. reflexivity. Qed.
Lemma high_plane_iff D e b q : high_plane D e b q <-> on_high D e b q.
Proof. unfold high_plane, on_high. rewrite code_bnds_eq. reflexivity. Qed.

Record code_facts (D : dims) (e : ecx) (b : bdk) (pol : option (point * point -> Z)) (c : scode) : Prop := {
  cf_dims : sc_dims c = D;
  cf_ec : sc_ec c = e;
  cf_bd : sc_bd c = b;
  cf_graph : exists vs, set_enum (six_body_points D (code_bnds e b)) vs /\ sc_graph c = rhg_graph D (code_bnds e b) pol vs;
  cf_phys : sc_phys c = map six (centres D e (code_bnds e b));
  cf_stabs : Forall2 (fun ctr st => NoDup st /\ forall q, In q st <-> on_cell D e (code_bnds e b) ctr q)
               (centres D e (code_bnds e b)) (sc_stabs c);
  cf_syn_nd : NoDup (sc_syn c);
  cf_syn : forall q, In q (sc_syn c) <-> qubit D e (code_bnds e b) q;
  cf_low_nd : NoDup (sc_low c);
  cf_low : forall q, In q (sc_low c) <-> low_plane D e b q;
  cf_high_nd : NoDup (sc_high c);
  cf_high : forall q, In q (sc_high c) <-> high_plane D e b q
}.

Lemma Forall2_map_l {A B C} (f : A -> B) (R : B -> C -> Prop) l m :
  Forall2 R (map f l) m <-> Forall2 (fun x y => R (f x) y) l m.
Proof.
  revert m; induction l as [|x l IH]; intros m; simpl; split; intros H; inversion H; subst; constructor; auto;
    apply IH; assumption.
Qed.

Lemma Forall2_impl_in {A B} (R S : A -> B -> Prop) l m :
  (forall x y, In x l -> R x y -> S x y) -> Forall2 R l m -> Forall2 S l m.
Proof.
  intros H HF. induction HF; constructor; auto.
  - apply H; [left; reflexivity|assumption].
  - apply IHHF. intros. apply H; [right|]; assumption.
Qed.

Lemma open_bound_ind e : bound_ind e (code_bnds e BdOpen) = match e with EcPrimal => AX | EcDual => AY end.
Proof. destruct e; reflexivity. Qed.

Lemma surface_code_facts D e b pol c :
  dims_ok D (code_bnds e b) -> is_surface_code D e b pol c -> code_facts D e b pol c.
Proof.
  intros HD (H1 & H2 & H3 & [vs [Hvs HG]] & Hph & Hst & Hsyn & Hbd).
  assert (Hsyn' : forall q, In q (sc_syn c) <-> qubit D e (code_bnds e b) q).
  { intros q. rewrite (proj2 Hsyn q), in_concat. rewrite all_six_centres, HG. split.
    - intros [l [Hl Hq]]. rewrite map_map in Hl. apply in_map_iff in Hl. destruct Hl as [ctr [<- Hc]].
      apply in_centres in Hc. apply (in_actual D e _ HD pol vs Hvs) in Hq; [|assumption]. apply Hq.
    - intros Hq. destruct (qubit_on_some_cell D e _ HD q (fun a _ => proj1 (HD a)) Hq) as [ctr [Hc Hon]].
      exists (actual_stabe e D (code_bnds e b) (rhg_graph D (code_bnds e b) pol vs) (six ctr)). split.
      + rewrite map_map. apply in_map_iff. exists ctr. split; [reflexivity|]. apply in_centres; assumption.
      + apply (in_actual D e _ HD pol vs Hvs); assumption. }
  assert (Hslice : forall a n q, In q (filter (fun p => pmem p (sc_syn c)) (slice_coords (sc_graph c) a n)) <->
             qubit D e (code_bnds e b) q /\ co a q = n).
  { intros a n q. unfold slice_coords. rewrite !filter_In, pmem_In, Hsyn', Z.eqb_eq.
    split; [tauto|]. intros [Hq Hn]. repeat split; auto.
    rewrite HG. apply (G_nodes D _ HD pol vs Hvs). apply (qubit_vertex D e). assumption. }
  assert (Hb : (NoDup (sc_low c) /\ forall q, In q (sc_low c) <-> low_plane D e b q) /\
               (NoDup (sc_high c) /\ forall q, In q (sc_high c) <-> high_plane D e b q)).
  { unfold low_plane, high_plane. rewrite is_periodic_str_eq in Hbd. destruct b; cbn [open_axis].
    - destruct Hbd as [Hlo Hhi]. rewrite open_bound_ind in Hlo, Hhi.
      split; (split; [apply Hlo || apply Hhi|]); intros q.
      + rewrite (proj2 Hlo q), Hslice. split.
        * intros [Hq Hn]. split; [assumption|]. eexists. split; [reflexivity|].
          rewrite Hn. destruct e; reflexivity.
        * intros [Hq [a [Ha Hn]]]. injection Ha as <-. split; [assumption|]. rewrite Hn. destruct e; reflexivity.
      + rewrite (proj2 Hhi q), Hslice. split.
        * intros [Hq Hn]. split; [assumption|]. eexists. split; [reflexivity|].
          rewrite Hn. destruct e; reflexivity.
        * intros [Hq [a [Ha Hn]]]. injection Ha as <-. split; [assumption|]. rewrite Hn. destruct e; reflexivity.
    - destruct Hbd as [-> ->]. split; (split; [constructor|]); intros q; (split; [intros []|]);
        intros [_ [a [Ha _]]]; discriminate.
    - destruct Hbd as [-> ->]. split; (split; [constructor|]); intros q; (split; [intros []|]);
        intros [_ [a [Ha _]]]; discriminate. }
  destruct Hb as [[Hl1 Hl2] [Hh1 Hh2]].
  constructor; auto.
  - exists vs; auto.
  - rewrite Hph. apply all_six_centres.
  - rewrite all_six_centres, Forall2_map_l in Hst. rewrite HG in Hst.
    eapply Forall2_impl_in; [|exact Hst]. simpl. intros ctr st Hc [Hnd Hin]. split; [assumption|].
    intros q. rewrite Hin. apply (in_actual D e _ HD pol vs Hvs). apply in_centres; assumption.
  - apply Hsyn.
Qed.

(* every choice of arguments yields a code (the predicate is satisfiable) *)
Definition mk_code (D : dims) (e : ecx) (b : bdk) (pol : option (point * point -> Z)) : scode :=
  let B := code_bnds e b in
  let g := rhg_graph D B pol (nodup point_eq_dec (six_body_points D B)) in
  let cubes := all_six_bodies e D B in
  let stabs := map (fun s => nodup point_eq_dec (actual_stabe e D B g s)) cubes in
  let syn := nodup point_eq_dec (List.concat (map (actual_stabe e D B g) cubes)) in
  let a := bound_ind e B in
  let bd n := if is_periodic_str e b then []
              else nodup point_eq_dec (filter (fun p => pmem p syn) (slice_coords g a n)) in
  {| sc_dims := D; sc_ec := e; sc_bd := b; sc_graph := g; sc_phys := cubes; sc_stabs := stabs;
     sc_syn := syn; sc_low := bd (low_index e); sc_high := bd (high_index e (get a D)) |}.

Lemma mk_code_ok D e b pol : is_surface_code D e b pol (mk_code D e b pol).
Proof.
  unfold is_surface_code, mk_code. cbn [sc_dims sc_ec sc_bd sc_graph sc_phys sc_stabs sc_syn sc_low sc_high].
  repeat (split; [reflexivity|]).
  split; [eexists; split; [apply set_enum_nodup|reflexivity]|].
  split; [reflexivity|].
  split; [|split; [apply set_enum_nodup|]].
  - generalize (all_six_bodies e D (code_bnds e b)). intros l.
    induction l; simpl; constructor; [apply set_enum_nodup|assumption].
  - destruct (is_periodic_str e b); [auto|]. split; apply set_enum_nodup.
Qed.
