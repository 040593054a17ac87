(* PropsThin.v: C70, codes with a periodic axis of one cell (surface_code.py 130-135 asks for sizes greater than 1 only along open axes). *)
From Coq Require Import Relations.
From Verif Require Import Base Lattice RhgModel RhgSpec RhgProofs SurfaceModel SurfaceSpec SurfaceProofs SurfaceTheorems StabGraphModel
  Complex PropsSurface MwpmModel MwpmProofs MwpmInst UfModel UfTrees UfSpec UfPeel PropsUfTrees UfGrow UfDecode UfInst PropsUf.
Open Scope nat_scope.

(* ---------- the growth loop does not end when the total parity is odd and there is no boundary ---------- *)
Section Stuck.
  Variables (E : list sedge) (er : point -> bool) (sp : nat -> bool) (oe : snode -> list snode) (sch : sched) (fuel : nat) (N : list snode).
  Hypothesis Huniq : forall e e' u v, In e E -> In e' E -> same_pair u v e = true -> same_pair u v e' = true -> e = e'.
  Hypothesis Hoe : forall u v, In v (oe u) <-> gadj E u v.
  Hypothesis Hsch : sched_ok sch.
  Hypothesis HNd : NoDup N.
  Hypothesis HN : forall x, In x N <-> exists e, In e (RE E) /\ incident x e = true.
  Hypothesis Hfuel : length N < fuel.
  Hypothesis Hlab : forall x, In x N -> label sp x <> None.
  Hypothesis Hodd : xsum (fun x => parb (label sp x)) N = true.

  Lemma odd_left s rep : ginv E sp N s rep -> exists r, h_par (u_heap s) r = PRoot /\ lonely (u_heap s) r.
  Proof.
    intros (T & _). pose proof Hodd as H. rewrite (xsum_clusters _ _ _ _ _ T) in H. apply xsum_true in H. destruct H as (r & Hr & Hp).
    apply filter_In in Hr. destruct Hr as [HrN Hrr]. apply sneqb_iff in Hrr.
    assert (HR : h_par (u_heap s) r = PRoot) by (rewrite <- Hrr; eapply rep_isroot; eauto). exists r. split; [exact HR|].
    split; [rewrite (t_pty _ _ _ _ T r HR); exact Hp|]. pose proof (t_bnd _ _ _ _ T r HR) as B. destruct (h_bnd (u_heap s) r) as [x|]; [|reflexivity].
    destruct B as [Hx Hn]. apply members_In in Hx. exfalso. exact (Hlab x (proj1 Hx) Hn).
  Qed.

  Lemma stuck n : forall k s rep odd, ginv E sp N s rep -> (forall c, In c odd -> h_par (u_heap s) c = PRoot) -> listed (u_heap s) odd ->
    union_find E oe sch fuel n k s odd = Err OutOfFuel.
  Proof.
    induction n as [|n IH]; intros k s rep odd HG Ho Hl.
    - destruct (odd_left s rep HG) as (r & Hr & Hlo). specialize (Hl r Hr Hlo). destruct odd; [destruct Hl|reflexivity].
    - destruct (odd_left s rep HG) as (r & Hr & Hlo). pose proof (Hl r Hr Hlo) as Hin. destruct odd as [|c odd]; [destruct Hin|].
      destruct (round_ok E sp oe sch fuel N Huniq Hoe Hsch HN Hfuel k s rep (c :: odd) HG Ho Hl) as (s1 & rep1 & odd1 & E1 & HG1 & Ho1 & Hl1 & _).
      change (bind (round E oe sch fuel k s (c :: odd)) (fun so => union_find E oe sch fuel n (S k) (fst so) (snd so)) = Err OutOfFuel). rewrite E1. cbn [bind fst snd].
      apply (IH (S k) s1 rep1 odd1 HG1); [intros x Hx; apply Ho1; exact Hx|exact Hl1].
  Qed.

  Variable comps : list (list snode).
  Hypothesis Hc : components N (filter (erased er) (RE E)) comps.
  Lemma grow_stuck n : grow_clusters E er sp oe sch fuel n comps = Err OutOfFuel.
  Proof.
    destruct Hc as (C1 & C2 & C3 & C4).
    destruct (init_ok E er sp oe sch fuel N Huniq Hoe Hsch HNd HN Hfuel comps C1 C2 C3 C4) as (h & rep & bd & odd & Ei & Eb & HG & Ho & Hl).
    unfold grow_clusters. rewrite Ei. cbn [bind]. rewrite Eb. cbn [bind]. apply (stuck n 0 _ rep odd HG Ho Hl).
  Qed.
End Stuck.

(* ---------- the qubits whose neighbouring cells are the same cell ---------- *)
Lemma Forall2_nth_both {A B} (R : A -> B -> Prop) l m (d : A) (d' : B) : Forall2 R l m -> length l = length m /\ forall i, i < length l -> R (nth i l d) (nth i m d').
Proof. induction 1 as [|x y l m Hxy HF [IH1 IH2]]; [split; [reflexivity|cbn; lia]|]. cbn [length nth]. split; [lia|]. intros [|i] Hi; [exact Hxy|apply IH2; lia]. Qed.

Lemma sheets_first mn mx : (mn < mx)%Z -> exists l, sheets mn mx = mn :: l.
Proof. intros H. unfold sheets. destruct (Z.to_nat ((mx - mn + 1) / 2)) as [|n] eqn:E; [lia|]. cbn [seq map]. eexists. f_equal. lia. Qed.

Section Thin.
  Variables (D : dims) (e : ecx) (b : bdk) (pol : option (point * point -> Z)) (c : scode) (a : axis).
  Notation B := (code_bnds e b).
  Hypothesis HD : dims_ok D B.
  Hypothesis HC : is_surface_code D e b pol c.
  Hypothesis Ha : get a B = BPeriodic.
  Hypothesis H1 : get a D = 1%Z.
  Let CF := surface_code_facts D e b pol c HD HC.

  Lemma no_bound : sc_bound c = [].
  Proof.
    clear CF. assert (Hb : b <> BdOpen) by (clear HC; intros Hb; rewrite Hb in Ha; destruct e, a; discriminate).
    unfold sc_bound. destruct HC as (_ & _ & _ & _ & _ & _ & _ & Hl). clear HC HD Ha. rewrite is_periodic_str_eq in Hl.
    destruct b; [contradiction| |]; destruct Hl as [-> ->]; reflexivity.
  Qed.

  (* a qubit that separates cells along the short axis lies on one cell only *)
  Lemma one_cell q x y : has_axis e q a -> cell D e B x -> cell D e B y -> on_cell D e B x q -> on_cell D e B y q -> x = y.
  Proof.
    intros [Q1 Q2] Hx Hy Ox Oy.
    assert (K : forall z, cell D e B z -> on_cell D e B z q -> forall k, co k z = if axis_eq_dec k a then (1 - par e)%Z else co k q).
    { intros z Hz [_ (k' & S1 & S2)]. apply cell_par in Hz. destruct Hz as [Zs Zp].
      assert (k' = a).
      { destruct (axis_eq_dec k' a) as [|n]; [assumption|]. exfalso. specialize (Q2 k' n). specialize (Zp k'). pose proof (HD k') as [Hd _]. clear - Q2 Zp Hd S1. unfold step1, wrap1 in S1. unfold par in *. destruct e, (get k' B); lia. }
      subst k'. intros k. destruct (axis_eq_dec k a) as [->|n]; [|symmetry; apply S2, n].
      specialize (Zs a). specialize (Zp a). rewrite Ha, H1 in Zs. cbn in Zs. unfold par in *. destruct e; lia. }
    apply point_ext. intros k. rewrite (K x Hx Ox k), (K y Hy Oy k). reflexivity.
  Qed.

  Lemma stab_at i : i < length (sc_stabs c) -> exists x, cell D e B x /\ nth_error (centres D e B) i = Some x /\ forall q, In q (stab_of (sc_stabs c) i) <-> on_cell D e B x q.
  Proof.
    intros Hi. destruct (Forall2_nth_both _ _ _ (0, 0, 0)%Z [] (cf_stabs _ _ _ _ _ CF)) as [L K]. assert (Hi' : i < length (centres D e B)) by exact (eq_ind_r (fun n => i < n) Hi L).
    exists (nth i (centres D e B) (0, 0, 0)%Z). split; [apply in_centres, nth_In, Hi'|]. split; [apply nth_error_nth', Hi'|]. apply (proj2 (K i Hi')).
  Qed.
  Lemma cell_stab x : cell D e B x -> exists i, i < length (sc_stabs c) /\ nth_error (centres D e B) i = Some x.
  Proof.
    intros Hx. apply in_centres in Hx. destruct (Forall2_nth_both _ _ _ (0, 0, 0)%Z [] (cf_stabs _ _ _ _ _ CF)) as [L _].
    apply (In_nth _ _ (0, 0, 0)%Z) in Hx. destruct Hx as (i & Hi & <-). exists i. split; [exact (eq_ind _ (fun n => i < n) Hi _ L)|apply nth_error_nth', Hi].
  Qed.

  Lemma one_stab q : In q (sc_syn c) -> has_axis e q a -> exists i, i < length (sc_stabs c) /\ forall j, j < length (sc_stabs c) -> (In q (stab_of (sc_stabs c) j) <-> j = i).
  Proof.
    intros Hq Hax.
    destruct (qubit_on_some_cell D e B HD q) as (x & Hx & Ox); [intros k _; apply HD|apply (cf_syn _ _ _ _ _ CF), Hq|].
    destruct (cell_stab x Hx) as (i & Hi & Ei). exists i. split; [exact Hi|]. intros j Hj. destruct (stab_at j Hj) as (y & Hy & Ey & Qy). rewrite Qy. split.
    - intros Oy. rewrite (one_cell q y x Hax Hy Hx Oy Ox) in Ey. apply (proj1 (NoDup_nth_error _) (centres_NoDup D e B)); [apply nth_error_Some; congruence|congruence].
    - intros ->. assert (y = x) by congruence. subst y. exact Ox.
  Qed.

  (* the parities of the stabilizers, when q alone is flipped *)
  Notation only q := (fun x => peqb x q).
  Lemma only_parity q st : NoDup st -> stab_parity (only q) st = pmem q st.
  Proof.
    unfold stab_parity. induction st as [|x st IH]; intros Hn; [reflexivity|]. apply NoDup_cons_iff in Hn. destruct Hn as [Hx Hn]. specialize (IH Hn).
    change (xsum (only q) (x :: st)) with (xorb (peqb x q) (xsum (only q) st)). rewrite IH.
    destruct (peqb x q) eqn:E.
    - apply peqb_true in E. subst x. assert (F : pmem q st = false) by (apply pmem_false; exact Hx). assert (T : pmem q (q :: st) = true) by (apply pmem_In; left; reflexivity).
      rewrite F, T. reflexivity.
    - rewrite xorb_false_l. apply eq_true_iff_eq. rewrite !pmem_In. split; [right; assumption|]. intros [<-|H]; [rewrite peqb_refl in E; discriminate|exact H].
  Qed.
  Lemma stab_nodup i : NoDup (stab_of (sc_stabs c) i).
  Proof.
    destruct (le_lt_dec (length (sc_stabs c)) i) as [Hi|Hi]; [unfold stab_of; rewrite nth_overflow by exact Hi; constructor|].
    destruct (Forall2_nth_both _ _ _ (0, 0, 0)%Z [] (cf_stabs _ _ _ _ _ CF)) as [L K]. apply (K i). exact (eq_ind_r (fun n => i < n) Hi L).
  Qed.

  (* every stabilizer meets another one along an axis with two cells *)
  Lemma has_neighbour a2 : a2 <> a -> (2 <= get a2 D)%Z -> forall i, i < length (sc_stabs c) ->
    exists j, j < length (sc_stabs c) /\ j <> i /\ shared (sc_stabs c) i j <> [].
  Proof.
    intros Hne H2 i Hi. destruct (stab_at i Hi) as (x & Hx & Ei & Qi). apply cell_par in Hx. destruct Hx as [Sx Px].
    assert (R : forall z, in_range (get a2 B) (get a2 D) z <-> (match get a2 B with BPeriodic => 0 <= z <= 2 * get a2 D - 1 | _ => 1 - par e <= z <= 2 * get a2 D - 1 - par e end)%Z).
    { intros z. destruct (get a2 B) eqn:G; cbn [in_range]; unfold par; clear CF; rewrite code_bnds_eq in *; destruct b, e, a, a2; try discriminate; try contradiction; cbn in *; try discriminate; lia. }
    pose (s := if (co a2 x + 2 <=? 2 * get a2 D - 1 - par e)%Z then 1%Z else (-1)%Z).
    pose (y := setco a2 (co a2 x + 2 * s) x). pose (q := setco a2 (co a2 x + s) x).
    assert (Ry : in_range (get a2 B) (get a2 D) (co a2 x + 2 * s) /\ in_range (get a2 B) (get a2 D) (co a2 x + s)).
    { specialize (Sx a2). specialize (Px a2). apply R in Sx. rewrite !R. unfold s. clear - Sx Px H2. unfold par in *. destruct (Z.leb_spec (co a2 x + 2) (2 * get a2 D - 1 - match e with EcPrimal => 0 | EcDual => 1 end)), (get a2 B), e; lia. }
    assert (Ss : s = 1%Z \/ s = (-1)%Z) by (unfold s; destruct (_ <=? _)%Z; auto).
    assert (Cy : cell D e B y).
    { apply cell_par. split; intros k; destruct (axis_eq_dec k a2) as [->|n]; unfold y; rewrite ?co_setco_same, ?co_setco_other by congruence; [apply Ry|apply Sx| |apply Px].
      specialize (Px a2). clear - Px Ss. lia. }
    assert (Qq : qubit D e B q).
    { apply qubit_axis_iff. split.
      - intros k; destruct (axis_eq_dec k a2) as [->|n]; unfold q; rewrite ?co_setco_same, ?co_setco_other by congruence; [apply Ry|apply Sx].
      - exists a2. split; [unfold q; rewrite co_setco_same; specialize (Px a2); clear - Px Ss; unfold par in *; destruct e; lia|].
        intros k n. unfold q. rewrite co_setco_other by congruence. apply Px. }
    destruct (cell_stab y Cy) as (j & Hj & Ej). exists j. split; [exact Hj|]. split.
    - intros ->. rewrite Ei in Ej. injection Ej as Ej. apply (f_equal (co a2)) in Ej. unfold y in Ej. rewrite co_setco_same in Ej. clear - Ej Ss. lia.
    - intros F. assert (In q (shared (sc_stabs c) i j)); [|rewrite F in H; destruct H]. apply in_shared. split.
      + apply Qi. split; [exact Qq|]. exists a2. unfold q. split; [rewrite co_setco_same; unfold step1; clear - Ss; lia|]. intros k n. apply co_setco_other. congruence.
      + destruct (stab_at j Hj) as (y' & _ & Ey & Qj). apply Qj. assert (y' = y) by congruence. subst y'. split; [exact Qq|]. exists a2. unfold q, y. rewrite !co_setco_same. split; [unfold step1; clear - Ss; lia|].
        intros k n. rewrite !co_setco_other by congruence. reflexivity.
  Qed.

  (* the planes that check_correction looks at *)
  Lemma in_graph q : In q (sc_syn c) -> In q (node_list (sc_graph c)).
  Proof.
    intros Hq. apply (cf_syn _ _ _ _ _ CF) in Hq. destruct (cf_graph _ _ _ _ _ CF) as (vs & Hvs & ->). apply (G_nodes D B HD pol vs Hvs).
    apply (qubit_vertex D e). exact Hq.
  Qed.
  Lemma sheet_one q k s : In q (sc_syn c) -> sheet_parity c (only q) k s = (co k q =? s)%Z.
  Proof.
    intros Hq. unfold sheet_parity. change (xsum (only q)) with (stab_parity (only q)). rewrite only_parity.
    - apply eq_true_iff_eq. unfold slice_coords. rewrite pmem_In, !filter_In, pmem_In. pose proof (in_graph q Hq). tauto.
    - apply NoDup_filter. unfold slice_coords. apply NoDup_filter. destruct (cf_graph _ _ _ _ _ CF) as (vs & Hvs & ->). apply G_NoDup.
  Qed.
  Lemma verdict_one q sanity : In q (sc_syn c) -> has_axis e q a -> check_correction c (only q) sanity = Ok false.
  Proof.
    intros Hq [Q _]. unfold check_correction. rewrite (cf_ec _ _ _ _ _ CF), (cf_bd _ _ _ _ _ CF), planes_to_check_eq.
    assert (Hq' : co a q = par e).
    { apply (cf_syn _ _ _ _ _ CF) in Hq. apply qubit_axis_iff in Hq. destruct Hq as [Hs _]. specialize (Hs a). rewrite Ha, H1 in Hs. cbn in Hs. clear - Hs Q. unfold par in *. destruct e; lia. }
    assert (T : forall k, exists l, truth c (only q) sanity k = negb (co k q =? par e)%Z :: l).
    { intros k. unfold truth. rewrite (cf_ec _ _ _ _ _ CF), (cf_dims _ _ _ _ _ CF). change (minimum e) with (par e).
      destruct (sheets_first (par e) (if sanity then 2 * get k D else par e + 2)%Z) as [l Hl].
      - pose proof (HD k) as [Hk _]. unfold par. destruct sanity, e; lia.
      - rewrite Hl. cbn [map]. rewrite (sheet_one q k (par e) Hq). eexists; reflexivity. }
    assert (L : In a (logical_axes e b)) by (clear CF HC HD; rewrite code_bnds_eq in Ha; destruct b, e, a; cbn in *; try discriminate; auto).
    assert (G : forall l, exists r, fold_right (fun k r => match truth c (only q) sanity k with [] => Err IndexError | t :: _ => match r with Ok acc => Ok (t && acc) | Err x => Err x end end) (Ok true) l = Ok r /\ (In a l -> r = false)).
    { induction l as [|k l (r & IH1 & IH2)]; [exists true; split; [reflexivity|intros []]|]. cbn [fold_right]. rewrite IH1. destruct (T k) as [l' ->].
      exists (negb (co k q =? par e)%Z && r). split; [reflexivity|]. intros [->|Hin]; [rewrite Hq', Z.eqb_refl; reflexivity|rewrite (IH2 Hin); apply andb_false_r]. }
    destruct (G (logical_axes e b)) as (r & G1 & G2). rewrite (G2 L) in G1. exact G1.
  Qed.
End Thin.

(* q separates two cells along axis a: its coordinate along a has the other parity than its two other coordinates *)
Definition along (a : axis) (q : point) : Prop := forall k, k <> a -> (co k q mod 2 <> co a q mod 2)%Z.
Lemma along_axis D e b pol c a q : dims_ok D (code_bnds e b) -> is_surface_code D e b pol c -> In q (sc_syn c) -> along a q -> has_axis e q a.
Proof.
  intros HD HC Hq Hal. apply (cf_syn _ _ _ _ _ (surface_code_facts D e b pol c HD HC)) in Hq. apply qubit_axis_iff in Hq. destruct Hq as (_ & a' & H1 & H2).
  destruct (axis_eq_dec a a') as [->|n]; [split; assumption|]. exfalso.
  assert (exists k, k <> a /\ k <> a') as (k & K1 & K2) by (destruct a, a'; first [contradiction|exists AX; split; discriminate|exists AY; split; discriminate|exists AZ; split; discriminate]).
  apply (Hal k K1). rewrite (H2 k K2), (H2 a n). reflexivity.
Qed.

(* the error on the single qubit q *)
Notation single q := (fun x => peqb x q).

(* C70.  A syndrome qubit that separates two cells along a periodic axis of one cell: both cells are the same. *)
Theorem C70_uncheckable_qubit :
  forall D e b pol c a q,
  dims_ok D (documented_bnds e b) -> is_surface_code D e b pol c ->
  get a (documented_bnds e b) = BPeriodic -> get a D = 1%Z ->
  In q (sc_syn c) -> along a q ->
  (* q is in exactly one stabilizer, and the code has no boundary points *)
  (exists i, i < length (sc_stabs c) /\ forall j, j < length (sc_stabs c) -> (In q (stab_of (sc_stabs c) j) <-> j = i)) /\ sc_bound c = [].
Proof.
  intros D e b pol c a q HD HC Ha H1 Hq Hax. rewrite <- code_bnds_eq in HD, Ha. split; [|exact (no_bound D e b pol c a HD HC Ha H1)].
  exact (one_stab D e b pol c a HD HC Ha H1 q Hq (along_axis D e b pol c a q HD HC Hq Hax)).
Qed.

Lemma filter_one f n i : i < n -> f i = true -> (forall j, j < n -> f j = true -> j = i) -> filter f (seq 0 n) = [i].
Proof.
  intros Hi Fi Fj. destruct (filter f (seq 0 n)) as [|x [|y l]] eqn:E.
  - assert (H : In i (filter f (seq 0 n))) by (apply filter_In; split; [apply in_seq; lia|exact Fi]). rewrite E in H. destruct H.
  - assert (H : In x (filter f (seq 0 n))) by (rewrite E; left; reflexivity). apply filter_In in H. destruct H as [H1 H2]. apply in_seq in H1. rewrite (Fj x) by (auto; lia). reflexivity.
  - assert (N : NoDup (filter f (seq 0 n))) by apply NoDup_filter, seq_NoDup. rewrite E in N.
    assert (H : In x (filter f (seq 0 n))) by (rewrite E; left; reflexivity). apply filter_In in H. destruct H as [H1 H2]. apply in_seq in H1. pose proof (Fj x ltac:(lia) H2).
    assert (H' : In y (filter f (seq 0 n))) by (rewrite E; right; left; reflexivity). apply filter_In in H'. destruct H' as [H1' H2']. apply in_seq in H1'. pose proof (Fj y ltac:(lia) H2').
    apply NoDup_cons_iff in N. destruct N as [N _]. exfalso. apply N. left. congruence.
Qed.

(* An error on q alone: the MWPM decoder flips nothing, the stabilizer stays odd, and the verdict is False. *)
Theorem C70_mwpm_refuted :
  forall D e b pol c a q ch rp w o pick sanity,
  dims_ok D (documented_bnds e b) -> is_surface_code D e b pol c ->
  get a (documented_bnds e b) = BPeriodic -> get a D = 1%Z ->
  In q (sc_syn c) -> along a q -> (forall mg, best_matching mg (pick mg)) ->
  correct_mwpm rp c ch w o pick (single q) sanity = Ok (single q, false) /\
  exists st, In st (sc_stabs c) /\ stab_parity (single q) st = true.
Proof.
  intros D e b pol c a q ch rp w o pick sanity HD HC Ha H1 Hq Hal Hp. pose proof (C70_uncheckable_qubit D e b pol c a q HD HC Ha H1 Hq Hal) as [(i & Hi & K) Hb].
  rewrite <- code_bnds_eq in HD, Ha. pose proof (along_axis D e b pol c a q HD HC Hq Hal) as Hax.
  assert (P : forall j, j < length (sc_stabs c) -> stab_parity (single q) (stab_of (sc_stabs c) j) = Nat.eqb j i).
  { intros j Hj. rewrite (only_parity q _ (stab_nodup D e b pol c HD HC j)). apply eq_true_iff_eq. rewrite pmem_In, (K j Hj), Nat.eqb_eq. reflexivity. }
  split.
  - assert (O : odd_stabs (sc_stabs c) (single q) = [i]).
    { unfold odd_stabs. apply filter_one; [exact Hi| |]; [rewrite (P i Hi); apply Nat.eqb_refl|]. intros j Hj Hj'. rewrite (P j Hj) in Hj'. apply Nat.eqb_eq, Hj'. }
    unfold correct_mwpm, mwpm_decoder. rewrite O, Hb. cbn [has_bound_points match_graph combs map app mapM bind fst snd].
    assert (M : pick [] = []).
    { destruct (Hp []) as [[_ Hm] _]. destruct (pick []) as [|uv l]; [reflexivity|]. destruct (Hm uv (or_introl eq_refl)) as (x & [] & _). }
    rewrite M. unfold qubits_to_flip. cbn [foldM bind]. unfold recovery. cbn [foldM bind]. rewrite (verdict_one D e b pol c a HD HC Ha H1 q sanity Hq Hax). reflexivity.
  - exists (stab_of (sc_stabs c) i). split; [apply nth_In, Hi|]. rewrite (P i Hi). apply Nat.eqb_refl.
Qed.

(* ... and if some axis has at least two cells the growth loop of the Union-Find decoder does not end, however many rounds it is given. *)
Theorem C70_uf_never_ends_refuted :
  forall D e b pol c a a2 q ch er lib sch fuel sanity,
  dims_ok D (documented_bnds e b) -> is_surface_code D e b pol c -> valid_choice (sc_stabs c) ch ->
  get a (documented_bnds e b) = BPeriodic -> get a D = 1%Z -> (2 <= get a2 D)%Z ->
  In q (sc_syn c) -> along a q ->
  let E := sg_edges (sc_stabs c) (sc_bound c) ch in
  lib_ok E lib -> sched_ok sch -> 2 * length E + 2 <= fuel ->
  correct_uf c ch er lib sch fuel (single q) sanity = Err OutOfFuel.
Proof.
  intros D e b pol c a a2 q ch er lib sch fuel sanity HD HC Hch Ha H1 H2 Hq Hal E Hlib Hsch Hf.
  pose proof (C70_uncheckable_qubit D e b pol c a q HD HC Ha H1 Hq Hal) as [(i & Hi & K) Hb].
  rewrite <- code_bnds_eq in HD, Ha.
  assert (P : forall j, j < length (sc_stabs c) -> stab_parity (single q) (stab_of (sc_stabs c) j) = Nat.eqb j i).
  { intros j Hj. rewrite (only_parity q _ (stab_nodup D e b pol c HD HC j)). apply eq_true_iff_eq. rewrite pmem_In, (K j Hj), Nat.eqb_eq. reflexivity. }
  set (N := l_nodes lib (RE E)). set (sp := fun i => stab_parity (single q) (stab_of (sc_stabs c) i)).
  destruct (proj1 (proj2 Hlib) (RE E)) as [HNd HN]. fold N in HNd, HN.
  assert (NS : forall x, In x N -> exists j, x = NStab j /\ j < length (sc_stabs c)).
  { intros x Hx. apply HN in Hx. destruct Hx as ([[u v] cv] & He & Hinc). apply RE_In in He. destruct He as (He & _). apply incident_iff in Hinc.
    apply in_E in He. rewrite Hb in He. destruct He as [(k & j & -> & -> & Hkj & _)|[(k & p & _ & _ & _ & [] & _)|(_ & p & _ & [[_ []]|[_ []]])]].
    destruct Hinc as [<-|<-]; [exists k|exists j]; split; try reflexivity; lia. }
  assert (IN : In (NStab i) N).
  { assert (Hne : a2 <> a) by (intros ->; lia). destruct (has_neighbour D e b pol c a HD HC Ha H1 a2 Hne H2 i Hi) as (j & Hj & Hji & Hs).
    assert (SC : forall x y, shared (sc_stabs c) x y <> [] -> shared (sc_stabs c) y x <> []).
    { intros x y Hxy F. destruct (shared (sc_stabs c) x y) as [|z l] eqn:Ez; [apply Hxy; reflexivity|]. assert (Hz : In z (shared (sc_stabs c) x y)) by (rewrite Ez; left; reflexivity).
      apply in_shared in Hz. assert (Hz' : In z (shared (sc_stabs c) y x)) by (apply in_shared; tauto). rewrite F in Hz'. destruct Hz'. }
    apply HN. destruct (Nat.lt_total i j) as [Hl|[He|Hl]]; [|congruence|].
    - exists (NStab i, NStab j, Some (ch i j)). split; [apply RE_In; split; [|split; reflexivity]|apply incident_iff; left; reflexivity].
      apply in_E. left. exists i, j. repeat split; auto.
    - exists (NStab j, NStab i, Some (ch j i)). split; [apply RE_In; split; [|split; reflexivity]|apply incident_iff; right; reflexivity].
      apply in_E. left. exists j, i. repeat split; auto. }
  assert (Hodd : xsum (fun x => parb (label sp x)) N = true).
  { assert (X : forall l, NoDup l -> (forall x, In x l -> In x N) -> xsum (fun x => parb (label sp x)) l = if in_dec snode_eq_dec (NStab i) l then true else false).
    { induction l as [|x l IH]; intros Hn Hl; [reflexivity|]. apply NoDup_cons_iff in Hn. destruct Hn as [Hx Hn].
      change (xsum (fun x => parb (label sp x)) (x :: l)) with (xorb (parb (label sp x)) (xsum (fun x => parb (label sp x)) l)).
      rewrite (IH Hn (fun y Hy => Hl y (or_intror Hy))). destruct (NS x (Hl x (or_introl eq_refl))) as (j & -> & Hj).
      assert (Pj : parb (label sp (NStab j)) = Nat.eqb j i) by (unfold label, sp; cbn; rewrite (P j Hj); destruct (Nat.eqb j i); reflexivity). rewrite Pj.
      destruct (Nat.eqb_spec j i) as [->|Hji].
      - destruct (in_dec snode_eq_dec (NStab i) l) as [h|h]; [contradiction|]. destruct (in_dec snode_eq_dec (NStab i) (NStab i :: l)) as [h'|h']; [reflexivity|]. exfalso. apply h'. left. reflexivity.
      - rewrite xorb_false_l. destruct (in_dec snode_eq_dec (NStab i) l) as [h|h], (in_dec snode_eq_dec (NStab i) (NStab j :: l)) as [h'|h']; try reflexivity; exfalso.
        + apply h'. right. exact h.
        + destruct h' as [h'|h']; [injection h' as h'; congruence|contradiction]. }
    rewrite (X N HNd (fun x Hx => Hx)). destruct (in_dec snode_eq_dec (NStab i) N); [reflexivity|contradiction]. }
  unfold correct_uf, uf_decoder. fold E. fold sp. fold N.
  rewrite (grow_stuck E er sp (l_out lib) sch fuel N); [reflexivity|..].
  - intros; eapply edges_uniq; eauto.
  - apply Hlib.
  - exact Hsch.
  - exact HNd.
  - exact HN.
  - pose proof (nodes_bound E lib Hlib (RE E)) as HbN. fold N in HbN. pose proof (RE_len E). lia.
  - intros x Hx. destruct (NS x Hx) as (j & -> & _). discriminate.
  - exact Hodd.
  - apply (comps_init E er lib Hlib).
Qed.

(* a periodic code of dimensions (1, 2, 2): all hypotheses hold together, for the MWPM and for the Union-Find decoder *)
Example C70_nonvacuous :
  let D := (1, 2, 2)%Z in let c := mk_code D EcPrimal BdToric None in
  let q := (0, 1, 1)%Z in
  let ch := fun i j => hd (0, 0, 0)%Z (shared (sc_stabs c) i j) in
  let E := sg_edges (sc_stabs c) (sc_bound c) ch in
  dims_ok D (documented_bnds EcPrimal BdToric) /\ is_surface_code D EcPrimal BdToric None c /\ valid_choice (sc_stabs c) ch /\
  get AX (documented_bnds EcPrimal BdToric) = BPeriodic /\ get AX D = 1%Z /\ In q (sc_syn c) /\ along AX q /\
  length (sc_stabs c) = 4 /\ 0 < length E /\
  correct_uf c ch (fun _ => false) (kruskal_lib E) rev_sched (2 * length E + 2) (single q) false = Err OutOfFuel.
Proof.
  intros D c q ch E. assert (HD : dims_ok D (documented_bnds EcPrimal BdToric)) by (intros []; cbn; split; try lia; intros H; try lia; destruct H; reflexivity).
  assert (HC : is_surface_code D EcPrimal BdToric None c) by apply mk_code_ok.
  assert (Hch : valid_choice (sc_stabs c) ch) by apply first_choice_valid.
  assert (Hq0 : pmem q (sc_syn c) = true) by (vm_compute; reflexivity). assert (Hq : In q (sc_syn c)) by exact (proj1 (pmem_In q (sc_syn c)) Hq0).
  assert (Hal : along AX q) by (intros [] Hk; [destruct Hk; reflexivity| |]; cbn; discriminate).
  split; [exact HD|]. split; [exact HC|]. split; [exact Hch|]. split; [reflexivity|]. split; [reflexivity|]. split; [exact Hq|]. split; [exact Hal|].
  split; [vm_compute; reflexivity|]. split; [vm_compute; lia|].
  assert (P1 : get AX (documented_bnds EcPrimal BdToric) = BPeriodic) by reflexivity. assert (P2 : get AX D = 1%Z) by reflexivity. assert (P3 : (2 <= get AY D)%Z) by (cbn; lia).
  clearbody c. exact (C70_uf_never_ends_refuted D EcPrimal BdToric None c AX AY q ch (fun _ => false) (kruskal_lib E) rev_sched (2 * length E + 2) false HD HC Hch P1 P2 P3 Hq Hal
    (kruskal_lib_ok E) rev_sched_ok (le_n _)).
Qed.
Print Assumptions C70_uncheckable_qubit. Print Assumptions C70_mwpm_refuted. Print Assumptions C70_uf_never_ends_refuted.
