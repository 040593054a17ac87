(* PropsHomology.v: C61, the verdict of check_correction is exact. *)
From Verif Require Import Base Lattice RhgModel RhgSpec RhgProofs RhgDegree SurfaceModel SurfaceSpec
  SurfaceProofs SurfaceIncidence SurfaceTheorems SurfaceGauge PropsSurface CvMacroGauge Homology Homology2
  StabGraphModel MwpmModel MwpmInst PropsMwpm UfModel UfSpec UfDecode UfInst PropsUf.
Open Scope Z_scope.

Section Exact.
  Variables (D : dims) (e : ecx) (b : bdk) (pol : option (point * point -> Z)) (c : scode).
  Hypothesis H2 : dims_ge2 D.
  Hypothesis HC : is_surface_code D e b pol c.
  Let B := code_bnds e b.
  Let HD : dims_ok D B := ge2_ok D B H2.
  Let CF : code_facts D e b pol c := surface_code_facts D e b pol c HD HC.

  Lemma cut_logical a s : cut e (kb e b a) (get a D) = Some s -> In a (logical_axes e b).
  Proof. unfold cut, kb. rewrite code_bnds_eq. clear. destruct e, b, a; cbn; intros H; try discriminate; auto. Qed.
  Lemma base_unique a x y : isbase e (kb e b a) (get a D) x = true -> isbase e (kb e b a) (get a D) y = true -> x = y.
  Proof. unfold isbase. destruct (kb e b a), e; intros H H'; try discriminate; apply Z.eqb_eq in H, H'; congruence. Qed.

  Lemma normal_zero z :
    (forall x, cell D e B x -> cpar D B (sc_syn c) z x = false) ->
    (forall a, In a (logical_axes e b) -> plane (sc_syn c) z a (par e) = false) ->
    (forall a, normal D e b a z) -> forall q, In q (sc_syn c) -> z q = false.
  Proof.
    intros Hz Hp Hn q Hq. destruct (z q) eqn:Ez; [|reflexivity]. exfalso.
    apply (cf_syn _ _ _ _ _ CF) in Hq. apply qubit_axis_iff in Hq. destruct Hq as [Hs [a Ha]].
    assert (Hcut : exists s, cut e (kb e b a) (get a D) = Some s /\ z (setco a s q) = true).
    { destruct (Hn a) as [_ K]. rewrite (K q Hs Ha) in Ez. destruct (cut e (kb e b a) (get a D)) as [s|]; [eauto|discriminate]. }
    destruct Hcut as (s & Ec & Es). destruct (cut_qubit D e b pol c H2 HC a s q Ec Hs Ha) as [S1 S2].
    pose proof (cut_logical a s Ec) as Hla. destruct (cut_range D e b pol c H2 HC a s Ec) as [Hr Hpar].
    assert (Hpl : plane (sc_syn c) z a s = false).
    { rewrite <- (Hp a Hla). replace s with (par e + 2 * Z.of_nat (Z.to_nat ((s - par e) / 2))).
      - apply (planes_equal D e B (sc_syn c) H2); [apply (cf_syn _ _ _ _ _ CF)|intros; apply (full_of_logical e b a); assumption|exact Hz|].
        unfold hi. pose proof (H2 a). pose proof (logical_bnd e b a Hla) as HB. destruct HB as [HB|HB]; rewrite HB in Hr; destruct e; cbn [par ec_bnd in_range] in *; lia.
      - assert (0 <= s) by (destruct (get a (code_bnds e b)); cbn [in_range] in Hr; lia). destruct (par_cases e) as [He|He]; rewrite He in *; lia. }
    unfold plane in Hpl. rewrite xsum_odd in Hpl.
    rewrite (NoDup_same_length _ [setco a s q]) in Hpl.
    - discriminate.
    - apply NoDup_filter, (cf_syn_nd _ _ _ _ _ CF).
    - repeat constructor; auto.
    - intros q'. rewrite filter_In, andb_true_iff, Z.eqb_eq. cbn [In]. split.
      + intros (Hq' & E1 & E2). left. apply (cf_syn _ _ _ _ _ CF) in Hq'. apply qubit_axis_iff in Hq'. destruct Hq' as [Hs' [x Hx]].
        assert (x = a).
        { destruct (axis_eq_dec a x) as [|n]; [congruence|]. pose proof (proj2 Hx a n) as P. rewrite E1, Hpar in P. lia. }
        subst x. apply point_ext. intros y. destruct (axis_eq_dec a y) as [<-|n]; [rewrite co_setco_same; congruence|].
        apply (base_unique y); [apply (proj1 (Hn y) (setco a s q) a)|apply (proj1 (Hn y) q' a)]; assumption.
      + intros [<-|[]]. split; [apply (cf_syn _ _ _ _ _ CF), qubit_axis_iff; eauto|]. split; [apply co_setco_same|assumption].
  Qed.

  Lemma pushed_verdict a z : same_verdict c (pushed D e b c a z) z.
  Proof. apply (verdict_gauge D e b pol c H2 HC). Qed.

  Lemma exact_gauge z :
    (forall st, In st (sc_stabs c) -> stab_parity z st = false) -> check_correction c z false = Ok true ->
    exists s, forall q, In q (sc_syn c) -> z q = xsum s (nbrs (sc_graph c) q).
  Proof.
    intros Ht Hck.
    set (z1 := pushed D e b c AX z). set (z2 := pushed D e b c AY z1). set (z3 := pushed D e b c AZ z2).
    assert (Hstep : forall a f, (forall st, In st (sc_stabs c) -> stab_parity f st = false) -> check_correction c f false = Ok true ->
      (forall st, In st (sc_stabs c) -> stab_parity (pushed D e b c a f) st = false) /\ check_correction c (pushed D e b c a f) false = Ok true).
    { intros a f H1 H3. destruct (pushed_verdict a f) as [V1 V2]. split; [intros st Hst; rewrite V1 by assumption; auto|rewrite V2; assumption]. }
    destruct (Hstep AX z Ht Hck) as [T1 C1]. destruct (Hstep AY z1 T1 C1) as [T2 C2]. destruct (Hstep AZ z2 T2 C2) as [T3 C3].
    fold z1 in T1. fold z2 in T2, C2. fold z3 in T3, C3.
    pose proof (proj1 (trivial_iff D e b pol c H2 HC z) Ht) as Q0. pose proof (proj1 (trivial_iff D e b pol c H2 HC z1) T1) as Q1.
    pose proof (proj1 (trivial_iff D e b pol c H2 HC z2) T2) as Q2. pose proof (proj1 (trivial_iff D e b pol c H2 HC z3) T3) as Q3.
    assert (N1 : normal D e b AX z1) by (apply (pushed_normal D e b pol c H2 HC); exact Q0).
    assert (N2 : forall a, a = AX \/ a = AY -> normal D e b a z2).
    { intros a [-> | ->]; [apply (pushed_keeps D e b pol c H2 HC); [discriminate|exact Q1|exact N1]|apply (pushed_normal D e b pol c H2 HC); exact Q1]. }
    assert (N3 : forall a, normal D e b a z3).
    { intros a. destruct (axis_eq_dec a AZ) as [-> |n]; [apply (pushed_normal D e b pol c H2 HC); exact Q2|].
      apply (pushed_keeps D e b pol c H2 HC); [congruence|exact Q2|]. apply N2. destruct a; [auto|auto|congruence]. }
    assert (Hpl : forall a, In a (logical_axes e b) -> plane (sc_syn c) z3 a (par e) = false).
    { rewrite (check_correction_eq D e b pol c H2 HC) in C3. injection C3 as C3. rewrite forallb_forall in C3. intros a Ha. specialize (C3 a Ha). apply negb_true_iff in C3. exact C3. }
    pose proof (normal_zero z3 Q3 Hpl N3) as Hzero.
    exists (fun p => xorb (pusher D e b AX z p) (xorb (pusher D e b AY z1 p) (pusher D e b AZ z2 p))).
    intros q Hq. specialize (Hzero q Hq). unfold z3, pushed in Hzero. unfold z2, pushed at 1 in Hzero. rewrite !xsum_xorb.
    set (u3 := xsum (pusher D e b AZ z2) (nbrs (sc_graph c) q)) in *.
    change (xorb u3 (xorb (xsum (pusher D e b AY z1) (nbrs (sc_graph c) q)) (z1 q)) = false) in Hzero.
    unfold z1 at 2 in Hzero. unfold pushed in Hzero.
    destruct u3, (xsum (pusher D e b AY z1) (nbrs (sc_graph c) q)), (xsum (pusher D e b AX z) (nbrs (sc_graph c) q)), (z q); cbn in *; congruence.
  Qed.
End Exact.

(* bits that are, on the syndrome qubits, the effect of flips attached to the vertices of the lattice:
   each flip acts on the neighbours of its vertex, like an X on one qubit of the graph state *)
Definition gauge_pattern (c : scode) (bit : point -> bool) : Prop :=
  exists s, forall q, In q (sc_syn c) -> bit q = xsum s (nbrs (sc_graph c) q).

(* C61.  Bits without syndrome pass check_correction exactly if they are a gauge pattern: a verdict
   of success is never given to a pattern that acts on the encoded information, and a verdict of
   failure never to one that does not. *)
Theorem C61_verdict_exact :
  forall D e b pol c bit sanity, dims_ge2 D -> is_surface_code D e b pol c ->
  ((forall st, In st (sc_stabs c) -> stab_parity bit st = false) /\ check_correction c bit sanity = Ok true) <-> gauge_pattern c bit.
Proof.
  intros D e b pol c bit sanity H2 HC. split.
  - intros [Ht Hck]. apply (exact_gauge D e b pol c H2 HC); [assumption|]. rewrite (check_correction_eq D e b pol c H2 HC) in *. exact Hck.
  - intros (s & Hs).
    pose proof (verdict_trans c _ _ _ (verdict_ext D e b pol c H2 HC bit (fun q => xorb (xsum s (nbrs (sc_graph c) q)) false) (fun q Hq => eq_trans (Hs q Hq) (eq_sym (xorb_false_r _))))
      (verdict_gauge D e b pol c H2 HC s (fun _ => false))) as [V1 V2]. split.
    + intros st Hst. rewrite (V1 st Hst). unfold stab_parity. apply xsum_false.
    + rewrite V2, (check_correction_eq D e b pol c H2 HC). f_equal. apply forallb_forall. intros a _. apply negb_true_iff.
      unfold plane. apply xsum_all_false. intros q _. apply andb_false_r.
Qed.
Print Assumptions C61_verdict_exact.

(* Two patterns with the same syndrome are the same up to gauge exactly if the planes of every checked
   direction have the same parities; and every combination of parities occurs: there are 2^k classes
   of undetected patterns, k the number of checked directions. *)
Theorem C61_classes :
  forall D e b pol c, dims_ge2 D -> is_surface_code D e b pol c ->
  (forall f g, (forall st, In st (sc_stabs c) -> stab_parity f st = stab_parity g st) ->
     (gauge_pattern c (fun q => xorb (f q) (g q)) <-> forall a, In a (logical_axes e b) -> truth c f false a = truth c g false a)) /\
  (forall want : axis -> bool, exists f, (forall st, In st (sc_stabs c) -> stab_parity f st = false) /\
     forall a, In a (logical_axes e b) -> truth c f false a = [negb (want a)]).
Proof.
  intros D e b pol c H2 HC.
  pose proof (surface_code_facts D e b pol c (ge2_ok D (code_bnds e b) H2) HC) as CF.
  assert (HT : forall f a, truth c f false a = [negb (plane (sc_syn c) f a (par e))]).
  { intros f a. unfold truth. rewrite (cf_ec _ _ _ _ _ CF). unfold sheets. replace (minimum e + 2 - minimum e + 1) with 3 by lia.
    cbn [seq map]. change (Z.to_nat (3 / 2)) with 1%nat. cbn [seq map]. rewrite (sheet_plane D e b pol c H2 HC).
    replace (minimum e + 2 * Z.of_nat 0) with (par e); [reflexivity|]. rewrite Z.mul_0_r, Z.add_0_r. destruct e; reflexivity. }
  assert (Hxor : forall f g st, stab_parity (fun q => xorb (f q) (g q)) st = xorb (stab_parity f st) (stab_parity g st)) by (intros; apply xsum_xorb).
  assert (Hpx : forall f g a s, plane (sc_syn c) (fun q => xorb (f q) (g q)) a s = xorb (plane (sc_syn c) f a s) (plane (sc_syn c) g a s)).
  { intros f g a s. unfold plane. rewrite <- xsum_xorb. apply xsum_ext. intros q _. destruct (co a q =? s); reflexivity. }
  split.
  - intros f g Hs. rewrite <- (C61_verdict_exact D e b pol c _ false H2 HC). rewrite (check_correction_eq D e b pol c H2 HC). split.
    + intros [_ Hck] a Ha. injection Hck as Hck. rewrite forallb_forall in Hck. specialize (Hck a Ha). apply negb_true_iff in Hck.
      rewrite Hpx in Hck. rewrite !HT. destruct (plane (sc_syn c) f a (par e)), (plane (sc_syn c) g a (par e)); try discriminate; reflexivity.
    + intros Hpl. split.
      * intros st Hst. rewrite Hxor, (Hs st Hst). apply xorb_nilpotent.
      * f_equal. apply forallb_forall. intros a Ha. specialize (Hpl a Ha). rewrite !HT in Hpl. injection Hpl as Hpl. rewrite Hpx.
        destruct (plane (sc_syn c) f a (par e)), (plane (sc_syn c) g a (par e)); try discriminate; reflexivity.
  - intros want.
    exists (fun q => xsum (fun a => want a && line e b a q) (logical_axes e b)). split.
    + apply (trivial_iff D e b pol c H2 HC). intros x Hx. unfold cpar.
      rewrite (xsum_ext _ (fun q => xsum (fun a => want a && (on_cellb D (code_bnds e b) x q && line e b a q)) (logical_axes e b))).
      * rewrite xsum_swap. apply xsum_all_false. intros a Ha. rewrite xsum_andb_l.
        pose proof (line_syndrome D e b pol c H2 HC a x Ha Hx) as HL. unfold cpar in HL. rewrite HL. apply andb_false_r.
      * intros q _. rewrite <- xsum_andb_l. apply xsum_ext. intros a _. destruct (want a), (on_cellb D (code_bnds e b) x q), (line e b a q); reflexivity.
    + intros a Ha. rewrite HT. do 2 f_equal. unfold plane.
      rewrite (xsum_ext _ (fun q => xsum (fun a' => want a' && ((co a q =? par e) && line e b a' q)) (logical_axes e b))).
      * rewrite xsum_swap.
        assert (K : forall a', In a' (logical_axes e b) -> xsum (fun q => want a' && ((co a q =? par e) && line e b a' q)) (sc_syn c) = (if axis_eq_dec a a' then want a else false)).
        { intros a' Ha'. rewrite xsum_andb_l. destruct (axis_eq_dec a a') as [<-|n].
          - pose proof (line_plane D e b pol c H2 HC a Ha) as HL. unfold plane in HL. rewrite HL. apply andb_true_r.
          - rewrite xsum_all_false; [apply andb_false_r|]. intros q _. destruct (Z.eqb_spec (co a q) (par e)) as [E|]; [|reflexivity]. cbn [andb].
            destruct (line e b a' q) eqn:EL; [|reflexivity]. exfalso. apply line_true in EL. destruct EL as [_ EL].
            rewrite EL, co_setco_other, base_co in E by congruence. pose proof (base_range D e b pol c H2 HC a) as [_ HR].
            rewrite E in HR. destruct (par_cases e) as [He|He]; rewrite He in HR; [change (0 mod 2) with 0 in HR|change (1 mod 2) with 1 in HR]; lia. }
        rewrite (xsum_ext _ _ _ K). clear -Ha.
        assert (G : NoDup (logical_axes e b)) by (destruct e, b; repeat constructor; cbn; intuition discriminate).
        revert Ha G. generalize (logical_axes e b). intros l Hi Hn. induction l as [|x l IH]; [destruct Hi|].
        apply NoDup_cons_iff in Hn. destruct Hn as [Hx Hn]. change (xorb (if axis_eq_dec a x then want a else false) (xsum (fun a' => if axis_eq_dec a a' then want a else false) l) = want a).
        destruct (axis_eq_dec a x) as [<-|n].
        -- rewrite xsum_all_false; [apply xorb_false_r|]. intros y Hy. destruct (axis_eq_dec a y) as [<-|]; [contradiction|reflexivity].
        -- destruct Hi as [->|Hi]; [congruence|]. rewrite IH by assumption. apply xorb_false_l.
      * intros q _. rewrite <- xsum_andb_l. apply xsum_ext. intros a' _. destruct (want a'), (co a q =? par e), (line e b a' q); reflexivity.
Qed.
Print Assumptions C61_classes.

(* The distance, without reference to check_correction: every undetected pattern that is not a gauge
   pattern has at least the size of the code in some checked direction, and along each checked
   direction there is one of exactly that size. *)
Theorem C61_distance :
  forall D e b pol c, dims_ge2 D -> is_surface_code D e b pol c ->
  (forall bit, (forall st, In st (sc_stabs c) -> stab_parity bit st = false) -> ~ gauge_pattern c bit ->
     exists a, In a (logical_axes e b) /\ get a D <= Z.of_nat (length (filter bit (sc_syn c)))) /\
  (forall a, In a (logical_axes e b) -> exists bit, (forall st, In st (sc_stabs c) -> stab_parity bit st = false) /\
     ~ gauge_pattern c bit /\ Z.of_nat (length (filter bit (sc_syn c))) = get a D).
Proof.
  intros D e b pol c H2 HC. destruct (C11_code_distance D e b pol c H2 HC) as (Hlow & Htight & Htot). split.
  - intros bit Ht Hg. apply (Hlow bit false Ht). destruct (Htot bit false) as (r & Hr). destruct r; [|exact Hr].
    exfalso. apply Hg. apply (C61_verdict_exact D e b pol c bit false H2 HC). auto.
  - intros a Ha. destruct (distance_tight D e b pol c H2 HC a Ha) as (bit & T1 & T2 & T3). exists bit. split; [exact T1|]. split; [|exact T3].
    intros Hg. apply (C61_verdict_exact D e b pol c bit false H2 HC) in Hg. destruct Hg as [_ Hg].
    rewrite (check_correction_eq D e b pol c H2 HC) in Hg, T2. congruence.
Qed.
Print Assumptions C61_distance.

(* For the decoders: correct returns True exactly if error and recovery differ by a gauge pattern. *)
Theorem C61_success_exact :
  forall D e b pol c ch bit sanity, dims_ge2 D -> is_surface_code D e b pol c -> valid_choice (sc_stabs c) ch ->
  let E := sg_edges (sc_stabs c) (sc_bound c) ch in
  (forall rp w o pick, oracle_ok E w o -> (forall mg, best_matching mg (pick mg)) ->
     exists bit' r, correct_mwpm rp c ch w o pick bit sanity = Ok (bit', r) /\ (r = true <-> gauge_pattern c bit')) /\
  (forall er lib sch fuel, lib_ok E lib -> sched_ok sch -> (2 * length E + 2 <= fuel)%nat ->
     exists bit' r, correct_uf c ch er lib sch fuel bit sanity = Ok (bit', r) /\ (r = true <-> gauge_pattern c bit')).
Proof.
  intros D e b pol c ch bit sanity H2 HC Hch E.
  assert (K : forall bit' r, (forall st, In st (sc_stabs c) -> stab_parity bit' st = false) -> check_correction c bit' sanity = Ok r -> (r = true <-> gauge_pattern c bit')).
  { intros bit' r Ht Hr. rewrite <- (C61_verdict_exact D e b pol c bit' sanity H2 HC), Hr. split; [intros ->; auto|]. intros [_ H]. congruence. }
  split.
  - intros rp w o pick Ho Hp. destruct (C14_mwpm_clears_syndrome D e b pol c ch rp w o pick bit sanity H2 HC Hch Ho Hp) as (qs & bit' & r & Q1 & _ & _ & Q2 & Q3 & Q4).
    exists bit', r. split; [exact Q3|]. apply K; [exact Q4|]. unfold correct_mwpm in Q3. rewrite Q1 in Q3. cbn [bind] in Q3. rewrite Q2 in Q3. cbn [bind] in Q3.
    destruct (check_correction c bit' sanity) as [r'|]; [|discriminate]. cbn [bind] in Q3. injection Q3 as <-. reflexivity.
  - intros er lib sch fuel Hl Hsch Hf. destruct (C22_uf_clears_syndrome D e b pol c ch er lib sch fuel bit sanity H2 HC Hch Hl Hsch Hf) as (qs & bit' & r & Q1 & _ & _ & Q2 & Q3 & _ & Q4).
    exists bit', r. split; [exact Q3|]. apply K; [exact Q4|]. unfold correct_uf in Q3. unfold E in *. rewrite Q1 in Q3. cbn [bind] in Q3. rewrite Q2 in Q3. cbn [bind] in Q3.
    destruct (check_correction c bit' sanity) as [r'|]; [|discriminate]. cbn [bind] in Q3. injection Q3 as <-. reflexivity.
Qed.
Print Assumptions C61_success_exact.

(* a gauge pattern that is not zero, and an undetected pattern that is not one *)
Example C61_nonvacuous :
  let c := mk_code (2, 2, 2) EcPrimal BdOpen None in
  (exists bit, gauge_pattern c bit /\ bit (1, 1, 2) = true) /\
  forallb (fun st => negb (stab_parity (fun q => pmem q [(0, 1, 1); (2, 1, 1)]) st)) (sc_stabs c) = true /\
  check_correction c (fun q => pmem q [(0, 1, 1); (2, 1, 1)]) false = Ok false.
Proof.
  split; [|split; vm_compute; reflexivity].
  exists (fun q => xsum (peqb (1, 2, 2)) (nbrs (sc_graph (mk_code (2, 2, 2) EcPrimal BdOpen None)) q)). split; [eexists; reflexivity|vm_compute; reflexivity].
Qed.
