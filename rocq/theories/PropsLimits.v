(* PropsLimits.v: C72, what no error of the decoders' kind can be corrected: the bounds of C15, C54 and C71 are sharp. *)
From Coq Require Import String Reals Lra Lia FunctionalExtensionality.
From Verif Require Import Base Lattice RhgModel RhgSpec SurfaceModel SurfaceSpec SurfaceProofs SurfaceIncidence SurfaceTheorems SurfaceGauge StabGraphModel PropsSurface MwpmModel MwpmProofs MwpmInst PropsMwpm UfModel UfSpec UfInst PropsUf PropsUfDist PropsHomology.
From Verif Require Import SimModel SimSpec SimProofs SimTrial PropsSim PropsSimUf PropsCount CountDraws CvMacroGauge PropsCvMacro PropsIidRate.
Open Scope nat_scope.

Definition same_syndrome (c : scode) (f g : point -> bool) : Prop := forall st, In st (sc_stabs c) -> stab_parity f st = stab_parity g st.
Definition differ (f g : point -> bool) : point -> bool := fun q => xorb (f q) (g q).

(* ---------- the recovery is a function of the syndrome ---------- *)
Section Shift.
  Variables (D : Z * Z * Z) (e : ecx) (b : bdk) (pol : option (point * point -> Z)) (c : scode) (ch : nat -> nat -> point).
  Hypotheses (HD : dims_ge2 D) (HC : is_surface_code D e b pol c) (Hch : valid_choice (sc_stabs c) ch).
  Let E := sg_edges (sc_stabs c) (sc_bound c) ch.
  Variables f g : point -> bool.
  Hypothesis Hs : same_syndrome c f g.

  Lemma equal_parities : (fun i => stab_parity f (stab_of (sc_stabs c) i)) = (fun i => stab_parity g (stab_of (sc_stabs c) i)).
  Proof.
    apply functional_extensionality. intros i. unfold stab_of. destruct (nth_in_or_default i (sc_stabs c) []) as [H|H]; [apply Hs, H|rewrite H; reflexivity].
  Qed.
  Lemma shift_recovery qs f' g' : (forall x, In x qs -> exists q, x = Some q /\ In q (sc_syn c)) ->
    recovery (node_list (sc_graph c)) qs f = Ok f' -> recovery (node_list (sc_graph c)) qs g = Ok g' -> forall q, differ f' g' q = differ f g q.
  Proof.
    intros Hq E1 E2 q.
    assert (Hn : forall x, In x qs -> exists q, x = Some q /\ In q (node_list (sc_graph c))).
    { intros x Hx. destruct (Hq x Hx) as (y & -> & Hy). exists y. split; [reflexivity|]. apply (syn_in_nodes D e b pol c HD HC), Hy. }
    destruct (recovery_ok _ qs Hn f) as (f1 & F1 & F2). destruct (recovery_ok _ qs Hn g) as (g1 & G1 & G2).
    rewrite E1 in F1. injection F1 as <-. rewrite E2 in G1. injection G1 as <-. unfold differ. rewrite F2, G2.
    destruct (f q), (g q), (xsum _ qs); reflexivity.
  Qed.
  Lemma shift_mwpm rp w o pick sanity f' g' r1 r2 : oracle_ok E w o -> (forall mg, best_matching mg (pick mg)) ->
    correct_mwpm rp c ch w o pick f sanity = Ok (f', r1) -> correct_mwpm rp c ch w o pick g sanity = Ok (g', r2) -> forall q, differ f' g' q = differ f g q.
  Proof.
    intros Ho Hp C1 C2.
    destruct (C14_mwpm_clears_syndrome D e b pol c ch rp w o pick f sanity HD HC Hch Ho Hp) as (qs & b1 & s1 & Q1 & _ & Q2 & Q3 & Q4 & _).
    destruct (C14_mwpm_clears_syndrome D e b pol c ch rp w o pick g sanity HD HC Hch Ho Hp) as (qs' & b2 & s2 & T1 & _ & _ & T3 & T4 & _).
    rewrite C1 in Q4. injection Q4 as <- <-. rewrite C2 in T4. injection T4 as <- <-.
    assert (EQ : qs' = qs).
    { unfold mwpm_decoder, odd_stabs in Q1, T1. pose proof equal_parities as H.
      rewrite (filter_ext (fun i => stab_parity f (stab_of (sc_stabs c) i)) (fun i => stab_parity g (stab_of (sc_stabs c) i))) in Q1 by (intros i; exact (f_equal (fun h => h i) H)).
      rewrite Q1 in T1. injection T1 as <-. reflexivity. }
    subst qs'. exact (shift_recovery qs f' g' Q2 Q3 T3).
  Qed.
  Lemma shift_uf er lib sch fuel sanity f' g' r1 r2 : lib_ok E lib -> sched_ok sch -> 2 * List.length E + 2 <= fuel ->
    correct_uf c ch er lib sch fuel f sanity = Ok (f', r1) -> correct_uf c ch er lib sch fuel g sanity = Ok (g', r2) -> forall q, differ f' g' q = differ f g q.
  Proof.
    intros Hl Hsc Hf C1 C2.
    destruct (C22_uf_clears_syndrome D e b pol c ch er lib sch fuel f sanity HD HC Hch Hl Hsc Hf) as (qs & b1 & s1 & Q1 & _ & Q2 & Q3 & Q4 & _).
    destruct (C22_uf_clears_syndrome D e b pol c ch er lib sch fuel g sanity HD HC Hch Hl Hsc Hf) as (qs' & b2 & s2 & T1 & _ & _ & T3 & T4 & _).
    rewrite C1 in Q4. injection Q4 as <- <-. rewrite C2 in T4. injection T4 as <- <-.
    assert (EQ : qs' = qs) by (rewrite equal_parities in Q1; rewrite Q1 in T1; injection T1 as <-; reflexivity).
    subst qs'. exact (shift_recovery qs f' g' Q2 Q3 T3).
  Qed.

  Lemma gauge_xor h1 h2 h : (forall q, differ h1 h2 q = h q) -> gauge_pattern c h1 -> (gauge_pattern c h2 <-> gauge_pattern c h).
  Proof.
    intros Hd (s & S). split; intros (t & T); exists (fun v => xorb (s v) (t v)); intros q Hq; rewrite xsum_xorb; rewrite <- (S q Hq), <- (T q Hq), <- (Hd q); unfold differ; destruct (h1 q), (h2 q); reflexivity.
  Qed.
  Lemma class_step f' g' (r1 r2 : bool) : (forall q, differ f' g' q = differ f g q) -> (r1 = true <-> gauge_pattern c f') -> (r2 = true <-> gauge_pattern c g') ->
    r1 = true -> (r2 = true <-> gauge_pattern c (differ f g)).
  Proof. intros Hd G1 G2 R1. rewrite G2. apply (gauge_xor f' g' (differ f g) Hd). apply G1, R1. Qed.
End Shift.

(* Two errors with the same syndrome: if one is corrected, the other one is exactly if the two differ by a gauge pattern.
   With either decoder, whatever the weights. *)
Theorem C72_one_class : forall D e b pol c ch f g sanity, dims_ge2 D -> is_surface_code D e b pol c -> valid_choice (sc_stabs c) ch ->
  same_syndrome c f g ->
  let E := sg_edges (sc_stabs c) (sc_bound c) ch in
  (forall rp w o pick, oracle_ok E w o -> (forall mg, best_matching mg (pick mg)) ->
     exists f' g' r1 r2, correct_mwpm rp c ch w o pick f sanity = Ok (f', r1) /\ correct_mwpm rp c ch w o pick g sanity = Ok (g', r2) /\
       (r1 = true -> (r2 = true <-> gauge_pattern c (differ f g)))) /\
  (forall er lib sch fuel, lib_ok E lib -> sched_ok sch -> 2 * List.length E + 2 <= fuel ->
     exists f' g' r1 r2, correct_uf c ch er lib sch fuel f sanity = Ok (f', r1) /\ correct_uf c ch er lib sch fuel g sanity = Ok (g', r2) /\
       (r1 = true -> (r2 = true <-> gauge_pattern c (differ f g)))).
Proof.
  intros D e b pol c ch f g sanity HD HC Hch Hs E. split.
  - intros rp w o pick Ho Hp.
    destruct (exact_mwpm D e b pol c ch HD HC Hch rp w o pick sanity f Ho Hp) as (f' & r1 & _ & C1 & _ & _ & G1).
    destruct (exact_mwpm D e b pol c ch HD HC Hch rp w o pick sanity g Ho Hp) as (g' & r2 & _ & C2 & _ & _ & G2).
    exists f', g', r1, r2. split; [exact C1|]. split; [exact C2|].
    exact (class_step c f g f' g' r1 r2 (shift_mwpm D e b pol c ch HD HC Hch f g Hs rp w o pick sanity f' g' r1 r2 Ho Hp C1 C2) G1 G2).
  - intros er lib sch fuel Hl Hsc Hf.
    destruct (exact_uf D e b pol c ch HD HC Hch er lib sch fuel sanity f Hl Hsc Hf) as (f' & r1 & _ & C1 & _ & _ & G1).
    destruct (exact_uf D e b pol c ch HD HC Hch er lib sch fuel sanity g Hl Hsc Hf) as (g' & r2 & _ & C2 & _ & _ & G2).
    exists f', g', r1, r2. split; [exact C1|]. split; [exact C2|].
    exact (class_step c f g f' g' r1 r2 (shift_uf D e b pol c ch HD HC Hch f g Hs er lib sch fuel sanity f' g' r1 r2 Hl Hsc Hf C1 C2) G1 G2).
Qed.
Print Assumptions C72_one_class.

(* ---------- the shortest logical line ---------- *)
Section Line.
  Variables (D : Z * Z * Z) (e : ecx) (b : bdk) (pol : option (point * point -> Z)) (c : scode).
  Hypotheses (HD : dims_ge2 D) (HC : is_surface_code D e b pol c).

  (* a line of qubits, its pattern undetected and not gauge *)
  Definition logical_line (a : axis) (L : list point) : Prop :=
    NoDup L /\ incl L (sc_syn c) /\ Z.of_nat (List.length L) = get a D /\
    (forall st, In st (sc_stabs c) -> stab_parity (fun q => pmem q L) st = false) /\ ~ gauge_pattern c (fun q => pmem q L).

  Lemma line_exists a : In a (logical_axes e b) -> exists L, logical_line a L.
  Proof.
    intros Ha. destruct (C61_distance D e b pol c HD HC) as [_ H]. destruct (H a Ha) as (bit & H1 & H2 & H3). exists (filter bit (sc_syn c)).
    pose proof (surface_code_facts D e b pol c (ge2_ok D _ HD) HC) as CF. pose proof (cf_syn_nd _ _ _ _ _ CF) as NS.
    assert (Hx : forall q, In q (sc_syn c) -> bit q = pmem q (filter bit (sc_syn c))).
    { intros q Hq. destruct (bit q) eqn:Eb; symmetry; [apply pmem_In, filter_In; auto|]. apply pmem_false. intros K. apply filter_In in K. destruct K as [_ K]. congruence. }
    split; [apply NoDup_filter, NS|]. split; [intros q Hq; apply filter_In in Hq; apply Hq|]. split; [exact H3|]. split.
    - intros st Hst. rewrite <- (H1 st Hst). unfold stab_parity. apply xsum_ext. intros q Hq. symmetry. apply Hx. apply (stab_syn D e b pol c HD HC st q Hst Hq).
    - intros (s & S). apply H2. exists s. intros q Hq. rewrite (Hx q Hq). apply S, Hq.
  Qed.

  (* the rest of the line has the same syndrome *)
  Lemma rest_of_line a L err : logical_line a L -> (forall q, In q (sc_syn c) -> err q = true -> In q L) ->
    let rest := fun q => pmem q L && negb (err q) in
    same_syndrome c rest err /\ ~ gauge_pattern c (differ rest err) /\
    List.length (filter rest (sc_syn c)) + List.length (filter err (sc_syn c)) = List.length L.
  Proof.
    intros (N & I & Len & T & G) He rest.
    pose proof (surface_code_facts D e b pol c (ge2_ok D _ HD) HC) as CF. pose proof (cf_syn_nd _ _ _ _ _ CF) as NS.
    assert (Hd : forall q, In q (sc_syn c) -> differ rest err q = pmem q L).
    { intros q Hq. unfold differ, rest. destruct (err q) eqn:Ee; [|destruct (pmem q L); reflexivity]. apply He in Ee; [|exact Hq]. apply pmem_In in Ee. rewrite Ee. reflexivity. }
    split; [|split].
    - intros st Hst. specialize (T st Hst).
      assert (X : xorb (stab_parity rest st) (stab_parity err st) = false).
      { unfold stab_parity. rewrite <- xsum_xorb. rewrite <- T. unfold stab_parity. apply xsum_ext. intros q Hq. apply Hd. apply (stab_syn D e b pol c HD HC st q Hst Hq). }
      destruct (stab_parity rest st), (stab_parity err st); try discriminate; reflexivity.
    - intros (s & S). apply G. exists s. intros q Hq. rewrite <- (Hd q Hq). apply S, Hq.
    - rewrite <- app_length. apply Permutation_length. apply NoDup_Permutation; [|exact N|].
      + apply NoDup_app_intro; [apply NoDup_filter, NS|apply NoDup_filter, NS|]. intros q H1 H2. apply filter_In in H1, H2. destruct H1 as [_ H1], H2 as [_ H2]. unfold rest in H1. rewrite H2, andb_false_r in H1. discriminate.
      + intros q. rewrite in_app_iff, !filter_In. unfold rest. split.
        * intros [[_ H]|[H1 H2]]; [apply andb_true_iff in H; apply pmem_In, H|exact (He q H1 H2)].
        * intros Hq. pose proof (I q Hq) as Hi. apply pmem_In in Hq. rewrite Hq. destruct (err q); auto.
  Qed.
End Line.

(* Along every shortest direction of a logical operator there is a line of qubits, as many as the code is long, such
   that every error on more than half of them (and on no other syndrome qubit) is not corrected, by either decoder with
   uniform weights.  So the bound d/2 of C15 and C54 cannot be improved. *)
Theorem C72_sharp : forall D e b pol c ch a, dims_ge2 D -> is_surface_code D e b pol c -> valid_choice (sc_stabs c) ch ->
  In a (logical_axes e b) -> (forall a', In a' (logical_axes e b) -> (get a D <= get a' D)%Z) ->
  let E := sg_edges (sc_stabs c) (sc_bound c) ch in
  exists L, NoDup L /\ incl L (sc_syn c) /\ Z.of_nat (List.length L) = get a D /\
  forall err sanity, (forall q, In q (sc_syn c) -> err q = true -> In q L) -> (get a D < 2 * Z.of_nat (List.length (filter err (sc_syn c))))%Z ->
  (forall rp o pick, rp = nx_report \/ rp = rx_report 1 -> oracle_ok E (fun _ => 1%Z) o -> (forall mg, best_matching mg (pick mg)) ->
     exists bit', correct_mwpm rp c ch (fun _ => 1%Z) o pick err sanity = Ok (bit', false)) /\
  (forall lib sch fuel, lib_ok E lib -> (forall u, NoDup (l_out lib u)) -> sched_ok sch -> 2 * List.length E + 2 <= fuel ->
     exists bit', correct_uf c ch (fun _ => false) lib sch fuel err sanity = Ok (bit', false)).
Proof.
  intros D e b pol c ch a HD HC Hch Ha Hmin E. destruct (line_exists D e b pol c HD HC a Ha) as (L & HL). exists L.
  pose proof HL as (N & I & Len & _ & _). split; [exact N|]. split; [exact I|]. split; [exact Len|].
  intros err sanity He Hw. destruct (rest_of_line D e b pol c HD HC a L err HL He) as (Hs & Hg & Hlen). set (rest := fun q => pmem q L && negb (err q)) in *.
  assert (Hsm : forall a', In a' (logical_axes e b) -> (2 * Z.of_nat (List.length (filter rest (sc_syn c))) < get a' D)%Z).
  { intros a' Ha'. specialize (Hmin a' Ha'). lia. }
  destruct (C72_one_class D e b pol c ch rest err sanity HD HC Hch Hs) as [K1 K2]. split.
  - intros rp o pick Hrp Ho Hp. destruct (K1 rp (fun _ => 1%Z) o pick Ho Hp) as (f' & g' & r1 & r2 & C1 & C2 & X).
    destruct (C15_mwpm_corrects_small_errors D e b pol c ch rp o pick rest sanity HD HC Hch Hrp Ho Hp Hsm) as (x & Cx). rewrite C1 in Cx. injection Cx as <- ->.
    exists g'. rewrite C2. destruct r2; [|reflexivity]. exfalso. apply Hg. apply (X eq_refl). reflexivity.
  - intros lib sch fuel Hl Hn Hsc Hf. destruct (K2 (fun _ => false) lib sch fuel Hl Hsc Hf) as (f' & g' & r1 & r2 & C1 & C2 & X).
    destruct (C54_uf_corrects_small_errors D e b pol c ch lib sch fuel rest sanity HD HC Hch Hl Hn Hsc Hf Hsm) as (x & Cx). rewrite C1 in Cx. injection Cx as <- ->.
    exists g'. rewrite C2. destruct r2; [|reflexivity]. exfalso. apply Hg. apply (X eq_refl). reflexivity.
Qed.
Print Assumptions C72_sharp.

(* ---------- failure rates ---------- *)
(* the bits after the noise of a trial *)
Definition trial_bits (M : nat) (p : R) (c : scode) (A : node_attrs) (v : list nat) : point -> bool :=
  SimModel.bits_of (fst (iid_apply (grid M) p (node_list (sc_graph c)) A v)).

Section Rate.
  Variables (D : Z * Z * Z) (e : ecx) (b : bdk) (pol : option (point * point -> Z)) (c : scode) (ch : nat -> nat -> point).
  Hypotheses (HD : dims_ge2 D) (HC : is_surface_code D e b pol c) (Hch : valid_choice (sc_stabs c) ch).
  Variables (M : nat) (p : R) (A : node_attrs) (trial : node_attrs * list nat -> (node_attrs * list nat) * res bool).
  Hypothesis Hdec : uniform_decoder (grid M) p c ch trial.
  Notation nodes := (node_list (sc_graph c)).
  Notation n := (List.length nodes).

  (* two trials whose bits have the same syndrome and differ by no gauge pattern do not both succeed *)
  Lemma not_both v w : same_syndrome c (trial_bits M p c A v) (trial_bits M p c A w) -> ~ gauge_pattern c (differ (trial_bits M p c A v) (trial_bits M p c A w)) ->
    fails trial A v = false -> fails trial A w = true.
  Proof.
    intros Hs Hg. destruct (C72_one_class D e b pol c ch _ _ false HD HC Hch Hs) as [K1 K2]. unfold trial_bits in *.
    destruct Hdec as [(rp & o & pick & Hrp & Ho & Hp & ->)|(lib & sch & fuel & Hl & Hn & Hsc & Hf & ->)].
    - destruct (K1 rp (fun _ => 1%Z) o pick Ho Hp) as (f' & g' & r1 & r2 & C1 & C2 & X). unfold fails, iid_mwpm_trial. cbn [fst snd].
      destruct (iid_apply (grid M) p nodes A v) as [Av sv]. destruct (iid_apply (grid M) p nodes A w) as [Aw sw]. cbn [fst] in *. rewrite C1, C2. cbn [snd].
      destruct r1; [|discriminate]. intros _. destruct r2; [|reflexivity]. exfalso. apply Hg. apply (X eq_refl). reflexivity.
    - destruct (K2 (fun _ => false) lib sch fuel Hl Hsc Hf) as (f' & g' & r1 & r2 & C1 & C2 & X). unfold fails, iid_uf_trial. cbn [fst snd].
      destruct (iid_apply (grid M) p nodes A v) as [Av sv]. destruct (iid_apply (grid M) p nodes A w) as [Aw sw]. cbn [fst] in *. rewrite C1, C2. cbn [snd].
      destruct r1; [|discriminate]. intros _. destruct r2; [|reflexivity]. exfalso. apply Hg. apply (X eq_refl). reflexivity.
  Qed.

  Lemma bits_nth v j q : List.length v = n -> nth_error nodes j = Some q -> trial_bits M p c A v q = below M p (nth j v 0).
  Proof. intros Hv Hj. unfold trial_bits. apply (bits_grid M p nodes (code_nodes_NoDup D e b pol c HD HC) A v j q); [lia|exact Hj]. Qed.

  Lemma line_draws a L k : In a (logical_axes e b) -> (forall a', In a' (logical_axes e b) -> (get a D <= get a' D)%Z) ->
    (forall err sanity, (forall q, In q (sc_syn c) -> err q = true -> In q L) -> (get a D < 2 * Z.of_nat (List.length (filter err (sc_syn c))))%Z ->
      (forall rp o pick, rp = nx_report \/ rp = rx_report 1 -> oracle_ok (sg_edges (sc_stabs c) (sc_bound c) ch) (fun _ => 1%Z) o -> (forall mg, best_matching mg (pick mg)) ->
         exists bit', correct_mwpm rp c ch (fun _ => 1%Z) o pick err sanity = Ok (bit', false)) /\
      (forall lib sch fuel, lib_ok (sg_edges (sc_stabs c) (sc_bound c) ch) lib -> (forall u, NoDup (l_out lib u)) -> sched_ok sch -> 2 * List.length (sg_edges (sc_stabs c) (sc_bound c) ch) + 2 <= fuel ->
         exists bit', correct_uf c ch (fun _ => false) lib sch fuel err sanity = Ok (bit', false))) ->
    NoDup L -> incl L (sc_syn c) -> (get a D < 2 * Z.of_nat k)%Z ->
    let marks := map (fun q => if pmem q L then Some true else if pmem q (sc_syn c) then Some false else None) nodes in
    count_if (line_hits (below M p) marks k) (all_draws M n) <= count_if (fails trial A) (all_draws M n).
  Proof.
    intros Ha Hmin HX N I Hk marks. apply count_le. intros v Hv Hh. apply in_all_draws in Hv. destruct Hv as [Hv _].
    pose proof (code_nodes_NoDup D e b pol c HD HC) as ND.
    pose proof (surface_code_facts D e b pol c (ge2_ok D _ HD) HC) as CF. pose proof (cf_syn_nd _ _ _ _ _ CF) as NS.
    assert (Hsyn : incl (sc_syn c) nodes) by (intros q; apply (syn_in_nodes D e b pol c HD HC)).
    set (err := trial_bits M p c A v).
    assert (G : forall l w k, (forall j q, nth_error l j = Some q -> err q = below M p (nth j w 0)) -> List.length w = List.length l ->
      line_hits (below M p) (map (fun q => if pmem q L then Some true else if pmem q (sc_syn c) then Some false else None) l) k w = true ->
      count_if (fun q => pmem q L && err q) l = k /\ forall q, In q l -> In q (sc_syn c) -> err q = true -> In q L).
    { clear -I. induction l as [|q l IH]; intros [|x w] k Hj Hl Hk; cbn [List.length] in Hl; try discriminate.
      - cbn [map line_hits] in Hk. apply Nat.eqb_eq in Hk. split; [symmetry; exact Hk|]. intros q [].
      - cbn [map] in Hk. pose proof (Hj 0 q eq_refl) as H0. cbn [nth] in H0.
        assert (Hj' : forall j q', nth_error l j = Some q' -> err q' = below M p (nth j w 0)) by (intros j q' Hq'; exact (Hj (S j) q' Hq')).
        unfold count_if. cbn [filter]. destruct (pmem q L) eqn:EL.
        + cbn [line_hits] in Hk. rewrite <- H0 in Hk. cbn [andb]. destruct (err q) eqn:Ee.
          * destruct k as [|k]; [discriminate|]. destruct (IH w k Hj' (f_equal Nat.pred Hl) Hk) as [I1 I2]. split; [cbn [List.length]; f_equal; exact I1|].
            intros q' [->|Hq']; [intros _ _; apply pmem_In, EL|apply I2, Hq'].
          * destruct (IH w k Hj' (f_equal Nat.pred Hl) Hk) as [I1 I2]. split; [exact I1|]. intros q' [->|Hq']; [intros _ K; congruence|apply I2, Hq'].
        + cbn [andb]. destruct (pmem q (sc_syn c)) eqn:ES.
          * cbn [line_hits] in Hk. rewrite <- H0 in Hk. apply andb_true_iff in Hk. destruct Hk as [Hk1 Hk]. apply negb_true_iff in Hk1.
            destruct (IH w k Hj' (f_equal Nat.pred Hl) Hk) as [I1 I2]. split; [exact I1|]. intros q' [->|Hq']; [intros _ K; congruence|apply I2, Hq'].
          * cbn [line_hits] in Hk. destruct (IH w k Hj' (f_equal Nat.pred Hl) Hk) as [I1 I2]. split; [exact I1|].
            intros q' [->|Hq']; [intros K; apply pmem_In in K; congruence|apply I2, Hq']. }
    destruct (G nodes v k (fun j q => bits_nth v j q Hv) Hv Hh) as [G1 G2].
    assert (Hc : List.length (filter err (sc_syn c)) = k).
    { rewrite <- G1. unfold count_if. apply Permutation_length. apply NoDup_Permutation; [apply NoDup_filter, NS|apply NoDup_filter, ND|].
      intros q. rewrite !filter_In, andb_true_iff, pmem_In. split.
      - intros [H1 H2]. split; [apply Hsyn, H1|]. split; [apply (G2 q (Hsyn q H1) H1 H2)|exact H2].
      - intros [H1 [H2 H3]]. split; [apply I, H2|exact H3]. }
    destruct (HX err false (fun q Hq => G2 q (Hsyn q Hq) Hq)) as [K1 K2]; [rewrite Hc; exact Hk|].
    unfold err, trial_bits in K1, K2. destruct Hdec as [(rp & o & pick & Hrp & Ho & Hp & ->)|(lib & sch & fuel & Hl & Hn & Hsc & Hf & ->)].
    - destruct (K1 rp o pick Hrp Ho Hp) as (b' & C). unfold fails, iid_mwpm_trial. cbn [fst snd]. destruct (iid_apply (grid M) p nodes A v) as [Av sv]. cbn [fst] in C. rewrite C. reflexivity.
    - destruct (K2 lib sch fuel Hl Hn Hsc Hf) as (b' & C). unfold fails, iid_uf_trial. cbn [fst snd]. destruct (iid_apply (grid M) p nodes A v) as [Av sv]. cbn [fst] in C. rewrite C. reflexivity.
  Qed.
End Rate.

(* The failure rate under IidNoise is at least that of k > d/2 errors on one line of d qubits, d the smallest extent in a
   direction of a logical operator: with C71, it is of order p^(d/2), not better. *)
Theorem C72_rate_at_least : forall D e b pol c ch M p A trial a k, dims_ge2 D -> is_surface_code D e b pol c -> valid_choice (sc_stabs c) ch ->
  0 < M -> uniform_decoder (grid M) p c ch trial ->
  In a (logical_axes e b) -> (forall a', In a' (logical_axes e b) -> (get a D <= get a' D)%Z) -> (get a D < 2 * Z.of_nat k)%Z ->
  let n := List.length (node_list (sc_graph c)) in let m := List.length (sc_syn c) in let r := (INR (flips M p) / INR M)%R in
  let rate := (INR (count_if (fails trial A) (all_draws M n)) / INR (M ^ n)%nat)%R in
  (INR (choose (Z.to_nat (get a D)) k) * r ^ k * (1 - r) ^ (m - k) <= rate)%R.
Proof.
  intros D e b pol c ch M p A trial a k HD HC Hch HM Hdec Ha Hmin Hk n m r rate.
  destruct (C72_sharp D e b pol c ch a HD HC Hch Ha Hmin) as (L & N & I & Len & HX).
  pose proof (line_draws D e b pol c ch HD HC M p A trial Hdec a L k Ha Hmin HX N I Hk) as Hle. cbn zeta in Hle. fold n in Hle.
  set (nodes := node_list (sc_graph c)) in *. set (marks := map (fun q => if pmem q L then Some true else if pmem q (sc_syn c) then Some false else None) nodes) in *.
  pose proof (code_nodes_NoDup D e b pol c HD HC) as ND. fold nodes in ND.
  pose proof (surface_code_facts D e b pol c (ge2_ok D _ HD) HC) as CF. pose proof (cf_syn_nd _ _ _ _ _ CF) as NS.
  assert (Hsyn : incl (sc_syn c) nodes) by (intros q; apply (syn_in_nodes D e b pol c HD HC)).
  assert (Lm : List.length marks = n) by apply map_length.
  set (d := Z.to_nat (get a D)). assert (Hd : List.length L = d) by (unfold d; rewrite <- Len; rewrite Nat2Z.id; reflexivity).
  assert (Cl : count_if is_line marks = d).
  { unfold marks. rewrite count_map, <- Hd. unfold count_if. apply Permutation_length. apply NoDup_Permutation; [apply NoDup_filter, ND|exact N|].
    intros q. rewrite filter_In. destruct (pmem q L) eqn:E.
    - apply pmem_In in E. split; [intros _; exact E|intros _]. split; [apply Hsyn, I, E|reflexivity].
    - apply pmem_false in E. split; [|contradiction]. intros [_ K]. destruct (pmem q (sc_syn c)); discriminate. }
  assert (Co : count_if is_off marks + d = m).
  { unfold marks. rewrite count_map, <- Hd. unfold count_if, m. rewrite <- app_length. apply Permutation_length. apply NoDup_Permutation; [|exact NS|].
    - apply NoDup_app_intro; [apply NoDup_filter, ND|exact N|]. intros q H1 H2. apply filter_In in H1. destruct H1 as [_ H1]. apply pmem_In in H2. rewrite H2 in H1. discriminate.
    - intros q. rewrite in_app_iff, filter_In. destruct (pmem q L) eqn:E.
      + apply pmem_In in E. split; [intros _; apply I, E|auto].
      + apply pmem_false in E. destruct (pmem q (sc_syn c)) eqn:E2.
        * apply pmem_In in E2. split; [intros _; exact E2|]. intros _. left. split; [apply Hsyn, E2|reflexivity].
        * apply pmem_false in E2. split; [intros [[_ K]|K]; [discriminate|contradiction]|contradiction]. }
  assert (Cf : count_if is_free marks + m = n).
  { rewrite <- Co, <- Lm, <- Cl. clear. unfold count_if. induction marks as [|[[|]|] l IH]; cbn; lia. }
  rewrite <- Lm in Hle. pose proof (line_hits_count M (below M p) marks k) as HCt. rewrite Cl in HCt. change (count_if (below M p) (seq 0 M)) with (flips M p) in HCt.
  assert (Hfl : flips M p <= M) by apply a_le. assert (HR : (INR M <> 0)%R) by (apply not_0_INR; lia).
  assert (HP : (0 < / INR (M ^ n)%nat)%R) by (apply Rinv_0_lt_compat; apply lt_0_INR; apply Nat.neq_0_lt_0; apply Nat.pow_nonzero; lia).
  destruct (Nat.le_gt_cases k d) as [Hkd|Hkd].
  - rewrite HCt in Hle. apply le_INR in Hle. rewrite Lm in Hle. unfold rate.
    apply Rle_trans with (Rdiv (INR (choose d k * flips M p ^ k * (M - flips M p) ^ (d - k) * (M - flips M p) ^ count_if is_off marks * M ^ count_if is_free marks)) (INR (M ^ n))).
    2:{ apply Rmult_le_compat_r; [left; exact HP|exact Hle]. }
    right. rewrite !mult_INR, !pow_INR, minus_INR by exact Hfl. unfold r.
    replace (1 - INR (flips M p) / INR M)%R with ((INR M - INR (flips M p)) / INR M)%R by (field; exact HR). rewrite !pow_quot by exact HR.
    replace (INR M ^ n)%R with (INR M ^ count_if is_free marks * (INR M ^ k * INR M ^ (m - k)))%R by (rewrite <- !pow_add; f_equal; lia).
    replace ((INR M - INR (flips M p)) ^ (m - k))%R with ((INR M - INR (flips M p)) ^ (d - k) * (INR M - INR (flips M p)) ^ count_if is_off marks)%R by (rewrite <- pow_add; f_equal; lia).
    field. repeat split; apply pow_nonzero; exact HR.
  - rewrite (choose_above d k Hkd). cbn [INR]. rewrite !Rmult_0_l. unfold rate. apply Rmult_le_pos; [apply pos_INR|left; exact HP].
Qed.
Print Assumptions C72_rate_at_least.

(* With p = 1/2 a trial fails at least half of the time (M even): measuring at random is not better than a coin. *)
Theorem C72_coin : forall D e b pol c ch h A trial, dims_ge2 D -> is_surface_code D e b pol c -> valid_choice (sc_stabs c) ch ->
  0 < h -> uniform_decoder (grid (2 * h)) (1 / 2) c ch trial ->
  let n := List.length (node_list (sc_graph c)) in
  (2 * h) ^ n <= 2 * count_if (fails trial A) (all_draws (2 * h) n).
Proof.
  intros D e b pol c ch h A trial HD HC Hch Hh Hdec n. set (M := 2 * h) in *.
  assert (Ha : exists a, In a (logical_axes e b)) by (destruct e, b; eexists; left; reflexivity). destruct Ha as (a & Ha).
  destruct (line_exists D e b pol c HD HC a Ha) as (L & N & I & _ & Tr & Ng).
  set (nodes := node_list (sc_graph c)) in *. pose proof (code_nodes_NoDup D e b pol c HD HC) as ND. fold nodes in ND.
  assert (Hsyn : incl (sc_syn c) nodes) by (intros q; apply (syn_in_nodes D e b pol c HD HC)).
  pose (turn := fun x => if Nat.ltb x h then x + h else x - h).
  assert (T1 : forall x, x < M -> turn x < M /\ turn (turn x) = x).
  { intros x Hx. unfold turn, M in *. destruct (Nat.ltb_spec x h).
    - split; [lia|]. destruct (Nat.ltb_spec (x + h) h); lia.
    - split; [lia|]. destruct (Nat.ltb_spec (x - h) h); lia. }
  assert (B : forall x, below M (1 / 2) x = Nat.ltb x h).
  { intros x. unfold below, M. rewrite mult_INR. cbn [INR]. assert (0 < INR h)%R by (apply lt_0_INR; exact Hh).
    destruct (Rlt_dec _ _) as [K|K]; destruct (Nat.ltb_spec x h) as [Q|Q]; try reflexivity; exfalso.
    - apply le_INR in Q. assert (1 / 2 <= INR x / ((1 + 1) * INR h))%R; [|lra]. apply Rmult_le_reg_r with ((1 + 1) * INR h)%R; [lra|]. field_simplify; lra.
    - apply lt_INR in Q. apply K. apply Rmult_lt_reg_r with ((1 + 1) * INR h)%R; [lra|]. field_simplify; lra. }
  pose (T := fix T (l : list point) (v : list nat) : list nat :=
    match l, v with q :: l', x :: v' => (if pmem q L then turn x else x) :: T l' v' | _, _ => v end).
  assert (T2 : forall l v, Forall (fun x => x < M) v -> List.length (T l v) = List.length v /\ Forall (fun x => x < M) (T l v) /\ T l (T l v) = v).
  { induction l as [|q l IH]; intros [|x v] Hv; cbn [T List.length]; try (split; [reflexivity|split; [exact Hv|reflexivity]]).
    apply Forall_cons_iff in Hv. destruct Hv as [Hx Hv]. destruct (IH v Hv) as (I1 & I2 & I3). destruct (T1 x Hx) as [X1 X2]. split; [f_equal; exact I1|]. split.
    - constructor; [destruct (pmem q L); assumption|exact I2].
    - rewrite I3. destruct (pmem q L); [rewrite X2|]; reflexivity. }
  assert (T3 : forall l v j q, nth_error l j = Some q -> List.length v = List.length l -> nth j (T l v) 0 = if pmem q L then turn (nth j v 0) else nth j v 0).
  { induction l as [|q0 l IH]; intros [|x v] [|j] q Hj Hl; cbn [nth_error List.length] in *; try discriminate.
    - injection Hj as ->. reflexivity.
    - cbn [T nth]. apply (IH v j q Hj). lia. }
  assert (Hinv : forall v, In v (all_draws M n) -> In (T nodes v) (all_draws M n) /\ T nodes (T nodes v) = v).
  { intros v Hv. apply in_all_draws in Hv. destruct Hv as [V1 V2]. destruct (T2 nodes v V2) as (I1 & I2 & I3). split; [|exact I3]. apply in_all_draws. split; [rewrite I1; exact V1|exact I2]. }
  pose proof (count_involution M n (T nodes) (fails trial A) Hinv) as Heq.
  assert (Hne : forall v, In v (all_draws M n) -> fails trial A v = false -> fails trial A (T nodes v) = true).
  { intros v Hv. pose proof (Hinv v Hv) as [Hv' _]. apply in_all_draws in Hv, Hv'. destruct Hv as [V1 V2], Hv' as [W1 _].
    assert (Hd : forall q, In q (sc_syn c) -> differ (trial_bits M (1 / 2) c A v) (trial_bits M (1 / 2) c A (T nodes v)) q = pmem q L).
    { intros q Hq. apply Hsyn, (In_nth_error nodes) in Hq. destruct Hq as (j & Hj). unfold differ.
      rewrite (bits_nth D e b pol c HD HC M (1 / 2) A v j q V1 Hj), (bits_nth D e b pol c HD HC M (1 / 2) A (T nodes v) j q W1 Hj), !B.
      rewrite (T3 nodes v j q Hj V1). destruct (pmem q L); [|apply xorb_nilpotent].
      assert (Hx : nth j v 0 < M). { rewrite Forall_forall in V2. apply V2. apply nth_In. rewrite V1. apply nth_error_Some. fold nodes. congruence. }
      unfold turn, M in *. destruct (Nat.ltb_spec (nth j v 0) h); [destruct (Nat.ltb_spec (nth j v 0 + h) h)|destruct (Nat.ltb_spec (nth j v 0 - h) h)]; try reflexivity; lia. }
    apply (not_both D e b pol c ch HD HC Hch M (1 / 2) A trial Hdec).
    - intros st Hst. specialize (Tr st Hst).
      assert (X : xorb (stab_parity (trial_bits M (1 / 2) c A v) st) (stab_parity (trial_bits M (1 / 2) c A (T nodes v)) st) = false).
      { rewrite <- Tr. unfold stab_parity. rewrite <- xsum_xorb. apply xsum_ext. intros q Hq. apply Hd. apply (stab_syn D e b pol c HD HC st q Hst Hq). }
      destruct (stab_parity (trial_bits M (1 / 2) c A v) st), (stab_parity (trial_bits M (1 / 2) c A (T nodes v)) st); try discriminate; reflexivity.
    - intros (s & S). apply Ng. exists s. intros q Hq. rewrite <- (Hd q Hq). apply S, Hq. }
  assert (Hle : count_if (fun v => negb (fails trial A v)) (all_draws M n) <= count_if (fun v => fails trial A (T nodes v)) (all_draws M n)).
  { apply count_le. intros v Hv K. apply Hne; [exact Hv|]. destruct (fails trial A v); [discriminate|reflexivity]. }
  rewrite Heq, count_compl, all_draws_len in Hle. lia.
Qed.
Print Assumptions C72_coin.

(* a toric code of size (3, 3, 3) with the Union-Find decoder: some error on two qubits is not corrected, and with
   p = 1/100 the failure rate is at least 3 (1/100)^2 (99/100)^(m-2) *)
Example C72_nonvacuous :
  let c := mk_code (3, 3, 3)%Z EcPrimal BdToric None in
  let ch := fun i j => hd (0, 0, 0)%Z (shared (sc_stabs c) i j) in
  (exists q1 q2 lib fuel bit', q1 <> q2 /\ In q1 (sc_syn c) /\ In q2 (sc_syn c) /\
     correct_uf c ch (fun _ => false) lib id_sched fuel (fun q => pmem q [q1; q2]) false = Ok (bit', false)) /\
  (exists trial, uniform_decoder (grid 1000) (1 / 100) c ch trial /\ forall A,
    let n := List.length (node_list (sc_graph c)) in
    (INR 3 * (INR 10 / INR 1000) ^ 2 * (1 - INR 10 / INR 1000) ^ (List.length (sc_syn c) - 2) <= INR (count_if (fails trial A) (all_draws 1000 n)) / INR (1000 ^ n)%nat)%R).
Proof.
  intros c ch. assert (HD : dims_ge2 (3, 3, 3)%Z) by (intros []; cbn; lia). assert (HC : is_surface_code (3, 3, 3)%Z EcPrimal BdToric None c) by apply mk_code_ok.
  assert (Hch : valid_choice (sc_stabs c) ch) by apply first_choice_valid.
  assert (H1 : (INR 1000 = 1000)%R) by (rewrite INR_IZR_INZ; reflexivity). assert (H2 : (INR 10 = 10)%R) by (rewrite INR_IZR_INZ; reflexivity).
  assert (HF : flips 1000 (1 / 100) = 10).
  { apply C71_draw_probability; [lia|lra|]. rewrite H1, H2. lra. }
  destruct (C54_contracts_met (3, 3, 3)%Z EcPrimal BdToric None c ch HD HC Hch) as (lib & L1 & L2).
  pose (E := sg_edges (sc_stabs c) (sc_bound c) ch).
  assert (Ha : In AX (logical_axes EcPrimal BdToric)) by (left; reflexivity).
  assert (Hmin : forall a', In a' (logical_axes EcPrimal BdToric) -> (get AX (3, 3, 3)%Z <= get a' (3, 3, 3)%Z)%Z) by (intros [] _; cbn; lia).
  clearbody c. split.
  - destruct (C72_sharp (3, 3, 3)%Z EcPrimal BdToric None c ch AX HD HC Hch Ha Hmin) as (L & N & I & Len & HX).
    destruct L as [|q1 [|q2 [|q3 L]]]; cbn [List.length] in Len; try (cbn in Len; lia).
    apply NoDup_cons_iff in N. destruct N as [N1 N2].
    assert (Hne : q1 <> q2) by (intros ->; apply N1; left; reflexivity).
    assert (Hi1 : In q1 (sc_syn c)) by (apply I; left; reflexivity). assert (Hi2 : In q2 (sc_syn c)) by (apply I; right; left; reflexivity).
    pose proof (surface_code_facts (3, 3, 3)%Z EcPrimal BdToric None c (ge2_ok _ _ HD) HC) as CF. pose proof (cf_syn_nd _ _ _ _ _ CF) as NS.
    assert (Hw : List.length (filter (fun q => pmem q [q1; q2]) (sc_syn c)) = 2).
    { change 2 with (List.length [q1; q2]). apply Permutation_length. apply NoDup_Permutation; [apply NoDup_filter, NS|constructor; [intros [K|[]]; congruence|constructor; [intros []|constructor]]|].
      intros q. rewrite filter_In, pmem_In. split; [tauto|]. intros [<-|[<-|[]]]; cbn; tauto. }
    destruct (HX (fun q => pmem q [q1; q2]) false) as [_ K].
    { intros q _ Hq. apply pmem_In in Hq. destruct Hq as [<-|[<-|[]]]; cbn; tauto. }
    { rewrite Hw. cbn. lia. }
    destruct (K lib id_sched (2 * List.length E + 2) L1 L2 id_sched_ok (le_n _)) as (bit' & Hb).
    exists q1, q2, lib, (2 * List.length E + 2), bit'. auto.
  - exists (iid_uf_trial (grid 1000) (1 / 100) c ch (fun _ => false) lib id_sched (2 * List.length E + 2)).
    assert (U : uniform_decoder (grid 1000) (1 / 100) c ch (iid_uf_trial (grid 1000) (1 / 100) c ch (fun _ => false) lib id_sched (2 * List.length E + 2))).
    { right. exists lib, id_sched, (2 * List.length E + 2). split; [exact L1|]. split; [exact L2|]. split; [exact id_sched_ok|]. split; [apply le_n|reflexivity]. }
    split; [exact U|]. intros A n.
    pose proof (C72_rate_at_least (3, 3, 3)%Z EcPrimal BdToric None c ch 1000 (1 / 100) A _ AX 2 HD HC Hch ltac:(lia) U Ha Hmin ltac:(cbn; lia)) as H. rewrite HF in H. exact H.
Qed.
