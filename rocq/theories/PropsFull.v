(* PropsFull.v: C67, simulations in which every trial assigns the decoder's weights from what the noise layer has left on the nodes. *)
From Coq Require Import String Reals Lra.
From Verif Require Import Base Lattice RhgModel RhgSpec RhgProofs RhgDegree SurfaceModel SurfaceSpec SurfaceProofs SurfaceIncidence SurfaceTheorems StabGraphModel Complex SurfaceComplex PropsSurface
  GkpModel OpsModel EgraphModel EgraphSpec CvModel CvSpec CvProofs CvNoise PropsCv CvSurface CvTrial MacroModel MacroSpec CvMacroModel CvMacroLists CvMacroSpec CvMacroProofs CvMacroTrial CvMacroReduce CvMacroSurface CvMacroCode CvMacroGauge PropsCvMacro CvMacroCount
  MwpmModel MwpmProofs MwpmSides MwpmInst PropsMwpm UfModel UfSpec UfInst PropsUf PropsUfDist.
From Verif Require Import SimModel SimTrial SimSpec SimProofs PropsSim PropsHomology PropsCount PropsGkp PropsGauge PropsCvDecode PropsCountCv PropsCountMacro PropsMacro PropsMacroValues WeightModel PropsWeight FullModel.
Open Scope Z_scope.

(* ---------- specification ---------- *)
(* the weight x of a qubit: 1, or the negative logarithm of its error probability, possibly multiplied and rounded *)
Definition weight_rule (expf : R -> R) (c : scode) (wo : wopts) (a : WeightModel.attrs) (q : point) (x : R) : Prop :=
  match o_method wo with
  | WUniform => x = 1%R
  | WBlueprint => exists err, blueprint_error expf c a wo q err /\ (0 < err <= 1 / 2)%R /\ (0 < x)%R /\
      if o_integer wo then exists n, x = IZR n /\ (Rabs (- o_mult wo * ln err - x) <= / 2)%R else x = (- ln err)%R
  | WOther => False
  end.
(* a set of qubits whose flips clear the syndrome of `noise` *)
Definition clears (c : scode) (noise : point -> bool) (F : list point) : Prop :=
  NoDup F /\ incl F (sc_syn c) /\ forall st, In st (sc_stabs c) -> stab_parity (fun q => xorb (noise q) (pmem q F)) st = false.
(* what correct() with "MWPM" did: m are the weights it has left behind, `after` the bits.  Every syndrome qubit has the weight of the
   rule; the recovery qs clears the syndrome; it is lightest, in the units fl of the shortest path and matching functions, with
   networkx, and with rustworkx if the weights are integers.  With rustworkx and other weights, if all of them are at least n, it is
   at most (n + 1) / n times as heavy as the lightest one.  (No periodic axis may have size two.) *)
Definition mwpm_outcome (fl : R -> Z) (u : Z) (expf : R -> R) (rp : Z -> Z) (c : scode) (wo : wopts) (big : Prop) (a : WeightModel.attrs) (m : wmem) (noise after : point -> bool) : Prop :=
  exists (x : point -> R) qs, (forall q, In q (sc_syn c) -> wm_node m q = Some (x q) /\ weight_rule expf c wo a q (x q)) /\
    clears c noise qs /\ (forall q, after q = xorb (noise q) (pmem q qs)) /\
    (big -> rp = nx_report \/ (rp = rx_report u /\ (o_method wo = WUniform \/ o_integer wo = true)) ->
       forall F, clears c noise F -> set_weight (fun q => fl (x q)) qs <= set_weight (fun q => fl (x q)) F) /\
    (big -> rp = rx_report u -> forall n, 1 <= n -> (forall q, In q (sc_syn c) -> (IZR n <= x q)%R) ->
       forall F, clears c noise F -> n * set_weight (fun q => fl (x q)) qs <= (n + 1) * set_weight (fun q => fl (x q)) F).
(* what correct() with "UF" did: the weight is -1 at the syndrome qubits with two p-squeezed neighbours and 2 at the others; if T are the
   former and twice the number of errors elsewhere plus |T| is smaller than the distance (boundary qubits of T weigh one half more), the
   encoded information is intact *)
Definition uf_outcome (D : dims) (e : ecx) (b : bdk) (c : scode) (a : WeightModel.attrs) (m : wmem) (noise after : point -> bool) : Prop :=
  (forall q, In q (sc_syn c) -> (two_p_neighbours c a q -> wm_node m q = Some (-1)%R) /\ (~ two_p_neighbours c a q -> wm_node m q = Some 2%R)) /\
  (exists qs, clears c noise qs /\ forall q, after q = xorb (noise q) (pmem q qs)) /\
  forall T, NoDup T -> (forall q, In q T <-> In q (sc_syn c) /\ two_p_neighbours c a q) ->
    (forall ax, get ax (documented_bnds e b) = BPeriodic -> 3 <= get ax D) ->
    (forall ax, In ax (logical_axes e b) ->
       2 * (2 * Z.of_nat (List.length (filter (fun q => noise q && negb (pmem q T)) (sc_syn c))) + Z.of_nat (List.length T)) +
       Z.of_nat (List.length (filter (fun q => pmem q (sc_bound c)) T)) < 2 * get ax D) ->
    gauge_pattern c after.

(* the options are documented ones, and the attributes they need are there *)
Definition options_fit (wo : wopts) : Prop :=
  o_method wo = WUniform \/ (o_method wo = WBlueprint /\ (o_integer wo = true -> (1 <= o_mult wo)%R) /\ (o_pre wo = false -> exists delta, o_delta wo = Some delta /\ (0 < delta)%R)).
Definition attrs_fit (c : scode) (wo : wopts) (a : WeightModel.attrs) : Prop :=
  o_method wo = WBlueprint ->
  (forall q v, In q (sc_syn c) -> edge_attr (sc_graph c) q v <> None -> WeightModel.a_state a v <> None) /\
  (forall q, In q (sc_syn c) -> if o_pre wo then exists p, a_ppc a q = Some p /\ (0 <= p <= 1)%R else a_hom a q <> None).

(* ---------- proofs ---------- *)
Section Code.
  Variables (D : dims) (e : ecx) (b : bdk) (pol : option (point * point -> Z)) (c : scode) (ch : nat -> nat -> point).
  Hypothesis H2 : dims_ge2 D.
  Hypothesis HC : is_surface_code D e b pol c.
  Hypothesis Hch : valid_choice (sc_stabs c) ch.
  Notation E := (sg_edges (sc_stabs c) (sc_bound c) ch).
  Notation big := (forall a, get a (documented_bnds e b) = BPeriodic -> 3 <= get a D).

  (* with periodic sizes of at least three, every syndrome qubit labels an edge *)
  Lemma syn_labels q : big -> In q (sc_syn c) -> exists u v, In (u, v, Some q) E.
  Proof.
    intros H3 Hq. pose proof (stab_count D e b pol c H2 HC q Hq) as Hc.
    assert (Hex : exists i, (i < List.length (sc_stabs c))%nat /\ In q (stab_of (sc_stabs c) i)).
    { destruct (filter (pmem q) (sc_stabs c)) as [|st l] eqn:Ef; [destruct (pmem q (sc_bound c)); discriminate|].
      assert (Hst : In st (filter (pmem q) (sc_stabs c))) by (rewrite Ef; left; reflexivity). apply filter_In in Hst. destruct Hst as [Hst Hqs].
      apply (In_nth _ _ []) in Hst. destruct Hst as (i & Hi & Ei). exists i. split; [exact Hi|]. unfold stab_of. rewrite Ei. apply pmem_In. exact Hqs. }
    destruct Hex as (i & Hi & Hqi).
    destruct (holders_count (sc_stabs c) (sc_bound c) (surface_wf D e b pol c H2 HC) q i Hi Hqi) as [[Hb _]|[_ Hh]].
    - exists (NStab i), (NPt q). apply in_E. right. left. exists i, q. auto 8.
    - assert (Hin : forall k, In k (holders (sc_stabs c) q) <-> (k < List.length (sc_stabs c))%nat /\ In q (stab_of (sc_stabs c) k)).
      { intros k. unfold holders. rewrite filter_In, in_seq, pmem_In. intuition lia. }
      assert (Hnd : NoDup (holders (sc_stabs c) q)) by (apply NoDup_filter, seq_NoDup).
      destruct (holders (sc_stabs c) q) as [|k1 [|k2 [|? ?]]] eqn:Eh; simpl in Hh; try lia.
      assert (Hne : k1 <> k2) by (apply NoDup_cons_iff in Hnd; destruct Hnd as [Hn _]; intros ->; apply Hn; left; reflexivity).
      assert (K : exists j k, (j < k < List.length (sc_stabs c))%nat /\ In q (stab_of (sc_stabs c) j) /\ In q (stab_of (sc_stabs c) k)).
      { pose proof (proj1 (Hin k1) (or_introl eq_refl)) as [A1 A2]. pose proof (proj1 (Hin k2) (or_intror (or_introl eq_refl))) as [B1 B2].
        destruct (Nat.lt_total k1 k2) as [K|[K|K]]; [exists k1, k2; auto|contradiction|exists k2, k1; auto]. }
      destruct K as (j & k & Hjk & Hj & Hk). assert (Hs : In q (shared (sc_stabs c) j k)) by (apply in_shared; auto).
      assert (Hsn : shared (sc_stabs c) j k <> []) by (intros F; rewrite F in Hs; destruct Hs).
      exists (NStab j), (NStab k). apply in_E. left. exists j, k. split; [reflexivity|]. split; [reflexivity|]. split; [exact Hjk|]. split; [exact Hsn|]. f_equal.
      pose proof (Hch j k Hjk Hsn) as Hc'. apply in_shared in Hc'.
      destruct (C08_stabilizer_graph_edges D e b pol c ch H2 HC Hch) as (_ & _ & _ & _ & _ & _ & _ & H).
      apply (H H3 j k q (ch j k)); try lia; [exact Hj|exact Hk|apply Hc'|apply Hc'].
  Qed.

  Lemma reads_label a wt q : spec_edges c ch a wt ->
    match edge_reads E wt q with Some x => a_weight a q = Some x /\ In q (sc_syn c) | None => (exists u v, In (u, v, Some q) E) -> a_weight a q = None end.
  Proof.
    intros Hs. unfold edge_reads. match goal with |- context [find ?f ?l] => destruct (find f l) as [[[u v] cv]|] eqn:Ef end.
    - apply find_some in Ef. destruct Ef as [Hi Hp]. cbn [snd] in Hp. destruct cv as [p|]; [|discriminate]. apply peqb_true in Hp. subst p.
      specialize (Hs u v (Some q) Hi). cbn in Hs. destruct Hs as [Hq Hw]. rewrite <- Hw. destruct (wt (u, v, Some q)) as [x|]; [split; [reflexivity|exact Hq]|reflexivity].
    - intros (u & v & Hi). pose proof (find_none _ _ Ef _ Hi) as K. cbn [snd] in K. rewrite peqb_refl in K. discriminate.
  Qed.

  Lemma assign_mwpm expf wo coords a wt : set_enum (sc_syn c) coords -> exp_like expf -> options_fit wo -> attrs_fit c wo a ->
    exists a' wt' (x : point -> R), assign_weights expf c ch DMWPM wo coords a wt = Ok (a', wt') /\ spec_edges c ch a' wt' /\
      forall q, In q (sc_syn c) -> a_weight a' q = Some (x q) /\ weight_rule expf c wo a q (x q).
  Proof.
    intros Hen Hexp [Hu|(Hb & Hm & Hd)] Hat; unfold weight_rule.
    - destruct (C23_uniform_mwpm D e b pol c ch expf wo coords a wt H2 HC Hch Hen Hu) as (a' & wt' & K1 & _ & K3 & K4). exists a', wt', (fun _ => 1%R).
      split; [exact K1|]. split; [exact K3|]. intros q Hq. rewrite Hu. split; [apply K4, Hq|reflexivity].
    - destruct (Hat Hb) as [A1 A2].
      destruct (C23_blueprint D e b pol c ch expf wo coords a wt H2 HC Hch Hen Hb Hexp A1 A2 Hd Hm) as (a' & wt' & K1 & _ & K3 & K4).
      exists a', wt', (fun q => match a_weight a' q with Some x => x | None => 0%R end). split; [exact K1|]. split; [exact K3|]. intros q Hq. rewrite Hb.
      destruct (K4 q Hq) as (err & x & B1 & B2 & B3 & B4 & B5). rewrite B3. split; [reflexivity|]. exists err. auto.
  Qed.

  Lemma clears_of bit bit' qs : NoDup qs -> incl qs (sc_syn c) -> (forall q, bit' q = xorb (bit q) (pmem q qs)) -> (forall st, In st (sc_stabs c) -> stab_parity bit' st = false) -> clears c bit qs.
  Proof.
    intros Hn Hi Hx Hs. split; [exact Hn|]. split; [exact Hi|]. intros st Hst. rewrite <- (Hs st Hst). unfold stab_parity. apply xsum_ext. intros q _. symmetry. apply Hx.
  Qed.

  Lemma nodup_exact bit bit' qs : incl qs (sc_syn c) -> (forall q, bit' q = xorb (bit q) (pmem q qs)) -> (forall st, In st (sc_stabs c) -> stab_parity bit' st = false) ->
    exists qs', clears c bit qs' /\ forall q, bit' q = xorb (bit q) (pmem q qs').
  Proof.
    intros Hi Hx Hs. assert (Hm : forall q, pmem q (nodup point_eq_dec qs) = pmem q qs).
    { intros q. destruct (pmem q qs) eqn:Ep; [apply pmem_In, nodup_In, pmem_In, Ep|]. apply pmem_false. rewrite nodup_In. apply pmem_false. exact Ep. }
    assert (Hx' : forall q, bit' q = xorb (bit q) (pmem q (nodup point_eq_dec qs))) by (intros q; rewrite Hm; apply Hx).
    exists (nodup point_eq_dec qs). split; [|exact Hx']. apply (clears_of bit bit'); [apply NoDup_nodup| |exact Hx'|exact Hs]. intros q Hq. apply nodup_In in Hq. apply Hi, Hq.
  Qed.

  Lemma set_weight_ext (w1 w2 : point -> Z) F : (forall q, In q F -> w1 q = w2 q) -> set_weight w1 F = set_weight w2 F.
  Proof. unfold set_weight. induction F as [|q F IH]; intros H; [reflexivity|]. cbn [fold_right]. rewrite (H q) by (left; reflexivity). rewrite IH; [reflexivity|]. intros; apply H; right; assumption. Qed.

  Lemma full_mwpm_ok fl expf rp wo coords o pick a m bit (u : Z) : set_enum (sc_syn c) coords -> exp_like expf -> options_fit wo -> attrs_fit c wo a ->
    (forall x y, (x <= y)%R -> fl x <= fl y) -> 0 < u -> (forall n, fl (IZR n) = u * n) ->
    (forall w, (forall q, 0 <= w q) -> oracle_ok E w (o w)) -> (forall mg, best_matching mg (pick mg)) ->
    exists m' after r, full_mwpm fl expf rp c ch wo coords o pick a m bit = Ok (m', (after, r)) /\
      mwpm_outcome fl u expf rp c wo big a m' bit after /\ (r = true <-> gauge_pattern c after).
  Proof.
    intros Hen Hexp Hop Hat Hmono Hu Hint Ho Hpk.
    assert (Hfl : forall x, (0 < x)%R -> 0 <= fl x).
    { intros x Hx. replace 0 with (fl (IZR 0)) by (rewrite Hint; lia). apply Hmono. lra. }
    destruct (assign_mwpm expf wo coords (with_weights a m) (wm_edge m) Hen Hexp Hop Hat) as (a' & wt' & x & Ea & He & Hx).
    set (w := fun q => match edge_reads E wt' q with Some r => fl r | None => 0 end).
    assert (Hpos : forall q, In q (sc_syn c) -> (0 < x q)%R).
    { intros q Hq. destruct (Hx q Hq) as [_ Hr]. unfold weight_rule in Hr. destruct (o_method wo); [rewrite Hr; lra|destruct Hr as (? & _ & _ & K & _); exact K|contradiction]. }
    assert (Hw : forall q, w q = 0 \/ (In q (sc_syn c) /\ w q = fl (x q))).
    { intros q. unfold w. pose proof (reads_label a' wt' q He) as K. destruct (edge_reads E wt' q) as [r|]; [|left; reflexivity]. right. destruct K as [K Hq]. split; [exact Hq|].
      destruct (Hx q Hq) as [K' _]. congruence. }
    assert (Hw0 : forall q, 0 <= w q) by (intros q; destruct (Hw q) as [-> | [Hq ->]]; [lia|apply Hfl, Hpos, Hq]).
    destruct (C14_mwpm_clears_syndrome D e b pol c ch rp w (o w) pick bit false H2 HC Hch (Ho w Hw0) Hpk) as (os & bit' & r & Ed & Q1 & Q2 & Q3 & Q4 & Q5).
    destruct (exact_mwpm D e b pol c ch H2 HC Hch rp w (o w) pick false bit (Ho w Hw0) Hpk) as (bit2 & r2 & qs2 & K1 & (K2 & K3) & K4 & K5). rewrite Q4 in K1. injection K1 as <- <-.
    assert (HR : exists R, os = map Some R).
    { clear - Q2. induction os as [|y os IH]; [exists []; reflexivity|]. destruct IH as (R & ->); [intros; apply Q2; right; assumption|].
      destruct (Q2 y (or_introl eq_refl)) as (q & -> & _). exists (q :: R). reflexivity. }
    destruct HR as (R & ->). assert (HRn : NoDup R) by (apply NoDup_map_inv in Q1; exact Q1).
    assert (HRs : incl R (sc_syn c)) by (intros q Hq; destruct (Q2 (Some q) (in_map _ _ _ Hq)) as (q' & [= ->] & K); exact K).
    assert (HRx : forall q, bit' q = xorb (bit q) (pmem q R)).
    { destruct (C13_recovery_flips_exactly (node_list (sc_graph c)) (map Some R) bit Q1) as [K _].
      destruct K as (bit3 & E3 & E4 & E5 & _). { intros y Hy. apply in_map_iff in Hy. destruct Hy as (q & <- & Hq). exists q. split; [reflexivity|]. apply (syn_in_nodes D e b pol c H2 HC), HRs, Hq. }
      rewrite Q3 in E3. injection E3 as <-. intros q. destruct (pmem q R) eqn:Em.
      - apply pmem_In in Em. rewrite (E4 q (in_map _ _ _ Em)). destruct (bit q); reflexivity.
      - rewrite xorb_false_r. apply E5. intros K. apply in_map_iff in K. destruct K as (q' & [= ->] & K). apply pmem_In in K. congruence. }
    eexists _, bit', r. split; [unfold full_mwpm; rewrite Ea; cbn [bind fst snd]; fold w; rewrite Q4; cbn [bind]; reflexivity|]. split; [|exact K5].
    exists x, R. cbn [wm_node]. split; [exact Hx|]. split; [apply (clears_of bit bit'); assumption|]. split; [exact HRx|].
    assert (Hwl : big -> forall q, In q (sc_syn c) -> w q = fl (x q)).
    { intros H3 q Hq. unfold w. pose proof (reads_label a' wt' q He) as K. destruct (Hx q Hq) as [K' _]. destruct (edge_reads E wt' q) as [y|]; [destruct K; congruence|]. rewrite (K (syn_labels q H3 Hq)) in K'. discriminate. }
    assert (HRu : forall R', map Some R = map Some R' -> R' = R) by (clear; induction R as [|y R IH]; intros [|z R'] H; cbn in H; try discriminate; [reflexivity|injection H as <- H; f_equal; apply IH; assumption]).
    split; cycle 1.
    { intros H3 Hrp n Hn Hxn F (F1 & F2 & F3). rewrite (set_weight_ext _ w R), (set_weight_ext _ w F) by (intros q Hq; symmetry; apply Hwl; auto). subst rp.
      destruct (C49_truncated_weights D e b pol c ch u n w (o w) pick bit (map Some R) H2 HC Hch (Ho w Hw0) Hpk Hu Hn) as (R' & ER & _ & _ & Hmin);
        [|apply (C49_condition D e b pol c ch w H2 HC Hch); left; exact H3|exact Ed|].
      - intros q. destruct (Hw q) as [-> | [Hq ->]]; [left; reflexivity|right]. rewrite <- Hint. apply Hmono, Hxn, Hq.
      - rewrite (HRu R' ER) in *. apply Hmin; assumption. }
    intros H3 Hrp F (F1 & F2 & F3). rewrite (set_weight_ext _ w R), (set_weight_ext _ w F) by (intros q Hq; symmetry; apply Hwl; auto).
    assert (Hex : exists k, exact k rp w).
    { destruct Hrp as [->|[-> Hi]]; [exists 1; apply nx_exact|]. exists u. apply rx_exact; [exact Hu|]. intros q. destruct (Hw q) as [-> | [Hq ->]]; [exists 0; lia|].
      destruct (Hx q Hq) as [_ Hr]. unfold weight_rule in Hr. destruct (o_method wo) eqn:Em.
      - rewrite Hr. exists 1. change 1%R with (IZR 1). apply Hint.
      - destruct Hi as [Hi|Hi]; [discriminate|]. rewrite Hi in Hr. destruct Hr as (? & _ & _ & _ & n & -> & _). exists n. apply Hint.
      - contradiction. }
    destruct Hex as (k & Hex).
    destruct (C49_mwpm_minimum_weight D e b pol c ch rp k w (o w) pick bit (map Some R) H2 HC Hch (Ho w Hw0) Hpk Hex Hw0) as (R' & ER & _ & _ & Hmin); [apply (C49_condition D e b pol c ch w H2 HC Hch); left; exact H3|exact Ed|].
    rewrite (HRu R' ER) in *. apply Hmin; assumption.
  Qed.

  Lemma full_uf_ok expf wo coords lib sch fuel a m bit : set_enum (sc_syn c) coords -> o_method wo = WUniform ->
    lib_ok E lib -> (forall v, NoDup (l_out lib v)) -> sched_ok sch -> (2 * List.length E + 2 <= fuel)%nat ->
    exists m' after r, full_uf expf c ch wo coords lib sch fuel a m bit = Ok (m', (after, r)) /\ uf_outcome D e b c a m' bit after /\ (r = true <-> gauge_pattern c after).
  Proof.
    intros Hen Hm Hlib Hnd Hsch Hf.
    destruct (C23_uniform_uf D e b pol c ch expf wo coords (with_weights a m) (wm_edge m) H2 HC Hch Hen Hm) as (a' & wt' & Ea & _ & He & Hx).
    set (er := fun q => match edge_reads E wt' q with Some r => if Req_EM_T r (-1) then true else false | None => false end).
    destruct (exact_uf D e b pol c ch H2 HC Hch er lib sch fuel false bit Hlib Hsch Hf) as (bit' & r & qs & K1 & (K2 & K3) & K4 & K5).
    eexists _, bit', r. split; [unfold full_uf; rewrite Ea; cbn [bind fst snd]; fold er; rewrite K1; cbn [bind]; reflexivity|]. split; [|exact K5].
    split; [exact Hx|]. split; [destruct (nodup_exact bit bit' qs K2 K3 K4) as (qs' & N1 & N2); exists qs'; auto|].
    intros T HT HTs H3 Hsmall. apply K5.
    assert (Her : forall q, In q (sc_syn c) -> er q = pmem q T).
    { intros q Hq. unfold er. pose proof (reads_label a' wt' q He) as K. destruct (Hx q Hq) as [X1 X2]. destruct (edge_reads E wt' q) as [y|].
      - destruct K as [K _]. destruct (Req_EM_T y (-1)) as [->|Hn].
        + symmetry. apply pmem_In, HTs. split; [exact Hq|]. destruct (in_dec point_eq_dec q T) as [Hi|Hi]; [apply HTs, Hi|]. assert (Hno : ~ two_p_neighbours c a q) by (intros Ht; apply Hi, HTs; auto).
          pose proof (X2 Hno) as X. rewrite K in X. injection X. lra.
        + symmetry. apply pmem_false. intros Hi. apply HTs in Hi. pose proof (X1 (proj2 Hi)) as X. congruence.
      - specialize (K (syn_labels q H3 Hq)). exfalso. destruct (in_dec point_eq_dec q T) as [Hi|Hi].
        + apply HTs in Hi. pose proof (X1 (proj2 Hi)). congruence.
        + assert (Hno : ~ two_p_neighbours c a q) by (intros Ht; apply Hi, HTs; auto). pose proof (X2 Hno). congruence. }
    destruct (C55_uf_erasures_and_errors D e b pol c ch er lib sch fuel bit false H2 HC Hch Hlib Hnd Hsch Hf H3) as (bit2 & K6); [|congruence].
    intros ax Hax. specialize (Hsmall ax Hax).
    assert (Hbs : incl (sc_bound c) (sc_syn c)).
    { destruct (C05_qubits_checked_once_or_twice D e b pol c H2 HC) as (_ & _ & Hb & _). exact Hb. }
    assert (S1 : filter (fun q => bit q && negb (er q)) (sc_syn c) = filter (fun q => bit q && negb (pmem q T)) (sc_syn c)) by (apply filter_ext_in; intros q Hq; rewrite (Her q Hq); reflexivity).
    assert (S2 : (List.length (filter er (sc_syn c)) <= List.length T)%nat).
    { apply NoDup_incl_length; [apply NoDup_filter, (cf_syn_nd _ _ _ _ _ (surface_code_facts D e b pol c (ge2_ok D _ H2) HC))|]. intros q Hq. apply filter_In in Hq. destruct Hq as [Hq Hr]. rewrite (Her q Hq) in Hr. apply pmem_In, Hr. }
    assert (S3 : (List.length (filter er (sc_bound c)) <= List.length (filter (fun q => pmem q (sc_bound c)) T))%nat).
    { apply NoDup_incl_length; [apply NoDup_filter, (bound_NoDup D e b pol c H2 HC)|]. intros q Hq. apply filter_In in Hq. destruct Hq as [Hq Hr]. rewrite (Her q (Hbs q Hq)) in Hr. apply filter_In. split; [apply pmem_In, Hr|apply pmem_In, Hq]. }
    rewrite S1. lia.
  Qed.
End Code.

(* ---------- running the trials, for any noise layer ---------- *)
Section Runs.
  Context {L Dr : Type} (noise : L -> Dr -> L * res unit) (look : L -> WeightModel.attrs) (bits : L -> point -> bool) (store : L -> (point -> bool) -> L).
  Variables (full : WeightModel.attrs -> wmem -> (point -> bool) -> res (wmem * ((point -> bool) * bool))) (ok : L -> Prop) (okd : Dr -> Prop).
  (* what apply_noise and correct() do in a trial *)
  Variables (made : Dr -> L -> L -> Prop) (good : L -> wmem -> (point -> bool) -> (point -> bool) -> Prop) (kept : (point -> bool) -> Prop).
  Hypothesis Hnoise : forall l d, ok l -> okd d -> exists l', noise l d = (l', Ok tt) /\ ok l' /\ made d l l'.
  Hypothesis Hfull : forall l l' d m, okd d -> ok l -> ok l' -> made d l l' -> exists m' after r, full (look l') m (bits l') = Ok (m', (after, r)) /\ good l' m' (bits l') after /\ (r = true <-> kept after).
  Hypothesis Hstore : forall l bit, ok l -> ok (store l bit).
  Definition full_fit (st : (L * wmem) * (nat -> Dr)) : Prop := ok (fst (fst st)) /\ forall k, okd (snd st k).
  (* the trial: layer before, layer after apply_noise, weights and bits afterwards *)
  Definition full_did (st : (L * wmem) * (nat -> Dr)) (t : nat) (info : (L * L) * (wmem * (point -> bool))) (r : bool) : Prop :=
    (made (snd st t) (fst (fst info)) (snd (fst info)) /\ good (snd (fst info)) (fst (snd info)) (bits (snd (fst info))) (snd (snd info))) /\ (r = true <-> kept (snd (snd info))).
  Lemma full_runs : forall n st, full_fit st -> exists outs st' info, runs (full_trial noise look bits store full) st outs st' /\ List.length outs = n /\
    forall t, (t < n)%nat -> full_did st t (info t) (nth t outs false).
  Proof.
    induction n as [|n IH]; intros [[l m] ds] [Hl Hds]; cbn [fst snd] in *.
    { exists [], ((l, m), ds), (fun _ => ((l, l), (m, fun _ => false))). split; [constructor|]. split; [reflexivity|]. intros; lia. }
    destruct (Hnoise l (ds 0%nat) Hl (Hds 0%nat)) as (l1 & E & Hl1 & Hm). destruct (Hfull l l1 (ds 0%nat) m (Hds 0%nat) Hl Hl1 Hm) as (m1 & after & r & K1 & K2 & K3).
    destruct (IH ((store l1 after, m1), fun k => ds (S k))) as (outs & st' & info & R1 & R2 & R3).
    { split; cbn [fst snd]; [apply Hstore, Hl1|intros k; apply Hds]. }
    exists (r :: outs), st', (fun t => match t with O => ((l, l1), (m1, after)) | S t' => info t' end). split; [|split].
    - apply (runs_cons (full_trial noise look bits store full) ((l, m), ds) r ((store l1 after, m1), fun k => ds (S k)) outs st'); [|exact R1]. unfold full_trial. cbn [fst snd]. rewrite E, K1. reflexivity.
    - cbn [List.length]. lia.
    - intros [|t] Ht; cbn [nth].
      + unfold full_did. cbn [fst snd]. auto.
      + apply (R3 t). lia.
  Qed.

  (* alone, and in an MPI world in which trial i is run i / size of rank i mod size *)
  Lemma full_counts l0 m0 trials : ok l0 -> 0 <= trials ->
    (forall ds, (forall k, okd (ds k)) -> exists st' errors (before lay : Z -> L) (mem : Z -> wmem) (after : Z -> point -> bool) (bad : list Z),
      mc_single (full_trial noise look bits store full) trials 1 0 ((l0, m0), ds) = (st', Ok errors) /\ NoDup bad /\ (forall i, In i bad -> 0 <= i < trials) /\ errors = Z.of_nat (List.length bad) /\
      forall i, 0 <= i < trials -> made (ds (Z.to_nat i)) (before i) (lay i) /\ good (lay i) (mem i) (bits (lay i)) (after i) /\ (In i bad <-> ~ kept (after i))) /\
    (forall dss, dss <> [] -> Forall (fun ds => forall k, okd (ds k)) dss -> let size := Z.of_nat (List.length dss) in
      exists errors (before lay : Z -> L) (mem : Z -> wmem) (after : Z -> point -> bool) (bad : list Z),
      mc_mpi (full_trial noise look bits store full) trials (map (fun ds => ((l0, m0), ds)) dss) 0 = Some (Ok errors) /\ NoDup bad /\ (forall i, In i bad -> 0 <= i < trials) /\ errors = Z.of_nat (List.length bad) /\
      forall i, 0 <= i < trials -> exists ds, nth_error dss (Z.to_nat (i mod size)) = Some ds /\
        made (ds (Z.to_nat (i / size))) (before i) (lay i) /\ good (lay i) (mem i) (bits (lay i)) (after i) /\ (In i bad <-> ~ kept (after i))).
  Proof.
    intros H0 Ht. split.
    - intros ds Hds. destruct (gen_serial _ full_did full_fit full_runs trials ((l0, m0), ds) Ht (conj H0 Hds)) as (st' & errors & info & bad & G1 & G2 & G3 & G4 & G5).
      exists st', errors, (fun i => fst (fst (info i))), (fun i => snd (fst (info i))), (fun i => fst (snd (info i))), (fun i => snd (snd (info i))), bad.
      split; [exact G1|]. split; [exact G2|]. split; [exact G3|]. split; [exact G4|]. intros i Hi. destruct (G5 i Hi) as (r & [[O1 O2] O3] & O4). cbn [fst snd] in *.
      split; [exact O1|]. split; [exact O2|]. rewrite O4, <- O3. destruct r; split; [discriminate|intros H; contradiction|discriminate|reflexivity].
    - intros dss Hne Hds size. set (ss := map (fun ds => ((l0, m0), ds)) dss).
      assert (Hss : ss <> []) by (unfold ss; destruct dss; [contradiction|discriminate]). assert (Hlen : List.length ss = List.length dss) by apply map_length.
      destruct (hd_error dss) as [d0|] eqn:Eh; [|destruct dss; [contradiction|discriminate]].
      assert (Hfit : Forall full_fit ss).
      { apply Forall_forall. intros st Hst. apply in_map_iff in Hst. destruct Hst as (ds & <- & Hi). rewrite Forall_forall in Hds. split; cbn [fst snd]; [exact H0|apply Hds, Hi]. }
      destruct (gen_mpi (full_trial noise look bits store full) full_did full_fit ((l0, l0), (m0, fun _ => false)) full_runs trials ss ((l0, m0), d0) Ht Hss Hfit) as (errors & info & bad & G1 & G2 & G3 & G4 & G5).
      exists errors, (fun i => fst (fst (info i))), (fun i => snd (fst (info i))), (fun i => fst (snd (info i))), (fun i => snd (snd (info i))), bad.
      split; [exact G1|]. split; [exact G2|]. split; [exact G3|]. split; [exact G4|]. intros i Hi. destruct (G5 i Hi) as (r & [[O1 O2] O3] & O4). rewrite Hlen in O1. fold size in O1.
      assert (Hlt : (Z.to_nat (i mod size) < List.length dss)%nat).
      { assert (0 < size) by (unfold size; destruct dss; [contradiction|cbn [List.length]; lia]). pose proof (Z.mod_pos_bound i size ltac:(lia)). lia. }
      destruct (nth_error dss (Z.to_nat (i mod size))) as [ds|] eqn:En; [|apply nth_error_None in En; lia]. exists ds. split; [reflexivity|].
      assert (Es : nth (Z.to_nat (i mod size)) ss ((l0, m0), d0) = ((l0, m0), ds)).
      { apply nth_error_nth. unfold ss. rewrite nth_error_map, En. reflexivity. }
      rewrite Es in O1. cbn [fst snd] in *. split; [exact O1|]. split; [exact O2|]. rewrite O4, <- O3. destruct r; split; [discriminate|intros H; contradiction|discriminate|reflexivity].
  Qed.
End Runs.

(* what the decoder reads on the nodes: which states are "p", where the state is missing, and the two numbers *)
Definition attrs_read (isp none : point -> Prop) (hom ppc : point -> option R) (a : WeightModel.attrs) : Prop :=
  forall q, (WeightModel.a_state a q = Some Lp <-> isp q) /\ (WeightModel.a_state a q = None <-> none q) /\ a_hom a q = hom q /\ a_ppc a q = ppc q.
Lemma as_label_p s : as_label s = Lp <-> s = "p"%string.
Proof. unfold as_label. destruct (String.eqb_spec s "p"); [tauto|]. destruct (String.eqb s "GKP"); split; intros H; (discriminate || contradiction). Qed.
Lemma label_read (o : option string) : (option_map as_label o = Some Lp <-> o = Some "p"%string) /\ (option_map as_label o = None <-> o = None).
Proof.
  destruct o as [s|]; cbn [option_map]; [|split; split; congruence]. split; [|split; discriminate].
  split; [intros [= H]; apply as_label_p in H; rewrite H; reflexivity|intros [= ->]; f_equal; apply as_label_p; reflexivity].
Qed.

(* ---------- CVLayer ---------- *)
(* apply_noise of the layer v with the random values d: labels, homodyne outcomes and bits *)
Definition cv_made (c : scode) (v : cv) (d : draws) (lay : cv) : Prop :=
  attrs_read (fun q => CvModel.a_state (v_attr lay q) = Some "p"%string) (fun q => CvModel.a_state (v_attr lay q) = None) (fun q => a_homp (v_attr lay q)) (fun _ => None) (cv_look lay) /\
  (forall i q, node_at v i q -> CvModel.a_state (v_attr lay q) = Some (if memn i (trial_p v d) then "p"%string else "GKP"%string)) /\
  exists sq sp, std_spec v (trial_p v d) (inds_of lay "GKP") sq sp /\ forall i q, In q (sc_syn c) -> node_at v i q ->
    exists h, h = (sp i * d_z d (v_N v + i)%nat + Rsum (fun j => v_adj v i j * (sq j * d_z d j)) (v_N v))%R /\ a_homp (v_attr lay q) = Some h /\ cv_bits lay q = Z.odd (v_trans v h).

(* the two decoders; L is the way in which the noise layer fills the attributes *)
Definition decoder_does {L : Type} (D : dims) (e : ecx) (b : bdk) (c : scode) (ch : nat -> nat -> point) (look : L -> WeightModel.attrs) (pre : option bool)
    (full : WeightModel.attrs -> wmem -> (point -> bool) -> res (wmem * ((point -> bool) * bool))) (good : L -> wmem -> (point -> bool) -> (point -> bool) -> Prop) : Prop :=
  let E := sg_edges (sc_stabs c) (sc_bound c) ch in
  (* "MWPM": documented options; a rounding fl of weights; shortest paths and matchings as their documentation says *)
  (exists fl u expf rp wo coords o pick, set_enum (sc_syn c) coords /\ exp_like expf /\ options_fit wo /\ (o_method wo = WBlueprint -> pre = Some (o_pre wo)) /\
     (forall x y, (x <= y)%R -> fl x <= fl y) /\ 0 < u /\ (forall n, fl (IZR n) = u * n) /\
     (forall w, (forall q, 0 <= w q) -> oracle_ok E w (o w)) /\ (forall mg, best_matching mg (pick mg)) /\
     full = full_mwpm fl expf rp c ch wo coords o pick /\
     good = fun l m noise after => mwpm_outcome fl u expf rp c wo (forall a, get a (documented_bnds e b) = BPeriodic -> 3 <= get a D) (look l) m noise after) \/
  (* "UF" *)
  (exists expf wo coords lib sch fuel, set_enum (sc_syn c) coords /\ o_method wo = WUniform /\ lib_ok E lib /\ (forall v, NoDup (l_out lib v)) /\ sched_ok sch /\ (2 * List.length E + 2 <= fuel)%nat /\
     full = full_uf expf c ch wo coords lib sch fuel /\ good = fun l m noise after => uf_outcome D e b c (look l) m noise after).

Lemma decoder_ok {L : Type} D e b pol c ch (look : L -> WeightModel.attrs) pre full good : dims_ge2 D -> is_surface_code D e b pol c -> valid_choice (sc_stabs c) ch ->
  decoder_does D e b c ch look pre full good ->
  forall l m bit, match pre with None => True | Some pc =>
      (forall q v, In q (sc_syn c) -> edge_attr (sc_graph c) q v <> None -> WeightModel.a_state (look l) v <> None) /\
      (forall q, In q (sc_syn c) -> if pc then exists p, a_ppc (look l) q = Some p /\ (0 <= p <= 1)%R else a_hom (look l) q <> None) end ->
    exists m' after r, full (look l) m bit = Ok (m', (after, r)) /\ good l m' bit after /\ (r = true <-> gauge_pattern c after).
Proof.
  intros HD HC Hch Hdec l m bit H1.
  destruct Hdec as [(fl & u & expf & rp & wo & coords & o & pick & A1 & A2 & A3 & A4 & A5 & A6 & A7 & A8 & A9 & -> & ->)|(expf & wo & coords & lib & sch & fuel & A1 & A2 & A3 & A4 & A5 & A6 & -> & ->)].
  - apply (full_mwpm_ok D e b pol c ch HD HC Hch fl expf rp wo coords o pick (look l) m bit u A1 A2 A3); try assumption. intros Hb. rewrite (A4 Hb) in H1. exact H1.
  - apply (full_uf_ok D e b pol c ch HD HC Hch expf wo coords lib sch fuel (look l) m bit A1 A2 A3 A4 A5 A6).
Qed.

(* C67.  A simulation with a CVLayer on a surface code runs to its end, alone or in an MPI world.  In every trial the weights of all
   syndrome qubits, and nothing else, come from the labels and homodyne outcomes of that trial; the recovery clears the syndrome and is
   lightest (MWPM), erased qubits are those with two p-squeezed neighbours (UF); and the number of errors reported is the number of
   trials whose remaining bits act on the encoded information.  m0 are weights left over from earlier calls. *)
Theorem C67_cv_simulation : forall D e b pol c ch inds a0 perf delta states p_swap order trans full good,
  dims_ge2 D -> is_surface_code D e b pol c -> valid_choice (sc_stabs c) ch -> code_inds c inds ->
  match perf with Some l => incl l (node_list (sc_graph c)) | None => True end ->
  (0 < delta)%R -> documented_states (List.length (node_list (sc_graph c))) states p_swap -> order = None \/ order = Some "initial"%string ->
  decoder_does D e b c ch cv_look (Some false) full good ->
  let trial := full_trial apply_noise cv_look cv_bits cv_store full in
  exists g v, cv_init (code_egraph c) a0 perf (Some (inds, sc_syn c)) delta states p_swap order trans = (g, Ok v) /\
    forall trials m0, 0 <= trials ->
    (forall ds, (forall k, draws_ok (v_N v) (ds k)) ->
      exists st' errors (lay : Z -> cv) (mem : Z -> wmem) (after : Z -> point -> bool) (bad : list Z),
      mc_single trial trials 1 0 ((v, m0), ds) = (st', Ok errors) /\ NoDup bad /\ (forall i, In i bad -> 0 <= i < trials) /\ errors = Z.of_nat (List.length bad) /\
      forall i, 0 <= i < trials -> cv_made c v (ds (Z.to_nat i)) (lay i) /\ good (lay i) (mem i) (cv_bits (lay i)) (after i) /\ (In i bad <-> ~ gauge_pattern c (after i))) /\
    (forall dss, dss <> [] -> Forall (fun ds => forall k, draws_ok (v_N v) (ds k)) dss -> let size := Z.of_nat (List.length dss) in
      exists errors (lay : Z -> cv) (mem : Z -> wmem) (after : Z -> point -> bool) (bad : list Z),
      mc_mpi trial trials (map (fun ds => ((v, m0), ds)) dss) 0 = Some (Ok errors) /\ NoDup bad /\ (forall i, In i bad -> 0 <= i < trials) /\ errors = Z.of_nat (List.length bad) /\
      forall i, 0 <= i < trials -> exists ds, nth_error dss (Z.to_nat (i mod size)) = Some ds /\
        cv_made c v (ds (Z.to_nat (i / size))) (lay i) /\ good (lay i) (mem i) (cv_bits (lay i)) (after i) /\ (In i bad <-> ~ gauge_pattern c (after i))).
Proof.
  intros D e b pol c ch inds a0 perf delta states p_swap order trans full good HD HC Hch Hi Hp Hde Hst Hor Hdec trial.
  assert (Hs : p_swap <> None -> forall s, states = Some s -> exists x, dget String.eqb s "p"%string = Some x /\ x_l x = []).
  { intros Hn s Es. destruct p_swap as [x|]; [|congruence]. destruct Hst as (_ & [H|[H|H]] & Hne); [congruence|congruence|]. rewrite H in Es. injection Es as <-. exists (arr []). split; reflexivity. }
  destruct (code_cv_init D e b pol c HD HC a0 perf delta states p_swap order trans inds Hi Hp Hs) as (g & v & E' & H1 & H2 & H3 & H4 & Hnode & H5 & H6 & H7 & H8 & H9).
  exists g, v. split; [exact E'|].
  assert (Hx : exists l, v_states v = [("p"%string, arr l)] /\ forall i, In i l -> (i < v_N v)%nat).
  { rewrite H9, H3. unfold documented_states in Hst. destruct p_swap as [x|].
    - destruct Hst as (_ & [->|[->| ->]] & _); exists []; (split; [reflexivity|intros i []]).
    - destruct Hst as [->|[->|(l & -> & Hl)]]; [exists []; split; [reflexivity|intros i []]|exists []; split; [reflexivity|intros i []]|exists l; split; [reflexivity|exact Hl]]. }
  assert (HF : fresh_layer v).
  { split; [exact H1|]. split; [destruct Hx as (l & Hl & Hl2); exists (arr l); split; [exact Hl|exact Hl2]|]. rewrite H6. unfold documented_states in Hst. destruct p_swap; [apply Hst|exact I]. }
  assert (Ho : v_order v = "initial"%string) by (rewrite H7; destruct Hor as [-> | ->]; reflexivity).
  assert (Ha : forall x, v_states v = [("p"%string, x)] -> x_arr x = true) by (intros x Ex; destruct Hx as (l & Hl & _); rewrite Hl in Ex; injection Ex as <-; reflexivity).
  assert (Hdn : v_delta v <> 0%R) by lra.
  assert (Hnoise : forall l d, live v l -> draws_ok (v_N v) d -> exists l', apply_noise l d = (l', Ok tt) /\ live v l' /\ cv_made c v d l').
  { intros l d Hl Hd. destruct (apply_noise_ok v l d inds (sc_syn c) HF Hl Hd H2 Ho Hdn Ha) as (v1 & sq & sp & En & HL1 & P & Q1 & Q2 & Std & Hh).
    exists v1. split; [exact En|]. split; [exact HL1|]. split; [intros q; cbn [cv_look WeightModel.a_state a_hom a_ppc]; destruct (label_read (CvModel.a_state (v_attr v1 q))); auto|]. split.
    - intros i q Hn. destruct (populate_ok v l d HF Hl Hd) as (v2 & x & G & Ep & HL2 & Es & Ex & _ & _ & _ & _ & Hlab). unfold apply_noise in En. rewrite Ep in En. cbn [andthen] in En.
      pose proof (after_populate_kept v2 d) as K. rewrite En in K. cbn [fst] in K. destruct K as (_ & _ & K). rewrite K, <- Ex. apply Hlab, Hn.
    - exists sq, sp. rewrite <- P. split; [exact Std|]. intros i q Hq Hn. destruct (Hh i q Hq Hn) as (h & K1 & K2 & K3). exists h. split; [exact K3|]. split; [exact K1|]. unfold cv_bits. rewrite K2. reflexivity. }
  intros trials m0 Ht.
  destruct (full_counts apply_noise cv_look cv_bits cv_store full (live v) (draws_ok (v_N v)) (fun d _ l' => cv_made c v d l') good (gauge_pattern c) Hnoise) with (l0 := v) (m0 := m0) (trials := trials) as [S1 S2].
  - intros l l' d m Hd Hl Hl' [_ [M1 (sq & sp & _ & M2)]]. apply (decoder_ok D e b pol c ch cv_look (Some false) full good HD HC Hch Hdec). split.
    + intros q u Hq Hu. cbn [cv_look WeightModel.a_state]. destruct (code_lattice D e b pol c HC) as (vs & Hvs & EG). assert (Hun : In u (node_list (sc_graph c))).
      { rewrite EG in *. eapply rhg_ends; [apply ge2_ok, HD|exact Hvs|]. rewrite edge_attr_sym. exact Hu. }
      apply Hnode in Hun. destruct Hun as (i & Hn). rewrite (M1 i u Hn). discriminate.
    + intros q Hq. cbn [cv_look a_hom]. destruct (proj2 (proj2 H2) q Hq) as (i & _ & Hn). destruct (M2 i q Hq Hn) as (h & _ & -> & _). discriminate.
  - intros l bit Hl. apply (live_kept v l _ Hl), cv_store_same.
  - apply fresh_live.
  - exact Ht.
  - split.
    + intros ds Hds. destruct (S1 ds Hds) as (st' & errors & before & lay & mem & after & bad & K). exists st', errors, lay, mem, after, bad. exact K.
    + intros dss Hne Hds size. destruct (S2 dss Hne Hds) as (errors & before & lay & mem & after & bad & K). exists errors, lay, mem, after, bad. exact K.
Qed.
Print Assumptions C67_cv_simulation.

(* ---------- CVMacroLayer ---------- *)
Definition macro_made (expf : R -> R) (delta : R) (c : scode) (d : draws) (before lay : cvm) : Prop :=
  attrs_read (fun q => r_state (w_red lay q) = Some "p"%string) (fun q => r_state (w_red lay q) = None) (fun _ => None) (fun q => r_prob (w_red lay q)) (macro_look lay) /\
  apply_noise_macro expf before d = (lay, Ok tt) /\ forall v, In v (node_list (sc_graph c)) -> reduced_node expf delta lay v.

(* C67, macronode noise: the weights come from the labels and the error probabilities of the reduction. *)
Theorem C67_macro_simulation : forall D e b pol c ch es perf states p_swap a0 r0 delta trans expf full good,
  macro_input D e b pol c es perf states p_swap -> (0 <= delta)%R -> valid_choice (sc_stabs c) ch ->
  decoder_does D e b c ch macro_look (Some true) full good ->
  let trial := full_trial (apply_noise_macro expf) macro_look macro_bits macro_store full in
  exists w, macro_layer e b c es perf a0 r0 delta None states p_swap trans = Ok w /\
    forall trials m0, 0 <= trials ->
    (forall ds, (forall k, draws_ok (v_N (w_cv w)) (ds k)) ->
      exists st' errors (before lay : Z -> cvm) (mem : Z -> wmem) (after : Z -> point -> bool) (bad : list Z),
      mc_single trial trials 1 0 ((w, m0), ds) = (st', Ok errors) /\ NoDup bad /\ (forall i, In i bad -> 0 <= i < trials) /\ errors = Z.of_nat (List.length bad) /\
      forall i, 0 <= i < trials -> macro_made expf delta c (ds (Z.to_nat i)) (before i) (lay i) /\ good (lay i) (mem i) (macro_bits (lay i)) (after i) /\ (In i bad <-> ~ gauge_pattern c (after i))) /\
    (forall dss, dss <> [] -> Forall (fun ds => forall k, draws_ok (v_N (w_cv w)) (ds k)) dss -> let size := Z.of_nat (List.length dss) in
      exists errors (before lay : Z -> cvm) (mem : Z -> wmem) (after : Z -> point -> bool) (bad : list Z),
      mc_mpi trial trials (map (fun ds => ((w, m0), ds)) dss) 0 = Some (Ok errors) /\ NoDup bad /\ (forall i, In i bad -> 0 <= i < trials) /\ errors = Z.of_nat (List.length bad) /\
      forall i, 0 <= i < trials -> exists ds, nth_error dss (Z.to_nat (i mod size)) = Some ds /\
        macro_made expf delta c (ds (Z.to_nat (i / size))) (before i) (lay i) /\ good (lay i) (mem i) (macro_bits (lay i)) (after i) /\ (In i bad <-> ~ gauge_pattern c (after i))).
Proof.
  intros D e b pol c ch es perf states p_swap a0 r0 delta trans expf full good HI Hde Hch Hdec trial. pose proof HI as (HD & HC & _).
  destruct (macro_values_step D e b pol c es perf states p_swap a0 r0 delta trans expf HI) as (m & w & Ew & HF & HL & Ht).
  exists w. split; [exact Ew|]. intros trials m0 Htr.
  apply (full_counts (apply_noise_macro expf) macro_look macro_bits macro_store full (fun l => macro_live (verts m) (mic_of m) (nbi_of m) (wt_of m) w l /\ same_frame w l) (draws_ok (v_N (w_cv w)))
    (macro_made expf delta c) good (gauge_pattern c)).
  - intros l d [L1 L2] Hd. destruct (Ht l d L1 L2 Hd) as (w' & E & K1 & K2 & K3). exists w'. split; [exact E|]. split; [split; assumption|].
    split; [intros q; cbn [macro_look WeightModel.a_state a_hom a_ppc]; destruct (label_read (r_state (w_red w' q))); auto|]. split; assumption.
  - intros l l' d m1 Hd _ _ [_ [_ M]]. apply (decoder_ok D e b pol c ch macro_look (Some true) full good HD HC Hch Hdec). split.
    + intros q u Hq Hu. destruct (code_lattice D e b pol c HC) as (vs & Hvs & EG). assert (Hun : In u (node_list (sc_graph c))).
      { rewrite EG in *. eapply rhg_ends; [apply ge2_ok, HD|exact Hvs|]. rewrite edge_attr_sym. exact Hu. }
      destruct (M u Hun) as (l0 & x0 & h0 & ys & z & _ & _ & _ & _ & _ & _ & _ & _ & S1 & S2 & _). cbn [macro_look WeightModel.a_state]. rewrite S2. destruct S1 as [-> | ->]; discriminate.
    + intros q Hq. destruct (M q (syn_in_nodes D e b pol c HD HC q Hq)) as (l0 & x0 & h0 & ys & z & _ & _ & _ & _ & _ & _ & _ & _ & _ & _ & _ & S3). cbn [macro_look a_ppc]. rewrite S3. eexists. split; [reflexivity|].
      destruct (Rlt_dec 0 delta); [|lra]. match goal with |- (_ <= Rmax ?x 0 <= _)%R => assert (Hx : (x <= 1 / 2)%R) by apply Rmin_r; pose proof (Rmax_r x 0); assert ((Rmax x 0 <= 1)%R) by (apply Rmax_lub; lra) end. lra.
  - intros l bit [L1 L2]. split; [apply store_live, L1|]. eapply frame_trans; [exact L2|apply store_frame].
  - split; [exact HL|apply frame_refl].
  - exact Htr.
Qed.
Print Assumptions C67_macro_simulation.

(* ---------- IidNoise ---------- *)
(* apply_noise with the numbers d: node number k is flipped if d k < p; the other attributes are those of A0 *)
Definition iid_made (p : R) (c : scode) (A0 : node_attrs) (d : nat -> R) (A : node_attrs) : Prop :=
  attrs_read (fun q => A0 q "state"%string = Some (VStr "p")) (fun q => A0 q "state"%string = None) (fun _ => None) (fun _ => None) (iid_look A) /\
  (forall k q, nth_error (node_list (sc_graph c)) k = Some q -> (SimModel.bits_of A q = true <-> (d k < p)%R)) /\
  (forall q key, key <> "bit_val"%string -> A q key = A0 q key).

Lemma numbers_after d : forall k j, after numbers d k j = d (k + j)%nat.
Proof. induction k as [|k IH]; intros j; [reflexivity|]. change (after numbers d (S k)) with (snd (numbers (after numbers d k))). cbn [numbers snd]. rewrite IH. f_equal. lia. Qed.
Lemma numbers_draw d k : draw numbers d k = d k.
Proof. unfold draw. cbn [numbers fst]. rewrite numbers_after. f_equal. lia. Qed.

(* C67, independent errors: uniform weights.  Qubits are erased (Union-Find) only if "state" was "p" on two neighbours before the
   simulation. *)
Theorem C67_iid_simulation : forall D e b pol c ch p A0 full good,
  dims_ge2 D -> is_surface_code D e b pol c -> valid_choice (sc_stabs c) ch ->
  decoder_does D e b c ch iid_look None full good ->
  let nodes := node_list (sc_graph c) in
  let trial := full_trial (iid_noise p c) iid_look SimModel.bits_of (store_bits nodes) full in
  forall trials m0, 0 <= trials ->
    (forall ds : nat -> nat -> R,
      exists st' errors (lay : Z -> node_attrs) (mem : Z -> wmem) (after : Z -> point -> bool) (bad : list Z),
      mc_single trial trials 1 0 ((A0, m0), ds) = (st', Ok errors) /\ NoDup bad /\ (forall i, In i bad -> 0 <= i < trials) /\ errors = Z.of_nat (List.length bad) /\
      forall i, 0 <= i < trials -> iid_made p c A0 (ds (Z.to_nat i)) (lay i) /\ good (lay i) (mem i) (SimModel.bits_of (lay i)) (after i) /\ (In i bad <-> ~ gauge_pattern c (after i))) /\
    (forall dss : list (nat -> nat -> R), dss <> [] -> let size := Z.of_nat (List.length dss) in
      exists errors (lay : Z -> node_attrs) (mem : Z -> wmem) (after : Z -> point -> bool) (bad : list Z),
      mc_mpi trial trials (map (fun ds => ((A0, m0), ds)) dss) 0 = Some (Ok errors) /\ NoDup bad /\ (forall i, In i bad -> 0 <= i < trials) /\ errors = Z.of_nat (List.length bad) /\
      forall i, 0 <= i < trials -> exists ds, nth_error dss (Z.to_nat (i mod size)) = Some ds /\
        iid_made p c A0 (ds (Z.to_nat (i / size))) (lay i) /\ good (lay i) (mem i) (SimModel.bits_of (lay i)) (after i) /\ (In i bad <-> ~ gauge_pattern c (after i))).
Proof.
  intros D e b pol c ch p A0 full good HD HC Hch Hdec nodes trial trials m0 Ht.
  set (ok := fun A : node_attrs => forall q key, key <> "bit_val"%string -> A q key = A0 q key).
  assert (Hnoise : forall A d, ok A -> True -> exists A', iid_noise p c A d = (A', Ok tt) /\ ok A' /\ iid_made p c A0 d A').
  { intros A d HA _. destruct (iid_apply_spec numbers p nodes A d (code_nodes_NoDup D e b pol c HD HC)) as (_ & K2 & K3).
    assert (Hk : ok (fst (iid_apply numbers p nodes A d))) by (intros q key Hkey; rewrite (K3 q key) by tauto; apply HA, Hkey).
    exists (fst (iid_apply numbers p nodes A d)). split; [reflexivity|]. split; [exact Hk|]. split; [|split; [clear Hk|exact Hk]].
    { intros q. cbn [iid_look WeightModel.a_state a_hom a_ppc]. rewrite (Hk q "state"%string) by discriminate. destruct (A0 q "state"%string) as [[]|]; (split; [|split; [split; congruence|split; reflexivity]]);
      split; intros H; try discriminate; injection H; intros K; [apply as_label_p in K; rewrite K; reflexivity|rewrite K; reflexivity]. }
    intros k q Hq. unfold SimModel.bits_of. rewrite (K2 k q Hq), numbers_draw. destruct (Rlt_dec (d k) p); [tauto|]. split; [discriminate|contradiction]. }
  destruct (full_counts (iid_noise p c) iid_look SimModel.bits_of (store_bits nodes) full ok (fun _ => True) (fun d _ l' => iid_made p c A0 d l') good (gauge_pattern c) Hnoise) with (l0 := A0) (m0 := m0) (trials := trials) as [S1 S2].
  - intros l l' d m _ _ _ _. apply (decoder_ok D e b pol c ch iid_look None full good HD HC Hch Hdec). exact I.
  - intros A bit HA q key Hkey. unfold store_bits. destruct (String.eqb_spec key "bit_val"); [contradiction|]. rewrite andb_false_r. apply HA, Hkey.
  - intros q key _. reflexivity.
  - exact Ht.
  - split.
    + intros ds. destruct (S1 ds (fun _ => I)) as (st' & errors & before & lay & mem & after & bad & K). exists st', errors, lay, mem, after, bad. exact K.
    + intros dss Hne size. destruct (S2 dss Hne) as (errors & before & lay & mem & after & bad & K); [apply Forall_forall; auto|]. exists errors, lay, mem, after, bad. exact K.
Qed.
Print Assumptions C67_iid_simulation.

(* ---------- options that do not fit the layer ---------- *)
(* Blueprint weights with the wrong value of prob_precomputed: as soon as one syndrome qubit has fewer than two p-squeezed neighbours, the
   trial raises an exception (KeyError, or TypeError when delta is missing), with a CVLayer (no p_phase_cond) and with a CVMacroLayer (no
   hom_val_p on the nodes of the code). *)
Lemma blueprint_raises D e b pol c ch expf wo coords a wt q : dims_ge2 D -> is_surface_code D e b pol c -> set_enum (sc_syn c) coords -> o_method wo = WBlueprint ->
  (if o_pre wo then a_ppc a q = None else a_hom a q = None) -> In q (sc_syn c) -> ~ two_p_neighbours c a q ->
  forall x, assign_weights expf c ch DMWPM wo coords a wt <> Ok x.
Proof.
  intros HD HC [_ Hen] Hb Hno Hq Hp x H. unfold assign_weights, assign_nodes in H. rewrite Hb in H. destruct (node_loop _ a coords) as [a'|] eqn:El; [|discriminate].
  destruct (node_loop_inv _ coords (blueprint_blind expf wo (sc_graph c)) a a' El q (proj2 (Hen q) Hq)) as (w & Hw).
  unfold blueprint_node in Hw. cbv zeta in Hw. destruct (mapM _ (nbrs (sc_graph c) q)) as [ss|] eqn:Em; [|discriminate]. cbn [bind] in Hw.
  assert (Hst : forall v, In v (nbrs (sc_graph c) q) -> WeightModel.a_state a v <> None).
  { clear - Em. revert ss Em. induction (nbrs (sc_graph c) q) as [|u l IH]; intros ss Em v Hv; [destruct Hv|]. cbn [mapM] in Em. destruct (WeightModel.a_state a u) eqn:Eu; [|discriminate]. cbn [bind] in Em.
    destruct (mapM _ l) as [ss'|] eqn:El; [|discriminate]. destruct Hv as [<-|Hv]; [congruence|]. apply (IH ss' eq_refl v Hv). }
  destruct (mapM_states a _ Hst) as (ss' & Em' & Hl). rewrite Em in Em'. injection Em' as <-. rewrite Hl in Hw.
  destruct (code_nbrs D e b pol c HD HC q) as (Hnd & Hin & _). pose proof (two_of_filter (fun v => match WeightModel.a_state a v with Some s => is_p s | None => false end) _ Hnd) as T.
  destruct (List.length _ <=? 1)%nat eqn:Ec in Hw.
  - destruct (o_pre wo); [rewrite Hno in Hw; discriminate|]. destruct (o_delta wo); [rewrite Hno in Hw|]; discriminate.
  - apply Hp. apply T in Ec. destruct Ec as (u & v & Hne & Hu & Hv & Fu & Fv). exists u, v. split; [exact Hne|]. split; [apply Hin, Hu|]. split; [apply Hin, Hv|].
    destruct (WeightModel.a_state a u) as [[]|], (WeightModel.a_state a v) as [[]|]; try discriminate; auto.
Qed.

Theorem C67_wrong_precomputed_raises : forall D e b pol c ch fl expf rp wo coords o pick q, dims_ge2 D -> is_surface_code D e b pol c -> set_enum (sc_syn c) coords -> o_method wo = WBlueprint -> In q (sc_syn c) ->
  let full := full_mwpm fl expf rp c ch wo coords o pick in
  (o_pre wo = true -> forall v m ds v1, apply_noise v (ds 0%nat) = (v1, Ok tt) -> ~ two_p_neighbours c (cv_look v1) q ->
     exists st er, full_trial apply_noise cv_look cv_bits cv_store full ((v, m), ds) = (st, Err er)) /\
  (o_pre wo = false -> forall expf' w m ds w1, apply_noise_macro expf' w (ds 0%nat) = (w1, Ok tt) -> ~ two_p_neighbours c (macro_look w1) q ->
     exists st er, full_trial (apply_noise_macro expf') macro_look macro_bits macro_store full ((w, m), ds) = (st, Err er)).
Proof.
  intros D e b pol c ch fl expf rp wo coords o pick q HD HC Hen Hb Hq full.
  assert (K : forall a m bit, (if o_pre wo then a_ppc a q = None else a_hom a q = None) -> ~ two_p_neighbours c a q -> exists er, full a m bit = Err er).
  { intros a m bit Hno Hp. unfold full, full_mwpm. destruct (assign_weights _ _ _ _ _ _ _ _) as [x|er] eqn:Ea; [|exists er; reflexivity].
    exfalso. apply (blueprint_raises D e b pol c ch expf wo coords (with_weights a m) (wm_edge m) q HD HC Hen Hb Hno Hq Hp x Ea). }
  split; intros Hpre.
  - intros v m ds v1 Hn Hp. destruct (K (cv_look v1) m (cv_bits v1)) as (er & Hk); [rewrite Hpre; reflexivity|exact Hp|]. unfold full_trial. cbn [fst snd]. rewrite Hn, Hk. eauto.
  - intros expf' w m ds w1 Hn Hp. destruct (K (macro_look w1) m (macro_bits w1)) as (er & Hk); [rewrite Hpre; reflexivity|exact Hp|]. unfold full_trial. cbn [fst snd]. rewrite Hn, Hk. eauto.
Qed.
Print Assumptions C67_wrong_precomputed_raises.

(* Blueprint weights with IidNoise: the attribute "state" is missing, so the first trial raises an exception. *)
Theorem C67_iid_blueprint_raises : forall D e b pol c ch p fl expf rp wo coords o pick q v A0 m ds, dims_ge2 D -> is_surface_code D e b pol c -> set_enum (sc_syn c) coords -> o_method wo = WBlueprint ->
  In q (sc_syn c) -> edge_attr (sc_graph c) q v <> None -> A0 v "state"%string = None ->
  exists st er, full_trial (iid_noise p c) iid_look SimModel.bits_of (store_bits (node_list (sc_graph c))) (full_mwpm fl expf rp c ch wo coords o pick) ((A0, m), ds) = (st, Err er).
Proof.
  intros D e b pol c ch p fl expf rp wo coords o pick q v A0 m ds HD HC [_ Hen] Hb Hq Hv Hno. unfold full_trial. cbn [fst snd iid_noise].
  set (A := fst (iid_apply numbers p (node_list (sc_graph c)) A0 (ds 0%nat))).
  assert (HA : A v "state"%string = None).
  { destruct (iid_apply_spec numbers p (node_list (sc_graph c)) A0 (ds 0%nat) (code_nodes_NoDup D e b pol c HD HC)) as (_ & _ & K3). unfold A. rewrite K3; [exact Hno|]. intros [_ K]. discriminate. }
  unfold full_mwpm. destruct (assign_weights _ _ _ _ _ _ _ _) as [x|er] eqn:Ea; [exfalso|cbn [bind]; eauto].
  unfold assign_weights, assign_nodes in Ea. rewrite Hb in Ea. destruct (node_loop _ _ coords) as [a'|] eqn:El; [|discriminate].
  destruct (node_loop_inv _ coords (blueprint_blind expf wo (sc_graph c)) _ a' El q (proj2 (Hen q) Hq)) as (w & Hw).
  unfold blueprint_node in Hw. cbv zeta in Hw. destruct (mapM _ (nbrs (sc_graph c) q)) as [ss|] eqn:Em; [|discriminate].
  destruct (code_nbrs D e b pol c HD HC q) as (_ & Hin & _). apply Hin in Hv. clear Hw. revert ss Em Hv. clear - HA. induction (nbrs (sc_graph c) q) as [|u l IH]; intros ss Em Hv; [destruct Hv|].
  cbn [mapM] in Em. destruct Hv as [<-|Hv].
  - cbn [with_weights WeightModel.a_state iid_look] in Em. rewrite HA in Em. discriminate.
  - destruct (WeightModel.a_state _ u); [|discriminate]. cbn [bind] in Em. destruct (mapM _ l) as [ss'|] eqn:El; [|discriminate]. apply (IH ss' eq_refl Hv).
Qed.
Print Assumptions C67_iid_blueprint_raises.

(* the hypotheses are met by the simulation that the script runs without arguments, simulations.py 219-230 (with searches in place of the
   libraries), and by Union-Find with a CVLayer *)
Lemma search_mwpm_does (L : Type) D e b c ch (look : L -> WeightModel.attrs) pre wo : is_surface_code D e b None c -> dims_ge2 D ->
  options_fit wo -> (o_method wo = WBlueprint -> pre = Some (o_pre wo)) ->
  exists good, decoder_does D e b c ch look pre (full_mwpm Int_part exp (rx_report 1) c ch wo (sc_syn c) (search_oracle (sg_edges (sc_stabs c) (sc_bound c) ch)) search_match) good.
Proof.
  intros HC HD Ho Hpre. eexists. left. exists Int_part, 1, exp, (rx_report 1), wo, (sc_syn c), (search_oracle (sg_edges (sc_stabs c) (sc_bound c) ch)), search_match.
  split; [split; [apply (cf_syn_nd _ _ _ _ _ (surface_code_facts D e b None c (ge2_ok D _ HD) HC))|tauto]|]. split; [apply exp_exp_like|]. split; [exact Ho|]. split; [exact Hpre|].
  split. { intros x y Hx. pose proof (base_Int_part x) as [K1 _]. pose proof (base_Int_part y) as [_ K2]. assert (K' : (IZR (Int_part x) < IZR (Int_part y + 1))%R) by (rewrite plus_IZR; lra). apply lt_IZR in K'. lia. }
  split; [lia|]. split; [intros n; rewrite (Int_part_unique (IZR n) n) by lra; lia|].
  split; [intros w Hw; apply search_oracle_ok; exact Hw|]. split; [apply search_match_ok|]. split; reflexivity.
Qed.

Example C67_nonvacuous : let D := (3, 3, 3) in let c := mk_code D EcPrimal BdOpen None in
  let ch := fun i j => hd (0, 0, 0) (shared (sc_stabs c) i j) in
  let E := sg_edges (sc_stabs c) (sc_bound c) ch in
  let wo := {| o_method := WBlueprint; o_integer := false; o_mult := 1%R; o_delta := None; o_pre := true |} in
  let d := {| d_p := []; d_unif := fun _ => (1 / 2)%R; d_bit := fun k => Z.of_nat k mod 2; d_z := fun k => INR k; d_z2 := fun k => INR k; d_list := fun l => rev l |} in
  let m0 := {| wm_node := fun _ => None; wm_edge := fun _ => None |} in
  (exists w st' errors, macro_layer EcPrimal BdOpen c (gedges (sc_graph c)) None (fun _ => no_attrs) (fun _ => {| r_state := None; r_bit := None; r_prob := None |}) (9 / 100)%R None None (Some (1 / 4)%R) None = Ok w /\
    mc_single (full_trial (apply_noise_macro exp) macro_look macro_bits macro_store (full_mwpm Int_part exp (rx_report 1) c ch wo (sc_syn c) (search_oracle E) search_match)) 100 1 0 ((w, m0), fun _ => d) = (st', Ok errors)) /\
  (exists inds g v st' errors, cv_init (code_egraph c) (fun _ => no_attrs) None (Some (inds, sc_syn c)) (9 / 100)%R None (Some (1 / 4)%R) None None = (g, Ok v) /\
    mc_single (full_trial apply_noise cv_look cv_bits cv_store (full_uf exp c ch {| o_method := WUniform; o_integer := false; o_mult := 1%R; o_delta := None; o_pre := false |} (sc_syn c) (kruskal_lib E) rev_sched (2 * List.length E + 2)))
      100 1 0 ((v, m0), fun _ => d) = (st', Ok errors)).
Proof.
  intros D c ch E wo d m0. assert (HD : dims_ge2 D) by (intros []; simpl; lia). assert (HC : is_surface_code D EcPrimal BdOpen None c) by apply mk_code_ok.
  assert (Hch : valid_choice (sc_stabs c) ch) by apply first_choice_valid.
  assert (Hd : forall n, draws_ok n d).
  { clear. intros n. split; [constructor|]. split; [intros i []|]. split; [intros k; cbn [d_unif d]; lra|]. split; [intros k; cbn [d_bit d]; pose proof (Z.mod_pos_bound (Z.of_nat k) 2 ltac:(lia)); lia|].
    intros l _. apply Permutation_sym, Permutation_rev. }
  assert (HI : macro_input D EcPrimal BdOpen None c (gedges (sc_graph c)) None None (Some (1 / 4)%R)).
  { split; [exact HD|]. split; [exact HC|]. split; [|split; [exact I|split; [lra|split; [left; reflexivity|discriminate]]]]. destruct (code_lattice D EcPrimal BdOpen None c HC) as (vs & Hvs & EG). rewrite EG. apply rhg_edge_enum; [apply ge2_ok; exact HD|exact Hvs]. }
  clearbody c. split.
  - destruct (search_mwpm_does cvm D EcPrimal BdOpen c ch macro_look (Some true) wo HC HD) as (good & Hg); [right; split; [reflexivity|split; [discriminate|discriminate]]|reflexivity|].
    destruct (C67_macro_simulation D EcPrimal BdOpen None c ch (gedges (sc_graph c)) None None (Some (1 / 4)%R) (fun _ => no_attrs) (fun _ => {| r_state := None; r_bit := None; r_prob := None |}) (9 / 100)%R None exp _ good HI ltac:(lra) Hch Hg) as (w & Ew & K).
    destruct (K 100 m0 ltac:(lia)) as [S _]. destruct (S (fun _ => d) (fun _ => Hd _)) as (st' & errors & _ & _ & _ & _ & _ & G & _). exists w, st', errors. split; [exact Ew|exact G].
  - destruct (code_inds_exist _ _ _ _ _ HD HC) as (inds & Hi). exists inds.
    destruct (C67_cv_simulation D EcPrimal BdOpen None c ch inds (fun _ => no_attrs) None (9 / 100)%R None (Some (1 / 4)%R) None None
      (full_uf exp c ch {| o_method := WUniform; o_integer := false; o_mult := 1%R; o_delta := None; o_pre := false |} (sc_syn c) (kruskal_lib E) rev_sched (2 * List.length E + 2))
      (fun l m noise after => uf_outcome D EcPrimal BdOpen c (cv_look l) m noise after) HD HC Hch Hi I ltac:(lra)) as (g & v & Ev & K).
    + split; [lra|]. split; [left; reflexivity|discriminate].
    + left; reflexivity.
    + right. do 6 eexists. split; [|split; [|split; [|split; [|split; [|split; [|split; [reflexivity|reflexivity]]]]]]].
      * split; [apply (cf_syn_nd _ _ _ _ _ (surface_code_facts D EcPrimal BdOpen None c (ge2_ok D _ HD) HC))|tauto].
      * reflexivity.
      * apply kruskal_lib_ok.
      * apply (kruskal_out_nd D EcPrimal BdOpen None c ch HD HC Hch).
      * apply rev_sched_ok.
      * apply Nat.le_refl.
    + destruct (K 100 m0 ltac:(lia)) as [S _]. destruct (S (fun _ => d) (fun _ => Hd _)) as (st' & errors & _ & _ & _ & _ & G & _). exists g, v, st', errors. split; [exact Ev|exact G].
Qed.

Example C67_iid_nonvacuous : let D := (3, 3, 3) in let c := mk_code D EcPrimal BdToric None in
  let ch := fun i j => hd (0, 0, 0) (shared (sc_stabs c) i j) in
  let E := sg_edges (sc_stabs c) (sc_bound c) ch in
  let wo := {| o_method := WUniform; o_integer := false; o_mult := 1%R; o_delta := None; o_pre := false |} in
  let m0 := {| wm_node := fun _ => None; wm_edge := fun _ => None |} in
  exists st' errors, mc_single (full_trial (iid_noise (1 / 10) c) iid_look SimModel.bits_of (store_bits (node_list (sc_graph c))) (full_mwpm Int_part exp (rx_report 1) c ch wo (sc_syn c) (search_oracle E) search_match))
    100 1 0 ((fun _ _ => None, m0), fun t k => (INR t / INR (S (t + k)))%R) = (st', Ok errors).
Proof.
  intros D c ch E wo m0. assert (HD : dims_ge2 D) by (intros []; simpl; lia). assert (HC : is_surface_code D EcPrimal BdToric None c) by apply mk_code_ok.
  assert (Hch : valid_choice (sc_stabs c) ch) by apply first_choice_valid. clearbody c.
  destruct (search_mwpm_does node_attrs D EcPrimal BdToric c ch iid_look None wo HC HD) as (good & Hg); [left; reflexivity|discriminate|].
  destruct (C67_iid_simulation D EcPrimal BdToric None c ch (1 / 10)%R (fun _ _ => None) _ good HD HC Hch Hg 100 m0 ltac:(lia)) as [S _].
  destruct (S (fun t k => (INR t / INR (Datatypes.S (t + k)))%R)) as (st' & errors & _ & _ & _ & _ & G & _). exists st', errors. exact G.
Qed.
