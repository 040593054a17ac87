(* PropsThreshold.v: C79, below one percent of independent errors the failure rate of minimum-weight decoding falls exponentially with the size of the code. *)
From Coq Require Import String Reals Lra Lia ListDec.
From Verif Require Import Base Lattice RhgModel RhgSpec RhgProofs RhgDegree SurfaceModel SurfaceSpec SurfaceProofs SurfaceIncidence SurfaceTheorems SurfaceGauge SurfaceComplex StabGraphModel Complex PropsSurface MwpmModel MwpmProofs MwpmInst PropsMwpm UfModel UfSpec UfInst PropsUf PropsUfDist.
From Verif Require Import SimModel SimSpec SimProofs SimTrial PropsSim PropsSimUf PropsCount CountDraws CvMacroGauge PropsCvMacro PropsIidRate Walks.
Open Scope nat_scope.

(* ---------- specification ---------- *)
(* A trial of IidNoise(p) and correct() with the MWPM decoder and uniform weights, with either backend; the shortest paths and the
   matchings are any that the libraries may return (as in C15 and C49). *)
Definition mwpm_trial {S} (rnd : generator S) (p : R) (c : scode) (ch : nat -> nat -> point) (trial : node_attrs * S -> (node_attrs * S) * res bool) : Prop :=
  exists rp o pick, (rp = nx_report \/ rp = rx_report 1) /\ oracle_ok (sg_edges (sc_stabs c) (sc_bound c) ch) (fun _ => 1%Z) o /\
    (forall mg, best_matching mg (pick mg)) /\ trial = iid_mwpm_trial rnd p c ch rp o pick.

(* ---------- small facts ---------- *)
Lemma stab_le_six D e b pol c : dims_ge2 D -> is_surface_code D e b pol c -> forall st, In st (sc_stabs c) -> List.length st <= 6.
Proof.
  intros HD HC st Hst. pose proof (cf_stabs _ _ _ _ _ (surface_code_facts D e b pol c (ge2_ok D _ HD) HC)) as HF.
  assert (K : exists x, In x (centres D e (code_bnds e b)) /\ NoDup st /\ forall q, In q st <-> on_cell D e (code_bnds e b) x q).
  { clear -HF Hst. induction HF as [|x s l l' Hx HF IH]; [destruct Hst|]. destruct Hst as [->|Hst]; [exists x; split; [left; reflexivity|exact Hx]|]. destruct (IH Hst) as (y & H1 & H2). exists y. split; [right; exact H1|exact H2]. }
  destruct K as (x & Hx & ND & Hq). apply in_centres in Hx.
  assert (Hincl : incl st (flat_map (fun a => moves D a x) axes)).
  { intros q Hqs. apply Hq in Hqs. destruct Hqs as [Hq1 Hq2]. apply qubit_axis_iff in Hq1. destruct Hq1 as [Hs _]. destruct Hx as [Hx _].
    destruct (step_in_moves D (code_bnds e b) HD x q Hx Hs Hq2) as (a & Hm & _). apply in_flat_map. exists a. split; [destruct a; cbn; auto|exact Hm]. }
  apply NoDup_incl_length in Hincl; [|exact ND]. cbn in Hincl. lia.
Qed.

Lemma stabs_le_volume D e b pol c : dims_ge2 D -> is_surface_code D e b pol c -> (Z.of_nat (List.length (sc_stabs c)) <= get AX D * get AY D * get AZ D)%Z.
Proof.
  intros HD HC. rewrite (stabs_length D e b pol c HD HC). pose proof (HD AX). pose proof (HD AY). pose proof (HD AZ).
  unfold centres. rewrite map_length.
  assert (K : forall x y z, (Z.of_nat x <= get AX D -> Z.of_nat y <= get AY D -> Z.of_nat z <= get AZ D -> Z.of_nat (x * (y * z)) <= get AX D * get AY D * get AZ D)%Z).
  { intros x y z K1 K2 K3. rewrite !Nat2Z.inj_mul, Z.mul_assoc. apply Z.mul_le_mono_nonneg; [apply Z.mul_nonneg_nonneg; apply Nat2Z.is_nonneg|apply Z.mul_le_mono_nonneg; [apply Nat2Z.is_nonneg|exact K1|apply Nat2Z.is_nonneg|exact K2]|apply Nat2Z.is_nonneg|exact K3]. }
  destruct e; unfold rhg_inds, dual_inds; cbv zeta; rewrite product3_length, !length_py_range; rewrite <- ?Nat.mul_assoc; apply K; unfold rhg_max, dual_min, dual_max; match goal with |- context [match ?k with BPrimal => _ | _ => _ end] => destruct k end; lia.
Qed.

Lemma count_union {A B} (f : A -> bool) (P : B -> A -> bool) (xs : list B) (l : list A) :
  (forall v, In v l -> f v = true -> exists x, In x xs /\ P x v = true) -> count_if f l <= nsum (fun x => count_if (P x) l) xs.
Proof.
  induction l as [|v l IH]; intros H.
  - unfold count_if at 1. cbn. lia.
  - specialize (IH (fun w Hw => H w (or_intror Hw))). transitivity ((if f v then 1 else 0) + count_if f l); [unfold count_if; cbn [filter]; destruct (f v); cbn; lia|].
    assert (E : nsum (fun x => count_if (P x) (v :: l)) xs = nsum (fun x => if P x v then 1 else 0) xs + nsum (fun x => count_if (P x) l) xs).
    { rewrite <- nsum_plus. apply nsum_ext. intros x _. unfold count_if. cbn [filter]. destruct (P x v); reflexivity. }
    rewrite E. destruct (f v) eqn:Ef; [|lia]. destruct (H v (or_introl eq_refl) Ef) as (x & Hx & HP).
    assert (1 <= nsum (fun x => if P x v then 1 else 0) xs); [|lia].
    clear -Hx HP. induction xs as [|y xs IHx]; [destruct Hx|]. cbn [nsum]. destruct Hx as [->|Hx]; [rewrite HP; lia|specialize (IHx Hx); lia].
Qed.
Lemma nsum_le {A} (f g : A -> nat) l : (forall x, In x l -> f x <= g x) -> nsum f l <= nsum g l.
Proof. induction l as [|x l IH]; intros H; [apply le_n|]. cbn [nsum]. pose proof (H x (or_introl eq_refl)). specialize (IH (fun y Hy => H y (or_intror Hy))). lia. Qed.

Lemma choose_pow : forall n k, choose n k <= 2 ^ n.
Proof.
  induction n as [|n IH]; intros k; [destruct k; cbn; lia|]. pose proof (Nat.pow_nonzero 2 n ltac:(lia)) as Hp. cbn [Nat.pow]. destruct k as [|k].
  - cbn [choose]. lia.
  - cbn [choose]. pose proof (IH k). pose proof (IH (S k)). lia.
Qed.
Lemma walks_len stabs l : forall i prev L, In L (walks stabs l i prev) -> List.length L = l.
Proof.
  induction l as [|l IH]; intros i prev L H; cbn [walks] in H; [destruct H as [<-|[]]; reflexivity|].
  apply in_flat_map in H. destruct H as (q & _ & H). apply in_map_iff in H. destruct H as (L' & <- & H). cbn [List.length]. f_equal. exact (IH _ _ _ H).
Qed.

(* the number of flips on some qubits, as hits of the draws *)
Lemma hits_bits M p nodes (ND : NoDup nodes) A v L : NoDup L -> incl L nodes -> List.length nodes <= List.length v ->
  hits (below M p) (map (fun q => pmem q L) nodes) v = count_if (SimModel.bits_of (fst (iid_apply (grid M) p nodes A v))) L.
Proof.
  intros NL HL Hv. set (bit := SimModel.bits_of (fst (iid_apply (grid M) p nodes A v))).
  transitivity (count_if (fun q => pmem q L && bit q) nodes).
  - assert (G : forall l w, (forall j q, nth_error l j = Some q -> bit q = below M p (nth j w 0)) -> List.length l <= List.length w ->
      hits (below M p) (map (fun q => pmem q L) l) w = count_if (fun q => pmem q L && bit q) l).
    { induction l as [|q l IH]; intros [|x w] Hj Hl; cbn [List.length] in Hl; try (exfalso; lia); try reflexivity. cbn [map hits]. rewrite (IH w); [|intros j q' Hq'; exact (Hj (S j) q' Hq')|lia].
      specialize (Hj 0 q eq_refl). cbn [nth] in Hj. rewrite <- Hj. unfold count_if. cbn [filter]. destruct (pmem q L && bit q); reflexivity. }
    apply G; [|exact Hv]. intros j q Hq. apply (bits_grid M p nodes ND A v j q); [exact Hv|exact Hq].
  - unfold count_if. apply Permutation_length. apply NoDup_Permutation; [apply NoDup_filter, ND|apply NoDup_filter, NL|].
    intros q. rewrite !filter_In, andb_true_iff, pmem_In. pose proof (HL q). tauto.
Qed.
Lemma marks_count nodes L : NoDup nodes -> NoDup L -> incl L nodes -> count_if (fun x : bool => x) (map (fun q => pmem q L) nodes) = List.length L.
Proof.
  intros ND NL HL. rewrite count_map. unfold count_if. apply Permutation_length. apply NoDup_Permutation; [apply NoDup_filter, ND|exact NL|].
  intros q. rewrite filter_In, pmem_In. pose proof (HL q). tauto.
Qed.

(* ---------- a failure leaves a trail ---------- *)
Lemma failure_trail D e b pol c ch rp o pick bit sanity d : dims_ge2 D -> is_surface_code D e b pol c -> valid_choice (sc_stabs c) ch ->
  rp = nx_report \/ rp = rx_report 1 -> oracle_ok (sg_edges (sc_stabs c) (sc_bound c) ch) (fun _ => 1%Z) o -> (forall mg, best_matching mg (pick mg)) ->
  (forall a, In a (logical_axes e b) -> (Z.of_nat d <= get a D)%Z) ->
  (forall bit', correct_mwpm rp c ch (fun _ => 1%Z) o pick bit sanity <> Ok (bit', true)) ->
  exists i L, i < List.length (sc_stabs c) /\ NoDup L /\ incl L (sc_syn c) /\ In L (walks (sc_stabs c) (List.length L) i None) /\ d <= List.length L /\ List.length L <= 2 * count_if bit L.
Proof.
  intros H2 HC Hch Hrp Ho Hpick Hd Hfail.
  assert (Hex : exists k, exact k rp (fun _ => 1%Z)).
  { exists 1%Z. destruct Hrp as [-> | ->]; [apply nx_exact|apply rx_exact; [lia|]]. intros _. exists 1%Z. reflexivity. }
  destruct Hex as (k & Hex).
  destruct (C14_mwpm_clears_syndrome D e b pol c ch rp (fun _ => 1%Z) o pick bit sanity H2 HC Hch Ho Hpick)
    as (qs & bit' & r & Hdec & Hnd & Hin & Hr & Hc & Ht).
  destruct r; [exfalso; exact (Hfail bit' Hc)|].
  destruct (C49_mwpm_minimum_weight D e b pol c ch rp k (fun _ => 1%Z) o pick bit qs H2 HC Hch Ho Hpick Hex
    ltac:(intros; simpl; lia) ltac:(intros; simpl; lia) Hdec) as (R & -> & HndR & HtR & Hmin).
  assert (Hck : check_correction c bit' sanity = Ok false).
  { unfold correct_mwpm in Hc. rewrite Hdec in Hc. simpl in Hc. rewrite Hr in Hc. simpl in Hc.
    destruct (check_correction c bit' sanity) as [x|]; simpl in Hc; [|discriminate]. injection Hc as ->. reflexivity. }
  pose proof (surface_code_facts D e b pol c (ge2_ok D _ H2) HC) as CF. pose proof (cf_syn_nd _ _ _ _ _ CF) as Hsyn.
  assert (HRs : forall q, In q R -> In q (sc_syn c)).
  { intros q Hq. destruct (Hin (Some q) (in_map Some _ _ Hq)) as (q' & Eq & Hq'). injection Eq as ->. exact Hq'. }
  assert (Hb : forall q, bit' q = xorb (bit q) (pmem q R)).
  { destruct (C13_recovery_flips_exactly (node_list (sc_graph c)) (map Some R) bit Hnd) as [H13 _].
    destruct H13 as (bit1 & Er & Hf & Hnf & _).
    { intros x Hx. destruct (Hin x Hx) as (q' & -> & Hq'). exists q'. split; [reflexivity|]. apply (syn_graph D e b pol c H2 HC) in Hq'. tauto. }
    rewrite Er in Hr. injection Hr as ->. intros q. destruct (pmem q R) eqn:F.
    - apply pmem_In in F. rewrite (Hf q (in_map Some _ _ F)), xorb_true_r. reflexivity.
    - rewrite Hnf, xorb_false_r; [reflexivity|]. intros G. apply in_map_iff in G. destruct G as (q' & Eq & G). injection Eq as ->. apply pmem_In in G. congruence. }
  (* the qubits that are wrong after recovery *)
  set (F := filter bit' (sc_syn c)).
  assert (NF : NoDup F) by (apply NoDup_filter; exact Hsyn).
  assert (WF : wf_complex (sc_stabs c) (sc_bound c)) by exact (surface_wf D e b pol c H2 HC).
  assert (par_syn : forall (g : point -> bool) X j, NoDup X -> incl X (sc_syn c) -> j < List.length (sc_stabs c) -> (forall q, In q (sc_syn c) -> g q = pmem q X) ->
    xsum (fun q => pmem q (stab_of (sc_stabs c) j)) X = stab_parity g (stab_of (sc_stabs c) j)).
  { intros g X j NX HX Hj Hg. assert (Hin' : In (stab_of (sc_stabs c) j) (sc_stabs c)) by (apply nth_In; exact Hj).
    unfold stab_parity. rewrite (xsum_ext g (fun q => pmem q X) (stab_of (sc_stabs c) j)) by (intros q Hq; apply Hg; exact (stab_syn D e b pol c H2 HC _ q Hin' Hq)).
    rewrite !xsum_odd. f_equal. apply Permutation_length. apply NoDup_Permutation; [apply NoDup_filter, NX|apply NoDup_filter, (wf_nd _ _ WF), Hin'|].
    intros q. rewrite !filter_In, !pmem_In. tauto. }
  assert (HFp : forall q, In q (sc_syn c) -> bit' q = pmem q F).
  { intros q Hq. apply eq_true_iff_eq. rewrite pmem_In. unfold F. rewrite filter_In. tauto. }
  assert (HFin : incl F (sc_syn c)) by (intros q Hq; apply filter_In in Hq; tauto).
  assert (syn_cat : incl (sc_syn c) (concat (sc_stabs c))).
  { intros q Hq. pose proof (stab_count D e b pol c H2 HC q Hq) as Hcn. destruct (filter (pmem q) (sc_stabs c)) as [|st l] eqn:Ef; [destruct (pmem q (sc_bound c)); discriminate|].
    assert (Hst : In st (filter (pmem q) (sc_stabs c))) by (rewrite Ef; left; reflexivity). apply filter_In in Hst. destruct Hst as [Hst Hqs]. apply in_concat. exists st. split; [exact Hst|]. apply pmem_In. exact Hqs. }
  assert (HF0 : forall j, j < List.length (sc_stabs c) -> xsum (fun q => pmem q (stab_of (sc_stabs c) j)) F = false).
  { intros j Hj. rewrite (par_syn bit' F j NF HFin Hj HFp). apply Ht. apply nth_In. exact Hj. }
  (* a direction in which the check fails *)
  rewrite (check_correction_eq D e b pol c H2 HC) in Hck. injection Hck as Hck.
  assert (Hax : exists a, In a (logical_axes e b) /\ plane (sc_syn c) bit' a (par e) = true).
  { clear -Hck. induction (logical_axes e b) as [|a l IH]; [discriminate|]. cbn [forallb] in Hck. destruct (plane (sc_syn c) bit' a (par e)) eqn:E.
    - exists a. split; [left; reflexivity|exact E].
    - cbn in Hck. destruct (IH Hck) as (a' & H1 & H3). exists a'. split; [right; exact H1|exact H3]. }
  destruct Hax as (a & Ha & Hpl).
  assert (plane_list : forall X (g : point -> bool), NoDup X -> incl X (sc_syn c) -> (forall q, In q (sc_syn c) -> g q = pmem q X) -> plane (sc_syn c) g a (par e) = xsum (fun q => Z.eqb (co a q) (par e)) X).
  { intros X g NX HX Hg. unfold plane. rewrite (xsum_ext _ (fun q => pmem q X && Z.eqb (co a q) (par e))) by (intros q Hq; rewrite (Hg q Hq); apply andb_comm).
    rewrite <- xsum_filter. apply xsum_perm. apply NoDup_Permutation; [apply NoDup_filter, Hsyn|exact NX|]. intros q. rewrite filter_In, pmem_In. pose proof (HX q). tauto. }
  rewrite (plane_list F bit' NF HFin HFp) in Hpl.
  destruct (odd_trail (sc_stabs c) (sc_bound c) WF (fun q => Z.eqb (co a q) (par e)) (List.length F) F (le_n _) NF (fun q Hq => syn_cat q (HFin q Hq)) HF0 Hpl)
    as (i & L & Hi & NL & HLF & HW & HP & Hpa).
  assert (HLs : incl L (sc_syn c)) by (intros q Hq; apply HFin, HLF; exact Hq).
  exists i, L. split; [exact Hi|]. split; [exact NL|]. split; [exact HLs|]. split; [apply walk_in_walks; exact HW|].
  (* the trail crosses the code *)
  assert (HLt : forall st, In st (sc_stabs c) -> stab_parity (fun q => pmem q L) st = false).
  { intros st Hst. apply (In_nth _ _ []) in Hst. destruct Hst as (j & Hj & <-). change (nth j (sc_stabs c) []) with (stab_of (sc_stabs c) j). rewrite <- (par_syn (fun q => pmem q L) L j NL HLs Hj (fun q _ => eq_refl)). apply HP. exact Hj. }
  split.
  - destruct (C11_code_distance D e b pol c H2 HC) as (Hdist & _). destruct (Hdist (fun q => pmem q L) false HLt) as (a' & Ha' & Hle).
    { rewrite (check_correction_eq D e b pol c H2 HC). f_equal. apply not_true_iff_false. intros Hall. rewrite forallb_forall in Hall. specialize (Hall a Ha).
      rewrite (plane_list L (fun q => pmem q L) NL HLs (fun q _ => eq_refl)), Hpa in Hall. discriminate. }
    specialize (Hd a' Ha'). assert (Hll : (List.length (filter (fun q => pmem q L) (sc_syn c)) <= List.length L)%nat).
    { apply NoDup_incl_length; [apply NoDup_filter, Hsyn|]. intros q Hq. apply filter_In in Hq. apply pmem_In. tauto. }
    lia.
  - (* flipping the trail as well gives another correction, that is not lighter *)
    set (R' := filter (fun q => negb (pmem q L)) R ++ filter (fun q => negb (pmem q R)) L).
    assert (HR' : forall q, pmem q R' = xorb (pmem q R) (pmem q L)).
    { intros q. apply eq_true_iff_eq. unfold R'. rewrite pmem_In, in_app_iff, !filter_In, <- !(pmem_In q).
      destruct (pmem q R), (pmem q L); cbn [negb xorb]; intuition discriminate. }
    assert (NR' : NoDup R').
    { apply NoDup_app_intro; [apply NoDup_filter, HndR|apply NoDup_filter, NL|]. intros q K1 K2. apply filter_In in K1, K2. destruct K1 as [K1 K3]. apply pmem_In in K1. destruct K2 as [_ K2]. rewrite K1 in K2. discriminate. }
    assert (HM : (set_weight (fun _ => 1%Z) R <= set_weight (fun _ => 1%Z) R')%Z).
    { apply Hmin; [exact NR'| |].
      - intros q Hq. unfold R' in Hq. apply in_app_iff in Hq. destruct Hq as [Hq|Hq]; apply filter_In in Hq; destruct Hq as [Hq _]; [exact (HRs q Hq)|exact (HLs q Hq)].
      - intros st Hst. unfold stab_parity. rewrite (xsum_ext _ (fun q => xorb (xorb (bit q) (pmem q R)) (pmem q L))).
        + rewrite xsum_xorb. change (xorb (stab_parity (fun q => xorb (bit q) (pmem q R)) st) (stab_parity (fun q => pmem q L) st) = false). rewrite (HtR st Hst), (HLt st Hst). reflexivity.
        + intros q _. rewrite HR', xorb_assoc. reflexivity. }
    assert (Hones : forall l : list point, set_weight (fun _ => 1%Z) l = Z.of_nat (List.length l)).
    { induction l as [|x l IH]; [reflexivity|]. change (1 + set_weight (fun _ => 1%Z) l = Z.of_nat (S (List.length l)))%Z. rewrite IH. lia. }
    rewrite !Hones in HM. unfold R' in HM. rewrite app_length in HM.
    assert (HRL : List.length R = List.length (filter (fun q => negb (pmem q L)) R) + List.length (filter (fun q => pmem q R) L)).
    { transitivity (List.length (filter (fun q => negb (pmem q L)) R) + List.length (filter (fun q => pmem q L) R)).
      - clear. induction R as [|x l IH]; [reflexivity|]. cbn [filter]. destruct (pmem x L); cbn [negb List.length]; lia.
      - f_equal. apply Permutation_length. apply NoDup_Permutation; [apply NoDup_filter, HndR|apply NoDup_filter, NL|]. intros q. rewrite !filter_In, !pmem_In. tauto. }
    assert (HLL : List.length L = List.length (filter (fun q => pmem q R) L) + List.length (filter (fun q => negb (pmem q R)) L)).
    { clear. induction L as [|x l IH]; [reflexivity|]. cbn [filter]. destruct (pmem x R); cbn [negb List.length]; lia. }
    assert (HLE : List.length (filter (fun q => negb (pmem q R)) L) <= count_if bit L).
    { apply count_le. intros q Hq Hn. apply HLF in Hq. unfold F in Hq. apply filter_In in Hq. destruct Hq as [_ Hq]. rewrite Hb in Hq. destruct (pmem q R); [discriminate|]. rewrite xorb_false_r in Hq. exact Hq. }
    lia.
Qed.

(* ---------- counting ---------- *)
Section Count.
  Variables (D : dims) (e : ecx) (b : bdk) (pol : option (point * point -> Z)) (c : scode) (ch : nat -> nat -> point) (M : nat) (p : R) (A : node_attrs)
    (trial : node_attrs * list nat -> (node_attrs * list nat) * res bool) (d : nat).
  Hypotheses (HD : dims_ge2 D) (HC : is_surface_code D e b pol c) (Hch : valid_choice (sc_stabs c) ch) (HT : mwpm_trial (grid M) p c ch trial)
    (Hd : forall a, In a (logical_axes e b) -> (Z.of_nat d <= get a D)%Z) (Hd1 : 1 <= d).
  Notation nodes := (node_list (sc_graph c)).
  Notation n := (List.length (node_list (sc_graph c))).
  Notation m := (List.length (sc_syn c)).
  Notation N := (List.length (sc_stabs c)).
  Notation a := (flips M p).

  (* the draws v flip at least half of the qubits of the trail L *)
  Definition half_hit (L : list point) (v : list nat) : bool := Nat.leb ((List.length L + 1) / 2) (hits (below M p) (map (fun q => pmem q L) nodes) v).
  Definition trail_ok (L : list point) : bool := if ListDec.NoDup_dec point_eq_dec L then forallb (fun q => pmem q (sc_syn c)) L else false.
  Lemma trail_ok_iff L : trail_ok L = true <-> NoDup L /\ incl L (sc_syn c).
  Proof.
    unfold trail_ok. destruct (ListDec.NoDup_dec point_eq_dec L) as [H|H]; [|split; [discriminate|tauto]]. rewrite forallb_forall. split.
    - intros K. split; [exact H|]. intros q Hq. apply pmem_In, K, Hq.
    - intros [_ K] q Hq. apply pmem_In, K, Hq.
  Qed.
  Lemma syn_nodes : incl (sc_syn c) nodes.
  Proof. intros q. apply (syn_in_nodes D e b pol c HD HC). Qed.

  Lemma fails_trails : count_if (fails trial A) (all_draws M n) <=
    nsum (fun l => nsum (fun i => nsum (fun L => if trail_ok L then count_if (half_hit L) (all_draws M n) else 0) (walks (sc_stabs c) l i None)) (seq 0 N)) (seq d (S m - d)).
  Proof.
    pose proof (code_nodes_NoDup D e b pol c HD HC) as ND. destruct HT as (rp & o & pick & Hrp & Ho & Hp & ->).
    set (xs := flat_map (fun l => flat_map (fun i => walks (sc_stabs c) l i None) (seq 0 N)) (seq d (S m - d))).
    transitivity (nsum (fun L => count_if (fun v => trail_ok L && half_hit L v) (all_draws M n)) xs).
    - apply count_union. intros v Hv Hf. apply in_all_draws in Hv. destruct Hv as [Hv _].
      set (bit := SimModel.bits_of (fst (iid_apply (grid M) p nodes A v))).
      destruct (failure_trail D e b pol c ch rp o pick bit false d HD HC Hch Hrp Ho Hp Hd) as (i & L & Hi & NL & HL & HW & Hdl & Hh).
      { intros bit' Hok. unfold fails, iid_mwpm_trial in Hf. cbn [fst snd] in Hf. fold bit in Hf. unfold bit in Hok. destruct (iid_apply (grid M) p nodes A v) as [A1 s1]. cbn [fst] in Hok. rewrite Hok in Hf. cbn [snd] in Hf. discriminate. }
      exists L. split.
      + unfold xs. apply in_flat_map. exists (List.length L). split; [apply in_seq; pose proof (NoDup_incl_length NL HL); lia|].
        apply in_flat_map. exists i. split; [apply in_seq; lia|exact HW].
      + apply andb_true_iff. split; [apply trail_ok_iff; split; assumption|]. unfold half_hit. apply Nat.leb_le.
        rewrite (hits_bits M p nodes ND A v L NL (fun q Hq => syn_nodes q (HL q Hq))) by lia. fold bit.
        assert ((List.length L + 1) / 2 < count_if bit L + 1); [apply Nat.div_lt_upper_bound; lia|lia].
    - unfold xs. rewrite nsum_flat. apply nsum_le. intros l _. rewrite nsum_flat. apply nsum_le. intros i _. apply nsum_le. intros L _.
      destruct (trail_ok L); [apply Nat.eq_le_incl; apply count_ext; reflexivity|]. rewrite CountDraws.count_false. lia.
  Qed.

  Lemma half_hit_count L : trail_ok L = true -> 1 <= List.length L ->
    let t := (List.length L + 1) / 2 in count_if (half_hit L) (all_draws M n) <= 2 ^ List.length L * a ^ t * M ^ (n - t).
  Proof.
    intros H H1 t. apply trail_ok_iff in H. destruct H as [NL HL]. pose proof (code_nodes_NoDup D e b pol c HD HC) as ND.
    pose proof (hits_union M (below M p) (map (fun q => pmem q L) nodes) t) as HU. rewrite map_length, (marks_count nodes L ND NL (fun q Hq => syn_nodes q (HL q Hq))) in HU.
    etransitivity; [exact HU|]. change (count_if (below M p) (seq 0 M)) with a. apply Nat.mul_le_mono_r, Nat.mul_le_mono_r. apply choose_pow.
  Qed.

  Lemma fails_count : count_if (fails trial A) (all_draws M n) <=
    nsum (fun l => let t := (l + 1) / 2 in N * (6 * 5 ^ (l - 1)) * (2 ^ l * a ^ t * M ^ (n - t))) (seq d (S m - d)).
  Proof.
    etransitivity; [exact fails_trails|]. apply nsum_le. intros l Hl. apply in_seq in Hl. cbv zeta. set (K := 2 ^ l * a ^ ((l + 1) / 2) * M ^ (n - (l + 1) / 2)).
    transitivity (nsum (fun _ : nat => 6 * 5 ^ (l - 1) * K) (seq 0 N)); [|rewrite nsum_const, seq_length; lia].
    apply nsum_le. intros i Hi. apply in_seq in Hi.
    transitivity (nsum (fun _ : list point => K) (walks (sc_stabs c) l i None)).
    - apply nsum_le. intros L HL. apply walks_len in HL. destruct (trail_ok L) eqn:E; [|lia]. pose proof (half_hit_count L E ltac:(lia)) as H. cbv zeta in H. rewrite HL in H. exact H.
    - rewrite nsum_const. apply Nat.mul_le_mono_r. replace l with (S (l - 1)) at 1 by lia.
      apply (walks_count (sc_stabs c) (sc_bound c) (surface_wf D e b pol c HD HC) 5 (stab_le_six D e b pol c HD HC) (l - 1) i). lia.
  Qed.
End Count.

(* ---------- geometric series ---------- *)
Lemma rsum_le f g l : (forall k, In k l -> (f k <= g k)%R) -> (rsum f l <= rsum g l)%R.
Proof. induction l as [|x l IH]; intros H; [apply Rle_refl|]. unfold rsum in *. cbn [fold_right]. apply Rplus_le_compat; [apply H; left; reflexivity|]. apply IH. intros k Hk. apply H. right. exact Hk. Qed.
Lemma geometric x : forall k d, (rsum (fun l => x ^ l) (seq d k) * (1 - x) = x ^ d - x ^ (d + k))%R.
Proof.
  induction k as [|k IH]; intros d; [rewrite Nat.add_0_r; unfold rsum; cbn; lra|]. cbn [seq]. unfold rsum in *. cbn [fold_right]. rewrite Rmult_plus_distr_r, IH.
  replace (d + S k) with (S d + k) by lia. cbn [pow]. ring.
Qed.
Lemma geometric_le x k d : (0 <= x < 1)%R -> (rsum (fun l => x ^ l) (seq d k) <= x ^ d / (1 - x))%R.
Proof.
  intros Hx. apply Rmult_le_reg_r with (1 - x)%R; [lra|]. rewrite geometric. replace (x ^ d / (1 - x) * (1 - x))%R with (x ^ d)%R by (field; lra).
  pose proof (pow_le x (d + k) (proj1 Hx)). lra.
Qed.

Lemma pow_half r l : (0 <= r <= 1)%R -> (r ^ ((l + 1) / 2) <= sqrt r ^ l)%R.
Proof.
  intros Hr. rewrite <- (sqrt_sqrt r) at 1 by tauto. set (s := sqrt r). assert (Hs : (0 <= s <= 1)%R) by (split; [apply sqrt_pos|unfold s; rewrite <- sqrt_1; apply sqrt_le_1; lra]).
  rewrite Rpow_mult_distr, <- pow_add. assert (K : l <= (l + 1) / 2 + (l + 1) / 2).
  { pose proof (Nat.div_mod (l + 1) 2 ltac:(lia)) as E. pose proof (Nat.mod_upper_bound (l + 1) 2 ltac:(lia)). lia. }
  replace ((l + 1) / 2 + (l + 1) / 2) with (l + ((l + 1) / 2 + (l + 1) / 2 - l)) by lia. rewrite pow_add.
  rewrite <- (Rmult_1_r (s ^ l)) at 2. apply Rmult_le_compat_l; [apply pow_le; tauto|]. rewrite <- (pow1 ((l + 1) / 2 + (l + 1) / 2 - l)). apply pow_incr. exact Hs.
Qed.

(* ---------- C79 ---------- *)
(* One trial of MWPM: if every logical operator needs at least d qubits in a row, that is, the code has at least d cells in each
   direction of a logical operator, the failure rate is at most a constant times the number of stabilizers times (10 sqrt r)^d,
   where r is the probability of an error on one qubit. *)
Theorem C79_failure_rate_exponential : forall D e b pol c ch M p A trial d, dims_ge2 D -> is_surface_code D e b pol c -> valid_choice (sc_stabs c) ch ->
  0 < M -> mwpm_trial (grid M) p c ch trial ->
  (forall a, In a (logical_axes e b) -> (Z.of_nat d <= get a D)%Z) -> 1 <= d ->
  let n := List.length (node_list (sc_graph c)) in let r := (INR (flips M p) / INR M)%R in let x := (10 * sqrt r)%R in
  let rate := (INR (count_if (fails trial A) (all_draws M n)) / INR (M ^ n)%nat)%R in
  (x < 1)%R -> (rate <= 6 / 5 * INR (List.length (sc_stabs c)) * (x ^ d / (1 - x)))%R.
Proof.
  intros D e b pol c ch M p A trial d HD HC Hch HM HT Hd Hd1 n r x rate Hx.
  pose proof (fails_count D e b pol c ch M p A trial d HD HC Hch HT Hd Hd1) as HF. fold n in HF.
  set (N := List.length (sc_stabs c)) in *. set (m := List.length (sc_syn c)) in *. set (a := flips M p) in *.
  assert (HR : (0 < INR M)%R) by (apply lt_0_INR; exact HM).
  assert (Ha : a <= M) by apply a_le. assert (Hr : (0 <= r <= 1)%R).
  { unfold r. split; [apply Rmult_le_pos; [apply pos_INR|left; apply Rinv_0_lt_compat; exact HR]|]. apply Rmult_le_reg_r with (INR M); [exact HR|]. unfold Rdiv. rewrite Rmult_assoc, Rinv_l, Rmult_1_r, Rmult_1_l by lra. apply le_INR. exact Ha. }
  assert (Hx0 : (0 <= x)%R) by (unfold x; pose proof (sqrt_pos r); lra).
  assert (Hmn : m <= n). { unfold m, n. apply NoDup_incl_length; [exact (cf_syn_nd _ _ _ _ _ (surface_code_facts D e b pol c (ge2_ok D _ HD) HC))|]. intros q. apply (syn_in_nodes D e b pol c HD HC). }
  assert (HP : (0 < INR (M ^ n)%nat)%R) by (apply lt_0_INR; apply Nat.neq_0_lt_0; apply Nat.pow_nonzero; lia).
  apply Rle_trans with (rsum (fun l => (6 / 5 * INR N * x ^ l)%R) (seq d (S m - d))).
  - unfold rate. apply Rmult_le_reg_r with (INR (M ^ n)%nat); [exact HP|]. unfold Rdiv at 1. rewrite Rmult_assoc, Rinv_l, Rmult_1_r by lra.
    apply le_INR in HF. eapply Rle_trans; [exact HF|]. rewrite INR_nsum. rewrite Rmult_comm, rsum_mul. change (fold_right (fun (k : nat) (s : R) => (?f k + s)%R) 0%R) with (rsum f).
    apply (rsum_le (fun l => INR (N * (6 * 5 ^ (l - 1)) * (2 ^ l * a ^ ((l + 1) / 2) * M ^ (n - (l + 1) / 2))))). intros l Hl. apply in_seq in Hl.
    set (t := (l + 1) / 2). assert (Ht : t <= n). { unfold t. apply Nat.div_le_upper_bound; lia. }
    rewrite !mult_INR, !pow_INR. replace (INR 6) with 6%R by (cbn; lra). replace (INR 5) with 5%R by (cbn; lra). replace (INR 2) with 2%R by (cbn; lra).
    assert (E5 : (5 ^ l = 5 * 5 ^ (l - 1))%R) by (replace l with (S (l - 1)) at 1 by lia; reflexivity).
    assert (EM : (INR M ^ n = INR M ^ t * INR M ^ (n - t))%R) by (rewrite <- pow_add; f_equal; lia).
    assert (Er : (INR a ^ t = r ^ t * INR M ^ t)%R) by (unfold r; rewrite pow_quot by lra; field; apply pow_nonzero; lra).
    assert (Ex : (x ^ l = 5 ^ l * 2 ^ l * sqrt r ^ l)%R) by (unfold x; rewrite <- !Rpow_mult_distr; f_equal; lra).
    rewrite Ex, Er, EM, E5. pose proof (pow_half r l Hr) as Hh. fold t in Hh.
    assert (Q : (0 <= INR N * 6 * 5 ^ (l - 1) * 2 ^ l * (INR M ^ t * INR M ^ (n - t)))%R).
    { repeat apply Rmult_le_pos; try apply pos_INR; try lra; apply pow_le; try lra; apply pos_INR. }
    pose proof (Rmult_le_compat_l _ _ _ Q Hh) as HQ. nra.
  - rewrite <- (rsum_mul (fun l => (x ^ l)%R) (6 / 5 * INR N)%R). apply Rmult_le_compat_l; [pose proof (pos_INR N); lra|]. apply geometric_le. split; [exact Hx0|exact Hx].
Qed.

Lemma poly_pow_bounded s : (0 <= s < 1)%R -> exists C, (0 < C)%R /\ forall d, (INR d * s ^ d <= C)%R.
Proof.
  intros [H0 H1]. destruct (Rle_lt_or_eq_dec 0 s H0) as [Hs|Hs].
  - assert (H2 : (0 < / s - 1)%R). { assert (1 < / s)%R; [|lra]. rewrite <- Rinv_1. apply Rinv_lt_contravar; lra. }
    exists (/ (/ s - 1))%R. split; [apply Rinv_0_lt_compat; exact H2|]. intros d. pose proof (poly d _ H2) as P. replace (1 + (/ s - 1))%R with (/ s)%R in P by lra. rewrite pow_inv in P.
    assert (Q : (0 < s ^ d)%R) by (apply pow_lt; exact Hs).
    apply Rmult_le_reg_r with (/ s - 1)%R; [exact H2|]. rewrite Rinv_l by lra. assert (P' : (s ^ d * (1 + INR d * (/ s - 1)) <= s ^ d * / s ^ d)%R) by (apply Rmult_le_compat_l; [lra|exact P]). rewrite Rinv_r in P' by lra.
    replace (INR d * s ^ d * (/ s - 1))%R with (s ^ d * (1 + INR d * (/ s - 1)) - s ^ d)%R by ring. lra.
  - subst s. exists 1%R. split; [lra|]. intros [|d]; [cbn; lra|]. rewrite pow_ne_zero by lia. lra.
Qed.
Lemma poly_pow_small : forall k x eps, (0 <= x < 1)%R -> (0 < eps)%R -> exists d0, forall d, d0 <= d -> (INR d ^ k * x ^ d < eps)%R.
Proof.
  induction k as [|k IH]; intros x eps Hx He.
  - destruct (pow_lt_1_zero x) with (y := eps) as (d0 & H); [rewrite Rabs_right; lra|exact He|]. exists d0. intros d Hd. specialize (H d Hd). rewrite Rabs_right in H by (apply Rle_ge, pow_le; lra). cbn [pow]. lra.
  - set (s := sqrt x). assert (Hs : (0 <= s < 1)%R) by (split; [apply sqrt_pos|unfold s; rewrite <- sqrt_1; apply sqrt_lt_1; lra]).
    destruct (poly_pow_bounded s Hs) as (C & HC & HCd). destruct (IH s (eps / C)%R Hs) as (d0 & H0); [apply Rdiv_lt_0_compat; assumption|].
    exists d0. intros d Hd. specialize (H0 d Hd). specialize (HCd d).
    assert (E : (x = s * s)%R) by (unfold s; rewrite sqrt_sqrt; tauto). rewrite E, Rpow_mult_distr. cbn [pow].
    replace (INR d * INR d ^ k * (s ^ d * s ^ d))%R with (INR d * s ^ d * (INR d ^ k * s ^ d))%R by ring.
    assert (P1 : (0 <= INR d * s ^ d)%R) by (apply Rmult_le_pos; [apply pos_INR|apply pow_le; tauto]).
    assert (P2 : (0 <= INR d ^ k * s ^ d)%R) by (apply Rmult_le_pos; [apply pow_le, pos_INR|apply pow_le; tauto]).
    apply Rle_lt_trans with (C * (INR d ^ k * s ^ d))%R; [apply Rmult_le_compat_r; assumption|]. replace eps with (C * (eps / C))%R by (field; lra). apply Rmult_lt_compat_l; assumption.
Qed.

(* The threshold: for every error probability below one percent the failure rate goes to zero as the codes grow, whatever the
   complex, boundaries, polarity, backend, shortest paths and matchings; the codes may be long in other directions, as long as the
   volume is polynomial in d. *)
Theorem C79_threshold : forall (q : R) (k : nat) (eps : R), (0 <= q < 1 / 100)%R -> (0 < eps)%R -> exists d0, forall D e b pol c ch M p A trial d,
  d0 <= d -> dims_ge2 D -> (forall a, In a (logical_axes e b) -> (Z.of_nat d <= get a D)%Z) -> (get AX D * get AY D * get AZ D <= Z.of_nat (d ^ k))%Z ->
  is_surface_code D e b pol c -> valid_choice (sc_stabs c) ch -> 0 < M -> (INR (flips M p) / INR M <= q)%R -> mwpm_trial (grid M) p c ch trial ->
  let n := List.length (node_list (sc_graph c)) in
  (INR (count_if (fails trial A) (all_draws M n)) / INR (M ^ n)%nat < eps)%R.
Proof.
  intros q k eps Hq He. set (X := (10 * sqrt q)%R).
  assert (HX : (0 <= X < 1)%R).
  { unfold X. pose proof (sqrt_pos q). split; [lra|]. assert (sqrt q < 1 / 10)%R; [|lra]. rewrite <- (sqrt_square (1 / 10)) by lra. apply sqrt_lt_1; lra. }
  destruct (poly_pow_small k X (eps * (1 - X) * (5 / 6))%R HX) as (d0 & Hd0); [nra|].
  exists (max 1 d0). intros D e b pol c ch M p A trial d Hd HD Hax Hvol HC Hch HM Hr HT n.
  assert (HR : (0 < INR M)%R) by (apply lt_0_INR; exact HM).
  assert (Hr0 : (0 <= INR (flips M p) / INR M)%R) by (apply Rmult_le_pos; [apply pos_INR|left; apply Rinv_0_lt_compat; exact HR]).
  set (r := (INR (flips M p) / INR M)%R) in *. set (x := (10 * sqrt r)%R).
  assert (Hxx : (0 <= x <= X)%R). { unfold x, X. pose proof (sqrt_pos r). split; [lra|]. assert (sqrt r <= sqrt q)%R by (apply sqrt_le_1; lra). lra. }
  pose proof (C79_failure_rate_exponential D e b pol c ch M p A trial d HD HC Hch HM HT Hax ltac:(lia) ltac:(fold r; fold x; lra)) as HB. cbv zeta in HB. fold n r x in HB.
  eapply Rle_lt_trans; [exact HB|].
  pose proof (stabs_le_volume D e b pol c HD HC) as HN. assert (HN' : (INR (List.length (sc_stabs c)) <= INR d ^ k)%R) by (rewrite <- pow_INR; apply le_INR; lia).
  assert (Hg : (x ^ d / (1 - x) <= X ^ d / (1 - X))%R).
  { assert (x ^ d <= X ^ d)%R by (apply pow_incr; lra). assert (/ (1 - x) <= / (1 - X))%R by (apply Rinv_le_contravar; lra). unfold Rdiv. apply Rmult_le_compat; [apply pow_le; lra|left; apply Rinv_0_lt_compat; lra|assumption|assumption]. }
  apply Rle_lt_trans with (6 / 5 * INR d ^ k * (X ^ d / (1 - X)))%R.
  - pose proof (pos_INR (List.length (sc_stabs c))). apply Rmult_le_compat; [lra| |lra|exact Hg]. apply Rmult_le_pos; [apply pow_le; lra|left; apply Rinv_0_lt_compat; lra].
  - specialize (Hd0 d ltac:(lia)). replace (6 / 5 * INR d ^ k * (X ^ d / (1 - X)))%R with (INR d ^ k * X ^ d * (6 / 5 / (1 - X)))%R by (field; lra).
    replace eps with (eps * (1 - X) * (5 / 6) * (6 / 5 / (1 - X)))%R by (field; lra). apply Rmult_lt_compat_r; [apply Rdiv_lt_0_compat; lra|exact Hd0].
Qed.

(* The same for ec_monte_carlo: over all equally likely draws the mean of errors / trials obeys the bound, for every number of trials. *)
Theorem C79_monte_carlo : forall D e b pol c ch M p A trial d T, dims_ge2 D -> is_surface_code D e b pol c -> valid_choice (sc_stabs c) ch ->
  0 < M -> 0 < T -> mwpm_trial (grid M) p c ch trial ->
  (forall a, In a (logical_axes e b) -> (Z.of_nat d <= get a D)%Z) -> 1 <= d ->
  let n := List.length (node_list (sc_graph c)) in let x := (10 * sqrt (INR (flips M p) / INR M))%R in (x < 1)%R ->
  exists errors : list nat -> nat,
    (forall ds, List.length ds = T * n -> exists st', mc_single trial (Z.of_nat T) 1 0 (A, ds) = (st', Ok (Z.of_nat (errors ds)))) /\
    (INR (nsum errors (all_draws M (T * n))) / (INR T * INR (List.length (all_draws M (T * n)))) <= 6 / 5 * INR (List.length (sc_stabs c)) * (x ^ d / (1 - x)))%R.
Proof.
  intros D e b pol c ch M p A trial d T HD HC Hch HM HTT HT Hd Hd1 n x Hx.
  assert (U : uniform_decoder (grid M) p c ch trial) by (left; exact HT).
  destruct (C71_unbiased D e b pol c ch M p A A trial T HD HC Hch HM U) as (errors & H1 & H2). fold n in H1, H2. exists errors. split; [exact H1|].
  pose proof (C79_failure_rate_exponential D e b pol c ch M p A trial d HD HC Hch HM HT Hd Hd1 Hx) as HB. cbv zeta in HB. fold n x in HB.
  eapply Rle_trans; [|exact HB]. right. rewrite all_draws_len.
  assert (P : forall k, INR (M ^ k) <> 0%R) by (intros k; apply not_0_INR, Nat.pow_nonzero; lia). assert (HT0 : INR T <> 0%R) by (apply not_0_INR; lia).
  apply (f_equal INR) in H2. rewrite !mult_INR in H2. pose proof (P n) as Pn. pose proof (P (T * n)) as Pt.
  apply Rmult_eq_reg_r with (INR (M ^ n) * INR T * INR (M ^ (T * n)))%R; [|repeat apply Rmult_integral_contrapositive_currified; assumption].
  transitivity (INR (nsum errors (all_draws M (T * n))) * INR (M ^ n))%R; [field; split; assumption|]. rewrite H2. field. assumption.
Qed.

(* every cubic code with p = 1/200, drawn as multiples of 1/1000: the hypotheses of the theorems are met at every size *)
Example C79_nonvacuous : forall d e b pol, 2 <= d ->
  let D := (Z.of_nat d, Z.of_nat d, Z.of_nat d) in let c := mk_code D e b pol in let ch := fun i j => hd (0, 0, 0)%Z (shared (sc_stabs c) i j) in
  exists trial, mwpm_trial (grid 1000) (5 / 1000) c ch trial /\ dims_ge2 D /\ is_surface_code D e b pol c /\ valid_choice (sc_stabs c) ch /\
    (forall a, In a (logical_axes e b) -> (Z.of_nat d <= get a D)%Z) /\ (get AX D * get AY D * get AZ D <= Z.of_nat (d ^ 3))%Z /\
    (INR (flips 1000 (5 / 1000)) / INR 1000 = 1 / 200)%R.
Proof.
  intros d e b pol Hd D c ch. assert (HD : dims_ge2 D) by (intros []; cbn; lia). assert (HC : is_surface_code D e b pol c) by apply mk_code_ok.
  assert (Hch : valid_choice (sc_stabs c) ch) by apply first_choice_valid.
  exists (iid_mwpm_trial (grid 1000) (5 / 1000) c ch nx_report (search_oracle (sg_edges (sc_stabs c) (sc_bound c) ch) (fun _ => 1%Z)) search_match).
  split; [|split; [exact HD|split; [exact HC|split; [exact Hch|split; [intros []; cbn; lia|split]]]]].
  - exists nx_report, (search_oracle (sg_edges (sc_stabs c) (sc_bound c) ch) (fun _ => 1%Z)), search_match. split; [left; reflexivity|]. split; [apply search_oracle_ok; intros; lia|]. split; [apply search_match_ok|reflexivity].
  - unfold D. cbn [get Nat.pow]. rewrite !Nat2Z.inj_mul. lia.
  - assert (H1 : (INR 1000 = 1000)%R) by (rewrite INR_IZR_INZ; reflexivity). assert (H2 : (INR 5 = 5)%R) by (rewrite INR_IZR_INZ; reflexivity).
    destruct (C71_draw_probability 1000 (5 / 1000) ltac:(lia) ltac:(lra)) as (_ & _ & Hf). rewrite (Hf 5); [rewrite H1, H2; lra|rewrite H1, H2; reflexivity].
Qed.
Print Assumptions C79_failure_rate_exponential. Print Assumptions C79_threshold. Print Assumptions C79_monte_carlo.
