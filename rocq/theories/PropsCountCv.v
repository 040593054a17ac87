(* PropsCountCv.v: C62 for simulations with continuous-variable noise. *)
From Coq Require Import String Reals Lra.
From Verif Require Import Base Lattice RhgModel RhgSpec RhgProofs RhgDegree SurfaceModel SurfaceSpec SurfaceProofs SurfaceIncidence SurfaceTheorems StabGraphModel PropsSurface
  GkpModel OpsModel EgraphModel EgraphSpec CvModel CvSpec CvProofs CvNoise PropsCv CvSurface CvTrial MwpmModel MwpmInst PropsMwpm UfModel UfSpec UfInst PropsUf PropsUfDist.
From Verif Require Import SimModel SimSpec SimProofs PropsHomology PropsCount PropsGkp PropsGauge PropsCvDecode.
Open Scope Z_scope.

(* a trial of a simulation with the layer v, whose random values are d: `lay` is the layer after apply_noise, with the
   p-squeezed states of the trial; the bit of a syndrome qubit is the binned homodyne outcome, the noise of its own momentum plus
   the weighted position noise of its neighbours; correct() turns the bits `noise` into `after`, without syndrome *)
Definition one_cv_trial (c : scode) (correct : cv -> (point -> bool) -> res ((point -> bool) * bool)) (v : cv) (d : draws) (lay : cv) (noise after : point -> bool) : Prop :=
  inds_of lay "p" = trial_p v d /\
  (exists sq sp, std_spec v (inds_of lay "p") (inds_of lay "GKP") sq sp /\ forall i q, In q (sc_syn c) -> node_at v i q ->
     noise q = Z.odd (v_trans v (sp i * d_z d (v_N v + i)%nat + Rsum (fun j => v_adj v i j * (sq j * d_z d j)) (v_N v))%R)) /\
  (exists r, correct lay noise = Ok (after, r)) /\
  (exists qs, incl qs (sc_syn c) /\ forall q, after q = xorb (noise q) (pmem q qs)) /\
  (forall st, In st (sc_stabs c) -> stab_parity after st = false).

Lemma cv_store_same v bit : same_states v (cv_store v bit).
Proof. split; [repeat split|]. split; [reflexivity|]. intros q. unfold cv_store, set_attr. cbn [v_attr]. destruct (a_bit (v_attr v q)); reflexivity. Qed.

Section Cv.
  Variables (c : scode) (correct : cv -> (point -> bool) -> res ((point -> bool) * bool)) (v0 : cv) (inds : list nat).
  Hypothesis exact : forall v bit, exists bit' r qs, correct v bit = Ok (bit', r) /\ (incl qs (sc_syn c) /\ forall q, bit' q = xorb (bit q) (pmem q qs)) /\
    (forall st, In st (sc_stabs c) -> stab_parity bit' st = false) /\ (r = true <-> gauge_pattern c bit').
  Hypotheses (HF : fresh_layer v0) (HL : code_layer v0 inds (sc_syn c)) (Ho : v_order v0 = "initial"%string) (Hd : v_delta v0 <> 0%R)
    (Ha : forall x, v_states v0 = [("p"%string, x)] -> x_arr x = true).

  Definition cv_did (st : cv * (nat -> draws)) (t : nat) (info : cv * ((point -> bool) * (point -> bool))) (r : bool) : Prop :=
    one_cv_trial c correct v0 (snd st t) (fst info) (fst (snd info)) (snd (snd info)) /\ (r = true <-> gauge_pattern c (snd (snd info))).

  Lemma cv_runs : forall n st, live v0 (fst st) /\ (forall k, draws_ok (v_N v0) (snd st k)) ->
    exists outs st' info, runs (cv_trial correct) st outs st' /\ List.length outs = n /\ forall t, (t < n)%nat -> cv_did st t (info t) (nth t outs false).
  Proof.
    induction n as [|n IH]; intros [v ds] [Hv Hds]; cbn [fst snd] in *.
    { exists [], (v, ds), (fun _ => (v0, (fun _ => false, fun _ => false))). split; [constructor|]. split; [reflexivity|]. intros; lia. }
    destruct (apply_noise_ok v0 v (ds 0%nat) inds (sc_syn c) HF Hv (Hds 0%nat) HL Ho Hd Ha) as (v1 & sq & sp & E & HL1 & P & _ & _ & Std & Hh).
    destruct (exact v1 (cv_bits v1)) as (bit' & r & qs & K1 & K2 & K3 & K4).
    destruct (IH (cv_store v1 bit', fun k => ds (S k))) as (outs & st' & info & R1 & R2 & R3).
    { cbn [fst snd]. split; [apply (live_kept v0 v1 _ HL1), cv_store_same|intros k; apply Hds]. }
    exists (r :: outs), st', (fun t => match t with O => (v1, (cv_bits v1, bit')) | S t' => info t' end). split; [|split].
    - apply (runs_cons (cv_trial correct) (v, ds) r (cv_store v1 bit', fun k => ds (S k)) outs st'); [|exact R1]. unfold cv_trial. cbn [fst snd]. rewrite E, K1. reflexivity.
    - cbn [List.length]. lia.
    - intros [|t] Ht; cbn [nth].
      + unfold cv_did. cbn [fst snd]. split; [|exact K4]. split; [exact P|]. split.
        { exists sq, sp. split; [exact Std|]. intros i q Hq Hn. destruct (Hh i q Hq Hn) as (h & _ & Hb & Eh). unfold cv_bits. rewrite Hb, Eh. reflexivity. }
        split; [eauto|]. split; [exists qs; exact K2|exact K3].
      + apply (R3 t). lia.
  Qed.
End Cv.

(* C62, continuous-variable noise: a simulation with a CVLayer on a surface code (initial sampling order, finite squeezing, documented
   states), with either decoder and whatever weights the decoder computes from the node attributes in each trial, runs to its end, and the
   number of errors it reports is exactly the number of trials in which the bits that are left act on the encoded information. *)
Theorem C62_cv_errors_are_logical_failures : forall D e b pol c ch inds a0 perf delta states p_swap order trans,
  dims_ge2 D -> is_surface_code D e b pol c -> valid_choice (sc_stabs c) ch -> code_inds c inds ->
  match perf with Some l => incl l (node_list (sc_graph c)) | None => True end ->
  (0 < delta)%R -> documented_states (List.length (node_list (sc_graph c))) states p_swap -> order = None \/ order = Some "initial"%string ->
  let E := sg_edges (sc_stabs c) (sc_bound c) ch in
  forall correct,
  (exists rp w o pick, (forall v, oracle_ok E (w v) (o v)) /\ (forall v mg, best_matching mg (pick v mg)) /\ correct = (fun v bit => correct_mwpm rp c ch (w v) (o v) (pick v) bit false)) \/
  (exists er lib sch fuel, (forall v, lib_ok E (lib v)) /\ (forall v, sched_ok (sch v)) /\ (2 * List.length E + 2 <= fuel)%nat /\ correct = (fun v bit => correct_uf c ch (er v) (lib v) (sch v) fuel bit false)) ->
  exists g v, cv_init (code_egraph c) a0 perf (Some (inds, sc_syn c)) delta states p_swap order trans = (g, Ok v) /\
    forall trials (ds : nat -> draws), 0 <= trials -> (forall k, draws_ok (v_N v) (ds k)) ->
    exists st' errors (lay : Z -> cv) (noise after : Z -> point -> bool) (bad : list Z),
      mc_single (cv_trial correct) trials 1 0 (v, ds) = (st', Ok errors) /\ NoDup bad /\ (forall i, In i bad -> 0 <= i < trials) /\ errors = Z.of_nat (List.length bad) /\
      forall i, 0 <= i < trials -> one_cv_trial c correct v (ds (Z.to_nat i)) (lay i) (noise i) (after i) /\ (In i bad <-> ~ gauge_pattern c (after i)).
Proof.
  intros D e b pol c ch inds a0 perf delta states p_swap order trans HD HC Hch Hi Hp Hde Hst Hor E correct Hdec.
  assert (K : forall v bit, exists bit' r qs, correct v bit = Ok (bit', r) /\ (incl qs (sc_syn c) /\ forall q, bit' q = xorb (bit q) (pmem q qs)) /\
    (forall st, In st (sc_stabs c) -> stab_parity bit' st = false) /\ (r = true <-> gauge_pattern c bit')).
  { intros v bit. destruct Hdec as [(rp & w & o & pick & Hora & Hpk & ->)|(er & lib & sch & fuel & Hl & Hsc & Hf & ->)];
      [apply (exact_mwpm D e b pol c ch HD HC Hch); [apply Hora|apply Hpk]|apply (exact_uf D e b pol c ch HD HC Hch); [apply Hl|apply Hsc|exact Hf]]. }
  assert (Hs : p_swap <> None -> forall s, states = Some s -> exists x, dget String.eqb s "p"%string = Some x /\ x_l x = []).
  { intros Hn s Es. destruct p_swap as [x|]; [|congruence]. destruct Hst as (_ & [H|[H|H]] & Hne); [congruence|congruence|]. rewrite H in Es. injection Es as <-. exists (arr []). split; reflexivity. }
  destruct (code_cv_init D e b pol c HD HC a0 perf delta states p_swap order trans inds Hi Hp Hs) as (g & v & E' & H1 & H2 & H3 & H4 & Hnode & H5 & H6 & H7 & H8 & H9).
  exists g, v. split; [exact E'|].
  assert (Hx : exists l, v_states v = [("p"%string, arr l)] /\ forall i, In i l -> (i < v_N v)%nat).
  { rewrite H9, H3. unfold documented_states in Hst. destruct p_swap as [x|].
    - destruct Hst as (_ & [->|[->| ->]] & _); exists []; (split; [reflexivity|intros i []]).
    - destruct Hst as [->|[->|(l & -> & Hl)]]; [exists []; split; [reflexivity|intros i []]|exists []; split; [reflexivity|intros i []]|exists l; split; [reflexivity|exact Hl]]. }
  assert (HF : fresh_layer v).
  { split; [exact H1|]. split; [destruct Hx as (l & Hl & Hl2); exists (arr l); split; [exact Hl|exact Hl2]|]. rewrite H6. unfold documented_states in Hst. destruct p_swap; [apply Hst|exact I]. }
  assert (Ho : v_order v = "initial"%string) by (rewrite H7; destruct Hor as [-> | ->]; reflexivity).
  assert (Ha : forall x, v_states v = [("p"%string, x)] -> x_arr x = true) by (intros x Ex; destruct Hx as (l & Hl & _); rewrite Hl in Ex; injection Ex as <-; reflexivity).
  assert (Hdn : v_delta v <> 0%R) by lra.
  intros trials ds Ht Hds.
  destruct (gen_serial _ (cv_did c correct v) (fun st => live v (fst st) /\ (forall k, draws_ok (v_N v) (snd st k))) (cv_runs c correct v inds K HF H2 Ho Hdn Ha) trials (v, ds) Ht (conj (fresh_live v) Hds))
    as (st' & errors & info & bad & G1 & G2 & G3 & G4 & G5).
  exists st', errors, (fun i => fst (info i)), (fun i => fst (snd (info i))), (fun i => snd (snd (info i))), bad. split; [exact G1|]. split; [exact G2|]. split; [exact G3|]. split; [exact G4|].
  intros i Hi'. destruct (G5 i Hi') as (r & [O1 O2] & O3). split; [exact O1|]. rewrite O3, <- O2. destruct r; split; [discriminate|intros H; contradiction|discriminate|reflexivity].
Qed.
Print Assumptions C62_cv_errors_are_logical_failures.

(* Reliable measurements (calm, see C57) outside L: the bits are a gauge pattern plus at most |L| errors. *)
Lemma calm_errors D e b pol c v sq sp z (noise : point -> bool) (L : list point) : dims_ge2 D -> is_surface_code D e b pol c -> unit_weights c -> numbered v ->
  (forall i j p q, node_at v i p -> node_at v j q -> v_adj v i j = IZR (match edge_attr (sc_graph c) p q with Some t => eweight t | None => 0 end)) ->
  (forall i q, In q (sc_syn c) -> node_at v i q -> noise q = Z.odd (fst (GKP_binner (sp i * z (v_N v + i)%nat + Rsum (fun j => v_adj v i j * (sq j * z j)) (v_N v))%R))) ->
  (forall q, In q (sc_syn c) -> ~ In q L -> calm c v sq sp z q) ->
  exists s err, (forall q, noise q = xorb (xsum s (nbrs (sc_graph c) q)) (err q)) /\ (List.length (filter err (sc_syn c)) <= List.length L)%nat.
Proof.
  intros HD HC Huw H1 H4 Hh HL.
  set (x := fun u => (sq (index_of v u) * z (index_of v u))%R). set (s := fun u => Z.odd (fst (GKP_binner (x u)))).
  set (err := fun q => xorb (xsum s (nbrs (sc_graph c) q)) (noise q)).
  exists s, err. split.
  { intros q. unfold err. destruct (xsum s (nbrs (sc_graph c) q)), (noise q); reflexivity. }
  apply (loud_few D e b pol c err L HD HC). intros q Hq HqL. destruct (HL q Hq HqL) as (i & Hni & Hmom & Hnb).
  pose proof (Hh i q Hq Hni) as Hb. unfold err. rewrite Hb. clear Hb.
  set (us := nbrs (sc_graph c) q) in *.
  assert (Hus : exists vs, set_enum (six_body_points D (code_bnds e b)) vs /\ sc_graph c = rhg_graph D (code_bnds e b) pol vs) by (apply HC). destruct Hus as (vs & Hvs & EG).
  assert (Hnd : NoDup us) by (unfold us; rewrite EG; apply G_nbrs_NoDup).
  assert (Hlen : (List.length us <= 4)%nat).
  { unfold us. rewrite EG. apply (degree_le_4 D (code_bnds e b) (ge2_ok D _ HD) HD pol vs Hvs). rewrite <- EG. destruct (C05_qubits_checked_once_or_twice D e b pol c HD HC) as (_ & H & _). apply H. exact Hq. }
  assert (Hat : forall u, In u us -> node_at v (index_of v u) u). { intros u Hu. destruct (Hnb u Hu) as (j & m & Hj & _). rewrite (index_of_ok v j u H1 Hj). exact Hj. }
  set (w := fun u => v_adj v i (index_of v u)).
  assert (Hsum : Rsum (fun j => v_adj v i j * (sq j * z j))%R (v_N v) = sumR (map (fun u => w u * x u)%R us)).
  { rewrite (Rsum_list _ _ (map (index_of v) us)).
    - rewrite map_map. reflexivity.
    - apply NoDup_map_inj; [|exact Hnd]. intros u1 u2 Hu1 Hu2 Eu. pose proof (Hat u1 Hu1) as A1. pose proof (Hat u2 Hu2) as A2. unfold node_at in A1, A2. rewrite Eu in A1. congruence.
    - intros j Hj. apply in_map_iff in Hj. destruct Hj as (u & <- & Hu). apply (proj1 H1). exists u. apply Hat. assumption.
    - intros j Hj Hnj. destruct (proj2 (proj1 H1 j) Hj) as (u & Hu). rewrite (H4 i j q u Hni Hu). destruct (edge_attr (sc_graph c) q u) as [t|] eqn:Et; [|simpl; lra].
      exfalso. apply Hnj. apply in_map_iff. exists u. split; [apply (index_of_ok v j u H1 Hu)|]. unfold us. apply nbrs_iff. congruence. }
  destruct (sum_multiples us w x s) as (M & HM & EM).
  { intros u Hu. unfold w. rewrite (H4 i _ q u Hni (Hat u Hu)). apply nbrs_iff in Hu. destruct (edge_attr (sc_graph c) q u) as [t|] eqn:Et; [|congruence]. destruct (Huw q u t Et) as [-> | ->]; [left; reflexivity|right; reflexivity]. }
  { intros u Hu. destruct (Hnb u Hu) as (j & m & Hj & Hm). exists m. unfold s, x. rewrite (index_of_ok v j u H1 Hj). split; [exact Hm|]. apply binner_odd. pose proof spi_pos. lra. }
  rewrite EM, (binner_odd M); [destruct (Z.odd M); reflexivity|].
  rewrite Hsum. set (S := sumR (map (fun u => w u * x u)%R us)) in *. apply Rabs_def2 in Hmom. pose proof spi_pos as Hpos.
  assert (HL4 : (INR (List.length us) <= 4)%R) by (replace 4%R with (INR 4) by (simpl; lra); apply le_INR; exact Hlen).
  assert (Hk : (INR (List.length us) * (sqrt PI / 10) <= 4 * (sqrt PI / 10))%R) by (apply Rmult_le_compat_r; lra).
  assert (HM' : (- (4 * (sqrt PI / 10)) <= S - IZR M * sqrt PI <= 4 * (sqrt PI / 10))%R). { clear - HM Hk. unfold Rabs in HM. destruct (Rcase_abs _) in HM; lra. }
  apply Rabs_def1; lra.
Qed.

(* With uniform weights, the default translator and edge weights 1 or -1, at most the trials of `loud` are reported as errors, if in every
   other trial the measurement is reliable (calm) at all syndrome qubits but fewer than d/2; G is the list of GKP states of the trial. *)
Theorem C62_cv_error_bound : forall D e b pol c ch inds a0 perf delta states p_swap order,
  dims_ge2 D -> is_surface_code D e b pol c -> valid_choice (sc_stabs c) ch -> unit_weights c -> code_inds c inds ->
  match perf with Some l => incl l (node_list (sc_graph c)) | None => True end ->
  (0 < delta)%R -> documented_states (List.length (node_list (sc_graph c))) states p_swap -> order = None \/ order = Some "initial"%string ->
  let E := sg_edges (sc_stabs c) (sc_bound c) ch in
  forall correct,
  (exists rp o pick, (rp = nx_report \/ rp = rx_report 1) /\ (forall v, oracle_ok E (fun _ => 1) (o v)) /\ (forall v mg, best_matching mg (pick v mg)) /\
     correct = (fun v bit => correct_mwpm rp c ch (fun _ => 1) (o v) (pick v) bit false)) \/
  (exists lib sch fuel, (forall v, lib_ok E (lib v)) /\ (forall v u, NoDup (l_out (lib v) u)) /\ (forall v, sched_ok (sch v)) /\ (2 * List.length E + 2 <= fuel)%nat /\
     correct = (fun v bit => correct_uf c ch (fun _ => false) (lib v) (sch v) fuel bit false)) ->
  exists g v, cv_init (code_egraph c) a0 perf (Some (inds, sc_syn c)) delta states p_swap order None = (g, Ok v) /\ numbered v /\
    forall trials (ds : nat -> draws) (loud : list Z), 0 <= trials -> (forall k, draws_ok (v_N v) (ds k)) ->
    (forall i, 0 <= i < trials -> ~ In i loud -> forall G sq sp, std_spec v (trial_p v (ds (Z.to_nat i))) G sq sp ->
       exists L : list point, (forall a, In a (logical_axes e b) -> 2 * Z.of_nat (List.length L) < get a D) /\
         forall q, In q (sc_syn c) -> ~ In q L -> calm c v sq sp (d_z (ds (Z.to_nat i))) q) ->
    exists st' errors, mc_single (cv_trial correct) trials 1 0 (v, ds) = (st', Ok errors) /\ 0 <= errors <= Z.of_nat (List.length loud).
Proof.
  intros D e b pol c ch inds a0 perf delta states p_swap order HD HC Hch Huw Hi Hp Hde Hst Hor E correct Hdec.
  destruct (C62_cv_errors_are_logical_failures D e b pol c ch inds a0 perf delta states p_swap order None HD HC Hch Hi Hp Hde Hst Hor correct) as (g & v & Ev & HS).
  { destruct Hdec as [(rp & o & pick & _ & Ho & Hpk & ->)|(lib & sch & fuel & Hl & _ & Hs & Hf & ->)];
      [left; exists rp, (fun _ _ => 1), o, pick; auto|right; exists (fun _ _ => false), lib, sch, fuel; auto]. }
  assert (Hs : p_swap <> None -> forall s, states = Some s -> exists x, dget String.eqb s "p"%string = Some x /\ x_l x = []).
  { intros Hn s Es. destruct p_swap as [x|]; [|congruence]. destruct Hst as (_ & [H|[H|H]] & Hne); [congruence|congruence|]. rewrite H in Es. injection Es as <-. exists (arr []). split; reflexivity. }
  destruct (code_cv_init D e b pol c HD HC a0 perf delta states p_swap order None inds Hi Hp Hs) as (g' & v' & E' & H1 & _ & _ & H4 & _ & _ & _ & _ & H8 & _).
  rewrite Ev in E'. injection E' as <- <-. exists g, v. split; [exact Ev|]. split; [exact H1|]. intros trials ds loud Ht Hds Hq.
  destruct (HS trials ds Ht Hds) as (st' & errors & lay & noise & after & bad & G1 & G2 & G3 & G4 & G5). exists st', errors. split; [exact G1|]. split; [rewrite G4; lia|].
  rewrite G4. apply inj_le. apply NoDup_incl_length; [exact G2|]. intros i Hbad. pose proof (G3 i Hbad) as Hir. destruct (in_dec Z.eq_dec i loud) as [|Hn]; [assumption|]. exfalso.
  destruct (G5 i Hir) as [(P1 & (sq & sp & Std & Hh) & (r & Hc) & _ & _) Hb]. apply (proj1 Hb Hbad). rewrite P1 in Std.
  destruct (Hq i Hir Hn _ sq sp Std) as (L & HL & Hcalm). rewrite H8 in Hh.
  destruct (calm_errors D e b pol c v sq sp _ (noise i) L HD HC Huw H1 H4 Hh Hcalm) as (s & err & Hbit & Hlen).
  destruct (C57_small_errors_modulo_gauge D e b pol c ch s (noise i) err HD HC Hch (fun q _ => Hbit q)) as [KM KU].
  { intros a Ha. specialize (HL a Ha). lia. }
  destruct (C61_success_exact D e b pol c ch (noise i) false HD HC Hch) as [XM XU].
  destruct Hdec as [(rp & o & pick & Hrp & Ho & Hpk & ->)|(lib & sch & fuel & Hl & Hnd & Hsc & Hf & ->)].
  - destruct (KM rp (o (lay i)) (pick (lay i)) false Hrp (Ho _) (Hpk _)) as (b1 & K1). destruct (XM rp (fun _ => 1) (o (lay i)) (pick (lay i)) (Ho _) (Hpk _)) as (b2 & r2 & K2 & K3).
    rewrite Hc in K1, K2. assert (Er : r2 = true) by congruence. assert (Eb : b2 = after i) by congruence. rewrite <- Eb. apply K3. exact Er.
  - destruct (KU (lib (lay i)) (sch (lay i)) fuel false (Hl _) (Hnd _) (Hsc _) Hf) as (b1 & K1). destruct (XU (fun _ => false) (lib (lay i)) (sch (lay i)) fuel (Hl _) (Hsc _) Hf) as (b2 & r2 & K2 & K3).
    rewrite Hc in K1, K2. assert (Er : r2 = true) by congruence. assert (Eb : b2 = after i) by congruence. rewrite <- Eb. apply K3. exact Er.
Qed.
Print Assumptions C62_cv_error_bound.

(* the hypotheses are met: swapped-out states, draws that are not zero; calm trials and a loud measurement: C57_cv_witness *)
Example C62_cv_nonvacuous : let c := mk_code (3, 2, 4) EcPrimal BdOpen None in
  let ch := fun i j => hd (0, 0, 0) (shared (sc_stabs c) i j) in
  let E := sg_edges (sc_stabs c) (sc_bound c) ch in
  let correct := fun (_ : cv) bit => correct_uf c ch (fun _ => false) (kruskal_lib E) rev_sched (2 * List.length E + 2) bit false in
  let d := {| d_p := []; d_unif := fun _ => (1 / 2)%R; d_bit := fun k => Z.of_nat k mod 2; d_z := fun k => INR k; d_z2 := fun k => INR k; d_list := fun l => rev l |} in
  exists inds g v st' errors, cv_init (code_egraph c) (fun _ => no_attrs) None (Some (inds, sc_syn c)) (1 / 10)%R None (Some (1 / 4)%R) None None = (g, Ok v) /\
    mc_single (cv_trial correct) 3 1 0 (v, fun _ => d) = (st', Ok errors).
Proof.
  intros c ch E correct d. assert (HD : dims_ge2 (3, 2, 4)) by (intros []; simpl; lia). assert (HC : is_surface_code (3, 2, 4) EcPrimal BdOpen None c) by apply mk_code_ok.
  assert (Hch : valid_choice (sc_stabs c) ch) by apply first_choice_valid.
  destruct (code_inds_exist _ _ _ _ _ HD HC) as (inds & Hi). clearbody c. exists inds.
  destruct (C62_cv_errors_are_logical_failures (3, 2, 4) EcPrimal BdOpen None c ch inds (fun _ => no_attrs) None (1 / 10)%R None (Some (1 / 4)%R) None None HD HC Hch Hi I ltac:(lra)) with (correct := correct) as (g & v & Ev & K).
  - split; [lra|]. split; [left; reflexivity|discriminate].
  - left; reflexivity.
  - right. exists (fun _ _ => false), (fun _ => kruskal_lib E), (fun _ => rev_sched), (2 * List.length E + 2)%nat.
    split; [intros _; apply kruskal_lib_ok|]. split; [intros _; apply rev_sched_ok|]. split; [apply Nat.le_refl|reflexivity].
  - destruct (K 3 (fun _ => d) ltac:(lia)) as (st' & errors & lay & noise & after & bad & G & _).
    + intros _. split; [constructor|]. split; [intros i []|]. split; [intros k; cbn [d_unif d]; lra|]. split; [intros k; cbn [d_bit d]; pose proof (Z.mod_pos_bound (Z.of_nat k) 2 ltac:(lia)); lia|].
      intros l _. apply Permutation_sym, Permutation_rev.
    + exists g, v, st', errors. split; [exact Ev|exact G].
Qed.
