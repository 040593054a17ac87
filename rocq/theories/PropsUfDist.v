(* PropsUfDist.v: C54 and C55, what the Union-Find decoder corrects; C56, what its result
   depends on. *)
From Coq Require Import Relations.
From Verif Require Import Base Lattice RhgModel RhgSpec RhgProofs RhgDegree SurfaceModel SurfaceSpec SurfaceProofs SurfaceIncidence SurfaceTheorems
  StabGraphModel Complex Paths SurfaceComplex MwpmModel MwpmProofs UfModel UfTrees UfSpec UfPeel PropsUfTrees UfGrow UfSync UfArcs UfDistance UfDecode UfInst
  PropsSurface PropsUf UfGeometry UfDet.
Open Scope Z_scope.

Lemma filter_len_map (f : point -> bool) (g : sedge -> bool) (S : list point) (l : list sedge) : NoDup l ->
  (forall e e', In e l -> In e' l -> snd e = snd e' -> e = e') ->
  (forall e, In e l -> g e = true -> exists q, snd e = Some q /\ f q = true /\ In q S) ->
  (length (filter g l) <= length (filter f S))%nat.
Proof.
  intros Hn Hi Hg. rewrite <- (map_length (@snd (snode * snode) (option point))), <- (map_length Some (filter f S)).
  apply NoDup_incl_length.
  - apply NoDup_map_inj; [|apply NoDup_filter; assumption]. intros x y Hx Hy. apply filter_In in Hx, Hy. apply Hi; tauto.
  - intros o Ho. apply in_map_iff in Ho. destruct Ho as (e & <- & He). apply filter_In in He. destruct He as [He Hge].
    destruct (Hg e He Hge) as (q & -> & Hf & HS). apply in_map. apply filter_In. auto.
Qed.

Theorem C55_uf_erasures_and_errors :
  forall D e b pol c ch er lib sch fuel bit sanity,
  dims_ge2 D -> is_surface_code D e b pol c -> valid_choice (sc_stabs c) ch ->
  let E := sg_edges (sc_stabs c) (sc_bound c) ch in
  lib_ok E lib -> (forall u, NoDup (l_out lib u)) -> sched_ok sch -> (2 * length E + 2 <= fuel)%nat ->
  (* s errors outside the erasure, t erased qubits, tb of them on the boundary *)
  let s := Z.of_nat (length (filter (fun q => bit q && negb (er q)) (sc_syn c))) in
  let t := Z.of_nat (length (filter er (sc_syn c))) in
  let tb := Z.of_nat (length (filter er (sc_bound c))) in
  (forall a, get a (documented_bnds e b) = BPeriodic -> 3 <= get a D) ->
  (forall a, In a (logical_axes e b) -> 2 * (2 * s + t) + tb < 2 * get a D) ->
  exists bit', correct_uf c ch er lib sch fuel bit sanity = Ok (bit', true).
Proof.
  intros D e b pol c ch er lib sch fuel bit sanity H2 HC Hch E Hlib Hoend Hsch Hf s t tb H3 Hw.
  destruct (C22_uf_clears_syndrome D e b pol c ch er lib sch fuel bit sanity H2 HC Hch Hlib Hsch Hf)
    as (qs & bit' & r & Hd & Hqn & Hqs & Hrec & Hcor & Hbit' & Hclear).
  exists bit'. rewrite Hcor. destruct r; [reflexivity|exfalso].
  assert (Hck : check_correction c bit' sanity = Ok false).
  { unfold correct_uf in Hcor. unfold E in Hd. rewrite Hd in Hcor. cbn [bind] in Hcor. rewrite Hrec in Hcor. cbn [bind] in Hcor.
    destruct (check_correction c bit' sanity) as [ok|]; [|discriminate]. cbn [bind] in Hcor. injection Hcor as ->. reflexivity. }
  pose proof (surface_code_facts D e b pol c (ge2_ok D (code_bnds e b) H2) HC) as CF.
  pose proof (surface_wf D e b pol c H2 HC) as WF.
  assert (H3' : forall a', get a' (code_bnds e b) = BPeriodic -> 3 <= get a' D).
  { intros a' Ha'. apply H3. rewrite <- Ha'. destruct e, b, a'; reflexivity. }
  assert (Hbad : exists a, In a (logical_axes e b) /\ plane (sc_syn c) bit' a (par e) = true).
  { rewrite (check_correction_eq D e b pol c H2 HC) in Hck. injection Hck as Hck. clear - Hck.
    induction (logical_axes e b) as [|a l IH]; [discriminate|]. simpl in Hck.
    destruct (plane (sc_syn c) bit' a (par e)) eqn:Ep; [exists a; split; [left; reflexivity|assumption]|].
    simpl in Hck. destruct (IH Hck) as (a' & Ha' & Ep'). exists a'. split; [right|]; assumption. }
  destruct Hbad as (a & Ha & Hpl). specialize (Hw a Ha).
  destruct (proj1 (proj2 Hlib) (RE E)) as [HNd HN]. set (N := l_nodes lib (RE E)) in *.
  set (sp := fun i => stab_parity bit (stab_of (sc_stabs c) i)) in *.
  assert (HNi : forall i, In (NStab i) N -> (i < length (sc_stabs c))%nat).
  { intros i Hi. destruct (N_cases D c ch bit N HN _ Hi) as [(j & [= ->] & Hj)|(p & j & Hc & _)]; [assumption|discriminate]. }
  pose proof (edges_uniq (sc_stabs c) (sc_bound c) ch) as Huniq0.
  assert (Huniq : forall e e' u v, In e E -> In e' E -> same_pair u v e = true -> same_pair u v e' = true -> e = e') by (intros; eapply Huniq0; eauto).
  assert (HEnd : NoDup E) by (apply edges_nd; assumption).
  assert (HREnd : NoDup (RE E)) by (apply NoDup_filter; assumption).
  assert (Hcv : forall x y, In x (RE E) -> In y (RE E) -> snd x = snd y -> x = y) by (intros; eapply RE_cv; eauto).
  assert (Hloop : forall u v cv, In (u, v, cv) (RE E) -> u <> v).
  { intros u v cv H. apply RE_In in H. destruct H as (H & _). intros ->. eapply (edge_direction (sc_stabs c) (sc_bound c) ch); eauto. }
  assert (Hconn : forall x y, In x N -> In y N -> conn (RE E) x y) by (apply (uf_conn D e b pol c H2 HC ch Hch bit N HN)).
  assert (Heven : (exists x, In x N /\ label sp x = None) \/ xsum (fun x => parb (label sp x)) N = false)
    by (apply (uf_even D e b pol c H2 HC ch Hch bit N HNd HN)).
  destruct (decode_sum E er sp lib sch fuel) with (mem := fun q i => in_stab (sc_stabs c) i q) as (st & qs1 & Hg & Hd1 & _ & Hgr & _); auto.
  { intros ed i He Hi. eapply RE_mem; eauto. }
  fold E in Hd. rewrite Hd in Hd1. injection Hd1 as <-. fold N in Hg.
  assert (Hfuel : (length N < fuel)%nat).
  { pose proof (nodes_bound E lib Hlib (RE E)) as HbN. fold N in HbN. pose proof (RE_len E). lia. }
  set (T := py_range (par e - 1) (par e - 1 + 2 * get a D)).
  pose proof (H2 a) as Hd2. pose proof (par_cases e) as Hpc.
  assert (Hedge : forall q, In q (sc_syn c) -> bit' q = true ->
    exists u v, In (u, v, Some q) (RE E) /\ (u_st st (u, v, Some q) = Grown \/ bit q = true)).
  { intros q Hq Hb. rewrite Hbit' in Hb. destruct (qubit_edge D e b pol c H2 HC ch Hch a H3' q Hq) as (u & v & Huv).
    exists u, v. split; [assumption|]. destruct (bit q) eqn:Eb; [auto|]. left. rewrite xorb_false_l in Hb.
    unfold omem in Hb. destruct (in_dec opt_eq_dec (Some q) qs) as [Hin|]; [|discriminate].
    destruct (Hgr (Some q) Hin) as (ed & Hed & Hsn). apply filter_In in Hed. destruct Hed as [Hed Hgrn].
    assert (Heq : ed = (u, v, Some q)) by (apply Hcv; auto). subst ed. destruct (u_st st (u, v, Some q)); try discriminate. reflexivity. }
  assert (Hcount : Z.of_nat (length T) <= B0 E er (ebit bit) + Z.of_nat (length (b_er E er sp))).
  { eapply (growth_cover E er sp (l_out lib) sch fuel N Huniq Hloop (proj1 Hlib) Hoend Hsch HNd HN Hfuel
              (modulus D e b a) (pos D e b a) (dir D e b a) (ebit bit)); [..|exact Hg| | |].
    - intros u v cv Huv. destruct (RE_some _ _ _ _ _ _ Huv) as [_ (q & ->)].
      destruct (edge_geo D e b pol c H2 HC ch Hch a Ha u v q Huv) as (_ & G1 & _ & G2). auto.
    - intros i Hi. apply (parity_edges D e b pol c H2 HC ch Hch a H3' bit i). apply HNi. assumption.
    - intros x Hx Hl. apply (bound_extreme D e b pol c H2 HC ch a Ha H3' bit N HN x Hx Hl).
    - apply (comps_init E er lib Hlib).
    - apply NoDup_py_range.
    - intros x y Hx Hy (k & Hk). apply in_py_range in Hx, Hy. unfold modulus in Hk.
      destruct (get a (code_bnds e b)); try lia.
      assert (Hk0 : k = 0) by nia. subst k. lia.
    - intros x Hx. apply in_py_range in Hx.
      set (sx := if x mod 2 =? par e then x else x + 1).
      assert (Hsx : sx mod 2 = par e /\ (x = sx \/ x = sx - 1) /\ par e <= sx <= hi e (get a D)).
      { unfold sx, hi. unfold par in *. clear - Hx Hpc Hd2. destruct (Z.eqb_spec (x mod 2) (match e with EcPrimal => 0 | EcDual => 1 end)); destruct e; lia. }
      clearbody sx. destruct Hsx as (S1 & S2 & S3).
      assert (Hp : plane (sc_syn c) bit' a sx = true).
      { assert (Hk : exists k : nat, sx = par e + 2 * Z.of_nat k) by (exists (Z.to_nat ((sx - par e) / 2)); clear - S1 S3 Hpc; unfold par in *; destruct e; lia).
        destruct Hk as (k & Hk). rewrite Hk. rewrite (planes_equal D e (code_bnds e b) (sc_syn c) H2).
        - exact Hpl.
        - apply (cf_syn _ _ _ _ _ CF).
        - apply full_of_logical; assumption.
        - apply (trivial_iff D e b pol c H2 HC); assumption.
        - lia. }
      apply plane_witness in Hp. destruct Hp as (q & Hq & Hcq & Hbq).
      destruct (Hedge q Hq Hbq) as (u & v & Huv & Hor). exists (u, v, Some q). split; [assumption|].
      split; [exact Hor|]. destruct (edge_geo D e b pol c H2 HC ch Hch a Ha u v q Huv) as (_ & _ & G & _).
      rewrite Hcq in G. destruct (G S1) as [G1 G2]. split; [assumption|]. cbn [fst snd].
      destruct S2 as [S2|S2]; rewrite S2; [left; exact G2|right].
      match goal with |- (_ | ?z) => replace z with (sx - (pos D e b a u + dir D e b a (u, v, Some q))) by lia end. exact G2. }
  unfold T in Hcount. rewrite length_py_range in Hcount.
  assert (Hsyn : forall ed, In ed (RE E) -> exists q, snd ed = Some q /\ In q (sc_syn c)).
  { intros [[u v] cv] He. destruct (RE_some _ _ _ _ _ _ He) as [_ (q & ->)]. exists q. split; [reflexivity|].
    apply (edge_geo D e b pol c H2 HC ch Hch a Ha u v q He). }
  assert (C1 : (length (filter (erased er) (RE E)) <= length (filter er (sc_syn c)))%nat).
  { apply filter_len_map; auto. intros ed He Hg1. destruct (Hsyn ed He) as (q & Hq & HS). exists q. unfold erased in Hg1. rewrite Hq in Hg1. auto. }
  assert (C2 : (length (filter (err er (ebit bit)) (RE E)) <= length (filter (fun q => bit q && negb (er q)) (sc_syn c)))%nat).
  { apply filter_len_map; auto. intros ed He Hg1. destruct (Hsyn ed He) as (q & Hq & HS). exists q. unfold err, ebit, erased in Hg1. rewrite Hq in Hg1. auto. }
  assert (C3 : (length (b_er E er sp) <= length (filter er (sc_bound c)))%nat).
  { apply filter_len_map; auto. intros ed He Hg1. apply andb_true_iff in Hg1. destruct Hg1 as [Hg1 Hg2].
    destruct ed as [[u v] cv]. pose proof He as He'. apply RE_In in He'. destruct He' as (He' & _). apply in_E in He'.
    destruct He' as [(i & j & -> & -> & _)|[(i & p & -> & -> & _ & Hp & _ & ->)|[-> _]]]; [discriminate| |].
    - exists p. auto.
    - destruct (RE_some _ _ _ _ _ _ He) as [_ (q & Hq)]. discriminate. }
  unfold B0, n_er, n_err in Hcount. unfold s, t, tb in Hw. lia.
Qed.
Print Assumptions C55_uf_erasures_and_errors.

(* ------------------------------------------------------------------ *)
(* C54.  Without erasures the Union-Find decoder corrects fewer than d/2 errors, on every code,
   for every answer of the library and every order in which sets are visited. *)
Theorem C54_uf_corrects_small_errors :
  forall D e b pol c ch lib sch fuel bit sanity,
  dims_ge2 D -> is_surface_code D e b pol c -> valid_choice (sc_stabs c) ch ->
  let E := sg_edges (sc_stabs c) (sc_bound c) ch in
  lib_ok E lib -> (forall u, NoDup (l_out lib u)) -> sched_ok sch -> (2 * length E + 2 <= fuel)%nat ->
  (forall a, In a (logical_axes e b) -> 2 * Z.of_nat (length (filter bit (sc_syn c))) < get a D) ->
  exists bit', correct_uf c ch (fun _ => false) lib sch fuel bit sanity = Ok (bit', true).
Proof.
  intros D e b pol c ch lib sch fuel bit sanity H2 HC Hch E Hlib Hoend Hsch Hf Hw.
  assert (Hz : forall l : list point, length (filter (fun _ => false) l) = 0%nat) by (induction l; auto).
  destruct (filter bit (sc_syn c)) as [|q0 l] eqn:Eb.
  - assert (Hn : forall q, In q (sc_syn c) -> bit q = false).
    { intros q Hq. destruct (bit q) eqn:Eq; [|reflexivity]. assert (Hi : In q []) by (rewrite <- Eb; apply filter_In; auto). destruct Hi. }
    destruct (C22_no_syndrome_no_flip D e b pol c ch (fun _ => false) lib sch fuel bit sanity H2 HC Hch Hlib Hsch Hf) as (bit' & r & Hcor & Hb).
    { intros st Hst. unfold stab_parity. apply xsum_all_false. intros q Hq. apply Hn. eapply stab_syn; eauto. }
    exists bit'. fold E. rewrite Hcor. do 2 f_equal.
    unfold correct_uf in Hcor. destruct (uf_decoder _ _ _ _ _ _) as [qs|]; [|discriminate]. cbn [bind] in Hcor.
    destruct (recovery _ _ _) as [bit1|]; [|discriminate]. cbn [bind] in Hcor.
    rewrite (check_correction_eq D e b pol c H2 HC) in Hcor. cbn [bind] in Hcor. injection Hcor as -> <-.
    apply forallb_forall. intros a _. apply negb_true_iff. unfold plane. apply xsum_all_false. intros q Hq.
    rewrite Hb, (Hn q Hq). apply andb_false_r.
  - apply (C55_uf_erasures_and_errors D e b pol c ch (fun _ => false) lib sch fuel bit sanity H2 HC Hch Hlib Hoend Hsch Hf).
    + intros a Ha. assert (Hl : In a (logical_axes e b)) by (clear - Ha; destruct e, b, a; simpl in *; try discriminate; tauto).
      specialize (Hw a Hl). cbn [length] in Hw. lia.
    + intros a Ha. specialize (Hw a Ha). rewrite !Hz.
      assert (Ef : filter (fun q => bit q && negb false) (sc_syn c) = filter bit (sc_syn c)) by (apply filter_ext; intros; apply andb_true_r).
      rewrite Ef, Eb. lia.
Qed.
Print Assumptions C54_uf_corrects_small_errors.

(* The contracts can be met for every code. *)
Lemma kruskal_out_nd D e b pol c ch : dims_ge2 D -> is_surface_code D e b pol c -> valid_choice (sc_stabs c) ch ->
  forall u, NoDup (l_out (kruskal_lib (sg_edges (sc_stabs c) (sc_bound c) ch)) u).
Proof.
  intros H2 HC Hch u. pose proof (surface_wf D e b pol c H2 HC) as WF. apply k_out_nd.
  - apply edges_nd. assumption.
  - intros e1 e2 x y H1 H1' H3 H4. exact (edges_uniq (sc_stabs c) (sc_bound c) ch e1 e2 x y H1 H1' H3 H4).
  - intros x y cv H ->. exact (edge_direction (sc_stabs c) (sc_bound c) ch _ _ _ _ H H).
Qed.

Theorem C54_contracts_met :
  forall D e b pol c ch, dims_ge2 D -> is_surface_code D e b pol c -> valid_choice (sc_stabs c) ch ->
  let E := sg_edges (sc_stabs c) (sc_bound c) ch in
  exists lib, lib_ok E lib /\ (forall u, NoDup (l_out lib u)).
Proof.
  intros D e b pol c ch H2 HC Hch E. exists (kruskal_lib E). split; [apply kruskal_lib_ok|]. eapply kruskal_out_nd; eauto.
Qed.

(* Every code with at least three layers admits an error of weight one, and it is corrected. *)
Example C54_nonvacuous :
  forall D e b pol c ch q, dims_ge2 D -> is_surface_code D e b pol c -> valid_choice (sc_stabs c) ch ->
  (forall a, 3 <= get a D) -> In q (sc_syn c) ->
  let E := sg_edges (sc_stabs c) (sc_bound c) ch in
  exists lib bit', correct_uf c ch (fun _ => false) lib id_sched (2 * length E + 2) (fun p => peqb p q) false = Ok (bit', true).
Proof.
  intros D e b pol c ch q H2 HC Hch H3 Hq E. destruct (C54_contracts_met D e b pol c ch H2 HC Hch) as (lib & L1 & L2).
  exists lib. apply (C54_uf_corrects_small_errors D e b pol c ch lib id_sched _ _ false H2 HC Hch L1 L2 id_sched_ok (le_n _)).
  intros a _. specialize (H3 a).
  assert (Hl : (length (filter (fun p => peqb p q) (sc_syn c)) <= 1)%nat).
  { change 1%nat with (length [q]). apply NoDup_incl_length.
    - apply NoDup_filter. apply (cf_syn_nd _ _ _ _ _ (surface_code_facts D e b pol c (ge2_ok D _ H2) HC)).
    - intros p Hp. apply filter_In in Hp. destruct Hp as [_ Hp]. apply peqb_true in Hp. left. congruence. }
  lia.
Qed.

(* ------------------------------------------------------------------ *)
(* C55, the bound of the literature.  On a code without boundary points it holds. *)
Theorem C55_uf_textbook_bound_closed_codes :
  forall D e b pol c ch er lib sch fuel bit sanity,
  dims_ge2 D -> is_surface_code D e b pol c -> valid_choice (sc_stabs c) ch ->
  let E := sg_edges (sc_stabs c) (sc_bound c) ch in
  lib_ok E lib -> (forall u, NoDup (l_out lib u)) -> sched_ok sch -> (2 * length E + 2 <= fuel)%nat ->
  b <> BdOpen ->
  (forall a, get a (documented_bnds e b) = BPeriodic -> 3 <= get a D) ->
  (forall a, In a (logical_axes e b) ->
     2 * Z.of_nat (length (filter (fun q => bit q && negb (er q)) (sc_syn c))) + Z.of_nat (length (filter er (sc_syn c))) < get a D) ->
  exists bit', correct_uf c ch er lib sch fuel bit sanity = Ok (bit', true).
Proof.
  intros D e b pol c ch er lib sch fuel bit sanity H2 HC Hch E Hlib Hoend Hsch Hf Hb H3 Hw.
  apply (C55_uf_erasures_and_errors D e b pol c ch er lib sch fuel bit sanity H2 HC Hch Hlib Hoend Hsch Hf H3).
  pose proof (surface_code_facts D e b pol c (ge2_ok D (code_bnds e b) H2) HC) as CF.
  assert (Hn : sc_bound c = []).
  { assert (G : forall p, ~ In p (sc_bound c)).
    { intros p Hp. unfold sc_bound in Hp. apply in_app_iff in Hp. rewrite (cf_low _ _ _ _ _ CF), (cf_high _ _ _ _ _ CF) in Hp.
      destruct Hp as [[_ (x & Hx & _)]|[_ (x & Hx & _)]]; destruct b; simpl in Hx; congruence. }
    destruct (sc_bound c) as [|p l]; [reflexivity|]. exfalso. apply (G p). left; reflexivity. }
  intros a Ha. specialize (Hw a Ha). rewrite Hn. cbn [filter length]. lia.
Qed.

(* Refuted on codes with boundary: 2s + t < d does not suffice.  Two erased qubits on a code
   of distance three, both in error: the decoder returns the wrong class.  The clusters of
   both erased qubits contain a boundary point, but initialize_cluster_trees lists them as
   odd clusters, so they grow into each other, and the spanning forest then joins them. *)
Theorem C55_uf_textbook_bound_open_codes_refuted :
  let D := (3, 2, 2) in
  exists c ch er lib bit, dims_ge2 D /\ is_surface_code D EcPrimal BdOpen None c /\ valid_choice (sc_stabs c) ch /\
  let E := sg_edges (sc_stabs c) (sc_bound c) ch in
  lib_ok E lib /\ (forall u, NoDup (l_out lib u)) /\
  (forall a, In a (logical_axes EcPrimal BdOpen) ->
     2 * Z.of_nat (length (filter (fun q => bit q && negb (er q)) (sc_syn c))) + Z.of_nat (length (filter er (sc_syn c))) < get a D) /\
  exists bit', correct_uf c ch er lib id_sched (2 * length E + 2) bit false = Ok (bit', false).
Proof.
  intros D. set (c := mk_code D EcPrimal BdOpen None). set (ch := fun i j => hd (0, 0, 0) (shared (sc_stabs c) i j)).
  set (bit := fun q => pmem q [(0, 1, 1); (4, 1, 1)]).
  assert (H2 : dims_ge2 D) by (intros []; simpl; lia).
  assert (HC : is_surface_code D EcPrimal BdOpen None c) by (apply mk_code_ok).
  assert (Hch : valid_choice (sc_stabs c) ch).
  { intros i j _ Hs. unfold ch. destruct (shared (sc_stabs c) i j) as [|x l]; [congruence|left; reflexivity]. }
  exists c, ch, bit, (kruskal_lib (sg_edges (sc_stabs c) (sc_bound c) ch)), bit.
  split; [assumption|]. split; [assumption|]. split; [assumption|]. intros E.
  split; [apply kruskal_lib_ok|]. split.
  { exact (kruskal_out_nd D EcPrimal BdOpen None c ch H2 HC Hch). }
  split.
  - intros a [<-|[]]. vm_compute. reflexivity.
  - pose proof (C22_uf_clears_syndrome D EcPrimal BdOpen None c ch bit (kruskal_lib E) id_sched (2 * length E + 2) bit false
      H2 HC Hch (kruskal_lib_ok E) id_sched_ok (le_n _)) as (qs & bit' & r & _ & _ & _ & _ & Hcor & _).
    exists bit'. fold E. rewrite Hcor. do 2 f_equal.
    assert (Hr : match correct_uf c ch bit (kruskal_lib E) id_sched (2 * length E + 2) bit false with Ok (_, r) => Some r | Err _ => None end = Some false)
      by (vm_compute; reflexivity).
    rewrite Hcor in Hr. injection Hr as ->. reflexivity.
Qed.
Print Assumptions C55_uf_textbook_bound_open_codes_refuted.

(* The hypothesis on periodic sizes is needed: on a periodic code of size 2 two stabilizers share
   two qubits and the stabilizer graph keeps one of them.  If the other one is erased, the
   decoder does not know, and returns the wrong class although the distance is 2. *)
Theorem C55_uf_textbook_bound_size_two_refuted :
  let D := (2, 2, 2) in
  exists c ch er lib bit, dims_ge2 D /\ is_surface_code D EcPrimal BdPeriodic None c /\ valid_choice (sc_stabs c) ch /\
  let E := sg_edges (sc_stabs c) (sc_bound c) ch in
  lib_ok E lib /\ (forall u, NoDup (l_out lib u)) /\
  (forall a, In a (logical_axes EcPrimal BdPeriodic) ->
     2 * Z.of_nat (length (filter (fun q => bit q && negb (er q)) (sc_syn c))) + Z.of_nat (length (filter er (sc_syn c))) < get a D) /\
  exists bit', correct_uf c ch er lib id_sched (2 * length E + 2) bit false = Ok (bit', false).
Proof.
  intros D. set (c := mk_code D EcPrimal BdPeriodic None). set (ch := fun i j => hd (0, 0, 0) (shared (sc_stabs c) i j)).
  set (bit := fun q => pmem q [(1, 1, 2)]).
  assert (H2 : dims_ge2 D) by (intros []; simpl; lia).
  assert (HC : is_surface_code D EcPrimal BdPeriodic None c) by (apply mk_code_ok).
  assert (Hch : valid_choice (sc_stabs c) ch).
  { intros i j _ Hs. unfold ch. destruct (shared (sc_stabs c) i j) as [|x l]; [congruence|left; reflexivity]. }
  exists c, ch, bit, (kruskal_lib (sg_edges (sc_stabs c) (sc_bound c) ch)), bit.
  split; [assumption|]. split; [assumption|]. split; [assumption|]. intros E.
  split; [apply kruskal_lib_ok|]. split.
  { exact (kruskal_out_nd D EcPrimal BdPeriodic None c ch H2 HC Hch). }
  split.
  - intros a Ha. assert (K : 2 * Z.of_nat (length (filter (fun q => bit q && negb (bit q)) (sc_syn c))) + Z.of_nat (length (filter bit (sc_syn c))) = 1) by (vm_compute; reflexivity).
    rewrite K. destruct a; reflexivity.
  - pose proof (C22_uf_clears_syndrome D EcPrimal BdPeriodic None c ch bit (kruskal_lib E) id_sched (2 * length E + 2) bit false
      H2 HC Hch (kruskal_lib_ok E) id_sched_ok (le_n _)) as (qs & bit' & r & _ & _ & _ & _ & Hcor & _).
    exists bit'. fold E. rewrite Hcor. do 2 f_equal.
    assert (Hr : match correct_uf c ch bit (kruskal_lib E) id_sched (2 * length E + 2) bit false with Ok (_, r) => Some r | Err _ => None end = Some false)
      by (vm_compute; reflexivity).
    rewrite Hcor in Hr. injection Hr as ->. reflexivity.
Qed.
Print Assumptions C55_uf_textbook_bound_size_two_refuted.

(* ------------------------------------------------------------------ *)
(* C56.  The clusters, that is the set of fully grown edges, do not depend on the order in
   which sets are visited nor on the order of the library's answers; and with the same answers
   of the library for the spanning forest, neither does the result. *)
Theorem C56_clusters_deterministic :
  forall D e b pol c ch er lib lib' sch sch' fuel fuel' bit,
  dims_ge2 D -> is_surface_code D e b pol c -> valid_choice (sc_stabs c) ch ->
  let E := sg_edges (sc_stabs c) (sc_bound c) ch in
  let sp := fun i => stab_parity bit (stab_of (sc_stabs c) i) in
  lib_ok E lib -> (forall u, NoDup (l_out lib u)) -> sched_ok sch -> (2 * length E + 2 <= fuel)%nat ->
  lib_ok E lib' -> (forall u, NoDup (l_out lib' u)) -> sched_ok sch' -> (2 * length E + 2 <= fuel')%nat ->
  exists s s',
    grow_clusters E er sp (l_out lib) sch fuel fuel (l_comps lib (l_nodes lib (RE E)) (filter (erased er) (RE E))) = Ok s /\
    grow_clusters E er sp (l_out lib') sch' fuel' fuel' (l_comps lib' (l_nodes lib' (RE E)) (filter (erased er) (RE E))) = Ok s' /\
    grown_edges E (u_st s) = grown_edges E (u_st s').
Proof.
  intros D e b pol c ch er lib lib' sch sch' fuel fuel' bit H2 HC Hch E sp Hlib Hoend Hsch Hf Hlib' Hoend' Hsch' Hf'.
  pose proof (surface_wf D e b pol c H2 HC) as WF.
  destruct (proj1 (proj2 Hlib) (RE E)) as [HNd HN]. destruct (proj1 (proj2 Hlib') (RE E)) as [HNd' HN'].
  assert (Huniq : forall e e' u v, In e E -> In e' E -> same_pair u v e = true -> same_pair u v e' = true -> e = e')
    by (intros e1 e2 x y K1 K2 K3 K4; exact (edges_uniq (sc_stabs c) (sc_bound c) ch e1 e2 x y K1 K2 K3 K4)).
  assert (Hloop : forall u v cv, In (u, v, cv) (RE E) -> u <> v).
  { intros u v cv H. apply RE_In in H. destruct H as (H & _). intros ->. exact (edge_direction (sc_stabs c) (sc_bound c) ch _ _ _ _ H H). }
  pose proof (uf_conn D e b pol c H2 HC ch Hch bit _ HN) as Hconn. pose proof (uf_even D e b pol c H2 HC ch Hch bit _ HNd HN) as Heven.
  pose proof (uf_conn D e b pol c H2 HC ch Hch bit _ HN') as Hconn'. pose proof (uf_even D e b pol c H2 HC ch Hch bit _ HNd' HN') as Heven'.
  destruct (growth_ok E er sp lib sch fuel) as (s & Es & _); auto.
  destruct (growth_ok E er sp lib' sch' fuel') as (s' & Es' & _); auto.
  exists s, s'. split; [exact Es|]. split; [exact Es'|].
  pose proof (nodes_bound E lib Hlib (RE E)) as B1. pose proof (nodes_bound E lib' Hlib' (RE E)) as B1'. pose proof (RE_len E) as B2.
  assert (Heq : forall x, In x (RE E) -> u_st s x = u_st s' x).
  { apply (growth_det E er sp (l_out lib) (l_out lib') sch sch' fuel fuel' (l_nodes lib (RE E)) (l_nodes lib' (RE E))
      (l_comps lib (l_nodes lib (RE E)) (filter (erased er) (RE E))) (l_comps lib' (l_nodes lib' (RE E)) (filter (erased er) (RE E))) fuel fuel' s s');
      auto; try exact (proj1 Hlib); try exact (proj1 Hlib'); try lia.
    - intros x y Hx Hy. apply Hconn; apply HN; assumption.
    - destruct Heven as [(x & Hx & Hl)|H]; [left; exists x; split; [apply HN|]; assumption|right; exact H].
    - apply (comps_init E er lib Hlib).
    - apply (comps_init E er lib' Hlib'). }
  unfold grown_edges. clear - Heq. induction (RE E) as [|x l IH]; [reflexivity|]. cbn [filter].
  rewrite (Heq x (or_introl eq_refl)), IH by (intros; apply Heq; right; assumption). reflexivity.
Qed.
Print Assumptions C56_clusters_deterministic.

Theorem C56_result_schedule_free :
  forall D e b pol c ch er lib sch sch' fuel bit sanity,
  dims_ge2 D -> is_surface_code D e b pol c -> valid_choice (sc_stabs c) ch ->
  let E := sg_edges (sc_stabs c) (sc_bound c) ch in
  lib_ok E lib -> (forall u, NoDup (l_out lib u)) -> sched_ok sch -> sched_ok sch' -> (2 * length E + 2 <= fuel)%nat ->
  correct_uf c ch er lib sch fuel bit sanity = correct_uf c ch er lib sch' fuel bit sanity.
Proof.
  intros D e b pol c ch er lib sch sch' fuel bit sanity H2 HC Hch E Hlib Hoend Hsch Hsch' Hf.
  destruct (C56_clusters_deterministic D e b pol c ch er lib lib sch sch' fuel fuel bit H2 HC Hch Hlib Hoend Hsch Hf Hlib Hoend Hsch' Hf)
    as (s & s' & Es & Es' & Eg).
  unfold correct_uf, uf_decoder. rewrite Es, Es'. cbn [bind]. rewrite Eg. reflexivity.
Qed.
Print Assumptions C56_result_schedule_free.

(* two different orders on a concrete code with one error: the hypotheses are met, the orders
   differ, and clusters do grow beyond the erased edges *)
Example C56_nonvacuous :
  let D := (3, 2, 2) in
  let c := mk_code D EcPrimal BdOpen None in
  let ch := fun i j => hd (0, 0, 0) (shared (sc_stabs c) i j) in
  let E := sg_edges (sc_stabs c) (sc_bound c) ch in
  let sp := fun i => stab_parity (fun q => pmem q [(2, 1, 1)]) (stab_of (sc_stabs c) i) in
  let lib := kruskal_lib E in
  sched_ok id_sched /\ sched_ok rev_sched /\
  sc_odd id_sched 0 [NStab 0; NStab 1] <> sc_odd rev_sched 0 [NStab 0; NStab 1] /\
  match grow_clusters E (fun _ => false) sp (l_out lib) rev_sched (2 * length E + 2) (2 * length E + 2)
    (l_comps lib (l_nodes lib (RE E)) (filter (erased (fun _ => false)) (RE E))) with
  | Ok s => negb (Nat.eqb (length (grown_edges E (u_st s))) 0)
  | Err _ => false
  end = true.
Proof.
  intros D c ch E sp lib. split; [apply id_sched_ok|]. split; [apply rev_sched_ok|]. split; [vm_compute; discriminate|].
  vm_compute. reflexivity.
Qed.
