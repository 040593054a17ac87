(* PropsCvDecode.v: C57, decoding after continuous-variable noise. *)
From Coq Require Import String Reals Lra.
From Verif Require Import Base Lattice RhgModel RhgSpec RhgProofs RhgDegree PropsMacro SurfaceModel SurfaceSpec SurfaceProofs SurfaceIncidence SurfaceTheorems StabGraphModel PropsSurface
  GkpModel OpsModel EgraphModel EgraphSpec PropsOps PropsGkp CvModel CvSpec CvProofs CvNoise PropsCv CvSurface
  CvMacroModel CvMacroLists CvMacroSpec CvMacroMath CvMacroCode CvMacroGauge PropsCvMacro MwpmModel PropsMwpm UfModel UfSpec PropsUf PropsUfDist PropsGauge.
Open Scope Z_scope.

Lemma loud_few D e b pol c (err : point -> bool) (L : list point) : dims_ge2 D -> is_surface_code D e b pol c ->
  (forall q, In q (sc_syn c) -> ~ In q L -> err q = false) -> (List.length (filter err (sc_syn c)) <= List.length L)%nat.
Proof.
  intros HD HC H. pose proof (surface_code_facts D e b pol c (ge2_ok D (code_bnds e b) HD) HC) as CF.
  apply NoDup_incl_length; [apply NoDup_filter, (cf_syn_nd _ _ _ _ _ CF)|]. intros q Hq. apply filter_In in Hq. destruct Hq as [Hq He].
  destruct (in_dec point_eq_dec q L) as [|Hn]; [assumption|]. rewrite (H q Hq Hn) in He. discriminate.
Qed.

(* CVMacroLayer, then correct(): if large measurement noise touches only the qubits of L (a qubit is touched if the noise is
   large in its macronode or in the macronode of a neighbour), and L has fewer than d/2 elements, the trial succeeds, with
   either decoder.  This holds after any number of earlier trials, whatever the states drawn. *)
Theorem C57_cv_macro_trial : forall D e b pol c ch es perf states p_swap a0 r0 delta trans expf,
  macro_input D e b pol c es perf states p_swap -> (0 <= delta)%R -> valid_choice (sc_stabs c) ch ->
  exists w pos, macro_layer e b c es perf a0 r0 delta None states p_swap trans = Ok w /\ macro_index c w pos /\
    forall ds d, Forall (draws_ok (v_N (w_cv w))) (ds ++ [d]) -> exists w', trials_macro expf w (ds ++ [d]) = (w', Ok tt) /\
      (all_stars_gkp c w' -> weights_fit w' -> forall L : list point,
       (forall q, In q (sc_syn c) -> ~ In q L -> quiet delta perf pos (d_z d) (d_z2 d) q /\ forall u, In u (nbrs (sc_graph c) q) -> quiet delta perf pos (d_z d) (d_z2 d) u) ->
       (forall a, In a (logical_axes e b) -> 2 * Z.of_nat (List.length L) < get a D) ->
       let E := sg_edges (sc_stabs c) (sc_bound c) ch in
       (forall rp o pick sanity, rp = nx_report \/ rp = rx_report 1 -> oracle_ok E (fun _ => 1) o -> (forall mg, best_matching mg (pick mg)) ->
          exists bit', correct_mwpm rp c ch (fun _ => 1) o pick (obs w') sanity = Ok (bit', true)) /\
       (forall lib sch fuel sanity, lib_ok E lib -> (forall u, NoDup (l_out lib u)) -> sched_ok sch -> (2 * List.length E + 2 <= fuel)%nat ->
          exists bit', correct_uf c ch (fun _ => false) lib sch fuel (obs w') sanity = Ok (bit', true))).
Proof.
  intros D e b pol c ch es perf states p_swap a0 r0 delta trans expf HI Hde Hch.
  destruct (C52_bits D e b pol c es perf states p_swap a0 r0 delta trans expf HI Hde) as (w & pos & err & Ew & Hpos & Hloc & Ht).
  exists w, pos. split; [exact Ew|]. split; [exact Hpos|]. intros ds d Hd. destruct (Ht ds d Hd) as (w' & E & Hs). exists w'. split; [exact E|].
  intros HG HW L HL Hn. destruct (Hs HG HW) as (s & Hb). destruct HI as (HD & HC & _).
  apply (C57_small_errors_modulo_gauge D e b pol c ch s (obs w') (err (trial_p (w_cv w) d) (d_z d) (d_z2 d)) HD HC Hch).
  - intros q Hq. apply obs_bit. apply Hb. apply (syn_in_nodes D e b pol c HD HC q Hq).
  - intros a Ha. specialize (Hn a Ha).
    assert (Hle : (List.length (filter (err (trial_p (w_cv w) d) (d_z d) (d_z2 d)) (sc_syn c)) <= List.length L)%nat); [|lia].
    apply (loud_few D e b pol c _ L HD HC). intros q Hq Hnq. destruct (HL q Hq Hnq) as [Q1 Q2]. apply Hloc; [apply (syn_in_nodes D e b pol c HD HC q Hq)|exact Q1|exact Q2].
Qed.
Print Assumptions C57_cv_macro_trial.

(* ------------------------------------------------------------------ *)
(* CVLayer *)
Definition index_of (v : cv) (u : point) : nat := match find (fun j => match dget Nat.eqb (v_pts v) j with Some p => peqb p u | None => false end) (seq 0 (v_N v)) with Some j => j | None => 0%nat end.
Lemma index_of_ok v j u : numbered v -> node_at v j u -> index_of v u = j.
Proof.
  intros (N1 & N2) Hn. unfold index_of. destruct (find _ _) as [k|] eqn:E.
  - apply find_some in E. destruct E as [_ E]. destruct (dget Nat.eqb (v_pts v) k) as [p|] eqn:Ek; [|discriminate]. apply peqb_true in E. subst p. apply (N2 k j u); assumption.
  - exfalso. pose proof (find_none _ _ E j) as H. cbv beta in H. assert (Hj : (j < v_N v)%nat) by (apply N1; eauto). unfold node_at in Hn. rewrite Hn, peqb_refl in H. discriminate H. apply in_seq. lia.
Qed.
Lemma Rsum_list (F : nat -> R) N l : NoDup l -> (forall j, In j l -> (j < N)%nat) -> (forall j, (j < N)%nat -> ~ In j l -> F j = 0%R) -> Rsum F N = sumR (map F l).
Proof.
  revert F. induction l as [|a l IH]; intros F Hnd Hl H0.
  - rewrite Rsum_zero; [reflexivity|]. intros k Hk. apply H0; [assumption|intros []].
  - apply NoDup_cons_iff in Hnd. destruct Hnd as [Ha Hnd]. set (F1 := fun j => if Nat.eqb j a then F j else 0%R). set (F2 := fun j => if Nat.eqb j a then 0%R else F j).
    rewrite (Rsum_ext F (fun j => F1 j + F2 j)%R) by (intros k _; unfold F1, F2; destruct (Nat.eqb k a); lra). rewrite Rsum_plus.
    rewrite (Rsum_delta F1 N a); [|apply Hl; left; reflexivity|intros k _ Hk; unfold F1; destruct (Nat.eqb_spec k a); [contradiction|reflexivity]].
    rewrite (IH F2 Hnd); [|intros j Hj; apply Hl; right; assumption|].
    + unfold F1. rewrite Nat.eqb_refl. cbn [map]. rewrite (map_ext_in F2 F); [reflexivity|]. intros j Hj. unfold F2. destruct (Nat.eqb_spec j a) as [->|]; [contradiction|reflexivity].
    + intros j Hj Hn. unfold F2. destruct (Nat.eqb_spec j a) as [->|Hne]; [reflexivity|]. apply H0; [assumption|]. intros [->|H]; [contradiction|auto].
Qed.
Lemma sum_multiples (us : list point) (w x : point -> R) (s : point -> bool) :
  (forall u, In u us -> (w u = 1 \/ w u = -1)%R) ->
  (forall u, In u us -> exists m, (Rabs (x u - IZR m * sqrt PI) < sqrt PI / 10)%R /\ s u = Z.odd m) ->
  exists M, (Rabs (sumR (map (fun u => w u * x u) us) - IZR M * sqrt PI) <= INR (List.length us) * (sqrt PI / 10))%R /\ xsum s us = Z.odd M.
Proof.
  intros Hw Hx. induction us as [|u us IH].
  - exists 0. split; [|reflexivity]. cbn. rewrite Rmult_0_l, Rminus_0_r, Rabs_R0. lra.
  - destruct IH as (M & HM & EM); [intros v Hv; apply Hw; right; assumption|intros v Hv; apply Hx; right; assumption|].
    destruct (Hx u (or_introl eq_refl)) as (m & Hm & Em). apply Rabs_def2 in Hm. change (xsum s (u :: us)) with (xorb (s u) (xsum s us)). rewrite Em, EM.
    assert (HM' : (- (INR (List.length us) * (sqrt PI / 10)) <= sumR (map (fun u => w u * x u) us) - IZR M * sqrt PI <= INR (List.length us) * (sqrt PI / 10))%R).
    { unfold Rabs in HM. destruct (Rcase_abs _) in HM; lra. }
    change (List.length (u :: us)) with (S (List.length us)). rewrite S_INR. change (sumR (map (fun u0 => w u0 * x u0)%R (u :: us))) with ((w u * x u) + sumR (map (fun u0 => w u0 * x u0)%R us))%R.
    destruct (Hw u (or_introl eq_refl)) as [-> | ->].
    + exists (m + M). split; [apply Rabs_le; rewrite plus_IZR; lra|rewrite Z.odd_add; reflexivity].
    + exists (- m + M). split; [apply Rabs_le; rewrite plus_IZR, opp_IZR; lra|rewrite Z.odd_add, Z.odd_opp; reflexivity].
Qed.
Lemma binner_odd m x : (Rabs (x - IZR m * sqrt PI) < sqrt PI / 2)%R -> Z.odd (fst (GKP_binner x)) = Z.odd m.
Proof.
  intros H. apply Rabs_def2 in H. replace x with (IZR m * sqrt PI + (x - IZR m * sqrt PI))%R by lra. rewrite binner_shift, binner_small by lra. rewrite Z.add_0_r.
  rewrite (Z.div_mod m 2) at 2 by lia. rewrite Z.odd_add, Z.odd_mul. change (Z.odd 2) with false. destruct (Z.odd (m mod 2)); reflexivity.
Qed.

(* the measurement at q is reliable: its momentum noise is below sqrt(pi)/10, and the position noise of each neighbour
   is that close to a multiple of sqrt(pi) *)
Definition calm (c : scode) (v : cv) (sq sp : nat -> R) (z : nat -> R) (q : point) : Prop :=
  exists i, node_at v i q /\ (Rabs (sp i * z (v_N v + i)%nat) < sqrt PI / 10)%R /\
    forall u, In u (nbrs (sc_graph c) q) -> exists j m, node_at v j u /\ (Rabs (sq j * z j - IZR m * sqrt PI) < sqrt PI / 10)%R.
Definition unit_weights (c : scode) : Prop := forall p q t, edge_attr (sc_graph c) p q = Some t -> eweight t = 1 \/ eweight t = -1.
Definition bits_of (v : cv) (q : point) : bool := match a_bit (v_attr v q) with Some x => Z.odd x | None => false end.

(* CVLayer, then correct(): if the measurement is reliable at all qubits but those of L, and L has fewer than d/2
   elements, the trial succeeds, with either decoder, after any number of earlier trials. *)
Theorem C57_cv_layer_trial : forall D e b pol c ch inds a0 perf delta states p_swap order, dims_ge2 D -> is_surface_code D e b pol c -> valid_choice (sc_stabs c) ch -> unit_weights c -> code_inds c inds ->
  match perf with Some l => incl l (node_list (sc_graph c)) | None => True end ->
  (0 < delta)%R -> documented_states (List.length (node_list (sc_graph c))) states p_swap -> order = None \/ order = Some "initial"%string ->
  exists g v, cv_init (code_egraph c) a0 perf (Some (inds, sc_syn c)) delta states p_swap order None = (g, Ok v) /\ numbered v /\
    forall ds d, Forall (draws_ok (v_N v)) (ds ++ [d]) -> exists v' sq sp, trials v (ds ++ [d]) = (v', Ok tt) /\ std_spec v (inds_of v' "p") (inds_of v' "GKP") sq sp /\
      forall L : list point, (forall q, In q (sc_syn c) -> ~ In q L -> calm c v sq sp (d_z d) q) ->
       (forall a, In a (logical_axes e b) -> 2 * Z.of_nat (List.length L) < get a D) ->
       let E := sg_edges (sc_stabs c) (sc_bound c) ch in
       (forall rp o pick sanity, rp = nx_report \/ rp = rx_report 1 -> oracle_ok E (fun _ => 1) o -> (forall mg, best_matching mg (pick mg)) ->
          exists bit', correct_mwpm rp c ch (fun _ => 1) o pick (bits_of v') sanity = Ok (bit', true)) /\
       (forall lib sch fuel sanity, lib_ok E lib -> (forall u, NoDup (l_out lib u)) -> sched_ok sch -> (2 * List.length E + 2 <= fuel)%nat ->
          exists bit', correct_uf c ch (fun _ => false) lib sch fuel (bits_of v') sanity = Ok (bit', true)).
Proof.
  intros D e b pol c ch inds a0 perf delta states p_swap order HD HC Hch Huw Hi Hp Hde Hst Hor.
  assert (Hs : p_swap <> None -> forall s, states = Some s -> exists x, dget String.eqb s "p"%string = Some x /\ x_l x = []).
  { intros Hn s Es. destruct p_swap as [x|]; [|congruence]. destruct Hst as (_ & [H|[H|H]] & Hne); [congruence|congruence|]. rewrite H in Es. injection Es as <-. exists (arr []). split; reflexivity. }
  destruct (code_cv_init D e b pol c HD HC a0 perf delta states p_swap order None inds Hi Hp Hs) as (g & v & E & H1 & H2 & H3 & H4 & Hnode & H5 & H6 & H7 & H8 & H9).
  exists g, v. split; [exact E|]. split; [exact H1|].
  assert (Hx : exists l, v_states v = [("p"%string, arr l)] /\ forall i, In i l -> (i < v_N v)%nat).
  { rewrite H9, H3. unfold documented_states in Hst. destruct p_swap as [x|].
    - destruct Hst as (_ & [->|[->| ->]] & _); exists []; (split; [reflexivity|intros i []]).
    - destruct Hst as [->|[->|(l & -> & Hl)]]; [exists []; split; [reflexivity|intros i []]|exists []; split; [reflexivity|intros i []]|exists l; split; [reflexivity|exact Hl]]. }
  assert (HF : fresh_layer v).
  { split; [exact H1|]. split; [destruct Hx as (l & Hl & Hl2); exists (arr l); split; [exact Hl|exact Hl2]|]. rewrite H6. unfold documented_states in Hst. destruct p_swap; [apply Hst|exact I]. }
  assert (Ho : v_order v = "initial"%string) by (rewrite H7; destruct Hor as [-> | ->]; reflexivity).
  intros ds d Hds. apply Forall_app in Hds. destruct Hds as [Hds Hd]. inversion Hd as [|? ? Hd' _]; subst.
  assert (Ha : forall x, v_states v = [("p"%string, x)] -> x_arr x = true) by (intros x Ex; destruct Hx as (l & Hl & _); rewrite Hl in Ex; injection Ex as <-; reflexivity).
  destruct (C40_noise_partial v inds (sc_syn c) ds d HF H2 Hds Hd' Ho Hde Ha) as (_ & v' & sq & sp & _ & E' & HP & _ & Hstd & Hh & _).
  exists v', sq, sp. split; [exact E'|]. split; [exact Hstd|]. intros L HL Hn.
  set (x := fun u => (sq (index_of v u) * d_z d (index_of v u))%R). set (s := fun u => Z.odd (fst (GKP_binner (x u)))).
  set (err := fun q => xorb (xsum s (nbrs (sc_graph c) q)) (bits_of v' q)).
  apply (C57_small_errors_modulo_gauge D e b pol c ch s (bits_of v') err HD HC Hch).
  { intros q _. unfold err. destruct (xsum s (nbrs (sc_graph c) q)), (bits_of v' q); reflexivity. }
  intros a Haa. specialize (Hn a Haa). assert (Hle : (List.length (filter err (sc_syn c)) <= List.length L)%nat); [|lia].
  apply (loud_few D e b pol c err L HD HC). intros q Hq HqL. destruct (HL q Hq HqL) as (i & Hni & Hmom & Hnb).
  destruct (Hh i q Hq Hni) as (h & _ & Hb & Eh). unfold err, bits_of. rewrite Hb, H8.
  set (us := nbrs (sc_graph c) q) in *.
  assert (Hus : exists vs, set_enum (six_body_points D (code_bnds e b)) vs /\ sc_graph c = rhg_graph D (code_bnds e b) pol vs) by (apply HC). destruct Hus as (vs & Hvs & EG).
  assert (Hnd : NoDup us) by (unfold us; rewrite EG; apply G_nbrs_NoDup).
  assert (Hlen : (List.length us <= 4)%nat).
  { unfold us. rewrite EG. apply (degree_le_4 D (code_bnds e b) (ge2_ok D _ HD) HD pol vs Hvs). rewrite <- EG. apply (syn_in_nodes D e b pol c HD HC q Hq). }
  assert (Hat : forall u, In u us -> node_at v (index_of v u) u). { intros u Hu. destruct (Hnb u Hu) as (j & m & Hj & _). rewrite (index_of_ok v j u H1 Hj). exact Hj. }
  set (w := fun u => v_adj v i (index_of v u)).
  assert (Hsum : Rsum (fun j => v_adj v i j * (sq j * d_z d j))%R (v_N v) = sumR (map (fun u => w u * x u)%R us)).
  { rewrite (Rsum_list _ _ (map (index_of v) us)).
    - rewrite map_map. reflexivity.
    - apply NoDup_map_inj; [|exact Hnd]. intros u1 u2 Hu1 Hu2 Eu. pose proof (Hat u1 Hu1) as A1. pose proof (Hat u2 Hu2) as A2. unfold node_at in A1, A2. rewrite Eu in A1. congruence.
    - intros j Hj. apply in_map_iff in Hj. destruct Hj as (u & <- & Hu). apply (proj1 H1). exists u. apply Hat. assumption.
    - intros j Hj Hnj. destruct (proj2 (proj1 H1 j) Hj) as (u & Hu). rewrite (H4 i j q u Hni Hu). destruct (edge_attr (sc_graph c) q u) as [t|] eqn:Et; [|simpl; lra].
      exfalso. apply Hnj. apply in_map_iff. exists u. split; [apply (index_of_ok v j u H1 Hu)|]. unfold us. apply nbrs_iff. congruence. }
  destruct (sum_multiples us w x s) as (M & HM & EM).
  { intros u Hu. unfold w. rewrite (H4 i _ q u Hni (Hat u Hu)). apply nbrs_iff in Hu. destruct (edge_attr (sc_graph c) q u) as [t|] eqn:Et; [|congruence]. destruct (Huw q u t Et) as [-> | ->]; [left; reflexivity|right; reflexivity]. }
  { intros u Hu. destruct (Hnb u Hu) as (j & m & Hj & Hm). exists m. unfold s, x. rewrite (index_of_ok v j u H1 Hj). split; [exact Hm|]. apply binner_odd. pose proof spi_pos. lra. }
  rewrite EM, (binner_odd M h); [destruct (Z.odd M); reflexivity|].
  rewrite Eh, Hsum. set (S := sumR (map (fun u => w u * x u)%R us)) in *. apply Rabs_def2 in Hmom. pose proof spi_pos as Hpos.
  assert (HL4 : (INR (List.length us) <= 4)%R) by (replace 4%R with (INR 4) by (simpl; lra); apply le_INR; exact Hlen).
  assert (Hk : (INR (List.length us) * (sqrt PI / 10) <= 4 * (sqrt PI / 10))%R) by (apply Rmult_le_compat_r; lra).
  assert (HM' : (- (4 * (sqrt PI / 10)) <= S - IZR M * sqrt PI <= 4 * (sqrt PI / 10))%R). { clear - HM Hk. unfold Rabs in HM. destruct (Rcase_abs _) in HM; lra. }
  apply Rabs_def1; lra.
Qed.
Print Assumptions C57_cv_layer_trial.

(* with the default polarity all weights are 1 *)
Lemma default_unit_weights D e b c : dims_ge2 D -> is_surface_code D e b None c -> unit_weights c.
Proof.
  intros HD HC p q t Ht. left. destruct (code_lattice D e b None c HC) as (vs & Hvs & EG). rewrite EG in Ht.
  destruct (rhg_exact_lattice D (code_bnds e b) None vs (ge2_ok D _ HD) Hvs) as (_ & _ & _ & _ & _ & _ & H1). apply (H1 eq_refl p q t). exact Ht.
Qed.
(* the hypotheses are met, with a loud qubit: on every code of size (3, 3, 3) with the default polarity, draw 7 for the
   momentum of the qubit q0 and, for its position and those of all others, 0; L = [q0] covers the loud qubits *)
Example C57_cv_witness : forall e b, let c := mk_code (3, 3, 3) e b None in
  dims_ge2 (3, 3, 3) /\ is_surface_code (3, 3, 3) e b None c /\ unit_weights c /\ (exists inds, code_inds c inds) /\ (exists ch, valid_choice (sc_stabs c) ch) /\
  (forall a, In a (logical_axes e b) -> 2 * Z.of_nat 1 < get a (3, 3, 3)) /\
  forall v i q0 sq sp, numbered v -> (forall p, In p (node_list (sc_graph c)) -> exists j, node_at v j p) -> node_at v i q0 -> (1 <= sp i)%R ->
    let z := fun k => if Nat.eqb k (v_N v + i) then 7%R else 0%R in
    (forall q, In q (sc_syn c) -> ~ In q [q0] -> calm c v sq sp z q) /\ ~ calm c v sq sp z q0.
Proof.
  intros e b c. assert (HD : dims_ge2 (3, 3, 3)) by (intros []; simpl; lia). assert (HC : is_surface_code (3, 3, 3) e b None c) by apply mk_code_ok.
  split; [exact HD|]. split; [exact HC|]. split; [apply (default_unit_weights _ _ _ _ HD HC)|]. split; [apply (code_inds_exist _ _ _ _ _ HD HC)|]. split; [eexists; apply first_choice_valid|].
  split; [intros [] _; simpl; lia|]. intros v i q0 sq sp (N1 & N2) Hall Hi Hsp z. clearbody c. pose proof spi_pos as Hpos. split.
  - intros q Hq Hn. assert (Hne : q <> q0) by (intros ->; apply Hn; left; reflexivity). destruct (Hall q (syn_in_nodes _ _ _ _ _ HD HC q Hq)) as (j & Hj). exists j. split; [exact Hj|]. split.
    + unfold z. destruct (Nat.eqb_spec (v_N v + j) (v_N v + i)) as [E|_]; [|rewrite Rmult_0_r, Rabs_R0; lra]. exfalso. apply Hne. assert (j = i) by lia. subst j. unfold node_at in *. congruence.
    + intros u Hu. assert (Hun : In u (node_list (sc_graph c))). { destruct (code_lattice _ _ _ _ _ HC) as (vs & Hvs & EG). rewrite EG in *. apply nbrs_iff in Hu. eapply rhg_ends; [apply ge2_ok, HD|exact Hvs|]. rewrite edge_attr_sym. exact Hu. }
      destruct (Hall u Hun) as (k & Hk). exists k, 0. split; [exact Hk|]. unfold z. assert (Hlt : (k < v_N v)%nat) by (apply N1; eauto). destruct (Nat.eqb_spec k (v_N v + i)); [lia|]. rewrite Rmult_0_r, Rmult_0_l, Rminus_0_r, Rabs_R0. lra.
  - intros (j & Hj & Hm & _). pose proof (N2 _ _ _ Hj Hi). subst j. unfold z in Hm. rewrite Nat.eqb_refl in Hm. apply Rabs_def2 in Hm.
    assert (sqrt PI <= 2)%R; [|lra]. replace 2%R with (sqrt (2 * 2)) by (rewrite sqrt_square; lra). apply sqrt_le_1_alt. pose proof PI_4. lra.
Qed.
