(* PropsLemon.v: property C59 (decoding with the lemon backend, whose weights are single precision
   numbers) and the single precision version of C18. *)
From Verif Require Import Base Lattice RhgModel RhgSpec SurfaceModel SurfaceSpec SurfaceProofs
  SurfaceTheorems SurfaceGauge StabGraphModel Complex Paths SurfaceComplex PropsSurface MwpmModel MwpmProofs
  MwpmInst MwpmSides MwpmLemon MwpmFloat PropsMwpm PropsMwpm2 MwpmApprox.
Open Scope Z_scope.

Lemma endpoints_perm {A} (M M' : list (A * A)) : Permutation M M' -> Permutation (endpoints M) (endpoints M').
Proof. intros H. unfold endpoints. apply Permutation_flat_map. exact H. Qed.
Lemma is_matching_perm mg M M' : Permutation M M' -> is_matching mg M' -> is_matching mg M.
Proof.
  intros HP [Hn HM]. split; [eapply Permutation_NoDup; [apply Permutation_sym, endpoints_perm; exact HP|exact Hn]|].
  intros uv Huv. apply HM. eapply Permutation_in; eassumption.
Qed.
Lemma total_perm mg M M' : Permutation M M' -> total_weight mg M = total_weight mg M'.
Proof. apply sumZ_perm. Qed.

(* C18 with the conversion to float: the matching is perfect, uses only edges of the matching graph,
   and its weight exceeds the minimum by a factor of at most (2^24 + 1) / (2^24 - 1); when the
   weights are integers (units 1) and the minimum is below 2^23, it is the minimum. *)
Theorem C18_lemon_single_precision :
  forall D e b pol c ch rp w o bit mg virt u lemon M,
  dims_ge2 D -> is_surface_code D e b pol c -> valid_choice (sc_stabs c) ch ->
  oracle_ok (sg_edges (sc_stabs c) (sc_bound c) ch) w o ->
  match_graph rp (sg_edges (sc_stabs c) (sc_bound c) ch) w o (odd_stabs (sc_stabs c) bit)
    (has_bound_points (sc_bound c)) = Ok (mg, virt) ->
  (forall x, In x mg -> 0 <= me_w x) ->
  lemon_contract lemon -> lemon_min_weight u lemon mg M ->
  let nodes := map MStab (odd_stabs (sc_stabs c) bit) ++ virt in
  (exists M0, is_matching mg M0 /\ Permutation (endpoints M0) nodes /\ total_weight mg M0 <= 2 ^ (63 + Z.of_nat u)) ->
  is_matching mg M /\ Permutation (endpoints M) nodes /\
  (forall M', is_matching mg M' -> Permutation (endpoints M') nodes ->
     (2 ^ 24 - 1) * total_weight mg M <= (2 ^ 24 + 1) * total_weight mg M') /\
  ((exists M0, is_matching mg M0 /\ Permutation (endpoints M0) nodes /\ total_weight mg M0 < 2 ^ 23) -> best_matching mg M).
Proof.
  intros D e b pol c ch rp w o bit mg virt u lemon M H2 HC Hch Ho Hmg Hpos Hl HM nodes (M0 & HM0 & HP0 & HW0).
  destruct (code_match_graph D e b pol c H2 HC ch Hch bit rp w o Ho) as (mg' & virt' & mids & bes & Hmg' & HS).
  rewrite Hmg in Hmg'. injection Hmg' as <- <-.
  pose proof (graph_nodes_perm D e b pol c H2 HC ch Hch bit rp w mg virt mids bes HS) as HG. fold nodes in HG.
  pose proof (graph_nodes_even D e b pol c H2 HC ch Hch bit rp w mg virt mids bes HS) as HE.
  unfold lemon_min_weight in HM. cbn zeta in HM. set (L := lemon (adjacency32 u mg (graph_nodes mg)) (length (graph_nodes mg))) in *.
  assert (HL : lemon_best (adjacency32 u mg (graph_nodes mg)) (length (graph_nodes mg)) L) by (apply Hl; exact HE).
  assert (Hto : forall X, Permutation (endpoints X) nodes -> Permutation (endpoints X) (graph_nodes mg)).
  { intros X HX. etransitivity; [exact HX|symmetry; exact HG]. }
  destruct (lemon32_ok u mg (graph_nodes mg) (proj1 (graph_nodes_spec mg)) Hpos M0 L HM0 (Hto _ HP0) HW0 HL) as (K1 & K2 & K3).
  assert (G1 : is_matching mg M) by (eapply is_matching_perm; eassumption).
  assert (G2 : Permutation (endpoints M) nodes).
  { etransitivity; [apply endpoints_perm; exact HM|]. etransitivity; [exact K2|exact HG]. }
  assert (G3 : forall M', is_matching mg M' -> Permutation (endpoints M') nodes -> (2 ^ 24 - 1) * total_weight mg M <= (2 ^ 24 + 1) * total_weight mg M').
  { intros M' HM' HP'. rewrite (total_perm mg _ _ HM). apply K3; auto. }
  split; [exact G1|]. split; [exact G2|]. split; [exact G3|].
  intros (M1 & HM1 & HP1 & HW1). apply (perfect_is_best mg nodes); [|exact G1|exact G2|].
  - intros x Hx. apply (edge_nodes (sc_stabs c) (sc_bound c) ch rp w (code_bal D e b pol c H2 HC) (odd_stabs (sc_stabs c) bit) mg virt mids bes HS x Hx).
  - intros M' HM' HP'. pose proof (G3 M' HM' HP') as A1. pose proof (G3 M1 HM1 HP1) as A2.
    destruct (Z.le_gt_cases (total_weight mg M) (total_weight mg M')) as [|Hgt]; [assumption|]. exfalso.
    destruct (Z.le_gt_cases (total_weight mg M') (2 ^ 23 - 1)) as [|Hbig]; [lia|]. lia.
Qed.
Print Assumptions C18_lemon_single_precision.

(* ------------------------------------------------------------------ *)
(* C59: correct(code, decoder="MWPM", decoder_opts={"backend": "lemon"}) clears every syndrome, and the
   recovery is within the rounding error of the lightest correction. *)
Theorem C59_lemon_decoding :
  forall D e b pol c ch rp k w o u lemon pick bit sanity,
  dims_ge2 D -> is_surface_code D e b pol c -> valid_choice (sc_stabs c) ch ->
  oracle_ok (sg_edges (sc_stabs c) (sc_bound c) ch) w o ->
  (* exact path lengths (networkx, or rustworkx with integer weights), non-negative weights *)
  exact k rp w -> (forall q, 0 <= w q) ->
  (forall i j q, (i < j < length (sc_stabs c))%nat -> In q (shared (sc_stabs c) i j) -> w (ch i j) <= w q) ->
  lemon_contract lemon -> (forall mg, lemon_min_weight u lemon mg (pick mg)) ->
  (* some correction weighs at most 2^63 *)
  (exists F, is_correction c bit F /\ set_weight w F <= k * 2 ^ (63 + Z.of_nat u)) ->
  exists R bit' r,
    mwpm_decoder rp (sc_stabs c) (sc_bound c) ch w o pick bit = Ok (map Some R) /\
    is_correction c bit R /\
    correct_mwpm rp c ch w o pick bit sanity = Ok (bit', r) /\
    (forall q, bit' q = xorb (bit q) (pmem q R)) /\
    (forall st, In st (sc_stabs c) -> stab_parity bit' st = false) /\
    forall F, is_correction c bit F -> (2 ^ 24 - 1) * set_weight w R <= (2 ^ 24 + 1) * set_weight w F.
Proof.
  intros D e b pol c ch rp k w o u lemon pick bit sanity H2 HC Hch Ho Hex Hw Hlight Hl Hpick (F0 & HF0 & HW0).
  destruct (code_match_graph D e b pol c H2 HC ch Hch bit rp w o Ho) as (mg & virt & mids & bes & Hmg & HS).
  assert (Hpos : forall x, In x mg -> 0 <= me_w x).
  { intros x Hx. apply (edge_cost (sc_stabs c) (sc_bound c) ch rp w (code_conn D e b pol c H2 HC ch Hch) (code_bal D e b pol c H2 HC) _ (odd_lt c bit) mg virt mids bes HS (code_even D e b pol c H2 HC bit) 1 1 k (exact_near k rp w Hex Hw) Hw x Hx). }
  pose proof (correction_matching D e b pol c H2 HC ch Hch bit rp w o 1 1 k Ho mg virt mids bes HS (exact_near k rp w Hex Hw) Hw Hlight) as Hcm.
  assert (Hk : 0 < k) by apply Hex.
  destruct (Hcm F0 HF0) as (M0 & HM0 & HP0 & HT0).
  destruct (C18_lemon_single_precision D e b pol c ch rp w o bit mg virt u lemon (pick mg) H2 HC Hch Ho Hmg Hpos Hl (Hpick mg)) as (K1 & K2 & K3 & _).
  { exists M0. split; [assumption|]. split; [assumption|]. nia. }
  destruct (near_decode D e b pol c H2 HC ch Hch bit rp w mg virt mids bes HS (pick mg) K1 K2) as (qs & bit' & Hq & Hnd & Hin & Hr & Hb & Ht).
  assert (HR : exists R, qs = map Some R).
  { clear -Hin. induction qs as [|x qs IH]; [exists []; reflexivity|].
    destruct IH as (R & ->); [intros; apply Hin; right; assumption|].
    destruct (Hin x (or_introl eq_refl)) as (q & -> & _). exists (q :: R). reflexivity. }
  destruct HR as (R & ->).
  assert (HmR : forall q, omem (Some q) (map Some R) = pmem q R).
  { intros q. destruct (pmem q R) eqn:F.
    - apply omem_true, in_map, pmem_In. assumption.
    - destruct (omem (Some q) (map Some R)) eqn:F'; [|reflexivity]. apply omem_true in F'.
      apply in_map_iff in F'. destruct F' as (q' & Eq & F'). injection Eq as ->. apply pmem_In in F'. congruence. }
  destruct (C11_code_distance D e b pol c H2 HC) as (_ & _ & Hck). destruct (Hck bit' sanity) as (r & Hck').
  assert (Hd : mwpm_decoder rp (sc_stabs c) (sc_bound c) ch w o pick bit = Ok (map Some R)).
  { unfold mwpm_decoder. rewrite Hmg. exact Hq. }
  exists R, bit', r. split; [exact Hd|]. split.
  { split; [apply NoDup_map_inv in Hnd; assumption|]. split.
    - intros q Hqr. destruct (Hin (Some q) (in_map Some _ _ Hqr)) as (q' & Eq & Hq'). injection Eq as ->. assumption.
    - intros st Hst. rewrite <- (Ht st Hst). unfold stab_parity. apply xsum_ext. intros q _. rewrite Hb, HmR. reflexivity. }
  split; [unfold correct_mwpm; rewrite Hd; simpl; rewrite Hr; simpl; rewrite Hck'; reflexivity|].
  split; [intros q; rewrite Hb, HmR; reflexivity|]. split; [exact Ht|].
  intros F HF. destruct (Hcm F HF) as (M' & HM' & HP' & HT'). pose proof (K3 M' HM' HP') as HK.
  pose proof (flip_all_weight (sc_stabs c) (sc_bound c) ch (surface_wf D e b pol c H2 HC) Hch rp w (code_conn D e b pol c H2 HC ch Hch)
    (code_bal D e b pol c H2 HC) _ (odd_lt c bit) mg virt mids bes HS (code_even D e b pol c H2 HC bit) 1 1 k (exact_near k rp w Hex Hw) Hw (pick mg) (proj2 K1) [] (map Some R)) as HWt.
  assert (Hsum : sumZ (pt_wt w) (map Some R) = set_weight w R).
  { clear. induction R as [|q R IH]; [reflexivity|]. simpl in *. rewrite IH. reflexivity. }
  rewrite Hsum in HWt. change (sumZ (pt_wt w) []) with 0 in HWt.
  specialize (HWt ltac:(split; [constructor|intros q []]) Hq). nia.
Qed.
Print Assumptions C59_lemon_decoding.

(* With uniform weights the lemon backend corrects fewer than d/2 errors, like the others (C15);
   the number of errors must also be below 2^23. *)
Theorem C59_lemon_corrects_small_errors :
  forall D e b pol c ch rp o lemon pick bit sanity,
  dims_ge2 D -> is_surface_code D e b pol c -> valid_choice (sc_stabs c) ch ->
  rp = nx_report \/ rp = rx_report 1 ->
  oracle_ok (sg_edges (sc_stabs c) (sc_bound c) ch) (fun _ => 1) o ->
  lemon_contract lemon -> (forall mg, lemon_min_weight 0 lemon mg (pick mg)) ->
  (forall a, In a (logical_axes e b) -> 2 * Z.of_nat (length (filter bit (sc_syn c))) < get a D) ->
  Z.of_nat (length (filter bit (sc_syn c))) < 2 ^ 23 ->
  exists bit', correct_mwpm rp c ch (fun _ => 1) o pick bit sanity = Ok (bit', true).
Proof.
  intros D e b pol c ch rp o lemon pick bit sanity H2 HC Hch Hrp Ho Hl Hpick Hsmall Hmany.
  assert (Hex : exact 1 rp (fun _ => 1)).
  { destruct Hrp as [-> | ->]; [apply nx_exact|apply rx_exact; [lia|]]. intros _. exists 1. reflexivity. }
  pose proof (cf_syn_nd _ _ _ _ _ (surface_code_facts D e b pol c (ge2_ok D _ H2) HC)) as Hsyn.
  assert (HF : is_correction c bit (filter bit (sc_syn c))).
  { split; [apply NoDup_filter; assumption|]. split; [intros q Hq; apply filter_In in Hq; tauto|].
    intros st Hst. unfold stab_parity. rewrite (xsum_ext _ (fun _ => false)); [clear; induction st as [|x l IH]; [reflexivity|simpl; rewrite IH; reflexivity]|].
    intros q Hq. assert (Hqs : In q (sc_syn c)).
    { apply (syn_graph D e b pol c H2 HC). apply (stab_nodes D e b pol c H2 HC st q Hst Hq). }
    destruct (bit q) eqn:Eb.
    - rewrite (proj2 (pmem_In q _)); [reflexivity|]. apply filter_In. auto.
    - rewrite (proj2 (pmem_false q _)); [reflexivity|]. intros F. apply filter_In in F. destruct F; congruence. }
  assert (Hones : forall l : list point, set_weight (fun _ => 1) l = Z.of_nat (length l)).
  { induction l as [|x l IH]; [reflexivity|]. change (1 + set_weight (fun _ => 1) l = Z.of_nat (S (length l))). rewrite IH. lia. }
  destruct (C59_lemon_decoding D e b pol c ch rp 1 (fun _ => 1) o 0 lemon pick bit sanity H2 HC Hch Ho Hex ltac:(intros; simpl; lia)
    ltac:(intros; simpl; lia) Hl Hpick) as (R & bit' & r & Hd & HR & Hc & Hb & Ht & Hnear).
  { exists (filter bit (sc_syn c)). split; [exact HF|]. rewrite Hones. change (63 + Z.of_nat 0) with 63. lia. }
  exists bit'. rewrite Hc. do 2 f_equal. destruct r; [reflexivity|]. exfalso.
  assert (Hck : check_correction c bit' sanity = Ok false).
  { unfold correct_mwpm in Hc. rewrite Hd in Hc. simpl in Hc. destruct (recovery _ _ _) as [b1|]; simpl in Hc; [|discriminate].
    destruct (check_correction c b1 sanity) as [x|] eqn:Ex; simpl in Hc; [|discriminate]. injection Hc as -> ->. exact Ex. }
  destruct (C11_code_distance D e b pol c H2 HC) as (Hdist & _).
  destruct (Hdist bit' sanity Ht Hck) as (a & Ha & Hle). specialize (Hsmall a Ha).
  specialize (Hnear _ HF). rewrite !Hones in Hnear.
  assert (HRF : Z.of_nat (length R) <= Z.of_nat (length (filter bit (sc_syn c)))) by lia.
  assert (Hlen : (length (filter bit' (sc_syn c)) <= length (filter bit (sc_syn c) ++ R))%nat).
  { apply NoDup_incl_length; [apply NoDup_filter; assumption|].
    intros q Hq. apply filter_In in Hq. destruct Hq as [Hq Hbq]. rewrite Hb in Hbq. apply in_app_iff.
    destruct (pmem q R) eqn:F; [right; apply pmem_In; assumption|]. left. apply filter_In. split; [assumption|].
    rewrite xorb_false_r in Hbq. exact Hbq. }
  rewrite app_length in Hlen. lia.
Qed.
Print Assumptions C59_lemon_corrects_small_errors.

(* the contracts of the two theorems are met, on every code, by exhaustive search *)
Example C59_nonvacuous :
  forall D e b pol c ch w u, is_surface_code D e b pol c -> (forall q, 0 <= w q) ->
  exists o lemon pick, oracle_ok (sg_edges (sc_stabs c) (sc_bound c) ch) w o /\ lemon_contract lemon /\
    (forall mg, lemon_min_weight u lemon mg (pick mg)) /\ exact 1 nx_report w.
Proof.
  intros D e b pol c ch w u _ Hw. exists (search_oracle (sg_edges (sc_stabs c) (sc_bound c) ch) w), search_lemon.
  exists (fun mg => lemon_matching (graph_nodes mg) (search_lemon (adjacency32 u mg (graph_nodes mg)) (length (graph_nodes mg)))).
  split; [apply search_oracle_ok; assumption|]. split; [exact search_lemon_ok|]. split; [|apply nx_exact].
  intros mg. unfold lemon_min_weight. cbn zeta. reflexivity.
Qed.

(* ------------------------------------------------------------------ *)
(* The claim that the lemon backend finds a recovery of minimum weight, as the other backends do
   (C49), is false when weights have more than 24 significant bits.  Below, the two flipped qubits
   weigh 2^25 + 1 together, a third qubit with the same syndrome weighs 2^25 + 2.  After the
   conversion to float the third qubit looks lighter: whatever the library does within its
   contract, the correction fails, while it succeeds with exact weights. *)
Lemma radj_potential E w (phi : snode -> Z) :
  forallb (fun e => if real (fst (fst e)) && real (snd (fst e)) then
     let d := phi (snd (fst e)) - phi (fst (fst e)) in
     (d <=? wt E w (fst (fst e)) (snd (fst e))) && (- d <=? wt E w (fst (fst e)) (snd (fst e))) else true) E = true ->
  forall u v p, is_path (radj E) u v p -> phi v - phi u <= cost E w p.
Proof.
  intros HF u v p Hp. rewrite forallb_forall in HF. apply ipath_of in Hp.
  induction Hp as [u|u x v p Hux Hp Hi IH]; [unfold cost; simpl; lia|].
  unfold cost. rewrite (pairs_cons u x p) by apply Hp.
  change (phi v - phi u <= wt E w u x + cost E w p).
  assert (phi x - phi u <= wt E w u x); [|lia].
  destruct Hux as ((cv & [H|H]) & R1 & R2); apply HF in H; cbn [fst snd] in H; rewrite R1, R2 in H; cbn [andb] in H;
    apply andb_true_iff in H; destruct H as [H1 H2]; apply Z.leb_le in H1; apply Z.leb_le in H2; [lia|]. rewrite wt_sym. lia.
Qed.

Module Refute59.
  Definition c := mk_code (2, 2, 2) EcPrimal BdOpen None.
  Definition ch i j := hd (0, 0, 0) (shared (sc_stabs c) i j).
  Definition E := sg_edges (sc_stabs c) (sc_bound c) ch.
  Definition w (q : point) : Z :=
    if peqb q (0, 1, 1) then 2 ^ 24 + 3 else if peqb q (2, 1, 3) then 2 ^ 24 - 2 else if peqb q (1, 1, 2) then 2 ^ 25 + 2 else 2 ^ 30.
  Definition bit (q : point) : bool := pmem q [(0, 1, 1); (2, 1, 3)].
  Definition low0 : list snode := [NLow; NPt (0, 1, 1); NStab 0].
  Definition high0 : list snode := [NHigh; NPt (2, 1, 3); NStab 1; NStab 0].
  Definition low1 : list snode := [NLow; NPt (0, 1, 1); NStab 0; NStab 1].
  Definition high1 : list snode := [NHigh; NPt (2, 1, 3); NStab 1].
  Definition mid01 : list snode := [NStab 0; NStab 1].
  Definition o1 : sp_oracle := override (override (search_oracle E w) (NStab 0) low0 high0) (NStab 1) low1 high1.
  Definition o : sp_oracle :=
    {| sp_mid := fun u v => if snode_eq_dec u (NStab 0) then if snode_eq_dec v (NStab 1) then Some mid01 else sp_mid o1 u v else sp_mid o1 u v;
       sp_low := sp_low o1; sp_high := sp_high o1 |}.

  Lemma w_pos q : 0 < w q.
  Proof. unfold w. destruct (peqb _ _); [lia|]. destruct (peqb _ _); [lia|]. destruct (peqb _ _); lia. Qed.

  Definition on_low (p : point) : bool := co AX p =? 0.
  Definition phi_low0 (u : snode) : Z := match u with NStab 0 => 2 ^ 24 + 3 | _ => 0 end.
  Definition phi_high0 (u : snode) : Z :=
    match u with
    | NLow => 2 ^ 26 + 3 | NHigh => 0 | NStab 0 => 3 * 2 ^ 24 | NStab 1 => 2 ^ 24 - 2 | NStab _ => 0
    | NPt p => if on_low p then 2 ^ 26 + 3 else 0
    end.
  Definition phi_low1 (u : snode) : Z :=
    match u with
    | NLow => 0 | NHigh => 3 * 2 ^ 24 + 5 | NStab 0 => 2 ^ 24 + 3 | NStab 1 => 3 * 2 ^ 24 + 5 | NStab _ => 0
    | NPt p => if on_low p then 0 else 3 * 2 ^ 24 + 5
    end.
  Definition phi_high1 (u : snode) : Z := match u with NStab 1 => 2 ^ 24 - 2 | _ => 0 end.
  Definition phi_mid (u : snode) : Z :=
    match u with NStab 1 => 2 ^ 25 + 2 | NPt p => if peqb p (2, 1, 3) then 2 ^ 25 + 2 else 0 | _ => 0 end.

  Lemma sh phi u v p : forallb (fun e => let d := phi (snd (fst e)) - phi (fst (fst e)) in
     (d <=? wt E w (fst (fst e)) (snd (fst e))) && (- d <=? wt E w (fst (fst e)) (snd (fst e)))) E = true ->
    forallb (fun xy => gadjb E (fst xy) (snd xy)) (pairs p) = true -> hd_error p = Some u -> last p u = v ->
    cost E w p = phi v - phi u -> shortest (gadj E) (cost E w) u v (Some p).
  Proof.
    intros H1 H2 H3 H4 H5. split; [apply pathb_ok; assumption|]. intros p' Hp. rewrite H5. apply (potential E w phi H1 _ _ _ Hp).
  Qed.
  Lemma o1_ok : oracle_ok E w o1 /\ oracle_simple o1.
  Proof.
    pose proof (search_oracle_ok E w (fun q => Z.lt_le_incl _ _ (w_pos q))) as [H1 H2].
    destruct (override_ok E w (search_oracle E w) (NStab 0) low0 high0 H1 H2) as [H3 H4].
    - apply (sh phi_low0); vm_compute; reflexivity.
    - apply (sh phi_high0); vm_compute; reflexivity.
    - apply (nodupb_iff snode_eq_dec); vm_compute; reflexivity.
    - apply (nodupb_iff snode_eq_dec); vm_compute; reflexivity.
    - apply override_ok; [exact H3|exact H4| | | |].
      + apply (sh phi_low1); vm_compute; reflexivity.
      + apply (sh phi_high1); vm_compute; reflexivity.
      + apply (nodupb_iff snode_eq_dec); vm_compute; reflexivity.
      + apply (nodupb_iff snode_eq_dec); vm_compute; reflexivity.
  Qed.
  Lemma o_ok : oracle_ok E w o.
  Proof.
    destruct o1_ok as [(H1 & H2 & H3) _]. split; [|split; assumption]. intros u v Hu Huv. unfold o. cbn [sp_mid].
    destruct (snode_eq_dec u (NStab 0)) as [-> |]; [|apply H1; assumption].
    destruct (snode_eq_dec v (NStab 1)) as [-> |]; [|apply H1; assumption].
    split.
    - split; [|split; reflexivity]. split; [|exact I]. split; [|split; reflexivity]. apply gadjb_iff. vm_compute. reflexivity.
    - intros p' Hp. assert (Ec : cost E w mid01 = phi_mid (NStab 1) - phi_mid (NStab 0)) by (vm_compute; reflexivity).
      rewrite Ec. apply (radj_potential E w phi_mid); [vm_compute; reflexivity|exact Hp].
  Qed.

  Definition vA := MVirt (NPt (0, 1, 1)) 0.
  Definition vB := MVirt (NPt (2, 1, 3)) 1.
  Definition mg : list medge :=
    [ {| me_u := MStab 0; me_v := MStab 1; me_w := 2 ^ 25 + 2; me_path := mid01 |};
      {| me_u := MStab 0; me_v := vA; me_w := 2 ^ 24 + 3; me_path := tl low0 |};
      {| me_u := MStab 1; me_v := vB; me_w := 2 ^ 24 - 2; me_path := tl high1 |};
      {| me_u := vA; me_v := vB; me_w := 0; me_path := [] |} ].
  Lemma mg_eq : match_graph nx_report E w o (odd_stabs (sc_stabs c) bit) (has_bound_points (sc_bound c)) = Ok (mg, [vA; vB]).
  Proof. vm_compute. reflexivity. Qed.

  (* whatever the library returns, the two stabilizers are matched to each other *)
  Lemma lemon_pairs lemon M : lemon_contract lemon -> lemon_min_weight 0 lemon mg M ->
    In M (flat_map (fun x => flat_map (fun y => [[x; y]; [y; x]]) [(vA, vB); (vB, vA)]) [(MStab 0, MStab 1); (MStab 1, MStab 0)]).
  Proof.
    intros Hl HM. unfold lemon_min_weight in HM. cbn zeta in HM.
    set (nodes := graph_nodes mg) in *. assert (En : length nodes = 4%nat) by (vm_compute; reflexivity).
    rewrite En in HM. destruct (Hl (adjacency32 0 mg nodes) 4%nat eq_refl) as [H1 H2]. set (L := lemon _ _) in *. clearbody L.
    apply perfects_iff in H1.
    assert (H3 : In L (filter (fun L => - 2 ^ 25 <=? sumZ (fun ij => adjacency32 0 mg nodes (fst ij) (snd ij)) L) (perfects 4))).
    { apply (proj2 (filter_In _ L (perfects 4))). split; [exact H1|]. apply Z.leb_le.
      specialize (H2 [(0, 1); (2, 3)]%nat ltac:(unfold perfect; reflexivity)).
      assert (Es : sumZ (fun ij => adjacency32 0 mg nodes (fst ij) (snd ij)) [(0, 1); (2, 3)]%nat = - 2 ^ 25) by (vm_compute; reflexivity).
      rewrite Es in H2. exact H2. }
    clear H1 H2 En.
    assert (Ef : filter (fun L => - 2 ^ 25 <=? sumZ (fun ij => adjacency32 0 mg nodes (fst ij) (snd ij)) L) (perfects 4) =
      [[(0, 1); (2, 3)]; [(0, 1); (3, 2)]; [(1, 0); (2, 3)]; [(1, 0); (3, 2)]; [(2, 3); (0, 1)]; [(2, 3); (1, 0)]; [(3, 2); (0, 1)]; [(3, 2); (1, 0)]]%nat)
      by (vm_compute; reflexivity).
    rewrite Ef in H3. clear Ef.
    repeat (destruct H3 as [<-|H3]; [
      match type of HM with Permutation M ?X => let X' := eval vm_compute in X in change (Permutation M X') in HM end;
      apply Permutation_sym, Permutation_length_2_inv in HM; destruct HM as [-> | ->]; vm_compute; tauto|]).
    destruct H3.
  Qed.
End Refute59.

Theorem C59_lemon_minimum_refuted :
  exists c ch w o bit,
    is_surface_code (2, 2, 2) EcPrimal BdOpen None c /\ valid_choice (sc_stabs c) ch /\
    oracle_ok (sg_edges (sc_stabs c) (sc_bound c) ch) w o /\ (forall q, 0 < w q < 2 ^ 31) /\
    (* lemon: the recovery is not the lightest one, and the correction fails *)
    (forall lemon pick, lemon_contract lemon -> (forall mg, lemon_min_weight 0 lemon mg (pick mg)) ->
       exists R F bit', mwpm_decoder nx_report (sc_stabs c) (sc_bound c) ch w o pick bit = Ok (map Some R) /\
         is_correction c bit F /\ set_weight w F < set_weight w R /\
         correct_mwpm nx_report c ch w o pick bit false = Ok (bit', false)) /\
    (* networkx: it succeeds *)
    (exists bit', correct_mwpm nx_report c ch w o search_match bit false = Ok (bit', true)).
Proof.
  exists Refute59.c, Refute59.ch, Refute59.w, Refute59.o, Refute59.bit.
  split; [apply mk_code_ok|]. split; [apply first_choice_valid|]. split; [apply Refute59.o_ok|]. split.
  { intros q. unfold Refute59.w. destruct (peqb _ _); [lia|]. destruct (peqb _ _); [lia|]. destruct (peqb _ _); lia. }
  split.
  - intros lemon pick Hl Hp. pose proof (Refute59.lemon_pairs lemon (pick Refute59.mg) Hl (Hp Refute59.mg)) as HM.
    assert (Hq : qubits_to_flip Refute59.E Refute59.mg [Refute59.vA; Refute59.vB] (pick Refute59.mg) = Ok [Some (1, 1, 2)]).
    { set (M := pick Refute59.mg) in *. clearbody M. vm_compute in HM.
      repeat (destruct HM as [<-|HM]; [vm_compute; reflexivity|]). destruct HM. }
    assert (Hd : mwpm_decoder nx_report (sc_stabs Refute59.c) (sc_bound Refute59.c) Refute59.ch Refute59.w Refute59.o pick Refute59.bit = Ok (map Some [(1, 1, 2)])).
    { unfold mwpm_decoder. fold Refute59.E. rewrite Refute59.mg_eq. exact Hq. }
    exists [(1, 1, 2)], [(0, 1, 1); (2, 1, 3)]. eexists. split; [exact Hd|]. split; [|split].
    + split; [apply (nodupb_iff point_eq_dec); vm_compute; reflexivity|]. split.
      * intros q Hq'. apply (proj1 (pmem_In q (sc_syn Refute59.c))). destruct Hq' as [<-|[<-|[]]]; vm_compute; reflexivity.
      * intros st Hst. assert (G : forallb (fun st => negb (stab_parity (fun q => xorb (Refute59.bit q) (pmem q [(0, 1, 1); (2, 1, 3)])) st)) (sc_stabs Refute59.c) = true) by (vm_compute; reflexivity).
        rewrite forallb_forall in G. specialize (G st Hst). apply negb_true_iff in G. exact G.
    + vm_compute. reflexivity.
    + unfold correct_mwpm. rewrite Hd. vm_compute. reflexivity.
  - eexists. vm_compute. reflexivity.
Qed.
Print Assumptions C59_lemon_minimum_refuted.
