(* MwpmApprox.v: decoding with a perfect matching that is not of minimum weight: any perfect matching of
   the matching graph clears the syndrome, and one whose weight is near the minimum gives a
   recovery whose weight is near the minimum. *)
From Verif Require Import Base Lattice RhgModel RhgSpec SurfaceModel SurfaceSpec SurfaceProofs
  SurfaceTheorems SurfaceGauge StabGraphModel Complex Paths SurfaceComplex PropsSurface MwpmModel MwpmProofs
  MwpmInst MwpmLemon MwpmFloat PropsMwpm.
Open Scope Z_scope.

(* F is a set of syndrome qubits whose flip clears the syndrome *)
Definition is_correction (c : scode) (bit : point -> bool) (F : list point) : Prop :=
  NoDup F /\ (forall q, In q F -> In q (sc_syn c)) /\
  forall st, In st (sc_stabs c) -> stab_parity (fun q => xorb (bit q) (pmem q F)) st = false.

Section Near.
  Variables (D : dims) (e : ecx) (b : bdk) (pol : option (point * point -> Z)) (c : scode).
  Hypothesis H2 : dims_ge2 D.
  Hypothesis HC : is_surface_code D e b pol c.
  Variable ch : nat -> nat -> point.
  Hypothesis Hch : valid_choice (sc_stabs c) ch.
  Variable bit : point -> bool.
  Variables (rp : Z -> Z) (w : point -> Z) (o : sp_oracle).
  Hypothesis Ho : oracle_ok (sg_edges (sc_stabs c) (sc_bound c) ch) w o.
  Notation E := (sg_edges (sc_stabs c) (sc_bound c) ch).
  Notation n := (length (sc_stabs c)).
  Notation odd := (odd_stabs (sc_stabs c) bit).
  Let WF := surface_wf D e b pol c H2 HC.
  Let Hconn := code_conn D e b pol c H2 HC ch Hch.
  Let Hbal := code_bal D e b pol c H2 HC.
  Let Heven := code_even D e b pol c H2 HC bit.

  Variables (mg : list medge) (virt : list mnode) (mids bes : list medge).
  Hypothesis Hmg : match_graph rp E w o odd (has_bound_points (sc_bound c)) = Ok (mg, virt).
  Hypothesis HS : mg_spec (sc_stabs c) (sc_bound c) ch rp w odd mg virt mids bes.
  Notation mnodes := (map MStab odd ++ virt).

  (* the nodes of the networkx graph are the odd stabilizers and the virtual points *)
  Lemma graph_nodes_perm : Permutation (graph_nodes mg) mnodes.
  Proof.
    destruct (graph_nodes_spec mg) as [Hn Hin]. apply NoDup_Permutation; [assumption| |].
    - apply (mnodes_NoDup _ _ ch rp w Hconn _ (odd_nd c bit) (odd_lt c bit) mg virt mids bes HS).
    - intros x. rewrite Hin. split.
      + intros (ed & He & Hx). destruct (edge_nodes (sc_stabs c) (sc_bound c) ch rp w Hbal odd mg virt mids bes HS ed He) as [U V].
        destruct Hx as [-> | ->]; assumption.
      + intros Hx. destruct (perfect_exists (sc_stabs c) (sc_bound c) ch rp w Hconn Hbal odd (odd_nd c bit) (odd_lt c bit) mg virt mids bes HS Heven) as (M & HM & Hl).
        assert (HP : Permutation (endpoints M) mnodes).
        { apply NoDup_Permutation_bis; [apply HM|rewrite endpoints_length; lia|].
          apply (matching_nodes (sc_stabs c) (sc_bound c) ch rp w Hbal odd mg virt mids bes HS M HM). }
        apply (Permutation_in _ (Permutation_sym HP)) in Hx. unfold endpoints in Hx. apply in_flat_map in Hx.
        destruct Hx as (uv & Huv & Hx). destruct (proj2 HM uv Huv) as (ed & He & Hs). exists ed. split; [assumption|].
        apply same_match_iff' in Hs. simpl in Hx. destruct Hs as [[-> ->]|[-> ->]]; destruct Hx as [<-|[<-|[]]]; auto.
  Qed.
  Lemma graph_nodes_even : Nat.even (length (graph_nodes mg)) = true.
  Proof.
    rewrite (Permutation_length graph_nodes_perm).
    destruct (perfect_exists (sc_stabs c) (sc_bound c) ch rp w Hconn Hbal odd (odd_nd c bit) (odd_lt c bit) mg virt mids bes HS Heven) as (M & _ & Hl).
    rewrite <- Hl. apply Nat.even_spec. exists (length M). reflexivity.
  Qed.

  Variable M : list (mnode * mnode).
  Hypothesis HM : is_matching mg M.
  Hypothesis HP : Permutation (endpoints M) mnodes.

  Lemma near_decode : exists qs bit',
    qubits_to_flip E mg virt M = Ok qs /\
    NoDup qs /\ (forall x, In x qs -> exists q, x = Some q /\ In q (sc_syn c)) /\
    recovery (node_list (sc_graph c)) qs bit = Ok bit' /\
    (forall q, bit' q = xorb (bit q) (omem (Some q) qs)) /\
    (forall st, In st (sc_stabs c) -> stab_parity bit' st = false).
  Proof.
    destruct (flip_all (sc_stabs c) (sc_bound c) ch WF Hch rp w Hconn Hbal odd (odd_lt c bit) mg virt mids bes HS M (proj2 HM) []) as (qs & Hq & [Hnd Hin] & Hnone & Hx0).
    { split; [constructor|intros q []]. }
    { reflexivity. }
    assert (Hx : forall i, (i < n)%nat -> xsum (in_stab (sc_stabs c) i) qs = if in_dec Nat.eq_dec i odd then true else false).
    { intros i Hi. rewrite (Hx0 i Hi), (xsum_perm _ _ _ HP), (odd_xsum (sc_stabs c) (sc_bound c) ch rp w Hconn odd (odd_nd c bit) (odd_lt c bit) mg virt mids bes HS).
      simpl. destruct (in_dec Nat.eq_dec i odd); reflexivity. }
    assert (Hall : forall x, In x qs -> exists q, x = Some q /\ In q (sc_syn c)).
    { intros [q|] Hxq; [|apply omem_true in Hxq; congruence]. exists q. split; [reflexivity|]. specialize (Hin q Hxq).
      apply in_concat in Hin. destruct Hin as (st & Hst & Hqs).
      apply (In_nth _ _ []) in Hst. destruct Hst as (i & Hi & <-).
      apply (syn_graph D e b pol c H2 HC). apply (stab_nodes D e b pol c H2 HC (nth i (sc_stabs c) [])); [apply nth_In|]; assumption. }
    assert (Hnodes : forall x, In x qs -> exists q, x = Some q /\ In q (node_list (sc_graph c))).
    { intros x Hxq. destruct (Hall x Hxq) as (q & -> & Hq'). exists q. split; [reflexivity|].
      apply (syn_graph D e b pol c H2 HC) in Hq'. tauto. }
    destruct (recovery_ok _ qs Hnodes bit) as (bit' & Hr & Hb).
    assert (Hb' : forall x, bit' x = xorb (bit x) (omem (Some x) qs)).
    { intros x. rewrite Hb. f_equal. apply xsum_mem. assumption. }
    exists qs, bit'. split; [exact Hq|].
    split; [assumption|]. split; [assumption|]. split; [assumption|]. split; [assumption|].
    intros st Hst. apply (In_nth _ _ []) in Hst. destruct Hst as (i & Hi & <-).
    rewrite (parity_flip _ qs bit bit'); [|apply (wf_nd _ _ WF), nth_In; assumption|assumption|assumption].
    specialize (Hx i Hi). rewrite in_odd in Hx by assumption. unfold stab_of in Hx. rewrite <- Hx.
    etransitivity; [|apply (xorb_nilpotent (xsum (in_stab (sc_stabs c) i) qs))]. f_equal.
  Qed.
End Near.

(* every correction gives a perfect matching that is no heavier *)
Lemma correction_matching D e b pol c (H2 : dims_ge2 D) (HC : is_surface_code D e b pol c) ch (Hch : valid_choice (sc_stabs c) ch) bit rp w o ra rb k
  (Ho : oracle_ok (sg_edges (sc_stabs c) (sc_bound c) ch) w o) mg virt mids bes :
  mg_spec (sc_stabs c) (sc_bound c) ch rp w (odd_stabs (sc_stabs c) bit) mg virt mids bes ->
  near ra rb k rp w -> (forall q, 0 <= w q) ->
  (forall i j q, (i < j < length (sc_stabs c))%nat -> In q (shared (sc_stabs c) i j) -> w (ch i j) <= w q) ->
  forall F, is_correction c bit F ->
  exists M, is_matching mg M /\ Permutation (endpoints M) (map MStab (odd_stabs (sc_stabs c) bit) ++ virt) /\
    k * total_weight mg M <= set_weight w F.
Proof.
  intros HS Hex Hw Hlight F (HF & HFin & HFt).
  pose proof (surface_wf D e b pol c H2 HC) as WF. pose proof (code_conn D e b pol c H2 HC ch Hch) as Hconn.
  pose proof (code_bal D e b pol c H2 HC) as Hbal. pose proof (code_even D e b pol c H2 HC bit) as Heven.
  set (odd := odd_stabs (sc_stabs c) bit) in *.
  assert (Hcat : forall q, In q F -> In q (concat (sc_stabs c))).
  { intros q Hq. apply HFin in Hq.
    pose proof (stab_count D e b pol c H2 HC q Hq) as Hc.
    destruct (filter (pmem q) (sc_stabs c)) as [|st l] eqn:Ef; [destruct (pmem q (sc_bound c)); discriminate|].
    assert (Hst : In st (filter (pmem q) (sc_stabs c))) by (rewrite Ef; left; reflexivity).
    apply filter_In in Hst. destruct Hst as [Hst Hqs]. apply in_concat. exists st. split; [assumption|].
    apply pmem_In. assumption. }
  assert (Hsyn : forall i, (i < length (sc_stabs c))%nat -> xsum (fun q => pmem q (stab_of (sc_stabs c) i)) F = if in_dec Nat.eq_dec i odd then true else false).
  { intros i Hi. unfold odd. rewrite in_odd by assumption.
    specialize (HFt (stab_of (sc_stabs c) i) (nth_In _ _ Hi)).
    assert (HndF : NoDup (map Some F)) by (apply NoDup_map_inj; [congruence|assumption]).
    rewrite (parity_flip _ (map Some F) bit (fun q => xorb (bit q) (pmem q F))) in HFt;
      [|apply (wf_nd _ _ WF), nth_In; assumption|assumption|].
    + apply Bool.xorb_eq in HFt. rewrite HFt. clear. induction F as [|q F IH]; [reflexivity|]. simpl. rewrite IH. reflexivity.
    + intros q. f_equal. destruct (pmem q F) eqn:F1.
      * symmetry. apply omem_true, in_map, pmem_In. assumption.
      * destruct (omem (Some q) (map Some F)) eqn:F'; [|reflexivity]. apply omem_true in F'.
        apply in_map_iff in F'. destruct F' as (q' & Eq & F'). injection Eq as ->. apply pmem_In in F'. congruence. }
  destruct (chain_conf (sc_stabs c) (sc_bound c) ch WF w Hconn Hbal odd (odd_lt c bit) Heven Hw Hlight F Hcat) as (L & HCf & HK & HPar).
  assert (HP : Permutation (eps L) odd).
  { apply NoDup_Permutation; [apply HCf|apply odd_nd|]. intros i. split; intros Hi.
    - assert (Hin : (i < length (sc_stabs c))%nat).
      { unfold eps in Hi. apply in_flat_map in Hi. destruct Hi as (t & Ht & Hi). destruct HCf as [_ Hf].
        pose proof (proj1 (Forall_forall _ _) Hf t Ht) as Hok. destruct t as [x y z|x z]; simpl in *.
        - destruct Hok as (Ha & Hb & _). destruct Hi as [<-|[<-|[]]]; assumption.
        - destruct Hok as (Ha & _). destruct Hi as [<-|[]]; assumption. }
      apply (pari_in _ i (proj1 HCf)) in Hi. rewrite (HPar i Hin), (Hsyn i Hin) in Hi.
      destruct (in_dec Nat.eq_dec i odd); [assumption|discriminate].
    - apply (pari_in _ i (proj1 HCf)). rewrite (HPar i (odd_lt c bit i Hi)), (Hsyn i (odd_lt c bit i Hi)).
      destruct (in_dec Nat.eq_dec i odd); [reflexivity|contradiction]. }
  destruct (conf_matching (sc_stabs c) (sc_bound c) ch WF rp w o Ho Hconn Hbal odd (odd_nd c bit) (odd_lt c bit) mg virt mids bes HS Heven ra rb k Hex Hw Hlight L HCf HP)
    as (M & HM & Hl & HW).
  exists M. split; [assumption|]. split.
  - apply NoDup_Permutation_bis; [apply HM|rewrite endpoints_length; lia|].
    apply (matching_nodes (sc_stabs c) (sc_bound c) ch rp w Hbal odd mg virt mids bes HS M HM).
  - change (set_weight w F) with (sumZ w F). lia.
Qed.
