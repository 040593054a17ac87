(* Complex.v: facts about the stabilizer graph of any well-formed set of stabilizers. *)
From Verif Require Import Base Lattice RhgModel SurfaceModel StabGraphModel.
Open Scope nat_scope.

(* Every qubit is in two stabilizers, or in one if it is a boundary point. *)
Record wf_complex (stabs : list (list point)) (bp : list point) : Prop := {
  wf_nd : forall st, In st stabs -> NoDup st;
  wf_bp : NoDup bp;
  wf_one : forall q, In q bp -> length (filter (pmem q) stabs) = 1;
  wf_two : forall q, In q (concat stabs) -> ~ In q bp -> length (filter (pmem q) stabs) = 2
}.

Definition holders (stabs : list (list point)) (q : point) : list nat :=
  filter (fun i => pmem q (stab_of stabs i)) (seq 0 (length stabs)).

Lemma filter_seq_length {A} (f : A -> bool) (d : A) l : forall k,
  length (filter (fun i => f (nth (i - k) l d)) (seq k (length l))) = length (filter f l).
Proof.
  induction l as [|x l IH]; intros k; [reflexivity|]. simpl.
  replace (k - k) with 0 by lia. simpl.
  assert (E : length (filter (fun i => f (nth (i - k) (x :: l) d)) (seq (S k) (length l))) = length (filter f l)).
  { rewrite <- (IH (S k)). f_equal. apply filter_ext_in. intros i Hi. apply in_seq in Hi.
    replace (i - k) with (S (i - S k)) by lia. reflexivity. }
  simpl in E. destruct (f x); simpl; rewrite E; reflexivity.
Qed.

Lemma holders_length stabs q : length (holders stabs q) = length (filter (pmem q) stabs).
Proof.
  rewrite <- (filter_seq_length (pmem q) [] stabs 0). unfold holders, stab_of. f_equal.
  apply filter_ext. intros i. rewrite Nat.sub_0_r. reflexivity.
Qed.

Lemma in_holders stabs q i : In i (holders stabs q) <-> i < length stabs /\ In q (stab_of stabs i).
Proof. unfold holders. rewrite filter_In, in_seq, pmem_In. split; intros [H1 H2]; split; auto; lia. Qed.

Lemma holders_NoDup stabs q : NoDup (holders stabs q).
Proof. apply NoDup_filter, seq_NoDup. Qed.

Lemma halves bp : low_half bp ++ high_half bp = bp.
Proof. apply firstn_skipn. Qed.

Lemma in_combos n i j : In (i, j) (combos n) <-> i < j < n.
Proof.
  unfold combos. rewrite in_flat_map. split.
  - intros [x [Hx Hin]]. apply in_seq in Hx. apply in_map_iff in Hin. destruct Hin as [y [E Hy]].
    apply in_seq in Hy. injection E as <- <-. lia.
  - intros H. exists i. split; [apply in_seq; lia|]. apply in_map_iff. exists j. split; [reflexivity|].
    apply in_seq. lia.
Qed.

Lemma combos_NoDup n : NoDup (combos n).
Proof.
  unfold combos. apply NoDup_flat_map.
  - apply seq_NoDup.
  - intros x _. apply NoDup_map_inj; [|apply seq_NoDup]. intros; congruence.
  - intros x y z _ _ Hx Hy. apply in_map_iff in Hx, Hy. destruct Hx as [? [<- _]], Hy as [? [E _]]. congruence.
Qed.

Lemma in_shared stabs i j q : In q (shared stabs i j) <-> In q (stab_of stabs i) /\ In q (stab_of stabs j).
Proof. unfold shared. rewrite filter_In, pmem_In. reflexivity. Qed.

Definition sadj (E : list sedge) (u v : snode) : Prop := exists cv, In (u, v, cv) E \/ In (v, u, cv) E.
Definition sadjq (E : list sedge) (u v : snode) (q : point) : Prop := In (u, v, Some q) E \/ In (v, u, Some q) E.

Definition is_end (u : snode) (i : nat) : bool := match u with NStab j => Nat.eqb j i | _ => false end.

Section Cx.
  Variables (stabs : list (list point)) (bp : list point) (ch : nat -> nat -> point).
  Hypothesis WF : wf_complex stabs bp.
  Hypothesis Hch : valid_choice stabs ch.
  Let E := sg_edges stabs bp ch.

  Lemma in_stab_edges u v cv : In (u, v, cv) (stab_edges stabs ch) <->
    exists i j, u = NStab i /\ v = NStab j /\ i < j < length stabs /\ shared stabs i j <> [] /\ cv = Some (ch i j).
  Proof.
    unfold stab_edges. rewrite in_flat_map. split.
    - intros [[i j] [Hij Hin]]. simpl in Hin. apply in_combos in Hij.
      destruct (shared stabs i j) eqn:F; [destruct Hin|]. destruct Hin as [Hin|[]].
      injection Hin as <- <- <-. exists i, j. rewrite F. repeat split; try lia; discriminate.
    - intros (i & j & -> & -> & Hij & Hs & ->). exists (i, j). split; [apply in_combos; assumption|]. simpl.
      destruct (shared stabs i j); [congruence|]. left; reflexivity.
  Qed.

  Lemma in_point_edges u v cv : In (u, v, cv) (point_edges stabs (low_half bp ++ high_half bp)) <->
    exists i p, u = NStab i /\ v = NPt p /\ i < length stabs /\ In p bp /\ In p (stab_of stabs i) /\ cv = Some p.
  Proof.
    unfold point_edges. rewrite halves, in_flat_map. split.
    - intros [i [Hi Hin]]. apply in_seq in Hi. apply in_flat_map in Hin. destruct Hin as [p [Hp Hin]].
      destruct (pmem p (stab_of stabs i)) eqn:F; [|destruct Hin]. destruct Hin as [Hin|[]].
      injection Hin as <- <- <-. apply pmem_In in F. exists i, p. repeat split; auto; lia.
    - intros (i & p & -> & -> & Hi & Hp & Hs & ->). exists i. split; [apply in_seq; lia|].
      apply in_flat_map. exists p. split; [assumption|]. apply pmem_In in Hs. rewrite Hs. left; reflexivity.
  Qed.

  Lemma in_conn_edges u v cv : In (u, v, cv) (conn_edges (low_half bp) (high_half bp)) <->
    cv = None /\ exists p, v = NPt p /\ ((u = NLow /\ In p (low_half bp)) \/ (u = NHigh /\ In p (high_half bp))).
  Proof.
    unfold conn_edges. rewrite in_app_iff, !in_map_iff. split.
    - intros [[p [Hp Hin]]|[p [Hp Hin]]]; injection Hp as <- <- <-; (split; [reflexivity|]); exists p; auto.
    - intros (-> & p & -> & [[-> Hp]|[-> Hp]]); [left|right]; exists p; auto.
  Qed.

  Lemma in_E u v cv : In (u, v, cv) E <->
    (exists i j, u = NStab i /\ v = NStab j /\ i < j < length stabs /\ shared stabs i j <> [] /\ cv = Some (ch i j))
    \/ (exists i p, u = NStab i /\ v = NPt p /\ i < length stabs /\ In p bp /\ In p (stab_of stabs i) /\ cv = Some p)
    \/ (cv = None /\ exists p, v = NPt p /\ ((u = NLow /\ In p (low_half bp)) \/ (u = NHigh /\ In p (high_half bp)))).
  Proof.
    unfold E, sg_edges. rewrite !in_app_iff, in_stab_edges, in_point_edges, in_conn_edges. tauto.
  Qed.

  Lemma holders_count q i : i < length stabs -> In q (stab_of stabs i) ->
    (In q bp /\ holders stabs q = [i]) \/ (~ In q bp /\ length (holders stabs q) = 2).
  Proof.
    intros Hi Hq. assert (Hin : In i (holders stabs q)) by (apply in_holders; auto).
    destruct (in_dec point_eq_dec q bp) as [Hb|Hb].
    - left. split; [assumption|]. pose proof (wf_one _ _ WF q Hb) as Hl. rewrite <- holders_length in Hl.
      destruct (holders stabs q) as [|x [|y l]]; simpl in *; try lia. destruct Hin as [->|[]]. reflexivity.
    - right. split; [assumption|]. rewrite holders_length. apply (wf_two _ _ WF); [|assumption].
      apply in_concat. exists (stab_of stabs i). split; [|assumption]. apply nth_In. assumption.
  Qed.

  Lemma holders_two q i j : i < j < length stabs -> In q (stab_of stabs i) -> In q (stab_of stabs j) ->
    ~ In q bp /\ forall k, k < length stabs -> In q (stab_of stabs k) -> k = i \/ k = j.
  Proof.
    intros Hij Hi Hj. destruct (holders_count q i ltac:(lia) Hi) as [[Hb Hh]|[Hb Hl]].
    - exfalso. assert (Hin : In j (holders stabs q)) by (apply in_holders; split; [lia|assumption]).
      rewrite Hh in Hin. destruct Hin as [<-|[]]. lia.
    - split; [assumption|]. intros k Hk Hqk.
      destruct (Nat.eq_dec k i) as [|n1]; [auto|]. destruct (Nat.eq_dec k j) as [|n2]; [auto|]. exfalso.
      assert (Hincl : incl [i; j; k] (holders stabs q)).
      { intros x [<-|[<-|[<-|[]]]]; apply in_holders; split; auto; lia. }
      apply NoDup_incl_length in Hincl; [simpl in Hincl; lia|].
      repeat constructor; simpl; intuition lia.
  Qed.

  (* flipping the common vertex of an edge toggles exactly the parities of its ends *)
  Lemma edge_toggle u v q i : i < length stabs -> In (u, v, Some q) E ->
    pmem q (stab_of stabs i) = xorb (is_end u i) (is_end v i).
  Proof.
    intros Hi He. apply in_E in He. destruct He as [(k & j & -> & -> & Hkj & Hs & Hq)|[(k & p & -> & -> & Hk & Hp & Hs & Hq)|[Hq _]]].
    - injection Hq as ->. pose proof (Hch k j Hkj Hs) as Hin. apply in_shared in Hin. destruct Hin as [H1 H2].
      destruct (holders_two _ k j Hkj H1 H2) as [_ Hu]. simpl. apply eq_true_iff_eq. rewrite pmem_In. split.
      + intros Hq. destruct (Hu i Hi Hq) as [->| ->].
        * rewrite Nat.eqb_refl. assert (F : Nat.eqb j k = false) by (apply Nat.eqb_neq; lia). rewrite F. reflexivity.
        * rewrite Nat.eqb_refl. assert (F : Nat.eqb k j = false) by (apply Nat.eqb_neq; lia). rewrite F. reflexivity.
      + intros Hx. destruct (Nat.eqb k i) eqn:F1.
        * apply Nat.eqb_eq in F1. subst. assumption.
        * destruct (Nat.eqb j i) eqn:F2; [|discriminate]. apply Nat.eqb_eq in F2. subst. assumption.
    - injection Hq as ->. destruct (holders_count p k Hk Hs) as [[Hb Hh]|[Hb _]]; [|contradiction].
      simpl. rewrite xorb_false_r. apply eq_true_iff_eq. rewrite pmem_In, Nat.eqb_eq. split.
      + intros Hq. assert (Hin : In i (holders stabs p)) by (apply in_holders; auto).
        rewrite Hh in Hin. destruct Hin as [->|[]]. reflexivity.
      + intros ->. assumption.
    - discriminate.
  Qed.

  Lemma sadjq_toggle u v q i : i < length stabs -> sadjq E u v q ->
    pmem q (stab_of stabs i) = xorb (is_end u i) (is_end v i).
  Proof.
    intros Hi [H|H]; [apply edge_toggle; assumption|]. rewrite xorb_comm. apply edge_toggle; assumption.
  Qed.

  Lemma edge_unique u v u' v' q : In (u, v, Some q) E -> In (u', v', Some q) E -> u = u' /\ v = v'.
  Proof.
    intros H H'. apply in_E in H, H'.
    destruct H as [(i & j & -> & -> & Hij & Hs & Hq)|[(i & p & -> & -> & Hi & Hp & Hs & Hq)|[Hq _]]]; [| |discriminate].
    - injection Hq as ->. pose proof (Hch i j Hij Hs) as Hin. apply in_shared in Hin. destruct Hin as [H1 H2].
      destruct (holders_two _ i j Hij H1 H2) as [Hb Hu].
      destruct H' as [(i' & j' & -> & -> & Hij' & Hs' & Hq')|[(i' & p & -> & -> & Hi' & Hp & _ & Hq')|[Hq' _]]]; [| |discriminate].
      + injection Hq' as Hq'. pose proof (Hch i' j' Hij' Hs') as Hin'. rewrite <- Hq' in Hin'. apply in_shared in Hin'.
        destruct Hin' as [H1' H2']. destruct (Hu i' ltac:(lia) H1') as [->| ->], (Hu j' ltac:(lia) H2') as [->| ->]; try lia; auto.
      + injection Hq' as <-. contradiction.
    - injection Hq as ->.
      destruct H' as [(i' & j' & -> & -> & Hij' & Hs' & Hq')|[(i' & p' & -> & -> & Hi' & Hp' & Hs'' & Hq')|[Hq' _]]]; [| |discriminate].
      + injection Hq' as Hq'. pose proof (Hch i' j' Hij' Hs') as Hin'. rewrite <- Hq' in Hin'. apply in_shared in Hin'.
        destruct (holders_two _ i' j' Hij' (proj1 Hin') (proj2 Hin')) as [Hb _]. contradiction.
      + injection Hq' as <-. split; [|reflexivity].
        destruct (holders_count p i Hi Hs) as [[_ Hh]|[Hb _]]; [|contradiction].
        assert (Hin : In i' (holders stabs p)) by (apply in_holders; auto). rewrite Hh in Hin.
        destruct Hin as [->|[]]. reflexivity.
  Qed.

  (* at most one edge joins two given nodes, in one given direction *)
  Lemma edge_data_unique u v cv cv' : In (u, v, cv) E -> In (u, v, cv') E -> cv = cv'.
  Proof.
    intros H H'. apply in_E in H, H'.
    destruct H as [(i & j & -> & -> & _ & _ & ->)|[(i & p & -> & -> & _ & _ & _ & ->)|[-> (p & -> & Hu)]]];
    destruct H' as [(i' & j' & E1 & E2 & _ & _ & ->)|[(i' & p' & E1 & E2 & _ & _ & _ & ->)|[-> (p' & E1 & Hu')]]];
    try congruence.
    - destruct Hu' as [[? _]|[? _]]; congruence.
    - destruct Hu as [[? _]|[? _]]; congruence.
  Qed.

  Lemma edge_direction u v cv cv' : In (u, v, cv) E -> In (v, u, cv') E -> False.
  Proof.
    intros H H'. apply in_E in H, H'.
    destruct H as [(i & j & -> & -> & Hij & _ & _)|[(i & p & -> & -> & _ & _ & _ & _)|[_ (p & -> & Hu)]]];
    destruct H' as [(i' & j' & E1 & E2 & Hij' & _ & _)|[(i' & p' & E1 & E2 & _ & _ & _ & _)|[_ (p' & E1 & Hu')]]];
    try congruence.
    - injection E1 as ->. injection E2 as ->. lia.
    - destruct Hu as [[? _]|[? _]]; congruence.
  Qed.

  Lemma stab_adj i j : i < length stabs -> j < length stabs -> i <> j ->
    (sadj E (NStab i) (NStab j) <-> exists q, In q (stab_of stabs i) /\ In q (stab_of stabs j)).
  Proof.
    intros Hi Hj Hn. split.
    - intros [cv [H|H]]; apply in_E in H;
        (destruct H as [(i' & j' & E1 & E2 & Hij & Hs & _)|[(i' & p & _ & E2 & _)|[_ (p & E2 & _)]]]; [|discriminate|discriminate]);
        injection E1 as <-; injection E2 as <-; pose proof (Hch _ _ Hij Hs) as Hin; apply in_shared in Hin;
        eexists; split; apply Hin.
    - intros [q [H1 H2]].
      assert (Hne : shared stabs i j <> [] /\ shared stabs j i <> []).
      { split; intros F; assert (Hx : In q []) by (rewrite <- F; apply in_shared; auto); destruct Hx. }
      destruct (Nat.lt_ge_cases i j).
      + exists (Some (ch i j)). left. apply in_E. left. exists i, j. repeat split; auto; lia || apply Hne.
      + exists (Some (ch j i)). right. apply in_E. left. exists j, i. repeat split; auto; lia || apply Hne.
  Qed.
End Cx.
