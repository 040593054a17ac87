(* PropsWeighted.v: C78, edge weights that are not small integers. *)
From Coq Require Import String List Reals ZArith Lia Lra.
From Verif Require Import Base Lattice GkpModel PropsGkp OpsModel OpsNdModel PropsOps PropsOpsNd WeightedModel EgraphModel EgraphSpec EgraphInv PropsEgraph CvModel CvSpec CvNoise PropsCv.
Import ListNotations.
Open Scope R_scope.

(* ---------- specification ---------- *)
Definition wedge (es : list (point * point * R)) (p q : point) (w : R) : Prop := In (p, q, w) es \/ In (q, p, w) es.
(* a networkx graph: one weight for every pair *)
Definition one_weight (es : list (point * point * R)) : Prop := forall p q w w', wedge es p q w -> wedge es p q w' -> w = w'.
(* the weight of the CZ gate between two nodes of the graph state: that of the edge, 0 without one *)
Definition gate (es : list (point * point * R)) (p q : point) (w : R) : Prop := wedge es p q w \/ (w = 0 /\ forall w', ~ wedge es p q w').
(* the number without its fraction *)
Definition whole_part (w : R) (z : Z) : Prop := (0 <= w -> IZR z <= w < IZR z + 1) /\ (w <= 0 -> IZR z - 1 < w <= IZR z).

Lemma trunc_whole w : whole_part w (truncR w).
Proof.
  unfold whole_part, truncR. destruct (Rle_dec 0 w).
  - pose proof (Int_part_spec w). split; [tauto|]. intros. assert (w = 0) by lra. subst w. assert (Int_part 0 = 0%Z) as -> by (apply Int_part_unique; simpl; lra). simpl. lra.
  - split; [lra|]. intros _. rewrite opp_IZR. pose proof (Int_part_spec (- w)). lra.
Qed.
Lemma whole_part_unique w z z' : whole_part w z -> whole_part w z' -> z = z'.
Proof.
  intros [A B] [A' B']. destruct (Rle_dec 0 w) as [H|H].
  - specialize (A H). specialize (A' H). assert (IZR z < IZR (z' + 1)) by (rewrite plus_IZR; simpl; lra). assert (IZR z' < IZR (z + 1)) by (rewrite plus_IZR; simpl; lra).
    apply lt_IZR in H0. apply lt_IZR in H1. lia.
  - assert (H' : w <= 0) by lra. specialize (B H'). specialize (B' H'). assert (IZR z < IZR (z' + 1)) by (rewrite plus_IZR; simpl; lra). assert (IZR z' < IZR (z + 1)) by (rewrite plus_IZR; simpl; lra).
    apply lt_IZR in H0. apply lt_IZR in H1. lia.
Qed.
Lemma int8_in_range other w : -129 < w < 128 -> int8 other w = truncR w.
Proof. intros [A B]. unfold int8. destruct (Rlt_dec (-129) w); [|lra]. destruct (Rlt_dec w 128); [reflexivity|lra]. Qed.

Lemma joined_converted other ns es m d p q z : joined (weighted_egraph other ns es m d) p q z <-> exists w, wedge es p q w /\ z = int8 other w.
Proof.
  unfold joined, weighted_egraph, new_egraph, converted, wedge. cbn [e_edges]. rewrite !in_map_iff. split.
  - intros [([[a b] w] & E & Hin)|([[a b] w] & E & Hin)]; cbn [fst snd] in E; injection E as <- <- <-; exists w; split; auto.
  - intros (w & [H|H] & ->); [left|right]; eexists; (split; [|exact H]); reflexivity.
Qed.

(* What adj_generator returns for a graph with any weights: 0 without an edge, else the weight without its fraction. *)
Theorem C78_adjacency : forall U other ns es m d sparse g' a,
  (0 < U)%Z -> fresh (weighted_egraph other ns es m d) -> one_weight es -> (forall p q w, wedge es p q w -> -129 < w < 128) ->
  adj_generator (weighted_egraph other ns es m d) sparse = (g', Ok a) ->
  forall i j p q w, (i < length ns)%nat -> (j < length ns)%nat -> pnt g' i = Some p -> pnt g' j = Some q -> gate es p q w ->
  whole_part w (nth j (nth i a []) 0%Z).
Proof.
  intros U other ns es m d sparse g' a HU Hf H1 Hr E i j p q w Hi Hj Hp Hq Hg.
  destruct (C30_adjacency_current_partial U (weighted_egraph other ns es m d) (weighted_egraph other ns es m d) sparse g' (Ok a) HU Hf (HNil U _) E) as [(S1 & S2 & _) [_ (_ & _ & K)]].
  assert (HN : e_nodes g' = ns) by (rewrite S1; reflexivity). rewrite HN in K. specialize (K i j p q Hi Hj Hp Hq).
  assert (HJ : forall x, joined g' p q x <-> joined (weighted_egraph other ns es m d) p q x) by (intros x; unfold joined; rewrite S2; reflexivity).
  destruct K as [K|[K1 K2]].
  - apply HJ, joined_converted in K. destruct K as (w' & Hw & ->). destruct Hg as [Hg|[_ Hg]]; [|exfalso; exact (Hg w' Hw)].
    rewrite (H1 p q w w' Hg Hw). rewrite int8_in_range by (apply (Hr p q); exact Hw). apply trunc_whole.
  - rewrite K1. destruct Hg as [Hg|[-> _]].
    + exfalso. apply (K2 (int8 other w)). apply HJ, joined_converted. eauto.
    + split; intros; simpl; lra.
Qed.
Print Assumptions C78_adjacency.

(* the weights of the gates of a layer: w i j belongs to the nodes with indices i and j *)
Definition gates_of (c : cv) (es : list (point * point * R)) (w : nat -> nat -> R) : Prop :=
  forall i j p q, node_at c i p -> node_at c j q -> gate es p q (w i j).
Lemma init_adj g a0 perf code delta states p_swap order trans g' c : cv_init g a0 perf code delta states p_swap order trans = (g', Ok c) ->
  exists rows, adj_generator g true = (g', Ok rows) /\ v_adj c = rows_mat rows.
Proof.
  intros E. unfold cv_init in E. destruct (adj_generator g true) as [g1 r]. destruct r as [rows|e]; [|discriminate]. cbn [bind] in E.
  destruct (match perf with None => _ | Some ps => _ end) as [pinds|e]; [|discriminate]. cbn [bind] in E. exists rows.
  destruct p_swap as [x|]; [|injection E as <- <-; split; reflexivity]. destruct states as [s|]; [|injection E as <- <-; split; reflexivity].
  destruct (dget String.eqb s "p"%string) as [y|]; [|discriminate]. destruct (Nat.eqb _ 0); [|discriminate]. injection E as <- <-. split; reflexivity.
Qed.

(* A CVLayer on a code whose graph has any weights, after any trials, in the documented order: the outcome of a qubit is its
   own momentum noise plus the position noise of its neighbours, weighted with the weights without their fractions. *)
Theorem C78_noise : forall U other ns es m mm a0 perf delta states p_swap trans g' c inds coords ds d w,
  (0 < U)%Z -> fresh (weighted_egraph other ns es m mm) -> one_weight es -> (forall p q x, wedge es p q x -> -129 < x < 128) ->
  cv_init (weighted_egraph other ns es m mm) a0 perf (Some (inds, coords)) delta states p_swap None trans = (g', Ok c) ->
  fresh_layer c -> code_layer c inds coords -> Forall (draws_ok (v_N c)) ds -> draws_ok (v_N c) d -> 0 < delta -> (forall x, v_states c = [("p"%string, x)] -> x_arr x = true) ->
  gates_of c es w ->
  exists after sq sp whole, trials c (ds ++ [d]) = (after, Ok tt) /\ std_spec c (inds_of after "p") (inds_of after "GKP") sq sp /\
    (forall i j, (i < v_N c)%nat -> (j < v_N c)%nat -> whole_part (w i j) (whole i j)) /\
    forall i p, In p coords -> node_at c i p -> exists h, a_homp (v_attr after p) = Some h /\ a_bit (v_attr after p) = Some (v_trans c h) /\
      h = sp i * d_z d (v_N c + i)%nat + Rsum (fun j => IZR (whole i j) * (sq j * d_z d j)) (v_N c).
Proof.
  intros U other ns es m mm a0 perf delta states p_swap trans g' c inds coords ds d w HU Hf H1 Hr E HF HC Hds Hd Hde Ha Hw.
  destruct (C39_constructor U _ _ a0 perf (Some (inds, coords)) delta states p_swap None trans g' c HU Hf (HNil U _) E) as (_ & _ & HN & (Hnum & _) & Hnode & _ & _ & Hdelta & _ & _ & Hord & _).
  destruct (init_adj _ _ _ _ _ _ _ _ _ _ _ E) as (rows & Ea & Hadj).
  destruct (C40_noise_partial c inds coords ds d HF HC Hds Hd) as (before & after & sq & sp & _ & Ht & _ & _ & Std & Hh & _); [rewrite Hord; reflexivity|rewrite Hdelta; exact Hde|exact Ha|].
  exists after, sq, sp, (fun i j => nth j (nth i rows []) 0%Z). split; [exact Ht|]. split; [exact Std|]. split.
  - intros i j Hi Hj. destruct (proj2 (Hnum i) Hi) as (p & Hp). destruct (proj2 (Hnum j) Hj) as (q & Hq).
    rewrite HN in Hi, Hj. refine (C78_adjacency U other ns es m mm true g' rows HU Hf H1 Hr Ea i j p q (w i j) Hi Hj _ _ (Hw i j p q Hp Hq)); apply Hnode; assumption.
  - intros i p Hp Hn. destruct (Hh i p Hp Hn) as (h & A & B & C). exists h. split; [exact A|]. split; [exact B|]. rewrite C. rewrite Hadj. reflexivity.
Qed.
Print Assumptions C78_noise.

Lemma whole_int z : whole_part (IZR z) z.
Proof. split; intros; lra. Qed.
Lemma whole_small w : -1 < w < 1 -> whole_part w 0.
Proof. intros. split; intros; simpl; lra. Qed.

(* Integer weights from -128 to 127 are kept: the outcomes are those of CZ gates of the given weights. *)
Theorem C78_integer_weights : forall U other ns es m mm a0 perf delta states p_swap trans g' c inds coords ds d w,
  (0 < U)%Z -> fresh (weighted_egraph other ns es m mm) -> one_weight es -> (forall p q x, wedge es p q x -> exists z, x = IZR z /\ (-128 <= z <= 127)%Z) ->
  cv_init (weighted_egraph other ns es m mm) a0 perf (Some (inds, coords)) delta states p_swap None trans = (g', Ok c) ->
  fresh_layer c -> code_layer c inds coords -> Forall (draws_ok (v_N c)) ds -> draws_ok (v_N c) d -> 0 < delta -> (forall x, v_states c = [("p"%string, x)] -> x_arr x = true) ->
  gates_of c es w ->
  exists after sq sp, trials c (ds ++ [d]) = (after, Ok tt) /\ std_spec c (inds_of after "p") (inds_of after "GKP") sq sp /\
    forall i p, In p coords -> node_at c i p -> exists h, a_homp (v_attr after p) = Some h /\ a_bit (v_attr after p) = Some (v_trans c h) /\
      h = sp i * d_z d (v_N c + i)%nat + Rsum (fun j => w i j * (sq j * d_z d j)) (v_N c).
Proof.
  intros U other ns es m mm a0 perf delta states p_swap trans g' c inds coords ds d w HU Hf H1 Hz E HF HC Hds Hd Hde Ha Hw.
  assert (Hr : forall p q x, wedge es p q x -> -129 < x < 128).
  { intros p q x Hx. destruct (Hz p q x Hx) as (z & -> & Hz'). split; apply IZR_lt; lia. }
  destruct (C78_noise U other ns es m mm a0 perf delta states p_swap trans g' c inds coords ds d w HU Hf H1 Hr E HF HC Hds Hd Hde Ha Hw) as (after & sq & sp & whole & A & B & K & Hh).
  exists after, sq, sp. split; [exact A|]. split; [exact B|]. intros i p Hp Hn. destruct (Hh i p Hp Hn) as (h & P & Q & ->). eexists. split; [exact P|]. split; [exact Q|]. f_equal.
  destruct HF as ((Hnum & _) & _). assert (Hi : (i < v_N c)%nat) by (apply Hnum; eauto). apply Rsum_ext. intros j Hj. f_equal.
  pose proof (K i j Hi Hj) as Kij. destruct (proj2 (Hnum j) Hj) as (q & Hq). destruct (Hw i j p q Hn Hq) as [Hx|[Hx _]].
  - destruct (Hz p q (w i j) Hx) as (z & Ez & _). rewrite Ez in *. f_equal. apply (whole_part_unique _ _ _ Kij (whole_int z)).
  - rewrite Hx in *. rewrite (whole_part_unique _ _ _ Kij (whole_int 0)). reflexivity.
Qed.
Print Assumptions C78_integer_weights.

(* every layer has such a table of weights *)
Lemma gates_exist c es : exists w, gates_of c es w.
Proof.
  exists (fun i j => match dget Nat.eqb (v_pts c) i, dget Nat.eqb (v_pts c) j with
    | Some p, Some q => match find (fun e => (peqb (fst (fst e)) p && peqb (snd (fst e)) q) || (peqb (fst (fst e)) q && peqb (snd (fst e)) p)) es with Some e => snd e | None => 0 end
    | _, _ => 0 end).
  intros i j p q Hp Hq. unfold node_at in Hp, Hq. rewrite Hp, Hq. destruct (find _ es) as [[[a b] x]|] eqn:E.
  - left. apply find_some in E. destruct E as [Hin E]. cbn [fst snd] in *. apply Bool.orb_true_iff in E. rewrite !Bool.andb_true_iff, !peqb_true in E. destruct E as [[-> ->]|[-> ->]]; [left|right]; exact Hin.
  - right. split; [reflexivity|]. intros w' [H|H]; pose proof (find_none _ _ E _ H) as N; cbn [fst snd] in N; rewrite !(proj2 (peqb_true _ _) eq_refl) in N; cbn in N; [discriminate|].
    rewrite Bool.orb_true_r in N. discriminate.
Qed.

(* With weights between -1 and 1 there are no gates at all: every outcome is the noise of the qubit itself, whatever the
   weights, the graph and the states. *)
Theorem C78_fractions_refuted : forall U other ns es m mm a0 perf delta states p_swap trans g' c inds coords ds d,
  (0 < U)%Z -> fresh (weighted_egraph other ns es m mm) -> one_weight es -> (forall p q x, wedge es p q x -> -1 < x < 1) ->
  cv_init (weighted_egraph other ns es m mm) a0 perf (Some (inds, coords)) delta states p_swap None trans = (g', Ok c) ->
  fresh_layer c -> code_layer c inds coords -> Forall (draws_ok (v_N c)) ds -> draws_ok (v_N c) d -> 0 < delta -> (forall x, v_states c = [("p"%string, x)] -> x_arr x = true) ->
  exists after sq sp, trials c (ds ++ [d]) = (after, Ok tt) /\ std_spec c (inds_of after "p") (inds_of after "GKP") sq sp /\
    forall i p, In p coords -> node_at c i p -> a_homp (v_attr after p) = Some (sp i * d_z d (v_N c + i)%nat).
Proof.
  intros U other ns es m mm a0 perf delta states p_swap trans g' c inds coords ds d HU Hf H1 Hz E HF HC Hds Hd Hde Ha. destruct (gates_exist c es) as (w & Hw).
  assert (Hr : forall p q x, wedge es p q x -> -129 < x < 128) by (intros p q x Hx; pose proof (Hz p q x Hx); lra).
  destruct (C78_noise U other ns es m mm a0 perf delta states p_swap trans g' c inds coords ds d w HU Hf H1 Hr E HF HC Hds Hd Hde Ha Hw) as (after & sq & sp & whole & A & B & K & Hh).
  exists after, sq, sp. split; [exact A|]. split; [exact B|]. intros i p Hp Hn. destruct (Hh i p Hp Hn) as (h & P & _ & Eh). rewrite P. f_equal. rewrite Eh.
  destruct HF as ((Hnum & _) & _). assert (Hi : (i < v_N c)%nat) by (apply Hnum; eauto). rewrite Rsum_zero; [ring|]. intros j Hj.
  pose proof (K i j Hi Hj) as Kij. destruct (proj2 (Hnum j) Hj) as (q & Hq).
  assert (Hsm : -1 < w i j < 1) by (destruct (Hw i j p q Hn Hq) as [Hx|[-> _]]; [exact (Hz p q _ Hx)|lra]).
  rewrite (whole_part_unique _ _ _ Kij (whole_small _ Hsm)). simpl. ring.
Qed.
Print Assumptions C78_fractions_refuted.

(* three nodes in a row joined with weights w1 and w2, a code that measures the middle one *)
Definition row3 : list point := [(0, 0, 0); (1, 0, 0); (2, 0, 0)]%Z.
Definition row3_edges (w1 w2 : R) : list (point * point * R) := [((0, 0, 0)%Z, (1, 0, 0)%Z, w1); ((1, 0, 0)%Z, (2, 0, 0)%Z, w2)].
Lemma row3_ok other w1 w2 : fresh (weighted_egraph other row3 (row3_edges w1 w2) false None) /\ one_weight (row3_edges w1 w2).
Proof.
  split.
  - split; [|split; [split; reflexivity|reflexivity]]. split; [|split; [|exact I]].
    + cbn. repeat constructor; cbn; intuition congruence.
    + intros u v w H. cbn in H. cbn. destruct H as [E|[E|[]]]; injection E as <- <- _; auto.
  - unfold one_weight, wedge, row3_edges. intros p q w w' H H'. cbn [In] in *. destruct H as [[E|[E|[]]]|[E|[E|[]]]], H' as [[E'|[E'|[]]]|[E'|[E'|[]]]]; congruence.
Qed.
Example C78_nonvacuous : forall other, let g := weighted_egraph other row3 (row3_edges (1 / 2) (-1 / 3)) false None in
  (forall p q x, wedge (row3_edges (1 / 2) (-1 / 3)) p q x -> -1 < x < 1) /\
  exists g' c, cv_init g (fun _ => no_attrs) None (Some ([1%nat], [(1, 0, 0)%Z])) (1 / 10) None None None None = (g', Ok c) /\
    fresh_layer c /\ code_layer c [1%nat] [(1, 0, 0)%Z] /\ (forall x, v_states c = [("p"%string, x)] -> x_arr x = true).
Proof.
  intros other g. split.
  - unfold wedge, row3_edges. intros p q x [[E|[E|[]]]|[E|[E|[]]]]; assert (x = 1 / 2 \/ x = - 1 / 3) as [-> | ->] by (injection E; auto); lra.
  - eexists. eexists. split; [reflexivity|]. split; [|split].
    + split; [|split; [eexists; split; [reflexivity|]; intros i []|exact I]]. split.
      * intros i. unfold node_at. cbn [v_pts v_N]. destruct i as [|[|[|i]]]; cbn; split; intros H; try lia; eauto. destruct H as [p H]. discriminate.
      * unfold node_at. cbn [v_pts]. intros i j p Hi Hj. destruct i as [|[|[|i]]], j as [|[|[|j]]]; cbn in Hi, Hj; try discriminate; try reflexivity; congruence.
    + split; [reflexivity|]. split; [intros i [<-|[]]; cbn; lia|]. intros p [<-|[]]. exists 1%nat. split; [left; reflexivity|reflexivity].
    + cbn [v_states]. intros x E. injection E as <-. reflexivity.
Qed.
