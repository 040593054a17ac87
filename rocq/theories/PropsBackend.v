(* PropsBackend.v: C46, the networkx and the rustworkx stabilizer graph are the same graph. *)
From Verif Require Import Base Lattice RhgModel RhgSpec SurfaceModel SurfaceSpec SurfaceProofs SurfaceIncidence SurfaceTheorems SurfaceGauge
  StabGraphModel Paths Complex SurfaceComplex PropsSurface BackendModel BackendSpec BackendProofs.
Open Scope nat_scope.

(* Any use of add_node and add_edge that adds nodes once, before their edges, and joins a pair at
   most once gives graphs that agree; their nodes are those added, in order, and their edges and
   edge data those of the calls. *)
Theorem C46_any_history : forall W calls, well_used [] [] calls ->
  let n := nx_build (W := W) calls in
  exists r, rx_build calls = Ok r /\ agree n r /\
    rx_nodes r = hist_nodes calls /\ rx_edges r = map fst (hist_edges calls) /\
    (forall u v, In u (hist_nodes calls) -> In v (hist_nodes calls) ->
       (forall cv, In (u, v, cv) (hist_edges calls) \/ In (v, u, cv) (hist_edges calls) ->
          nx_edge_data n u v = Ok {| ed_cv := cv; ed_w := None |}) /\
       ((forall cv, ~ (In (u, v, cv) (hist_edges calls) \/ In (v, u, cv) (hist_edges calls))) ->
          nx_edge_data n u v = Err KeyError /\ rx_edge_data r u v = Err NoEdgeError)).
Proof.
  intros W calls H n. destruct (build_spec (W := W) calls H) as (S & I & r & Hr & R). exists r. split; [exact Hr|].
  split; [exact (inv_agree _ _ _ _ S I R)|]. split; [exact (ri_nodes _ _ _ R)|].
  split.
  { rewrite (rx_edges_spec _ _ _ R), map_map. apply map_ext. reflexivity. }
  intros u v Hu Hv. split.
  - intros cv Hcv. unfold n. rewrite (nx_edge_data_spec _ _ _ u v I).
    assert (Q : exists e, In e (map fresh (hist_edges calls)) /\ pair_is u v e /\ snd e = new_data (W := W) cv).
    { destruct Hcv as [Hcv|Hcv]; eexists; (split; [apply in_map; exact Hcv|]); unfold pair_is, fresh; cbn [fst snd]; auto. }
    destruct Q as (e & He & P & Hd). rewrite (find_simple _ _ u v e S He P), Hd. reflexivity.
  - intros Hno. unfold n. rewrite (nx_edge_data_spec _ _ _ u v I), (rx_edge_data_spec _ _ _ u v S R).
    rewrite (proj2 (smem_In _ _) Hu), (proj2 (smem_In _ _) Hv). cbn [andb].
    rewrite (proj2 (find_joined _ u v)); [auto|]. rewrite joined_fresh. intros [x Hx]. exact (Hno x Hx).
Qed.
Print Assumptions C46_any_history.

(* The conditions matter: adding a node twice makes two nodes in rustworkx only, an edge to an
   unknown node is an error in rustworkx only. *)
Example C46_misuse :
  length (nx_nodes (nx_build (W := Z) [CNode NLow; CNode NLow])) = 1 /\
  (exists r, rx_build (W := Z) [CNode NLow; CNode NLow] = Ok r /\ length (rx_nodes r) = 2) /\
  length (nx_edges (nx_build (W := Z) [CEdge (NLow, NHigh, None)])) = 1 /\
  rx_build (W := Z) [CEdge (NLow, NHigh, None)] = Err KeyError.
Proof. split; [reflexivity|]. split; [eexists; split; reflexivity|]. split; reflexivity. Qed.

Section Cx.
  Variables (stabs : list (list point)) (bp : list point) (ch : nat -> nat -> point).
  Hypothesis WF : wf_complex stabs bp.
  Hypothesis Hch : valid_choice stabs ch.

  Lemma sg_edges_NoDup : NoDup (sg_edges stabs bp ch).
  Proof.
    pose proof (wf_bp _ _ WF) as Hbp.
    assert (HL : NoDup (low_half bp) /\ NoDup (high_half bp) /\ forall p, In p (low_half bp) -> ~ In p (high_half bp)).
    { rewrite <- (halves bp) in Hbp. clear - Hbp. induction (low_half bp) as [|x l IH]; cbn [app] in Hbp.
      - split; [constructor|]. split; [assumption|]. intros p [].
      - apply NoDup_cons_iff in Hbp. destruct Hbp as [Hx Hbp]. destruct (IH Hbp) as (H1 & H2 & H3). rewrite in_app_iff in Hx.
        split; [constructor; auto|]. split; [assumption|]. intros p [<-|Hp]; [auto|exact (H3 p Hp)]. }
    destruct HL as (HL & HH & _).
    unfold sg_edges. apply NoDup_app_intro; [|apply NoDup_app_intro|].
    - unfold conn_edges. apply NoDup_app_intro.
      + apply NoDup_map_inj; [intros; congruence|assumption].
      + apply NoDup_map_inj; [intros; congruence|assumption].
      + intros x Hx Hy. apply in_map_iff in Hx, Hy. destruct Hx as [p [<- _]], Hy as [q [Hq _]]. discriminate.
    - unfold stab_edges. apply NoDup_flat_map.
      + apply combos_NoDup.
      + intros [i j] _. destruct (shared _ _ _); repeat constructor. intros [].
      + intros [i j] [i' j'] x _ _ Hx Hy. cbn [fst snd] in *.
        destruct (shared stabs i j); [destruct Hx|]. destruct (shared stabs i' j'); [destruct Hy|].
        destruct Hx as [<-|[]]. destruct Hy as [Hy|[]]. injection Hy as -> -> _. reflexivity.
    - unfold point_edges. rewrite halves. apply NoDup_flat_map.
      + apply seq_NoDup.
      + intros i _. apply NoDup_flat_map.
        * assumption.
        * intros p _. destruct (pmem p (stab_of stabs i)); repeat constructor. intros [].
        * intros p q x _ _ Hx Hy. destruct (pmem p (stab_of stabs i)); [|destruct Hx]. destruct (pmem q (stab_of stabs i)); [|destruct Hy].
          destruct Hx as [<-|[]]. destruct Hy as [Hy|[]]. injection Hy as ->. reflexivity.
      + intros i j x _ _ Hx Hy. apply in_flat_map in Hx, Hy. destruct Hx as [p [_ Hx]], Hy as [q [_ Hy]].
        destruct (pmem p (stab_of stabs i)); [|destruct Hx]. destruct (pmem q (stab_of stabs j)); [|destruct Hy].
        destruct Hx as [<-|[]]. destruct Hy as [Hy|[]]. injection Hy as ->. reflexivity.
    - intros [[u v] x] Hx Hy. apply (in_stab_edges stabs ch) in Hx. apply (in_point_edges stabs bp) in Hy.
      destruct Hx as (i & j & _ & -> & _). destruct Hy as (i' & p & _ & F & _). discriminate.
    - intros [[u v] x] Hx Hy. apply in_conn_edges in Hx. destruct Hx as [-> (p & -> & Hu)].
      apply in_app_iff in Hy. destruct Hy as [Hy|Hy].
      + apply in_stab_edges in Hy. destruct Hy as (i & j & _ & F & _). discriminate.
      + apply in_point_edges in Hy. destruct Hy as (i & q & _ & _ & _ & _ & _ & F). discriminate.
  Qed.

  Lemma sg_nodes_NoDup : NoDup (sg_nodes stabs bp).
  Proof.
    pose proof (wf_bp _ _ WF) as Hbp. unfold sg_nodes. rewrite <- map_app, halves.
    apply NoDup_app_intro; [|apply NoDup_app_intro|].
    - repeat constructor; [intros [F|[]]; discriminate|intros []].
    - apply NoDup_map_inj; [intros; congruence|apply seq_NoDup].
    - apply NoDup_map_inj; [intros; congruence|assumption].
    - intros x Hx Hy. apply in_map_iff in Hx, Hy. destruct Hx as [i [<- _]], Hy as [q [F _]]. discriminate.
    - intros x Hx Hy. apply in_app_iff in Hy. destruct Hy as [Hy|Hy]; apply in_map_iff in Hy; destruct Hy as [y [<- _]];
        destruct Hx as [F|[F|[]]]; discriminate.
  Qed.

  Lemma in_sg_nodes x : In x (sg_nodes stabs bp) <->
    x = NLow \/ x = NHigh \/ (exists i, x = NStab i /\ i < length stabs) \/ (exists p, x = NPt p /\ In p bp).
  Proof.
    unfold sg_nodes. rewrite <- map_app, halves, !in_app_iff, !in_map_iff. cbn [In]. split.
    - intros [[<-|[<-|[]]]|[[i [<- Hi]]|[p [<- Hp]]]]; auto.
      + right; right; left. exists i. split; [reflexivity|]. apply in_seq in Hi. lia.
      + right; right; right. exists p. auto.
    - intros [->|[->|[[i [-> Hi]]|[p [-> Hp]]]]]; auto.
      + right; left. exists i. split; [reflexivity|]. apply in_seq. lia.
      + right; right. exists p. auto.
  Qed.

  Lemma sg_ends u v cv : In (u, v, cv) (sg_edges stabs bp ch) ->
    In u (sg_nodes stabs bp) /\ In v (sg_nodes stabs bp) /\ u <> v.
  Proof.
    intros H. apply in_E in H. rewrite !in_sg_nodes.
    destruct H as [(i & j & -> & -> & Hij & _)|[(i & p & -> & -> & Hi & Hp & _)|[-> (p & -> & Hu)]]].
    - split; [|split]; [| |intros F; injection F; lia]; right; right; left; eexists; (split; [reflexivity|lia]).
    - split; [|split]; [| |discriminate]; right; right; [left|right]; eexists; (split; [reflexivity|auto]).
    - assert (Hp : In p bp) by (rewrite <- (halves bp), in_app_iff; destruct Hu as [[_ Hp]|[_ Hp]]; auto).
      split; [destruct Hu as [[-> _]|[-> _]]; auto|]. split; [|destruct Hu as [[-> _]|[-> _]]; discriminate].
      right; right; right. exists p. auto.
  Qed.

  Lemma sg_unused A u v cv B : sg_edges stabs bp ch = A ++ (u, v, cv) :: B -> ~ exists x, In (u, v, x) A \/ In (v, u, x) A.
  Proof.
    intros HE [x Hx]. pose proof sg_edges_NoDup as ND. 
    assert (He : In (u, v, cv) (sg_edges stabs bp ch)) by (rewrite HE, in_app_iff; right; left; reflexivity).
    assert (Hsub : forall y, In y A -> In y (sg_edges stabs bp ch)) by (intros y Hy; rewrite HE, in_app_iff; auto).
    destruct Hx as [Hx|Hx].
    - pose proof (edge_data_unique stabs bp ch u v x cv (Hsub _ Hx) He) as ->. rewrite HE in ND.
      clear - ND Hx. induction A as [|y A IH]; [destruct Hx|]. cbn [app] in ND. apply NoDup_cons_iff in ND. destruct ND as [Hy ND].
      destruct Hx as [->|Hx]; [|auto]. apply Hy. rewrite in_app_iff. right; left; reflexivity.
    - exact (edge_direction stabs bp ch u v cv x He (Hsub _ Hx)).
  Qed.

  Lemma sg_well_used : well_used [] [] (sg_calls stabs bp ch).
  Proof.
    pose proof sg_nodes_NoDup as ND. pose proof (sg_calls_nodes stabs bp ch) as HN. pose proof (sg_calls_edges stabs bp ch) as HE.
    pose proof (wf_bp _ _ WF) as Hbp. rewrite <- (halves bp) in Hbp.
    assert (HL : NoDup (low_half bp) /\ NoDup (high_half bp) /\ forall p, In p (high_half bp) -> ~ In p (low_half bp)).
    { clear - Hbp. induction (low_half bp) as [|x l IH]; cbn [app] in Hbp.
      - split; [constructor|]. split; [assumption|]. intros p _ [].
      - apply NoDup_cons_iff in Hbp. destruct Hbp as [Hx Hbp]. destruct (IH Hbp) as (H1 & H2 & H3). rewrite in_app_iff in Hx.
        split; [constructor; auto|]. split; [assumption|]. intros p Hp [<-|Hp']; [auto|exact (H3 p Hp Hp')]. }
    destruct HL as (HL & HH & HD).
    set (SN := map NStab (seq 0 (length stabs))) in *.
    set (N1 := [NLow; NHigh] ++ SN).
    assert (Hst : forall p, ~ In (NPt p) N1).
    { intros p. unfold N1, SN. rewrite in_app_iff, in_map_iff. cbn [In]. intros [[F|[F|[]]]|[i [F _]]]; discriminate. }
    unfold sg_calls. apply well_used_app.
    { cbn. split; [intros []|]. split; [intros [F|[]]; discriminate|exact Logic.I]. }
    change (hist_nodes [CNode NLow; CNode NHigh]) with [NLow; NHigh]. change (hist_edges [CNode NLow; CNode NHigh]) with (@nil sedge).
    cbn [app]. rewrite (app_assoc [NLow; NHigh]) || idtac.
    apply well_used_app.
    { rewrite <- (map_map NStab CNode). apply well_used_nodes.
      - apply NoDup_map_inj; [intros; congruence|apply seq_NoDup].
      - intros u Hu. apply in_map_iff in Hu. destruct Hu as [i [<- _]]. intros [F|[F|[]]]; discriminate. }
    rewrite hist_nodes_nodes, hist_edges_nodes. fold SN. change ([NLow; NHigh] ++ SN) with N1. cbn [app].
    apply well_used_app.
    { apply well_used_conn; [left; reflexivity|assumption|intros p _; apply Hst|intros u v x []]. }
    rewrite hist_nodes_conn, hist_edges_conn. cbn [app].
    apply well_used_app.
    { apply well_used_conn; [rewrite in_app_iff; left; right; left; reflexivity|assumption| |].
      - intros p Hp. rewrite in_app_iff, in_map_iff. intros [F|[q [F Hq]]]; [exact (Hst p F)|]. injection F as ->. exact (HD p Hp Hq).
      - intros u v x Hx. apply in_map_iff in Hx. destruct Hx as [p [F Hp]]. injection F as <- <- <-. rewrite !in_app_iff. split.
        + left; left; reflexivity.
        + right. apply in_map. assumption. }
    rewrite hist_nodes_conn, hist_edges_conn, <- map_app. fold (conn_edges (low_half bp) (high_half bp)).
    apply well_used_edges.
    - intros u v cv Hx. replace ((N1 ++ map NPt (low_half bp)) ++ map NPt (high_half bp)) with (sg_nodes stabs bp).
      + apply (sg_ends u v cv). unfold sg_edges. rewrite in_app_iff. right. assumption.
      + unfold sg_nodes, N1, SN. rewrite <- !app_assoc. reflexivity.
    - intros A u v cv B HA. apply (sg_unused _ u v cv B). unfold sg_edges. rewrite HA, <- app_assoc. reflexivity.
  Qed.

  (* in the code's graph the ends of an edge are in the order of their creation *)
  Lemma sg_before u v cv : In (u, v, cv) (sg_edges stabs bp ch) -> before (sg_nodes stabs bp) u v.
  Proof.
    intros H. assert (HN : forall p, In p bp -> In (NPt p) (map NPt (low_half bp) ++ map NPt (high_half bp))).
    { intros p Hp. rewrite <- map_app, halves. apply in_map. assumption. }
    apply in_E in H. unfold before, sg_nodes.
    destruct H as [(i & j & -> & -> & Hij & _)|[(i & p & -> & -> & Hi & Hp & _)|[-> (p & -> & Hu)]]].
    - exists ([NLow; NHigh] ++ map NStab (seq 0 i)), (map NStab (seq (S i) (length stabs - S i)) ++ map NPt (low_half bp) ++ map NPt (high_half bp)).
      split.
      + replace (length stabs) with (i + S (length stabs - S i)) at 1 by lia. rewrite seq_app, map_app.
        cbn [seq map plus]. rewrite <- !app_assoc. reflexivity.
      + rewrite in_app_iff. left. apply in_map, in_seq. lia.
    - exists ([NLow; NHigh] ++ map NStab (seq 0 i)), (map NStab (seq (S i) (length stabs - S i)) ++ map NPt (low_half bp) ++ map NPt (high_half bp)).
      split.
      + replace (length stabs) with (i + S (length stabs - S i)) at 1 by lia. rewrite seq_app, map_app.
        cbn [seq map plus]. rewrite <- !app_assoc. reflexivity.
      + rewrite in_app_iff. right. apply HN. assumption.
    - assert (Hp : In p bp) by (rewrite <- (halves bp), in_app_iff; destruct Hu as [[_ Hp]|[_ Hp]]; auto).
      destruct Hu as [[-> _]|[-> _]].
      + exists [], (NHigh :: map NStab (seq 0 (length stabs)) ++ map NPt (low_half bp) ++ map NPt (high_half bp)).
        split; [reflexivity|]. right. rewrite in_app_iff. auto.
      + exists [NLow], (map NStab (seq 0 (length stabs)) ++ map NPt (low_half bp) ++ map NPt (high_half bp)).
        split; [reflexivity|]. rewrite in_app_iff. auto.
  Qed.
End Cx.

(* ---------------------------------------------------------------- *)
(* The graph of a surface code. *)
Section Code.
  Context (W : Type).
  Variables (D : dims) (e : ecx) (b : bdk) (pol : option (point * point -> Z)) (c : scode) (ch : nat -> nat -> point).
  Hypothesis H2 : dims_ge2 D.
  Hypothesis HC : is_surface_code D e b pol c.
  Hypothesis Hch : valid_choice (sc_stabs c) ch.
  Notation calls := (sg_calls (sc_stabs c) (sc_bound c) ch).
  Notation N := (sg_nodes (sc_stabs c) (sc_bound c)).
  Notation SE := (sg_edges (sc_stabs c) (sc_bound c) ch).

  Lemma code_build : exists r, rx_build (W := W) calls = Ok r /\
    simple N (map (fresh (W := W)) SE) /\ nx_inv N (map fresh SE) (nx_build (W := W) calls) /\ rx_inv N (map fresh SE) r.
  Proof.
    pose proof (surface_wf D e b pol c H2 HC) as WF.
    destruct (build_spec (W := W) calls (sg_well_used _ _ ch WF)) as (S & I & r & Hr & R).
    rewrite sg_calls_nodes, sg_calls_edges in *. exists r. auto.
  Qed.

  Lemma stab_nonempty i : i < length (sc_stabs c) -> exists q, In q (stab_of (sc_stabs c) i).
  Proof.
    intros Hi. destruct (stab_ctr D e b pol c H2 HC i Hi) as [Cx Sx]. set (x := ctr D e b i) in *.
    destruct (proj1 (cell_par D e _ x) Cx) as [Sr Px].
    assert (Hv : exists v, (v = co AX x + 1 \/ v = co AX x - 1)%Z /\ in_range (get AX (code_bnds e b)) (get AX D) v).
    { specialize (Sr AX). specialize (H2 AX). unfold in_range in *. destruct (get AX (code_bnds e b)).
      - destruct (Z.eq_dec (co AX x) 0); [exists (co AX x + 1)%Z|exists (co AX x - 1)%Z]; lia.
      - destruct (Z.eq_dec (co AX x) 1); [exists (co AX x + 1)%Z|exists (co AX x - 1)%Z]; lia.
      - destruct (Z.eq_dec (co AX x) 0); [exists (co AX x + 1)%Z|exists (co AX x - 1)%Z]; lia. }
    destruct Hv as (v & Hv & Hr). exists (setco AX v x). apply Sx. split.
    - apply qubit_axis_iff. split; [apply move_site; assumption|]. exists AX. split.
      + rewrite co_setco_same. specialize (Px AX). pose proof (par_cases e). lia.
      + intros a' Ha'. rewrite co_setco_other by congruence. apply Px.
    - exists AX. rewrite co_setco_same. split; [unfold step1; lia|]. intros a' Ha'. apply co_setco_other. congruence.
  Qed.

  (* every node but "low" and "high" has an edge *)
  Lemma code_no_isolated x : In x N -> x <> NLow -> x <> NHigh -> exists y cv, In (x, y, cv) SE \/ In (y, x, cv) SE.
  Proof.
    pose proof (surface_wf D e b pol c H2 HC) as WF.
    intros H Hl Hh. apply in_sg_nodes in H. destruct H as [H|[H|[[i [-> Hi]]|[p [-> Hp]]]]]; try congruence.
    - destruct (stab_nonempty i Hi) as [q Hq].
      destruct (holders_count (sc_stabs c) (sc_bound c) WF q i Hi Hq) as [[Hb _]|[Hb Hl2]].
      + exists (NPt q), (Some q). left. apply in_E. right; left. exists i, q. auto 6.
      + assert (Hj : exists j, j < length (sc_stabs c) /\ In q (stab_of (sc_stabs c) j) /\ j <> i).
        { pose proof (holders_NoDup (sc_stabs c) q) as ND. pose proof (fun j => proj1 (in_holders (sc_stabs c) q j)) as Q.
          destruct (holders (sc_stabs c) q) as [|j1 [|j2 l]]; cbn [length] in Hl2; try lia.
          destruct (Nat.eq_dec j1 i) as [->|Hn].
          - exists j2. destruct (Q j2 (or_intror (or_introl eq_refl))). split; [assumption|]. split; [assumption|].
            intros ->. apply NoDup_cons_iff in ND. apply (proj1 ND). left; reflexivity.
          - exists j1. destruct (Q j1 (or_introl eq_refl)). auto. }
        destruct Hj as (j & Hj & Hqj & Hne).
        destruct (proj2 (stab_adj (sc_stabs c) (sc_bound c) ch Hch i j Hi Hj (fun E => Hne (eq_sym E)))) as [cv Hcv]; [eauto|].
        exists (NStab j), cv. assumption.
    - assert (Hp' : In p (low_half (sc_bound c)) \/ In p (high_half (sc_bound c))) by (rewrite <- in_app_iff, halves; assumption).
      destruct Hp' as [Hp'|Hp']; [exists NLow, None|exists NHigh, None]; right; apply in_E; right; right; (split; [reflexivity|]);
        exists p; auto.
  Qed.
End Code.

(* C46 for the graph that StabilizerGraph builds from a code, whatever vertices set.pop keeps. *)
Theorem C46_code_graphs_agree : forall W D e b pol c ch,
  dims_ge2 D -> is_surface_code D e b pol c -> valid_choice (sc_stabs c) ch ->
  let n := nx_build (W := W) (sg_calls (sc_stabs c) (sc_bound c) ch) in
  exists r, rx_build (sg_calls (sc_stabs c) (sc_bound c) ch) = Ok r /\ agree n r /\
    rx_nodes r = sg_nodes (sc_stabs c) (sc_bound c) /\
    rx_edges r = map fst (sg_edges (sc_stabs c) (sc_bound c) ch) /\
    (* the edges even have the same direction *)
    Permutation (nx_edges n) (rx_edges r) /\ Permutation (real_edges (nx_edges n)) (real_edges (rx_edges r)) /\
    (forall u v cv, In (u, v, cv) (sg_edges (sc_stabs c) (sc_bound c) ch) -> rx_edge_data r u v = Ok {| ed_cv := cv; ed_w := None |}) /\
    (* shortest_paths_without_high_low searches the same graph: that of the real edges *)
    (let keep := map NStab (seq 0 (length (sc_stabs c))) ++ map NPt (low_half (sc_bound c)) ++ map NPt (high_half (sc_bound c)) in
     rx_sub_edges r = real_edges (rx_edges r) /\ nx_sub_edges n keep = real_edges (nx_edges n)).
Proof.
  intros W D e b pol c ch H2 HC Hch n. destruct (code_build W D e b pol c ch H2 HC) as (r & Hr & S & I & R).
  pose proof (surface_wf D e b pol c H2 HC) as WF.
  set (N := sg_nodes (sc_stabs c) (sc_bound c)) in *. set (E := sg_edges (sc_stabs c) (sc_bound c) ch) in *.
  assert (HE : rx_edges r = map fst E) by (rewrite (rx_edges_spec _ _ _ R), map_map; apply map_ext; reflexivity).
  exists r. split; [exact Hr|]. split; [exact (inv_agree _ _ _ _ S I R)|]. split; [exact (ri_nodes _ _ _ R)|].
  split; [exact HE|].
  assert (HP : Permutation (nx_edges n) (rx_edges r)).
  { rewrite HE. apply NoDup_Permutation.
    - exact (nx_edges_NoDup N _ n S I).
    - pose proof (simple_NoDup _ _ S) as Q. rewrite map_map in Q. exact Q.
    - intros [u v]. unfold n. rewrite (in_nx_edges N _ _ u v S I). split.
      + intros [J B]. apply joined_fresh in J. destruct J as [cv [H|H]].
        * apply in_map_iff. exists (u, v, cv). auto.
        * exfalso. pose proof (sg_before (sc_stabs c) (sc_bound c) ch v u cv H) as B'.
          exact (before_asym N u v (s_nd _ _ S) B B').
      + intros H. apply in_map_iff in H. destruct H as [[[u' v'] cv] [F H]]. cbn [fst] in F. injection F as -> ->.
        split; [apply joined_fresh; eauto|]. exact (sg_before (sc_stabs c) (sc_bound c) ch u v cv H). }
  split; [exact HP|]. split.
  { unfold real_edges. clear - HP. induction HP as [|x l l' HP IH|x y l|l1 l2 l3 HP1 IH1 HP2 IH2]; cbn [filter].
    - constructor.
    - destruct (_ && _); [constructor|]; assumption.
    - destruct (not_connector (fst x) && not_connector (snd x)), (not_connector (fst y) && not_connector (snd y));
        try apply perm_swap; apply Permutation_refl.
    - eapply Permutation_trans; eassumption. }
  split.
  { intros u v cv H. destruct (sg_ends (sc_stabs c) (sc_bound c) ch u v cv H) as (Hu & Hv & _).
    rewrite (rx_edge_data_spec _ _ _ u v S R). fold N in Hu, Hv.
    rewrite (proj2 (smem_In _ _) Hu), (proj2 (smem_In _ _) Hv). cbn [andb].
    rewrite (find_simple _ _ u v (fresh (u, v, cv)) S); [reflexivity|apply in_map; assumption|left; reflexivity]. }
  intros keep.
  assert (HK : forall x, In x N -> smem x keep = not_connector x).
  { intros x Hx. apply eq_true_iff_eq. rewrite smem_In. unfold N, sg_nodes in Hx. fold keep in Hx. apply in_app_iff in Hx.
    assert (Hkeep : In x keep -> not_connector x = true).
    { unfold keep. rewrite !in_app_iff, !in_map_iff. intros [[? [<- _]]|[[? [<- _]]|[? [<- _]]]]; reflexivity. }
    split; [exact Hkeep|]. intros Hc. destruct Hx as [[<-|[<-|[]]]|Hx]; [discriminate|discriminate|assumption]. }
  split.
  - unfold rx_sub_edges, real_edges, rx_edges. pose proof (ri_edges _ _ _ R) as F.
    assert (Q : forall i u, nth_error N i = Some u -> rx_node r i = u) by (intros; eapply rx_node_spec; eassumption).
    assert (Q1 : forall i u, nth_error N i = Some u -> (1 <? i) = not_connector u).
    { intros i u Hi. unfold N, sg_nodes in Hi. fold keep in Hi. destruct i as [|[|i]]; cbn in Hi; [injection Hi as <-; reflexivity|injection Hi as <-; reflexivity|].
      apply nth_error_In in Hi. cbn. unfold keep in Hi. rewrite !in_app_iff, !in_map_iff in Hi. destruct Hi as [[? [<- _]]|[[? [<- _]]|[? [<- _]]]]; reflexivity. }
    clear - F Q Q1. induction F as [|x y l m (F1 & F2 & _) F IH]; [reflexivity|]. cbn [filter map fst snd].
    rewrite (Q1 _ _ F1), (Q1 _ _ F2), (Q _ _ F1), (Q _ _ F2).
    destruct (not_connector (fst (fst x)) && not_connector (snd (fst x))); cbn [map]; rewrite IH; [|reflexivity].
    rewrite (Q _ _ F1), (Q _ _ F2). reflexivity.
  - unfold nx_sub_edges, real_edges. apply filter_ext_in. intros [u v] H. cbn [fst snd].
    unfold n in H. apply (in_nx_edges N _ _ u v S I) in H. destruct (joined_in _ _ u v S (proj1 H)) as (Hu & Hv & _).
    rewrite (HK u Hu), (HK v Hv). reflexivity.
Qed.
Print Assumptions C46_code_graphs_agree.

(* one assignment of weights on both graphs; wq is the "weight" attribute of the code's nodes *)
Definition node_attr {W} (c : scode) (wq : point -> option W) (q : point) : res (option W) :=
  if pmem q (node_list (sc_graph c)) then Ok (wq q) else Err KeyError.
Definition assign_both {W} (zero : W) (c : scode) (s : res (nxg W) * res (rxg W)) (wq : point -> option W) : res (nxg W) * res (rxg W) :=
  (bind (fst s) (nx_assign_weights zero (node_attr c wq)), bind (snd s) (rx_assign_weights zero (node_attr c wq))).

Definition with_weight {W} (zero : W) (w : point -> option W) (x : sedge) : dedge W :=
  (fst x, {| ed_cv := snd x; ed_w := Some (match snd x with Some q => w q | None => Some zero end) |}).
Lemma assign_all : forall W (zero : W) D e b pol c ch l,
  dims_ge2 D -> is_surface_code D e b pol c -> valid_choice (sc_stabs c) ch ->
  let calls := sg_calls (sc_stabs c) (sc_bound c) ch in
  let N := sg_nodes (sc_stabs c) (sc_bound c) in let E := sg_edges (sc_stabs c) (sc_bound c) ch in
  exists n r F, fold_left (assign_both zero c) l (Ok (nx_build calls), rx_build calls) = (Ok n, Ok r) /\
    map (fun x => (fst x, ed_cv (snd x))) F = E /\ simple N F /\ nx_inv N F n /\ rx_inv N F r /\
    forall ws w, l = ws ++ [w] -> F = map (with_weight zero w) E.
Proof.
  intros W zero D e b pol c ch l H2 HC Hch calls N E. destruct (code_build W D e b pol c ch H2 HC) as (r & Hr & S & I & R).
  pose proof (surface_wf D e b pol c H2 HC) as WF.
  fold N E in S, I, R.
  assert (Hq : forall u v q, In (u, v, Some q) E -> In q (node_list (sc_graph c))).
  { intros u v q H. apply in_E in H. destruct H as [(i & j & -> & -> & Hij & Hs & Hq)|[(i & p & -> & -> & Hi & Hp & Hs & Hq)|[F _]]]; [| |discriminate].
    - injection Hq as ->. pose proof (Hch i j Hij Hs) as Hin. apply in_shared in Hin.
      apply (stab_nodes D e b pol c H2 HC (stab_of (sc_stabs c) i)); [apply nth_In; lia|apply Hin].
    - injection Hq as ->. apply (stab_nodes D e b pol c H2 HC (stab_of (sc_stabs c) i)); [apply nth_In; lia|assumption]. }
  assert (Hconn : forall u v, In (u, v, None) E -> not_connector u = false).
  { intros u v H. apply in_E in H. destruct H as [(i & j & _ & _ & _ & _ & F)|[(i & p & _ & _ & _ & _ & _ & F)|[_ (p & _ & [[-> _]|[-> _]])]]];
      try discriminate; reflexivity. }
  (* edges labelled as in E *)
  pose (lab := fun F : list (dedge W) => map (fun x => (fst x, ed_cv (snd x))) F = E).
  assert (Hfine : forall wq F, lab F -> forallb (fine zero (node_attr c wq)) F = true).
  { intros wq F HF. apply forallb_forall. intros [[u v] [cv o]] Hx.
    assert (Hin : In (u, v, cv) E) by (rewrite <- HF; apply in_map_iff; exists (u, v, {| ed_cv := cv; ed_w := o |}); auto).
    unfold fine, weight_of. cbn [fst snd ed_cv]. destruct cv as [q|].
    - unfold node_attr. rewrite (proj2 (pmem_In _ _) (Hq u v q Hin)). reflexivity.
    - destruct (_ && _); reflexivity. }
  assert (Hass : forall wq F, lab F -> map (assigned zero (node_attr c wq)) F =
            map (with_weight zero wq) E).
  { intros wq F HF. rewrite <- HF, map_map. apply map_ext_in. intros [[u v] [cv o]] Hx.
    assert (Hin : In (u, v, cv) E) by (rewrite <- HF; apply in_map_iff; exists (u, v, {| ed_cv := cv; ed_w := o |}); auto).
    unfold assigned, weight_of. cbn [fst snd ed_cv]. destruct cv as [q|].
    - unfold node_attr. rewrite (proj2 (pmem_In _ _) (Hq u v q Hin)). reflexivity.
    - rewrite (Hconn u v Hin). reflexivity. }
  assert (Hne : forall wq q x, node_attr (W := W) c wq q = Err x -> x = KeyError).
  { intros wq q x. unfold node_attr. destruct (pmem q _); congruence. }
  assert (Hstep : forall wq F n r, lab F -> simple N F -> nx_inv N F n -> rx_inv N F r ->
    let F' := map (assigned zero (node_attr c wq)) F in
    exists n' r', assign_both zero c (Ok n, Ok r) wq = (Ok n', Ok r') /\ lab F' /\ simple N F' /\ nx_inv N F' n' /\ rx_inv N F' r').
  { intros wq F n0 r0 HF SF IF RF F'.
    pose proof (nx_assign_spec zero (node_attr c wq) (Hne wq) N F n0 SF IF) as Q1.
    pose proof (rx_assign_spec zero (node_attr c wq) (Hne wq) N F r0 SF RF) as Q2.
    rewrite (Hfine wq F HF) in Q1, Q2. destruct Q1 as [n' [Q1 I1]], Q2 as [r' [Q2 R1]].
    exists n', r'. unfold assign_both. cbn [fst snd bind]. rewrite Q1, Q2. split; [reflexivity|]. split.
    - unfold lab, F'. rewrite (Hass wq F HF), map_map. rewrite <- map_id. apply map_ext. intros [x cv]. reflexivity.
    - split; [apply simple_map; [intros; apply assigned_fst|assumption]|]. auto. }
  assert (L0 : lab (map fresh E)).
  { unfold lab. rewrite map_map. rewrite <- map_id. apply map_ext. intros [x cv]. reflexivity. }
  induction l as [|wq l IH] using rev_ind.
  - exists (nx_build calls), r, (map fresh E). cbn [fold_left]. unfold calls. rewrite Hr. split; [reflexivity|].
    split; [exact L0|]. split; [exact S|]. split; [exact I|]. split; [exact R|]. intros ws w F. destruct ws; discriminate.
  - destruct IH as (n1 & r1 & F & Q & LF & SF & IF & RF & _).
    destruct (Hstep wq F n1 r1 LF SF IF RF) as (n2 & r2 & Q' & L2 & S2 & I2 & R2).
    exists n2, r2, (map (assigned zero (node_attr c wq)) F). rewrite fold_left_app, Q. split; [exact Q'|].
    split; [exact L2|]. split; [exact S2|]. split; [exact I2|]. split; [exact R2|].
    intros ws w Hl. apply app_inj_tail in Hl. destruct Hl as [_ <-]. exact (Hass wq F LF).
Qed.

(* assign_weights, called any number of times: the graphs still agree, and the weight on an edge
   is the one its common vertex had in the last call, or 0 at a connector. *)
Theorem C46_assigned_weights_agree : forall W (zero : W) D e b pol c ch ws w,
  dims_ge2 D -> is_surface_code D e b pol c -> valid_choice (sc_stabs c) ch ->
  let calls := sg_calls (sc_stabs c) (sc_bound c) ch in
  exists n r, fold_left (assign_both zero c) (ws ++ [w]) (Ok (nx_build calls), rx_build calls) = (Ok n, Ok r) /\
    agree n r /\ rx_nodes r = sg_nodes (sc_stabs c) (sc_bound c) /\
    rx_edges r = map fst (sg_edges (sc_stabs c) (sc_bound c) ch) /\
    forall u v cv, In (u, v, cv) (sg_edges (sc_stabs c) (sc_bound c) ch) ->
      rx_edge_data r u v = Ok {| ed_cv := cv; ed_w := Some (match cv with Some q => w q | None => Some zero end) |}.
Proof.
  intros W zero D e b pol c ch ws w H2 HC Hch calls.
  destruct (assign_all W zero D e b pol c ch (ws ++ [w]) H2 HC Hch) as (n2 & r2 & F & Hf & _ & S2 & I2 & R2 & HF).
  specialize (HF ws w eq_refl). subst F. exists n2, r2. split; [exact Hf|].
  split; [exact (inv_agree _ _ _ _ S2 I2 R2)|]. split; [exact (ri_nodes _ _ _ R2)|].
  split.
  { rewrite (rx_edges_spec _ _ _ R2), map_map. apply map_ext. reflexivity. }
  intros u v cv H. destruct (sg_ends (sc_stabs c) (sc_bound c) ch u v cv H) as (Hu & Hv & _).
  rewrite (rx_edge_data_spec _ _ _ u v S2 R2).
  rewrite (proj2 (smem_In _ _) Hu), (proj2 (smem_In _ _) Hv). cbn [andb].
  rewrite (find_simple _ _ u v _ S2 (in_map _ _ _ H)); [reflexivity|left; reflexivity].
Qed.
Print Assumptions C46_assigned_weights_agree.

(* to_nx() of the rustworkx graph, before any assignment of weights or after some: the same
   nodes, edges and edge data (but not the lists of stabilizers and boundary points). *)
Theorem C46_to_nx : forall W (zero : W) D e b pol c ch ws,
  dims_ge2 D -> is_surface_code D e b pol c -> valid_choice (sc_stabs c) ch ->
  let calls := sg_calls (sc_stabs c) (sc_bound c) ch in
  exists n r h, fold_left (assign_both zero c) ws (Ok (nx_build calls), rx_build calls) = (Ok n, Ok r) /\
    rx_to_nx r = Ok h /\ Permutation (nx_nodes h) (rx_nodes r) /\ same_edges (nx_edges h) (rx_edges r) /\
    (forall u v d, nx_edge_data h u v = Ok d <-> rx_edge_data r u v = Ok d) /\
    (forall u v d, nx_edge_data h u v = Ok d <-> nx_edge_data n u v = Ok d).
Proof.
  intros W zero D e b pol c ch ws H2 HC Hch calls.
  destruct (assign_all W zero D e b pol c ch ws H2 HC Hch) as (n & r & F & Hf & HF0 & S & I & R & _).
  assert (HF : map fst F = map fst (sg_edges (sc_stabs c) (sc_bound c) ch)) by (rewrite <- HF0, map_map; apply map_ext; reflexivity).
  destruct (to_nx_spec _ _ _ S R) as (h & M & Hh & SM & IM & HM).
  exists n, r, h. split; [exact Hf|]. split; [exact Hh|]. split.
  { rewrite (ni_nodes _ _ _ IM), (ri_nodes _ _ _ R). apply NoDup_Permutation; [apply (s_nd _ _ SM)|apply (s_nd _ _ S)|].
    intros x. rewrite HM. split.
    - intros [->|[->|[y J]]]; [apply in_sg_nodes; auto|apply in_sg_nodes; auto|]. apply (joined_in _ _ x y S J).
    - intros Hx. destruct (snode_eq_dec x NLow) as [|H1]; [auto|]. destruct (snode_eq_dec x NHigh) as [|H3]; [auto|]. right; right.
      destruct (code_no_isolated D e b pol c ch H2 HC Hch x Hx H1 H3) as (y & cv & Hy). exists y.
      destruct Hy as [Hy|Hy]; apply (in_map fst) in Hy; rewrite <- HF in Hy; apply in_map_iff in Hy; destruct Hy as [a [Ha Hin]];
        exists a; (split; [assumption|]); unfold pair_is; rewrite Ha; auto. }
  split; [rewrite (rx_edges_spec _ _ _ R); exact (nx_edges_orient _ _ _ SM IM)|].
  split; intros u v d.
  - rewrite (nx_edge_data_spec _ _ _ u v IM). rewrite <- (ag_data _ _ (inv_agree _ _ _ _ S I R) u v d).
    rewrite (nx_edge_data_spec _ _ _ u v I). reflexivity.
  - rewrite (nx_edge_data_spec _ _ _ u v IM), (nx_edge_data_spec _ _ _ u v I). reflexivity.
Qed.
Print Assumptions C46_to_nx.

(* The docstring of edge_data promises KeyError when there is no edge between the given nodes;
   rustworkx raises NoEdgeBetweenNodes: the exception differs between the backends. *)
Theorem C46_missing_edge_refuted : exists r,
  let c := mk_code (2, 2, 2)%Z EcPrimal BdOpen None in
  let calls := sg_calls (sc_stabs c) (sc_bound c) (fun i j => hd (0, 0, 0)%Z (shared (sc_stabs c) i j)) in
  rx_build (W := Z) calls = Ok r /\ In NLow (rx_nodes r) /\ In NHigh (rx_nodes r) /\
  nx_edge_data (nx_build (W := Z) calls) NLow NHigh = Err KeyError /\ rx_edge_data r NLow NHigh = Err NoEdgeError.
Proof.
  set (c := mk_code (2, 2, 2)%Z EcPrimal BdOpen None).
  set (calls := sg_calls (sc_stabs c) (sc_bound c) (fun i j => hd (0, 0, 0)%Z (shared (sc_stabs c) i j))).
  assert (F : match rx_build (W := Z) calls with
              | Ok r => (smem NLow (rx_nodes r) && smem NHigh (rx_nodes r) &&
                        match rx_edge_data r NLow NHigh with Err NoEdgeError => true | _ => false end &&
                        match nx_edge_data (nx_build (W := Z) calls) NLow NHigh with Err KeyError => true | _ => false end) = true
              | Err _ => False end) by (vm_compute; reflexivity).
  destruct (rx_build calls) as [r|] eqn:Hr; [|destruct F]. exists r. cbv zeta. split; [exact Hr|].
  apply andb_true_iff in F. destruct F as [F F4]. apply andb_true_iff in F. destruct F as [F F3].
  apply andb_true_iff in F. destruct F as [F1 F2]. apply smem_In in F1, F2. split; [assumption|]. split; [assumption|]. split.
  - destruct (nx_edge_data _ _ _) as [|[]]; try discriminate F4; reflexivity.
  - destruct (rx_edge_data _ _ _) as [|[]]; try discriminate F3; reflexivity.
Qed.
Print Assumptions C46_missing_edge_refuted.

(* the 2x2x2 open code: 14 nodes, 20 edges, in a different order in the two backends, and after
   assign_weights the data of one edge *)
Example C46_nonvacuous :
  let c := mk_code (2, 2, 2)%Z EcPrimal BdOpen None in
  let calls := sg_calls (sc_stabs c) (sc_bound c) (fun i j => hd (0, 0, 0)%Z (shared (sc_stabs c) i j)) in
  match rx_build (W := Z) calls, nx_assign_weights 0%Z (node_attr c (fun q => Some (co AX q + 7)%Z)) (nx_build calls) with
  | Ok r, Ok n => length (rx_nodes r) = 14 /\ length (rx_edges r) = 20 /\ nth 12 (rx_edges r) (NLow, NLow) <> nth 12 (nx_edges n) (NLow, NLow) /\
      nx_edge_data n (NStab 1) (NStab 0) = Ok {| ed_cv := Some (1, 1, 2)%Z; ed_w := Some (Some 8%Z) |}
  | _, _ => False
  end.
Proof. vm_compute. repeat split; discriminate. Qed.
