(* PropsDraw.v: C58, what drawing a code or a decoding does to the code. *)
From Verif Require Import Base Lattice RhgModel RhgSpec SurfaceModel SurfaceSpec SurfaceProofs StabGraphModel BackendModel BackendSpec BackendProofs
  Complex SurfaceComplex PropsSurface PropsBackend Paths MwpmModel MwpmProofs MwpmInst MwpmSides PropsMwpm PropsMwpm2 UfModel DrawModel DrawProofs.
Open Scope nat_scope.

(* the set {"low", "high"} is visited in some order *)
Definition orders_ok {W} (ops : list (vop W)) : Prop := forall order w, In (VDraw order w) ops -> Permutation [NLow; NHigh] order.
(* the same assignments of weights, without the drawings *)
Definition undrawn {W} (ops : list (vop W)) : list (vop W) := map (fun x => VAssign (vop_weights x)) ops.
Definition some_draw {W} (ops : list (vop W)) : bool := existsb vop_draws ops.

(* the graph in the figure: every stabilizer and every boundary point, every real edge once, with the weight of its qubit *)
Definition shows {W} (c : scode) (ch : nat -> nat -> point) (w : point -> option W) (d : nxg W) : Prop :=
  Permutation (nx_nodes d) (map NStab (seq 0 (length (sc_stabs c))) ++ map NPt (sc_bound c)) /\
  same_edges (nx_edges d) (real_edges (map fst (sg_edges (sc_stabs c) (sc_bound c) ch))) /\
  forall u v q, In (u, v, Some q) (sg_edges (sc_stabs c) (sc_bound c) ch) ->
    nx_edge_data d u v = Ok {| ed_cv := Some q; ed_w := Some (w q) |}.

Section Code.
  Variables (W : Type) (zero : W) (D : dims) (e : ecx) (b : bdk) (pol : option (point * point -> Z)) (c : scode) (ch : nat -> nat -> point).
  Hypothesis H2 : dims_ge2 D.
  Hypothesis HC : is_surface_code D e b pol c.
  Hypothesis Hch : valid_choice (sc_stabs c) ch.
  Notation calls := (sg_calls (sc_stabs c) (sc_bound c) ch).
  Notation N := (sg_nodes (sc_stabs c) (sc_bound c)).
  Notation SE := (sg_edges (sc_stabs c) (sc_bound c) ch).
  Notation nx0 := (Ok (nx_build (W := W) calls)).
  Notation rx0 := (rx_build (W := W) calls).

  Lemma both_fst ws : forall s, fst (fold_left (assign_both zero c) ws s) = fold_left (nx_vop zero c) (map VAssign ws) (fst s).
  Proof. induction ws as [|w ws IH]; intros s; [reflexivity|]. cbn [fold_left map]. rewrite IH. reflexivity. Qed.
  Lemma both_snd ws : forall s, snd (fold_left (assign_both zero c) ws s) = fold_left (rx_vop zero c) (map VAssign ws) (snd s).
  Proof. induction ws as [|w ws IH]; intros s; [reflexivity|]. cbn [fold_left map]. rewrite IH. reflexivity. Qed.
  Lemma undrawn_map (ops : list (vop W)) : undrawn ops = map VAssign (map vop_weights ops).
  Proof. unfold undrawn. rewrite map_map. reflexivity. Qed.

  (* without drawing *)
  Lemma plain ops : exists n r F,
    fold_left (nx_vop zero c) (undrawn ops) nx0 = Ok n /\ fold_left (rx_vop zero c) (undrawn ops) rx0 = Ok r /\
    map (fun x => (fst x, ed_cv (snd x))) F = SE /\ simple N F /\ nx_inv N F n /\ rx_inv N F r /\
    forall ops' x, ops = ops' ++ [x] -> F = map (with_weight zero (vop_weights x)) SE.
  Proof.
    destruct (assign_all W zero D e b pol c ch (map vop_weights ops) H2 HC Hch) as (n & r & F & Q & L & S & I & R & HF).
    exists n, r, F. rewrite undrawn_map. pose proof (both_fst (map vop_weights ops) (nx0, rx0)) as Q1. pose proof (both_snd (map vop_weights ops) (nx0, rx0)) as Q2.
    cbn [fst snd] in Q1, Q2. rewrite Q in Q1, Q2. cbn [fst snd] in Q1, Q2. rewrite <- Q1, <- Q2. repeat (split; [first [reflexivity|assumption]|]).
    intros ops' x ->. apply (HF (map vop_weights ops')). rewrite map_app. reflexivity.
  Qed.
  Lemma attr_err w q x : node_weight (W := W) c w q = Err x -> x = KeyError.
  Proof. unfold node_weight. destruct (pmem q _); congruence. Qed.

  Lemma nx_history ops : orders_ok ops -> forall n, fold_left (nx_vop zero c) (undrawn ops) nx0 = Ok n ->
    fold_left (nx_vop zero c) ops nx0 = Ok (if some_draw ops then strip n else n).
  Proof.
    induction ops as [|x ops IH] using rev_ind; intros HO n Hn; [exact Hn|].
    destruct (plain ops) as (n0 & r0 & F & Q0 & _ & _ & S & I & _ & _).
    assert (HO' : orders_ok ops) by (intros order w Hin; apply (HO order w); apply in_or_app; left; assumption).
    specialize (IH HO' n0 Q0). rewrite fold_left_app, IH. unfold undrawn in Hn. rewrite map_app, fold_left_app in Hn. fold (undrawn ops) in Hn. rewrite Q0 in Hn. cbn [map fold_left nx_vop bind] in Hn |- *.
    unfold some_draw. rewrite existsb_app. fold (some_draw ops). cbn [existsb]. rewrite orb_false_r.
    set (nw := node_weight c (vop_weights x)) in *.
    assert (HA : nx_assign_weights zero nw (if some_draw ops then strip n0 else n0) = Ok (if some_draw ops then strip n else n)).
    { destruct (some_draw ops); [|exact Hn]. apply (assign_strip zero nw N F); try assumption. apply attr_err. }
    destruct x as [w|order w]; cbn [vop_draws vop_weights] in *.
    - rewrite orb_false_r. exact HA.
    - rewrite orb_true_r. unfold nx_draw. fold nw. rewrite HA. cbn [bind fst]. rewrite remove_spec by (apply (HO order w); apply in_or_app; right; left; reflexivity).
      destruct (some_draw ops); [rewrite strip_strip|]; reflexivity.
  Qed.

  Lemma rx_history ops : fold_left (rx_vop zero c) ops rx0 = fold_left (rx_vop zero c) (undrawn ops) rx0.
  Proof.
    induction ops as [|x ops IH] using rev_ind; [reflexivity|]. unfold undrawn. rewrite map_app, !fold_left_app. fold (undrawn ops). rewrite IH.
    destruct (plain ops) as (n0 & r0 & F0 & _ & Q0 & _). destruct (plain (ops ++ [x])) as (n1 & r1 & F1 & _ & Q1 & _ & S & _ & R & _).
    unfold undrawn in Q1. rewrite map_app, fold_left_app in Q1. fold (undrawn ops) in Q1. rewrite Q0 in Q1 |- *. destruct x as [w|order w]; [reflexivity|].
    cbn [map fold_left rx_vop bind vop_weights] in Q1 |- *. unfold rx_draw. rewrite Q1. cbn [bind]. destruct (to_nx_spec _ _ _ S R) as (h & M & Hh & _). rewrite Hh. reflexivity.
  Qed.

  Lemma SE_label u v cv : In (u, v, cv) SE -> (cv = None <-> nc u && nc v = false).
  Proof.
    intros H. apply in_E in H. destruct H as [(i & j & -> & -> & _ & _ & ->)|[(i & p & -> & -> & _ & _ & _ & ->)|[-> (p & -> & [[-> _]|[-> _]])]]]; cbn; split; congruence.
  Qed.
  Lemma node_filter : filter nc N = map NStab (seq 0 (length (sc_stabs c))) ++ map NPt (sc_bound c).
  Proof.
    unfold sg_nodes. cbn [app filter nc not_connector].
    rewrite !filter_app, !filter_map. cbn [nc not_connector]. 
    assert (K : forall A (l : list A), filter (fun _ => true) l = l) by (clear; intros A; induction l; cbn; congruence). rewrite !K. f_equal. rewrite <- map_app, halves. reflexivity.
  Qed.
  Lemma shows_inv M F w (d : nxg W) : F = map (with_weight zero w) SE -> simple M F -> nx_inv M F d -> Permutation (filter nc M) (filter nc N) -> shows c ch w (strip d).
  Proof.
    intros HF S I HP. pose proof (strip_simple _ _ S) as S'. pose proof (strip_inv _ _ _ I) as I'. split; [|split].
    - rewrite strip_nodes, (ni_nodes _ _ _ I), <- node_filter. assumption.
    - pose proof (nx_edges_orient _ _ _ S' I') as Q. replace (real_edges (map fst SE)) with (map fst (filter re F)); [exact Q|].
      rewrite HF. unfold real_edges. rewrite !filter_map, !map_map. apply map_ext. reflexivity.
    - intros u v q H. rewrite strip_data. destruct (nc u && nc v) eqn:K; [|apply (SE_label _ _ _ H) in K; discriminate].
      rewrite (nx_edge_data_spec _ _ _ u v I). rewrite (find_simple _ _ u v (with_weight zero w (u, v, Some q)) S); [reflexivity|rewrite HF; apply in_map; assumption|left; reflexivity].
  Qed.
End Code.

(* The figure: whatever was drawn before and on both backends, drawing shows every stabilizer, every boundary point and
   every real edge with the weight its qubit has now. *)
Theorem C58_figure : forall W (zero : W) D e b pol c ch ops order w,
  dims_ge2 D -> is_surface_code D e b pol c -> valid_choice (sc_stabs c) ch -> orders_ok ops -> Permutation [NLow; NHigh] order ->
  let calls := sg_calls (sc_stabs c) (sc_bound c) ch in
  exists g g' d r r' d',
    fold_left (nx_vop zero c) ops (Ok (nx_build calls)) = Ok g /\ nx_draw zero (node_weight c w) order g = Ok (g', d) /\ shows c ch w d /\
    fold_left (rx_vop zero c) ops (rx_build calls) = Ok r /\ rx_draw zero (node_weight c w) order r = Ok (r', d') /\ shows c ch w d'.
Proof.
  intros W zero D e b pol c ch ops order w H2 HC Hch HO HP calls.
  destruct (plain W zero D e b pol c ch H2 HC Hch ops) as (n & r & F & Q & Qr & L & S & I & R & _).
  destruct (plain W zero D e b pol c ch H2 HC Hch (ops ++ [VDraw order w])) as (n1 & r1 & F1 & Q1 & Qr1 & L1 & S1 & I1 & R1 & HF).
  specialize (HF ops _ eq_refl). cbn [vop_weights] in HF.
  assert (HO1 : orders_ok (ops ++ [VDraw order w])).
  { intros o' w' Hin. apply in_app_or in Hin. destruct Hin as [Hin|[Hin|[]]]; [apply (HO o' w'); assumption|]. injection Hin as <- _. assumption. }
  pose proof (nx_history W zero D e b pol c ch H2 HC Hch ops HO n Q) as G. pose proof (nx_history W zero D e b pol c ch H2 HC Hch _ HO1 n1 Q1) as G1.
  rewrite fold_left_app, G in G1. cbn [fold_left nx_vop bind] in G1. set (g := if some_draw ops then strip n else n) in *.
  assert (E1 : some_draw (ops ++ [VDraw order w]) = true) by (unfold some_draw; rewrite existsb_app; cbn; apply orb_true_r). rewrite E1 in G1.
  unfold undrawn in Qr1. rewrite map_app, fold_left_app in Qr1. fold (undrawn ops) in Qr1. rewrite Qr in Qr1. cbn [map fold_left rx_vop bind vop_weights] in Qr1.
  destruct (to_nx_spec _ _ _ S1 R1) as (h & M & Hh & SM & IM & HM).
  exists g, (strip n1), (strip n1), r, r1, (strip h). split; [exact G|]. split; [|split; [|split; [|split]]].
  - destruct (nx_draw zero (node_weight c w) order g) as [[g1 d1]|] eqn:K; [|discriminate]. cbn [bind fst] in G1. injection G1 as ->.
    unfold nx_draw in K. destruct (nx_assign_weights _ _ g); [|discriminate]. cbn [bind] in K. injection K as K1 K2. congruence.
  - apply (shows_inv W zero c ch _ F1 w n1 HF S1 I1). reflexivity.
  - unfold calls. rewrite (rx_history W zero D e b pol c ch H2 HC Hch). assumption.
  - unfold rx_draw. rewrite Qr1. cbn [bind]. rewrite Hh. cbn [bind]. rewrite remove_spec by assumption. reflexivity.
  - apply (shows_inv W zero c ch M F1 w h HF SM IM). apply NoDup_Permutation; [apply NoDup_filter, (s_nd _ _ SM)|apply NoDup_filter, (s_nd _ _ S1)|].
    intros x. rewrite !filter_In, HM. split.
    + intros [[-> |[-> |(y & J)]] Hx]; try discriminate. split; [|assumption]. apply (joined_in _ _ x y S1 J).
    + intros [Hx Hn]. split; [|assumption]. right; right.
      destruct (code_no_isolated D e b pol c ch H2 HC Hch x Hx) as (y & cv & Hy); [intros ->; discriminate|intros ->; discriminate|]. exists y. rewrite HF.
      destruct Hy as [Hy|Hy]; apply (in_map (with_weight zero w)) in Hy; eexists; (split; [exact Hy|]); unfold pair_is; cbn [with_weight fst]; auto.
Qed.
Print Assumptions C58_figure.

(* rustworkx: drawings leave no trace.  After any mix of assignments of weights and drawings the graph is the one that
   the assignments alone make. *)
Theorem C58_rustworkx_unchanged : forall W (zero : W) D e b pol c ch ops,
  dims_ge2 D -> is_surface_code D e b pol c -> valid_choice (sc_stabs c) ch ->
  let calls := sg_calls (sc_stabs c) (sc_bound c) ch in
  exists r, fold_left (rx_vop zero c) ops (rx_build calls) = Ok r /\ fold_left (rx_vop zero c) (undrawn ops) (rx_build calls) = Ok r.
Proof.
  intros W zero D e b pol c ch ops H2 HC Hch calls. destruct (plain W zero D e b pol c ch H2 HC Hch ops) as (n & r & F & _ & Qr & _). exists r. split; [|exact Qr].
  unfold calls. rewrite (rx_history W zero D e b pol c ch H2 HC Hch). assumption.
Qed.
Print Assumptions C58_rustworkx_unchanged.

(* networkx: after at least one drawing the graph has lost exactly "low" and "high" and the edges at them; the rest,
   with the weights, is what the assignments alone make. *)
Theorem C58_networkx_loses_connectors : forall W (zero : W) D e b pol c ch ops,
  dims_ge2 D -> is_surface_code D e b pol c -> valid_choice (sc_stabs c) ch -> orders_ok ops ->
  let calls := sg_calls (sc_stabs c) (sc_bound c) ch in
  exists n g, fold_left (nx_vop zero c) (undrawn ops) (Ok (nx_build calls)) = Ok n /\ fold_left (nx_vop zero c) ops (Ok (nx_build calls)) = Ok g /\
    In NLow (nx_nodes n) /\ In NHigh (nx_nodes n) /\
    (some_draw ops = false -> g = n) /\
    (some_draw ops = true ->
      nx_nodes g = filter not_connector (nx_nodes n) /\ nx_edges g = real_edges (nx_edges n) /\
      (forall u v, not_connector u = true -> not_connector v = true -> nx_edge_data g u v = nx_edge_data n u v) /\
      (forall u v, not_connector u && not_connector v = false -> nx_edge_data g u v = Err KeyError) /\
      (forall u l, not_connector u = true -> nx_neighbors n u = Ok l -> nx_neighbors g u = Ok (filter not_connector l)) /\
      (forall u, not_connector u = false -> nx_neighbors g u = Err NetworkXError) /\
      (* the graph searched by shortest_paths_without_high_low *)
      (let keep := map NStab (seq 0 (length (sc_stabs c))) ++ map NPt (low_half (sc_bound c)) ++ map NPt (high_half (sc_bound c)) in
       nx_sub_edges g keep = nx_sub_edges n keep)).
Proof.
  intros W zero D e b pol c ch ops H2 HC Hch HO calls. destruct (plain W zero D e b pol c ch H2 HC Hch ops) as (n & r & F & Q & _ & L & S & I & _ & _).
  exists n, (if some_draw ops then strip n else n). split; [exact Q|]. split; [exact (nx_history W zero D e b pol c ch H2 HC Hch ops HO n Q)|].
  rewrite (ni_nodes _ _ _ I). split; [left; reflexivity|]. split; [right; left; reflexivity|]. destruct (some_draw ops); [|split; [reflexivity|discriminate]]. split; [discriminate|]. intros _.
  split; [rewrite strip_nodes, (ni_nodes _ _ _ I); reflexivity|]. split; [apply strip_edges|]. split; [|split; [|split; [|split]]].
  - intros u v Hu Hv. rewrite strip_data. unfold nc. rewrite Hu, Hv. reflexivity.
  - intros u v H. rewrite strip_data. unfold nc. rewrite H. reflexivity.
  - intros u l Hu Hl. rewrite strip_neighbors. unfold nc. rewrite Hu, Hl. reflexivity.
  - intros u Hu. rewrite strip_neighbors. unfold nc. rewrite Hu. reflexivity.
  - intros keep. unfold nx_sub_edges. rewrite strip_edges. unfold real_edges. rewrite filter_filter. apply filter_ext. intros [u v]. cbn [fst snd].
    assert (K : forall x, smem x keep = true -> not_connector x = true).
    { intros x Hx. apply smem_In in Hx. unfold keep in Hx. rewrite !in_app_iff, !in_map_iff in Hx. destruct Hx as [[? [<- _]]|[[? [<- _]]|[? [<- _]]]]; reflexivity. }
    destruct (smem u keep) eqn:Ku; [rewrite (K u Ku)|rewrite andb_false_r; reflexivity]. destruct (smem v keep) eqn:Kv; [rewrite (K v Kv); reflexivity|]. rewrite andb_false_r. reflexivity.
Qed.
Print Assumptions C58_networkx_loses_connectors.

Section Code2.
  Variables (W : Type) (zero : W) (D : dims) (e : ecx) (b : bdk) (pol : option (point * point -> Z)) (c : scode) (ch : nat -> nat -> point).
  Hypothesis H2 : dims_ge2 D.
  Hypothesis HC : is_surface_code D e b pol c.
  Hypothesis Hch : valid_choice (sc_stabs c) ch.
  Notation N := (sg_nodes (sc_stabs c) (sc_bound c)).
  Notation SE := (sg_edges (sc_stabs c) (sc_bound c) ch).
  Lemma sedges_plain F (n : nxg W) : map (fun x => (fst x, ed_cv (snd x))) F = SE -> nx_inv N F n -> nx_sedges n = SE.
  Proof. intros L I. unfold nx_sedges. rewrite (ni_data _ _ _ I). exact L. Qed.
  Lemma sedges_strip F (n : nxg W) : map (fun x => (fst x, ed_cv (snd x))) F = SE -> nx_inv N F n -> nx_sedges (strip n) = RE SE.
  Proof. intros L I. unfold nx_sedges. cbn [strip nx_data]. rewrite (ni_data _ _ _ I), <- L. unfold RE. rewrite filter_map. reflexivity. Qed.
  Lemma RE_RE : RE (RE SE) = RE SE.
  Proof. unfold RE. rewrite filter_filter. apply filter_ext. intros x. destruct (real_edge x); reflexivity. Qed.
  Lemma RE_closed : sc_bound c = [] -> RE SE = SE.
  Proof.
    intros Hb. unfold RE. assert (H : forall x, In x SE -> real_edge x = true).
    { intros [[u v] cv] H. apply in_E in H. rewrite Hb in H. destruct H as [(i & j & -> & -> & _)|[(i & p & _ & _ & _ & [] & _)|[_ (p & _ & [[_ []]|[_ []]])]]]. reflexivity. }
    revert H. generalize SE. intros l. induction l as [|x l IH]; intros H; [reflexivity|]. cbn [filter]. rewrite (H x (or_introl eq_refl)), IH; [reflexivity|]. intros y Hy. apply H. right. assumption.
  Qed.
  Lemma mwpm_plain F (n : nxg W) rp w o pick bit : map (fun x => (fst x, ed_cv (snd x))) F = SE -> nx_inv N F n ->
    nx_mwpm rp n c w o pick bit = mwpm_decoder rp (sc_stabs c) (sc_bound c) ch w o pick bit.
  Proof.
    intros L I. unfold nx_mwpm, mwpm_decoder, nx_match_graph, match_graph. rewrite (sedges_plain F n L I), (ni_nodes _ _ _ I).
    assert (K : smem NLow N && smem NHigh N = true) by reflexivity. rewrite K. reflexivity.
  Qed.
End Code2.

(* the state in which a program with these assignments and drawings leaves the code's networkx graph *)
Definition nx_state {W} (zero : W) (c : scode) (ch : nat -> nat -> point) (ops : list (vop W)) (g : nxg W) : Prop :=
  fold_left (nx_vop zero c) ops (Ok (nx_build (sg_calls (sc_stabs c) (sc_bound c) ch))) = Ok g.

(* Decoding after drawings, networkx: union-find always gives the same answer, and so does MWPM on codes with periodic
   or toric boundaries.  (Same weights, same answers of the libraries.) *)
Theorem C58_decoding_after_drawing : forall W (zero : W) D e b pol c ch ops n g,
  dims_ge2 D -> is_surface_code D e b pol c -> valid_choice (sc_stabs c) ch -> orders_ok ops ->
  nx_state zero c ch (undrawn ops) n -> nx_state zero c ch ops g ->
  (forall er lib sch fuel bit, nx_uf g c er lib sch fuel bit = nx_uf n c er lib sch fuel bit) /\
  (b <> BdOpen -> forall rp w o pick bit, nx_mwpm rp g c w o pick bit = mwpm_decoder rp (sc_stabs c) (sc_bound c) ch w o pick bit) /\
  (some_draw ops = false -> forall rp w o pick bit, nx_mwpm rp g c w o pick bit = mwpm_decoder rp (sc_stabs c) (sc_bound c) ch w o pick bit).
Proof.
  intros W zero D e b pol c ch ops n g H2 HC Hch HO Hn Hg. destruct (plain W zero D e b pol c ch H2 HC Hch ops) as (n' & r & F & Q & _ & L & S & I & _ & _).
  unfold nx_state in Hn, Hg. rewrite Q in Hn. injection Hn as ->. rewrite (nx_history W zero D e b pol c ch H2 HC Hch ops HO n Q) in Hg. injection Hg as <-. split; [|split].
  - intros er lib sch fuel bit. destruct (some_draw ops); [|reflexivity]. unfold nx_uf. rewrite (sedges_strip W c ch F n L I), (sedges_plain W c ch F n L I). apply uf_decoder_ext; try reflexivity.
    + apply RE_RE.
    + intros u Hu. cbn [nx_lib l_out]. rewrite strip_neighbors. change (nc u) with (real u). rewrite Hu. destruct (nx_neighbors n u) as [l|]; [|reflexivity]. rewrite filter_filter. apply filter_ext. intros v. change (nc v) with (real v). destruct (real v); reflexivity.
  - intros Hb rp w o pick bit. rewrite <- (mwpm_plain W c ch F n rp w o pick bit L I). destruct (some_draw ops); [|reflexivity].
    assert (Hbp : sc_bound c = []) by (apply (code_bound_iff D e b pol c H2 HC); assumption).
    unfold nx_mwpm, nx_match_graph. rewrite (sedges_strip W c ch F n L I), (sedges_plain W c ch F n L I), (RE_closed c ch Hbp), Hbp. reflexivity.
  - intros Hd rp w o pick bit. rewrite Hd. apply (mwpm_plain W c ch F n rp w o pick bit L I).
Qed.
Print Assumptions C58_decoding_after_drawing.

(* The refuted part: on every code with open boundaries and the networkx backend, one drawing makes MWPM raise on every
   syndrome but the trivial one, whatever the libraries answer, where without the drawing it finds a recovery. *)
Theorem C58_open_networkx_refuted : forall W (zero : W) D e pol c ch ops g,
  dims_ge2 D -> is_surface_code D e BdOpen pol c -> valid_choice (sc_stabs c) ch -> orders_ok ops ->
  some_draw ops = true -> nx_state zero c ch ops g ->
  forall rp w o pick bit, odd_stabs (sc_stabs c) bit <> [] ->
  (exists x, nx_mwpm rp g c w o pick bit = Err x) /\
  ((forall u v, sp_mid o u v <> None) -> nx_mwpm rp g c w o pick bit = Err NetworkXError) /\
  (forall n, nx_state zero c ch (undrawn ops) n -> oracle_ok (sg_edges (sc_stabs c) (sc_bound c) ch) w o -> (forall mg, best_matching mg (pick mg)) ->
     exists qs, nx_mwpm rp n c w o pick bit = Ok qs).
Proof.
  intros W zero D e pol c ch ops g H2 HC Hch HO Hd Hg rp w o pick bit Hodd. destruct (plain W zero D e BdOpen pol c ch H2 HC Hch ops) as (n' & r & F & Q & _ & L & S & I & _ & _).
  unfold nx_state in Hg. rewrite (nx_history W zero D e BdOpen pol c ch H2 HC Hch ops HO n' Q), Hd in Hg. injection Hg as <-.
  assert (Hbp : has_bound_points (sc_bound c) = true).
  { destruct (sc_bound c) eqn:K; [|reflexivity]. exfalso. apply (proj1 (code_bound_iff D e BdOpen pol c H2 HC) K). reflexivity. }
  assert (Hl : smem NLow (nx_nodes (strip n')) = false).
  { apply smem_false. rewrite strip_nodes. intros H. apply filter_In in H. destruct H as [_ H]. discriminate. }
  assert (M : nx_mwpm rp (strip n') c w o pick bit = bind (mapM (mid_edge rp (nx_sedges (strip n')) w o) (combs (odd_stabs (sc_stabs c) bit))) (fun _ => Err NetworkXError)).
  { unfold nx_mwpm, nx_match_graph. rewrite Hl, Hbp. destruct (odd_stabs (sc_stabs c) bit); [congruence|]. cbn [andb]. destruct (mapM _ _); reflexivity. }
  rewrite M. split; [|split].
  - destruct (mapM _ _); cbn [bind]; eexists; reflexivity.
  - intros Hmid. assert (K : forall l, exists m, mapM (mid_edge rp (nx_sedges (strip n')) w o) l = Ok m).
    { induction l as [|ab l [m IH]]; [exists []; reflexivity|]. cbn [mapM]. unfold mid_edge at 1. pose proof (Hmid (NStab (fst ab)) (NStab (snd ab))) as Hm. destruct (sp_mid o _ _); [|congruence]. cbn [bind]. rewrite IH. cbn [bind]. eexists. reflexivity. }
    destruct (K (combs (odd_stabs (sc_stabs c) bit))) as [m ->]. reflexivity.
  - intros n Hn Ho Hp. unfold nx_state in Hn. rewrite Q in Hn. injection Hn as <-. rewrite (mwpm_plain W c ch F n' rp w o pick bit L I).
    destruct (C14_mwpm_clears_syndrome D e BdOpen pol c ch rp w o pick bit true H2 HC Hch Ho Hp) as (qs & _ & _ & K & _). exists qs. exact K.
Qed.
Print Assumptions C58_open_networkx_refuted.

(* correct(..., draw=True) itself is not disturbed by its drawing: with positive weights the paths avoid "low" and "high"
   (C17), and the qubits to flip are those of a decoding without drawing. *)
Theorem C58_drawing_while_decoding : forall W (zero : W) D e b pol c ch ops n order rp k w o pick bit,
  dims_ge2 D -> is_surface_code D e b pol c -> valid_choice (sc_stabs c) ch ->
  Permutation [NLow; NHigh] order -> nx_state zero c ch (undrawn ops) n ->
  oracle_ok (sg_edges (sc_stabs c) (sc_bound c) ch) w o -> oracle_simple o -> exact k rp w -> (forall q, 0 < w q)%Z ->
  (forall mg, best_matching mg (pick mg)) ->
  exists g qs, nx_mwpm_drawing rp order n c w o pick bit = Ok (g, qs) /\ mwpm_decoder rp (sc_stabs c) (sc_bound c) ch w o pick bit = Ok qs.
Proof.
  intros W zero D e b pol c ch ops n order rp k w o pick bit H2 HC Hch HP Hn Ho Hs Hex Hw Hpick.
  destruct (plain W zero D e b pol c ch H2 HC Hch ops) as (n' & r & F & Q & _ & L & S & I & _ & _). unfold nx_state in Hn. rewrite Q in Hn. injection Hn as ->.
  destruct (code_decode D e b pol c H2 HC ch Hch bit rp w o Ho pick Hpick) as (qs & bit' & mg & virt & mids & bes & Hmg & _ & Hq & Hdec & _).
  exists (strip n), qs. split; [|exact Hdec]. unfold nx_mwpm_drawing. rewrite remove_spec by assumption.
  assert (Hm : nx_match_graph rp n w o (odd_stabs (sc_stabs c) bit) (has_bound_points (sc_bound c)) = Ok (mg, virt)).
  { rewrite <- Hmg. unfold nx_match_graph, match_graph. rewrite (sedges_plain W c ch F n L I), (ni_nodes _ _ _ I).
    assert (K : smem NLow (sg_nodes (sc_stabs c) (sc_bound c)) && smem NHigh (sg_nodes (sc_stabs c) (sc_bound c)) = true) by reflexivity. rewrite K. reflexivity. }
  rewrite Hm. cbn [bind fst snd].
  assert (Hflip : qubits_to_flip (nx_sedges (strip n)) mg virt (pick mg) = Ok qs); [|rewrite Hflip; reflexivity].
  rewrite <- Hq. rewrite (sedges_strip W c ch F n L I). set (SE := sg_edges (sc_stabs c) (sc_bound c) ch) in *.
  assert (HR : forall x, In x mg -> forall u, In u (me_path x) -> nc u = true).
  { intros x Hx u Hu. destruct (C17_paths_stay_inside_partial D e b pol c ch rp k w o bit mg virt H2 HC Hch Ho Hs Hex Hw Hmg x Hx) as [Hr _]. specialize (Hr u Hu). destruct u; try reflexivity; destruct Hr; congruence. }
  assert (Hcv : forall u v, nc u = true -> nc v = true -> edge_cv (RE SE) u v = edge_cv SE u v).
  { intros u v Hu Hv. unfold edge_cv. enough (K : find (same_pair u v) (RE SE) = find (same_pair u v) SE) by (rewrite K; reflexivity).
    clearbody SE. clear - Hu Hv. induction SE as [|x l IH]; [reflexivity|]. unfold RE in *. cbn [filter find]. destruct (real_edge x) eqn:R; cbn [find].
    - destruct (same_pair u v x); [reflexivity|exact IH].
    - destruct (same_pair u v x) eqn:K; [|exact IH]. apply same_pair_true in K. unfold real_edge in R. change (nc u) with (real u) in Hu. change (nc v) with (real v) in Hv. destruct K as [K|K]; rewrite K in R; cbn [fst snd] in R; rewrite Hu, Hv in R; discriminate. }
  assert (Hpath : forall p, (forall u, In u p -> nc u = true) -> forall s, flip_path (RE SE) s p = flip_path SE s p).
  { unfold flip_path. induction p as [|x p IH]; intros Hp s; [reflexivity|]. destruct p as [|y p]; [reflexivity|]. cbn [pairs foldM fst snd].
    rewrite Hcv by (apply Hp; cbn; auto). destruct (edge_cv SE x y); cbn [bind]; [|reflexivity]. apply IH. intros u Hu. apply Hp. right. assumption. }
  unfold qubits_to_flip. apply foldM_ext. intros s uv. destruct (mmem (fst uv) virt && mmem (snd uv) virt); [reflexivity|]. unfold edge_path. destruct (find _ mg) as [x|] eqn:K; [|reflexivity].
  cbn [bind]. apply Hpath. apply find_some in K. apply (HR x). apply K.
Qed.
Print Assumptions C58_drawing_while_decoding.

(* Labels.  In the first drawing, and in every drawing with rustworkx, the i-th stabilizer is labelled i and the boundary
   points follow; in a second drawing of a networkx graph two stabilizers are left without a label and the other labels
   have shifted. *)
Lemma label_go u l : forall k, ~ In u l -> (fix go k l := match l with [] => None | x :: l' => if sneqb x u then Some k else go (S k) l' end) k l = None.
Proof. induction l as [|x l IH]; intros k H; [reflexivity|]. cbn. destruct (sneqb x u) eqn:F; [apply sneqb_true in F; subst; exfalso; apply H; left; reflexivity|]. apply IH. intros Hi. apply H. right. assumption. Qed.
Lemma label_nth u l : NoDup l -> forall i k, nth_error l i = Some u -> (fix go k l := match l with [] => None | x :: l' => if sneqb x u then Some k else go (S k) l' end) k l = Some (k + i).
Proof.
  induction l as [|x l IH]; intros ND i k H; [destruct i; discriminate|]. apply NoDup_cons_iff in ND. destruct ND as [Hx ND]. destruct i as [|i]; cbn [nth_error] in H.
  - injection H as ->. rewrite sneqb_refl, Nat.add_0_r. reflexivity.
  - destruct (sneqb x u) eqn:F; [apply sneqb_true in F; subst x; exfalso; apply Hx; apply nth_error_In in H; assumption|]. rewrite (IH ND i (S k) H). f_equal. lia.
Qed.
Theorem C58_labels : forall D e b pol c ch,
  dims_ge2 D -> is_surface_code D e b pol c -> valid_choice (sc_stabs c) ch ->
  let nodes := sg_nodes (sc_stabs c) (sc_bound c) in
  (forall i, i < length (sc_stabs c) -> node_label nodes (NStab i) = Some i) /\
  (forall k p, nth_error (sc_bound c) k = Some p -> node_label nodes (NPt p) = Some (length (sc_stabs c) + k)) /\
  node_label nodes NLow = None /\ node_label nodes NHigh = None.
Proof.
  intros D e b pol c ch H2 HC Hch nodes. pose proof (surface_wf D e b pol c H2 HC) as WF.
  pose proof (sg_nodes_NoDup (sc_stabs c) (sc_bound c) WF) as ND. fold nodes in ND.
  assert (K : skipn 2 nodes = map NStab (seq 0 (length (sc_stabs c))) ++ map NPt (sc_bound c)).
  { unfold nodes, sg_nodes. cbn [app skipn]. f_equal. rewrite <- map_app, halves. reflexivity. }
  assert (ND' : NoDup (skipn 2 nodes)).
  { unfold nodes, sg_nodes in ND |- *. cbn [app skipn] in *. apply NoDup_cons_iff in ND. destruct ND as [_ ND]. apply NoDup_cons_iff in ND. apply ND. }
  unfold node_label. rewrite K in *. split; [|split; [|split]].
  - intros i Hi. rewrite (label_nth _ _ ND' i 0); [reflexivity|]. rewrite nth_error_app1 by (rewrite map_length, seq_length; assumption). rewrite nth_error_map.
    rewrite (nth_error_nth' _ 0) by (rewrite seq_length; assumption). rewrite seq_nth by assumption. reflexivity.
  - intros k p Hk. rewrite (label_nth _ _ ND' (length (sc_stabs c) + k) 0); [reflexivity|]. rewrite nth_error_app2; rewrite map_length, seq_length; [|lia]. replace (_ + k - _) with k by lia. rewrite nth_error_map, Hk. reflexivity.
  - apply label_go. rewrite in_app_iff, !in_map_iff. intros [(x & F & _)|(x & F & _)]; discriminate.
  - apply label_go. rewrite in_app_iff, !in_map_iff. intros [(x & F & _)|(x & F & _)]; discriminate.
Qed.
Print Assumptions C58_labels.
Theorem C58_labels_redrawn_refuted : forall W (zero : W) D e b pol c ch ops g,
  dims_ge2 D -> is_surface_code D e b pol c -> valid_choice (sc_stabs c) ch -> orders_ok ops -> some_draw ops = true -> nx_state zero c ch ops g ->
  node_label (nx_nodes g) (NStab 0) = None /\ node_label (nx_nodes g) (NStab 1) = None /\
  forall i, i + 2 < length (sc_stabs c) -> node_label (nx_nodes g) (NStab (i + 2)) = Some i.
Proof.
  intros W zero D e b pol c ch ops g H2 HC Hch HO Hd Hg. destruct (plain W zero D e b pol c ch H2 HC Hch ops) as (n & r & F & Q & _ & L & S & I & _ & _).
  unfold nx_state in Hg. rewrite (nx_history W zero D e b pol c ch H2 HC Hch ops HO n Q), Hd in Hg. injection Hg as <-.
  pose proof (ni_nodes _ _ _ (strip_inv _ _ _ I)) as Hnn. pose proof (s_nd _ _ (strip_simple _ _ S)) as ND. rewrite Hnn. rewrite (node_filter c) in *.
  set (l := map NStab (seq 0 (length (sc_stabs c))) ++ map NPt (sc_bound c)) in *.
  assert (Hnth : forall i, i < length (sc_stabs c) -> nth_error l i = Some (NStab i)).
  { intros i Hi. unfold l. rewrite nth_error_app1 by (rewrite map_length, seq_length; assumption). rewrite nth_error_map, (nth_error_nth' _ 0) by (rewrite seq_length; assumption). rewrite seq_nth by assumption. reflexivity. }
  assert (ND2 : NoDup (skipn 2 l)) by (clear - ND; destruct l as [|x1 [|x2 l']]; [constructor|constructor|]; apply NoDup_cons_iff in ND; destruct ND as [_ ND]; apply NoDup_cons_iff in ND; apply ND).
  assert (Hout : forall j, j < 2 -> node_label l (NStab j) = None).
  { intros j Hj. apply label_go. intros Hin. destruct (le_lt_dec (length (sc_stabs c)) j) as [Hle|Hlt].
    - assert (In (NStab j) l) by (rewrite <- (firstn_skipn 2 l); apply in_or_app; right; assumption). unfold l in H. rewrite in_app_iff, !in_map_iff in H. destruct H as [(x & E & Hx)|(x & E & _)]; [|discriminate]. injection E as ->. apply in_seq in Hx. lia.
    - rewrite <- (firstn_skipn 2 l) in ND. assert (K : In (NStab j) (firstn 2 l)).
      { specialize (Hnth j Hlt). apply nth_error_split in Hnth. destruct Hnth as (l1 & l2 & E & Hl1). rewrite E, firstn_app. apply in_or_app. right. rewrite Hl1. destruct j as [|[|]]; [left; reflexivity|left; reflexivity|lia]. }
      apply in_split in K. destruct K as (a1 & a2 & K). rewrite K in ND. rewrite <- app_assoc in ND. apply NoDup_remove_2 in ND. apply ND. rewrite !in_app_iff. right; right. assumption. }
  split; [apply Hout; lia|]. split; [apply Hout; lia|]. intros i Hi. unfold node_label. rewrite (label_nth _ _ ND2 i 0); [reflexivity|].
  rewrite <- (Hnth (i + 2) Hi). assert (K : forall A (m : list A) a, nth_error (skipn a m) i = nth_error m (i + a)); [|apply K].
  clear. intros A m a. revert m. induction a as [|a IH]; intros m; [rewrite Nat.add_0_r; reflexivity|]. destruct m as [|x m]; [destruct i; reflexivity|]. cbn [skipn]. rewrite IH, Nat.add_succ_r. reflexivity.
Qed.
Print Assumptions C58_labels_redrawn_refuted.

(* a 2x2x2 open primal code, one weight assignment and one drawing, an error on one qubit: an odd stabilizer, and the
   libraries' contracts are met, so that MWPM decodes before the drawing and raises after it *)
Example C58_nonvacuous :
  let c := mk_code (2, 2, 2)%Z EcPrimal BdOpen None in let ch := fun i j => hd (0, 0, 0)%Z (shared (sc_stabs c) i j) in
  let ops : list (vop Z) := [VAssign (fun _ => Some 1%Z); VDraw [NHigh; NLow] (fun _ => Some 1%Z)] in
  let bit := fun q => peqb q (2, 1, 1)%Z in let E := sg_edges (sc_stabs c) (sc_bound c) ch in
  dims_ge2 (2, 2, 2)%Z /\ is_surface_code (2, 2, 2)%Z EcPrimal BdOpen None c /\ valid_choice (sc_stabs c) ch /\
  orders_ok ops /\ some_draw ops = true /\ odd_stabs (sc_stabs c) bit <> [] /\
  oracle_ok E (fun _ => 1%Z) (search_oracle E (fun _ => 1%Z)) /\ (forall mg, best_matching mg (search_match mg)) /\
  match fold_left (nx_vop 0%Z c) (undrawn ops) (Ok (nx_build (sg_calls (sc_stabs c) (sc_bound c) ch))),
        fold_left (nx_vop 0%Z c) ops (Ok (nx_build (sg_calls (sc_stabs c) (sc_bound c) ch))) with
  | Ok n, Ok g => (length (nx_nodes n), length (nx_nodes g), length (nx_edges n), length (nx_edges g)) = (14, 12, 20, 12)
  | _, _ => False
  end.
Proof.
  cbv zeta. split; [intros []; cbn; lia|]. split; [apply mk_code_ok|]. split; [apply first_choice_valid|]. split; [|split; [reflexivity|]].
  - intros order w [H|[H|[]]]; [discriminate|]. injection H as <- _. apply perm_swap.
  - split; [vm_compute; discriminate|]. split; [apply search_oracle_ok; intros; lia|]. split; [apply search_match_ok|]. vm_compute. reflexivity.
Qed.
