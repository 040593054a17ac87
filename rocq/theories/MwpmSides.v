(* MwpmSides.v: with exact positive weights a boundary path stays on its side; structure of
   the edges of the matching graph. *)
From Verif Require Import Base Lattice RhgModel SurfaceModel StabGraphModel Paths Complex MwpmModel MwpmProofs MwpmInst.
Open Scope Z_scope.

Section Sides.
  Variables (stabs : list (list point)) (bp : list point) (ch : nat -> nat -> point).
  Hypothesis WF : wf_complex stabs bp.
  Hypothesis Hch : valid_choice stabs ch.
  Notation E := (sg_edges stabs bp ch).
  Variables (rp : Z -> Z) (w : point -> Z) (o : sp_oracle) (k : Z).
  Hypothesis Hw : forall q, 0 < w q.
  Hypothesis Hex : exact k rp w.
  Hypothesis Ho : oracle_ok E w o.
  Hypothesis Hs : oracle_simple o.

  Let Hw0 : forall q, 0 <= w q.
  Proof. intros q. specialize (Hw q). lia. Qed.

  Definition zone (u : snode) : snode :=
    match u with NPt q => if pmem q (low_half bp) then NLow else NHigh | _ => u end.

  Lemma zone_step u v : gadj E u v -> wt E w u v <= 0 -> zone u = zone v.
  Proof.
    intros Hadj Hwt. destruct (gadj_cv E u v Hadj) as (cv & _ & Hin & W). rewrite W in Hwt.
    destruct cv as [q|]; [specialize (Hw q); lia|].
    assert (G : forall a b, In (a, b, None) E -> zone a = zone b).
    { clear - WF. intros a b H. apply in_E in H.
      destruct H as [(x & y & _ & _ & _ & _ & F)|[(x & y & _ & _ & _ & _ & _ & F)|[_ (q & -> & H)]]]; try discriminate.
      pose proof (wf_bp _ _ WF) as Hn. rewrite <- (halves bp) in Hn. simpl.
      destruct H as [[-> Hq]|[-> Hq]].
      - apply pmem_In in Hq. rewrite Hq. reflexivity.
      - destruct (pmem q (low_half bp)) eqn:F; [|reflexivity]. apply pmem_In in F. exfalso.
        apply in_split in F. destruct F as (l1 & l2 & F). rewrite F in Hn. rewrite <- app_assoc in Hn.
        apply nodup_app_r in Hn. simpl in Hn. inversion Hn as [|? ? Hq' _]; subst. apply Hq'. apply in_app_iff. right; assumption. }
    destruct Hin as [H|H]; [auto|symmetry; auto].
  Qed.

  Lemma zone_path u v p : is_path (gadj E) u v p -> cost E w p <= 0 -> zone u = zone v.
  Proof.
    intros H. apply ipath_of in H. induction H as [u|u x v p Hux Hp _ IH]; intros Hc; [reflexivity|].
    unfold cost in Hc. rewrite (pairs_cons u x p) in Hc by apply Hp. cbn [sumZ fold_right fst snd] in Hc.
    pose proof (wt_nonneg stabs bp ch w [] Hw0 u x). pose proof (cost_nonneg stabs bp ch w [] Hw0 p). unfold cost, sumZ in *.
    rewrite (zone_step u x Hux ltac:(lia)). apply IH. lia.
  Qed.

  (* the path kept for one odd stabilizer *)
  Lemma bound_edge_real ki e : bound_edge rp E w o ki = Ok e -> forall u, In u (me_path e) -> real u = true.
  Proof.
    unfold bound_edge. intros H. set (t := NStab (snd ki)) in *. destruct Ho as (_ & Hlow & Hhigh).
    specialize (Hlow t ltac:(discriminate)). specialize (Hhigh t ltac:(discriminate)).
    destruct (sp_low o t) as [pl|] eqn:EL; [|discriminate]. destruct (sp_high o t) as [ph|] eqn:EH; [|discriminate].
    assert (Nl : NoDup pl) by (apply (proj1 (proj2 Hs) t pl); [discriminate|assumption]).
    assert (Nh : NoDup ph) by (apply (proj2 (proj2 Hs) t ph); [discriminate|assumption]).
    simpl in Hlow, Hhigh.
    set (c := if reported rp E w pl <=? reported rp E w ph then NLow else NHigh).
    set (full := if reported rp E w pl <=? reported rp E w ph then pl else ph) in *.
    assert (Hfull : is_path (gadj E) c t full /\ NoDup full /\ conn c = true /\
      (forall x, x <> c -> conn x = true -> exists p', is_path (gadj E) x t p' /\ reported rp E w full <= reported rp E w p' /\
         forall p'', is_path (gadj E) x t p'' -> cost E w p' <= cost E w p'')).
    { unfold c, full. destruct (reported rp E w pl <=? reported rp E w ph) eqn:L.
      - split; [apply Hlow|]. split; [assumption|]. split; [reflexivity|]. intros x Hx Hc.
        destruct x; try discriminate; [congruence|]. exists ph. split; [apply Hhigh|]. split; [lia|apply Hhigh].
      - split; [apply Hhigh|]. split; [assumption|]. split; [reflexivity|]. intros x Hx Hc.
        destruct x; try discriminate; [|congruence]. exists pl. split; [apply Hlow|]. split; [lia|apply Hlow]. }
    destruct Hfull as (Hp & Hn & Hc & Hmin).
    destruct full as [|c0 [|pt rest]] eqn:Ef; try discriminate.
    assert (c0 = c) by (destruct Hp as (_ & F & _); injection F; auto). subst c0.
    injection H as <-. cbn [me_path]. intros u Hu. destruct (real u) eqn:Hr; [reflexivity|]. exfalso.
    assert (Hcu : conn u = true) by (unfold conn; rewrite Hr; reflexivity).
    assert (Huc : u <> c) by (intros ->; inversion Hn; contradiction).
    destruct (Hmin u Huc Hcu) as (p' & Hp' & Hrep & Hbest).
    destruct (is_path_split _ _ _ _ u Hp (or_intror Hu)) as (p1 & p2 & Es & H1 & H2).
    destruct (tl_path _ _ _ H2) as [q2 E2].
    assert (Hcost : cost E w (c :: pt :: rest) = cost E w (p1 ++ [u]) + cost E w p2).
    { rewrite Es, E2. replace (p1 ++ u :: q2) with ((p1 ++ [u]) ++ q2) by (rewrite <- app_assoc; reflexivity).
      rewrite E2 in H2. apply (cost_app stabs bp ch w [] c u t); assumption. }
    assert (Hpos : 0 < cost E w (p1 ++ [u])).
    { destruct (Z.le_gt_cases (cost E w (p1 ++ [u])) 0) as [L|L]; [|lia]. exfalso.
      pose proof (zone_path c u _ H1 L) as Z1. unfold zone, conn, real in *.
      destruct c, u; try discriminate; congruence. }
    pose proof (Hbest p2 H2) as B2. rewrite (cost_reported stabs bp ch rp w [] k p' Hex) in B2.
    rewrite (cost_reported stabs bp ch rp w [] k (c :: pt :: rest) Hex) in Hcost. assert (0 < k) by apply Hex. nia.
  Qed.

  (* between real nodes every edge carries a qubit *)
  Lemma real_pairs u v p : is_path (gadj E) u v p -> (forall x, In x p -> real x = true) ->
    forall x y, In (x, y) (pairs p) -> exists q, edge_cv E x y = Ok (Some q).
  Proof.
    intros H. apply ipath_of in H. induction H as [u|u z v p Huz Hp _ IH]; intros Hr x y Hxy; [destruct Hxy|].
    rewrite (pairs_cons u z p) in Hxy by apply Hp. destruct Hxy as [Hxy|Hxy]; [|apply IH; auto; intros; apply Hr; right; assumption].
    injection Hxy as <- <-. destruct (gadj_cv E u z Huz) as (cv & Hcv & Hin & _). destruct cv as [q|]; [eauto|]. exfalso.
    assert (Ru : real u = true) by (apply Hr; left; reflexivity).
    assert (Rz : real z = true) by (apply Hr; right; apply (is_path_in_first _ _ _ _ Hp)).
    destruct Hin as [H|H]; apply in_E in H;
      (destruct H as [(a & b & _ & _ & _ & _ & F)|[(a & b & _ & _ & _ & _ & _ & F)|[_ (q & _ & [[-> _]|[-> _]])]]]; discriminate).
  Qed.
End Sides.

(* where the edges of the matching graph come from *)
Lemma match_graph_inv rp E w o odd hb mg virt : match_graph rp E w o odd hb = Ok (mg, virt) ->
  forall e, In e mg ->
    (exists ab, In ab (combs odd) /\ mid_edge rp E w o ab = Ok e) \/
    (hb = true /\ exists ki, In ki (enumerate odd) /\ bound_edge rp E w o ki = Ok e) \/
    (hb = true /\ exists ab, In ab (combs virt) /\ e = virt_edge ab).
Proof.
  unfold match_graph. intros H e He. destruct odd as [|x odd0].
  { injection H as <- <-. destruct He. }
  remember (x :: odd0) as odd eqn:Eo. clear Eo.
  destruct (mapM (mid_edge rp E w o) (combs odd)) as [mids|] eqn:M1; [|discriminate]. simpl in H. apply mapM_inv in M1.
  destruct hb.
  - destruct (mapM (bound_edge rp E w o) (enumerate odd)) as [bes|] eqn:M2; [|discriminate]. simpl in H. apply mapM_inv in M2.
    injection H as <- <-. rewrite !in_app_iff in He. destruct He as [He|[He|He]].
    + left. destruct (F2_in_r _ _ _ _ M1 He) as (ab & H1 & H2). eauto.
    + right; left. split; [reflexivity|]. destruct (F2_in_r _ _ _ _ M2 He) as (ab & H1 & H2). eauto.
    + right; right. split; [reflexivity|]. apply in_map_iff in He. destruct He as (ab & <- & Hab). eauto.
  - injection H as <- <-. left. destruct (F2_in_r _ _ _ _ M1 He) as (ab & H1 & H2). eauto.
Qed.
