(* RhgDegree.v: neighbour lists, vertex count and edge polarity of the RHG lattice. *)
From Verif Require Import Base Lattice RhgModel RhgSpec RhgProofs.
Open Scope Z_scope.

(* no edge is stored twice *)
Fixpoint simple_edges (l : list ((point * point) * eattr)) : Prop :=
  match l with
  | [] => True
  | (e, _) :: l' => (forall x, In x l' -> same_edge (fst e) (snd e) (fst x) = false) /\ simple_edges l'
  end.

Lemma upd_edge_in u v w per l x :
  In x (upd_edge u v w per l) -> fst x = (u, v) \/ In (fst x) (map fst l).
Proof.
  induction l as [|[e a] l IH]; simpl.
  - intros [<-|[]]; auto.
  - destruct (same_edge u v e); simpl; intros [<-|H]; auto.
    + right; right. apply in_map; assumption.
    + destruct (IH H); auto.
Qed.

Lemma upd_edge_simple u v w per l : simple_edges l -> simple_edges (upd_edge u v w per l).
Proof.
  induction l as [|[e a] l IH]; simpl.
  - intros _. split; [intros ? []|exact I].
  - intros [H1 H2]. destruct (same_edge u v e) eqn:E; simpl; (split; [|auto]); auto.
    intros x Hx. apply upd_edge_in in Hx. destruct Hx as [Hx|Hx].
    + rewrite Hx, same_edge_swap. destruct e; exact E.
    + apply in_map_iff in Hx. destruct Hx as [y [Hy Hin]]. rewrite <- Hy. apply H1; assumption.
Qed.

Lemma fold_simple ops g : simple_edges (gedges g) -> simple_edges (gedges (fold_left apply_op ops g)).
Proof.
  revert g; induction ops as [|o ops IH]; simpl; intros g H; auto.
  apply IH. destruct o; simpl; auto. apply upd_edge_simple; assumption.
Qed.

Definition nbr_entry (p : point) (e : (point * point) * eattr) : list point :=
  if peqb (fst (fst e)) p then [snd (fst e)]
  else if peqb (snd (fst e)) p then [fst (fst e)] else [].

Lemma in_nbr_entry p q e : In q (nbr_entry p e) <-> same_edge p q (fst e) = true.
Proof.
  destruct e as [[u v] a]. unfold nbr_entry. rewrite same_edge_true. simpl.
  destruct (peqb u p) eqn:E1; [|destruct (peqb v p) eqn:E2].
  - apply peqb_true in E1; subst. simpl. split.
    + intros [->|[]]; auto.
    + intros [H|H]; inversion H; subst; auto.
  - apply peqb_true in E2; subst. apply peqb_false in E1. simpl. split.
    + intros [->|[]]; auto.
    + intros [H|H]; inversion H; subst; auto; congruence.
  - apply peqb_false in E1, E2. simpl. split; [intros []|].
    intros [H|H]; inversion H; subst; auto; congruence.
Qed.

Lemma nbrs_iff g p q : In q (nbrs g p) <-> edge_attr g p q <> None.
Proof.
  unfold nbrs. rewrite in_flat_map. unfold edge_attr. split.
  - intros [e [He Hq]]. apply (in_nbr_entry p q e) in Hq.
    destruct (find _ _) as [[e' a]|] eqn:F; [discriminate|].
    apply (find_none _ _ F) in He. simpl in He. congruence.
  - destruct (find _ _) as [[e' a]|] eqn:F; [|congruence]. intros _.
    apply find_some in F. destruct F as [F1 F2]. exists (e', a). split; [assumption|].
    apply (in_nbr_entry p q (e', a)). exact F2.
Qed.

Lemma nbrs_NoDup_list l p : simple_edges l -> NoDup (flat_map (nbr_entry p) l).
Proof.
  induction l as [|[[u v] a] l IH]; cbn [flat_map simple_edges]; [constructor|].
  intros [H1 H2]. apply NoDup_app_intro; auto.
  - unfold nbr_entry. simpl. destruct (peqb u p); [repeat constructor; auto|].
    destruct (peqb v p); repeat constructor; auto.
  - intros x Hx Hx'. apply in_nbr_entry in Hx. apply in_flat_map in Hx'.
    destruct Hx' as [e' [He' Hx']]. apply in_nbr_entry in Hx'.
    specialize (H1 e' He'). simpl in *.
    apply same_edge_true in Hx, Hx'.
    assert (same_edge u v (fst e') = true); [|congruence].
    apply same_edge_true. destruct Hx as [Hx|Hx]; injection Hx as -> ->; tauto.
Qed.

Lemma nbrs_NoDup g p : simple_edges (gedges g) -> NoDup (nbrs g p).
Proof. intros H. apply (nbrs_NoDup_list _ p H). Qed.

(* ------------------------------------------------------------------ *)
(* moves along an axis with wrap-around *)

Definition nxt (d c : Z) : Z := if c =? 2 * d - 1 then 0 else c + 1.
Definition prv (d c : Z) : Z := if c =? 0 then 2 * d - 1 else c - 1.

Definition moves (D : dims) (a : axis) (p : point) : list point :=
  [setco a (nxt (get a D) (co a p)) p; setco a (prv (get a D) (co a p)) p].

(* axes whose coordinate has a given parity *)
Definition par_axes (b : Z) (p : point) : list axis :=
  filter (fun a => co a p mod 2 =? b) axes.

Definition cand (D : dims) (b : Z) (p : point) : list point := flat_map (fun a => moves D a p) (par_axes b p).

Lemma in_par_axes b p a : In a (par_axes b p) <-> co a p mod 2 = b.
Proof. unfold par_axes. rewrite filter_In, Z.eqb_eq. pose proof (axes_all a). tauto. Qed.

Lemma par_axes_2 p : (nodd p = 2 -> length (par_axes 1 p) = 2%nat) /\ (nodd p = 1 -> length (par_axes 0 p) = 2%nat).
Proof.
  unfold nodd, par_axes, axes. simpl.
  destruct (Z.eq_dec (co AX p mod 2) 0), (Z.eq_dec (co AY p mod 2) 0), (Z.eq_dec (co AZ p mod 2) 0);
    (assert (H : forall a, co a p mod 2 <> 0 -> co a p mod 2 = 1) by (intros; lia));
    repeat match goal with
    | E : co _ p mod 2 = 0 |- _ => rewrite E; clear E
    | E : co _ p mod 2 <> 0 |- _ => rewrite (H _ E); clear E
    end; cbv; split; intros; (reflexivity || discriminate).
Qed.

Lemma NoDup_par_axes b p : NoDup (par_axes b p).
Proof.
  apply NoDup_filter. unfold axes. repeat constructor; simpl; intuition discriminate.
Qed.

Lemma setco_inj a c c' p : setco a c p = setco a c' p -> c = c'.
Proof. intros H. apply (f_equal (co a)) in H. rewrite !co_setco_same in H. exact H. Qed.

Section Degree.
  Variables (D : dims) (B : bnds).
  Hypothesis HD : dims_ok D B.
  Hypothesis H2 : dims_ge2 D.

  Lemma nxt_ne_prv d c : 2 <= d -> nxt d c <> prv d c.
  Proof. unfold nxt, prv. intros. destruct (c =? 2 * d - 1) eqn:?, (c =? 0) eqn:?; lia. Qed.

  Lemma moves_co a p q : In q (moves D a p) ->
    co a q <> co a p /\ forall b, b <> a -> co b q = co b p.
  Proof.
    intros [<-|[<-|[]]]; rewrite co_setco_same; (split; [|intros b Hb; apply co_setco_other; congruence]);
      specialize (H2 a); unfold nxt, prv; [destruct (_ =? _) eqn:?|destruct (_ =? _) eqn:?]; lia.
  Qed.

  Lemma cand_NoDup b p : NoDup (cand D b p).
  Proof.
    unfold cand. apply NoDup_flat_map.
    - apply NoDup_par_axes.
    - intros a _. unfold moves. repeat constructor; simpl; auto.
      intros [H|[]]. apply setco_inj in H. exact (nxt_ne_prv _ _ (H2 a) (eq_sym H)).
    - intros x y q Hx Hy Hqx Hqy. apply moves_co in Hqx, Hqy.
      destruct (axis_eq_dec x y) as [E|E]; [assumption|].
      exfalso. apply (proj1 Hqx). apply (proj2 Hqy). assumption.
  Qed.

  Lemma flat_map_moves_length (l : list axis) p : length (flat_map (fun a => moves D a p) l) = (2 * length l)%nat.
  Proof. induction l as [|a l IH]; simpl; [reflexivity|]. rewrite IH. lia. Qed.

  (* neighbours lie among the four candidates *)
  Lemma step_in_moves p q : site D B p -> site D B q -> step D B p q ->
    exists a, In q (moves D a p) /\ (co a p + co a q) mod 2 = 1.
  Proof.
    intros Hp Hq [a [Hs Ho]]. apply axis_point in Ho. exists a.
    specialize (Hp a); specialize (Hq a). specialize (H2 a).
    assert (Hc : (co a q = nxt (get a D) (co a p) \/ co a q = prv (get a D) (co a p)) /\ (co a p + co a q) mod 2 = 1).
    { unfold nxt, prv, step1, wrap1 in *.
      destruct (co a p =? 2 * get a D - 1) eqn:E1, (co a p =? 0) eqn:E2;
        destruct (get a B) eqn:EB; simpl in *; 
        destruct Hs as [Hs|[Hs|[Hs1 Hs]]]; try discriminate; lia. }
    split; [|apply Hc]. unfold moves. simpl. rewrite Ho.
    destruct Hc as [[Hc|Hc] _]; rewrite <- Hc; auto.
  Qed.

  Lemma edge_in_cand p q :
    (lattice_edge D B p q -> In q (cand D 1 p)) /\ (lattice_edge D B q p -> In q (cand D 0 p)).
  Proof.
    split.
    - intros ([Hp Np] & [Hq Nq] & Hst). destruct (step_in_moves p q Hp Hq Hst) as [a [Hm Hpar]].
      unfold cand. apply in_flat_map. exists a. split; [|assumption].
      apply in_par_axes. destruct (moves_co a p q Hm) as [_ Ho]. apply axis_point in Ho.
      rewrite Ho, nodd_setco in Nq. lia.
    - intros ([Hq Nq] & [Hp Np] & Hst). apply step_sym in Hst.
      destruct (step_in_moves p q Hp Hq Hst) as [a [Hm Hpar]].
      unfold cand. apply in_flat_map. exists a. split; [|assumption].
      apply in_par_axes. destruct (moves_co a p q Hm) as [_ Ho]. apply axis_point in Ho.
      rewrite Ho, nodd_setco in Nq. lia.
  Qed.

  (* on the periodic lattice all four candidates are neighbours *)
  Lemma cand_edge p q : (forall a, get a B = BPeriodic) ->
    (primal_vertex D B p -> In q (cand D 1 p) -> lattice_edge D B p q) /\
    (dual_vertex D B p -> In q (cand D 0 p) -> lattice_edge D B q p).
  Proof.
    intros HB.
    assert (Hmove : forall a, site D B p -> In q (moves D a p) ->
              site D B q /\ step D B p q /\ nodd q = nodd p + (1 - 2 * (co a p mod 2))).
    { intros a Hs Hq. destruct (moves_co a p q Hq) as [_ Ho].
      assert (Hc : co a q = nxt (get a D) (co a p) \/ co a q = prv (get a D) (co a p)).
      { destruct Hq as [<-|[<-|[]]]; rewrite co_setco_same; auto. }
      pose proof (Hs a) as Hr. rewrite HB in Hr. specialize (H2 a). simpl in Hr.
      unfold nxt, prv in Hc.
      assert (Hr' : 0 <= co a q <= 2 * get a D - 1 /\ (co a p + co a q) mod 2 = 1 /\
                    step1 BPeriodic (get a D) (co a p) (co a q)).
      { unfold step1, wrap1. destruct (_ =? 2 * get a D - 1) eqn:?, (co a p =? 0) eqn:?;
        (split; [lia|split; [lia|]]); destruct Hc as [Hc|Hc];
        first [left; lia | right; left; lia | right; right; split; [reflexivity|lia]]. }
      destruct Hr' as (Hr1 & Hr2 & Hr3). split; [|split].
      - intros b. destruct (axis_eq_dec b a) as [->|n].
        + rewrite HB. simpl. lia.
        + rewrite Ho by assumption. apply Hs.
      - exists a. rewrite HB. auto.
      - apply axis_point in Ho. rewrite Ho, nodd_setco. lia. }
    split; intros [Hs Hn] Hq; unfold cand in Hq; apply in_flat_map in Hq; destruct Hq as [a [Ha Hq]];
      apply in_par_axes in Ha; destruct (Hmove a Hs Hq) as (H1 & H3 & H4).
    - split; [split; assumption|]. split; [split; [assumption|lia]|assumption].
    - split; [split; [assumption|lia]|]. split; [split; assumption|]. apply step_sym; assumption.
  Qed.

  Variable pol : option (point * point -> Z).
  Variable vs : list point.
  Hypothesis Hvs : set_enum (six_body_points D B) vs.
  Let G := rhg_graph D B pol vs.

  Lemma G_nbrs_NoDup p : NoDup (nbrs G p).
  Proof. apply nbrs_NoDup. apply fold_simple. exact I. Qed.

  Lemma G_nbrs_iff p q : In q (nbrs G p) <-> lattice_edge D B p q \/ lattice_edge D B q p.
  Proof. rewrite nbrs_iff. apply G_edges; assumption. Qed.

  Lemma nbrs_in_cand p q : In q (nbrs G p) ->
    (primal_vertex D B p -> In q (cand D 1 p)) /\ (dual_vertex D B p -> In q (cand D 0 p)).
  Proof.
    rewrite G_nbrs_iff. intros H. split; intros Hp; destruct H as [H|H].
    - apply edge_in_cand; assumption.
    - destruct H as (_ & Hd & _). destruct Hp, Hd. lia.
    - destruct H as (Hd & _ & _). destruct Hp, Hd. lia.
    - apply edge_in_cand; assumption.
  Qed.

  Lemma degree_le_4 p : In p (node_list G) -> (length (nbrs G p) <= 4)%nat.
  Proof.
    intros Hp. apply (G_nodes D B HD pol vs Hvs) in Hp.
    assert (Hl : exists b, incl (nbrs G p) (cand D b p) /\ length (cand D b p) = 4%nat).
    { destruct Hp as [Hp|Hp].
      - exists 1. split; [intros q Hq; apply (nbrs_in_cand p q Hq); assumption|].
        unfold cand. rewrite flat_map_moves_length, (proj1 (par_axes_2 p)) by apply Hp. reflexivity.
      - exists 0. split; [intros q Hq; apply (nbrs_in_cand p q Hq); assumption|].
        unfold cand. rewrite flat_map_moves_length, (proj2 (par_axes_2 p)) by apply Hp. reflexivity. }
    destruct Hl as [b [H1 H3]]. rewrite <- H3.
    apply NoDup_incl_length; [apply G_nbrs_NoDup|assumption].
  Qed.

  Lemma degree_periodic p : (forall a, get a B = BPeriodic) ->
    In p (node_list G) -> length (nbrs G p) = 4%nat.
  Proof.
    intros HB Hp. apply (G_nodes D B HD pol vs Hvs) in Hp.
    assert (Hl : exists b, (forall q, In q (nbrs G p) <-> In q (cand D b p)) /\ length (cand D b p) = 4%nat).
    { destruct Hp as [Hp|Hp].
      - exists 1. split; [|unfold cand; rewrite flat_map_moves_length, (proj1 (par_axes_2 p)) by apply Hp; reflexivity].
        intros q; split; [intros Hq; apply (nbrs_in_cand p q Hq); assumption|].
        intros Hq. apply G_nbrs_iff. left. apply (cand_edge p q HB); assumption.
      - exists 0. split; [|unfold cand; rewrite flat_map_moves_length, (proj2 (par_axes_2 p)) by apply Hp; reflexivity].
        intros q; split; [intros Hq; apply (nbrs_in_cand p q Hq); assumption|].
        intros Hq. apply G_nbrs_iff. right. apply (cand_edge p q HB); assumption. }
    destruct Hl as [b [H1 H3]]. rewrite <- H3.
    apply NoDup_same_length; [apply G_nbrs_NoDup|apply cand_NoDup|assumption].
  Qed.

  (* vertex count *)
  Definition cell_six (c : point) : list point :=
    let '(i, j, k) := c in
    [ (2 * i, 2 * j + 1, 2 * k + 1); (2 * i + 1, 2 * j, 2 * k + 1); (2 * i + 1, 2 * j + 1, 2 * k);
      (2 * i + 1, 2 * j, 2 * k); (2 * i, 2 * j + 1, 2 * k); (2 * i, 2 * j, 2 * k + 1) ].

  Lemma product3_NoDup l1 l2 l3 : NoDup l1 -> NoDup l2 -> NoDup l3 -> NoDup (product3 l1 l2 l3).
  Proof.
    intros N1 N2 N3. unfold product3. apply NoDup_flat_map; [assumption| |].
    - intros x _. apply NoDup_flat_map; [assumption| |].
      + intros y _. apply FinFun.Injective_map_NoDup; [|assumption]. intros a b H. congruence.
      + intros y y' b _ _ Hb Hb'. apply in_map_iff in Hb, Hb'.
        destruct Hb as [? [<- _]], Hb' as [? [E _]]. congruence.
    - intros x x' b _ _ Hb Hb'. apply in_flat_map in Hb, Hb'.
      destruct Hb as [? [_ Hb]], Hb' as [? [_ Hb']]. apply in_map_iff in Hb, Hb'.
      destruct Hb as [? [<- _]], Hb' as [? [E _]]. congruence.
  Qed.

  Lemma product3_length l1 l2 l3 :
    length (product3 l1 l2 l3) = (length l1 * length l2 * length l3)%nat.
  Proof.
    unfold product3, point. induction l1 as [|x l1 IH]; cbn [flat_map length]; [reflexivity|].
    rewrite app_length, IH. clear IH.
    assert (H : length (flat_map (fun j => map (fun k => (x, j, k)) l3) l2) = (length l2 * length l3)%nat).
    { induction l2 as [|y l2 IH2]; simpl; [reflexivity|]. rewrite app_length, map_length, IH2. reflexivity. }
    rewrite H. lia.
  Qed.

  Lemma vertex_count : (forall a, get a B = BPeriodic) ->
    Z.of_nat (length (node_list G)) = 6 * get AX D * get AY D * get AZ D.
  Proof.
    intros HB.
    set (cells := rhg_inds D B).
    assert (Hc : forall i j k, In (i, j, k) cells <->
      0 <= i < get AX D /\ 0 <= j < get AY D /\ 0 <= k < get AZ D).
    { intros. unfold cells. rewrite in_rhg_inds, !HB. simpl. lia. }
    pose proof (H2 AX) as Dx; pose proof (H2 AY) as Dy; pose proof (H2 AZ) as Dz.
    assert (Hlen : length (node_list G) = length (flat_map cell_six cells)).
    { apply NoDup_same_length.
      - apply G_NoDup.
      - apply NoDup_flat_map.
        + unfold cells, rhg_inds. apply product3_NoDup; apply NoDup_py_range.
        + intros [[i j] k] _. unfold cell_six.
          repeat (constructor; [simpl; intros H; decompose [or] H; try contradiction;
            match goal with E : (_, _, _) = (_, _, _) |- _ => injection E; lia end|]). constructor.
        + intros [[i j] k] [[i' j'] k'] b _ _ H H'. unfold cell_six in *. simpl in H, H'.
          decompose [or] H; try contradiction; subst b;
          decompose [or] H'; try contradiction;
            match goal with E : (_, _, _) = (_, _, _) |- _ => injection E; clear; intros; first [exfalso; lia | f_equal; [f_equal|]; lia] end.
      - intros [[x y] z]. unfold G. rewrite (G_nodes D B HD pol vs Hvs).
        unfold primal_vertex, dual_vertex, site, nodd, in_range. rewrite in_flat_map. split.
        + intros H. exists (x / 2, y / 2, z / 2).
          assert (Hs : forall a, match get a B with BPrimal => 0 <= co a (x,y,z) <= 2 * get a D - 2
                    | BDual => 1 <= co a (x,y,z) <= 2 * get a D - 1
                    | BPeriodic => 0 <= co a (x,y,z) <= 2 * get a D - 1 end) by (destruct H as [[H _]|[H _]]; exact H).
          pose proof (Hs AX) as Hx; pose proof (Hs AY) as Hy; pose proof (Hs AZ) as Hz.
          rewrite !HB in *. cbn [co get] in *.
          assert (Hn : x mod 2 + y mod 2 + z mod 2 = 2 \/ x mod 2 + y mod 2 + z mod 2 = 1)
            by (destruct H as [[_ H]|[_ H]]; auto). clear H Hs.
          split; [apply Hc; cbn [get co] in *; unfold co in *; cbn [get] in *; lia|].
          assert (Ex : x = 2 * (x / 2) + x mod 2) by lia.
          assert (Ey : y = 2 * (y / 2) + y mod 2) by lia.
          assert (Ez : z = 2 * (z / 2) + z mod 2) by lia.
          assert (Px : x mod 2 = 0 \/ x mod 2 = 1) by lia.
          assert (Py : y mod 2 = 0 \/ y mod 2 = 1) by lia.
          assert (Pz : z mod 2 = 0 \/ z mod 2 = 1) by lia.
          unfold cell_six. set (i := x / 2) in *; set (j := y / 2) in *; set (k := z / 2) in *.
          clearbody i j k.
          destruct Px as [Px|Px], Py as [Py|Py], Pz as [Pz|Pz]; rewrite Px, Py, Pz in *;
            try (exfalso; lia); rewrite Ex, Ey, Ez, ?Z.add_0_r; simpl; tauto.
        + intros [[[i j] k] [Hin Hp]]. apply Hc in Hin.
          cbn [cell_six In] in Hp. decompose [or] Hp; clear Hp; try contradiction;
          match goal with E : (_, _, _) = (_, _, _) |- _ => injection E as <- <- <- end;
            first [ (left; split; [intros a; rewrite HB; destruct a; unfold co; cbn [get] in *; lia|
                             unfold co; cbn [get]; lia])
                  | (right; split; [intros a; rewrite HB; destruct a; unfold co; cbn [get] in *; lia|
                             unfold co; cbn [get]; lia]) ]. }
    rewrite Hlen.
    assert (H6 : forall l, length (flat_map cell_six l) = (6 * length l)%nat).
    { induction l as [|[[i j] k] l IH]; simpl in *; [reflexivity|]. rewrite IH. lia. }
    rewrite H6. unfold cells, rhg_inds. rewrite product3_length, !length_py_range.
    rewrite !HB. simpl rhg_max. rewrite !Nat2Z.inj_mul, !Z2Nat.id by lia. lia.
  Qed.
End Degree.

(* ------------------------------------------------------------------ *)
(* alternating polarity *)

Lemma pow_m1_even n : n mod 2 = 0 -> pow_m1 n = 1.
Proof. unfold pow_m1. intros ->. reflexivity. Qed.
Lemma pow_m1_odd n : n mod 2 = 1 -> pow_m1 n = -1.
Proof. unfold pow_m1. intros ->. reflexivity. Qed.

(* the coordinate read by alternating_polarity for an edge along axis a *)
Definition pol_axis (a : axis) : axis := match a with AX => AY | AY => AZ | AZ => AX end.

Lemma alternating_polarity_axis p q a :
  co a q <> co a p -> (forall b, b <> a -> co b q = co b p) ->
  alternating_polarity (p, q) = Ok (pow_m1 (co (pol_axis a) p)).
Proof.
  destruct p as [[x y] z], q as [[x' y'] z']. intros H1 H2.
  pose proof (H2 AX) as HX; pose proof (H2 AY) as HY; pose proof (H2 AZ) as HZ.
  unfold alternating_polarity, co in *.
  destruct a; cbn [get pol_axis] in *;
    try (rewrite HX by discriminate); try (rewrite HY by discriminate); try (rewrite HZ by discriminate);
    rewrite ?Z.sub_diag; cbn [Z.eqb negb];
    match goal with |- context [negb (?e =? 0)] => destruct (e =? 0) eqn:E; [exfalso; lia|reflexivity] end.
Qed.

Section Polarity.
  Variables (D : dims) (B : bnds).
  Hypothesis HD : dims_ok D B.
  Hypothesis H2 : dims_ge2 D.
  Variable vs : list point.
  Hypothesis Hvs : set_enum (six_body_points D B) vs.
  Let G := rhg_graph D B (Some apol) vs.

  (* the weight of an edge depends only on its axis at p *)
  Lemma weight_axis p q a w :
    In q (moves D a p) -> edge_attr G p q = Some w ->
    eweight w = pow_m1 (co (pol_axis a) p).
  Proof.
    intros Hm Hw. destruct (moves_co D H2 a p q Hm) as [Hne Ho].
    assert (Hpa : pol_axis a <> a) by (destruct a; discriminate).
    assert (H12 : apol (p, q) = pow_m1 (co (pol_axis a) p)).
    { unfold apol. rewrite (alternating_polarity_axis p q a Hne Ho). reflexivity. }
    assert (H21 : apol (q, p) = pow_m1 (co (pol_axis a) p)).
    { unfold apol. rewrite (alternating_polarity_axis q p a); [|congruence|intros; symmetry; auto].
      rewrite Ho by assumption. reflexivity. }
    assert (He : lattice_edge D B p q \/ lattice_edge D B q p).
    { apply (G_edges D B HD (Some apol) vs Hvs). fold G. congruence. }
    destruct He as [He|He].
    - destruct (G_weight D B HD (Some apol) vs Hvs p q w H2 He Hw) as [Ha Hb].
      simpl in Ha, Hb.
      assert (Hd : wrap D B p q \/ ~ wrap D B p q).
      { destruct He as (Hp & Hd & Hst). apply step_split in Hst. destruct Hst as [Hst|Hst]; [|auto].
        right. intros Hwr. eapply unit_not_wrap; eauto. }
      destruct Hd as [Hd|Hd]; [rewrite (Ha Hd)|rewrite (Hb Hd)]; assumption.
    - assert (Hw' : edge_attr G q p = Some w) by (rewrite edge_attr_sym; assumption).
      destruct (G_weight D B HD (Some apol) vs Hvs q p w H2 He Hw') as [Ha Hb].
      simpl in Ha, Hb.
      assert (Hd : wrap D B q p \/ ~ wrap D B q p).
      { destruct He as (Hp & Hd & Hst). apply step_split in Hst. destruct Hst as [Hst|Hst]; [|auto].
        right. intros Hwr. eapply unit_not_wrap; eauto. }
      destruct Hd as [Hd|Hd]; [rewrite (Ha Hd)|rewrite (Hb Hd)]; assumption.
  Qed.

  Definition wt (p q : point) : Z := match edge_attr G p q with Some a => eweight a | None => 0 end.

  (* no call of alternating_polarity on an edge raises, in either direction *)
  Lemma polarity_ok p q a : edge_attr G p q = Some a ->
    alternating_polarity (p, q) = Ok (eweight a) /\ alternating_polarity (q, p) = Ok (eweight a).
  Proof.
    intros Ha.
    assert (He : lattice_edge D B p q \/ lattice_edge D B q p).
    { apply (G_edges D B HD (Some apol) vs Hvs). fold G. congruence. }
    assert (Hm : exists a, In q (moves D a p)).
    { destruct He as [He|He].
      - destruct He as ([Hp _] & [Hq _] & Hst).
        destruct (step_in_moves D B H2 p q Hp Hq Hst) as [a' [H _]]; eauto.
      - destruct He as ([Hp _] & [Hq _] & Hst). apply step_sym in Hst.
        destruct (step_in_moves D B H2 p q Hq Hp Hst) as [a' [H _]]; eauto. }
    destruct Hm as [a' Hm]. rewrite (weight_axis p q a' a Hm Ha).
    destruct (moves_co D H2 a' p q Hm) as [Hne Ho].
    split.
    - apply alternating_polarity_axis; assumption.
    - rewrite (alternating_polarity_axis q p a'); [|congruence|intros; symmetry; auto].
      rewrite Ho; [reflexivity|destruct a'; discriminate].
  Qed.

  Lemma weights_pm1 p q a : edge_attr G p q = Some a -> eweight a = 1 \/ eweight a = -1.
  Proof.
    intros Ha.
    assert (He : lattice_edge D B p q \/ lattice_edge D B q p).
    { apply (G_edges D B HD (Some apol) vs Hvs). fold G. congruence. }
    assert (Hm : exists a, In q (moves D a p)).
    { destruct He as [He|He].
      - destruct He as ([Hp _] & [Hq _] & Hst).
        destruct (step_in_moves D B H2 p q Hp Hq Hst) as [a' [H _]]; eauto.
      - destruct He as ([Hp _] & [Hq _] & Hst). apply step_sym in Hst.
        destruct (step_in_moves D B H2 p q Hq Hp Hst) as [a' [H _]]; eauto. }
    destruct Hm as [a' Hm]. rewrite (weight_axis p q a' a Hm Ha).
    unfold pow_m1. destruct (_ =? 0); auto.
  Qed.

  (* the two axes of a vertex read coordinates of different parity *)
  Lemma two_axes p b : (nodd p = 2 /\ b = 1) \/ (nodd p = 1 /\ b = 0) ->
    exists a a', (forall c, In c (par_axes b p) -> c = a \/ c = a') /\
      pow_m1 (co (pol_axis a) p) = 1 /\ pow_m1 (co (pol_axis a') p) = -1.
  Proof.
    destruct p as [[x y] z]. unfold nodd, co. cbn [get]. intros H.
    assert (Px : x mod 2 = 0 \/ x mod 2 = 1) by lia.
    assert (Py : y mod 2 = 0 \/ y mod 2 = 1) by lia.
    assert (Pz : z mod 2 = 0 \/ z mod 2 = 1) by lia.
    unfold pow_m1.
    Local Ltac fin := cbn [pol_axis get]; split;
      [ intros c; rewrite in_par_axes; unfold co; destruct c; cbn [get]; intros; auto; exfalso; lia
      | split; match goal with E : ?e mod 2 = _ |- context [?e mod 2] => rewrite E; reflexivity end ].
    destruct Px as [Px|Px], Py as [Py|Py], Pz as [Pz|Pz]; rewrite Px, Py, Pz in H;
      destruct H as [[H ->]|[H ->]]; try (exfalso; lia).
    all: first
      [ (exists AX, AY; solve [fin]) | (exists AX, AZ; solve [fin]) | (exists AY, AX; solve [fin])
      | (exists AY, AZ; solve [fin]) | (exists AZ, AX; solve [fin]) | (exists AZ, AY; solve [fin]) ].
  Qed.

  Lemma filter_half (f : Z -> bool) p :
    In p (node_list G) -> (f 1 = false \/ f (-1) = false) ->
    (length (filter (fun q => f (wt p q)) (nbrs G p)) <= 2)%nat.
  Proof.
    intros Hp Hf. apply (G_nodes D B HD (Some apol) vs Hvs) in Hp.
    assert (Hl : exists b, incl (nbrs G p) (cand D b p) /\ ((nodd p = 2 /\ b = 1) \/ (nodd p = 1 /\ b = 0))).
    { destruct Hp as [Hp|Hp]; [exists 1|exists 0]; (split; [|destruct Hp; auto]);
        intros q Hq; apply (nbrs_in_cand D B HD H2 (Some apol) vs Hvs p q Hq); assumption. }
    destruct Hl as [b [Hincl Hb]].
    destruct (two_axes p b Hb) as (a & a' & Hax & Ha & Ha').
    assert (Hsub : exists c, incl (filter (fun q => f (wt p q)) (nbrs G p)) (moves D c p)).
    { destruct Hf as [Hf|Hf]; [exists a'|exists a]; intros q Hq; apply filter_In in Hq; destruct Hq as [Hq Hfq];
      pose proof (Hincl q Hq) as Hc; unfold cand in Hc; apply in_flat_map in Hc; destruct Hc as [c [Hc Hm]];
      destruct (Hax c Hc) as [->| ->]; try assumption; exfalso;
      unfold wt in Hfq; destruct (edge_attr G p q) as [w|] eqn:E; try (apply nbrs_iff in Hq; congruence);
      rewrite (weight_axis p q _ w Hm E), ?Ha, ?Ha' in Hfq; congruence. }
    destruct Hsub as [c Hsub].
    change 2%nat with (length (moves D c p)). apply NoDup_incl_length; [|assumption].
    apply NoDup_filter. apply (G_nbrs_NoDup D B (Some apol) vs).
  Qed.

  Lemma filter_count2 (f g : point -> bool) l :
    (forall x, In x l -> f x = negb (g x)) -> (length (filter f l) + length (filter g l) = length l)%nat.
  Proof.
    induction l as [|x l IH]; simpl; intros H; [reflexivity|].
    rewrite (H x) by auto. destruct (g x); simpl; rewrite <- IH by auto; lia.
  Qed.

  Lemma polarity_balance p :
    In p (node_list G) -> length (nbrs G p) = 4%nat ->
    length (filter (fun q => wt p q =? 1) (nbrs G p)) = 2%nat /\
    length (filter (fun q => wt p q =? -1) (nbrs G p)) = 2%nat.
  Proof.
    intros Hp H4.
    pose proof (filter_half (fun w => w =? 1) p Hp (or_intror eq_refl)) as L1.
    pose proof (filter_half (fun w => w =? -1) p Hp (or_introl eq_refl)) as L2.
    assert (Hs : Nat.add (length (filter (fun q => wt p q =? 1) (nbrs G p)))
                 (length (filter (fun q => wt p q =? -1) (nbrs G p))) = 4%nat).
    { rewrite <- H4. apply filter_count2. intros q Hq.
      unfold wt. destruct (edge_attr G p q) as [w|] eqn:E; [|apply nbrs_iff in Hq; congruence].
      destruct (weights_pm1 p q w E) as [->| ->]; reflexivity. }
    lia.
  Qed.
End Polarity.

(* ------------------------------------------------------------------ *)
(* packaged for PropsRhg.v *)

Lemma rhg_exact_lattice :
  forall (D : dims) (B : bnds) (pol : option (point * point -> Z)) (vs : list point),
  dims_ok D B -> set_enum (six_body_points D B) vs ->
  let G := rhg_graph D B pol vs in
  NoDup (node_list G) /\
  (forall p, In p (node_list G) <-> primal_vertex D B p \/ dual_vertex D B p) /\
  (forall p, primal_vertex D B p -> node_type G p = Some Primal) /\
  (forall p, dual_vertex D B p -> node_type G p = Some Dual) /\
  (forall p q, edge_attr G p q <> None <-> lattice_edge D B p q \/ lattice_edge D B q p) /\
  (forall p q a, edge_attr G p q = Some a -> (eperiodic a = true <-> wrap D B p q)) /\
  (pol = None -> forall p q a, edge_attr G p q = Some a -> eweight a = 1).
Proof.
  intros D B pol vs HD Hvs G.
  split; [apply G_NoDup|]. split; [intros p; apply G_nodes; assumption|].
  split; [intros p Hp; unfold G; rewrite (G_type D B HD pol vs Hvs p (or_introl Hp));
          unfold ntyp_of; rewrite (proj2 Hp); reflexivity|].
  split; [intros p Hp; unfold G; rewrite (G_type D B HD pol vs Hvs p (or_intror Hp));
          unfold ntyp_of; rewrite (proj2 Hp); reflexivity|].
  split; [intros p q; apply G_edges; assumption|].
  split; [intros p q a; apply G_periodic; assumption|].
  intros -> p q a Ha. unfold G, rhg_graph in Ha. eapply fold_weight; [| |exact Ha].
  - intros u v w per Hin _. apply (ops_iff D B HD None vs Hvs) in Hin.
    destruct Hin as (v' & nb & _ & _ & _ & [H|[H|[H|H]]]); try discriminate.
    + injection H as -> -> -> ->. reflexivity.
    + destruct H as (ind & _ & _ & [H|H]); [discriminate|]. injection H as -> -> -> ->. reflexivity.
  - intros a' Ha'. discriminate.
Qed.

Lemma periodic_size_and_degree :
  forall (D : dims) (pol : option (point * point -> Z)) (vs : list point),
  let B := (BPeriodic, BPeriodic, BPeriodic) in
  dims_ge2 D -> set_enum (six_body_points D B) vs ->
  let G := rhg_graph D B pol vs in
  Z.of_nat (length (node_list G)) = 6 * get AX D * get AY D * get AZ D /\
  forall p, In p (node_list G) ->
    length (nbrs G p) = 4%nat /\ NoDup (nbrs G p) /\
    forall q, In q (nbrs G p) <-> edge_attr G p q <> None.
Proof.
  intros D pol vs B H2 Hvs G.
  assert (HD : dims_ok D B) by (intros a; specialize (H2 a); split; [lia|intros _; assumption]).
  assert (HB : forall a, get a B = BPeriodic) by (intros []; reflexivity).
  split; [apply vertex_count; assumption|].
  intros p Hp. split; [apply (degree_periodic D B); assumption|].
  split; [apply (G_nbrs_NoDup D B pol vs)|]. intros q. apply nbrs_iff.
Qed.

Lemma polarity_balanced :
  forall (D : dims) (B : bnds) (vs : list point),
  dims_ok D B -> dims_ge2 D -> set_enum (six_body_points D B) vs ->
  let G := rhg_graph D B (Some apol) vs in
  (forall p q a, edge_attr G p q = Some a ->
     alternating_polarity (p, q) = Ok (eweight a) /\
     (eweight a = 1 \/ eweight a = -1)) /\
  (forall p, In p (node_list G) ->
     length (nbrs G p) = 4%nat \/ B = (BPeriodic, BPeriodic, BPeriodic) ->
     length (filter (has_weight G 1 p) (nbrs G p)) = 2%nat /\
     length (filter (has_weight G (-1) p) (nbrs G p)) = 2%nat).
Proof.
  intros D B vs HD H2 Hvs G. split.
  - intros p q a Ha. split.
    + apply (polarity_ok D B HD H2 vs Hvs p q a Ha).
    + apply (weights_pm1 D B HD H2 vs Hvs p q a Ha).
  - intros p Hp H4.
    assert (H4' : length (nbrs G p) = 4%nat).
    { destruct H4 as [H4| ->]; [assumption|].
      apply (degree_periodic D (BPeriodic, BPeriodic, BPeriodic) HD H2); auto. intros []; reflexivity. }
    destruct (polarity_balance D B HD H2 vs Hvs p Hp H4') as [E1 E2].
    assert (Hf : forall w, w <> 0 -> filter (has_weight G w p) (nbrs G p) =
                 filter (fun q => wt D B vs p q =? w) (nbrs G p)).
    { intros w Hw. apply filter_ext_in. intros q Hq. unfold has_weight, wt. fold G.
      destruct (edge_attr G p q); [reflexivity|]. destruct w; simpl; congruence. }
    rewrite !Hf by lia. auto.
Qed.
