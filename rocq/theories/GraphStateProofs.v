(* GraphStateProofs.v: lemmas for C45. *)
From Coq Require Import String Reals Lra Psatz.
From Verif Require Import Base SimModel WeightModel PropsWeight GraphStateModel GraphStateSpec.
Open Scope Z_scope.

(* ---------- building a graph from a list of edges ---------- *)
Definition build (ops : list (rpoint * rpoint)) : rgraph := fold_left (fun g e => add_edge g (fst e) (snd e)) ops empty_rgraph.

Lemma put_node_In l p x : In x (put_node l p) <-> In x l \/ x = p.
Proof. unfold put_node. destruct (in_dec rpoint_eq_dec p l) as [H|H]; [split; [tauto|intros [A | -> ]; assumption]|]. rewrite in_app_iff. cbn [In]. split; intros [A|A]; auto. destruct A as [A|[]]; auto. Qed.
Lemma put_node_NoDup l p : NoDup l -> NoDup (put_node l p).
Proof.
  intros H. unfold put_node. destruct (in_dec rpoint_eq_dec p l) as [Hi|Hi]; [exact H|]. apply NoDup_app_intro; [exact H|repeat constructor; intros []|]. intros x Hx [<-|[]]. contradiction.
Qed.

Definition good_graph (g : rgraph) (ops : list (rpoint * rpoint)) : Prop :=
  NoDup (rg_nodes g) /\ (forall x, In x (rg_nodes g) <-> exists e, In e ops /\ (x = fst e \/ x = snd e)) /\
  (forall p q, adjacent g p q <-> In (p, q) ops \/ In (q, p) ops) /\
  NoDup (rg_edges g) /\ (forall p q, In (p, q) (rg_edges g) -> ~ In (q, p) (rg_edges g)).

Lemma add_edge_good g ops p q : good_graph g ops -> p <> q -> good_graph (add_edge g p q) (ops ++ [(p, q)]).
Proof.
  intros (N & H & A & E & S) Hpq. unfold add_edge, good_graph, adjacent in *. cbn [rg_nodes rg_edges].
  split; [apply put_node_NoDup, put_node_NoDup, N|]. split; [|].
  { intros x. rewrite !put_node_In, H. split.
    - intros [[(e & He & Hx)|Hx]|Hx].
      + exists e. split; [apply in_app_iff; left; exact He|exact Hx].
      + exists (p, q). split; [apply in_app_iff; right; left; reflexivity|left; exact Hx].
      + exists (p, q). split; [apply in_app_iff; right; left; reflexivity|right; exact Hx].
    - intros (e & He & Hx). apply in_app_iff in He. destruct He as [He|[<-|[]]]; [left; left; exists e; auto|]. cbn [fst snd] in Hx. tauto. }
  assert (Hops : forall a b, In (a, b) (ops ++ [(p, q)]) <-> In (a, b) ops \/ (a = p /\ b = q)).
  { intros a b. rewrite in_app_iff. cbn [In]. split; intros [X|X]; auto; [destruct X as [X|[]]; injection X as <- <-; auto|destruct X as [-> ->]; auto]. }
  destruct (in_dec pair_eq_dec (p, q) (rg_edges g)) as [I1|I1]; [|destruct (in_dec pair_eq_dec (q, p) (rg_edges g)) as [I2|I2]].
  - split; [|split; [exact E|exact S]]. intros a b. rewrite A, !Hops. split; [tauto|]. assert (Hp : In (p, q) ops \/ In (q, p) ops) by (apply A; left; exact I1).
    intros [[X|[-> ->]]|[X|[-> ->]]]; tauto.
  - split; [|split; [exact E|exact S]]. intros a b. rewrite A, !Hops. split; [tauto|]. assert (Hp : In (p, q) ops \/ In (q, p) ops) by (apply A; right; exact I2).
    intros [[X|[-> ->]]|[X|[-> ->]]]; tauto.
  - assert (Hed : forall a b, In (a, b) (rg_edges g ++ [(p, q)]) <-> In (a, b) (rg_edges g) \/ (a = p /\ b = q)).
    { intros a b. rewrite in_app_iff. cbn [In]. split; intros [X|X]; auto; [destruct X as [X|[]]; injection X as <- <-; auto|destruct X as [-> ->]; auto]. }
    split; [|split].
    + intros a b. rewrite !Hed, !Hops. specialize (A a b). tauto.
    + apply NoDup_app_intro; [exact E|repeat constructor; intros []|]. intros x Hx [<-|[]]. contradiction.
    + intros a b. rewrite !Hed. intros [X|[-> ->]] [Y|[Y1 Y2]]; [apply (S a b); assumption|subst; contradiction|contradiction|subst; contradiction].
Qed.
Lemma build_good ops : (forall p q, In (p, q) ops -> p <> q) -> good_graph (build ops) ops.
Proof.
  intros H. unfold build.
  assert (G : forall l g pre, good_graph g pre -> (forall p q, In (p, q) l -> p <> q) -> good_graph (fold_left (fun g e => add_edge g (fst e) (snd e)) l g) (pre ++ l)).
  { induction l as [|[p q] l IH]; intros g pre Hg Hl; cbn [fold_left]; [rewrite app_nil_r; exact Hg|]. replace (pre ++ (p, q) :: l) with ((pre ++ [(p, q)]) ++ l) by (rewrite <- app_assoc; reflexivity).
    apply IH; [apply add_edge_good; [exact Hg|apply Hl; left; reflexivity]|intros; apply Hl; right; assumption]. }
  apply (G ops empty_rgraph []); [|exact H]. unfold good_graph, adjacent. cbn. repeat split; try constructor; try tauto. intros (e & [] & _).
Qed.

Lemma represents_build n f (L : list (Z * Z)) edge : 0 <= n ->
  (forall i j, 0 <= i < n -> 0 <= j < n -> f i = f j -> i = j) ->
  (forall i j, In (i, j) L -> 0 <= i < n /\ 0 <= j < n /\ i <> j) ->
  (forall i, 0 <= i < n -> exists j, In (i, j) L \/ In (j, i) L) ->
  (forall i j, 0 <= i < n -> 0 <= j < n -> (edge i j <-> In (i, j) L \/ In (j, i) L)) ->
  represents (build (map (fun e => (f (fst e), f (snd e))) L)) n f edge.
Proof.
  intros Hn Hinj HL Hcov Hedge. set (ops := map (fun e => (f (fst e), f (snd e))) L).
  assert (Hops : forall p q, In (p, q) ops <-> exists i j, In (i, j) L /\ f i = p /\ f j = q).
  { intros p q. unfold ops. rewrite in_map_iff. split.
    - intros ([i j] & He & Hin). cbn [fst snd] in He. injection He as <- <-. exists i, j. auto.
    - intros (i & j & Hin & <- & <-). exists (i, j). auto. }
  destruct (build_good ops) as (N & H & A & E & S).
  { intros p q Hin. apply Hops in Hin. destruct Hin as (i & j & Hin & <- & <-). destruct (HL i j Hin) as (Hi & Hj & Hnij). intros He. apply Hnij, Hinj; assumption. }
  assert (Hnodes : forall p, In p (rg_nodes (build ops)) <-> exists i, 0 <= i < n /\ f i = p).
  { intros p. rewrite H. split.
    - intros ([a b] & Hin & Hp). apply Hops in Hin. destruct Hin as (i & j & Hin & <- & <-). destruct (HL i j Hin) as (Hi & Hj & _). cbn [fst snd] in Hp. destruct Hp as [-> | -> ]; eauto.
    - intros (i & Hi & <-). destruct (Hcov i Hi) as (j & [Hj|Hj]); [exists (f i, f j)|exists (f j, f i)]; (split; [apply Hops; eauto|cbn [fst snd]; auto]). }
  split; [exact N|]. split; [|split; [exact Hnodes|split; [exact Hinj|split; [|split; assumption]]]].
  - assert (ND : NoDup (map f (py_range 0 n))).
      { assert (G : forall l, (forall x, In x l -> 0 <= x < n) -> NoDup l -> NoDup (map f l)).
        { induction l as [|x l IH]; intros Hl Nl; [constructor|]. apply NoDup_cons_iff in Nl. destruct Nl as [Nx Nl]. cbn [map]. constructor.
          - rewrite in_map_iff. intros (y & Hy & Hin). apply Nx. replace x with y; [exact Hin|]. apply Hinj; [apply Hl; right; exact Hin|apply Hl; left; reflexivity|exact Hy].
          - apply IH; [intros; apply Hl; right; assumption|exact Nl]. }
        apply G; [intros x Hx; apply in_py_range in Hx; exact Hx|apply NoDup_py_range]. }
      assert (Hle1 : (List.length (rg_nodes (build ops)) <= List.length (map f (py_range 0 n)))%nat).
      { apply NoDup_incl_length; [exact N|]. intros p Hp. apply Hnodes in Hp. destruct Hp as (i & Hi & <-). apply in_map, in_py_range, Hi. }
      assert (Hle2 : (List.length (map f (py_range 0 n)) <= List.length (rg_nodes (build ops)))%nat).
      { apply NoDup_incl_length; [exact ND|]. intros p Hp. apply in_map_iff in Hp. destruct Hp as (i & <- & Hi). apply in_py_range in Hi. apply Hnodes. eauto. }
      rewrite map_length, length_py_range in Hle1, Hle2. clear - Hle1 Hle2 Hn. lia.
  - intros p q. rewrite A, !Hops. split.
    + intros [(i & j & Hin & <- & <-)|(i & j & Hin & <- & <-)]; destruct (HL i j Hin) as (Hi & Hj & _).
      * exists i, j. repeat (split; [assumption|]). split; [apply Hedge; auto|auto].
      * exists j, i. repeat (split; [assumption|]). split; [apply Hedge; auto|auto].
    + intros (i & j & Hi & Hj & He & <- & <-). apply (Hedge i j Hi Hj) in He. destruct He as [He|He]; [left|right]; eauto.
Qed.

(* ---------- trigonometry ---------- *)
Open Scope R_scope.
Lemma chord a b : (cos a - cos b)² + (sin a - sin b)² = 4 * (sin ((a - b) / 2))².
Proof.
  assert (H : cos (a - b) = 1 - 2 * (sin ((a - b) / 2))²).
  { replace (a - b) with (2 * ((a - b) / 2)) at 1 by field. rewrite cos_2a_sin. unfold Rsqr. ring. }
  rewrite cos_minus in H. pose proof (sin2_cos2 a) as Ha. pose proof (sin2_cos2 b) as Hb. unfold Rsqr in *. nra.
Qed.
Lemma PI_gt_3 : 3 < PI.
Proof. pose proof PI2_3_2. lra. Qed.

(* pi between 3.141591 and 3.1416, from the sign of the cosine *)
Lemma cos_below a : 0 <= a <= 2 -> 1 - a ^ 2 / 2 + a ^ 4 / 24 - a ^ 6 / 720 + a ^ 8 / 40320 - a ^ 10 / 3628800 <= cos a <= 1 - a ^ 2 / 2 + a ^ 4 / 24 - a ^ 6 / 720 + a ^ 8 / 40320 - a ^ 10 / 3628800 + a ^ 12 / 479001600.
Proof.
  intros H. assert (F : forall k, INR (fact k) = IZR (Z.of_nat (fact k))) by (intros; apply INR_IZR_INZ).
  assert (F0 : INR (fact 0) = 1) by (rewrite F; reflexivity). assert (F2 : INR (fact 2) = 2) by (rewrite F; reflexivity).
  assert (F4 : INR (fact 4) = 24) by (rewrite F; reflexivity). assert (F6 : INR (fact 6) = 720) by (rewrite F; reflexivity).
  assert (F8 : INR (fact 8) = 40320).
  { rewrite (fact_simpl 7), (fact_simpl 6), !mult_INR, F6. change (INR 8) with (1+1+1+1+1+1+1+1). change (INR 7) with (1+1+1+1+1+1+1). lra. }
  assert (F10 : INR (fact 10) = 3628800).
  { rewrite (fact_simpl 9), (fact_simpl 8), !mult_INR, F8, (INR_IZR_INZ 10), (INR_IZR_INZ 9). cbn [Z.of_nat Pos.of_succ_nat Pos.succ]. lra. }
  assert (F12 : INR (fact 12) = 479001600).
  { rewrite (fact_simpl 11), (fact_simpl 10), !mult_INR, F10, (INR_IZR_INZ 12), (INR_IZR_INZ 11). cbn [Z.of_nat Pos.of_succ_nat Pos.succ]. lra. }
  destruct (pre_cos_bound a 2 ltac:(lra) ltac:(lra)) as [L U].
  unfold cos_approx, cos_term in L, U. cbn [sum_f_R0 Nat.mul Nat.add] in L, U. rewrite ?F0, ?F2, ?F4, ?F6, ?F8 in L, U.
  rewrite F10 in L. rewrite F10, F12 in U. clear - L U.
  split; [refine (Rle_trans _ _ _ _ L)|refine (Rle_trans _ _ _ U _)]; apply Req_le; cbn [pow]; lra.
Qed.
Lemma PI_bounds : 3141591 / 1000000 < PI < 31416 / 10000.
Proof.
  pose proof PI_gt_3 as HP. pose proof PI_4 as HP4. split.
  - apply Rnot_le_lt. intros H. assert (C : cos (15707955 / 10000000) <= 0) by (rewrite <- cos_PI2; apply cos_decr_1; lra).
    destruct (cos_below (15707955 / 10000000) ltac:(lra)) as [L _]. clear - L C. cbn [pow] in L. lra.
  - apply Rnot_le_lt. intros H. assert (C : 0 <= cos (15708 / 10000)) by (rewrite <- cos_PI2; apply cos_decr_1; lra).
    destruct (cos_below (15708 / 10000) ltac:(lra)) as [_ U]. clear - U C. cbn [pow] in U. lra.
Qed.

Lemma sin_cubic x : 0 <= x <= 1 -> x - x ^ 3 / 6 <= sin x.
Proof.
  intros [H0 H1]. destruct (pre_sin_bound x 0 H0 ltac:(lra)) as [H _]. refine (Rle_trans _ _ _ _ H).
  unfold sin_approx, sin_term. cbn [sum_f_R0 Nat.mul Nat.add].
  replace (INR (fact 1)) with 1 by (rewrite INR_IZR_INZ; reflexivity). replace (INR (fact 3)) with 6 by (rewrite INR_IZR_INZ; reflexivity). apply Req_le. field.
Qed.

Lemma turn_half i j n : (0 < n)%Z -> (turn i n - turn j n) / 2 = PI * IZR (i - j) / IZR n.
Proof. intros Hn. unfold turn. rewrite minus_IZR. assert (0 < IZR n) by (apply IZR_lt; exact Hn). field. lra. Qed.

Lemma frac_bounds k n : (0 < k < n)%Z -> 0 < PI / IZR n /\ PI / IZR n <= PI * IZR k / IZR n <= PI - PI / IZR n.
Proof.
  intros [Hk Hn]. assert (H1 : 1 <= IZR k) by (apply IZR_le; lia). assert (H2 : IZR k + 1 <= IZR n) by (rewrite <- plus_IZR; apply IZR_le; lia).
  pose proof PI_gt_3 as HP. assert (Hi : 0 < / IZR n) by (apply Rinv_0_lt_compat; lra). unfold Rdiv. split; [apply Rmult_lt_0_compat; lra|]. split; [apply Rmult_le_compat_r; [lra|nra]|].
  assert (Hm : IZR n * / IZR n = 1) by (apply Rinv_r; lra).
  replace (PI - PI * / IZR n) with (PI * (IZR n - 1) * / IZR n) by (replace PI with (PI * (IZR n * / IZR n)) at 2 by (rewrite Hm; ring); ring). 
  apply Rmult_le_compat_r; [lra|]. apply Rmult_le_compat_l; lra.
Qed.

(* sin (pi k / n) for 0 < k < n is at least sin (pi / n) *)
Lemma sin_frac k n : (0 < k < n)%Z -> sin (PI / IZR n) <= sin (PI * IZR k / IZR n).
Proof.
  intros H. destruct (frac_bounds k n H) as (A & B & C). pose proof PI_gt_3 as HP.
  assert (Hh : PI / IZR n <= PI / 2) by lra.
  destruct (Rle_dec (PI * IZR k / IZR n) (PI / 2)) as [D|D].
  - apply sin_incr_1; lra.
  - rewrite <- (sin_PI_x (PI * IZR k / IZR n)). apply sin_incr_1; lra.
Qed.

Lemma sin_step n : (2 <= n <= 444288)%Z -> 70710679 / 10000000000000 < sin (PI / IZR n).
Proof.
  intros [Hn Hu]. pose proof PI_bounds as HP. assert (H2 : 2 <= IZR n) by (apply IZR_le; exact Hn). assert (Hu' : IZR n <= 444288) by (apply IZR_le; exact Hu).
  assert (Hi : 0 < / IZR n <= / 2) by (split; [apply Rinv_0_lt_compat; lra|apply Rinv_le_contravar; lra]).
  assert (Hl : / 444288 <= / IZR n) by (apply Rinv_le_contravar; lra).
  apply (Rlt_le_trans _ (sin (PI / 444288))).
  - set (x := PI / 444288). assert (Hx : 70710685 / 10000000000000 <= x <= 8 / 1000000) by (unfold x; lra).
    apply (Rlt_le_trans _ (x - x ^ 3 / 6)); [|apply sin_cubic; lra]. assert (x * x <= 8 / 1000000 * (8 / 1000000)) by nra. simpl (x ^ 3). nra.
  - apply sin_incr_1; unfold Rdiv; nra.
Qed.

(* distinct points on the circle stay distinct, exactly ... *)
Lemma circle_inj n i j : (0 <= i < n)%Z -> (0 <= j < n)%Z -> on_circle (turn i n) = on_circle (turn j n) -> i = j.
Proof.
  assert (W : forall i j, (0 <= j < i)%Z -> (i < n)%Z -> on_circle (turn i n) <> on_circle (turn j n)).
  { clear. intros i j Hj Hi E. unfold on_circle in E. injection E as E1 E2.
    pose proof (chord (turn i n) (turn j n)) as H. rewrite E1, E2, turn_half in H by lia.
    assert (Hs : 0 < sin (PI * IZR (i - j) / IZR n)).
    { destruct (frac_bounds (i - j) n ltac:(lia)) as (A & B & C). apply sin_gt_0; lra. }
    unfold Rsqr in H. nra. }
  intros Hi Hj E. destruct (Z.lt_trichotomy i j) as [L|[L|L]]; [|exact L|]; exfalso.
  - apply (W j i); [lia|lia|symmetry; exact E].
  - apply (W i j); [lia|lia|exact E].
Qed.
Lemma round5_near x : Rabs (x - round5 x) <= / 200000.
Proof.
  unfold round5. pose proof (round_even_near (x * 100000)) as H. set (k := IZR (round_even (x * 100000))) in *.
  replace (x - k / 100000) with ((x * 100000 - k) * / 100000) by field. rewrite Rabs_mult, (Rabs_right (/ 100000)) by lra. lra.
Qed.
(* ... and after rounding, up to n = 444288 *)
Lemma rounded_inj n i j : (n <= 444288)%Z -> (0 <= i < n)%Z -> (0 <= j < n)%Z -> rounded (turn i n) = rounded (turn j n) -> i = j.
Proof.
  intros Hn.
  assert (W : forall i j, (0 <= j < i)%Z -> (i < n)%Z -> rounded (turn i n) <> rounded (turn j n)).
  { clear i j. intros i j Hj Hi E. unfold rounded in E. injection E as E1 E2.
    assert (Hc : Rabs (cos (turn i n) - cos (turn j n)) <= / 100000).
    { pose proof (round5_near (cos (turn i n))) as A. pose proof (round5_near (cos (turn j n))) as B. rewrite E1 in A. revert A B. unfold Rabs. repeat destruct Rcase_abs; lra. }
    assert (Hs : Rabs (sin (turn i n) - sin (turn j n)) <= / 100000).
    { pose proof (round5_near (sin (turn i n))) as A. pose proof (round5_near (sin (turn j n))) as B. rewrite E2 in A. revert A B. unfold Rabs. repeat destruct Rcase_abs; lra. }
    pose proof (chord (turn i n) (turn j n)) as H. rewrite turn_half in H by lia.
    assert (Hk : 70710679 / 10000000000000 < sin (PI * IZR (i - j) / IZR n)).
    { apply (Rlt_le_trans _ _ _ (sin_step n ltac:(lia))). apply sin_frac. lia. }
    set (a := cos (turn i n) - cos (turn j n)) in *. set (b := sin (turn i n) - sin (turn j n)) in *. set (c := sin (PI * IZR (i - j) / IZR n)) in *.
    assert (Ha : a * a <= / 100000 * / 100000) by (revert Hc; unfold Rabs; destruct Rcase_abs; nra).
    assert (Hb : b * b <= / 100000 * / 100000) by (revert Hs; unfold Rabs; destruct Rcase_abs; nra).
    assert (Hcc : 70710679 / 10000000000000 * (70710679 / 10000000000000) < c * c) by nra.
    unfold Rsqr in H. lra. }
  intros Hi Hj E. destruct (Z.lt_trichotomy i j) as [L|[L|L]]; [|exact L|]; exfalso.
  - apply (W j i); [lia|lia|symmetry; exact E].
  - apply (W i j); [lia|lia|exact E].
Qed.

Lemma round5_one x : Rabs (x - 1) < / 200000 -> round5 x = 1.
Proof.
  intros H. unfold round5. replace (round_even (x * 100000)) with 100000%Z; [lra|].
  pose proof (round_even_near (x * 100000)) as N. set (k := round_even (x * 100000)) in *.
  assert (Hk : (99999 < k < 100001)%Z).
  { assert (Hb : Rabs (x * 100000 - 100000) < / 2) by (replace (x * 100000 - 100000) with ((x - 1) * 100000) by ring; rewrite Rabs_mult, (Rabs_right 100000) by lra; lra). 
    assert (99999 < IZR k < 100001) by (revert N Hb; unfold Rabs; repeat destruct Rcase_abs; lra). split; apply lt_IZR; lra. }
  lia.
Qed.

(* from n = 630000 on two of the points 0, ..., 317 coincide: their x coordinates are rounded to 1, their y coordinates to one of
   0, 0.00001, ..., 0.00316 *)
Lemma pigeonhole (f : nat -> Z) m : (forall k, (k <= m)%nat -> (0 <= f k < Z.of_nat m)%Z) -> exists i j, (i < j <= m)%nat /\ f i = f j.
Proof.
  intros H. destruct (ListDec.NoDup_dec Z.eq_dec (map f (seq 0 (S m)))) as [N|N].
  - exfalso. assert (L : (List.length (map f (seq 0 (S m))) <= List.length (py_range 0 (Z.of_nat m)))%nat).
    { apply NoDup_incl_length; [exact N|]. intros x Hx. apply in_map_iff in Hx. destruct Hx as (k & <- & Hk). apply in_seq in Hk. apply in_py_range. apply H. lia. }
    rewrite map_length, seq_length, length_py_range in L. lia.
  - assert (D : forall l, ~ NoDup (map f l) -> NoDup l -> exists i j, In i l /\ In j l /\ i <> j /\ f i = f j).
    { induction l as [|x l IH]; intros Hd Hl; [exfalso; apply Hd; constructor|]. apply NoDup_cons_iff in Hl. destruct Hl as [Hx Hl].
      destruct (in_dec Z.eq_dec (f x) (map f l)) as [I|I].
      - apply in_map_iff in I. destruct I as (y & E & Hy). exists x, y. split; [left; reflexivity|]. split; [right; exact Hy|]. split; [intros ->; contradiction|symmetry; exact E].
      - destruct IH as (i & j & Hi & Hj & Hn & E); [|exact Hl|exists i, j; cbn [In]; auto 6]. intros Hc. apply Hd. cbn [map]. constructor; assumption. }
    destruct (D (seq 0 (S m)) N (seq_NoDup _ _)) as (i & j & Hi & Hj & Hn & E). apply in_seq in Hi, Hj.
    destruct (Nat.lt_total i j) as [L|[L|L]]; [exists i, j; split; [lia|exact E]|contradiction|exists j, i; split; [lia|symmetry; exact E]].
Qed.
Lemma rounded_collision n : (630000 <= n)%Z -> exists i j, (0 <= i < j)%Z /\ (j < n)%Z /\ rounded (turn j n) = rounded (turn i n).
Proof.
  intros Hn. assert (HN : 630000 <= IZR n) by (apply IZR_le; exact Hn). pose proof PI_bounds as HP.
  assert (Hi : 0 < / IZR n <= / 630000) by (split; [apply Rinv_0_lt_compat; lra|apply Rinv_le_contravar; lra]).
  set (f := fun k : nat => round_even (sin (turn (Z.of_nat k) n) * 100000)).
  assert (Ht : forall k, (k <= 317)%nat -> 0 <= turn (Z.of_nat k) n <= 31617 / 10000000).
  { intros k Hk. assert (Hk' : 0 <= IZR (Z.of_nat k) <= 317) by (split; apply IZR_le; lia). unfold turn, Rdiv. set (z := IZR (Z.of_nat k)) in *. assert (Hz : 0 <= PI * z <= 31416 / 10000 * 317) by (split; [apply Rmult_le_pos; lra|apply Rmult_le_compat; lra]).
    split; [apply Rmult_le_pos; lra|].
    apply (Rle_trans _ (2 * (31416 / 10000) * 317 * / 630000)); [|lra]. apply Rmult_le_compat; lra. }
  assert (Hs : forall k, (k <= 317)%nat -> 0 <= sin (turn (Z.of_nat k) n) <= turn (Z.of_nat k) n).
  { intros k Hk. specialize (Ht k Hk). split; [apply sin_ge_0; lra|]. destruct (Req_dec (turn (Z.of_nat k) n) 0) as [->|Hz]; [rewrite sin_0; lra|]. left. apply sin_lt_x. lra. }
  destruct (pigeonhole f 317) as (i & j & Hij & E).
  { intros k Hk. pose proof (Ht k Hk) as T. pose proof (Hs k Hk) as S. unfold f. set (y := sin (turn (Z.of_nat k) n) * 100000) in *. assert (Hy : 0 <= y <= 31617 / 100) by (unfold y; lra).
    pose proof (round_even_near y) as N. set (r := round_even y) in *. assert (Hr : -1 < IZR r < 317) by (revert N; unfold Rabs; destruct Rcase_abs; lra).
    destruct Hr as [R1 R2]. apply (lt_IZR (-1)) in R1. apply (lt_IZR r 317) in R2. lia. }
  exists (Z.of_nat i), (Z.of_nat j). split; [lia|]. split; [lia|]. unfold rounded. f_equal. f_equal.
  - assert (Hc : forall k, (k <= 317)%nat -> round5 (cos (turn (Z.of_nat k) n)) = 1).
    { intros k Hk. apply round5_one. pose proof (Ht k Hk) as T. pose proof (Hs k Hk) as S. set (t := turn (Z.of_nat k) n) in *.
      pose proof (COS_bound t) as B. pose proof (cos_below t ltac:(lra)) as [L _].
      assert (Ht2 : t ^ 2 <= 99964 / 10000000000) by (simpl; nra). assert (Hp : forall m, 0 <= t ^ m) by (intros; apply pow_le; lra).
      assert (G : forall m, t ^ (m + 2) <= t ^ m * (99964 / 10000000000)) by (intros m; rewrite pow_add; apply Rmult_le_compat_l; [apply Hp|exact Ht2]).
      pose proof (G 4%nat) as G6. pose proof (G 8%nat) as G10. cbn [Nat.add] in G6, G10. pose proof (Hp 4%nat). pose proof (Hp 8%nat).
      unfold Rabs. destruct Rcase_abs; lra. }
    rewrite !Hc by lia. reflexivity.
  - unfold round5. f_equal. f_equal. symmetry. exact E.
Qed.
