(* SimProofs.v: lemmas for C42-C44. *)
From Coq Require Import String Ascii DecimalString Reals Lra.
From Verif Require Import Base Lattice SimModel SimSpec.
Open Scope Z_scope.

(* ---------- IID noise ---------- *)
Section Iid.
  Context {S : Type} (rnd : generator S).
  Lemma after_shift s k : after rnd s (Datatypes.S k) = after rnd (snd (rnd s)) k.
  Proof. induction k as [|k IH]; [reflexivity|]. change (snd (rnd (after rnd s (Datatypes.S k))) = snd (rnd (after rnd (snd (rnd s)) k))). rewrite IH. reflexivity. Qed.
  Lemma after_add s j k : after rnd s (j + k)%nat = after rnd (after rnd s j) k.
  Proof. revert s; induction j as [|j IH]; intros s; [reflexivity|]. cbn [Nat.add]. rewrite !after_shift. apply IH. Qed.
  Lemma draw_shift s k : draw rnd (snd (rnd s)) k = draw rnd s (Datatypes.S k).
  Proof. unfold draw. rewrite after_shift. reflexivity. Qed.
  Lemma draw_add s j k : draw rnd (after rnd s j) k = draw rnd s (j + k)%nat.
  Proof. unfold draw. rewrite after_add. reflexivity. Qed.

  Lemma iid_apply_spec p nodes : forall A s, NoDup nodes ->
    snd (iid_apply rnd p nodes A s) = after rnd s (List.length nodes) /\
    (forall k v, nth_error nodes k = Some v ->
       fst (iid_apply rnd p nodes A s) v "bit_val"%string = Some (VInt (if Rlt_dec (draw rnd s k) p then 1 else 0))) /\
    (forall q key, ~ (In q nodes /\ key = "bit_val"%string) -> fst (iid_apply rnd p nodes A s) q key = A q key).
  Proof.
    induction nodes as [|v nodes IH]; intros A s ND.
    { split; [reflexivity|]. split; [intros [|k] v; discriminate|reflexivity]. }
    apply NoDup_cons_iff in ND. destruct ND as [Hv ND]. cbn [iid_apply]. destruct (rnd s) as [x s'] eqn:E.
    destruct (IH (set_bit A v (if Rlt_dec x p then true else false)) s' ND) as (H1 & H2 & H3).
    assert (Es : snd (rnd s) = s') by (rewrite E; reflexivity).
    split; [|split].
    - rewrite H1. cbn [List.length]. rewrite after_shift, Es. reflexivity.
    - intros [|k] u Hu; cbn [nth_error] in Hu.
      + injection Hu as <-. rewrite H3 by tauto. unfold set_bit. rewrite peqb_refl. cbn [andb String.eqb].
        change (String.eqb "bit_val" "bit_val") with true. cbn [andb]. unfold draw. cbn [after]. rewrite E. cbn [fst].
        destruct (Rlt_dec x p); reflexivity.
      + rewrite (H2 k u Hu). rewrite <- Es. rewrite draw_shift. reflexivity.
    - intros q key Hn. rewrite H3 by (cbn [In] in Hn; tauto). unfold set_bit.
      destruct (peqb q v && String.eqb key "bit_val") eqn:Eb; [|reflexivity].
      apply andb_true_iff in Eb. destruct Eb as [Eb1 Eb2]. apply peqb_true in Eb1. apply String.eqb_eq in Eb2. subst.
      exfalso. apply Hn. split; [left; reflexivity|reflexivity].
  Qed.
End Iid.

(* ---------- Monte Carlo ---------- *)
Lemma py_range_snoc t : 0 <= t -> py_range 0 (t + 1) = py_range 0 t ++ [t].
Proof.
  intros H. unfold py_range. replace (Z.to_nat (t + 1 - 0)) with (Datatypes.S (Z.to_nat (t - 0))) by lia.
  rewrite seq_S, map_app. cbn [map]. do 2 f_equal. lia.
Qed.
Lemma range_ind (P : Z -> Prop) : P 0 -> (forall t, 0 <= t -> P t -> P (t + 1)) -> forall t, 0 <= t -> P t.
Proof. intros H0 HS t Ht. apply (natlike_ind P); auto. Qed.

Lemma filter_mod size r t : 0 < size -> 0 <= r < size -> 0 <= t ->
  filter (fun i => i mod size =? r) (py_range 0 t) = map (fun k => r + Z.of_nat k * size) (seq 0 (Z.to_nat ((t - r + size - 1) / size))).
Proof.
  intros Hs Hr. revert t. apply range_ind.
  - replace (Z.to_nat ((0 - r + size - 1) / size)) with 0%nat; [reflexivity|].
    assert ((0 - r + size - 1) / size = 0) by (apply Z.div_small; lia). lia.
  - intros t Ht IH. rewrite py_range_snoc, filter_app, IH by assumption. cbn [filter].
    destruct (t mod size =? r) eqn:E.
    + apply Z.eqb_eq in E. pose proof (Z.div_mod t size ltac:(lia)) as Hd. rewrite E in Hd. set (q := t / size) in *.
      assert (Hq : 0 <= q) by (apply Z.div_pos; lia).
      assert (E1 : (t - r + size - 1) / size = q).
      { symmetry. apply (Z.div_unique _ _ _ (size - 1)); lia. }
      assert (E2 : (t + 1 - r + size - 1) / size = q + 1).
      { symmetry. apply (Z.div_unique _ _ _ 0); lia. }
      rewrite E1, E2. replace (Z.to_nat (q + 1)) with (Datatypes.S (Z.to_nat q)) by lia. rewrite seq_S, map_app. cbn [map]. do 2 f_equal. lia.
    + apply Z.eqb_neq in E. rewrite app_nil_r. do 2 f_equal. f_equal.
      pose proof (Z.div_mod (t - r) size ltac:(lia)) as Hd. pose proof (Z.mod_pos_bound (t - r) size Hs) as Hm. set (q := (t - r) / size) in *. set (m := (t - r) mod size) in *.
      assert (m <> 0).
      { intros Hz. apply E. assert (Hq : t = q * size + r) by lia. rewrite Hq, Z.add_comm, Z.mod_add by lia. apply Z.mod_small. lia. }
      assert (E1 : (t - r + size - 1) / size = q + 1) by (symmetry; apply (Z.div_unique _ _ _ (m - 1)); lia).
      assert (E2 : (t + 1 - r + size - 1) / size = q + 1) by (symmetry; apply (Z.div_unique _ _ _ m); lia).
      rewrite E1, E2. reflexivity.
Qed.
Lemma share_eq size r t : 0 < size -> 0 <= r < size -> 0 <= t -> share t size r = Z.to_nat ((t - r + size - 1) / size).
Proof. intros. unfold share. rewrite filter_mod by assumption. rewrite map_length, seq_length. reflexivity. Qed.

Section Mc.
  Context {S : Type} (step : S -> S * res bool).
  Definition truth (l : list bool) : Z := Z.of_nat (List.length (filter (fun b => b) l)).
  Lemma truth_cons b l : truth (b :: l) = Z.b2z b + truth l.
  Proof. unfold truth. destruct b; cbn [filter List.length Z.b2z]; lia. Qed.

  Lemma mc_loop_runs size r is : 0 < size -> forall s outs s' n, runs step s outs s' -> List.length outs = List.length (filter (fun i => i mod size =? r) is) ->
    mc_loop step size r is s n = (s', Ok (n + truth outs)).
  Proof.
    intros Hs. induction is as [|i is IH]; intros s outs s' n Hr Hl; cbn [mc_loop filter] in *.
    - destruct Hr; [|discriminate]. unfold truth. cbn. f_equal. f_equal. lia.
    - replace (size =? 0) with false by (symmetry; apply Z.eqb_neq; lia).
      destruct (i mod size =? r) eqn:E; [|apply IH; assumption].
      destruct Hr as [|s b s1 outs s2 Hst Hr]; [discriminate|]. rewrite Hst. injection Hl as Hl.
      rewrite (IH s1 outs s2 (n + Z.b2z b) Hr Hl). rewrite truth_cons. do 2 f_equal. lia.
  Qed.
  Lemma local_runs trials size r s outs s' : 0 < size -> runs step s outs s' -> List.length outs = share trials size r ->
    local_run step trials size r s = (s', Ok (truth outs)).
  Proof. intros Hs Hr Hl. unfold local_run. rewrite (mc_loop_runs size r _ Hs s outs s' 0 Hr Hl). reflexivity. Qed.
End Mc.

Lemma count_split (f : Z -> bool) t : 0 <= t -> count f t + count (fun i => negb (f i)) t = t.
Proof.
  intros Ht. unfold count.
  assert (H : forall l : list Z, (List.length (filter f l) + List.length (filter (fun i => negb (f i)) l))%nat = List.length l).
  { induction l as [|x l IH]; [reflexivity|]. cbn [filter]. destruct (f x); cbn [negb List.length]; lia. }
  specialize (H (py_range 0 t)). rewrite length_py_range in H. lia.
Qed.
Lemma count_ext f g t : (forall i, 0 <= i < t -> f i = g i) -> count f t = count g t.
Proof.
  intros H. unfold count. do 2 f_equal. apply filter_ext_in. intros i Hi. apply H. apply in_py_range in Hi. lia.
Qed.
Lemma filter_filter {A} (f g : A -> bool) l : filter f (filter g l) = filter (fun x => g x && f x) l.
Proof. induction l as [|x l IH]; [reflexivity|]. cbn [filter]. destruct (g x) eqn:E; cbn [filter andb]; [|exact IH]. rewrite IH. reflexivity. Qed.
Lemma filter_map_len {A B} (f : B -> bool) (h : A -> B) l : List.length (filter f (map h l)) = List.length (filter (fun x => f (h x)) l).
Proof. induction l as [|x l IH]; [reflexivity|]. cbn [map filter]. destruct (f (h x)); cbn [List.length]; lia. Qed.

Lemma zsum_cons x l : zsum (x :: l) = x + zsum l.
Proof. reflexivity. Qed.

(* the outcomes of rank r, listed, are the outcomes of the trials i = r (mod size), in order *)
Lemma outs_of_rank size r t outs : 0 < size -> 0 <= r < size -> 0 <= t -> List.length outs = share t size r ->
  outs = map (fun i => nth (Z.to_nat (i / size)) outs false) (filter (fun i => i mod size =? r) (py_range 0 t)).
Proof.
  intros Hs Hr Ht Hl. rewrite filter_mod, map_map by assumption. rewrite share_eq in Hl by assumption. rewrite <- Hl.
  transitivity (map (fun k => nth k outs false) (seq 0 (List.length outs))).
  - symmetry. clear. induction outs as [|b l IH]; [reflexivity|]. cbn [List.length seq map nth]. rewrite <- seq_shift, map_map. f_equal. exact IH.
  - apply map_ext. intros k. f_equal. rewrite Z.div_add by lia. rewrite Z.div_small by lia. lia.
Qed.

(* adding the counts over the ranks *)
Lemma sum_ranks (f : Z -> bool) size t : 0 < size ->
  zsum (map (fun r => Z.of_nat (List.length (filter f (filter (fun i => i mod size =? Z.of_nat r) (py_range 0 t))))) (seq 0 (Z.to_nat size))) = count f t.
Proof.
  intros Hs. unfold count. generalize (py_range 0 t). intros l. induction l as [|i l IH].
  - cbn [filter List.length]. generalize (seq 0 (Z.to_nat size)). induction l as [|a l IH]; [reflexivity|]. cbn [map]. rewrite zsum_cons, IH. lia.
  - assert (Hm : 0 <= i mod size < size) by (apply Z.mod_pos_bound; lia).
    set (r0 := Z.to_nat (i mod size)).
    transitivity (zsum (map (fun r => (if Nat.eqb r r0 then Z.b2z (f i) else 0) + Z.of_nat (List.length (filter f (filter (fun i => i mod size =? Z.of_nat r) l)))) (seq 0 (Z.to_nat size)))).
    + f_equal. apply map_ext_in. intros r Hr. apply in_seq in Hr. cbn [filter]. destruct (Nat.eqb_spec r r0) as [->|Hn].
      * replace (i mod size =? Z.of_nat r0) with true by (symmetry; apply Z.eqb_eq; lia). cbn [filter]. destruct (f i); cbn [List.length Z.b2z]; lia.
      * replace (i mod size =? Z.of_nat r) with false by (symmetry; apply Z.eqb_neq; lia). lia.
    + assert (Hsum : forall (g h : nat -> Z) m, zsum (map (fun r => g r + h r) m) = zsum (map g m) + zsum (map h m)).
      { intros g h m. induction m as [|x m IHm]; [reflexivity|]. cbn [map]. rewrite !zsum_cons, IHm. lia. }
      rewrite Hsum, IH. cbn [filter].
      assert (Hone : forall (x : Z) a n r1, zsum (map (fun r => if Nat.eqb r r1 then x else 0) (seq a n)) = if (Nat.leb a r1 && Nat.ltb r1 (a + n))%bool then x else 0).
      { intros x a n. revert a. induction n as [|n IHn]; intros a r1.
        - cbn [seq map]. change (zsum []) with 0. destruct (Nat.leb_spec a r1), (Nat.ltb_spec r1 (a + 0)); cbn [andb]; try reflexivity; lia.
        - cbn [seq map]. rewrite zsum_cons, IHn.
          destruct (Nat.eqb_spec a r1), (Nat.leb_spec (Datatypes.S a) r1), (Nat.ltb_spec r1 (Datatypes.S a + n)), (Nat.leb_spec a r1), (Nat.ltb_spec r1 (a + Datatypes.S n)); cbn [andb]; lia. }
      rewrite Hone. replace (Nat.leb 0 r0 && Nat.ltb r0 (0 + Z.to_nat size))%bool with true.
      * destruct (f i); cbn [List.length Z.b2z]; lia.
      * symmetry. apply andb_true_iff. split; [apply Nat.leb_le|apply Nat.ltb_lt]; unfold r0; lia.
Qed.

Lemma all_ok_map (l : list Z) : all_ok (map (@Ok Z) l) = Some l.
Proof. induction l as [|x l IH]; [reflexivity|]. cbn [map all_ok]. rewrite IH. reflexivity. Qed.

Section World.
  Context {S : Type} (step : S -> S * res bool).
  Variables (trials : Z) (ss : list S) (outs : nat -> list bool) (ends : nat -> S).
  Let size := Z.of_nat (List.length ss).
  Hypothesis Ht : 0 <= trials.
  Hypothesis Hss : ss <> [].
  Hypothesis Hruns : forall r s, nth_error ss r = Some s -> runs step s (outs r) (ends r) /\ List.length (outs r) = share trials size (Z.of_nat r).

  Lemma size_pos : 0 < size.
  Proof. clear Hruns. destruct ss; [contradiction|]. unfold size. cbn [List.length]. lia. Qed.

  Lemma locals_ok : mpi_locals step trials ss = map (@Ok Z) (map (fun r => truth (outs r)) (seq 0 (List.length ss))).
  Proof.
    unfold mpi_locals. rewrite map_map. fold size. pose proof size_pos as Hp.
    assert (H : forall l k, (forall j s, nth_error l j = Some s -> nth_error ss (k + j)%nat = Some s) ->
      map (fun rs => snd (local_run step trials size (Z.of_nat (fst rs)) (snd rs))) (combine (seq k (List.length l)) l) = map (fun x => Ok (truth (outs x))) (seq k (List.length l))).
    { induction l as [|s l IH]; intros k Hk; [reflexivity|]. cbn [List.length seq combine map fst snd]. f_equal.
      - destruct (Hruns k s) as [Hr Hl]; [rewrite <- (Nat.add_0_r k); apply Hk; reflexivity|].
        rewrite (local_runs step trials size (Z.of_nat k) s (outs k) (ends k) Hp Hr Hl). reflexivity.
      - apply IH. intros j u Hu. replace (Datatypes.S k + j)%nat with (k + Datatypes.S j)%nat by lia. apply Hk. exact Hu. }
    apply H. intros j s Hj. exact Hj.
  Qed.

  Lemma total_true : zsum (map (fun r => truth (outs r)) (seq 0 (List.length ss))) = count (fun i => nth (Z.to_nat (i / size)) (outs (Z.to_nat (i mod size))) false) trials.
  Proof.
    pose proof size_pos as Hp. rewrite <- (sum_ranks _ size trials Hp). f_equal. replace (Z.to_nat size) with (List.length ss) by (unfold size; lia).
    apply map_ext_in. intros r Hr. apply in_seq in Hr. destruct (nth_error ss r) as [s|] eqn:E; [|apply nth_error_None in E; lia].
    destruct (Hruns r s E) as [_ Hl].
    assert (Hrs : 0 <= Z.of_nat r < size) by (unfold size; lia).
    unfold truth. f_equal. rewrite (outs_of_rank size (Z.of_nat r) trials (outs r) Hp Hrs Ht Hl) at 1. rewrite filter_map_len.
    f_equal. apply filter_ext_in. intros i Hi. apply filter_In in Hi. destruct Hi as [_ Hi]. apply Z.eqb_eq in Hi. rewrite Hi. rewrite Nat2Z.id. reflexivity.
  Qed.
End World.
