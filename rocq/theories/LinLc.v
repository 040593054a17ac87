(* LinLc.v: the constraint system of a local Clifford operation between two graph states. *)
From Verif Require Import Base LinModel LinSpec LinProofs LinNull.
Open Scope nat_scope.

Section Lc.
  Variable n : nat. Variables G H : bmat.
  Hypothesis HG : graph_matrix n G. Hypothesis HH : graph_matrix n H.

  Definition va (v : row) (m i : nat) : bool := nth (i + m * n) v false.
  Definition constr (v : row) (j k : nat) : bool :=
    xorb (ent G j k && va v 0 k) (xorb ((k =? j) && va v 1 j) (xorb (bsum n (fun i => ent G i j && ent H i k && va v 2 i)) (ent H j k && va v 3 j))).
  Lemma lc_row_length j k : length (lc_row n G H j k) = 4 * n.
  Proof. unfold lc_row. rewrite !app_length, !seq_map_length. lia. Qed.
  Lemma in_sys r : In r (lc_constraint_system n G H) <-> exists j k, j < n /\ k < n /\ r = lc_row n G H j k.
  Proof.
    unfold lc_constraint_system. rewrite in_flat_map. split.
    - intros (j & Hj & Hr). apply in_map_iff in Hr. destruct Hr as (k & <- & Hk). apply in_seq in Hj. apply in_seq in Hk. exists j, k. split; [lia|split; [lia|reflexivity]].
    - intros (j & k & Hj & Hk & ->). exists j. split; [apply in_seq; lia|]. apply in_map, in_seq. lia.
  Qed.
  Lemma sys_width : width (4 * n) (lc_constraint_system n G H).
  Proof. intros r Hr. apply in_sys in Hr. destruct Hr as (j & k & _ & _ & ->). apply lc_row_length. Qed.
  Lemma nth4 (A B C D : row) i : length A = n -> length B = n -> length C = n -> i < n ->
    nth i (A ++ B ++ C ++ D) false = nth i A false /\ nth (n + i) (A ++ B ++ C ++ D) false = nth i B false /\
    nth (n + (n + i)) (A ++ B ++ C ++ D) false = nth i C false /\ nth (n + (n + (n + i))) (A ++ B ++ C ++ D) false = nth i D false.
  Proof.
    intros HA HB HC Hi. assert (E : forall (U V : row) k, length U = n -> nth (n + k) (U ++ V) false = nth k V false).
    { intros U V k HU. rewrite app_nth2 by lia. f_equal. lia. }
    rewrite !E by assumption. rewrite !app_nth1 by lia. auto.
  Qed.
  Lemma dot_lc v j k : length v = 4 * n -> j < n -> k < n -> dot (lc_row n G H j k) v = constr v j k.
  Proof.
    intros Hv Hj Hk. rewrite (dot_bsum (4 * n)) by (try assumption; apply lc_row_length).
    replace (4 * n) with (n + (n + (n + n))) by lia. rewrite !bsum_app. unfold constr. f_equal; [|f_equal; [|f_equal]].
    - rewrite (bsum_single n _ k Hk).
      + unfold lc_row. match goal with |- context [nth k (?A ++ ?B ++ ?C ++ ?D) false] => destruct (nth4 A B C D k) as (-> & _); try apply seq_map_length; try assumption end.
        rewrite seq_map_nth, Nat.eqb_refl by assumption. unfold va. rewrite Nat.mul_0_l, Nat.add_0_r. reflexivity.
      + intros i Hi Hne. unfold lc_row. match goal with |- context [nth i (?A ++ ?B ++ ?C ++ ?D) false] => destruct (nth4 A B C D i) as (-> & _); try apply seq_map_length; try assumption end.
        rewrite seq_map_nth by assumption. destruct (Nat.eqb_spec i k); [congruence|reflexivity].
    - rewrite (bsum_single n _ j Hj).
      + unfold lc_row. match goal with |- context [nth _ (?A ++ ?B ++ ?C ++ ?D) false] => destruct (nth4 A B C D j) as (_ & -> & _); try apply seq_map_length; try assumption end.
        rewrite seq_map_nth, Nat.eqb_refl, andb_true_r by assumption. unfold va. do 2 f_equal. lia.
      + intros i Hi Hne. unfold lc_row. match goal with |- context [nth _ (?A ++ ?B ++ ?C ++ ?D) false] => destruct (nth4 A B C D i) as (_ & -> & _); try apply seq_map_length; try assumption end.
        rewrite seq_map_nth by assumption. destruct (Nat.eqb_spec i j); [congruence|]. rewrite andb_false_r. reflexivity.
    - apply bsum_ext. intros i Hi. unfold lc_row. match goal with |- context [nth _ (?A ++ ?B ++ ?C ++ ?D) false] => destruct (nth4 A B C D i) as (_ & _ & -> & _); try apply seq_map_length; try assumption end.
      rewrite seq_map_nth by assumption. unfold va. do 2 f_equal. lia.
    - rewrite (bsum_single n _ j Hj).
      + unfold lc_row. match goal with |- context [nth _ (?A ++ ?B ++ ?C ++ ?D) false] => destruct (nth4 A B C D j) as (_ & _ & _ & ->); try apply seq_map_length; try assumption end.
        rewrite seq_map_nth, Nat.eqb_refl by assumption. unfold va. simpl andb. do 2 f_equal. lia.
      + intros i Hi Hne. unfold lc_row. match goal with |- context [nth _ (?A ++ ?B ++ ?C ++ ?D) false] => destruct (nth4 A B C D i) as (_ & _ & _ & ->); try apply seq_map_length; try assumption end.
        rewrite seq_map_nth by assumption. destruct (Nat.eqb_spec i j); [congruence|reflexivity].
  Qed.
  Lemma null_constr v : length v = 4 * n -> (nullvec (lc_constraint_system n G H) v <-> forall j k, j < n -> k < n -> constr v j k = false).
  Proof.
    intros Hv. split.
    - intros Hn j k Hj Hk. rewrite <- dot_lc by assumption. apply Hn, in_sys. eauto 6.
    - intros Hc r Hr. apply in_sys in Hr. destruct Hr as (j & k & Hj & Hk & ->). rewrite dot_lc by assumption. auto.
  Qed.

  (* ---------------- the tensor form ---------------- *)
  Lemma quarter (v : row) : length v = 4 * n -> length v / 4 = n.
  Proof. intros ->. rewrite Nat.mul_comm. apply Nat.div_mul. lia. Qed.
  Lemma T_length (v : row) : length v = 4 * n -> length (clifford_vec_to_tensors v) = n.
  Proof. intros Hv. unfold clifford_vec_to_tensors. rewrite seq_map_length. apply quarter. assumption. Qed.
  Lemma T_nth v k : length v = 4 * n -> k < n -> nth k (clifford_vec_to_tensors v) [] = [[va v 0 k; va v 1 k]; [va v 2 k; va v 3 k]].
  Proof.
    intros Hv Hk. unfold clifford_vec_to_tensors. rewrite (quarter v Hv), seq_map_nth by assumption. unfold va. rewrite Nat.mul_0_l, Nat.add_0_r, Nat.mul_1_l. reflexivity.
  Qed.
  Lemma T_det v : length v = 4 * n -> (sat n v = true <-> forall q, In q (clifford_vec_to_tensors v) -> det2 q = true).
  Proof. clear G H HG HH.
    intros Hv. unfold sat. rewrite forallb_forall. split.
    - intros Hs q Hq. apply (In_nth _ _ []) in Hq. destruct Hq as (k & Hk & <-). rewrite T_length in Hk by assumption. rewrite T_nth by assumption.
      specialize (Hs k ltac:(apply in_seq; lia)). unfold det2, ent, va. cbn [nth]. rewrite Nat.mul_0_l, Nat.add_0_r, Nat.mul_1_l. assumption.
    - intros Hd k Hk. apply in_seq in Hk. specialize (Hd (nth k (clifford_vec_to_tensors v) []) ltac:(apply nth_In; rewrite T_length by assumption; lia)).
      rewrite T_nth in Hd by (try assumption; lia). unfold det2, ent, va in Hd. cbn [nth] in Hd. rewrite Nat.mul_0_l, Nat.add_0_r, Nat.mul_1_l in Hd. assumption.
  Qed.
  Lemma T_clifford v : length v = 4 * n -> sat n v = true -> local_clifford n (clifford_vec_to_tensors v).
  Proof. clear G H HG HH.
    intros Hv Hs. split; [apply T_length; assumption|]. intros q Hq. assert (Hd : det2 q = true) by (apply (T_det v Hv); assumption).
    apply (In_nth _ _ []) in Hq. destruct Hq as (k & Hk & <-). rewrite T_length in Hk by assumption. rewrite T_nth in * by assumption.
    split; [reflexivity|]. split; [|assumption]. intros r [<-|[<-|[]]]; reflexivity.
  Qed.
  Lemma app_T_length v z x : length v = 4 * n -> length (fst (apply_local (clifford_vec_to_tensors v) z x)) = n /\ length (snd (apply_local (clifford_vec_to_tensors v) z x)) = n.
  Proof. intros Hv. unfold apply_local. cbn [fst snd]. rewrite !mapi_length, T_length by assumption. auto. Qed.
  Lemma app_T_nth v z x k : length v = 4 * n -> k < n ->
    nth k (fst (apply_local (clifford_vec_to_tensors v) z x)) false = xorb (va v 0 k && nth k z false) (va v 1 k && nth k x false) /\
    nth k (snd (apply_local (clifford_vec_to_tensors v) z x)) false = xorb (va v 2 k && nth k z false) (va v 3 k && nth k x false).
  Proof.
    intros Hv Hk. unfold apply_local. cbn [fst snd]. rewrite !(mapi_nth _ _ false []) by (rewrite T_length by assumption; assumption).
    rewrite T_nth by assumption. split; reflexivity.
  Qed.
  Lemma mulv_sum (M : bmat) x k : width n M -> length x = n -> k < length M -> nth k (mulv M x) false = bsum n (fun j => ent M k j && nth j x false).
  Proof. intros HW Hx Hk. rewrite mulv_nth. rewrite (dot_bsum n); [reflexivity|apply width_nth; assumption|assumption]. Qed.

  (* the defect z' + H x' at qubit k is the sum of the constraints (j, k) over the ones j of x *)
  Lemma defect v x k : length v = 4 * n -> length x = n -> k < n ->
    let r := apply_local (clifford_vec_to_tensors v) (mulv G x) x in
    xorb (nth k (fst r) false) (nth k (mulv H (snd r)) false) = bsum n (fun j => nth j x false && constr v j k).
  Proof.
    intros Hv Hx Hk. destruct HG as (G1 & G2 & G3 & _). destruct HH as (H1 & H2 & H3 & _). cbv zeta.
    destruct (app_T_length v (mulv G x) x Hv) as [_ L2]. destruct (app_T_nth v (mulv G x) x k Hv Hk) as [E1 _].
    rewrite E1. rewrite (mulv_sum H) by (rewrite ?H1; assumption).
    rewrite (bsum_ext n (fun j => ent H k j && nth j (snd (apply_local (clifford_vec_to_tensors v) (mulv G x) x)) false)
      (fun i => xorb (bsum n (fun j => nth j x false && (ent G i j && ent H i k && va v 2 i))) (ent H i k && va v 3 i && nth i x false))).
    2:{ intros i Hi. destruct (app_T_nth v (mulv G x) x i Hv Hi) as [_ E2]. rewrite E2. rewrite (mulv_sum G) by (rewrite ?G1; assumption). rewrite (H3 k i) by assumption.
        rewrite (bsum_ext n (fun j => nth j x false && (ent G i j && ent H i k && va v 2 i)) (fun j => (ent H i k && va v 2 i) && (ent G i j && nth j x false))).
        2:{ intros j _. destruct (nth j x false), (ent G i j), (ent H i k), (va v 2 i); reflexivity. }
        rewrite bsum_and_l. destruct (ent H i k), (va v 2 i), (va v 3 i), (nth i x false), (bsum n (fun j => ent G i j && nth j x false)); reflexivity. }
    rewrite bsum_xor, bsum_swap. rewrite (mulv_sum G) by (rewrite ?G1; assumption).
    rewrite (bsum_ext n (fun j => nth j x false && constr v j k) (fun j => xorb (va v 0 k && (ent G k j && nth j x false))
      (xorb ((k =? j) && (va v 1 j && nth j x false)) (xorb (bsum n (fun i => nth j x false && (ent G i j && ent H i k && va v 2 i))) (ent H j k && va v 3 j && nth j x false))))).
    2:{ intros j Hj. unfold constr. rewrite bsum_and_l. rewrite (G3 j k) by assumption.
        destruct (nth j x false), (ent G k j), (va v 0 k), (k =? j), (va v 1 j), (ent H j k), (va v 3 j), (bsum n (fun i => ent G i j && ent H i k && va v 2 i)); reflexivity. }
    rewrite !bsum_xor, bsum_and_l. rewrite (bsum_single n (fun i => (k =? i) && (va v 1 i && nth i x false)) k Hk).
    2:{ intros i Hi Hne. destruct (Nat.eqb_spec k i); [congruence|reflexivity]. }
    rewrite Nat.eqb_refl. simpl andb. rewrite xorb_assoc. reflexivity.
  Qed.

  Lemma maps_into v : length v = 4 * n ->
    ((forall z x, stabilizer n G z x -> stabilizer n H (fst (apply_local (clifford_vec_to_tensors v) z x)) (snd (apply_local (clifford_vec_to_tensors v) z x)))
      <-> nullvec (lc_constraint_system n G H) v).
  Proof.
    intros Hv. rewrite (null_constr v Hv). assert (HHl : length H = n) by apply HH. split.
    - intros Hs j k Hj Hk. set (x := unit_row n j). assert (Hx : length x = n) by apply seq_map_length.
      pose proof (defect v x k Hv Hx Hk) as D. cbv zeta in D. destruct (Hs (mulv G x) x (conj Hx eq_refl)) as [_ E]. rewrite E, xorb_nilpotent in D.
      rewrite (bsum_single n _ j Hj) in D.
      + unfold x, unit_row in D. rewrite seq_map_nth, Nat.eqb_refl in D by assumption. auto.
      + intros i Hi Hne. unfold x, unit_row. rewrite seq_map_nth by assumption. destruct (Nat.eqb_spec i j); [congruence|reflexivity].
    - intros Hc z x (Hx & ->). destruct (app_T_length v (mulv G x) x Hv) as [L1 L2]. split; [assumption|].
      apply row_ext; [rewrite mulv_length; lia|]. intros k Hk. rewrite L1 in Hk. pose proof (defect v x k Hv Hx Hk) as D. cbv zeta in D.
      rewrite bsum_zero in D by (intros j Hj; rewrite Hc by assumption; apply andb_false_r).
      destruct (nth k (fst (apply_local (clifford_vec_to_tensors v) (mulv G x) x)) false), (nth k (mulv H (snd (apply_local (clifford_vec_to_tensors v) (mulv G x) x))) false); try reflexivity; discriminate.
  Qed.

  (* an operation of determinant one is injective, hence maps onto *)
  Lemma app_T_inj v z x z' x' : length v = 4 * n -> sat n v = true -> length z = n -> length x = n -> length z' = n -> length x' = n ->
    apply_local (clifford_vec_to_tensors v) z x = apply_local (clifford_vec_to_tensors v) z' x' -> x = x'.
  Proof.
    intros Hv Hs Hz Hx Hz' Hx' E. apply row_ext; [lia|]. intros k Hk. rewrite Hx in Hk.
    destruct (app_T_nth v z x k Hv Hk) as [A1 A2]. destruct (app_T_nth v z' x' k Hv Hk) as [B1 B2]. rewrite E in A1, A2. rewrite A1 in B1. rewrite A2 in B2.
    unfold sat in Hs. rewrite forallb_forall in Hs. specialize (Hs k ltac:(apply in_seq; lia)). unfold va in *. rewrite ?Nat.mul_0_l, ?Nat.add_0_r, ?Nat.mul_1_l in *.
    destruct (nth k v false), (nth (k + 3 * n) v false), (nth (k + n) v false), (nth (k + 2 * n) v false), (nth k z false), (nth k x false), (nth k z' false), (nth k x' false); simpl in *; congruence.
  Qed.
  Lemma maps_onto_T v : length v = 4 * n -> sat n v = true -> nullvec (lc_constraint_system n G H) v -> maps_onto n (clifford_vec_to_tensors v) G H.
  Proof.
    intros Hv Hs Hn. pose proof (proj2 (maps_into v Hv) Hn) as Hin. split; [assumption|].
    set (f := fun x => snd (apply_local (clifford_vec_to_tensors v) (mulv G x) x)).
    assert (HGl : length G = n) by apply HG.
    assert (Hnd : NoDup (map f (allb n))).
    { apply nodup_map_inj; [apply nodup_allb|]. intros x y Hx Hy E. apply in_allb in Hx. apply in_allb in Hy.
      apply (app_T_inj v (mulv G x) x (mulv G y) y Hv Hs); try assumption; try (rewrite mulv_length; assumption).
      destruct (Hin _ x (conj Hx eq_refl)) as [_ Ex]. destruct (Hin _ y (conj Hy eq_refl)) as [_ Ey].
      rewrite (surjective_pairing (apply_local (clifford_vec_to_tensors v) (mulv G x) x)), (surjective_pairing (apply_local (clifford_vec_to_tensors v) (mulv G y) y)).
      unfold f in E. rewrite Ex, Ey, E. reflexivity. }
    assert (Hincl : incl (allb n) (map f (allb n))).
    { apply NoDup_length_incl; [assumption|rewrite map_length; lia|]. intros y Hy. apply in_map_iff in Hy. destruct Hy as (x & <- & Hx). apply in_allb. apply app_T_length. assumption. }
    intros z' x' (Hx' & Ez'). apply in_allb in Hx'. apply Hincl in Hx'. apply in_map_iff in Hx'. destruct Hx' as (x & Ex & Hx). apply in_allb in Hx.
    exists (mulv G x), x. split; [split; auto|]. destruct (Hin _ x (conj Hx eq_refl)) as [_ E].
    rewrite (surjective_pairing (apply_local (clifford_vec_to_tensors v) (mulv G x) x)), E. unfold f in Ex. rewrite Ex, Ez'. reflexivity.
  Qed.

  (* ---------------- the vector of an operation ---------------- *)
  Lemma vec_of_length Q : length Q = n -> length (vec_of Q) = 4 * n.
  Proof. intros HQ. unfold vec_of. rewrite !app_length, !map_length. lia. Qed.
  Lemma nth_map_in {A B} (f : A -> B) l d d' k : k < length l -> nth k (map f l) d' = f (nth k l d).
  Proof. intros Hk. rewrite (nth_indep _ d' (f d)) by (rewrite map_length; assumption). apply map_nth. Qed.
  Lemma vec_of_va Q k : length Q = n -> k < n -> va (vec_of Q) 0 k = ent (nth k Q []) 0 0 /\ va (vec_of Q) 1 k = ent (nth k Q []) 0 1 /\
    va (vec_of Q) 2 k = ent (nth k Q []) 1 0 /\ va (vec_of Q) 3 k = ent (nth k Q []) 1 1.
  Proof.
    intros HQ Hk. unfold va, vec_of.
    match goal with |- context [nth _ (?A ++ ?B ++ ?C ++ ?D) false] => destruct (nth4 A B C D k) as (E0 & E1 & E2 & E3); [rewrite map_length; assumption..|assumption|] end.
    replace (k + 0 * n) with k by lia. replace (k + 1 * n) with (n + k) by lia. replace (k + 2 * n) with (n + (n + k)) by lia. replace (k + 3 * n) with (n + (n + (n + k))) by lia.
    rewrite E0, E1, E2, E3. rewrite !(nth_map_in _ Q []) by lia. auto.
  Qed.
  Lemma tensors_vec_of Q : local_clifford n Q -> clifford_vec_to_tensors (vec_of Q) = Q.
  Proof. clear G H HG HH.
    intros (HQ & Hs). pose proof (vec_of_length Q HQ) as Hv. apply (nth_ext _ _ [] []); [rewrite T_length by assumption; lia|].
    intros k Hk. rewrite T_length in Hk by assumption. rewrite T_nth by assumption. destruct (vec_of_va Q k HQ Hk) as (-> & -> & -> & ->).
    destruct (Hs (nth k Q [])) as (Hl & Hw & _); [apply nth_In; lia|]. revert Hl Hw. generalize (nth k Q []). intros q Hl Hw.
    destruct q as [|r [|s [|]]]; try discriminate. assert (Hr : length r = 2) by (apply Hw; left; reflexivity). assert (Hs' : length s = 2) by (apply Hw; right; left; reflexivity).
    destruct r as [|r0 [|r1 [|]]]; try discriminate. destruct s as [|s0 [|s1 [|]]]; try discriminate. reflexivity.
  Qed.
  Lemma lc_iff : lc_equivalent n G H <-> exists v, length v = 4 * n /\ nullvec (lc_constraint_system n G H) v /\ sat n v = true.
  Proof.
    split.
    - intros (Q & HQ & Hm & _). pose proof (tensors_vec_of Q HQ) as E. exists (vec_of Q). pose proof (vec_of_length Q (proj1 HQ)) as Hv. split; [assumption|]. split.
      + apply (maps_into _ Hv). rewrite E. assumption.
      + apply (T_det _ Hv). rewrite E. intros q Hq. apply HQ. assumption.
    - intros (v & Hv & Hn & Hs). exists (clifford_vec_to_tensors v). split; [apply T_clifford; assumption|apply maps_onto_T; assumption].
  Qed.

  (* ---------------- the global form ---------------- *)
  Lemma diag_length v m i : length (diag_row n v m i) = n.
  Proof. apply seq_map_length. Qed.
  Lemma diag_dot v m i z : i < n -> length z = n -> bsum n (fun j => nth j (diag_row n v m i) false && nth j z false) = va v m i && nth i z false.
  Proof.
    intros Hi Hz. rewrite (bsum_single n _ i Hi).
    - unfold diag_row. rewrite seq_map_nth, Nat.eqb_refl by assumption. reflexivity.
    - intros j Hj Hne. unfold diag_row. rewrite seq_map_nth by assumption. destruct (Nat.eqb_spec j i); [congruence|reflexivity].
  Qed.
  Lemma two_diag v m m' i z x : i < n -> length z = n -> length x = n ->
    dot (diag_row n v m i ++ diag_row n v m' i) (z ++ x) = xorb (va v m i && nth i z false) (va v m' i && nth i x false).
  Proof.
    intros Hi Hz Hx. rewrite (dot_bsum (n + n)) by (rewrite app_length, ?diag_length; lia). rewrite bsum_app.
    rewrite <- !(diag_dot v) by assumption. f_equal; apply bsum_ext; intros j Hj.
    - rewrite !app_nth1 by (rewrite ?diag_length; lia). reflexivity.
    - rewrite !app_nth2 by (rewrite ?diag_length; lia). rewrite diag_length, Hz. replace (n + j - n) with j by lia. reflexivity.
  Qed.
  Lemma global_agrees v z x : length v = 4 * n -> length z = n -> length x = n ->
    apply_global n (clifford_vec_to_global v) z x = apply_local (clifford_vec_to_tensors v) z x.
  Proof.
    intros Hv Hz Hx. unfold apply_global, clifford_vec_to_global. rewrite (quarter v Hv). cbv zeta. unfold mulv. rewrite map_app, !map_map.
    set (U := map (fun i => dot (diag_row n v 0 i ++ diag_row n v 1 i) (z ++ x)) (seq 0 n)).
    set (V := map (fun i => dot (diag_row n v 2 i ++ diag_row n v 3 i) (z ++ x)) (seq 0 n)).
    assert (HU : length U = n) by apply seq_map_length. assert (HV : length V = n) by apply seq_map_length.
    rewrite skip_exact by assumption. rewrite <- HU at 1. rewrite firstn_app, Nat.sub_diag, firstn_all, firstn_O, app_nil_r.
    destruct (app_T_length v z x Hv) as [L1 L2]. rewrite (surjective_pairing (apply_local (clifford_vec_to_tensors v) z x)). f_equal.
    - apply row_ext; [lia|]. intros k Hk. rewrite HU in Hk. destruct (app_T_nth v z x k Hv Hk) as [-> _]. unfold U. rewrite seq_map_nth by assumption. apply two_diag; assumption.
    - apply row_ext; [lia|]. intros k Hk. rewrite HV in Hk. destruct (app_T_nth v z x k Hv Hk) as [_ ->]. unfold V. rewrite seq_map_nth by assumption. apply two_diag; assumption.
  Qed.

  (* ---------------- the search ---------------- *)
  Lemma in_pairs (B : bmat) v : In v (flat_map (fun i => map (fun j => vxor (nth i B []) (nth j B [])) (seq 0 i)) (seq 0 (length B))) <->
    exists i j, j < i < length B /\ v = vxor (nth i B []) (nth j B []).
  Proof.
    rewrite in_flat_map. split.
    - intros (i & Hi & Hv). apply in_map_iff in Hv. destruct Hv as (j & <- & Hj). apply in_seq in Hi. apply in_seq in Hj. exists i, j. split; [lia|reflexivity].
    - intros (i & j & Hij & ->). exists i. split; [apply in_seq; lia|]. apply in_map_iff. exists j. split; [reflexivity|]. apply in_seq. lia.
  Qed.
  Lemma search_some (B : bmat) v : search_nullspace (4 * n) B = Some v -> sat n v = true /\ exists i j, j < i < length B /\ v = vxor (nth i B []) (nth j B []).
  Proof.
    unfold search_nullspace. replace (4 * n / 4) with n by (rewrite Nat.mul_comm, Nat.div_mul; lia). intros E. cbv zeta in E.
    apply find_some in E. destruct E as [E1 E2]. split; [assumption|]. apply in_pairs. assumption.
  Qed.
  Lemma search_none (B : bmat) : search_nullspace (4 * n) B = None -> forall i j, j < i < length B -> sat n (vxor (nth i B []) (nth j B [])) = false.
  Proof.
    unfold search_nullspace. replace (4 * n / 4) with n by (rewrite Nat.mul_comm, Nat.div_mul; lia). intros E i j Hij. cbv zeta in E.
    apply (find_none _ _ E). apply in_pairs. eauto.
  Qed.
  Lemma pair_null (B : bmat) i j : width (4 * n) B -> (forall x, length x = 4 * n -> (nullvec (lc_constraint_system n G H) x <-> rowspace (4 * n) B x)) ->
    j < i < length B -> length (vxor (nth i B []) (nth j B [])) = 4 * n /\ nullvec (lc_constraint_system n G H) (vxor (nth i B []) (nth j B [])).
  Proof.
    intros HW HB Hij. pose proof (width_nth _ B i HW ltac:(lia)). pose proof (width_nth _ B j HW ltac:(lia)).
    assert (L : length (vxor (nth i B []) (nth j B [])) = 4 * n) by (rewrite vxor_length; lia). split; [assumption|].
    apply (HB _ L). apply rs_add; [assumption| |]; apply rs_in; try assumption; apply nth_In; lia.
  Qed.
End Lc.
