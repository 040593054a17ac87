(* Homology.v: every undetected pattern of bit flips whose planes are even is a sum of
   neighbourhoods of vertices of the other type (the converse of gauge invariance, C12).  The
   lattice is a product of three lines or circles; a pattern is pushed along one axis after the
   other until only one qubit per plane is left. *)
From Verif Require Import Base Lattice RhgModel RhgSpec RhgProofs RhgDegree SurfaceModel SurfaceSpec
  SurfaceProofs SurfaceIncidence SurfaceTheorems SurfaceGauge PropsSurface CvMacroGauge.
Open Scope Z_scope.

(* sums over the integers 0 .. y - 1 *)
Fixpoint cum (F : Z -> bool) (m : nat) : bool := match m with O => false | S m => xorb (cum F m) (F (Z.of_nat m)) end.
Definition cumZ (F : Z -> bool) (y : Z) : bool := cum F (Z.to_nat y).
Lemma cumZ_0 F : cumZ F 0 = false.
Proof. reflexivity. Qed.
Lemma cumZ_succ F y : 0 <= y -> cumZ F (y + 1) = xorb (cumZ F y) (F y).
Proof. intros H. unfold cumZ. replace (Z.to_nat (y + 1)) with (S (Z.to_nat y)) by lia. cbn [cum]. rewrite Z2Nat.id by assumption. reflexivity. Qed.
Lemma cumZ_ext F G y : (forall x, 0 <= x < y -> F x = G x) -> cumZ F y = cumZ G y.
Proof.
  unfold cumZ. intros H. destruct (Z.le_gt_cases 0 y) as [Hy|Hy]; [|destruct y; try lia; reflexivity].
  assert (K : forall m, (m <= Z.to_nat y)%nat -> cum F m = cum G m); [|apply K; lia].
  induction m as [|m IH]; intros Hm; [reflexivity|]. cbn [cum]. rewrite IH by lia. rewrite H by lia. reflexivity.
Qed.
Lemma cumZ_xor F G y : cumZ (fun x => xorb (F x) (G x)) y = xorb (cumZ F y) (cumZ G y).
Proof.
  unfold cumZ. induction (Z.to_nat y) as [|m IH]; [reflexivity|]. cbn [cum]. rewrite IH.
  destruct (cum F m), (cum G m), (F (Z.of_nat m)), (G (Z.of_nat m)); reflexivity.
Qed.
Lemma cumZ_false F y : (forall x, 0 <= x < y -> F x = false) -> cumZ F y = false.
Proof. intros H. rewrite (cumZ_ext F (fun _ => false) y H). unfold cumZ. induction (Z.to_nat y) as [|m IH]; [reflexivity|]. cbn [cum]. rewrite IH. reflexivity. Qed.
Lemma cumZ_true F y : cumZ F y = true -> exists x, 0 <= x < y /\ F x = true.
Proof.
  unfold cumZ. intros H. assert (K : forall m, cum F m = true -> exists x, 0 <= x < Z.of_nat m /\ F x = true).
  { induction m as [|m IH]; [discriminate|]. cbn [cum]. intros E. destruct (F (Z.of_nat m)) eqn:EF; [exists (Z.of_nat m); split; [lia|assumption]|].
    rewrite xorb_false_r in E. destruct (IH E) as (x & Hx & Fx). exists x. split; [lia|assumption]. }
  destruct (K _ H) as (x & Hx & Fx). exists x. split; [lia|assumption].
Qed.

(* one axis *)
Section Line.
  Variables (e : ecx) (k : bnd) (d : Z).
  Hypothesis Hd : 2 <= d.
  Definition inr (x : Z) : bool := in_rangeb k d x.
  Definition cellc (x : Z) : bool := inr x && (x mod 2 =? 1 - par e).
  (* the coordinate to which cells are pushed *)
  Definition isbase (x : Z) : bool :=
    match k, e with
    | BPeriodic, EcPrimal => x =? 2 * d - 1
    | BPeriodic, EcDual => x =? 0
    | BDual, EcPrimal => x =? 2 * d - 1
    | BPrimal, EcDual => x =? 2 * d - 2
    | _, _ => false
    end.
  (* the edge at which lines are cut *)
  Definition cut : option Z :=
    match k, e with
    | BPeriodic, EcPrimal => Some 0
    | BPeriodic, EcDual => Some (2 * d - 1)
    | BPrimal, EcPrimal => Some 0
    | BDual, EcDual => Some 1
    | _, _ => None
    end.

  Lemma step_two F x : 1 <= x -> cumZ F (x + 1) = xorb (cumZ F (x - 1)) (xorb (F (x - 1)) (F x)).
  Proof. intros H. rewrite cumZ_succ by lia. replace x with (x - 1 + 1) at 1 by lia. rewrite cumZ_succ by lia. apply xorb_assoc. Qed.

  Lemma push_cells F x : (forall y, cellc y = false -> F y = false) -> cellc x = true ->
    xorb (inr (nxt d x) && cumZ F (nxt d x)) (inr (prv d x) && cumZ F (prv d x)) = xorb (F x) (isbase x && cumZ F (2 * d)).
  Proof.
    intros HF Hx. unfold cellc in *. apply andb_true_iff in Hx. destruct Hx as [Hr Hp]. apply Z.eqb_eq in Hp.
    assert (HF' : forall y, inr y = false \/ y mod 2 <> 1 - par e -> F y = false).
    { intros y Hy. apply HF. apply andb_false_iff. destruct Hy as [Hy|Hy]; [auto|right; apply Z.eqb_neq; assumption]. }
    clear HF. unfold inr in *. apply in_rangeb_true in Hr.
    assert (Htop : cumZ F (2 * d) = xorb (cumZ F (2 * d - 2)) (xorb (F (2 * d - 2)) (F (2 * d - 1)))).
    { replace (2 * d) with (2 * d - 1 + 1) at 1 by lia. rewrite (step_two F (2 * d - 1)) by lia. replace (2 * d - 1 - 1) with (2 * d - 2) by lia. reflexivity. }
    assert (Hb : forall y, in_rangeb k d y = match k with BPrimal => (0 <=? y) && (y <=? 2 * d - 2) | BDual => (1 <=? y) && (y <=? 2 * d - 1) | BPeriodic => (0 <=? y) && (y <=? 2 * d - 1) end) by (intros; destruct k; reflexivity).
    unfold nxt, prv. destruct (Z.eqb_spec x (2 * d - 1)) as [E1|E1].
    - (* the last coordinate *)
      destruct (Z.eqb_spec x 0) as [|E2]; [lia|]. rewrite cumZ_0, andb_false_r. rewrite E1 in *.
      assert (HF2 : F (2 * d - 2) = false) by (apply HF'; right; lia).
      replace (2 * d - 1 - 1) with (2 * d - 2) by lia. rewrite Htop, HF2. unfold isbase.
      destruct k, e; cbn [par] in *; try lia; cbn [in_range] in Hr; try lia.
      + rewrite Z.eqb_refl, (proj2 (in_rangeb_true BDual d (2 * d - 2))) by (simpl; lia). destruct (F (2 * d - 1)), (cumZ F (2 * d - 2)); reflexivity.
      + rewrite Z.eqb_refl, (proj2 (in_rangeb_true BPeriodic d (2 * d - 2))) by (simpl; lia). destruct (F (2 * d - 1)), (cumZ F (2 * d - 2)); reflexivity.
    - destruct (Z.eqb_spec x 0) as [E2|E2].
      + (* the first coordinate *)
        rewrite E2 in *. change (0 + 1) with 1. change 1 with (0 + 1) at 2. rewrite (cumZ_succ F 0) by lia. rewrite cumZ_0, xorb_false_l.
        assert (He : par e = 1) by (rewrite Z.mod_0_l in Hp by lia; lia).
        assert (HF1 : F (2 * d - 1) = false) by (apply HF'; right; lia).
        unfold isbase. destruct k; cbn [in_range] in Hr; try lia; destruct e; cbn [par] in He; try lia.
        * rewrite (proj2 (in_rangeb_true BPrimal d 1)) by (simpl; lia). replace (0 =? 2 * d - 2) with false by lia.
          replace (in_rangeb BPrimal d (2 * d - 1)) with false by (symmetry; simpl; lia). rewrite !andb_true_l, !andb_false_l. reflexivity.
        * rewrite !(proj2 (in_rangeb_true BPeriodic d _)) by (simpl; lia). cbn [andb]. replace (0 =? 0) with true by reflexivity.
          replace (cumZ F (2 * d)) with (cumZ F (2 * d - 1)); [reflexivity|]. rewrite <- (xorb_false_r (cumZ F (2 * d - 1))), <- HF1, <- cumZ_succ by lia. f_equal. lia.
      + assert (1 <= x) by (destruct k; cbn [in_range] in Hr; lia). rewrite (step_two F x) by lia.
        assert (HF1 : F (x - 1) = false) by (apply HF'; right; lia). rewrite HF1.
        assert (Hprv : in_rangeb k d (x - 1) = true \/ cumZ F (x - 1) = false).
        { destruct (in_rangeb k d (x - 1)) eqn:E; [left; reflexivity|right]. apply cumZ_false. intros y Hy. apply HF'.
          left. destruct (in_rangeb k d y) eqn:E'; [|reflexivity]. apply in_rangeb_true in E'. assert (in_range k d (x - 1)); [|apply in_rangeb_true in H0; congruence].
          destruct k; cbn [in_range] in *; lia. }
        replace (in_rangeb k d (x - 1) && cumZ F (x - 1)) with (cumZ F (x - 1)) by (destruct Hprv as [-> | ->]; [reflexivity|rewrite andb_false_r; reflexivity]).
        destruct (in_rangeb k d (x + 1)) eqn:En.
        * apply in_rangeb_true in En. replace (isbase x) with false; [destruct (cumZ F (x - 1)), (F x); reflexivity|].
          symmetry. unfold isbase. destruct k, e; cbn [in_range par] in *; try reflexivity; apply Z.eqb_neq; lia.
        * assert (Hx : k = BPrimal /\ x = 2 * d - 2).
          { destruct k; cbn [in_rangeb in_range] in *; try lia. split; [reflexivity|lia]. }
          destruct Hx as [Ek Ex]. unfold isbase. rewrite Ek in *. rewrite Ex in *. destruct e; cbn [par] in *; [lia|].
          rewrite Z.eqb_refl, Htop. assert (F (2 * d - 1) = false) by (apply HF'; right; lia). rewrite H0.
          replace (cumZ F (2 * d - 2)) with (cumZ F (2 * d - 2 - 1)); [destruct (cumZ F (2 * d - 2 - 1)), (F (2 * d - 2)); reflexivity|].
          rewrite <- (xorb_false_r (cumZ F (2 * d - 2 - 1))), <- HF1, <- cumZ_succ by lia. f_equal. lia.
  Qed.

  Lemma push_edges g y : in_range k d y -> y mod 2 = par e ->
    cumZ (fun x => cellc x && xorb (inr (nxt d x) && g (nxt d x)) (inr (prv d x) && g (prv d x))) y =
    xorb (g y) (match cut with Some s => g s | None => false end).
  Proof.
    intros Hr Hp. set (F := fun x => _). set (sp := match cut with Some s => g s | None => false end).
    assert (K : forall n : nat, (par e + 2 * Z.of_nat n <= y) -> cumZ F (par e + 2 * Z.of_nat n) = xorb (inr (par e + 2 * Z.of_nat n) && g (par e + 2 * Z.of_nat n)) sp).
    { induction n as [|n IH]; intros Hn.
      - replace (par e + 2 * Z.of_nat 0) with (par e) by lia. destruct (par_cases e) as [He|He].
        + rewrite He. rewrite cumZ_0. unfold sp, cut, inr. destruct k, e; cbn [par] in *; try lia; cbn [in_rangeb].
          * replace ((0 <=? 0) && (0 <=? 2 * d - 2)) with true by lia. cbn [andb]. destruct (g 0); reflexivity.
          * reflexivity.
          * replace ((0 <=? 0) && (0 <=? 2 * d - 1)) with true by lia. cbn [andb]. destruct (g 0); reflexivity.
        + rewrite He. change 1 with (0 + 1) at 1. rewrite cumZ_succ, cumZ_0, xorb_false_l by lia. unfold F, sp, cut, cellc, inr, nxt, prv.
          destruct (Z.eqb_spec 0 (2 * d - 1)) as [|_]; [lia|]. change (0 =? 0) with true. cbn [negb]. change (0 + 1) with 1.
          destruct e; cbn [par] in *; [lia|]. change (0 mod 2 =? 1 - 1) with true. rewrite andb_true_r. destruct k; cbn [in_rangeb].
          * replace (0 <=? 2 * d - 2) with true by lia. replace (1 <=? 2 * d - 2) with true by lia. replace (2 * d - 1 <=? 2 * d - 2) with false by lia. rewrite !andb_false_r. change (0 <=? 0) with true. change (0 <=? 1) with true. cbn [andb]. rewrite xorb_false_r. reflexivity.
          * change (1 <=? 0) with false. change (1 <=? 1) with true. replace (1 <=? 2 * d - 1) with true by lia. cbn [andb]. destruct (g 1); reflexivity.
          * change (0 <=? 0) with true. change (0 <=? 1) with true. replace (0 <=? 2 * d - 1) with true by lia. replace (1 <=? 2 * d - 1) with true by lia. rewrite Z.leb_refl. cbn [andb]. reflexivity.
      - assert (Hn' : par e + 2 * Z.of_nat n <= y) by lia. specialize (IH Hn').
        set (z := par e + 2 * Z.of_nat n) in *. replace (par e + 2 * Z.of_nat (S n)) with (z + 2) in * by (unfold z; lia).
        replace (z + 2) with (z + 1 + 1) at 1 by lia. assert (0 <= z) by (unfold z; pose proof (par_cases e); lia).
        rewrite !cumZ_succ by lia. rewrite IH.
        assert (Hz2 : z mod 2 = par e). { unfold z. rewrite (Z.mul_comm 2), Z.mod_add by lia. pose proof (par_cases e). rewrite Z.mod_small; lia. }
        assert (EFz : F z = false). { unfold F, cellc. rewrite Hz2. destruct (Z.eqb_spec (par e) (1 - par e)); [lia|]. rewrite andb_false_r. reflexivity. }
        assert (I2 : inr (z + 2) = true). { apply in_rangeb_true. destruct k; cbn [in_range] in *; lia. }
        assert (I1 : inr (z + 1) = true). { apply in_rangeb_true. destruct k; cbn [in_range] in *; lia. }
        assert (EF1 : F (z + 1) = xorb (g (z + 2)) (inr z && g z)).
        { unfold F, cellc. rewrite I1. replace ((z + 1) mod 2) with (1 - par e) by (destruct (par_cases e); lia). rewrite Z.eqb_refl.
          unfold nxt, prv. assert (z + 1 < 2 * d - 1) by (destruct k; cbn [in_range] in *; lia).
          destruct (Z.eqb_spec (z + 1) (2 * d - 1)); [lia|]. destruct (Z.eqb_spec (z + 1) 0); [lia|].
          replace (z + 1 + 1) with (z + 2) by lia. replace (z + 1 - 1) with z by lia. rewrite I2. reflexivity. }
        rewrite EFz, EF1, I2. destruct (inr z), (g z), (g (z + 2)), sp; reflexivity. }
    assert (Hy : 0 <= y) by (destruct k; cbn [in_range] in Hr; lia).
    assert (Ey : y = par e + 2 * Z.of_nat (Z.to_nat ((y - par e) / 2))).
    { destruct (par_cases e) as [He|He]; rewrite He in *; lia. }
    rewrite Ey at 1. rewrite K by lia. rewrite <- Ey. rewrite (proj2 (in_rangeb_true k d y) Hr : inr y = true). reflexivity.
  Qed.
End Line.
