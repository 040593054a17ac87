(* CvMacroLists.v: lists of four consecutive indices per macronode. *)
From Coq Require Import String.
From Verif Require Import Base Lattice GkpModel OpsModel EgraphModel PropsOps CvModel CvSpec CvProofs CvNoise CvMacroModel.
Open Scope nat_scope.

(* the indices of macronode k, those outside P first *)
Definition blk (P : list nat) (k : nat) : list nat :=
  filter (fun i => negb (memn i P)) (seq (4 * k) 4) ++ filter (fun i => memn i P) (seq (4 * k) 4).
Definition pi (P : list nat) (k i : nat) : nat := nth i (blk P k) 0.
Definition perm_of (P : list nat) (n : nat) : list nat := flat_map (blk P) (seq 0 n).

Lemma filter_perm {A} (f : A -> bool) l : Permutation (filter (fun x => negb (f x)) l ++ filter f l) l.
Proof.
  induction l as [|x l IH]; [constructor|]. simpl. destruct (f x); simpl.
  - apply Permutation_sym, Permutation_cons_app, Permutation_sym. exact IH.
  - constructor. exact IH.
Qed.
Lemma blk_perm P k : Permutation (blk P k) (seq (4 * k) 4).
Proof. apply filter_perm. Qed.
Lemma blk_length P k : List.length (blk P k) = 4.
Proof. rewrite (Permutation_length (blk_perm P k)). reflexivity. Qed.
Lemma blk_nodup P k : NoDup (blk P k).
Proof. apply (Permutation_NoDup (Permutation_sym (blk_perm P k))), seq_NoDup. Qed.
Lemma blk_in P k i : In i (blk P k) <-> 4 * k <= i < 4 * k + 4.
Proof.
  rewrite <- in_seq. split; intros H; [apply (Permutation_in _ (blk_perm P k))|apply (Permutation_in _ (Permutation_sym (blk_perm P k)))]; assumption.
Qed.
Lemma pi_range P k i : i < 4 -> 4 * k <= pi P k i < 4 * k + 4.
Proof. intros H. apply (blk_in P). apply nth_In. rewrite blk_length. exact H. Qed.
Lemma pi_inj P k k' i i' : i < 4 -> i' < 4 -> pi P k i = pi P k' i' -> k = k' /\ i = i'.
Proof.
  intros H H' E. pose proof (pi_range P k i H). pose proof (pi_range P k' i' H'). assert (k = k') by lia. subst k'. split; [reflexivity|].
  apply (proj1 (NoDup_nth (blk P k) 0) (blk_nodup P k)); [rewrite blk_length; assumption..|exact E].
Qed.
Lemma pi_surj P k j : j < 4 -> exists i, i < 4 /\ pi P k i = 4 * k + j.
Proof.
  intros H. assert (Hi : In (4 * k + j) (blk P k)) by (apply blk_in; lia). apply (In_nth _ _ 0) in Hi. destruct Hi as (i & Hi & E). rewrite blk_length in Hi. exists i. auto.
Qed.
Lemma blk_list P k : blk P k = [pi P k 0; pi P k 1; pi P k 2; pi P k 3].
Proof. unfold pi. pose proof (blk_length P k) as H. destruct (blk P k) as [|a [|b [|c [|d [|e l]]]]]; try discriminate. reflexivity. Qed.
(* the star is the first index outside P, if there is one *)
Lemma star_spec P k : (In (pi P k 0) P <-> forall j, j < 4 -> In (4 * k + j) P) /\
  (~ In (pi P k 0) P -> exists j, j < 4 /\ pi P k 0 = 4 * k + j /\ forall j', j' < j -> In (4 * k + j') P).
Proof.
  unfold pi, blk. set (x := fun j => 4 * k + j). assert (E : seq (4 * k) 4 = [x 0; x 1; x 2; x 3]) by (unfold x; cbn [seq]; repeat (f_equal; try lia)). rewrite E.
  assert (Hall : (forall j, j < 4 -> In (4 * k + j) P) <-> In (x 0) P /\ In (x 1) P /\ In (x 2) P /\ In (x 3) P).
  { split; [intros H; repeat split; apply H; lia|]. intros (A & B & C & D) j Hj. destruct j as [|[|[|[|j]]]]; [exact A|exact B|exact C|exact D|lia]. }
  cbn [filter].
  destruct (memn (x 0) P) eqn:E0; [apply memn_In in E0|apply memn_false in E0]; (destruct (memn (x 1) P) eqn:E1; [apply memn_In in E1|apply memn_false in E1]);
  (destruct (memn (x 2) P) eqn:E2; [apply memn_In in E2|apply memn_false in E2]); (destruct (memn (x 3) P) eqn:E3; [apply memn_In in E3|apply memn_false in E3]);
  cbn [negb app nth]; (split; [eapply iff_trans; [|apply iff_sym, Hall]; tauto|]); intros Hn; try contradiction;
  match goal with
  | |- exists j, _ /\ x ?a = _ /\ _ => exists a; split; [lia|]; split; [reflexivity|]; intros j' Hj'; destruct j' as [|[|[|j']]]; try lia; assumption
  end.
Qed.
Lemma flat4_length {A} (f : nat -> list A) a n : (forall k, List.length (f k) = 4) -> List.length (flat_map f (seq a n)) = 4 * n.
Proof. intros H. revert a. induction n as [|n IH]; intros a; [reflexivity|]. simpl seq. cbn [flat_map]. rewrite app_length, H, IH. lia. Qed.
Lemma flat4_nth {A} (f : nat -> list A) d a n k i : (forall k, List.length (f k) = 4) -> k < n -> i < 4 -> nth (4 * k + i) (flat_map f (seq a n)) d = nth i (f (a + k)) d.
Proof.
  intros H. revert a k. induction n as [|n IH]; intros a k Hk Hi; [lia|]. simpl seq. cbn [flat_map]. destruct k as [|k].
  - rewrite app_nth1 by (rewrite H; lia). rewrite Nat.add_0_r. reflexivity.
  - rewrite app_nth2 by (rewrite H; lia). rewrite H. replace (4 * S k + i - 4) with (4 * k + i) by lia. rewrite IH by lia. f_equal. f_equal. lia.
Qed.
Lemma perm_length P n : List.length (perm_of P n) = 4 * n.
Proof. apply flat4_length, blk_length. Qed.
Lemma perm_nth P n k i : k < n -> i < 4 -> nth (4 * k + i) (perm_of P n) 0 = pi P k i.
Proof. intros Hk Hi. unfold perm_of. rewrite flat4_nth by (try apply blk_length; assumption). reflexivity. Qed.
Lemma seq_blocks n : flat_map (fun k => seq (4 * k) 4) (seq 0 n) = seq 0 (4 * n).
Proof.
  induction n as [|n IH]; [reflexivity|]. rewrite seq_S, flat_map_app, IH. cbn [flat_map]. rewrite app_nil_r. replace (4 * S n) with (4 * n + 4) by lia. rewrite seq_app. reflexivity.
Qed.
Lemma flat_map_perm {A B} (f g : A -> list B) l : (forall x, Permutation (f x) (g x)) -> Permutation (flat_map f l) (flat_map g l).
Proof. intros H. induction l as [|x l IH]; [constructor|]. simpl. apply Permutation_app; auto. Qed.
Lemma perm_perm P n : Permutation (perm_of P n) (seq 0 (4 * n)).
Proof. rewrite <- seq_blocks. apply flat_map_perm, blk_perm. Qed.
Lemma perm_nodup P n : NoDup (perm_of P n).
Proof. apply (Permutation_NoDup (Permutation_sym (perm_perm P n))), seq_NoDup. Qed.
Lemma perm_in P n i : In i (perm_of P n) <-> i < 4 * n.
Proof.
  split; intros H; [apply (Permutation_in _ (perm_perm P n)), in_seq in H; lia|]. apply (Permutation_in _ (Permutation_sym (perm_perm P n))), in_seq. lia.
Qed.
Lemma split4 i n : i < 4 * n -> exists k j, i = 4 * k + j /\ k < n /\ j < 4.
Proof.
  intros H. exists (i / 4), (i mod 4). split; [apply Nat.div_mod; lia|]. split; [apply Nat.div_lt_upper_bound; lia|apply Nat.mod_upper_bound; lia].
Qed.
Lemma div4 k j : j < 4 -> (4 * k + j) / 4 = k /\ (4 * k + j) mod 4 = j.
Proof. intros H. split; [symmetry; apply (Nat.div_unique _ 4 k j); lia|symmetry; apply (Nat.mod_unique _ 4 k j); lia]. Qed.

(* stars and planets *)
Lemma enum_blocks P n : combine (seq 0 (List.length (perm_of P n))) (perm_of P n) = flat_map (fun k => [(4 * k, pi P k 0); (4 * k + 1, pi P k 1); (4 * k + 2, pi P k 2); (4 * k + 3, pi P k 3)]) (seq 0 n).
Proof.
  assert (G : forall n a, combine (seq (4 * a) (List.length (flat_map (blk P) (seq a n)))) (flat_map (blk P) (seq a n)) =
    flat_map (fun k => [(4 * k, pi P k 0); (4 * k + 1, pi P k 1); (4 * k + 2, pi P k 2); (4 * k + 3, pi P k 3)]) (seq a n)).
  { clear n. induction n as [|n IH]; intros a; [reflexivity|]. simpl (seq a (S n)). cbn [flat_map]. rewrite (blk_list P a). cbn [app List.length seq combine]. rewrite <- (IH (S a)).
    replace (4 * a + 1) with (S (4 * a)) by lia. replace (4 * a + 2) with (S (S (4 * a))) by lia. replace (4 * a + 3) with (S (S (S (4 * a)))) by lia. replace (4 * S a) with (S (S (S (S (4 * a))))) by lia. reflexivity. }
  apply (G n 0).
Qed.
Lemma filter_blocks P n (f : nat -> bool) : filter (fun e => f (fst e mod 4)) (flat_map (fun k => [(4 * k, pi P k 0); (4 * k + 1, pi P k 1); (4 * k + 2, pi P k 2); (4 * k + 3, pi P k 3)]) (seq 0 n)) =
  flat_map (fun k => filter (fun e => f (fst e mod 4)) [(4 * k, pi P k 0); (4 * k + 1, pi P k 1); (4 * k + 2, pi P k 2); (4 * k + 3, pi P k 3)]) (seq 0 n).
Proof. induction (seq 0 n) as [|k l IH]; [reflexivity|]. cbn [flat_map]. rewrite filter_app, IH. reflexivity. Qed.
Lemma mod4s k : 4 * k mod 4 = 0 /\ (4 * k + 1) mod 4 = 1 /\ (4 * k + 2) mod 4 = 2 /\ (4 * k + 3) mod 4 = 3.
Proof. split; [replace (4 * k) with (4 * k + 0) by lia|]; repeat split; apply div4; lia. Qed.
Lemma stars_ok P n : stars (perm_of P n) = map (fun k => pi P k 0) (seq 0 n).
Proof.
  unfold stars. rewrite enum_blocks, (filter_blocks P n (fun i => Nat.eqb i 0)). induction (seq 0 n) as [|k l IH]; [reflexivity|]. cbn [flat_map]. rewrite map_app, IH.
  cbn [filter fst]. destruct (mod4s k) as (-> & -> & -> & ->). reflexivity.
Qed.
Lemma planets_ok P n : planets (perm_of P n) = flat_map (fun k => [pi P k 1; pi P k 2; pi P k 3]) (seq 0 n).
Proof.
  unfold planets. rewrite enum_blocks, (filter_blocks P n (fun i => negb (Nat.eqb i 0))). induction (seq 0 n) as [|k l IH]; [reflexivity|]. cbn [flat_map]. rewrite map_app, IH.
  cbn [filter fst]. destruct (mod4s k) as (-> & -> & -> & ->). reflexivity.
Qed.
Lemma flat3_length {A} (f : nat -> list A) a n : (forall k, List.length (f k) = 3) -> List.length (flat_map f (seq a n)) = 3 * n.
Proof. intros H. revert a. induction n as [|n IH]; intros a; [reflexivity|]. simpl seq. cbn [flat_map]. rewrite app_length, H, IH. lia. Qed.
Lemma flat3_nth {A} (f : nat -> list A) d a n k i : (forall k, List.length (f k) = 3) -> k < n -> i < 3 -> nth (3 * k + i) (flat_map f (seq a n)) d = nth i (f (a + k)) d.
Proof.
  intros H. revert a k. induction n as [|n IH]; intros a k Hk Hi; [lia|]. simpl seq. cbn [flat_map]. destruct k as [|k].
  - rewrite app_nth1 by (rewrite H; lia). rewrite Nat.add_0_r. reflexivity.
  - rewrite app_nth2 by (rewrite H; lia). rewrite H. replace (3 * S k + i - 3) with (3 * k + i) by lia. rewrite IH by lia. f_equal. f_equal. lia.
Qed.
Lemma nth_planet P n k i : k < n -> 1 <= i < 4 -> nth (3 * k + (i - 1)) (planets (perm_of P n)) 0 = pi P k i.
Proof.
  intros Hk Hi. rewrite planets_ok, flat3_nth by (try reflexivity; lia). rewrite Nat.add_0_l. destruct i as [|[|[|[|i]]]]; try lia; reflexivity.
Qed.
Lemma nth_star P n k : k < n -> nth k (stars (perm_of P n)) 0 = pi P k 0.
Proof. intros Hk. rewrite stars_ok. rewrite (nth_indep _ 0 (pi P 0 0)) by (rewrite map_length, seq_length; assumption). rewrite (map_nth (fun k => pi P k 0)). rewrite seq_nth by assumption. reflexivity. Qed.
Lemma in_stars P n i : In i (stars (perm_of P n)) <-> exists k, k < n /\ i = pi P k 0.
Proof. rewrite stars_ok, in_map_iff. split; [intros (k & <- & H); apply in_seq in H; exists k; split; [lia|reflexivity]|intros (k & H & ->); exists k; split; [reflexivity|apply in_seq; lia]]. Qed.
Lemma in_planets P n i : In i (planets (perm_of P n)) <-> exists k a, k < n /\ 1 <= a < 4 /\ i = pi P k a.
Proof.
  rewrite planets_ok, in_flat_map. split.
  - intros (k & H & Hi). apply in_seq in H. simpl in Hi. destruct Hi as [<-|[<-|[<-|[]]]]; [exists k, 1|exists k, 2|exists k, 3]; (split; [lia|split; [lia|reflexivity]]).
  - intros (k & a & H & Ha & ->). exists k. split; [apply in_seq; lia|]. destruct a as [|[|[|[|a]]]]; simpl; try lia; auto.
Qed.
Lemma stars_length P n : List.length (stars (perm_of P n)) = n.
Proof. rewrite stars_ok, map_length, seq_length. reflexivity. Qed.
Lemma planets_length P n : List.length (planets (perm_of P n)) = 3 * n.
Proof. rewrite planets_ok. apply flat3_length. reflexivity. Qed.
Lemma stars_nodup P n : NoDup (stars (perm_of P n)).
Proof.
  rewrite stars_ok. apply FinFun.Injective_map_NoDup; [|apply seq_NoDup]. intros k k' E. apply pi_inj in E; lia.
Qed.
Lemma planets_nodup P n : NoDup (planets (perm_of P n)).
Proof.
  rewrite planets_ok. assert (H : forall a n, NoDup (flat_map (fun k => [pi P k 1; pi P k 2; pi P k 3]) (seq a n))); [|apply H]. clear n. intros a n. revert a. induction n as [|n IH]; intros a; [constructor|].
  simpl (seq a (S n)). cbn [flat_map]. apply NoDup_app_intro; [|apply IH|].
  - pose proof (blk_nodup P a) as H. rewrite blk_list in H. apply NoDup_cons_iff in H. apply H.
  - intros x Hx Hx'. apply in_flat_map in Hx'. destruct Hx' as (k & Hk & Hx'). apply in_seq in Hk. simpl in Hx, Hx'.
    pose proof (pi_range P a 1 ltac:(lia)). pose proof (pi_range P a 2 ltac:(lia)). pose proof (pi_range P a 3 ltac:(lia)).
    pose proof (pi_range P k 1 ltac:(lia)). pose proof (pi_range P k 2 ltac:(lia)). pose proof (pi_range P k 3 ltac:(lia)).
    destruct Hx as [<-|[<-|[<-|[]]]], Hx' as [E|[E|[E|[]]]]; lia.
Qed.

(* permute_star_inds *)
Lemma filter_combine {A} (f : A -> bool) l : map fst (filter (fun e => snd e) (combine l (map f l))) = filter f l.
Proof. induction l as [|x l IH]; [reflexivity|]. simpl. destruct (f x); simpl; rewrite IH; reflexivity. Qed.
Lemma filter_combine_neg {A} (f : A -> bool) l : map fst (filter (fun e => negb (snd e)) (combine l (map f l))) = filter (fun x => negb (f x)) l.
Proof. induction l as [|x l IH]; [reflexivity|]. simpl. destruct (f x); simpl; rewrite IH; reflexivity. Qed.
Lemma mapR_total {A B} (f : A -> res B) (g : A -> B) l : (forall x, In x l -> f x = Ok (g x)) -> mapR f l = Ok (map g l).
Proof. induction l as [|x l IH]; intros H; [reflexivity|]. simpl. rewrite (H x (or_introl eq_refl)). simpl. rewrite IH by (intros; apply H; right; assumption). reflexivity. Qed.
Lemma permute_star_inds_ok c P n : v_N c = 4 * n -> 0 < n -> (forall i, i < v_N c -> is_gkp c i = Ok (negb (memn i P))) -> permute_star_inds c = Ok (perm_of P n).
Proof.
  intros EN Hn H. unfold permute_star_inds. rewrite EN. destruct (mod4s n) as (-> & _). rewrite Nat.eqb_refl. rewrite (proj2 (Nat.ltb_lt 0 (4 * n))) by lia. cbn [andb].
  replace (4 * n / 4) with n by (symmetry; rewrite Nat.mul_comm; apply Nat.div_mul; lia).
  rewrite (mapR_total _ (blk P)).
  - cbn [bind]. unfold perm_of. rewrite flat_map_concat_map. reflexivity.
  - intros k Hk. apply in_seq in Hk. unfold permute_macronode. rewrite (mapR_total _ (fun i => negb (memn i P))).
    + cbn [bind]. rewrite filter_combine, filter_combine_neg. unfold blk. f_equal. f_equal. apply filter_ext. intros a. destruct (memn a P); reflexivity.
    + intros i Hi. apply in_seq in Hi. apply H. lia.
Qed.
