(* EgraphProofs.v *)
From Coq Require Import Sorting.Sorted Sorting.Permutation.
From Verif Require Import Base Lattice EgraphModel EgraphSpec.
Open Scope Z_scope.

Section Dict.
  Context {K V : Type} (eqb : K -> K -> bool).
  Hypothesis eqb_ok : forall a b, eqb a b = true <-> a = b.
  Lemma eqb_rf a : eqb a a = true.
  Proof. apply eqb_ok. reflexivity. Qed.
  Lemma eqb_no a b : a <> b -> eqb a b = false.
  Proof. intros H. destruct (eqb a b) eqn:E; [|reflexivity]. apply eqb_ok in E. congruence. Qed.
  Lemma dget_None (d : list (K * V)) k : dget eqb d k = None <-> ~ In k (map fst d).
  Proof.
    induction d as [|[k' v] d IH]; simpl; [tauto|]. destruct (eqb k' k) eqn:E.
    - apply eqb_ok in E. subst. split; [discriminate|]. intros H. exfalso. apply H. left. reflexivity.
    - rewrite IH. split; [|tauto]. intros H [->|H']; [rewrite eqb_rf in E; discriminate|contradiction].
  Qed.
  Lemma dget_In (d : list (K * V)) k v : dget eqb d k = Some v -> In (k, v) d.
  Proof.
    induction d as [|[k' v'] d IH]; simpl; [discriminate|]. destruct (eqb k' k) eqn:E; [|auto]. apply eqb_ok in E. intros H. injection H as ->. subst. auto.
  Qed.
  Lemma In_dget (d : list (K * V)) k v : NoDup (map fst d) -> In (k, v) d -> dget eqb d k = Some v.
  Proof.
    induction d as [|[k' v'] d IH]; simpl; intros Hd H; [destruct H|]. inversion Hd as [|? ? Hk Hd']; subst. destruct H as [H|H].
    - injection H as -> ->. rewrite eqb_rf. reflexivity.
    - rewrite eqb_no; [auto|]. intros ->. apply Hk. apply (in_map fst) in H. assumption.
  Qed.
  Lemma dset_new (d : list (K * V)) k v : ~ In k (map fst d) -> dset eqb d k v = d ++ [(k, v)].
  Proof.
    induction d as [|[k' v'] d IH]; simpl; intros H; [reflexivity|]. rewrite eqb_no by (intros ->; tauto). rewrite IH by tauto. reflexivity.
  Qed.
  Lemma dget_dset (d : list (K * V)) k v x : dget eqb (dset eqb d k v) x = if eqb k x then Some v else dget eqb d x.
  Proof.
    induction d as [|[k' v'] d IH]; simpl; [reflexivity|]. destruct (eqb k' k) eqn:E; simpl.
    - apply eqb_ok in E. subst. destruct (eqb k x); reflexivity.
    - rewrite IH. destruct (eqb k' x) eqn:E1; [|reflexivity]. destruct (eqb k x) eqn:E2; [|reflexivity]. apply eqb_ok in E1. apply eqb_ok in E2. subst.
      rewrite eqb_rf in E. discriminate.
  Qed.
  Lemma dset_keys (d : list (K * V)) k v : map fst (dset eqb d k v) = if existsb (fun x => eqb x k) (map fst d) then map fst d else map fst d ++ [k].
  Proof.
    induction d as [|[k' v'] d IH]; simpl; [reflexivity|]. destruct (eqb k' k) eqn:E; simpl; [reflexivity|]. rewrite IH. destruct (existsb _ _); reflexivity.
  Qed.
  Lemma fold_dset (l : list (K * V)) : forall d, NoDup (map fst (d ++ l)) -> fold_left (fun d e => dset eqb d (fst e) (snd e)) l d = d ++ l.
  Proof.
    induction l as [|[k v] l IH]; intros d H; simpl; [rewrite app_nil_r; reflexivity|].
    assert (Hk : ~ In k (map fst d)).
    { intros Hk. rewrite map_app in H. apply NoDup_remove_2 in H. apply H. apply in_or_app. left. assumption. }
    rewrite dset_new by assumption. rewrite IH; rewrite <- app_assoc; [reflexivity|assumption].
  Qed.
  Lemma dict_of_nodup (l : list (K * V)) : NoDup (map fst l) -> dict_of eqb l = l.
  Proof. intros H. unfold dict_of. rewrite fold_dset; [reflexivity|assumption]. Qed.
  Lemma dpop_get (d : list (K * V)) k x : dget eqb (dpop eqb d k) x = if eqb k x then None else dget eqb d x.
  Proof.
    induction d as [|[k' v] d IH]; simpl; [destruct (eqb k x); reflexivity|]. destruct (eqb k' k) eqn:E; simpl.
    - rewrite IH. apply eqb_ok in E. subst. destruct (eqb k x); reflexivity.
    - rewrite IH. destruct (eqb k' x) eqn:E1; [|reflexivity]. destruct (eqb k x) eqn:E2; [|reflexivity]. apply eqb_ok in E1. apply eqb_ok in E2. subst.
      rewrite eqb_rf in E. discriminate.
  Qed.
  Lemma dpop_nodup (d : list (K * V)) {W} (f : K * V -> W) k : NoDup (map f d) -> NoDup (map f (dpop eqb d k)).
  Proof.
    induction d as [|e d IH]; simpl; intros H; [constructor|]. inversion H as [|? ? Hk H']; subst. destruct (negb _); [|auto]. simpl. constructor; [|auto].
    intros Hi. apply Hk. apply in_map_iff in Hi. destruct Hi as (y & E & Hy). apply filter_In in Hy. rewrite <- E. apply in_map. tauto.
  Qed.
End Dict.

Lemma nateqb_ok (a b : nat) : Nat.eqb a b = true <-> a = b.
Proof. apply Nat.eqb_eq. Qed.

(* ---------------- sorting ---------------- *)
Lemma ple_spec p q : ple p q = true <-> plt p q \/ p = q.
Proof.
  destruct p as [[x y] z], q as [[x' y'] z']. unfold ple, plt, co, get. rewrite !orb_true_iff, !andb_true_iff, !orb_true_iff, !andb_true_iff, !Z.ltb_lt, !Z.eqb_eq, Z.leb_le. split.
  - intros [H|(-> & [H|(-> & H)])]; [tauto|tauto|]. destruct (Z.eq_dec z z') as [->|]; [tauto|]. left. right. split; [reflexivity|]. right. split; [reflexivity|lia].
  - intros [[H|(-> & [H|(-> & H)])]|H]; [tauto|tauto| |].
    + right. split; [reflexivity|]. right. split; [reflexivity|lia].
    + injection H as -> -> ->. right. split; [reflexivity|]. right. split; [reflexivity|lia].
Qed.
Lemma plt_irrefl p : ~ plt p p.
Proof. unfold plt. lia. Qed.
Lemma plt_trans p q r : plt p q -> plt q r -> plt p r.
Proof. unfold plt. lia. Qed.
Lemma plt_total p q : plt p q \/ p = q \/ plt q p.
Proof. destruct p as [[x y] z], q as [[x' y'] z']. unfold plt, co, get. assert (x = x' /\ y = y' /\ z = z' \/ ~ (x = x' /\ y = y' /\ z = z')) as [(-> & -> & ->)|H] by lia; [tauto|]. lia. Qed.
Lemma insert_perm p l : Permutation (insert p l) (p :: l).
Proof.
  induction l as [|q l IH]; simpl; [reflexivity|]. destruct (ple p q); [reflexivity|]. rewrite IH. apply perm_swap.
Qed.
Lemma sorted_perm l : Permutation (sorted l) l.
Proof. induction l as [|p l IH]; simpl; [reflexivity|]. rewrite insert_perm. constructor. assumption. Qed.
Lemma insert_sorted p l : ~ In p l -> StronglySorted plt l -> StronglySorted plt (insert p l).
Proof.
  induction l as [|q l IH]; simpl; intros Hn Hs; [repeat constructor|]. inversion Hs as [|? ? Hs' Hf]; subst. destruct (ple p q) eqn:E.
  - apply ple_spec in E. destruct E as [E|E]; [|subst; tauto]. constructor; [assumption|]. constructor; [assumption|].
    rewrite Forall_forall in *. intros x Hx. apply (plt_trans p q x E). auto.
  - constructor; [apply IH; tauto|]. rewrite Forall_forall in *. intros x Hx. apply (Permutation_in _ (insert_perm p l)) in Hx.
    destruct Hx as [<-|Hx]; [|auto]. destruct (plt_total p q) as [H|[H|H]]; [|subst; tauto|assumption]. assert (ple p q = true) by (apply ple_spec; tauto). congruence.
Qed.
Lemma sorted_sorted l : NoDup l -> StronglySorted plt (sorted l).
Proof.
  induction l as [|p l IH]; simpl; intros H; [constructor|]. inversion H as [|? ? Hp H']; subst. apply insert_sorted; [|auto].
  intros Hi. apply Hp. apply (Permutation_in _ (sorted_perm l)). assumption.
Qed.
Lemma sorted_nodup l : NoDup l -> NoDup (sorted l).
Proof. intros H. apply (Permutation_NoDup (Permutation_sym (sorted_perm l))). assumption. Qed.
Lemma sorted_in l p : In p (sorted l) <-> In p l.
Proof. split; apply Permutation_in; [apply sorted_perm|symmetry; apply sorted_perm]. Qed.
Lemma sorted_length l : length (sorted l) = length l.
Proof. apply Permutation_length, sorted_perm. Qed.

(* ---------------- index_generator ---------------- *)
(* the list of points in index order *)
Definition order_of (g : eg) : list point :=
  if negb (e_macro g) then sorted (e_nodes g)
  else match e_m2m g with
       | None => []
       | Some m => flat_map (fun v => match dget peqb m v with Some l => l | None => [] end) (sorted (map fst m))
       end.
Lemma fst_combine_seq {A} (l : list A) k : map fst (combine l (seq k (length l))) = l.
Proof. revert k. induction l as [|x l IH]; intros k; simpl; [reflexivity|]. rewrite IH. reflexivity. Qed.
Lemma snd_combine_seq {A} (l : list A) k : map snd (combine l (seq k (length l))) = seq k (length l).
Proof. revert k. induction l as [|x l IH]; intros k; simpl; [reflexivity|]. rewrite IH. reflexivity. Qed.
Lemma combine_nth_map {A} (d : A) l : map (fun i => (nth i l d, i)) (seq 0 (length l)) = combine l (seq 0 (length l)).
Proof.
  assert (H : forall l k l0, (forall i, nth (k + i) l0 d = nth i l d) -> map (fun i => (nth i l0 d, i)) (seq k (length l)) = combine l (seq k (length l))).
  { clear. induction l as [|x l IH]; intros k l0 H; simpl; [reflexivity|]. rewrite <- (IH (S k) l0).
    - f_equal. f_equal. specialize (H 0%nat). rewrite Nat.add_0_r in H. assumption.
    - intros i. specialize (H (S i)). rewrite Nat.add_succ_r in H. assumption. }
  apply H. reflexivity.
Qed.
Lemma macro_points_perm (m : list (point * list point)) : NoDup (map fst m) -> Permutation (flat_map (fun v => match dget peqb m v with Some l => l | None => [] end) (sorted (map fst m))) (concat (map snd m)).
Proof.
  intros H. rewrite (Permutation_flat_map _ (sorted_perm (map fst m))). apply Permutation_refl'. revert H. 
  assert (G : forall m m' : list (point * list point), NoDup (map fst m') -> incl m m' -> flat_map (fun v => match dget peqb m' v with Some l => l | None => [] end) (map fst m) = concat (map snd m)).
  { clear. induction m as [|[k l] m IH]; intros m' Hd Hi; simpl; [reflexivity|]. rewrite (In_dget peqb peqb_true m' k l Hd) by (apply Hi; left; reflexivity).
    rewrite (IH m' Hd); [reflexivity|]. intros e He. apply Hi. right. assumption. }
  intros H. apply G; [assumption|]. apply incl_refl.
Qed.
Lemma ind_dict_ok g d : graph_ok g -> ind_dict g = Ok d ->
  d = combine (order_of g) (seq 0 (length (order_of g))) /\ Permutation (order_of g) (e_nodes g).
Proof.
  intros (Hn & _ & Hm). unfold ind_dict, order_of. destruct (negb (e_macro g)).
  - intros E. injection E as <-. rewrite <- (sorted_length (e_nodes g)). split; [|apply sorted_perm].
    apply (dict_of_nodup peqb peqb_true). rewrite fst_combine_seq. apply sorted_nodup. assumption.
  - destruct (e_m2m g) as [m|]; [|discriminate]. destruct Hm as (M1 & M2 & M3). cbv zeta.
    set (pts := flat_map _ (sorted (map fst m))). pose proof (macro_points_perm m M1) as HP. fold pts in HP.
    assert (Hnd : NoDup pts) by (apply (Permutation_NoDup (Permutation_sym HP)); assumption).
    assert (Hin : incl pts (e_nodes g)) by (intros p Hp; apply M3; apply (Permutation_in _ HP); assumption).
    destruct (Nat.ltb_spec (length pts) (length (e_nodes g))); [discriminate|]. intros E. injection E as <-.
    assert (HL : length pts = length (e_nodes g)) by (pose proof (NoDup_incl_length Hnd Hin); lia).
    rewrite <- HL, combine_nth_map. split.
    + apply (dict_of_nodup peqb peqb_true). rewrite fst_combine_seq. assumption.
    + apply NoDup_Permutation; [assumption|assumption|]. intros p. split; [apply Hin|]. apply (NoDup_length_incl Hnd); [lia|assumption].
Qed.
Lemma get_combine (l : list point) p i : NoDup l -> (dget peqb (combine l (seq 0 (length l))) p = Some i <-> nth_error l i = Some p).
Proof.
  intros Hd. assert (Hk : NoDup (map fst (combine l (seq 0 (length l))))) by (rewrite fst_combine_seq; assumption).
  assert (H : forall l k, In (p, i) (combine l (seq k (length l))) <-> (k <= i)%nat /\ nth_error l (i - k) = Some p).
  { clear. induction l as [|x l IH]; intros k; simpl.
    - split; [tauto|]. intros (_ & H). destruct (i - k)%nat; discriminate.
    - rewrite IH. split.
      + intros [E|(H1 & H2)]; [injection E as -> ->; rewrite Nat.sub_diag; auto|]. split; [lia|]. replace (i - k)%nat with (S (i - S k)) by lia. assumption.
      + intros (H1 & H2). destruct (Nat.eq_dec i k) as [->|]; [rewrite Nat.sub_diag in H2; simpl in H2; injection H2 as ->; auto|].
        right. split; [lia|]. replace (i - k)%nat with (S (i - S k)) in H2 by lia. assumption. }
  specialize (H l 0%nat). rewrite Nat.sub_0_r in H. split; intros E.
  - apply H. apply (dget_In peqb peqb_true). assumption.
  - apply (In_dget peqb peqb_true); [assumption|]. apply H. split; [lia|assumption].
Qed.
Lemma get_combine_inv (l : list point) p i : NoDup l -> (dget Nat.eqb (dict_of Nat.eqb (map (fun e => (snd e, fst e)) (combine l (seq 0 (length l))))) i = Some p <-> nth_error l i = Some p).
Proof.
  intros Hd. rewrite (dict_of_nodup Nat.eqb nateqb_ok).
  2:{ rewrite map_map. cbn [fst]. rewrite snd_combine_seq. apply seq_NoDup. }
  assert (Hk : NoDup (map fst (map (fun e : point * nat => (snd e, fst e)) (combine l (seq 0 (length l)))))) by (rewrite map_map; cbn [fst]; rewrite snd_combine_seq; apply seq_NoDup).
  rewrite <- (get_combine l p i Hd). split; intros E.
  - apply (dget_In Nat.eqb nateqb_ok) in E. apply in_map_iff in E. destruct E as ((q & k) & E & Hi). injection E as -> ->.
    apply (In_dget peqb peqb_true); [rewrite fst_combine_seq; assumption|assumption].
  - apply (In_dget Nat.eqb nateqb_ok); [assumption|]. apply (dget_In peqb peqb_true) in E. apply in_map_iff. exists (p, i). auto.
Qed.
Lemma index_generator_ok g g' d : graph_ok g -> e_idx g = None -> index_generator g = (g', Ok d) ->
  Permutation (order_of g) (e_nodes g) /\ g' = set_dicts g (e_idx g') (e_pts g') /\ e_idx g' = Some d /\ e_pts g' <> None /\
  (forall p i, idx g' p = Some i <-> nth_error (order_of g) i = Some p) /\ (forall p i, pnt g' i = Some p <-> nth_error (order_of g) i = Some p).
Proof.
  intros Hg Hi. unfold index_generator. rewrite Hi. destruct (ind_dict g) as [d0|] eqn:E; [|discriminate]. intros H. injection H as <- <-.
  destruct (ind_dict_ok g d0 Hg E) as [-> HP]. assert (Hnd : NoDup (order_of g)) by (apply (Permutation_NoDup (Permutation_sym HP)); apply Hg).
  split; [assumption|]. split; [reflexivity|]. split; [reflexivity|]. split; [discriminate|]. unfold idx, pnt. cbn [e_idx e_pts set_dicts]. split.
  - intros p i. apply get_combine. assumption.
  - intros p i. apply get_combine_inv. assumption.
Qed.
Lemma index_generator_indexed g g' d : graph_ok g -> e_idx g = None -> index_generator g = (g', Ok d) -> indexed g'.
Proof.
  intros Hg Hi E. destruct (index_generator_ok g g' d Hg Hi E) as (HP & Es & E1 & E2 & H1 & H2). split; [congruence|]. split; [assumption|]. split.
  - intros p i. rewrite H1, H2. reflexivity.
  - intros p. assert (En : e_nodes g' = e_nodes g) by (rewrite Es; reflexivity). rewrite En. split.
    + intros Hp. apply (Permutation_in _ (Permutation_sym HP)) in Hp. apply In_nth_error in Hp. destruct Hp as (i & Hp). apply H1 in Hp. congruence.
    + intros Hp. destruct (idx g' p) as [i|] eqn:Ei; [|congruence]. apply H1, nth_error_In in Ei. apply (Permutation_in _ HP). assumption.
Qed.
Lemma index_generator_graph g : same_graph g (fst (index_generator g)) /\ e_adj (fst (index_generator g)) = e_adj g.
Proof. unfold index_generator. destruct (e_idx g); [repeat split|]. destruct (ind_dict g); repeat split. Qed.
