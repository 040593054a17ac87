(* EgraphInv.v: the invariant of EGraph under its own methods. *)
From Coq Require Import Sorting.Sorted Sorting.Permutation.
From Verif Require Import Base Lattice EgraphModel EgraphSpec EgraphProofs.
Open Scope Z_scope.

Definition dicts_ok (ns : list point) (ti : list (point * nat)) (tp : list (nat * point)) : Prop :=
  NoDup (map fst ti) /\ NoDup (map fst tp) /\ (forall p i, In (p, i) ti <-> In (i, p) tp) /\ (forall p, In p ns <-> In p (map fst ti)).
Definition indexed_ok (g : eg) : Prop := exists ti tp, e_idx g = Some ti /\ e_pts g = Some tp /\ dicts_ok (e_nodes g) ti tp.
Definition inv (g : eg) : Prop :=
  graph_ok g /\ (unindexed g \/ indexed_ok g) /\ (forall a, e_adj g = Some a -> indexed_ok g /\ current g a).

Lemma dicts_snd_nodup ns ti tp : dicts_ok ns ti tp -> NoDup (map snd ti).
Proof.
  intros (H1 & H2 & H3 & _). clear ns. assert (Hs : forall p q i, In (p, i) ti -> In (q, i) ti -> p = q).
  { intros p q i Hp Hq. apply H3 in Hp. apply H3 in Hq. apply (In_dget Nat.eqb nateqb_ok _ _ _ H2) in Hp. apply (In_dget Nat.eqb nateqb_ok _ _ _ H2) in Hq. congruence. }
  clear H2 H3 tp. induction ti as [|[p i] ti IH]; simpl; [constructor|]. simpl in H1. inversion H1 as [|? ? Hp H1']; subst. constructor.
  - intros Hi. apply in_map_iff in Hi. destruct Hi as ((q & j) & E & Hq). simpl in E. subst. apply Hp. rewrite (Hs p q i); [apply (in_map fst _ _ Hq)|left; reflexivity|right; assumption].
  - apply IH; [assumption|]. intros a b j Ha Hb. apply (Hs a b j); right; assumption.
Qed.
Lemma indexed_ok_indexed g : indexed_ok g -> indexed g.
Proof.
  intros (ti & tp & E1 & E2 & D1 & D2 & D3 & D4). unfold indexed, idx, pnt. rewrite E1, E2. split; [discriminate|]. split; [discriminate|]. split.
  - intros p i. split; intros H.
    + apply (In_dget Nat.eqb nateqb_ok _ _ _ D2). apply D3. apply (dget_In peqb peqb_true). assumption.
    + apply (In_dget peqb peqb_true _ _ _ D1). apply D3. apply (dget_In Nat.eqb nateqb_ok). assumption.
  - intros p. rewrite D4. destruct (dget peqb ti p) as [i|] eqn:E.
    + apply (dget_In peqb peqb_true) in E. split; [discriminate|]. intros _. apply (in_map fst _ _ E).
    + apply (dget_None peqb peqb_true) in E. tauto.
Qed.
Lemma index_generator_inv g g' d : inv g -> e_idx g = None -> index_generator g = (g', Ok d) -> indexed_ok g' /\ inv g'.
Proof.
  intros (Hg & Hd & Ha) Hi E. pose proof (index_generator_graph g) as HS. rewrite E in HS. cbn [fst] in HS. destruct HS as ((S1 & S2 & S3 & S4) & S5).
  assert (Hio : indexed_ok g').
  { pose proof E as E'. unfold index_generator in E. rewrite Hi in E. destruct (ind_dict g) as [d0|] eqn:Ed; [|discriminate]. injection E as <- <-.
    destruct (ind_dict_ok g d0 Hg Ed) as [-> HP]. set (l := order_of g) in *. assert (Hnd : NoDup l) by (apply (Permutation_NoDup (Permutation_sym HP)); apply Hg).
    exists (combine l (seq 0 (length l))), (map (fun e => (snd e, fst e)) (combine l (seq 0 (length l)))). cbn [e_idx e_pts set_dicts e_nodes].
    assert (K2 : NoDup (map fst (map (fun e : point * nat => (snd e, fst e)) (combine l (seq 0 (length l)))))) by (rewrite map_map; cbn [fst]; rewrite snd_combine_seq; apply seq_NoDup).
    split; [reflexivity|]. split; [rewrite (dict_of_nodup Nat.eqb nateqb_ok) by assumption; reflexivity|]. split; [rewrite fst_combine_seq; assumption|].
    split; [assumption|]. split.
    - intros p i. rewrite in_map_iff. split; [intros H; exists (p, i); auto|]. intros ((q & j) & Eq & H). simpl in Eq. congruence.
    - intros p. rewrite fst_combine_seq. split; apply Permutation_in; [symmetry|]; assumption. }
  split; [assumption|]. split; [|split; [right; assumption|]].
  - unfold graph_ok in *. rewrite S1, S2, S4. assumption.
  - intros a Ea. rewrite S5 in Ea. destruct (Ha a Ea) as ((ti & tp & E1 & _) & _). congruence.
Qed.
Lemma index_generator_inv' g g' r : inv g -> index_generator g = (g', r) -> inv g' /\ (forall d, r = Ok d -> indexed_ok g') /\ same_graph g g' /\ (indexed_ok g -> g' = g).
Proof.
  intros HI E. pose proof (index_generator_graph g) as HS. rewrite E in HS. cbn [fst] in HS. destruct (e_idx g) as [ti|] eqn:Ei.
  - unfold index_generator in E. rewrite Ei in E. injection E as <- <-. split; [assumption|]. split; [|split; [repeat split|auto]].
    intros d _. destruct HI as (_ & [(H & _)|H] & _); [congruence|assumption].
  - destruct r as [d|].
    + destruct (index_generator_inv g g' d HI Ei E) as [H1 H2]. split; [assumption|]. split; [auto|]. split; [tauto|]. intros (ti & tp & H & _). congruence.
    + unfold index_generator in E. rewrite Ei in E. destruct (ind_dict g); [discriminate|]. injection E as <- <-. split; [assumption|]. split; [discriminate|]. split; [repeat split|auto].
Qed.

(* ---------------- adj_generator ---------------- *)
Lemma is_edge_true u v e : is_edge u v e = true <-> fst e = (u, v) \/ fst e = (v, u).
Proof.
  destruct e as [[a b] w]. unfold is_edge. cbn [fst snd]. rewrite orb_true_iff, !andb_true_iff, !peqb_true. split.
  - intros [[-> ->]|[-> ->]]; auto.
  - intros [H|H]; injection H as -> ->; auto.
Qed.
Lemma weight_joined g p q : joined g p q (weight g p q) \/ (weight g p q = 0 /\ forall w, ~ joined g p q w).
Proof.
  unfold weight. destruct (find (is_edge p q) (e_edges g)) as [e|] eqn:E.
  - left. apply find_some in E. destruct E as [Hi He]. apply is_edge_true in He. destruct e as [uv w]. cbn [fst snd] in *. destruct He as [-> | ->]; [left|right]; assumption.
  - right. split; [reflexivity|]. intros w [H|H]; apply (find_none _ _ E) in H; assert (is_edge p q (p, q, w) = true /\ is_edge p q (q, p, w) = true) as [H1 H2] by (split; apply is_edge_true; auto); congruence.
Qed.
Lemma mapR_ok {A B} (f : A -> res B) l ys : mapR f l = Ok ys -> Forall2 (fun x y => f x = Ok y) l ys.
Proof.
  revert ys. induction l as [|x l IH]; intros ys E; simpl in E; [injection E as <-; constructor|]. destruct (f x) as [y|] eqn:Ex; [|discriminate]. simpl in E.
  destruct (mapR f l) as [ys'|]; [|discriminate]. injection E as <-. constructor; auto.
Qed.
Lemma mapR_err {A B} (f : A -> res B) l e : mapR f l = Err e -> exists x, In x l /\ f x = Err e.
Proof.
  induction l as [|x l IH]; simpl; [discriminate|]. destruct (f x) as [y|e'] eqn:Ex; simpl.
  - destruct (mapR f l) as [ys|]; [discriminate|]. intros E. injection E as <-. destruct (IH eq_refl) as (z & Hz & Ez). eauto.
  - intros E. injection E as <-. eauto.
Qed.
Lemma F2_length {A B} (P : A -> B -> Prop) l m : Forall2 P l m -> length l = length m.
Proof. induction 1; simpl; congruence. Qed.
Lemma F2_nth {A B} (P : A -> B -> Prop) l m a b i : Forall2 P l m -> (i < length l)%nat -> P (nth i l a) (nth i m b).
Proof. intros H. revert i. induction H as [|x y l m Hxy _ IH]; intros [|i] Hi; simpl in *; try lia; [assumption|]. apply IH. lia. Qed.
Lemma to_array_ok g s l a : to_array g s l = Ok a -> a = map (fun u => map (weight g u) l) l.
Proof. unfold to_array. destruct (_ && _); [discriminate|]. destruct (_ && _); [|discriminate]. congruence. Qed.
Lemma adj_generator_inv g s g' r : inv g -> adj_generator g s = (g', r) ->
  inv g' /\ same_graph g g' /\ (indexed_ok g -> e_idx g' = e_idx g /\ e_pts g' = e_pts g) /\ (forall a, r = Ok a -> indexed_ok g' /\ current g' a).
Proof.
  intros HI. unfold adj_generator. destruct (e_adj g) as [a|] eqn:Ea.
  - intros E. injection E as <- <-. split; [assumption|]. split; [repeat split|]. split; [auto|]. intros a' E. injection E as <-. apply HI. assumption.
  - destruct (match e_pts g with None => _ | Some _ => _ end) as (g1, r1) eqn:E1.
    assert (H1 : inv g1 /\ same_graph g g1 /\ (indexed_ok g -> g1 = g) /\ (r1 = Ok tt -> indexed_ok g1)).
    { destruct (e_pts g) as [tp|] eqn:Ep.
      - injection E1 as <- <-. split; [assumption|]. split; [repeat split|]. split; [auto|]. intros _. destruct HI as (_ & [(_ & H)|H] & _); [congruence|assumption].
      - destruct (index_generator g) as (g2, r2) eqn:E2. injection E1 as <- <-. destruct (index_generator_inv' g g2 r2 HI E2) as (A1 & A2 & A3 & A4).
        split; [assumption|]. split; [assumption|]. split; [assumption|]. intros H. destruct r2 as [d|]; [apply (A2 d eq_refl)|discriminate]. }
    destruct H1 as (I1 & S1 & Sm & X1). destruct r1 as [[]|e1].
    2:{ intros E. injection E as <- <-. split; [assumption|]. split; [assumption|]. split; [intros H; rewrite (Sm H); auto|]. discriminate. }
    specialize (X1 eq_refl). destruct (bind _ _) as [a|e] eqn:Eb.
    2:{ intros E. injection E as <- <-. split; [assumption|]. split; [assumption|]. split; [intros H; rewrite (Sm H); auto|]. discriminate. }
    intros E. injection E as <- <-. 
    assert (Hcur : current g1 a).
    { destruct (mapR _ _) as [ps|] eqn:Em in Eb; [|discriminate]. simpl in Eb. apply to_array_ok in Eb. subst a. apply mapR_ok in Em. pose proof (F2_length _ _ _ Em) as HL. rewrite seq_length in HL.
      assert (Hp : forall i, (i < length (e_nodes g1))%nat -> pnt g1 i = Some (nth i ps (0, 0, 0))).
      { intros i Hi. pose proof (F2_nth _ _ _ 0%nat (0, 0, 0) i Em) as Hf. rewrite seq_length in Hf. specialize (Hf Hi). rewrite seq_nth in Hf by assumption. simpl in Hf.
        unfold pnt. destruct (e_pts g1) as [tp|]; [|discriminate]. destruct (dget Nat.eqb tp i); [|discriminate]. injection Hf as ->. reflexivity. }
      assert (Hr : forall i, (i < length (e_nodes g1))%nat -> nth i (map (fun u => map (weight g1 u) ps) ps) [] = map (weight g1 (nth i ps (0, 0, 0))) ps).
      { intros i Hi. rewrite (nth_indep _ [] ((fun u => map (weight g1 u) ps) (0, 0, 0))) by (rewrite map_length; lia). rewrite (map_nth (fun u => map (weight g1 u) ps)). reflexivity. }
      split; [rewrite map_length; lia|]. split.
      - intros i Hi. split; [rewrite (Hp i Hi); discriminate|]. rewrite Hr, map_length by assumption. lia.
      - intros i j p q Hi Hj Ep Eq. rewrite (Hp i Hi) in Ep. rewrite (Hp j Hj) in Eq. injection Ep as <-. injection Eq as <-. rewrite Hr by assumption.
        rewrite (nth_indep _ 0 (weight g1 (nth i ps (0, 0, 0)) (0, 0, 0))) by (rewrite map_length; lia). rewrite map_nth. apply weight_joined. }
    split; [|split; [assumption|split; [intros H; rewrite (Sm H); auto|]]].
    + destruct I1 as (Hg & Hd & _). split; [exact Hg|]. split; [exact Hd|]. intros a' Ea'. cbn [e_adj set_adj] in Ea'. injection Ea' as <-. split; [exact X1|exact Hcur].
    + intros a' Ea'. injection Ea' as <-. split; [exact X1|exact Hcur].
Qed.

(* ---------------- add_qubit ---------------- *)
Lemma add_n_in p ns : In p ns -> add_n p ns = ns.
Proof. intros H. unfold add_n. rewrite (proj2 (pmem_In p ns) H). reflexivity. Qed.
Lemma add_n_new p ns : ~ In p ns -> add_n p ns = ns ++ [p].
Proof. intros H. unfold add_n. rewrite (proj2 (pmem_false p ns) H). reflexivity. Qed.
Lemma place_new U g q p : 0 < U -> place U g q = Ok p -> ~ In p (e_nodes g).
Proof.
  intros HU. destruct q; simpl; try discriminate.
  - destruct (has_n g p0) eqn:E; [discriminate|]. intros H. injection H as <-. apply pmem_false. assumption.
  - destruct (map (co AX) (e_nodes g)) as [|x xs] eqn:E; [discriminate|]. intros H. injection H as <-. intros Hp.
    apply (in_map (co AX)) in Hp. rewrite E in Hp. change (co AX (fold_right Z.max x xs + U, 0, 0)) with (fold_right Z.max x xs + U) in Hp.
    assert (Hm : forall c, In c (x :: xs) -> c <= fold_right Z.max x xs).
    { clear. intros c [<-|Hc].
      - induction xs as [|y xs IH]; simpl; lia.
      - induction xs as [|y xs IH]; simpl; [destruct Hc|]. destruct Hc as [<-|Hc]; [lia|]. specialize (IH Hc). lia. }
    specialize (Hm _ Hp). lia.
Qed.
Lemma connect_keep q : forall l g, In q (e_nodes g) -> incl l (e_nodes g) ->
  e_nodes (connect g q l) = e_nodes g /\ e_macro (connect g q l) = e_macro g /\ e_m2m (connect g q l) = e_m2m g /\
  e_idx (connect g q l) = e_idx g /\ e_pts (connect g q l) = e_pts g /\
  ((forall u v w, In (u, v, w) (e_edges g) -> In u (e_nodes g) /\ In v (e_nodes g)) -> forall u v w, In (u, v, w) (e_edges (connect g q l)) -> In u (e_nodes g) /\ In v (e_nodes g)).
Proof.
  induction l as [|nb l IH]; intros g Hq Hl; simpl; [tauto|].
  assert (En : e_nodes (add_e g nb q) = e_nodes g).
  { unfold add_e. cbn [e_nodes set_graph]. rewrite (add_n_in nb) by (apply Hl; left; reflexivity). apply add_n_in. assumption. }
  destruct (IH (add_e g nb q)) as (A1 & A2 & A3 & A4 & A5 & A6); [rewrite En; assumption|rewrite En; intros x Hx; apply Hl; right; assumption|].
  unfold connect in *. rewrite En in *. rewrite A1, A2, A3, A4, A5. repeat (split; [reflexivity|]). intros He. apply A6.
  intros u v w Hi. unfold add_e in Hi. cbn [e_edges set_graph] in Hi. destruct (existsb _ _); [apply (He u v w); assumption|]. apply in_app_or in Hi. destruct Hi as [Hi|[Hi|[]]]; [apply (He u v w); assumption|].
  injection Hi as <- <- <-. split; [apply Hl; left; reflexivity|assumption].
Qed.
Lemma macro_dset ns m k q : macro_ok ns m -> ~ In q ns ->
  macro_ok (ns ++ [q]) (match dget peqb m k with Some l => dset peqb m k (l ++ [q]) | None => dset peqb m k [q] end).
Proof.
  intros (M1 & M2 & M3) Hq. destruct (dget peqb m k) as [l|] eqn:E.
  - assert (Hp : Permutation (concat (map snd (dset peqb m k (l ++ [q])))) (concat (map snd m) ++ [q]) /\ map fst (dset peqb m k (l ++ [q])) = map fst m).
    { clear - E. induction m as [|[k' l'] m IH]; simpl in *; [discriminate|]. destruct (peqb k' k).
      - injection E as ->. simpl. split; [|reflexivity]. rewrite <- !app_assoc. apply Permutation_app_head. apply Permutation_app_comm.
      - destruct (IH E) as [H1 H2]. simpl. rewrite H2. split; [|reflexivity]. rewrite <- app_assoc. apply Permutation_app_head. assumption. }
    destruct Hp as [Hp Hk]. split; [rewrite Hk; assumption|]. split.
    + apply (Permutation_NoDup (Permutation_sym Hp)). apply NoDup_app_intro; [assumption|repeat constructor; intros []|]. intros x Hx [->|[]]. apply Hq. apply M3. assumption.
    + intros x Hx. apply (Permutation_in _ Hp) in Hx. apply in_app_or in Hx. apply in_or_app. destruct Hx as [Hx|Hx]; [left; apply M3; assumption|right; assumption].
  - apply (dget_None peqb peqb_true) in E. rewrite (dset_new peqb peqb_true) by assumption. unfold macro_ok. rewrite !map_app, concat_app. simpl. split; [|split].
    + apply NoDup_app_intro; [assumption|repeat constructor; intros []|]. intros x Hx [->|[]]. contradiction.
    + apply NoDup_app_intro; [assumption|repeat constructor; intros []|]. intros x Hx [->|[]]. apply Hq. apply M3. assumption.
    + intros x Hx. apply in_app_or in Hx. apply in_or_app. destruct Hx as [Hx|Hx]; [left; apply M3; assumption|right; assumption].
Qed.
Lemma max_bound (k : nat) ks i : In i (k :: ks) -> (i <= fold_right Nat.max k ks)%nat.
Proof.
  intros [<-|H]; [induction ks as [|y ks IH]; simpl; lia|]. induction ks as [|y ks IH]; simpl; [destruct H|]. destruct H as [<-|H]; [lia|]. specialize (IH H). lia.
Qed.
(* the graph after the node and the dictionaries have been updated *)
Lemma update_ok U g q add g2 : inv g -> ~ In q (e_nodes g) -> update_attributes U (set_graph g (add_n q (e_nodes g)) (e_edges g)) q add = (g2, Ok tt) ->
  e_nodes g2 = e_nodes g ++ [q] /\ e_edges g2 = e_edges g /\ e_macro g2 = e_macro g /\ graph_ok g2 /\ (unindexed g2 \/ indexed_ok g2) /\
  (forall p, indexed_ok g -> p <> q -> idx g2 p = idx g p) /\ (indexed_ok g -> indexed_ok g2).
Proof.
  intros (Hg & Hd & _) Hq. rewrite add_n_new by assumption. destruct q as [[x y] z] eqn:Eq. rewrite <- Eq in *. unfold update_attributes. rewrite Eq at 1. cbv zeta.
  set (k := (round_to U x, round_to U y, round_to U z)).
  set (g0 := set_graph g (e_nodes g ++ [q]) (e_edges g)).
  match goal with |- context [match e_idx ?G with _ => _ end] => set (g1 := G) end.
  assert (H1 : e_nodes g1 = e_nodes g ++ [q] /\ e_edges g1 = e_edges g /\ e_macro g1 = e_macro g /\ e_idx g1 = e_idx g /\ e_pts g1 = e_pts g /\ graph_ok g1).
  { assert (Hnd : NoDup (e_nodes g ++ [q])) by (apply NoDup_app_intro; [apply Hg|repeat constructor; intros []|intros p Hp [->|[]]; contradiction]).
    assert (He : forall u v w, In (u, v, w) (e_edges g) -> In u (e_nodes g ++ [q]) /\ In v (e_nodes g ++ [q])).
    { intros u v w Hi. destruct Hg as (_ & He & _). destruct (He u v w Hi). split; apply in_or_app; tauto. }
    destruct Hg as (_ & _ & Hm).
    assert (Hold : match e_m2m g with Some m => macro_ok (e_nodes g ++ [q]) m | None => True end).
    { destruct (e_m2m g) as [m|]; [|trivial]. destruct Hm as (M1 & M2 & M3). split; [assumption|]. split; [assumption|]. intros p Hp. apply in_or_app. left. auto. }
    unfold g1, g0. destruct add; [|repeat (split; [reflexivity|]); split; [exact Hnd|split; [exact He|exact Hold]]].
    cbn [e_m2m set_graph]. destruct (e_m2m g) as [m|] eqn:Em.
    - repeat (split; [reflexivity|]). split; [assumption|]. split; [assumption|]. cbn [e_m2m set_m2m e_nodes set_graph]. apply macro_dset; assumption.
    - repeat (split; [reflexivity|]). split; [assumption|]. split; [assumption|]. cbn [e_m2m set_graph e_nodes]. rewrite Em. trivial. }
  destruct H1 as (N1 & E1 & M1 & I1 & P1 & G1). rewrite I1, P1. clearbody g1. destruct Hd as [(Hi & Hp)|(ti & tp & Hi & Hp & D1 & D2 & D3 & D4)].
  - rewrite Hi. intros E. injection E as <-. repeat (split; [assumption|]). split; [left; split; congruence|]. split; intros; destruct H as (? & ? & ? & _); congruence.
  - rewrite Hi, Hp. destruct (map fst tp) as [|kk ks] eqn:Ek; [discriminate|]. intros E. injection E as <-. set (n := S (fold_right Nat.max kk ks)).
    cbn [e_nodes e_edges e_macro set_dicts e_m2m]. repeat (split; [assumption|]).
    assert (Hn : ~ In n (map fst tp)).
    { rewrite Ek. intros Hn. apply max_bound in Hn. unfold n in Hn. lia. }
    assert (Hqi : ~ In q (map fst ti)) by (rewrite <- D4; assumption).
    assert (Hok : indexed_ok (set_dicts g1 (Some (dset peqb ti q n)) (Some (dset Nat.eqb tp n q)))).
    { exists (ti ++ [(q, n)]), (tp ++ [(n, q)]). cbn [e_idx e_pts set_dicts e_nodes].
      rewrite (dset_new peqb peqb_true) by assumption. rewrite (dset_new Nat.eqb nateqb_ok) by assumption. split; [reflexivity|]. split; [reflexivity|].
      unfold dicts_ok. rewrite !map_app. cbn [map fst].
      split; [apply NoDup_app_intro; [assumption|repeat constructor; intros []|intros p Hx [->|[]]; contradiction]|].
      split; [apply NoDup_app_intro; [rewrite Ek in *; assumption|repeat constructor; intros []|intros p Hx [->|[]]; contradiction]|]. split.
      - intros p i. rewrite !in_app_iff, D3. simpl. split; (intros [H|[H|[]]]; [tauto|right; left; congruence]).
      - intros p. rewrite N1, !in_app_iff, D4. reflexivity. }
    split; [right; exact Hok|]. split; [|intros _; exact Hok].
    intros p _ Hpq. unfold idx. cbn [e_idx set_dicts]. rewrite Hi, (dget_dset peqb peqb_true). rewrite (proj2 (peqb_false q p)) by congruence. reflexivity.
Qed.
Lemma int_points_in g l ps : indexed_ok g -> int_points g l = Ok ps -> incl ps (e_nodes g).
Proof.
  intros (ti & tp & E1 & E2 & D1 & D2 & D3 & D4). unfold int_points. rewrite E2. intros E p Hp. apply mapR_ok in E.
  revert E Hp. induction 1 as [|i y l ps Hy _ IH]; intros Hp; [destruct Hp|]. destruct Hp as [<-|Hp]; [|auto].
  destruct (i <? 0); [discriminate|]. destruct (dget Nat.eqb tp (Z.to_nat i)) as [p'|] eqn:Ep; [|discriminate]. injection Hy as <-.
  apply (dget_In Nat.eqb nateqb_ok) in Ep. apply D3 in Ep. apply D4. apply (in_map fst _ _ Ep).
Qed.
Lemma adj_none_inv g : graph_ok g -> (unindexed g \/ indexed_ok g) -> inv (set_adj g None).
Proof. intros Hg Hd. split; [exact Hg|]. split; [exact Hd|]. discriminate. Qed.
Lemma connect_inv g q ps : graph_ok g -> (unindexed g \/ indexed_ok g) -> In q (e_nodes g) -> incl ps (e_nodes g) ->
  inv (set_adj (connect g q ps) None) /\ (indexed_ok g -> indexed_ok (set_adj (connect g q ps) None)) /\ (forall p, idx (set_adj (connect g q ps) None) p = idx g p) /\ e_nodes (connect g q ps) = e_nodes g.
Proof.
  intros Hg Hd Hq Hl. destruct (connect_keep q ps g Hq Hl) as (A1 & A2 & A3 & A4 & A5 & A6). split; [|split; [|split; [|assumption]]].
  - apply adj_none_inv.
    + destruct Hg as (G1 & G2 & G3). unfold graph_ok. rewrite A1, A3. split; [assumption|]. split; [apply A6; assumption|assumption].
    + destruct Hd as [(H1 & H2)|(ti & tp & E1 & E2 & D)]; [left; split; congruence|right; exists ti, tp]. rewrite A4, A5, A1. auto.
  - intros (ti & tp & E1 & E2 & D). exists ti, tp. cbn [e_idx e_pts set_adj e_nodes]. rewrite A4, A5, A1. auto.
  - intros p. unfold idx. cbn [e_idx set_adj]. rewrite A4. reflexivity.
Qed.
Lemma add_qubit_inv U g q n m g' : 0 < U -> inv g -> known_neighbors g (OAdd q n m) -> add_qubit U g q n m = (g', Ok tt) ->
  inv g' /\ (exists p, place U g q = Ok p /\ e_nodes g' = e_nodes g ++ [p]) /\ (indexed_ok g -> indexed_ok g' /\ forall p, In p (e_nodes g) -> idx g' p = idx g p).
Proof.
  intros HU HI Hk. unfold add_qubit. destruct (place U g q) as [p|] eqn:Ep; [|discriminate]. pose proof (place_new U g q p HU Ep) as Hp.
  destruct (m && _); [discriminate|]. cbv zeta. destruct (update_attributes U _ p m) as (g2, r2) eqn:E2. destruct r2 as [[]|]; [|discriminate].
  destruct (update_ok U g p m g2 HI Hp E2) as (N2 & E3 & M2 & G2 & D2 & I2 & X2). intros E.
  assert (Hin : In p (e_nodes g2)) by (rewrite N2; apply in_or_app; right; left; reflexivity).
  assert (Hdone : forall ps, incl ps (e_nodes g2) -> inv (set_adj (connect g2 p ps) None) /\
    (exists p0, Ok p = Ok p0 /\ e_nodes (set_adj (connect g2 p ps) None) = e_nodes g ++ [p0]) /\
    (indexed_ok g -> indexed_ok (set_adj (connect g2 p ps) None) /\ forall p0, In p0 (e_nodes g) -> idx (set_adj (connect g2 p ps) None) p0 = idx g p0)).
  { intros ps Hps. destruct (connect_inv g2 p ps G2 D2 Hin Hps) as (A1 & A2 & A3 & A4). split; [assumption|]. split; [exists p; split; [reflexivity|]; cbn [e_nodes set_adj]; congruence|].
    intros Hx. split; [auto|]. intros p0 H0. rewrite A3. apply I2; [assumption|]. intros ->. contradiction. }
  destruct n as [|[|i l]|[|t l]|]; cbn [update_neighbors] in E.
  - injection E as <-. apply (Hdone []). intros x [].
  - injection E as <-. apply (Hdone []). intros x [].
  - destruct (e_pts g2) as [tp|] eqn:Et.
    + destruct (int_points g2 (i :: l)) as [ps|] eqn:Ei; [|discriminate]. injection E as <-. apply Hdone. eapply int_points_in; [|eassumption].
      destruct D2 as [(_ & H)|H]; [congruence|assumption].
    + destruct (index_generator g2) as (g3, r3) eqn:Eg. destruct r3 as [d|]; [|discriminate]. cbn [bind] in E.
      assert (I2' : inv (set_adj g2 None)) by (apply adj_none_inv; assumption).
      assert (Hu : unindexed g2) by (destruct D2 as [H|(ti & tp & _ & H & _)]; [assumption|congruence]).
      assert (Hng : ~ indexed_ok g). { intros H. destruct (X2 H) as (ti & tp & H1 & _). destruct Hu. congruence. }
      assert (Hg3 : indexed_ok g3 /\ graph_ok g3 /\ same_graph g2 g3).
      { pose proof (index_generator_graph g2) as HS. rewrite Eg in HS. cbn [fst] in HS. destruct HS as ((S1 & S2 & S3 & S4) & _).
        assert (Eg' : index_generator (set_adj g2 None) = (set_adj g3 None, Ok d)).
        { unfold index_generator in *. cbn [e_idx set_adj]. destruct Hu as [Hu1 Hu2]. rewrite Hu1 in *. change (ind_dict (set_adj g2 None)) with (ind_dict g2).
          destruct (ind_dict g2); [|discriminate]. injection Eg as <- <-. reflexivity. }
        destruct (index_generator_inv _ _ _ I2' (proj1 Hu) Eg') as [H1 (H2 & _)]. split; [exact H1|]. split; [exact H2|]. repeat split; assumption. }
      destruct Hg3 as (X3 & G3 & S1 & S2 & S3 & S4). destruct (int_points g3 (i :: l)) as [ps|] eqn:Ei; [|discriminate]. injection E as <-.
      assert (Hin3 : In p (e_nodes g3)) by (rewrite S1; assumption).
      destruct (connect_inv g3 p ps G3 (or_intror X3) Hin3 (int_points_in _ _ _ X3 Ei)) as (A1 & A2 & A3 & A4). split; [assumption|].
      split; [exists p; split; [reflexivity|]; cbn [e_nodes set_adj]; congruence|]. intros Hx. contradiction.
  - injection E as <-. apply (Hdone []). intros x [].
  - injection E as <-. apply (Hdone (t :: l)). intros x Hx. rewrite N2. apply in_or_app. left. apply Hk. assumption.
  - discriminate.
Qed.

(* ---------------- remove_qubit ---------------- *)
Lemma remove_first_in p l x : In x (remove_first p l) -> In x l.
Proof. induction l as [|q l IH]; simpl; [tauto|]. destruct (peqb q p); simpl; tauto. Qed.
Lemma remove_first_nodup p l : NoDup l -> NoDup (remove_first p l) /\ ~ In p (remove_first p l).
Proof.
  induction l as [|q l IH]; simpl; intros H; [split; [constructor|tauto]|]. inversion H as [|? ? Hq H']; subst. destruct (IH H') as [I1 I2].
  destruct (peqb q p) eqn:E; [apply peqb_true in E; subst; auto|]. split; [constructor; [intros Hi; apply Hq; apply (remove_first_in p); assumption|assumption]|].
  intros [->|Hi]; [rewrite peqb_refl in E; discriminate|contradiction].
Qed.
Lemma nodup_app_inv {A} (l m : list A) : NoDup (l ++ m) -> NoDup l /\ NoDup m /\ forall x, In x l -> In x m -> False.
Proof.
  induction l as [|a l IH]; simpl; intros H; [split; [constructor|split; [assumption|tauto]]|]. inversion H as [|? ? Ha H']; subst. destruct (IH H') as (I1 & I2 & I3).
  split; [constructor; [intros Hi; apply Ha; apply in_or_app; tauto|assumption]|]. split; [assumption|]. intros x [->|Hx] Hm; [apply Ha; apply in_or_app; tauto|eauto].
Qed.
Lemma strip_ok p (m : list (point * list point)) : NoDup (map fst m) -> NoDup (concat (map snd m)) ->
  NoDup (map fst (strip p m)) /\ NoDup (concat (map snd (strip p m))) /\ (forall k, In k (map fst (strip p m)) -> In k (map fst m)) /\
  (forall x, In x (concat (map snd (strip p m))) -> In x (concat (map snd m)) /\ x <> p).
Proof.
  induction m as [|[k l] m IH]; simpl; intros H1 H2; [repeat split; try constructor; tauto|]. inversion H1 as [|? ? Hk H1']; subst.
  apply nodup_app_inv in H2. destruct H2 as (Hl & H2 & Hx). destruct (IH H1' H2) as (A1 & A2 & A3 & A4).
  assert (Hcase : forall l', NoDup l' -> (forall x, In x l' -> In x l /\ x <> p) ->
    NoDup (map fst ((k, l') :: strip p m)) /\ NoDup (concat (map snd ((k, l') :: strip p m))) /\ (forall k0, In k0 (map fst ((k, l') :: strip p m)) -> k = k0 \/ In k0 (map fst m)) /\
    (forall x, In x (concat (map snd ((k, l') :: strip p m))) -> In x (l ++ concat (map snd m)) /\ x <> p)).
  { intros l' Hl' Hin. simpl. split; [constructor; [auto|assumption]|]. split; [apply NoDup_app_intro; [assumption|assumption|]|].
    - intros x X1 X2. apply (Hx x); [apply Hin; assumption|apply A4; assumption].
    - split; [intros k0 [->|H0]; [left; reflexivity|right; auto]|]. intros x X. apply in_app_or in X. rewrite in_app_iff. destruct X as [X|X]; [destruct (Hin x X)|destruct (A4 x X)]; tauto. }
  destruct (pmem p l) eqn:Ep.
  - destruct (remove_first_nodup p l Hl) as [R1 R2]. destruct (remove_first p l) as [|y l'] eqn:Er.
    + simpl. split; [assumption|]. split; [assumption|]. split; [auto|]. intros x X. rewrite in_app_iff. destruct (A4 x X). tauto.
    + apply Hcase; [assumption|]. intros x X. split; [apply (remove_first_in p); rewrite Er; assumption|]. intros ->. contradiction.
  - apply Hcase; [assumption|]. intros x X. split; [assumption|]. intros ->. apply pmem_false in Ep. contradiction.
Qed.
Lemma remove_n_ok g p : In p (e_nodes g) -> graph_ok g -> graph_ok (set_m2m (remove_n g p) (match e_m2m g with Some m => Some (strip p m) | None => None end)).
Proof.
  intros Hp (G1 & G2 & G3). split; [apply NoDup_filter; assumption|]. cbn [e_nodes e_edges remove_n set_graph set_m2m e_m2m].
  assert (Hf : forall x, In x (filter (fun q => negb (peqb q p)) (e_nodes g)) <-> In x (e_nodes g) /\ x <> p) by (intros x; rewrite filter_In, negb_true_iff, peqb_false; reflexivity).
  split.
  - intros u v w Hi. apply filter_In in Hi. destruct Hi as [Hi Hne]. cbn [fst snd] in Hne. rewrite andb_true_iff, !negb_true_iff, !peqb_false in Hne. destruct (G2 u v w Hi). rewrite !Hf. tauto.
  - destruct (e_m2m g) as [m|]; [|trivial]. destruct G3 as (M1 & M2 & M3). destruct (strip_ok p m M1 M2) as (A1 & A2 & A3 & A4). split; [assumption|]. split; [assumption|].
    intros x X. apply Hf. destruct (A4 x X). auto.
Qed.
Lemma dicts_remove ns ti tp p : dicts_ok ns ti tp ->
  dicts_ok (filter (fun q => negb (peqb q p)) ns) (dpop peqb ti p) (dict_of Nat.eqb (map (fun e => (snd e, fst e)) (dpop peqb ti p))).
Proof.
  intros D. pose proof (dicts_snd_nodup ns ti tp D) as Hs. destruct D as (D1 & D2 & D3 & D4).
  assert (K : NoDup (map fst (map (fun e : point * nat => (snd e, fst e)) (dpop peqb ti p)))) by (rewrite map_map; cbn [fst]; apply dpop_nodup; assumption).
  rewrite (dict_of_nodup Nat.eqb nateqb_ok) by assumption. split; [apply dpop_nodup; assumption|]. split; [assumption|]. split.
  - intros q i. rewrite in_map_iff. split; [intros H; exists (q, i); auto|]. intros ((q' & j) & E & H). simpl in E. congruence.
  - intros q. rewrite filter_In, negb_true_iff, peqb_false, D4, !in_map_iff. split.
    + intros (((q' & i) & E & Hi) & Hne). simpl in E. subst. exists (q, i). split; [reflexivity|]. apply filter_In. split; [assumption|]. simpl. rewrite (proj2 (peqb_false q p) Hne). reflexivity.
    + intros ((q' & i) & E & Hi). simpl in E. subst. apply filter_In in Hi. destruct Hi as [Hi Hne]. simpl in Hne. apply negb_true_iff, peqb_false in Hne. split; [exists (q, i); auto|assumption].
Qed.
Lemma remove_qubit_inv g q g' r : inv g -> remove_qubit g q = (g', r) ->
  inv g' /\ (r = Ok tt -> exists p, In p (e_nodes g) /\ e_nodes g' = filter (fun x => negb (peqb x p)) (e_nodes g)) /\ (r <> Ok tt -> g' = g) /\
  (indexed_ok g -> indexed_ok g' /\ forall p, In p (e_nodes g') -> idx g' p = idx g p).
Proof.
  intros HI. assert (Herr : forall e, inv g /\ (Err e = Ok tt -> exists p, In p (e_nodes g) /\ e_nodes g = filter (fun x => negb (peqb x p)) (e_nodes g)) /\ (Err e <> Ok tt -> g = g) /\ (indexed_ok g -> indexed_ok g /\ forall p, In p (e_nodes g) -> idx g p = idx g p)).
  { intros e. split; [assumption|]. split; [discriminate|]. split; [auto|]. auto. }
  unfold remove_qubit. cbv zeta. destruct HI as (Hg & Hd & Ha). destruct (e_idx g) as [ti|] eqn:Ei.
  - destruct Hd as [(H & _)|(ti' & tp & E1 & E2 & D)]; [congruence|]. rewrite Ei in E1. injection E1 as <-.
    match goal with |- context [match ?T with Ok p => _ | Err e => (g, Err e) end] => destruct T as [p|e] end; [|intros E; injection E as <- <-; apply Herr].
    destruct (has_n g p) eqn:Eh; cbn [negb]; [|intros E; injection E as <- <-; apply Herr]. apply pmem_In in Eh.
    destruct (dget peqb ti p) as [i|] eqn:Eg.
    2:{ exfalso. apply (dget_None peqb peqb_true) in Eg. apply Eg. apply D. assumption. }
    intros E. injection E as <- <-.
    assert (Hok : indexed_ok (set_dicts (remove_n g p) (Some (dpop peqb ti p)) (Some (dict_of Nat.eqb (map (fun e => (snd e, fst e)) (dpop peqb ti p)))))).
    { eexists _, _. split; [reflexivity|]. split; [reflexivity|]. cbn [e_nodes set_dicts remove_n set_graph]. apply (dicts_remove _ _ _ p D). }
    split; [|split; [|split]].
    + apply adj_none_inv; [apply (remove_n_ok g p Eh Hg)|right; exact Hok].
    + intros _. exists p. split; [assumption|reflexivity].
    + intros H. congruence.
    + intros _. split; [exact Hok|]. intros p0 Hp0. cbn [e_nodes set_adj set_m2m set_dicts remove_n set_graph] in Hp0. apply filter_In in Hp0. destruct Hp0 as [_ Hne]. apply negb_true_iff in Hne.
      unfold idx. cbn [e_idx set_adj set_m2m set_dicts]. rewrite Ei, (dpop_get peqb peqb_true). apply peqb_false in Hne. rewrite (proj2 (peqb_false p p0)) by congruence. reflexivity.
  - destruct q as [p| |]; [|intros E; injection E as <- <-; apply Herr|intros E; injection E as <- <-; apply Herr].
    destruct (has_n g p) eqn:Eh; [|intros E; injection E as <- <-; apply Herr]. apply pmem_In in Eh. intros E. injection E as <- <-.
    assert (Hu : unindexed g) by (destruct Hd as [H|(ti & tp & H & _)]; [assumption|congruence]).
    split; [|split; [|split]].
    + apply adj_none_inv; [apply (remove_n_ok g p Eh Hg)|left; exact Hu].
    + intros _. exists p. split; [assumption|reflexivity].
    + intros H. congruence.
    + intros (ti & tp & H & _). congruence.
Qed.

(* ---------------- histories ---------------- *)
Lemma fine_call_inv U g o g' : 0 < U -> inv g -> fine_call U g o g' ->
  inv g' /\ (indexed_ok g -> indexed_ok g' /\ forall p, In p (e_nodes g) -> In p (e_nodes g') -> idx g' p = idx g p).
Proof.
  intros HU HI (Hk & r & Hr & Hok). destruct o as [q n m|q| |s]; cbn [run] in Hr.
  - destruct Hok as [->|H]; [|discriminate]. destruct (add_qubit_inv U g q n m g' HU HI Hk Hr) as (A1 & _ & A3). split; [assumption|]. intros Hx. destruct (A3 Hx). auto.
  - destruct (remove_qubit_inv g q g' r HI Hr) as (A1 & _ & _ & A3). split; [assumption|]. intros Hx. destruct (A3 Hx). auto.
  - destruct (index_generator g) as (g1, r1) eqn:E. injection Hr as <- <-. destruct (index_generator_inv' g g1 r1 HI E) as (A1 & A2 & A3 & A4). split; [assumption|].
    intros Hx. rewrite (A4 Hx). auto.
  - destruct (adj_generator g s) as (g1, r1) eqn:E. injection Hr as <- <-. destruct (adj_generator_inv g s g1 r1 HI E) as (A1 & A2 & A3 & A4). split; [assumption|].
    intros Hx. destruct (A3 Hx) as [B1 B2]. split.
    + destruct Hx as (ti & tp & X1 & X2 & X3). exists ti, tp. destruct A2 as (-> & _). split; [congruence|]. split; [congruence|assumption].
    + intros p _ _. unfold idx. rewrite B1. reflexivity.
Qed.
Lemma history_inv U g g' : 0 < U -> inv g -> history U g g' -> inv g' /\ (indexed_ok g -> indexed_ok g').
Proof.
  intros HU HI H. induction H as [g|g o g1 g2 Hf _ IH]; [auto|]. destruct (fine_call_inv U g o g1 HU HI Hf) as [I1 X1]. destruct (IH I1) as [I2 X2]. split; [assumption|].
  intros Hx. apply X2. apply (X1 Hx).
Qed.
Lemma keeping_in U p g g' : history_keeping U p g g' -> In p (e_nodes g).
Proof. intros H. inversion H; assumption. Qed.
Lemma history_keeping_idx U p g g' : 0 < U -> inv g -> indexed_ok g -> history_keeping U p g g' -> idx g' p = idx g p.
Proof.
  intros HU HI HX H. induction H as [g Hp|g o g1 g2 Hp Hf Hrest IH]; [reflexivity|]. destruct (fine_call_inv U g o g1 HU HI Hf) as [I1 X1]. destruct (X1 HX) as [X2 Hidx].
  rewrite (IH I1 X2). apply Hidx; [assumption|]. apply (keeping_in U p g1 g2). assumption.
Qed.
Lemma fresh_inv g : fresh g -> inv g.
Proof. intros (Hg & Hu & Ha). split; [assumption|]. split; [left; assumption|]. intros a E. congruence. Qed.
