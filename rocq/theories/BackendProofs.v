(* BackendProofs.v: invariants of the two stabilizer-graph backends. *)
From Verif Require Import Base Lattice RhgModel SurfaceModel StabGraphModel BackendModel BackendSpec.
Open Scope nat_scope.

Section P.
Context {W : Type}.
Notation nxg := (nxg W). Notation rxg := (rxg W). Notation edata := (edata W). Notation dedge := (dedge W).

Lemma sneqb_true u v : sneqb u v = true <-> u = v.
Proof. unfold sneqb. destruct (snode_eq_dec u v); split; congruence. Qed.
Lemma sneqb_refl u : sneqb u u = true.
Proof. apply sneqb_true. reflexivity. Qed.
Lemma sneqb_false u v : sneqb u v = false <-> u <> v.
Proof. unfold sneqb. destruct (snode_eq_dec u v); split; congruence. Qed.
Lemma smem_In u l : smem u l = true <-> In u l.
Proof.
  unfold smem. rewrite existsb_exists. split.
  - intros [x [H1 H2]]. apply sneqb_true in H2. subst. assumption.
  - intros H. exists u. split; [assumption|apply sneqb_refl].
Qed.
Lemma smem_false u l : smem u l = false <-> ~ In u l.
Proof. rewrite <- smem_In. destruct (smem u l); split; congruence. Qed.

Definition pair_is {A} (u v : snode) (e : snode * snode * A) : Prop := fst e = (u, v) \/ fst e = (v, u).
Lemma same_pair_true {A} u v (e : snode * snode * A) : same_pair u v e = true <-> pair_is u v e.
Proof.
  unfold same_pair, pair_is. destruct e as [[a b] d]. cbn [fst snd].
  rewrite orb_true_iff, !andb_true_iff, !sneqb_true. split.
  - intros [[-> ->]|[-> ->]]; auto.
  - intros [H|H]; injection H as -> ->; auto.
Qed.
Lemma same_pair_false {A} u v (e : snode * snode * A) : same_pair u v e = false <-> ~ pair_is u v e.
Proof. rewrite <- same_pair_true. destruct (same_pair u v e); split; congruence. Qed.
Lemma pair_is_sym {A} u v (e : snode * snode * A) : pair_is u v e -> pair_is v u e.
Proof. unfold pair_is. intros [H|H]; auto. Qed.

(* u and v are joined in E *)
Definition joined (E : list dedge) (u v : snode) : Prop := exists e, In e E /\ pair_is u v e.
Lemma joined_sym E u v : joined E u v -> joined E v u.
Proof. intros [e [H1 H2]]. exists e. split; [assumption|apply pair_is_sym; assumption]. Qed.

(* no two edges on the same pair, no loops, ends in N *)
Record simple (N : list snode) (E : list dedge) : Prop := {
  s_nd : NoDup N;
  s_in : forall u v d, In (u, v, d) E -> In u N /\ In v N /\ u <> v;
  s_one : forall E1 e E2 u v, E = E1 ++ e :: E2 -> pair_is u v e -> ~ joined E1 u v /\ ~ joined E2 u v
}.

Lemma joined_app E1 E2 u v : joined (E1 ++ E2) u v <-> joined E1 u v \/ joined E2 u v.
Proof.
  unfold joined. split.
  - intros [e [H P]]. apply in_app_iff in H. destruct H as [H|H]; [left|right]; exists e; auto.
  - intros [[e [H P]]|[e [H P]]]; exists e; rewrite in_app_iff; auto.
Qed.

Lemma simple_unique N E e e' u v : simple N E -> In e E -> In e' E -> pair_is u v e -> pair_is u v e' -> e = e'.
Proof.
  intros S H1 H2 P1 P2. apply in_split in H1. destruct H1 as [A [B H1]].
  destruct (s_one _ _ S A e B u v H1 P1) as [Na Nb]. subst E. apply in_app_iff in H2.
  destruct H2 as [H2|[H2|H2]]; [|assumption|].
  - exfalso. apply Na. exists e'. auto.
  - exfalso. apply Nb. exists e'. auto.
Qed.

Lemma find_simple N E u v e : simple N E -> In e E -> pair_is u v e -> find (same_pair u v) E = Some e.
Proof.
  intros S H P. destruct (find (same_pair u v) E) as [e'|] eqn:F.
  - apply find_some in F. destruct F as [F1 F2]. apply same_pair_true in F2. f_equal.
    exact (simple_unique N E e' e u v S F1 H F2 P).
  - apply (find_none _ _ F) in H. apply same_pair_false in H. contradiction.
Qed.
Lemma find_joined E u v : find (same_pair u v) E = None <-> ~ joined E u v.
Proof.
  split.
  - intros F [e [H P]]. apply (find_none _ _ F) in H. apply same_pair_false in H. contradiction.
  - intros H. destruct (find (same_pair u v) E) as [e|] eqn:F; [|reflexivity]. exfalso. apply H.
    apply find_some in F. exists e. split; [apply F|]. apply same_pair_true, F.
Qed.

(* extending a simple graph *)
Lemma simple_node N E u : simple N E -> ~ In u N -> simple (N ++ [u]) E.
Proof.
  intros S H. constructor.
  - apply NoDup_app_intro; [apply (s_nd _ _ S)|constructor; [intros []|constructor]|].
    intros x Hx [<-|[]]. contradiction.
  - intros a b d Hin. destruct (s_in _ _ S a b d Hin) as (H1 & H2 & H3). rewrite !in_app_iff. auto.
  - apply (s_one _ _ S).
Qed.
Lemma simple_edge N E u v d : simple N E -> In u N -> In v N -> u <> v -> ~ joined E u v ->
  simple N (E ++ [(u, v, d)]).
Proof.
  intros S Hu Hv Hne Hj. constructor.
  - apply (s_nd _ _ S).
  - intros a b d' Hin. apply in_app_iff in Hin. destruct Hin as [Hin|[Hin|[]]].
    + apply (s_in _ _ S a b d' Hin).
    + injection Hin as <- <- <-. auto.
  - intros E1 e E2 a b Heq P. destruct (exists_last (l := e :: E2) ltac:(discriminate)) as [B [x Hx]].
    rewrite Hx, app_assoc in Heq. apply app_inj_tail in Heq. destruct Heq as [Heq <-].
    destruct B as [|e0 B].
    + cbn in Hx. injection Hx as -> ->. rewrite app_nil_r in Heq. subst E1. split.
      * intros J. apply Hj. destruct P as [P|P]; cbn [fst] in P; injection P as <- <-; [assumption|apply joined_sym; assumption].
      * intros [e' [[] _]].
    + cbn in Hx. injection Hx as -> ->. destruct (s_one _ _ S E1 e0 B a b Heq P) as [N1 N2].
      split; [assumption|]. rewrite joined_app. intros [J|[e' [[<-|[]] P']]]; [contradiction|].
      apply Hj. exists e0. split; [rewrite Heq, in_app_iff; right; left; reflexivity|].
      unfold pair_is in *. cbn [fst] in P'. destruct P' as [P'|P']; injection P' as -> ->; [assumption|]. destruct P; auto.
Qed.

(* ---------------- networkx ---------------- *)
Record nx_inv (N : list snode) (E : list dedge) (g : nxg) : Prop := {
  ni_nodes : nx_nodes g = N;
  ni_data : nx_data g = E;
  ni_nd : forall u nb, In (u, nb) (nx_adj g) -> NoDup nb;
  ni_adj : forall u nb v, In (u, nb) (nx_adj g) -> (In v nb <-> joined E u v)
}.

Lemma nx_inv_empty : nx_inv [] [] nx_empty.
Proof. constructor; try reflexivity; intros u nb; [intros []|intros v []]. Qed.

Lemma nx_inv_node N E g u : simple N E -> nx_inv N E g -> ~ In u N -> nx_inv (N ++ [u]) E (nx_add_node u g).
Proof.
  intros S I H. unfold nx_add_node. rewrite (ni_nodes _ _ _ I). apply smem_false in H. rewrite H. apply smem_false in H.
  constructor; cbn [nx_adj nx_data].
  - unfold nx_nodes. cbn [nx_adj]. rewrite map_app. cbn [map fst]. f_equal. apply (ni_nodes _ _ _ I).
  - apply (ni_data _ _ _ I).
  - intros a nb Hin. apply in_app_iff in Hin. destruct Hin as [Hin|[Hin|[]]]; [exact (ni_nd _ _ _ I a nb Hin)|].
    injection Hin as <- <-. constructor.
  - intros a nb v Hin. apply in_app_iff in Hin. destruct Hin as [Hin|[Hin|[]]]; [exact (ni_adj _ _ _ I a nb v Hin)|].
    injection Hin as <- <-. split; [intros []|]. intros [[[x y] d] [He P]]. exfalso. apply H.
    destruct (s_in _ _ S x y d He) as (Hx & Hy & _). destruct P as [P|P]; injection P as -> ->; assumption.
Qed.

Lemma nx_add_node_old (g : nxg) u : In u (nx_nodes g) -> nx_add_node u g = g.
Proof. intros H. unfold nx_add_node. apply smem_In in H. rewrite H. destruct g; reflexivity. Qed.

Lemma nx_upd_new u v cv (E : list dedge) : ~ joined E u v -> nx_upd u v cv E = E ++ [(u, v, new_data cv)].
Proof.
  induction E as [|e E IH]; intros H; cbn [nx_upd app]; [reflexivity|].
  destruct (same_pair u v e) eqn:F.
  - exfalso. apply H. apply same_pair_true in F. exists e. split; [left; reflexivity|assumption].
  - rewrite IH; [reflexivity|]. intros [e' [H1 H2]]. apply H. exists e'. split; [right; assumption|assumption].
Qed.

Lemma nx_link_keys u v a : map fst (nx_link u v a) = map fst a.
Proof. unfold nx_link. rewrite map_map. apply map_ext. intros [n nb]. cbn [fst snd]. destruct (sneqb n u); reflexivity. Qed.
Lemma in_nx_link u v a n nb : In (n, nb) (nx_link u v a) <->
  exists nb0, In (n, nb0) a /\ nb = if sneqb n u then (if smem v nb0 then nb0 else nb0 ++ [v]) else nb0.
Proof.
  unfold nx_link. rewrite in_map_iff. split.
  - intros [[n0 nb0] [H1 H2]]. cbn [fst snd] in H1. exists nb0. destruct (sneqb n0 u) eqn:F; injection H1 as <- <-; rewrite ?F; auto.
  - intros [nb0 [H1 H2]]. exists (n, nb0). split; [|assumption]. cbn [fst snd]. subst nb. destruct (sneqb n u); reflexivity.
Qed.

Lemma nx_inv_edge N E g u v cv : simple N E -> nx_inv N E g -> In u N -> In v N -> u <> v -> ~ joined E u v ->
  nx_inv N (E ++ [(u, v, new_data cv)]) (nx_add_edge u v cv g).
Proof.
  intros S I Hu Hv Hne Hj. unfold nx_add_edge. rewrite !nx_add_node_old; rewrite ?(ni_nodes _ _ _ I); auto.
  2:{ rewrite nx_add_node_old; rewrite ?(ni_nodes _ _ _ I); assumption. }
  constructor; cbn [nx_adj nx_data].
  - unfold nx_nodes. cbn [nx_adj]. rewrite !nx_link_keys. apply (ni_nodes _ _ _ I).
  - rewrite (ni_data _ _ _ I). apply nx_upd_new. assumption.
  - intros a nb Hin. apply in_nx_link in Hin. destruct Hin as [nb1 [Hin ->]].
    apply in_nx_link in Hin. destruct Hin as [nb0 [Hin ->]]. pose proof (ni_nd _ _ _ I a nb0 Hin) as ND.
    assert (Ap : forall l x, NoDup l -> smem x l = false -> NoDup (l ++ [x])).
    { intros l x Hl Hx. apply smem_false in Hx. apply NoDup_app_intro; [assumption|constructor; [intros []|constructor]|].
      intros y Hy [<-|[]]. contradiction. }
    destruct (sneqb a u), (sneqb a v); repeat (match goal with |- context [if smem ?x ?l then _ else _] => destruct (smem x l) eqn:? end);
      auto.
  - intros a nb w Hin. apply in_nx_link in Hin. destruct Hin as [nb1 [Hin ->]].
    apply in_nx_link in Hin. destruct Hin as [nb0 [Hin ->]]. pose proof (ni_adj _ _ _ I a nb0 w Hin) as A.
    rewrite joined_app. rewrite <- A. clear A.
    assert (J1 : joined [(u, v, new_data (W:=W) cv)] a w <-> (a = u /\ w = v) \/ (a = v /\ w = u)).
    { unfold joined, pair_is. split.
      - intros [e [[<-|[]] [P|P]]]; cbn [fst] in P; injection P as <- <-; auto.
      - intros [[-> ->]|[-> ->]]; eexists; (split; [left; reflexivity|]); cbn [fst]; auto. }
    rewrite J1. clear J1.
    assert (Ap : forall l x, In w (if smem x l then l else l ++ [x]) <-> In w l \/ w = x).
    { intros l x. destruct (smem x l) eqn:Fx; [apply smem_In in Fx|].
      - split; [auto|]. intros [H|H]; subst; auto.
      - rewrite in_app_iff. cbn [In]. split; [intros [H|[H|[]]]; auto|intros [H|H]; auto]. }
    unfold sneqb. destruct (snode_eq_dec a u) as [Fu|Fu], (snode_eq_dec a v) as [Fv|Fv].
    + congruence.
    + rewrite Ap. split; [intros [H|H]; auto|]. intros [H|[[_ H]|[H _]]]; auto. congruence.
    + rewrite Ap. split; [intros [H|H]; auto|]. intros [H|[[H _]|[_ H]]]; auto. congruence.
    + split; [auto|]. intros [H|[[H _]|[H _]]]; auto; congruence.
Qed.

(* edges() *)
Definition before (l : list snode) (u v : snode) : Prop := exists a b, l = a ++ u :: b /\ In v b.

Lemma in_nx_edge_iter a : forall seen u v, NoDup (map fst a) ->
  (In (u, v) (nx_edge_iter seen a) <->
   exists A nb B, a = A ++ (u, nb) :: B /\ In v nb /\ ~ In v seen /\ ~ In v (map fst A)).
Proof.
  induction a as [|[n nb] a IH]; intros seen u v ND; cbn [nx_edge_iter].
  - split; [intros []|]. intros (A & nb & B & H & _). destruct A; discriminate.
  - cbn [map fst] in ND. apply NoDup_cons_iff in ND. destruct ND as [Hn ND]. rewrite in_app_iff, (IH _ _ _ ND). split.
    + intros [H|(A & nb' & B & -> & H1 & H2 & H3)].
      * apply in_map_iff in H. destruct H as [x [E H]]. injection E as <- <-. apply filter_In in H. destruct H as [H1 H2].
        exists [], nb, a. repeat split; auto. apply negb_true_iff, smem_false in H2. assumption.
      * exists ((n, nb) :: A), nb', B. repeat split; auto.
        -- intros H; apply H2; right; assumption.
        -- cbn [map fst]. intros [<-|H]; [apply H2; left; reflexivity|contradiction].
    + intros (A & nb' & B & H & H1 & H2 & H3). destruct A as [|[n' nb0] A].
      * cbn [app] in H. injection H as -> -> ->. left. apply in_map_iff. exists v. split; [reflexivity|].
        apply filter_In. split; [assumption|]. apply negb_true_iff, smem_false. assumption.
      * cbn [app] in H. injection H as <- <- ->. right. exists A, nb', B. cbn [map fst] in H3. repeat split; auto.
        -- intros [<-|H]; [apply H3; left; reflexivity|contradiction].
        -- intros H; apply H3; right; assumption.
Qed.

Lemma nx_edge_iter_NoDup a : forall seen, NoDup (map fst a) -> (forall u nb, In (u, nb) a -> NoDup nb) ->
  NoDup (nx_edge_iter seen a).
Proof.
  induction a as [|[n nb] a IH]; intros seen ND H; cbn [nx_edge_iter]; [constructor|].
  cbn [map fst] in ND. apply NoDup_cons_iff in ND. destruct ND as [Hn ND]. apply NoDup_app_intro.
  - apply NoDup_map_inj; [intros; congruence|]. apply NoDup_filter. apply (H n). left; reflexivity.
  - apply IH; [assumption|]. intros u l Hin. apply (H u). right; assumption.
  - intros [x y] Hx Hy. apply in_map_iff in Hx. destruct Hx as [z [E _]]. injection E as <- <-.
    apply in_nx_edge_iter in Hy; [|assumption]. destruct Hy as (A & nb' & B & -> & _). apply Hn.
    rewrite map_app, in_app_iff. right. left. reflexivity.
Qed.

Lemma in_nx_edges N E g u v : simple N E -> nx_inv N E g -> (In (u, v) (nx_edges g) <-> joined E u v /\ before N u v).
Proof.
  intros S I. unfold nx_edges. pose proof (s_nd _ _ S) as ND. rewrite <- (ni_nodes _ _ _ I) in ND. unfold nx_nodes in ND.
  rewrite in_nx_edge_iter by assumption. split.
  - intros (A & nb & B & H & Hv & _ & HA). pose proof (ni_adj _ _ _ I u nb v) as Q. rewrite H in Q.
    assert (J : joined E u v) by (apply Q; [rewrite in_app_iff; right; left; reflexivity|assumption]).
    split; [assumption|]. exists (map fst A), (map fst B). rewrite <- (ni_nodes _ _ _ I). unfold nx_nodes. rewrite H, map_app.
    split; [reflexivity|].
    assert (InN : In v N /\ u <> v).
    { destruct J as [[[x y] d] [He P]]. destruct (s_in _ _ S x y d He) as (Hx & Hy & Hxy).
      destruct P as [P|P]; cbn [fst] in P; injection P as -> ->; split; auto. }
    destruct InN as [InN Huv]. rewrite <- (ni_nodes _ _ _ I) in InN. unfold nx_nodes in InN. rewrite H, map_app, in_app_iff in InN.
    cbn [map fst] in InN. destruct InN as [InN|[InN|InN]]; [contradiction|contradiction|assumption].
  - intros [J (N1 & N2 & HN & Hv)]. rewrite <- (ni_nodes _ _ _ I) in HN. unfold nx_nodes in HN.
    assert (HA : exists A nb B, nx_adj g = A ++ (u, nb) :: B /\ map fst A = N1 /\ map fst B = N2).
    { clear - HN. revert N1 HN. induction (nx_adj g) as [|[n nb] a IH]; intros [|x N1] HN; cbn [map fst app] in HN; try discriminate.
      - injection HN as -> <-. exists [], nb, a. auto.
      - injection HN as -> HN. destruct (IH _ HN) as (A & nb' & B & -> & <- & <-). exists ((x, nb) :: A), nb', B. auto. }
    destruct HA as (A & nb & B & H & <- & <-). exists A, nb, B. split; [assumption|]. repeat split; auto.
    + apply (ni_adj _ _ _ I u nb v); [|assumption]. rewrite H, in_app_iff. right; left; reflexivity.
    + intros Hin. rewrite H, map_app in ND. cbn [map fst] in ND. clear - ND Hin Hv.
      revert ND. generalize dependent (map fst A). intros l Hin ND. induction l as [|x l IH]; [destruct Hin|].
      cbn [app] in ND. apply NoDup_cons_iff in ND. destruct ND as [Hx ND]. destruct Hin as [<-|Hin]; [|auto].
      apply Hx. rewrite in_app_iff. right. right. assumption.
Qed.

Lemma nx_edges_NoDup N E g : simple N E -> nx_inv N E g -> NoDup (nx_edges g).
Proof.
  intros S I. apply nx_edge_iter_NoDup.
  - pose proof (s_nd _ _ S) as ND. rewrite <- (ni_nodes _ _ _ I) in ND. exact ND.
  - exact (ni_nd _ _ _ I).
Qed.

Lemma before_total N u v : In u N -> In v N -> u <> v -> before N u v \/ before N v u.
Proof.
  intros Hu Hv Hne. apply in_split in Hu. destruct Hu as [A [B ->]]. apply in_app_iff in Hv.
  destruct Hv as [Hv|[Hv|Hv]]; [right|congruence|left].
  - apply in_split in Hv. destruct Hv as [C [D ->]]. exists C, (D ++ u :: B). rewrite <- app_assoc. split; [reflexivity|].
    rewrite in_app_iff. right; left; reflexivity.
  - exists A, B. auto.
Qed.
Lemma before_asym N u v : NoDup N -> before N u v -> ~ before N v u.
Proof.
  intros ND (A & B & -> & Hv) (C & D & HN & Hu). clear - ND Hv HN Hu.
  revert C HN. induction A as [|x A IH]; intros C HN; cbn [app] in *; apply NoDup_cons_iff in ND; destruct ND as [Hx ND].
  - destruct C as [|c C]; cbn [app] in HN; injection HN as <- HN.
    + contradiction.
    + subst B. apply Hx. rewrite in_app_iff. right; right; assumption.
  - destruct C as [|c C]; cbn [app] in HN; injection HN as -> HN.
    + apply Hx. rewrite in_app_iff. right; right; assumption.
    + exact (IH ND C HN).
Qed.

(* ---------------- rustworkx ---------------- *)
Definition rx_rep (N : list snode) (e : dedge) (r : nat * nat * edata) : Prop :=
  nth_error N (fst (fst r)) = Some (fst (fst e)) /\ nth_error N (snd (fst r)) = Some (snd (fst e)) /\ snd r = snd e.
Record rx_inv (N : list snode) (E : list dedge) (g : rxg) : Prop := {
  ri_nodes : rx_nodes g = N;
  ri_look : forall u i, rx_lookup g u = Ok i <-> nth_error N i = Some u;
  ri_edges : Forall2 (rx_rep N) E (rx_edges_i g)
}.

Lemma F2_impl {A B} (R R' : A -> B -> Prop) l m : Forall2 R l m -> (forall x y, R x y -> R' x y) -> Forall2 R' l m.
Proof. intros H Q. induction H; constructor; auto. Qed.

Lemma rx_inv_empty : rx_inv [] [] rx_empty.
Proof.
  constructor; try reflexivity; [|constructor].
  intros u i. cbn. split; [discriminate|]. destruct i; discriminate.
Qed.

Lemma nth_error_old {A} (l : list A) l' i x : nth_error l i = Some x -> nth_error (l ++ l') i = Some x.
Proof. intros H. rewrite nth_error_app1; [assumption|]. apply nth_error_Some. congruence. Qed.

Lemma rx_inv_node N E g u : simple N E -> rx_inv N E g -> ~ In u N -> rx_inv (N ++ [u]) E (rx_add_node u g).
Proof.
  intros S I H. constructor.
  - cbn. rewrite (ri_nodes _ _ _ I). reflexivity.
  - intros w i. unfold rx_lookup, rx_add_node. cbn [rx_index find fst snd]. rewrite (ri_nodes _ _ _ I).
    destruct (sneqb u w) eqn:F.
    + apply sneqb_true in F. subst w. split.
      * intros E0. injection E0 as <-. rewrite nth_error_app2 by lia. rewrite Nat.sub_diag. reflexivity.
      * intros E0. f_equal. destruct (Nat.lt_ge_cases i (length N)) as [Hl|Hl].
        -- rewrite nth_error_app1 in E0 by assumption. apply nth_error_In in E0. contradiction.
        -- assert (Hlt : i < length (N ++ [u])) by (apply nth_error_Some; congruence).
           rewrite app_length in Hlt. change (length [u]) with 1 in Hlt. cbn [snd]. lia.
    + apply sneqb_false in F. pose proof (ri_look _ _ _ I w i) as Q. unfold rx_lookup in Q. rewrite Q. split.
      * apply nth_error_old.
      * intros E0. destruct (Nat.lt_ge_cases i (length N)) as [Hl|Hl].
        -- rewrite nth_error_app1 in E0 by assumption. assumption.
        -- rewrite nth_error_app2 in E0 by assumption. destruct (i - length N) as [|k]; [cbn in E0; congruence|].
           cbn in E0. destruct k; discriminate.
  - cbn [rx_add_node rx_edges_i]. apply (F2_impl _ _ _ _ (ri_edges _ _ _ I)).
    intros e r (H1 & H2 & H3). split; [|split]; auto using nth_error_old.
Qed.

Lemma rx_lookup_in N E g u : rx_inv N E g -> In u N -> exists i, rx_lookup g u = Ok i /\ nth_error N i = Some u.
Proof.
  intros I H. apply In_nth_error in H. destruct H as [i H]. exists i. split; [|assumption].
  apply (ri_look _ _ _ I). assumption.
Qed.
Lemma rx_lookup_out N E g u : rx_inv N E g -> ~ In u N -> rx_lookup g u = Err KeyError.
Proof.
  intros I H. destruct (rx_lookup g u) as [i|x] eqn:F.
  - apply (ri_look _ _ _ I) in F. apply nth_error_In in F. contradiction.
  - unfold rx_lookup in F. destruct (find _ _); congruence.
Qed.

Lemma rx_inv_edge N E g u v cv : rx_inv N E g -> In u N -> In v N ->
  exists g', rx_add_edge u v cv g = Ok g' /\ rx_inv N (E ++ [(u, v, new_data cv)]) g'.
Proof.
  intros I Hu Hv. destruct (rx_lookup_in _ _ _ _ I Hu) as (i & Li & Ni). destruct (rx_lookup_in _ _ _ _ I Hv) as (j & Lj & Nj).
  unfold rx_add_edge. rewrite Li. cbn [bind]. rewrite Lj. cbn [bind]. eexists. split; [reflexivity|].
  constructor; cbn [rx_nodes rx_edges_i].
  - apply (ri_nodes _ _ _ I).
  - exact (ri_look _ _ _ I).
  - apply Forall2_app; [apply (ri_edges _ _ _ I)|]. constructor; [|constructor]. split; [|split]; auto.
Qed.

Lemma rx_same_pair N e r i j u v : NoDup N -> rx_rep N e r -> nth_error N i = Some u -> nth_error N j = Some v ->
  rx_same i j r = same_pair u v e.
Proof.
  intros ND (H1 & H2 & _) Hi Hj.
  assert (Q : forall k l x y, nth_error N k = Some x -> nth_error N l = Some y -> Nat.eqb k l = sneqb x y).
  { intros k l x y Hk Hl. unfold sneqb. destruct (snode_eq_dec x y) as [->|Hne].
    - apply Nat.eqb_eq. apply (proj1 (NoDup_nth_error N) ND); [apply nth_error_Some; congruence|congruence].
    - apply Nat.eqb_neq. intros ->. congruence. }
  unfold rx_same, same_pair. rewrite (Q _ _ _ _ H1 Hi), (Q _ _ _ _ H2 Hj), (Q _ _ _ _ H1 Hj), (Q _ _ _ _ H2 Hi). reflexivity.
Qed.

Lemma rx_find N E R i j u v : NoDup N -> Forall2 (rx_rep N) E R -> nth_error N i = Some u -> nth_error N j = Some v ->
  match find (same_pair u v) E with
  | Some e => exists r, find (rx_same i j) R = Some r /\ rx_rep N e r
  | None => find (rx_same i j) R = None
  end.
Proof.
  intros ND H Hi Hj. induction H as [|e r E R H HF IH]; [reflexivity|]. cbn [find].
  rewrite (rx_same_pair _ _ _ _ _ _ _ ND H Hi Hj). destruct (same_pair u v e); [exists r; auto|assumption].
Qed.

Lemma rx_edge_data_spec N E g u v : simple N E -> rx_inv N E g ->
  rx_edge_data g u v =
  if smem u N && smem v N
  then match find (same_pair u v) E with Some e => Ok (snd e) | None => Err NoEdgeError end
  else Err KeyError.
Proof.
  intros S I. unfold rx_edge_data. destruct (smem u N) eqn:Fu.
  - apply smem_In in Fu. destruct (rx_lookup_in _ _ _ _ I Fu) as (i & -> & Ni). cbn [bind].
    destruct (smem v N) eqn:Fv; cbn [andb].
    + apply smem_In in Fv. destruct (rx_lookup_in _ _ _ _ I Fv) as (j & -> & Nj). cbn [bind].
      pose proof (rx_find _ _ _ _ _ _ _ (s_nd _ _ S) (ri_edges _ _ _ I) Ni Nj) as Q.
      destruct (find (same_pair u v) E) as [e|]; [|rewrite Q; reflexivity].
      destruct Q as [r [-> (_ & _ & Q)]]. rewrite Q. reflexivity.
    + apply smem_false in Fv. rewrite (rx_lookup_out _ _ _ _ I Fv). reflexivity.
  - apply smem_false in Fu. rewrite (rx_lookup_out _ _ _ _ I Fu). reflexivity.
Qed.
Lemma nx_edge_data_spec N E g u v : nx_inv N E g ->
  nx_edge_data g u v = match find (same_pair u v) E with Some e => Ok (snd e) | None => Err KeyError end.
Proof. intros I. unfold nx_edge_data. rewrite (ni_data _ _ _ I). reflexivity. Qed.

Lemma joined_in N E u v : simple N E -> joined E u v -> In u N /\ In v N /\ u <> v.
Proof.
  intros S [[[x y] d] [He P]]. destruct (s_in _ _ S x y d He) as (Hx & Hy & Hxy).
  destruct P as [P|P]; cbn [fst] in P; injection P as -> ->; auto.
Qed.

Lemma rx_node_spec N E g i u : rx_inv N E g -> nth_error N i = Some u -> rx_node g i = u.
Proof. intros I H. unfold rx_node. rewrite (ri_nodes _ _ _ I). apply nth_error_nth. assumption. Qed.

Lemma rx_edges_spec N E g : rx_inv N E g -> rx_edges g = map fst E.
Proof.
  intros I. unfold rx_edges. pose proof (rx_node_spec N E g) as Q. pose proof (ri_edges _ _ _ I) as H.
  assert (Q' : forall i u, nth_error N i = Some u -> rx_node g i = u) by (intros i u; apply Q; assumption). clear Q I.
  induction H as [|e r E R (H1 & H2 & _) HF IH]; [reflexivity|]. cbn [map]. rewrite IH. f_equal.
  rewrite (Q' _ _ H1), (Q' _ _ H2). destruct e as [[a b] d]; reflexivity.
Qed.

(* neighbours *)
Definition nbrs (E : list dedge) (u : snode) : list snode :=
  flat_map (fun e => (if sneqb (fst (fst e)) u then [snd (fst e)] else []) ++
                     (if sneqb (snd (fst e)) u then [fst (fst e)] else [])) E.
Lemma in_nbrs E u v : In v (nbrs E u) <-> joined E u v.
Proof.
  unfold nbrs, joined. rewrite in_flat_map. split.
  - intros [[[a b] d] [H1 H2]]. exists (a, b, d). split; [assumption|]. cbn [fst snd] in H2. unfold pair_is; cbn [fst].
    apply in_app_iff in H2. unfold sneqb in H2.
    destruct H2 as [H2|H2]; [destruct (snode_eq_dec a u) as [->|]|destruct (snode_eq_dec b u) as [->|]]; cbn in H2;
      try contradiction; destruct H2 as [->|[]]; auto.
  - intros [[[a b] d] [H1 H2]]. exists (a, b, d). split; [assumption|]. cbn [fst snd]. apply in_app_iff.
    destruct H2 as [H2|H2]; cbn [fst] in H2; injection H2 as -> ->; rewrite sneqb_refl; [left|right]; left; reflexivity.
Qed.
Lemma simple_NoDup N E : simple N E -> NoDup (map fst E).
Proof.
  intros S. pose proof (s_one _ _ S) as O. clear S. induction E as [|e E IH]; cbn [map]; [constructor|]. constructor.
  - intros H. apply in_map_iff in H. destruct H as [e' [H1 H2]].
    assert (P : pair_is (fst (fst e)) (snd (fst e)) e) by (left; destruct e as [[a b] d]; reflexivity).
    destruct (O [] e E _ _ eq_refl P) as [_ Nj]. apply Nj. exists e'. split; [assumption|].
    unfold pair_is in *. rewrite H1. assumption.
  - apply IH. intros E1 x E2 u v Heq P. destruct (O (e :: E1) x E2 u v (f_equal (cons e) Heq) P) as [H1 H2]. split; [|assumption].
    intros [y [Hy Py]]. apply H1. exists y. split; [right; assumption|assumption].
Qed.
Lemma NoDup_map_pre {A B} (f : A -> B) l : NoDup (map f l) -> NoDup l.
Proof. apply NoDup_map_inv. Qed.

Lemma nbrs_NoDup N E u : simple N E -> NoDup (nbrs E u).
Proof.
  intros S. apply NoDup_flat_map.
  - exact (NoDup_map_pre _ _ (simple_NoDup _ _ S)).
  - intros [[a b] d] H. destruct (s_in _ _ S a b d H) as (_ & _ & Hne). cbn [fst snd].
    unfold sneqb. destruct (snode_eq_dec a u) as [->|], (snode_eq_dec b u) as [->|]; cbn; try congruence;
      repeat constructor; intros [].
  - intros x y w Hx Hy Hwx Hwy.
    assert (Q : forall e, In w ((if sneqb (fst (fst e)) u then [snd (fst e)] else []) ++
                     (if sneqb (snd (fst e)) u then [fst (fst e)] else [])) -> @pair_is edata u w e).
    { intros [[a b] d] H. cbn [fst snd] in H. unfold pair_is; cbn [fst]. apply in_app_iff in H. unfold sneqb in H.
      destruct H as [H|H]; [destruct (snode_eq_dec a u) as [->|]|destruct (snode_eq_dec b u) as [->|]]; cbn in H;
      try contradiction; destruct H as [->|[]]; auto. }
    exact (simple_unique N E x y u w S Hx Hy (Q _ Hwx) (Q _ Hwy)).
Qed.

Lemma rx_eqb N i j u v : NoDup N -> nth_error N i = Some u -> nth_error N j = Some v -> Nat.eqb i j = sneqb u v.
Proof.
  intros ND Hk Hl. unfold sneqb. destruct (snode_eq_dec u v) as [->|Hne].
  - apply Nat.eqb_eq. apply (proj1 (NoDup_nth_error N) ND); [apply nth_error_Some; congruence|congruence].
  - apply Nat.eqb_neq. intros ->. congruence.
Qed.

Lemma rx_raw_nbrs N E g i u : simple N E -> rx_inv N E g -> nth_error N i = Some u ->
  map (rx_node g) (flat_map (fun e => (if Nat.eqb (fst (fst e)) i then [snd (fst e)] else []) ++
                                       (if Nat.eqb (snd (fst e)) i then [fst (fst e)] else [])) (rx_edges_i g)) = nbrs E u.
Proof.
  intros S I Hi. pose proof (ri_edges _ _ _ I) as H. pose proof (s_nd _ _ S) as ND.
  assert (Q : forall i u, nth_error N i = Some u -> rx_node g i = u) by (intros; eapply rx_node_spec; eassumption).
  clear S I. induction H as [|e r E R (H1 & H2 & _) HF IH]; [reflexivity|]. unfold nbrs in *. cbn [flat_map].
  rewrite map_app, IH. f_equal. rewrite (rx_eqb _ _ _ _ _ ND H1 Hi), (rx_eqb _ _ _ _ _ ND H2 Hi), map_app.
  f_equal; [destruct (sneqb (fst (fst e)) u)|destruct (sneqb (snd (fst e)) u)]; cbn [map]; rewrite ?(Q _ _ H1), ?(Q _ _ H2); reflexivity.
Qed.

Lemma rx_neighbors_spec N E g u l : simple N E -> rx_inv N E g -> In u N ->
  (rx_neighbors g u l <-> exists o, Permutation o (nbrs E u) /\ l = Ok o).
Proof.
  intros S I Hu. destruct (rx_lookup_in _ _ _ _ I Hu) as (i & Li & Ni). unfold rx_neighbors. rewrite Li.
  pose proof (rx_raw_nbrs _ _ _ _ _ S I Ni) as Q. unfold rx_nbr_i. rewrite nodup_fixed_point.
  2:{ apply (NoDup_map_pre (rx_node g)). rewrite Q. apply (nbrs_NoDup N). assumption. }
  split.
  - intros [o [P ->]]. exists (map (rx_node g) o). split; [|reflexivity]. rewrite <- Q. apply Permutation_map. assumption.
  - intros [o [P ->]]. rewrite <- Q in P. apply Permutation_map_inv in P. destruct P as [o' [-> P]].
    exists o'. split; [apply Permutation_sym; assumption|reflexivity].
Qed.

Lemma nx_find_adj N E g u : nx_inv N E g -> In u N ->
  exists nb, find (fun x => sneqb (fst x) u) (nx_adj g) = Some (u, nb) /\ In (u, nb) (nx_adj g).
Proof.
  intros I Hu. rewrite <- (ni_nodes _ _ _ I) in Hu. unfold nx_nodes in Hu. apply in_map_iff in Hu. destruct Hu as [[u' nb] [<- Hin]].
  cbn [fst]. destruct (find (fun x => sneqb (fst x) u') (nx_adj g)) as [[a nb']|] eqn:F.
  - apply find_some in F. destruct F as [F1 F2]. cbn [fst] in F2. apply sneqb_true in F2. subst a. exists nb'. auto.
  - apply (find_none _ _ F) in Hin. cbn [fst] in Hin. rewrite sneqb_refl in Hin. discriminate.
Qed.
Lemma nx_nb_perm N E g u nb : simple N E -> nx_inv N E g -> In (u, nb) (nx_adj g) -> Permutation nb (nbrs E u).
Proof.
  intros S I H. apply NoDup_Permutation; [exact (ni_nd _ _ _ I u nb H)|apply (nbrs_NoDup N); assumption|].
  intros v. rewrite in_nbrs. exact (ni_adj _ _ _ I u nb v H).
Qed.

Lemma rx_out_raw N E g i u : simple N E -> rx_inv N E g -> nth_error N i = Some u ->
  map (fun e => (rx_node g (fst e), rx_node g (snd e))) (rx_out_i g i) = map (pair u) (nbrs E u).
Proof.
  intros S I Hi. unfold rx_out_i. pose proof (ri_edges _ _ _ I) as H. pose proof (s_nd _ _ S) as ND. pose proof (s_in _ _ S) as Hin.
  assert (Q : forall i u, nth_error N i = Some u -> rx_node g i = u) by (intros; eapply rx_node_spec; eassumption).
  clear S I. induction H as [|e r E R (H1 & H2 & _) HF IH]; [reflexivity|]. unfold nbrs in *. cbn [flat_map].
  rewrite !map_app, IH by (intros a b d Hx; apply (Hin a b d); right; assumption). f_equal.
  rewrite (rx_eqb _ _ _ _ _ ND H1 Hi), (rx_eqb _ _ _ _ _ ND H2 Hi).
  destruct e as [[a b] d]. cbn [fst snd] in *. destruct (Hin a b d (or_introl eq_refl)) as (_ & _ & Hne).
  unfold sneqb. destruct (snode_eq_dec a u) as [->|]; [destruct (snode_eq_dec b u); [congruence|]|destruct (snode_eq_dec b u)];
    cbn [map app fst snd]; rewrite ?(Q _ _ Hi), ?(Q _ _ H1), ?(Q _ _ H2); reflexivity.
Qed.
Lemma rx_out_edges_spec N E g u l : simple N E -> rx_inv N E g -> In u N ->
  (rx_out_edges g u l <-> exists o, Permutation o (map (pair u) (nbrs E u)) /\ l = Ok o).
Proof.
  intros S I Hu. destruct (rx_lookup_in _ _ _ _ I Hu) as (i & Li & Ni). unfold rx_out_edges. rewrite Li.
  pose proof (rx_out_raw _ _ _ _ _ S I Ni) as Q. split.
  - intros [o [P ->]]. eexists. split; [|reflexivity]. rewrite <- Q. apply Permutation_map. assumption.
  - intros [o [P ->]]. rewrite <- Q in P. apply Permutation_map_inv in P. destruct P as [o' [-> P]].
    exists o'. split; [apply Permutation_sym; assumption|reflexivity].
Qed.

(* ---------------- changing the data of edges ---------------- *)
Lemma joined_map f E u v : (forall e, In e E -> fst (f e) = fst e) -> (joined (map f E) u v <-> joined E u v).
Proof.
  intros Hf. unfold joined, pair_is. split.
  - intros [e [H P]]. apply in_map_iff in H. destruct H as [e0 [<- H]]. exists e0. rewrite (Hf _ H) in P. auto.
  - intros [e [H P]]. exists (f e). split; [apply in_map; assumption|]. rewrite (Hf _ H). assumption.
Qed.
Lemma simple_map N E f : (forall e, In e E -> fst (f e) = fst e) -> simple N E -> simple N (map f E).
Proof.
  intros Hf S. constructor.
  - apply (s_nd _ _ S).
  - intros u v d H. apply in_map_iff in H. destruct H as [[[a b] d'] [H1 H2]]. pose proof (Hf _ H2) as Q. rewrite H1 in Q.
    cbn [fst] in Q. injection Q as -> ->. apply (s_in _ _ S a b d' H2).
  - intros E1 e E2 u v Heq P. 
    apply map_eq_app in Heq. destruct Heq as (A & B & -> & <- & HB). destruct B as [|x B]; [discriminate|].
    cbn [map] in HB. injection HB as <- <-.
    assert (P' : pair_is u v x) by (unfold pair_is in *; rewrite Hf in P; [assumption|apply in_app_iff; right; left; reflexivity]).
    destruct (s_one _ _ S A x B u v eq_refl P') as [N1 N2].
    rewrite !joined_map; [auto| |]; intros y Hy; apply Hf; rewrite in_app_iff; cbn [In]; auto.
Qed.
Lemma nx_inv_map N E g f : (forall e, In e E -> fst (f e) = fst e) -> nx_inv N E g ->
  nx_inv N (map f E) {| nx_adj := nx_adj g; nx_data := map f (nx_data g) |}.
Proof.
  intros Hf I. constructor.
  - exact (ni_nodes _ _ _ I).
  - cbn [nx_data]. rewrite (ni_data _ _ _ I). reflexivity.
  - exact (ni_nd _ _ _ I).
  - intros u nb v H. rewrite joined_map by assumption. exact (ni_adj _ _ _ I u nb v H).
Qed.

Definition upd_pair (u v : snode) (w : option W) (e : dedge) : dedge :=
  if same_pair u v e then (fst e, set_w w (snd e)) else e.
Lemma upd_pair_fst u v w e : fst (upd_pair u v w e) = fst e.
Proof. unfold upd_pair. destruct (same_pair u v e); reflexivity. Qed.
Lemma nx_set_inv N E g u v w : nx_inv N E g -> nx_inv N (map (upd_pair u v w) E) (nx_set_weight u v w g).
Proof. intros I. apply nx_inv_map; [|assumption]. intros e _. apply upd_pair_fst. Qed.

Lemma upd_first_F2 N i j u v w E R : NoDup N -> Forall2 (rx_rep N) E R -> nth_error N i = Some u -> nth_error N j = Some v ->
  (forall E1 e E2, E = E1 ++ e :: E2 -> pair_is u v e -> ~ joined E2 u v) ->
  Forall2 (rx_rep N) (map (upd_pair u v w) E) (upd_first (rx_same i j) (fun r => (fst r, set_w w (snd r))) R).
Proof.
  intros ND H Hi Hj. induction H as [|e r E R H HF IH]; intros O; [constructor|]. cbn [map upd_first].
  rewrite (rx_same_pair _ _ _ _ _ _ _ ND H Hi Hj). unfold upd_pair at 1. destruct (same_pair u v e) eqn:F.
  - constructor.
    + destruct H as (H1 & H2 & H3). split; [|split]; cbn [fst snd]; auto. rewrite H3. reflexivity.
    + replace (map (upd_pair u v w) E) with E; [assumption|]. symmetry. rewrite <- map_id. apply map_ext_in. intros x Hx.
      unfold upd_pair. destruct (same_pair u v x) eqn:F'; [|reflexivity]. exfalso.
      apply same_pair_true in F, F'. apply (O [] e E eq_refl F). exists x. auto.
  - constructor; [assumption|]. apply IH. intros E1 x E2 -> P. exact (O (e :: E1) x E2 eq_refl P).
Qed.
Lemma rx_set_inv N E g u v w : simple N E -> rx_inv N E g -> In u N -> In v N ->
  exists g', rx_set_weight u v w g = Ok g' /\ rx_inv N (map (upd_pair u v w) E) g'.
Proof.
  intros S I Hu Hv. destruct (rx_lookup_in _ _ _ _ I Hu) as (i & Li & Ni). destruct (rx_lookup_in _ _ _ _ I Hv) as (j & Lj & Nj).
  unfold rx_set_weight. rewrite Li. cbn [bind]. rewrite Lj. cbn [bind]. eexists. split; [reflexivity|].
  constructor; cbn [rx_nodes rx_edges_i].
  - apply (ri_nodes _ _ _ I).
  - exact (ri_look _ _ _ I).
  - apply upd_first_F2; auto; [apply (s_nd _ _ S)|apply (ri_edges _ _ _ I)|].
    intros E1 e E2 Heq P. apply (s_one _ _ S E1 e E2 u v Heq P).
Qed.

(* ---------------- assign_weights ---------------- *)
Section Assign.
  Variables (zero : W) (node_w : point -> res (option W)).
  Hypothesis nw_err : forall q x, node_w q = Err x -> x = KeyError.
  Let wof (e : dedge) := weight_of zero node_w (fst (fst e)) (snd (fst e)) (snd e).
  Definition assigned (e : dedge) : dedge :=
    match weight_of zero node_w (fst (fst e)) (snd (fst e)) (snd e) with
    | Ok (Some w) => (fst e, set_w w (snd e)) | _ => e end.
  Definition fine (e : dedge) : bool :=
    match weight_of zero node_w (fst (fst e)) (snd (fst e)) (snd e) with Ok _ => true | Err _ => false end.

  Lemma assigned_fst e : fst (assigned e) = fst e.
  Proof. unfold assigned. destruct (weight_of _ _ _ _ _) as [[w|]|]; reflexivity. Qed.
  Lemma wof_assigned e : wof (assigned e) = wof e.
  Proof.
    unfold wof. rewrite assigned_fst. unfold assigned. destruct (weight_of zero node_w (fst (fst e)) (snd (fst e)) (snd e)) as [[w|]|] eqn:F; auto.
  Qed.
  Lemma assigned_twice e : assigned (assigned e) = assigned e.
  Proof.
    unfold assigned at 1. fold (wof (assigned e)). rewrite wof_assigned, assigned_fst. unfold wof, assigned.
    destruct (weight_of zero node_w (fst (fst e)) (snd (fst e)) (snd e)) as [[w|]|] eqn:F; auto.
  Qed.
  Lemma wof_pair u v e : pair_is u v e -> weight_of zero node_w u v (snd e) = wof e.
  Proof.
    intros P. unfold wof, weight_of. destruct P as [P|P]; rewrite P; cbn [fst snd]; [reflexivity|].
    destruct (ed_cv (snd e)); [reflexivity|]. rewrite andb_comm. reflexivity.
  Qed.
  Lemma fine_assigned e : fine (assigned e) = fine e.
  Proof. unfold fine. change (match wof (assigned e) with Ok _ => true | Err _ => false end = fine e). rewrite wof_assigned. reflexivity. Qed.

  Definition hit (L : list (snode * snode)) (e : dedge) : bool := existsb (fun p => same_pair (fst p) (snd p) e) L.
  Definition part (L : list (snode * snode)) (e : dedge) : dedge := if hit L e then assigned e else e.
  Lemma part_fst L e : fst (part L e) = fst e.
  Proof. unfold part. destruct (hit L e); [apply assigned_fst|reflexivity]. Qed.
  Lemma hit_fst L e e' : fst e = fst e' -> hit L e = hit L e'.
  Proof. intros H. unfold hit. induction L as [|p L IH]; [reflexivity|]. cbn [existsb]. rewrite IH. f_equal. unfold same_pair. rewrite H. reflexivity. Qed.

  Lemma part_cons p L e : part L (if same_pair (fst p) (snd p) e then assigned e else e) = part (p :: L) e.
  Proof.
    unfold part. change (hit (p :: L) e) with (same_pair (fst p) (snd p) e || hit L e).
    destruct (same_pair (fst p) (snd p) e); cbn [orb].
    - rewrite (hit_fst L (assigned e) e) by apply assigned_fst. destruct (hit L e); [apply assigned_twice|reflexivity].
    - reflexivity.
  Qed.

  Lemma upd_assigned N E u v e0 : simple N E -> In e0 E -> pair_is u v e0 ->
    forall w, wof e0 = Ok (Some w) ->
    map (upd_pair u v w) E = map (fun e => if same_pair u v e then assigned e else e) E.
  Proof.
    intros S H P w Hw. apply map_ext_in. intros e He. unfold upd_pair. destruct (same_pair u v e) eqn:F; [|reflexivity].
    apply same_pair_true in F. rewrite <- (simple_unique N E e0 e u v S H He P F). unfold assigned. fold (wof e0). rewrite Hw. reflexivity.
  Qed.
  Lemma noupd_assigned N E u v e0 : simple N E -> In e0 E -> pair_is u v e0 -> wof e0 = Ok None ->
    map (fun e => if same_pair u v e then assigned e else e) E = E.
  Proof.
    intros S H P Hw. rewrite <- map_id. apply map_ext_in. intros e He. destruct (same_pair u v e) eqn:F; [|reflexivity].
    apply same_pair_true in F. rewrite <- (simple_unique N E e0 e u v S H He P F). unfold assigned. fold (wof e0). rewrite Hw. reflexivity.
  Qed.

  Definition allfine (L : list (snode * snode)) (E : list dedge) : bool := forallb (fun e => negb (hit L e) || fine e) E.

  Lemma fold_err_nx L x : fold_left (nx_assign1 zero node_w) L (Err x) = Err x.
  Proof. induction L; auto. Qed.
  Lemma fold_err_rx L x : fold_left (rx_assign1 zero node_w) L (Err x) = Err x.
  Proof. induction L; auto. Qed.

  Lemma wof_err e x : wof e = Err x -> x = KeyError.
  Proof.
    unfold wof, weight_of. destruct (ed_cv (snd e)) as [q|].
    - destruct (node_w q) as [o|y] eqn:F; cbn [bind]; intros H; [discriminate|]. injection H as <-. exact (nw_err q y F).
    - destruct (_ && _); discriminate.
  Qed.

  Lemma allfine_cons p L E : allfine (p :: L) E = forallb (fun e => negb (same_pair (fst p) (snd p) e) || fine e) E && allfine L E.
  Proof.
    unfold allfine. induction E as [|e E IH]; [reflexivity|]. cbn [forallb]. rewrite IH.
    change (hit (p :: L) e) with (same_pair (fst p) (snd p) e || hit L e).
    destruct (same_pair (fst p) (snd p) e), (hit L e), (fine e); cbn [negb orb andb]; rewrite ?andb_true_r, ?andb_false_r; reflexivity.
  Qed.
  Lemma fine_one N E u v e0 : simple N E -> In e0 E -> pair_is u v e0 ->
    forallb (fun e => negb (same_pair u v e) || fine e) E = fine e0.
  Proof.
    intros S H P. destruct (fine e0) eqn:F0.
    - apply forallb_forall. intros e He. destruct (same_pair u v e) eqn:F; [|reflexivity]. apply same_pair_true in F.
      rewrite <- (simple_unique N E e0 e u v S H He P F). rewrite F0. reflexivity.
    - apply not_true_iff_false. intros G. rewrite forallb_forall in G. specialize (G e0 H).
      apply same_pair_true in P. rewrite P, F0 in G. discriminate.
  Qed.
  Lemma allfine_map p L E : allfine L (map (fun e => if same_pair (fst p) (snd p) e then assigned e else e) E) = allfine L E.
  Proof.
    unfold allfine. induction E as [|e E IH]; [reflexivity|]. cbn [map forallb]. rewrite IH. f_equal.
    destruct (same_pair _ _ e); [|reflexivity]. rewrite fine_assigned. rewrite (hit_fst L _ e) by apply assigned_fst. reflexivity.
  Qed.

  Lemma step_fst (p : snode * snode) : forall e, fst (if same_pair (fst p) (snd p) e then assigned e else e) = fst e.
  Proof. intros e. destruct (same_pair _ _ e); [apply assigned_fst|reflexivity]. Qed.

  Lemma nx_assign_loop N L : forall E g, simple N E -> nx_inv N E g -> (forall p, In p L -> joined E (fst p) (snd p)) ->
    if allfine L E then exists g', fold_left (nx_assign1 zero node_w) L (Ok g) = Ok g' /\ nx_inv N (map (part L) E) g'
    else fold_left (nx_assign1 zero node_w) L (Ok g) = Err KeyError.
  Proof.
    induction L as [|p L IH]; intros E g S I HL.
    - replace (allfine [] E) with true by (symmetry; apply forallb_forall; reflexivity). exists g. split; [reflexivity|].
      replace (map (part []) E) with E; [assumption|]. symmetry. apply map_id.
    - cbn [fold_left]. destruct (HL p (or_introl eq_refl)) as [e0 [He0 P0]].
      unfold nx_assign1 at 2. unfold nx_assign1 at 3. cbn [bind]. rewrite (nx_edge_data_spec N E g _ _ I).
      rewrite (find_simple N E _ _ e0 S He0 P0). cbn [bind]. rewrite (wof_pair _ _ _ P0).
      rewrite allfine_cons, (fine_one N E _ _ e0 S He0 P0).
      set (E1 := map (fun e => if same_pair (fst p) (snd p) e then assigned e else e) E).
      assert (S1 : simple N E1) by (apply simple_map; [intros; apply step_fst|assumption]).
      assert (HL1 : forall p0, In p0 L -> joined E1 (fst p0) (snd p0)).
      { intros p0 Hp. apply joined_map; [intros; apply step_fst|]. apply HL. right; assumption. }
      assert (HP : map (part L) E1 = map (part (p :: L)) E).
      { unfold E1. rewrite map_map. apply map_ext. intros e. apply part_cons. }
      unfold fine. fold (wof e0). destruct (wof e0) as [[w|]|x] eqn:F; cbn [andb bind].
      + assert (I1 : nx_inv N E1 (nx_set_weight (fst p) (snd p) w g)).
        { unfold E1. rewrite <- (upd_assigned N E _ _ e0 S He0 P0 w F). apply nx_set_inv. assumption. }
        specialize (IH E1 _ S1 I1 HL1). unfold E1 in IH at 1. rewrite allfine_map in IH. rewrite HP in IH. exact IH.
      + assert (I1 : nx_inv N E1 g) by (unfold E1; rewrite (noupd_assigned N E _ _ e0 S He0 P0 F); assumption).
        specialize (IH E1 _ S1 I1 HL1). unfold E1 in IH at 1. rewrite allfine_map in IH. rewrite HP in IH. exact IH.
      + rewrite fold_err_nx. f_equal. exact (wof_err e0 x F).
  Qed.
  Lemma rx_assign_loop N L : forall E g, simple N E -> rx_inv N E g -> (forall p, In p L -> joined E (fst p) (snd p)) ->
    if allfine L E then exists g', fold_left (rx_assign1 zero node_w) L (Ok g) = Ok g' /\ rx_inv N (map (part L) E) g'
    else fold_left (rx_assign1 zero node_w) L (Ok g) = Err KeyError.
  Proof.
    induction L as [|p L IH]; intros E g S I HL.
    - replace (allfine [] E) with true by (symmetry; apply forallb_forall; reflexivity). exists g. split; [reflexivity|].
      replace (map (part []) E) with E; [assumption|]. symmetry. apply map_id.
    - cbn [fold_left]. destruct (HL p (or_introl eq_refl)) as [e0 [He0 P0]].
      destruct (joined_in N E _ _ S (HL p (or_introl eq_refl))) as (Hu & Hv & _).
      unfold rx_assign1 at 2. unfold rx_assign1 at 3. cbn [bind]. rewrite (rx_edge_data_spec N E g _ _ S I).
      rewrite (proj2 (smem_In _ _) Hu), (proj2 (smem_In _ _) Hv). cbn [andb].
      rewrite (find_simple N E _ _ e0 S He0 P0). cbn [bind]. rewrite (wof_pair _ _ _ P0).
      rewrite allfine_cons, (fine_one N E _ _ e0 S He0 P0).
      set (E1 := map (fun e => if same_pair (fst p) (snd p) e then assigned e else e) E).
      assert (S1 : simple N E1) by (apply simple_map; [intros; apply step_fst|assumption]).
      assert (HL1 : forall p0, In p0 L -> joined E1 (fst p0) (snd p0)).
      { intros p0 Hp. apply joined_map; [intros; apply step_fst|]. apply HL. right; assumption. }
      assert (HP : map (part L) E1 = map (part (p :: L)) E).
      { unfold E1. rewrite map_map. apply map_ext. intros e. apply part_cons. }
      unfold fine. fold (wof e0). destruct (wof e0) as [[w|]|x] eqn:F; cbn [andb bind].
      + destruct (rx_set_inv N E g _ _ w S I Hu Hv) as [g1 [-> I1]].
        assert (I2 : rx_inv N E1 g1).
        { unfold E1. rewrite <- (upd_assigned N E _ _ e0 S He0 P0 w F). assumption. }
        specialize (IH E1 _ S1 I2 HL1). unfold E1 in IH at 1. rewrite allfine_map in IH. rewrite HP in IH. exact IH.
      + assert (I1 : rx_inv N E1 g) by (unfold E1; rewrite (noupd_assigned N E _ _ e0 S He0 P0 F); assumption).
        specialize (IH E1 _ S1 I1 HL1). unfold E1 in IH at 1. rewrite allfine_map in IH. rewrite HP in IH. exact IH.
      + rewrite fold_err_rx. f_equal. exact (wof_err e0 x F).
  Qed.

  (* all edges are visited *)
  Lemma full_hit L E : (forall e, In e E -> exists p, In p L /\ pair_is (fst p) (snd p) e) ->
    map (part L) E = map assigned E /\ allfine L E = forallb fine E.
  Proof.
    intros H. assert (Hh : forall e, In e E -> hit L e = true).
    { intros e He. destruct (H e He) as [p [Hp P]]. apply existsb_exists. exists p. split; [assumption|]. apply same_pair_true. assumption. }
    split.
    - apply map_ext_in. intros e He. unfold part. rewrite (Hh e He). reflexivity.
    - unfold allfine. clear H. induction E as [|e E IH]; [reflexivity|]. cbn [forallb]. rewrite (Hh e (or_introl eq_refl)). cbn [negb orb].
      f_equal. apply IH. intros e' He'. apply Hh. right; assumption.
  Qed.

  Lemma nx_assign_spec N E g : simple N E -> nx_inv N E g ->
    if forallb fine E then exists g', nx_assign_weights zero node_w g = Ok g' /\ nx_inv N (map assigned E) g'
    else nx_assign_weights zero node_w g = Err KeyError.
  Proof.
    intros S I. destruct (full_hit (nx_edges g) E) as [H1 H2].
    { intros [[a b] d] He. destruct (s_in _ _ S a b d He) as (Ha & Hb & Hne).
      assert (J : joined E a b) by (exists (a, b, d); split; [assumption|left; reflexivity]).
      destruct (before_total N a b Ha Hb Hne) as [B|B].
      - exists (a, b). split; [apply (in_nx_edges N E g); auto|left; reflexivity].
      - exists (b, a). split; [apply (in_nx_edges N E g); auto using joined_sym|right; reflexivity]. }
    rewrite <- H1, <- H2. apply nx_assign_loop; [assumption|assumption|].
    intros [a b] Hp. apply (in_nx_edges N E g a b S I) in Hp. apply Hp.
  Qed.
  Lemma rx_assign_spec N E g : simple N E -> rx_inv N E g ->
    if forallb fine E then exists g', rx_assign_weights zero node_w g = Ok g' /\ rx_inv N (map assigned E) g'
    else rx_assign_weights zero node_w g = Err KeyError.
  Proof.
    intros S I. destruct (full_hit (rx_edges g) E) as [H1 H2].
    { intros e He. exists (fst e). rewrite (rx_edges_spec N E g I). split; [apply in_map; assumption|].
      left. destruct (fst e); reflexivity. }
    rewrite <- H1, <- H2. apply rx_assign_loop; [assumption|assumption|].
    intros [a b] Hp. rewrite (rx_edges_spec N E g I) in Hp. apply in_map_iff in Hp. destruct Hp as [e [Ha He]].
    exists e. split; [assumption|]. left. assumption.
  Qed.
End Assign.

(* ---------------- to_nx ---------------- *)
Definition addn (u : snode) (N : list snode) : list snode := if smem u N then N else N ++ [u].
Lemma in_addn u N x : In x (addn u N) <-> In x N \/ x = u.
Proof.
  unfold addn. destruct (smem u N) eqn:F; [apply smem_In in F|].
  - split; [auto|]. intros [H|H]; subst; auto.
  - rewrite in_app_iff. cbn [In]. split; [intros [H|[H|[]]]; auto|intros [H|H]; auto].
Qed.
Lemma addn_simple u N E : simple N E -> simple (addn u N) E.
Proof. intros S. unfold addn. destruct (smem u N) eqn:F; [assumption|]. apply smem_false in F. apply simple_node; assumption. Qed.
Lemma addn_inv u N E g : simple N E -> nx_inv N E g -> nx_inv (addn u N) E (nx_add_node u g).
Proof.
  intros S I. unfold addn. destruct (smem u N) eqn:F.
  - apply smem_In in F. rewrite nx_add_node_old; [assumption|]. rewrite (ni_nodes _ _ _ I). assumption.
  - apply smem_false in F. apply nx_inv_node; assumption.
Qed.
Lemma nx_add_edge_inv N E g u v cv : simple N E -> nx_inv N E g -> u <> v -> ~ joined E u v ->
  nx_inv (addn v (addn u N)) (E ++ [(u, v, new_data cv)]) (nx_add_edge u v cv g).
Proof.
  intros S I Hne Hj.
  assert (S2 : simple (addn v (addn u N)) E) by (apply addn_simple, addn_simple; assumption).
  assert (I2 : nx_inv (addn v (addn u N)) E (nx_add_node v (nx_add_node u g))).
  { apply addn_inv; [apply addn_simple; assumption|]. apply addn_inv; assumption. }
  assert (Hu : In u (addn v (addn u N))) by (rewrite !in_addn; auto).
  assert (Hv : In v (addn v (addn u N))) by (rewrite !in_addn; auto).
  pose proof (nx_inv_edge _ _ _ u v cv S2 I2 Hu Hv Hne Hj) as Q.
  unfold nx_add_edge. unfold nx_add_edge in Q. remember (nx_add_node v (nx_add_node u g)) as g2 eqn:Hg.
  rewrite (nx_add_node_old g2 u) in Q by (rewrite (ni_nodes _ _ _ I2); assumption).
  rewrite (nx_add_node_old g2 v) in Q by (rewrite (ni_nodes _ _ _ I2); assumption). exact Q.
Qed.

Lemma to_nx_loop N E g : simple N E -> rx_inv N E g ->
  forall E2 E1 M h, E = E1 ++ E2 -> simple M E1 -> nx_inv M E1 h ->
  exists h' M', fold_left (rx_to_nx1 g) (map fst E2) (Ok h) = Ok h' /\ simple M' E /\ nx_inv M' E h' /\
    forall x, In x M' <-> In x M \/ exists y, joined E2 x y.
Proof.
  intros S I. induction E2 as [|[[u v] d] E2 IH]; intros E1 M h HE SM IM.
  - rewrite app_nil_r in HE. subst E1. exists h, M. cbn [map fold_left]. split; [reflexivity|]. split; [assumption|].
    split; [assumption|]. intros x. split; [auto|]. intros [H|[y [e [[] _]]]]. assumption.
  - cbn [map fold_left fst].
    assert (He : In (u, v, d) E) by (rewrite HE, in_app_iff; right; left; reflexivity).
    destruct (s_in _ _ S u v d He) as (Hu & Hv & Hne).
    assert (P : pair_is u v (u, v, d)) by (left; reflexivity).
    destruct (s_one _ _ S E1 (u, v, d) E2 u v HE P) as [Nj _].
    set (M1 := addn v (addn u M)).
    set (h1 := nx_add_edge u v (ed_cv d) h).
    assert (I1 : nx_inv M1 (E1 ++ [(u, v, new_data (ed_cv d))]) h1) by (apply nx_add_edge_inv; assumption).
    assert (Sx : forall d', simple M1 (E1 ++ [(u, v, d')])).
    { intros d'. apply simple_edge; auto; unfold M1; rewrite ?in_addn; auto. apply addn_simple, addn_simple. assumption. }
    assert (Fd : find (same_pair u v) (E1 ++ [(u, v, new_data (ed_cv d))]) = Some (u, v, new_data (ed_cv d))).
    { apply (find_simple M1); [apply Sx|rewrite in_app_iff; right; left; reflexivity|left; reflexivity]. }
    assert (Hstep : exists h2, rx_to_nx1 g (Ok h) (u, v) = Ok h2 /\ nx_inv M1 (E1 ++ [(u, v, d)]) h2).
    { unfold rx_to_nx1. cbn [bind fst snd]. rewrite (rx_edge_data_spec N E g u v S I).
      rewrite (proj2 (smem_In _ _) Hu), (proj2 (smem_In _ _) Hv). cbn [andb].
      rewrite (find_simple N E u v _ S He P). cbn [bind snd]. fold h1.
      destruct d as [cv [w|]]; cbn [ed_w ed_cv] in *.
      - rewrite (nx_edge_data_spec _ _ _ u v I1), Fd. cbn [bind]. eexists. split; [reflexivity|].
        replace (E1 ++ [(u, v, {| ed_cv := cv; ed_w := Some w |})]) with (map (upd_pair u v w) (E1 ++ [(u, v, new_data (W:=W) cv)])).
        + apply nx_set_inv. assumption.
        + rewrite map_app. cbn [map]. f_equal.
          * rewrite <- map_id. apply map_ext_in. intros e Hin. unfold upd_pair. destruct (same_pair u v e) eqn:F; [|reflexivity].
            exfalso. apply Nj. apply same_pair_true in F. exists e. auto.
          * unfold upd_pair. rewrite (proj2 (same_pair_true u v _)) by (left; reflexivity). reflexivity.
      - eexists. split; [reflexivity|]. exact I1. }
    destruct Hstep as [h2 [-> I2]].
    destruct (IH (E1 ++ [(u, v, d)]) M1 h2) as (h' & M' & Hf & S' & I' & HM).
    { rewrite <- app_assoc. exact HE. }
    { apply Sx. }
    { exact I2. }
    exists h', M'. split; [exact Hf|]. split; [assumption|]. split; [assumption|]. intros x. rewrite HM. unfold M1. rewrite !in_addn. split.
    + intros [[[H| ->]| ->]|[y J]]; [auto| | |].
      * right. exists v. exists (u, v, d). split; [left; reflexivity|left; reflexivity].
      * right. exists u. exists (u, v, d). split; [left; reflexivity|right; reflexivity].
      * right. exists y. destruct J as [e [H1 H2]]. exists e. split; [right; assumption|assumption].
    + intros [H|[y [e [[<-|H] Pe]]]]; [auto| |].
      * destruct Pe as [Pe|Pe]; cbn [fst] in Pe; injection Pe as -> ->; auto.
      * right. exists y, e. auto.
Qed.

Lemma to_nx_spec N E g : simple N E -> rx_inv N E g ->
  exists h M, rx_to_nx g = Ok h /\ simple M E /\ nx_inv M E h /\
    forall x, In x M <-> x = NLow \/ x = NHigh \/ exists y, joined E x y.
Proof.
  intros S I. unfold rx_to_nx. rewrite (rx_edges_spec N E g I).
  assert (S0 : simple [NLow; NHigh] []).
  { constructor; [|intros u v d []|].
    - repeat constructor; [intros [H|[]]; discriminate|intros []].
    - intros E1 e E2 u v H. destruct E1; discriminate. }
  assert (I0 : nx_inv [NLow; NHigh] [] (nx_add_node NHigh (nx_add_node NLow nx_empty))).
  { constructor; try reflexivity.
    - intros u nb [H|[H|[]]]; injection H as <- <-; constructor.
    - intros u nb v [H|[H|[]]]; injection H as <- <-; (split; [intros []|intros [e [[] _]]]). }
  destruct (to_nx_loop N E g S I E [] _ _ eq_refl S0 I0) as (h & M & H1 & H2 & H3 & H4).
  exists h, M. split; [exact H1|]. split; [assumption|]. split; [assumption|]. intros x. rewrite H4. cbn [In]. split.
  - intros [[<-|[<-|[]]]|H]; auto.
  - intros [->|[->|H]]; auto.
Qed.

(* ---------------- histories ---------------- *)
Definition fresh (e : sedge) : dedge := (fst e, new_data (snd e)).
Lemma joined_fresh E u v : joined (map fresh E) u v <-> exists x, In (u, v, x) E \/ In (v, u, x) E.
Proof.
  unfold joined, pair_is. split.
  - intros [e [H P]]. apply in_map_iff in H. destruct H as [[[a b] x] [<- H]]. cbn [fresh fst] in P. exists x.
    destruct P as [P|P]; injection P as -> ->; auto.
  - intros [x [H|H]]; eexists; (split; [apply in_map; exact H|]); cbn [fresh fst]; auto.
Qed.

Lemma build_inv calls : forall N E g r, simple N (map fresh E) -> nx_inv N (map fresh E) g -> rx_inv N (map fresh E) r ->
  well_used N E calls ->
  let N' := N ++ hist_nodes calls in let E' := map fresh (E ++ hist_edges calls) in
  simple N' E' /\ nx_inv N' E' (fold_left nx_call calls g) /\
  exists r', fold_left rx_call calls (Ok r) = Ok r' /\ rx_inv N' E' r'.
Proof.
  induction calls as [|[u|[[u v] cv]] calls IH]; intros N E g r S I R Wu; cbn [hist_nodes hist_edges fold_left].
  - rewrite !app_nil_r. split; [assumption|]. split; [assumption|]. exists r. auto.
  - destruct Wu as [Hu Wu]. specialize (IH (N ++ [u]) E (nx_add_node u g) (rx_add_node u r)).
    rewrite <- app_assoc in IH. apply IH; [apply simple_node| apply nx_inv_node | apply rx_inv_node |]; assumption.
  - destruct Wu as [(Hu & Hv & Hne & Hj) Wu]. rewrite <- joined_fresh in Hj.
    destruct (rx_inv_edge N _ r u v cv R Hu Hv) as [r1 [Hr R1]].
    specialize (IH N (E ++ [(u, v, cv)]) (nx_add_edge u v cv g) r1). rewrite <- app_assoc in IH.
    cbn [nx_call rx_call bind]. rewrite Hr. rewrite map_app in IH. apply IH; [| | |assumption].
    + apply simple_edge; assumption.
    + apply nx_inv_edge; assumption.
    + exact R1.
Qed.
Lemma build_spec calls : well_used [] [] calls ->
  let N := hist_nodes calls in let E := map fresh (hist_edges calls) in
  simple N E /\ nx_inv N E (nx_build calls) /\ exists r, rx_build calls = Ok r /\ rx_inv N E r.
Proof.
  intros H. apply (build_inv calls [] [] nx_empty rx_empty); [|apply nx_inv_empty|apply rx_inv_empty|assumption].
  constructor; [constructor|intros u v d []|]. intros E1 e E2 u v Heq. destruct E1; discriminate.
Qed.

(* ---------------- agreement ---------------- *)
Lemma nx_edges_orient N E n : simple N E -> nx_inv N E n -> same_edges (nx_edges n) (map fst E).
Proof.
  intros S I.
  assert (PE : forall p q : snode * snode, {p = q} + {p <> q}) by (decide equality; apply snode_eq_dec).
  set (orient := fun e : dedge => if in_dec PE (fst e) (nx_edges n) then fst e else (snd (fst e), fst (fst e))).
  assert (OR : forall e, orient e = fst e \/ orient e = (snd (fst e), fst (fst e))).
  { intros e. unfold orient. destruct (in_dec _ _ _); auto. }
  assert (IN : forall e, In e E -> In (orient e) (nx_edges n)).
  { intros [[a b] d] He. unfold orient. cbn [fst snd]. destruct (in_dec PE (a, b) (nx_edges n)) as [H|H]; [assumption|].
    destruct (s_in _ _ S a b d He) as (Ha & Hb & Hne).
    assert (J : joined E a b) by (exists (a, b, d); split; [assumption|left; reflexivity]).
    destruct (before_total N a b Ha Hb Hne) as [B|B].
    - exfalso. apply H. apply (in_nx_edges N E n a b S I). auto.
    - apply (in_nx_edges N E n b a S I). auto using joined_sym. }
  exists (map orient E). split.
  - apply NoDup_Permutation.
    + exact (nx_edges_NoDup N E n S I).
    + pose proof (s_one _ _ S) as O. clear IN. clear S I. induction E as [|e E IH]; cbn [map]; [constructor|]. constructor.
      * intros H. apply in_map_iff in H. destruct H as [e' [H1 H2]].
        assert (P : pair_is (fst (fst e)) (snd (fst e)) e) by (left; destruct e as [[a b] d]; reflexivity).
        destruct (O [] e E _ _ eq_refl P) as [_ Nj]. apply Nj. exists e'. split; [assumption|].
        unfold pair_is. destruct e as [[a b] d], e' as [[a' b'] d']. cbn [fst snd] in *.
        destruct (OR (a, b, d)) as [Q1|Q1], (OR (a', b', d')) as [Q2|Q2]; rewrite Q1, Q2 in H1; cbn [fst snd] in H1; injection H1 as -> ->; auto.
      * apply IH. intros E1 x E2 u v Heq P. destruct (O (e :: E1) x E2 u v (f_equal (cons e) Heq) P) as [H1 H2]. split; [|assumption].
        intros [y [Hy Py]]. apply H1. exists y. split; [right; assumption|assumption].
    + intros [u v]. split.
      * intros H. pose proof H as H0. apply (in_nx_edges N E n u v S I) in H0. destruct H0 as [[e [He P]] B]. apply in_map_iff.
        exists e. split; [|assumption]. unfold orient. destruct P as [P|P]; rewrite P; cbn [fst snd].
        -- destruct (in_dec PE (u, v) (nx_edges n)); [reflexivity|contradiction].
        -- destruct (in_dec PE (v, u) (nx_edges n)) as [H'|H']; [|reflexivity]. exfalso.
           apply (in_nx_edges N E n v u S I) in H'. destruct H' as [_ H']. exact (before_asym N u v (s_nd _ _ S) B H').
      * intros H. apply in_map_iff in H. destruct H as [e [<- He]]. apply IN. assumption.
  - clear IN S I. induction E as [|e E IH]; cbn [map]; constructor; [|exact IH]. destruct (OR e) as [-> | -> ]; auto.
Qed.

Lemma inv_agree N E n r : simple N E -> nx_inv N E n -> rx_inv N E r -> agree n r.
Proof.
  intros S I R. constructor.
  - rewrite (ni_nodes _ _ _ I), (ri_nodes _ _ _ R). reflexivity.
  - rewrite (rx_edges_spec N E r R). exact (nx_edges_orient N E n S I).
  - intros u v d. rewrite (nx_edge_data_spec N E n u v I), (rx_edge_data_spec N E r u v S R).
    destruct (find (same_pair u v) E) as [e|] eqn:F.
    + assert (J : joined E u v).
      { apply find_some in F. exists e. split; [apply F|]. apply same_pair_true, F. }
      destruct (joined_in N E u v S J) as (Hu & Hv & _).
      rewrite (proj2 (smem_In _ _) Hu), (proj2 (smem_In _ _) Hv). reflexivity.
    + destruct (_ && _); split; discriminate.
  - intros u Hu. rewrite (ni_nodes _ _ _ I) in Hu. destruct (nx_find_adj N E n u I Hu) as [nb [F Hin]].
    exists nb. unfold nx_neighbors. rewrite F. split; [reflexivity|]. pose proof (nx_nb_perm N E n u nb S I Hin) as Pn. split.
    + apply (rx_neighbors_spec N E r u _ S R Hu). exists nb. auto.
    + intros l' Hl. apply (rx_neighbors_spec N E r u _ S R Hu) in Hl. destruct Hl as [o [Po ->]]. exists o. split; [reflexivity|].
      eapply Permutation_trans; [exact Po|]. apply Permutation_sym. assumption.
  - intros u Hu. rewrite (ni_nodes _ _ _ I) in Hu. destruct (nx_find_adj N E n u I Hu) as [nb [F Hin]].
    exists (map (pair u) nb). unfold nx_out_edges. rewrite F. split; [reflexivity|].
    pose proof (Permutation_map (pair u) (nx_nb_perm N E n u nb S I Hin)) as Pn. split.
    + apply (rx_out_edges_spec N E r u _ S R Hu). eexists. split; [exact Pn|]. reflexivity.
    + intros l' Hl. apply (rx_out_edges_spec N E r u _ S R Hu) in Hl. destruct Hl as [o [Po ->]]. exists o. split; [reflexivity|].
      eapply Permutation_trans; [exact Po|]. apply Permutation_sym. assumption.
  - intros u Hu. rewrite (ni_nodes _ _ _ I) in Hu. split; [|split].
    + unfold nx_neighbors. destruct (find _ (nx_adj n)) as [[a nb]|] eqn:F; [|reflexivity]. exfalso. apply find_some in F.
      destruct F as [F1 F2]. cbn [fst] in F2. apply sneqb_true in F2. subst a. apply Hu. rewrite <- (ni_nodes _ _ _ I).
      apply in_map_iff. exists (u, nb). auto.
    + intros l'. unfold rx_neighbors. rewrite (rx_lookup_out N E r u R Hu). auto.
    + intros v. rewrite !(nx_edge_data_spec N E n _ _ I), !(rx_edge_data_spec N E r _ _ S R).
      assert (F1 : find (same_pair u v) E = None).
      { apply find_joined. intros J. destruct (joined_in N E u v S J) as (H & _). contradiction. }
      assert (F2 : find (same_pair v u) E = None).
      { apply find_joined. intros J. destruct (joined_in N E v u S J) as (_ & H & _). contradiction. }
      rewrite F1, F2, (proj2 (smem_false _ _) Hu), andb_false_r. auto.
Qed.

(* ---------------- the calls of StabilizerGraph.__init__ ---------------- *)
Lemma hist_nodes_app a b : hist_nodes (a ++ b) = hist_nodes a ++ hist_nodes b.
Proof. induction a as [|[u|e] a IH]; cbn [app hist_nodes]; rewrite ?IH; reflexivity. Qed.
Lemma hist_edges_app a b : hist_edges (a ++ b) = hist_edges a ++ hist_edges b.
Proof. induction a as [|[u|e] a IH]; cbn [app hist_edges]; rewrite ?IH; reflexivity. Qed.
Lemma hist_nodes_edges l : hist_nodes (map CEdge l) = [].
Proof. induction l; auto. Qed.
Lemma hist_edges_edges l : hist_edges (map CEdge l) = l.
Proof. induction l as [|e l IH]; cbn [map hist_edges]; rewrite ?IH; reflexivity. Qed.
Lemma hist_nodes_nodes {A} (f : A -> snode) l : hist_nodes (map (fun i => CNode (f i)) l) = map f l.
Proof. induction l as [|e l IH]; cbn [map hist_nodes]; rewrite ?IH; reflexivity. Qed.
Lemma hist_edges_nodes {A} (f : A -> snode) l : hist_edges (map (fun i => CNode (f i)) l) = [].
Proof. induction l as [|e l IH]; cbn [map hist_edges]; rewrite ?IH; reflexivity. Qed.
Lemma hist_nodes_conn c l : hist_nodes (flat_map (fun p => [CNode (NPt p); CEdge (c, NPt p, None)]) l) = map NPt l.
Proof. induction l as [|e l IH]; [reflexivity|]. cbn [flat_map app hist_nodes map]. rewrite IH. reflexivity. Qed.
Lemma hist_edges_conn c l : hist_edges (flat_map (fun p => [CNode (NPt p); CEdge (c, NPt p, None)]) l) = map (fun p => (c, NPt p, None)) l.
Proof. induction l as [|e l IH]; [reflexivity|]. cbn [flat_map app hist_edges map]. rewrite IH. reflexivity. Qed.

Lemma sg_calls_nodes stabs bp ch : hist_nodes (sg_calls stabs bp ch) = sg_nodes stabs bp.
Proof.
  unfold sg_calls, sg_nodes. rewrite !hist_nodes_app, !hist_nodes_conn, !hist_nodes_edges, hist_nodes_nodes. cbn [hist_nodes app]. rewrite ?app_nil_r. reflexivity.
Qed.
Lemma sg_calls_edges stabs bp ch : hist_edges (sg_calls stabs bp ch) = sg_edges stabs bp ch.
Proof.
  unfold sg_calls, sg_edges, conn_edges. rewrite !hist_edges_app, !hist_edges_conn, !hist_edges_edges, hist_edges_nodes. cbn [hist_edges app].
  rewrite <- !app_assoc. reflexivity.
Qed.

Lemma well_used_app a : forall N E b, well_used N E a -> well_used (N ++ hist_nodes a) (E ++ hist_edges a) b -> well_used N E (a ++ b).
Proof.
  induction a as [|[u|[[u v] cv]] a IH]; intros N E b; cbn [well_used app hist_nodes hist_edges].
  - rewrite !app_nil_r. auto.
  - intros [H1 H2] H3. split; [assumption|]. apply IH; [assumption|]. rewrite <- app_assoc. exact H3.
  - intros [H1 H2] H3. split; [assumption|]. apply IH; [assumption|]. rewrite <- app_assoc. exact H3.
Qed.
Lemma well_used_nodes l : forall N E, NoDup l -> (forall u, In u l -> ~ In u N) -> well_used N E (map CNode l).
Proof.
  induction l as [|u l IH]; intros N E ND H; cbn [map well_used]; [exact Logic.I|]. apply NoDup_cons_iff in ND. destruct ND as [Hu ND].
  split; [apply H; left; reflexivity|]. apply IH; [assumption|]. intros x Hx. rewrite in_app_iff. intros [H'|[->|[]]]; [|contradiction].
  exact (H x (or_intror Hx) H').
Qed.
Lemma well_used_edges L : forall N E, (forall u v cv, In (u, v, cv) L -> In u N /\ In v N /\ u <> v) ->
  (forall A u v cv B, L = A ++ (u, v, cv) :: B -> ~ exists x, In (u, v, x) (E ++ A) \/ In (v, u, x) (E ++ A)) ->
  well_used N E (map CEdge L).
Proof.
  induction L as [|[[u v] cv] L IH]; intros N E H O; cbn [map well_used]; [exact Logic.I|]. split.
  - destruct (H u v cv (or_introl eq_refl)) as (H1 & H2 & H3). split; [assumption|]. split; [assumption|]. split; [assumption|].
    pose proof (O [] u v cv L eq_refl) as Q. rewrite app_nil_r in Q. exact Q.
  - apply IH; [intros a b x Hx; apply (H a b x); right; assumption|]. intros A a b x B ->.
    pose proof (O ((u, v, cv) :: A) a b x B eq_refl) as Q. rewrite <- app_assoc. exact Q.
Qed.
Lemma well_used_conn c l : forall N E, In c N -> NoDup l -> (forall p, In p l -> ~ In (NPt p) N) ->
  (forall u v x, In (u, v, x) E -> In u N /\ In v N) ->
  well_used N E (flat_map (fun p => [CNode (NPt p); CEdge (c, NPt p, None)]) l).
Proof.
  induction l as [|p l IH]; intros N E Hc ND H HE; cbn [flat_map app well_used]; [exact Logic.I|].
  apply NoDup_cons_iff in ND. destruct ND as [Hp ND]. pose proof (H p (or_introl eq_refl)) as HpN.
  split; [assumption|]. split.
  - rewrite !in_app_iff. split; [auto|]. split; [right; left; reflexivity|]. split; [intros ->; contradiction|].
    intros [x [Hx|Hx]]; apply HE in Hx; destruct Hx; contradiction.
  - apply IH; [rewrite in_app_iff; auto|assumption| |].
    + intros q Hq. rewrite in_app_iff. intros [H'|[H'|[]]]; [exact (H q (or_intror Hq) H')|].
      injection H' as ->. contradiction.
    + intros u v x Hx. rewrite !in_app_iff in *. destruct Hx as [Hx|[Hx|[]]].
      * destruct (HE u v x Hx). auto.
      * injection Hx as <- <- <-. cbn [In]. auto.
Qed.
End P.
