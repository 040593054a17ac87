(* MwpmInst.v: the contracts of the shortest path and matching libraries are satisfiable:
   exhaustive search meets them on every graph with non-negative weights. *)
From Verif Require Import Base Lattice RhgModel SurfaceModel StabGraphModel Paths Complex MwpmModel MwpmProofs.
Open Scope Z_scope.

(* ---------- minimum over a list ---------- *)
Fixpoint best {A} (c : A -> Z) (l : list A) : option A :=
  match l with
  | [] => None
  | x :: l' => match best c l' with Some y => if c x <=? c y then Some x else Some y | None => Some x end
  end.
Lemma best_none {A} (c : A -> Z) l : best c l = None -> l = [].
Proof. destruct l as [|x l]; [reflexivity|]. simpl. destruct (best c l) as [y|]; [destruct (_ <=? _)|]; discriminate. Qed.
Lemma best_some {A} (c : A -> Z) l x : best c l = Some x -> In x l /\ forall y, In y l -> c x <= c y.
Proof.
  revert x. induction l as [|a l IH]; simpl; intros x H; [discriminate|].
  destruct (best c l) as [y|] eqn:F.
  - destruct (IH y eq_refl) as [H1 H2]. destruct (c a <=? c y) eqn:L; injection H as <-.
    + split; [auto|]. intros z [<-|Hz]; [lia|]. specialize (H2 z Hz). lia.
    + split; [auto|]. intros z [<-|Hz]; [lia|]. auto.
  - apply best_none in F. subst. injection H as <-. split; [auto|]. intros z [<-|[]]. lia.
Qed.

(* ---------- all words over an alphabet ---------- *)
Fixpoint words {A} (al : list A) (n : nat) : list (list A) :=
  match n with
  | O => [[]]
  | S n' => [] :: flat_map (fun x => map (cons x) (words al n')) al
  end.
Lemma in_words {A} (al : list A) : forall n p, incl p al -> (length p <= n)%nat -> In p (words al n).
Proof.
  induction n as [|n IH]; intros p Hp Hl.
  - destruct p; [left; reflexivity|simpl in Hl; lia].
  - destruct p as [|x p]; [left; reflexivity|]. right. apply in_flat_map. exists x. split; [apply Hp; left; reflexivity|].
    apply in_map. apply IH; [|simpl in Hl; lia]. intros y Hy. apply Hp. right; assumption.
Qed.
Lemma words_incl {A} (al : list A) : forall n p, In p (words al n) -> incl p al.
Proof.
  induction n as [|n IH]; simpl; intros p Hp.
  - destruct Hp as [<-|[]]. intros x [].
  - destruct Hp as [<-|Hp]; [intros x []|]. apply in_flat_map in Hp. destruct Hp as (x & Hx & Hp).
    apply in_map_iff in Hp. destruct Hp as (p' & <- & Hp). intros y [<-|Hy]; [assumption|]. eapply IH; eassumption.
Qed.

(* ---------- shortest simple paths ---------- *)
Fixpoint chainb (adj : snode -> snode -> bool) (l : list snode) : bool :=
  match l with
  | x :: l' => match l' with y :: _ => adj x y && chainb adj l' | [] => true end
  | [] => true
  end.
Fixpoint nodupb {A} (dec : forall x y : A, {x = y} + {x <> y}) (l : list A) : bool :=
  match l with [] => true | x :: l' => (if in_dec dec x l' then false else true) && nodupb dec l' end.
Lemma nodupb_iff {A} (dec : forall x y : A, {x = y} + {x <> y}) l : nodupb dec l = true <-> NoDup l.
Proof.
  induction l as [|x l IH]; simpl; [split; [constructor|reflexivity]|]. rewrite andb_true_iff, IH.
  destruct (in_dec dec x l); split.
  - intros [F _]; discriminate.
  - intros H; inversion H; contradiction.
  - intros [_ H]; constructor; assumption.
  - intros H; inversion H; auto.
Qed.
Definition pathb (adj : snode -> snode -> bool) (u v : snode) (p : list snode) : bool :=
  match p with x :: _ => sneqb x u && sneqb (last p u) v && chainb adj p && nodupb snode_eq_dec p | [] => false end.

Lemma sneqb_iff u v : sneqb u v = true <-> u = v.
Proof. unfold sneqb. destruct (snode_eq_dec u v); split; congruence. Qed.

Section SP.
  Variables (R : snode -> snode -> Prop) (adj : snode -> snode -> bool).
  Hypothesis Hadj : forall u v, adj u v = true <-> R u v.
  Variables (nodes : list snode) (f : snode -> snode -> Z).
  Hypothesis Hf : forall u v, 0 <= f u v.
  Hypothesis Hnodes : forall u v, R u v -> In u nodes /\ In v nodes.
  Definition pcost (p : list snode) : Z := sumZ (fun xy => f (fst xy) (snd xy)) (pairs p).

  Lemma chainb_iff l : chainb adj l = true <-> chain R l.
  Proof.
    induction l as [|x l IH]; [simpl; tauto|]. destruct l as [|y l]; [simpl; tauto|].
    change (chainb adj (x :: y :: l)) with (adj x y && chainb adj (y :: l)).
    rewrite andb_true_iff, IH, Hadj. simpl. tauto.
  Qed.

  Lemma pathb_iff u v p : pathb adj u v p = true <-> is_path R u v p /\ NoDup p.
  Proof.
    unfold pathb, is_path. destruct p as [|x p].
    - split; [discriminate|]. intros [(_ & F & _) _]. discriminate.
    - rewrite !andb_true_iff, !sneqb_iff, chainb_iff, nodupb_iff. split.
      + intros [[[-> Hl] Hc] Hn]. repeat split; auto.
      + intros [(Hc & Hh & Hl) Hn]. injection Hh as ->. repeat split; auto.
  Qed.

  Lemma pcost_tl x p : pcost p <= pcost (x :: p).
  Proof.
    destruct p as [|y p]; [unfold pcost; simpl; lia|]. unfold pcost. rewrite (pairs_cons x y) by reflexivity.
    cbn [sumZ fold_right fst snd]. pose proof (Hf x y). unfold sumZ. lia.
  Qed.
  Lemma pcost_suffix l p : pcost p <= pcost (l ++ p).
  Proof. induction l as [|x l IH]; [simpl; lia|]. simpl. pose proof (pcost_tl x (l ++ p)). lia. Qed.

  Lemma simple_path u v p : is_path R u v p -> exists p', is_path R u v p' /\ NoDup p' /\ pcost p' <= pcost p.
  Proof.
    intros H. apply ipath_of in H. induction H as [u|u x v p Hux Hp _ IH].
    - exists [u]. split; [apply is_path_one|]. split; [constructor; [intros []|constructor]|lia].
    - destruct IH as (p' & Hp' & Hn & Hc).
      assert (Hup : pcost (u :: p') <= pcost (u :: p)).
      { unfold pcost. rewrite (pairs_cons u x p) by apply Hp. rewrite (pairs_cons u x p') by apply Hp'.
        cbn [sumZ fold_right fst snd]. unfold pcost, sumZ in *. lia. }
      destruct (in_dec snode_eq_dec u p') as [Hin|Hin].
      + destruct (is_path_split _ _ _ _ u Hp' Hin) as (l1 & l2 & E & _ & Hs).
        exists l2. split; [assumption|]. rewrite E in Hn. split; [apply nodup_app_r in Hn; assumption|].
        pose proof (pcost_suffix l1 l2) as H. rewrite <- E in H. pose proof (pcost_tl u p'). lia.
      + exists (u :: p'). split; [apply (is_path_cons _ _ x); assumption|]. split; [constructor; assumption|assumption].
  Qed.

  Lemma path_incl u v p : u <> v -> is_path R u v p -> incl p nodes.
  Proof.
    intros Huv Hp. assert (G : forall u v p, is_path R u v p -> (2 <= length p)%nat -> incl p nodes).
    { clear - Hnodes. intros u v p H. apply ipath_of in H. induction H as [u|u x v p Hux Hp _ IH]; intros Hl; [simpl in Hl; lia|].
      intros y [<-|Hy]; [apply (Hnodes u x Hux)|].
      destruct p as [|a [|b p]]; [destruct Hy| |apply IH; [simpl; lia|assumption]].
      destruct Hp as (_ & F & _). injection F as ->. destruct Hy as [<-|[]]. apply (Hnodes u x Hux). }
    apply (G u v p Hp). destruct p as [|a [|b p]]; [destruct Hp as (_ & F & _); discriminate| |simpl; lia].
    exfalso. apply Huv. destruct Hp as (_ & F & G'). simpl in *. congruence.
  Qed.

  Definition search (u v : snode) : option (list snode) :=
    best pcost (filter (pathb adj u v) (words nodes (length nodes))).

  Lemma search_ok u v : u <> v -> shortest R pcost u v (search u v) /\ forall p, search u v = Some p -> NoDup p.
  Proof.
    intros Huv. unfold search.
    assert (Hall : forall p, is_path R u v p -> NoDup p -> In p (filter (pathb adj u v) (words nodes (length nodes)))).
    { intros p Hp Hn. pose proof (path_incl u v p Huv Hp) as Hi. apply filter_In.
      split; [|apply pathb_iff; auto]. apply in_words; [assumption|]. apply NoDup_incl_length; assumption. }
    destruct (best pcost (filter (pathb adj u v) (words nodes (length nodes)))) as [p|] eqn:B.
    - apply best_some in B. destruct B as [H1 H2]. apply filter_In in H1. destruct H1 as [_ H1]. apply pathb_iff in H1.
      split.
      + split; [apply H1|]. intros p' Hp'. destruct (simple_path u v p' Hp') as (p'' & Hp'' & Hn & Hc).
        specialize (H2 p'' (Hall p'' Hp'' Hn)). lia.
      + intros q E. injection E as <-. apply H1.
    - apply best_none in B. split; [|discriminate]. intros p' Hp'. destruct (simple_path u v p' Hp') as (p'' & Hp'' & Hn & _).
      pose proof (Hall p'' Hp'' Hn) as F. rewrite B in F. destruct F.
  Qed.
End SP.

Definition gadjb (E : list sedge) (u v : snode) : bool := existsb (same_pair u v) E.
Definition radjb (E : list sedge) (u v : snode) : bool := gadjb E u v && real u && real v.
Definition end_nodes (E : list sedge) : list snode := flat_map (fun e => [fst (fst e); snd (fst e)]) E.

Lemma gadjb_iff E u v : gadjb E u v = true <-> gadj E u v.
Proof.
  unfold gadjb, gadj. rewrite existsb_exists. split.
  - intros ([[a b] cv] & Hin & Hs). apply same_pair_iff in Hs. simpl in Hs. exists cv.
    destruct Hs as [[-> ->]|[-> ->]]; auto.
  - intros (cv & [H|H]); [exists (u, v, cv)|exists (v, u, cv)]; (split; [assumption|]); apply same_pair_iff; simpl; auto.
Qed.
Lemma gadj_nodes E u v : gadj E u v -> In u (end_nodes E) /\ In v (end_nodes E).
Proof.
  unfold end_nodes. rewrite !in_flat_map. intros (cv & [H|H]); (split; (eexists; split; [exact H|])); simpl; auto.
Qed.

Definition search_oracle (E : list sedge) (w : point -> Z) : sp_oracle :=
  {| sp_mid := search (radjb E) (end_nodes E) (wt E w);
     sp_low := search (gadjb E) (end_nodes E) (wt E w) NLow;
     sp_high := search (gadjb E) (end_nodes E) (wt E w) NHigh |}.

(* Dijkstra's algorithm returns simple paths *)
Definition oracle_simple (o : sp_oracle) : Prop :=
  (forall u v p, real u = true -> u <> v -> sp_mid o u v = Some p -> NoDup p) /\
  (forall v p, v <> NLow -> sp_low o v = Some p -> NoDup p) /\ (forall v p, v <> NHigh -> sp_high o v = Some p -> NoDup p).

Theorem search_oracle_ok E w : (forall q, 0 <= w q) -> oracle_ok E w (search_oracle E w) /\ oracle_simple (search_oracle E w).
Proof.
  intros Hw.
  assert (Hwt : forall u v, 0 <= wt E w u v).
  { intros u v. unfold wt. destruct (find (same_pair u v) E) as [[uv [q|]]|]; unfold sedge_weight; simpl; auto; lia. }
  assert (HR : forall u v, radjb E u v = true <-> radj E u v).
  { intros u v. unfold radjb, radj. rewrite !andb_true_iff, gadjb_iff. tauto. }
  assert (HRn : forall u v, radj E u v -> In u (end_nodes E) /\ In v (end_nodes E)).
  { intros u v (H & _). apply gadj_nodes in H. assumption. }
  pose proof (search_ok (radj E) (radjb E) HR (end_nodes E) (wt E w) Hwt HRn) as SR.
  pose proof (search_ok (gadj E) (gadjb E) (gadjb_iff E) (end_nodes E) (wt E w) Hwt (gadj_nodes E)) as SG.
  split; [split; [|split]|split; [|split]]; simpl.
  - intros u v _ Huv. apply (SR u v Huv).
  - intros v Hv. apply (SG NLow v). congruence.
  - intros v Hv. apply (SG NHigh v). congruence.
  - intros u v p _ Huv. apply (SR u v Huv).
  - intros v p Hv. apply (SG NLow v). congruence.
  - intros v p Hv. apply (SG NHigh v). congruence.
Qed.

(* ---------- exhaustive matching ---------- *)
Definition ends_of (mg : list medge) : list (mnode * mnode) := map (fun e => (me_u e, me_v e)) mg.
Definition candidates (mg : list medge) : list (list (mnode * mnode)) :=
  filter (fun M => nodupb mnode_eq_dec (endpoints M)) (words (ends_of mg) (length mg)).
Definition search_match (mg : list medge) : list (mnode * mnode) :=
  match best (fun M => - Z.of_nat (length M)) (candidates mg) with
  | None => []
  | Some M0 =>
      match best (total_weight mg) (filter (fun M => Nat.eqb (length M) (length M0)) (candidates mg)) with
      | Some M => M
      | None => []
      end
  end.

Lemma same_match_sym u v e : same_match u v e = same_match v u e.
Proof. unfold same_match. apply orb_comm. Qed.

Lemma edge_wt_sym mg u v : edge_wt mg (u, v) = edge_wt mg (v, u).
Proof.
  unfold edge_wt. simpl. assert (H : find (same_match u v) mg = find (same_match v u) mg); [|rewrite H; reflexivity].
  induction mg as [|e l IH]; [reflexivity|]. simpl. rewrite (same_match_sym u v e), IH. reflexivity.
Qed.

Lemma same_match_iff' u v e : same_match u v e = true <-> (me_u e = u /\ me_v e = v) \/ (me_u e = v /\ me_v e = u).
Proof.
  unfold same_match, mneqb. rewrite orb_true_iff, !andb_true_iff.
  destruct (mnode_eq_dec (me_u e) u), (mnode_eq_dec (me_v e) v), (mnode_eq_dec (me_u e) v), (mnode_eq_dec (me_v e) u);
    split; intros; intuition (try discriminate; try congruence).
Qed.

Lemma orient mg M : (forall uv, In uv M -> exists e, In e mg /\ same_match (fst uv) (snd uv) e = true) ->
  exists M', incl M' (ends_of mg) /\ length M' = length M /\ total_weight mg M' = total_weight mg M /\
    Permutation (endpoints M') (endpoints M).
Proof.
  induction M as [|[u v] M IH]; intros H.
  - exists []. split; [intros x []|]. split; [reflexivity|]. split; reflexivity.
  - destruct IH as (M' & H1 & H2 & H3 & H4); [intros; apply H; right; assumption|].
    destruct (H (u, v) (or_introl eq_refl)) as (e & He & Hs). apply same_match_iff' in Hs. simpl in Hs.
    assert (Hin : In (me_u e, me_v e) (ends_of mg)) by (apply (in_map (fun e => (me_u e, me_v e))); assumption).
    destruct Hs as [[E1 E2]|[E1 E2]]; rewrite E1, E2 in Hin.
    + exists ((u, v) :: M'). split; [intros x [<-|Hx]; auto|]. split; [simpl; lia|].
      split; [unfold total_weight in *; simpl; lia|]. simpl. do 2 constructor. assumption.
    + exists ((v, u) :: M'). split; [intros x [<-|Hx]; auto|]. split; [simpl; lia|].
      split; [unfold total_weight in *; simpl; rewrite (edge_wt_sym mg v u); lia|].
      simpl. etransitivity; [apply perm_swap|]. do 2 constructor. assumption.
Qed.

Lemma endpoints_NoDup {A} (M : list (A * A)) : NoDup (endpoints M) -> NoDup M.
Proof.
  induction M as [|[u v] M IH]; intros H; [constructor|]. simpl in H. inversion H as [|? ? Hu Hr]; subst. inversion Hr; subst.
  constructor; [|auto]. intros Hin. apply Hu. right. apply in_flat_map. exists (u, v). simpl. auto.
Qed.

Lemma candidate_matching mg M : In M (candidates mg) -> is_matching mg M.
Proof.
  unfold candidates. intros H. apply filter_In in H. destruct H as [Hw Hn]. apply nodupb_iff in Hn. split; [assumption|].
  intros uv Huv. apply words_incl in Hw. apply Hw in Huv. apply in_map_iff in Huv. destruct Huv as (e & <- & He).
  exists e. split; [assumption|]. apply same_match_iff'. auto.
Qed.

Lemma matching_candidate mg M : is_matching mg M -> exists M', In M' (candidates mg) /\ length M' = length M /\ total_weight mg M' = total_weight mg M.
Proof.
  intros [Hn HM]. destruct (orient mg M HM) as (M' & H1 & H2 & H3 & H4). exists M'. split; [|auto].
  assert (Hn' : NoDup (endpoints M')) by (apply (Permutation_NoDup (l := endpoints M)); [symmetry; assumption|assumption]).
  apply filter_In. split; [|apply nodupb_iff; assumption]. apply in_words; [assumption|].
  rewrite <- (map_length (fun e => (me_u e, me_v e)) mg). apply NoDup_incl_length; [apply endpoints_NoDup; assumption|assumption].
Qed.

Theorem search_match_ok mg : best_matching mg (search_match mg).
Proof.
  unfold search_match.
  assert (Hnil : In [] (candidates mg)).
  { apply filter_In. split; [|reflexivity]. apply in_words; [intros x []|simpl; lia]. }
  destruct (best (fun M => - Z.of_nat (length M)) (candidates mg)) as [M0|] eqn:B0.
  2: { apply best_none in B0. rewrite B0 in Hnil. destruct Hnil. }
  apply best_some in B0. destruct B0 as [I0 L0].
  destruct (best (total_weight mg) (filter (fun M => Nat.eqb (length M) (length M0)) (candidates mg))) as [M|] eqn:B1.
  2: { apply best_none in B1. exfalso.
       assert (F : In M0 (filter (fun M => Nat.eqb (length M) (length M0)) (candidates mg))) by (apply filter_In; rewrite Nat.eqb_refl; auto).
       rewrite B1 in F. destruct F. }
  apply best_some in B1. destruct B1 as [I1 L1]. apply filter_In in I1. destruct I1 as [I1 E1]. apply Nat.eqb_eq in E1.
  split; [apply candidate_matching; assumption|]. split.
  - intros M' HM'. destruct (matching_candidate mg M' HM') as (M'' & H1 & H2 & _). specialize (L0 M'' H1). simpl in L0. lia.
  - intros M' HM' Hl. destruct (matching_candidate mg M' HM') as (M'' & H1 & H2 & H3). rewrite <- H3. apply L1.
    apply filter_In. split; [assumption|]. apply Nat.eqb_eq. lia.
Qed.
