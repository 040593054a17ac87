(* MwpmProofs.v: the matching decoder clears the syndrome of any well-formed complex. *)
From Verif Require Import Base Lattice RhgModel SurfaceModel StabGraphModel Paths Complex MwpmModel.
Open Scope Z_scope.

(* ---------- lists ---------- *)
Lemma mapM_ok {A B} (f : A -> res B) l : (forall x, In x l -> exists y, f x = Ok y) ->
  exists ys, mapM f l = Ok ys /\ Forall2 (fun x y => f x = Ok y) l ys.
Proof.
  induction l as [|x l IH]; intros H; simpl.
  - exists []. split; [reflexivity|constructor].
  - destruct (H x (or_introl eq_refl)) as [y Hy]. rewrite Hy. simpl.
    destruct IH as [ys [E F]]; [intros; apply H; right; assumption|]. rewrite E. simpl.
    exists (y :: ys). split; [reflexivity|]. constructor; assumption.
Qed.

Lemma mapM_inv {A B} (f : A -> res B) l ys : mapM f l = Ok ys -> Forall2 (fun x y => f x = Ok y) l ys.
Proof.
  revert ys. induction l as [|x l IH]; simpl; intros ys H.
  - injection H as <-. constructor.
  - destruct (f x) as [y|] eqn:E; [|discriminate]. simpl in H.
    destruct (mapM f l) as [ys'|] eqn:F; [|discriminate]. simpl in H. injection H as <-.
    constructor; auto.
Qed.

Lemma F2_in_r {A B} (R : A -> B -> Prop) l m y : Forall2 R l m -> In y m -> exists x, In x l /\ R x y.
Proof.
  induction 1; intros Hin; [destruct Hin|]. destruct Hin as [->|Hin].
  - exists x. split; [left; reflexivity|assumption].
  - destruct (IHForall2 Hin) as [z [Hz1 Hz2]]. exists z. split; [right|]; assumption.
Qed.
Lemma F2_in_l {A B} (R : A -> B -> Prop) l m x : Forall2 R l m -> In x l -> exists y, In y m /\ R x y.
Proof.
  induction 1; intros Hin; [destruct Hin|]. destruct Hin as [->|Hin].
  - exists y. split; [left; reflexivity|assumption].
  - destruct (IHForall2 Hin) as [z [Hz1 Hz2]]. exists z. split; [right|]; assumption.
Qed.

Lemma in_combs {A} (l : list A) x y : In (x, y) (combs l) -> In x l /\ In y l.
Proof.
  induction l as [|z l IH]; simpl; [intros []|]. rewrite in_app_iff, in_map_iff.
  intros [[u [E Hu]]|H]; [injection E as <- <-; auto|]. destruct (IH H); auto.
Qed.
Lemma in_combs_neq {A} (l : list A) x y : NoDup l -> In (x, y) (combs l) -> x <> y.
Proof.
  induction l as [|z l IH]; simpl; intros Hn H; [destruct H|]. inversion Hn; subst.
  rewrite in_app_iff, in_map_iff in H. destruct H as [[u [E Hu]]|H]; [injection E as <- <-; congruence|auto].
Qed.
Lemma combs_total {A} (l : list A) x y : In x l -> In y l -> x <> y -> In (x, y) (combs l) \/ In (y, x) (combs l).
Proof.
  induction l as [|z l IH]; simpl; intros Hx Hy Hn; [destruct Hx|]. rewrite !in_app_iff, !in_map_iff.
  destruct Hx as [->|Hx], Hy as [->|Hy].
  - congruence.
  - left; left. exists y; auto.
  - right; left. exists x; auto.
  - destruct (IH Hx Hy Hn); auto.
Qed.

Lemma sumZ_app {A} (f : A -> Z) l m : sumZ f (l ++ m) = sumZ f l + sumZ f m.
Proof. induction l; simpl; lia. Qed.
Lemma sumZ_nonneg {A} (f : A -> Z) l : (forall x, In x l -> 0 <= f x) -> 0 <= sumZ f l.
Proof.
  induction l as [|x l IH]; simpl; intros H; [lia|].
  pose proof (H x (or_introl eq_refl)). pose proof (IH (fun y Hy => H y (or_intror Hy))). lia.
Qed.
Lemma sumZ_ext {A} (f g : A -> Z) l : (forall x, In x l -> f x = g x) -> sumZ f l = sumZ g l.
Proof.
  induction l as [|x l IH]; simpl; intros H; [reflexivity|]. rewrite (H x) by auto. rewrite IH; auto.
Qed.

Lemma nodup_app_r {A} (l m : list A) : NoDup (l ++ m) -> NoDup m.
Proof. induction l as [|x l IH]; simpl; intros H; [assumption|]. inversion H; auto. Qed.

Definition omem (x : option point) (s : list (option point)) : bool :=
  if in_dec opt_eq_dec x s then true else false.
Lemma omem_true x s : omem x s = true <-> In x s.
Proof. unfold omem. destruct (in_dec opt_eq_dec x s); split; auto; discriminate. Qed.

Lemma remove_NoDup (x : option point) s : NoDup s -> NoDup (remove opt_eq_dec x s).
Proof.
  induction s as [|y s IH]; simpl; intros H; [constructor|]. inversion H; subst.
  destruct (opt_eq_dec x y); [auto|]. constructor; [|auto]. intros Hin. apply in_remove in Hin. tauto.
Qed.

Lemma remove_perm (x : option point) s : NoDup s -> In x s -> Permutation s (x :: remove opt_eq_dec x s).
Proof.
  intros Hn Hx. apply NoDup_Permutation; [assumption| |].
  - constructor; [apply remove_In|apply remove_NoDup; assumption].
  - intros y. simpl. split.
    + intros Hy. destruct (opt_eq_dec x y) as [|n]; [auto|]. right. apply in_in_remove; auto.
    + intros [<-|Hy]; [assumption|]. apply in_remove in Hy. tauto.
Qed.

Lemma sumZ_perm {A} (f : A -> Z) l m : Permutation l m -> sumZ f l = sumZ f m.
Proof. induction 1; simpl; lia. Qed.

Lemma toggle_NoDup s x : NoDup s -> NoDup (toggle s x).
Proof.
  intros H. unfold toggle. destruct (in_dec opt_eq_dec x s); [apply remove_NoDup; assumption|constructor; assumption].
Qed.
Lemma toggle_in s x y : In y (toggle s x) -> In y s \/ y = x.
Proof.
  unfold toggle. destruct (in_dec opt_eq_dec x s); [intros H; apply in_remove in H; tauto|].
  intros [->|H]; auto.
Qed.
Lemma toggle_xsum f s x : NoDup s -> xsum f (toggle s x) = xorb (xsum f s) (f x).
Proof.
  intros H. unfold toggle. destruct (in_dec opt_eq_dec x s) as [Hx|Hx].
  - rewrite (xsum_perm f _ _ (remove_perm x s H Hx)). simpl.
    destruct (f x), (xsum f (remove opt_eq_dec x s)); reflexivity.
  - simpl. apply xorb_comm.
Qed.
Lemma toggle_omem s x y : omem y (toggle s x) = xorb (omem y s) (if opt_eq_dec y x then true else false).
Proof.
  apply eq_true_iff_eq. rewrite omem_true. unfold toggle.
  destruct (opt_eq_dec y x) as [->|n].
  - destruct (in_dec opt_eq_dec x s) as [Hx|Hx].
    + pose proof (proj2 (omem_true x s) Hx) as ->. simpl. split; [|discriminate].
      intros H. apply in_remove in H. tauto.
    + assert (omem x s = false) as ->. { destruct (omem x s) eqn:E; [|reflexivity]. apply omem_true in E. contradiction. }
      simpl. split; auto.
  - rewrite xorb_false_r, omem_true. destruct (in_dec opt_eq_dec x s).
    + split; [intros H; apply in_remove in H; tauto|]. intros H. apply in_in_remove; auto.
    + simpl. split; [intros [E|H]; [congruence|assumption]|auto].
Qed.
Lemma toggle_sum g s x : (forall y, 0 <= g y) -> NoDup s -> sumZ g (toggle s x) <= sumZ g s + g x.
Proof.
  intros Hg H. unfold toggle. destruct (in_dec opt_eq_dec x s) as [Hx|Hx].
  - pose proof (sumZ_perm g _ _ (remove_perm x s H Hx)) as E. simpl in E. pose proof (Hg x). lia.
  - simpl. lia.
Qed.

(* membership of the i-th stabilizer *)
Definition in_stab (stabs : list (list point)) (i : nat) (x : option point) : bool :=
  match x with Some q => pmem q (stab_of stabs i) | None => false end.
Definition pt_wt (w : point -> Z) (x : option point) : Z := match x with Some q => w q | None => 0 end.

Lemma same_pair_iff u v (e : sedge) : same_pair u v e = true <->
  (fst (fst e) = u /\ snd (fst e) = v) \/ (fst (fst e) = v /\ snd (fst e) = u).
Proof.
  unfold same_pair, sneqb. rewrite orb_true_iff, !andb_true_iff.
  destruct (snode_eq_dec (fst (fst e)) u), (snode_eq_dec (snd (fst e)) v),
    (snode_eq_dec (fst (fst e)) v), (snode_eq_dec (snd (fst e)) u); split; intros; intuition (try discriminate; try congruence).
Qed.

Lemma gadj_cv E u v : gadj E u v -> exists cv, edge_cv E u v = Ok cv /\ (In (u, v, cv) E \/ In (v, u, cv) E) /\
  forall w, wt E w u v = match cv with Some q => w q | None => 0 end.
Proof.
  intros [cv0 H]. unfold edge_cv, wt. destruct (find (same_pair u v) E) as [e|] eqn:F.
  - exists (snd e). split; [reflexivity|]. apply find_some in F. destruct F as [Hin Hs]. split; [|reflexivity].
    apply same_pair_iff in Hs. destruct e as [[a b] cv]. simpl in *. destruct Hs as [[-> ->]|[-> ->]]; auto.
  - exfalso. destruct H as [H|H]; apply (find_none _ _ F) in H; rewrite <- not_true_iff_false in H; apply H;
      apply same_pair_iff; simpl; auto.
Qed.

Lemma gadj_sym E u v : gadj E u v -> gadj E v u.
Proof. intros [cv [H|H]]; exists cv; auto. Qed.
Lemma radj_sym E u v : radj E u v -> radj E v u.
Proof. intros (H & H1 & H2). split; [apply gadj_sym; assumption|auto]. Qed.

Lemma wt_sym E w u v : wt E w u v = wt E w v u.
Proof.
  unfold wt. assert (H : find (same_pair u v) E = find (same_pair v u) E); [|rewrite H; reflexivity].
  induction E as [|e E IH]; [reflexivity|]. simpl.
  assert (same_pair u v e = same_pair v u e) as ->. { unfold same_pair. apply orb_comm. }
  rewrite IH. reflexivity.
Qed.

Lemma pairs_cons {A} (u x : A) p : hd_error p = Some x -> pairs (u :: p) = (u, x) :: pairs p.
Proof. destruct p; [discriminate|]. intros H. injection H as ->. reflexivity. Qed.

(* the reported lengths are the true lengths, up to a common unit *)
Definition exact (k : Z) (rp : Z -> Z) (w : point -> Z) : Prop :=
  0 < k /\ rp 0 = 0 /\ forall q, w q = k * rp (w q).
(* the reported lengths are at most the true lengths, and at least b/a of them *)
Definition near (a b k : Z) (rp : Z -> Z) (w : point -> Z) : Prop :=
  0 < k /\ 0 <= a /\ 0 < b /\ rp 0 = 0 /\ forall q, 0 <= rp (w q) /\ k * rp (w q) <= w q /\ b * w q <= a * (k * rp (w q)).
Lemma exact_near k rp w : exact k rp w -> (forall q, 0 <= w q) -> near 1 1 k rp w.
Proof. intros (H1 & H2 & H3) Hw. split; [exact H1|]. split; [lia|]. split; [lia|]. split; [exact H2|]. intros q. pose proof (H3 q). pose proof (Hw q). split; [nia|lia]. Qed.

Section Cx.
  Variables (stabs : list (list point)) (bp : list point) (ch : nat -> nat -> point).
  Hypothesis WF : wf_complex stabs bp.
  Hypothesis Hch : valid_choice stabs ch.
  Notation E := (sg_edges stabs bp ch).
  Notation n := (length stabs).

  Definition conn (u : snode) : bool := negb (real u).

  Lemma cv_toggle u v cv i : (i < n)%nat -> In (u, v, cv) E \/ In (v, u, cv) E ->
    in_stab stabs i cv = xorb (is_end u i) (is_end v i) /\
    (if opt_eq_dec None cv then true else false) = xorb (conn u) (conn v).
  Proof.
    intros Hi H. destruct cv as [q|].
    - split.
      + apply (sadjq_toggle stabs bp ch WF Hch); auto.
      + simpl. assert (Hr : real u = true /\ real v = true).
        { destruct H as [H|H]; apply in_E in H; destruct H as [(a & b & -> & -> & _)|[(a & b & -> & -> & _)|[H _]]];
            try discriminate; auto. }
        unfold conn. destruct Hr as [-> ->]. reflexivity.
    - split.
      + simpl. destruct H as [H|H]; apply in_E in H;
          (destruct H as [(a & b & _ & _ & _ & _ & H)|[(a & b & _ & _ & _ & _ & _ & H)|[_ (p & -> & [[-> _]|[-> _]])]]]; [discriminate|discriminate|reflexivity|reflexivity]).
      + simpl. destruct H as [H|H]; apply in_E in H;
          (destruct H as [(a & b & _ & _ & _ & _ & H)|[(a & b & _ & _ & _ & _ & _ & H)|[_ (p & -> & [[-> _]|[-> _]])]]]; [discriminate|discriminate|reflexivity|reflexivity]).
  Qed.

  Lemma cv_in u v q : In (u, v, Some q) E \/ In (v, u, Some q) E -> In q (concat stabs).
  Proof.
    intros H. assert (Hs : exists i, (i < n)%nat /\ In q (stab_of stabs i)).
    { destruct H as [H|H]; apply in_E in H;
        (destruct H as [(a & b & _ & _ & Hab & Hs & H)|[(a & b & _ & _ & Ha & _ & Hs & H)|[H _]]]; [| |discriminate]).
      - injection H as ->. exists a. split; [lia|]. pose proof (Hch a b Hab Hs) as Hin. apply in_shared in Hin. tauto.
      - injection H as ->. exists a. auto.
      - injection H as ->. exists a. split; [lia|]. pose proof (Hch a b Hab Hs) as Hin. apply in_shared in Hin. tauto.
      - injection H as ->. exists a. auto. }
    destruct Hs as (i & Hi & Hq). apply in_concat. exists (stab_of stabs i). split; [apply nth_In; assumption|assumption].
  Qed.

  Definition good (s : list (option point)) : Prop :=
    NoDup s /\ forall q, In (Some q) s -> In q (concat stabs).

  Lemma flip_path_ok u v p : is_path (gadj E) u v p -> forall s, good s ->
    exists s', flip_path E s p = Ok s' /\ good s' /\
      (forall i, (i < n)%nat -> xsum (in_stab stabs i) s' = xorb (xsum (in_stab stabs i) s) (xorb (is_end u i) (is_end v i))) /\
      omem None s' = xorb (omem None s) (xorb (conn u) (conn v)) /\
      (forall w, (forall q, 0 <= w q) -> sumZ (pt_wt w) s' <= sumZ (pt_wt w) s + cost E w p).
  Proof.
    intros H. apply ipath_of in H. induction H as [u|u x v p Hux Hp _ IH]; intros s Hs.
    - exists s. split; [reflexivity|]. split; [assumption|]. split; [|split].
      + intros i _. rewrite xorb_nilpotent, xorb_false_r. reflexivity.
      + rewrite xorb_nilpotent, xorb_false_r. reflexivity.
      + intros w _. unfold cost. simpl. lia.
    - destruct (gadj_cv E u x Hux) as (cv & Hcv & Hin & Hwt).
      assert (Hs1 : good (toggle s cv)).
      { destruct Hs as [H1 H2]. split; [apply toggle_NoDup; assumption|].
        intros q Hq. apply toggle_in in Hq. destruct Hq as [Hq| <-]; [auto|]. apply (cv_in u x). assumption. }
      destruct (IH _ Hs1) as (s' & E1 & G1 & X1 & N1 & W1).
      exists s'. unfold flip_path in *. rewrite (pairs_cons u x p) by apply Hp. simpl. rewrite Hcv. simpl.
      split; [assumption|]. split; [assumption|]. split; [|split].
      + intros i Hi. rewrite (X1 i Hi), toggle_xsum by apply Hs.
        rewrite (proj1 (cv_toggle u x cv i Hi Hin)).
        destruct (xsum _ s), (is_end u i), (is_end x i), (is_end v i); reflexivity.
      + assert (Hc : (if opt_eq_dec None cv then true else false) = xorb (conn u) (conn x)).
        { destruct cv as [q|]; [|].
          - assert (Hq : In q (concat stabs)) by (apply (cv_in u x); assumption).
            apply in_concat in Hq. destruct Hq as (st & Hst & _). apply In_nth with (d := []) in Hst.
            destruct Hst as (k & Hk & _). apply (proj2 (cv_toggle u x _ k Hk Hin)).
          - clear -Hin. simpl. destruct Hin as [H|H]; apply in_E in H;
            (destruct H as [(a & b & _ & _ & _ & _ & H)|[(a & b & _ & _ & _ & _ & _ & H)|[_ (p & -> & [[-> _]|[-> _]])]]]; [discriminate|discriminate|reflexivity|reflexivity]). }
        rewrite N1, toggle_omem, Hc. destruct (omem None s), (conn u), (conn x), (conn v); reflexivity.
      + intros w Hw. specialize (W1 w Hw). unfold cost. rewrite (pairs_cons u x p) by apply Hp.
        cbn [sumZ fold_right fst snd]. fold (sumZ (fun xy => wt E w (fst xy) (snd xy)) (pairs p)).
        assert (Hg : forall y, 0 <= pt_wt w y) by (intros []; simpl; auto; lia).
        pose proof (toggle_sum (pt_wt w) s cv Hg (proj1 Hs)). rewrite Hwt.
        change (match cv with Some q => w q | None => 0 end) with (pt_wt w cv). unfold cost in W1. lia.
  Qed.

  (* ---------- the matching graph ---------- *)
  Variables (rp : Z -> Z) (w : point -> Z) (o : sp_oracle).
  Hypothesis Ho : oracle_ok E w o.
  Hypothesis Hconn : forall i j, (i < n)%nat -> (j < n)%nat -> exists p, is_path (radj E) (NStab i) (NStab j) p.
  Hypothesis Hbal : bp = [] \/ (low_half bp <> [] /\ high_half bp <> []).
  Variable odd : list nat.
  Hypothesis Hodd : NoDup odd.
  Hypothesis Hodd_n : forall i, In i odd -> (i < n)%nat.

  Lemma radj_path_gadj u v p : is_path (radj E) u v p -> is_path (gadj E) u v p.
  Proof. intros H. eapply is_path_impl; [eassumption|]. intros x y _ _ (Hxy & _). assumption. Qed.

  Lemma mid_edge_ok ab : In ab (combs odd) ->
    exists p, mid_edge rp E w o ab = Ok {| me_u := MStab (fst ab); me_v := MStab (snd ab); me_w := reported rp E w p; me_path := p |} /\
      is_path (radj E) (NStab (fst ab)) (NStab (snd ab)) p /\
      forall p', is_path (radj E) (NStab (fst ab)) (NStab (snd ab)) p' -> cost E w p <= cost E w p'.
  Proof.
    intros Hin. destruct ab as [a b]. destruct (in_combs _ _ _ Hin) as [Ha Hb].
    pose proof (in_combs_neq _ _ _ Hodd Hin) as Hne. simpl.
    unfold mid_edge. simpl. destruct Ho as (Hmid & _ & _).
    specialize (Hmid (NStab a) (NStab b) eq_refl ltac:(congruence)).
    destruct (sp_mid o (NStab a) (NStab b)) as [p|]; simpl in Hmid.
    - exists p. split; [reflexivity|]. assumption.
    - exfalso. destruct (Hconn a b) as [p Hp]; auto. apply (Hmid p Hp).
  Qed.

  Lemma bound_reach q i : In q bp -> (i < n)%nat -> exists p, is_path (radj E) (NPt q) (NStab i) p.
  Proof.
    intros Hq Hi. pose proof (wf_one _ _ WF q Hq) as H1. rewrite <- holders_length in H1.
    destruct (holders stabs q) as [|k l] eqn:Eh; [discriminate|].
    assert (Hk : In k (holders stabs q)) by (rewrite Eh; left; reflexivity). apply in_holders in Hk.
    destruct (Hconn k i) as [p Hp]; [tauto|assumption|].
    exists (NPt q :: p). apply (is_path_cons _ _ (NStab k)); [|assumption].
    split; [|split; reflexivity]. exists (Some q). right. apply in_E. right; left. exists k, q. tauto.
  Qed.

  (* the connector's neighbours are its boundary points *)
  Definition half (u : snode) : list point := match u with NLow => low_half bp | NHigh => high_half bp | _ => [] end.

  Lemma conn_nbr u x : conn u = true -> gadj E u x -> exists q, x = NPt q /\ In q (half u) /\ In q bp.
  Proof.
    intros Hc [cv H].
    assert (Hb : forall q, (In q (low_half bp) \/ In q (high_half bp)) -> In q bp).
    { intros q Hq. rewrite <- (halves bp). apply in_app_iff. assumption. }
    destruct H as [H|H]; apply in_E in H;
      destruct H as [(a & b & -> & -> & _)|[(a & b & -> & -> & _)|[_ (q & -> & [[-> Hq]|[-> Hq]])]]]; try discriminate.
    - exists q; auto.
    - exists q; auto.
  Qed.

  Lemma conn_reach u i : bp <> [] -> conn u = true -> (i < n)%nat -> exists p, is_path (gadj E) u (NStab i) p.
  Proof.
    intros Hne Hc Hi. destruct Hbal as [?|[Hl Hh]]; [contradiction|].
    assert (Hq : exists q, In q (half u)).
    { destruct u; try discriminate; simpl; [destruct (low_half bp)|destruct (high_half bp)]; try congruence; eexists; left; reflexivity. }
    destruct Hq as [q Hq].
    assert (Hqb : In q bp).
    { rewrite <- (halves bp). apply in_app_iff. destruct u; try discriminate; auto. }
    destruct (bound_reach q i Hqb Hi) as [p Hp]. exists (u :: p).
    apply (is_path_cons _ _ (NPt q)); [|apply radj_path_gadj; assumption].
    exists None. left. apply in_E. right; right. split; [reflexivity|]. exists q. split; [reflexivity|].
    destruct u; try discriminate; auto.
  Qed.

  Lemma bound_edge_ok ki : bp <> [] -> In (snd ki) odd ->
    exists c full q rest, bound_edge rp E w o ki =
        Ok {| me_u := MStab (snd ki); me_v := MVirt (NPt q) (fst ki); me_w := reported rp E w full; me_path := NPt q :: rest |} /\
      conn c = true /\ full = c :: NPt q :: rest /\ In q (half c) /\ In q bp /\
      is_path (gadj E) c (NStab (snd ki)) full /\
      is_path (gadj E) (NPt q) (NStab (snd ki)) (NPt q :: rest) /\
      (forall p', is_path (gadj E) c (NStab (snd ki)) p' -> cost E w full <= cost E w p') /\
      (forall c', conn c' = true -> exists full', is_path (gadj E) c' (NStab (snd ki)) full' /\
         (forall p', is_path (gadj E) c' (NStab (snd ki)) p' -> cost E w full' <= cost E w p') /\
         reported rp E w full <= reported rp E w full').
  Proof.
    intros Hne Hin. destruct ki as [k i]. simpl in *. pose proof (Hodd_n i Hin) as Hi.
    destruct Ho as (_ & Hlow & Hhigh). unfold bound_edge. simpl.
    specialize (Hlow (NStab i) ltac:(discriminate)). specialize (Hhigh (NStab i) ltac:(discriminate)).
    destruct (sp_low o (NStab i)) as [pl|]; simpl in Hlow;
      [|exfalso; destruct (conn_reach NLow i Hne eq_refl Hi) as [p Hp]; apply (Hlow p Hp)].
    destruct (sp_high o (NStab i)) as [ph|]; simpl in Hhigh;
      [|exfalso; destruct (conn_reach NHigh i Hne eq_refl Hi) as [p Hp]; apply (Hhigh p Hp)].
    set (c := if reported rp E w pl <=? reported rp E w ph then NLow else NHigh).
    set (full := if reported rp E w pl <=? reported rp E w ph then pl else ph).
    assert (Hc : conn c = true) by (unfold c; destruct (_ <=? _); reflexivity).
    assert (Hfull : is_path (gadj E) c (NStab i) full /\ forall p', is_path (gadj E) c (NStab i) p' -> cost E w full <= cost E w p').
    { unfold c, full. destruct (_ <=? _); assumption. }
    destruct Hfull as [Hp Hmin].
    destruct (is_path_inv _ _ _ _ Hp) as [[_ Ex]|(x & p' & Ex & Hcx & Hp')].
    { rewrite Ex in Hc. discriminate. }
    destruct (conn_nbr c x Hc Hcx) as (q & -> & Hq & Hqb).
    destruct p' as [|y rest]; [destruct Hp' as (_ & F & _); discriminate|].
    assert (y = NPt q) by (destruct Hp' as (_ & F & _); injection F; auto). subst y.
    exists c, full, q, rest. rewrite Ex. split; [reflexivity|]. split; [assumption|]. split; [reflexivity|].
    split; [assumption|]. split; [assumption|]. rewrite <- Ex. split; [assumption|]. split; [assumption|].
    split; [assumption|]. intros c' Hc'. unfold full. destruct c'; try discriminate.
    - exists pl. split; [apply Hlow|]. split; [apply Hlow|]. destruct (_ <=? _) eqn:F; lia.
    - exists ph. split; [apply Hhigh|]. split; [apply Hhigh|]. destruct (_ <=? _) eqn:F; lia.
  Qed.

  (* the three kinds of edges *)
  Definition kind_mid (e : medge) : Prop := exists a b p, In a odd /\ In b odd /\ a <> b /\
    e = {| me_u := MStab a; me_v := MStab b; me_w := reported rp E w p; me_path := p |} /\
    is_path (radj E) (NStab a) (NStab b) p /\
    forall p', is_path (radj E) (NStab a) (NStab b) p' -> cost E w p <= cost E w p'.
  Definition kind_bound (e : medge) : Prop := exists k i c full q rest,
    nth_error odd k = Some i /\
    e = {| me_u := MStab i; me_v := MVirt (NPt q) k; me_w := reported rp E w full; me_path := NPt q :: rest |} /\
    conn c = true /\ full = c :: NPt q :: rest /\ In q (half c) /\ In q bp /\
    is_path (gadj E) c (NStab i) full /\
    is_path (gadj E) (NPt q) (NStab i) (NPt q :: rest) /\
    (forall p', is_path (gadj E) c (NStab i) p' -> cost E w full <= cost E w p') /\
    (forall c', conn c' = true -> exists full', is_path (gadj E) c' (NStab i) full' /\
         (forall p', is_path (gadj E) c' (NStab i) p' -> cost E w full' <= cost E w p') /\
         reported rp E w full <= reported rp E w full').

  Record mg_spec (mg : list medge) (virt : list mnode) (mids bes : list medge) : Prop := {
    ms_mg : mg = mids ++ bes ++ map virt_edge (combs virt);
    ms_mids : Forall2 (fun ab e => me_u e = MStab (fst ab) /\ me_v e = MStab (snd ab) /\ kind_mid e) (combs odd) mids;
    ms_virt : virt = map me_v bes;
    ms_bes : bp <> [] -> Forall2 (fun ki e => me_u e = MStab (snd ki) /\ (exists q, me_v e = MVirt (NPt q) (fst ki)) /\ kind_bound e) (enumerate odd) bes;
    ms_nobes : bp = [] -> bes = []
  }.

  Lemma in_enumerate {A} (l : list A) k i : In (k, i) (enumerate l) -> nth_error l k = Some i.
  Proof.
    unfold enumerate. intros H.
    assert (G : forall (m : list A) j, In (k, i) (combine (seq j (length m)) m) -> (j <= k)%nat /\ nth_error m (k - j) = Some i).
    { induction m as [|x m IH]; simpl; intros j Hj; [destruct Hj|].
      destruct Hj as [Hj|Hj].
      - injection Hj as <- <-. rewrite Nat.sub_diag. split; [lia|reflexivity].
      - apply IH in Hj. destruct Hj as [H1 H2]. split; [lia|].
        replace (k - j)%nat with (S (k - S j)) by lia. exact H2. }
    apply G in H. rewrite Nat.sub_0_r in H. apply H.
  Qed.

  Notation has_bound := (has_bound_points bp).

  Lemma has_bound_true : has_bound = true <-> bp <> [].
  Proof. unfold has_bound_points. destruct bp; split; congruence. Qed.

  Lemma bp_case : bp = [] \/ bp <> [].
  Proof. clear. destruct bp; [left; reflexivity|right; discriminate]. Qed.

  Lemma match_graph_ok : exists mg virt mids bes,
    match_graph rp E w o odd has_bound = Ok (mg, virt) /\ (odd = [] -> mg = [] /\ virt = []) /\ mg_spec mg virt mids bes.
  Proof.
    assert (Hcase : odd = [] \/ odd <> []) by (destruct odd; [left|right]; congruence).
    destruct Hcase as [Eo|Eo].
    { rewrite Eo. simpl. exists [], [], [], []. split; [reflexivity|]. split; [auto|]. constructor; auto.
      - rewrite Eo. constructor.
      - rewrite Eo. intros _. constructor. }
    assert (Em : exists mids, mapM (mid_edge rp E w o) (combs odd) = Ok mids /\
       Forall2 (fun ab e => me_u e = MStab (fst ab) /\ me_v e = MStab (snd ab) /\ kind_mid e) (combs odd) mids).
    { destruct (mapM_ok (mid_edge rp E w o) (combs odd)) as [mids [E1 F1]].
      - intros ab Hab. destruct (mid_edge_ok ab Hab) as (p & Hp & _). eauto.
      - exists mids. split; [assumption|]. clear E1.
        assert (Hsub : forall ab, In ab (combs odd) -> In ab (combs odd)) by auto.
        revert F1 Hsub. generalize (combs odd) at 1 2 4. intros L F1 Hsub.
        induction F1 as [|ab e L m He HF IH]; constructor.
        + destruct (mid_edge_ok ab (Hsub ab (or_introl eq_refl))) as (p & Hp & Hpath & Hmin).
          rewrite Hp in He. injection He as <-. split; [reflexivity|]. split; [reflexivity|].
          destruct ab as [a b]. pose proof (Hsub (a, b) (or_introl eq_refl)) as Hab.
          exists a, b, p. destruct (in_combs _ _ _ Hab). pose proof (in_combs_neq _ _ _ Hodd Hab). auto 8.
        + apply IH. intros; apply Hsub; right; assumption. }
    destruct Em as [mids [E1 F1]].
    assert (Hunf : match_graph rp E w o odd has_bound =
      bind (mapM (mid_edge rp E w o) (combs odd)) (fun mids =>
        if has_bound then
          bind (mapM (bound_edge rp E w o) (enumerate odd)) (fun bes =>
          let virt := map me_v bes in
          Ok (mids ++ bes ++ map virt_edge (combs virt), virt))
        else Ok (mids, []))).
    { unfold match_graph. destruct odd; [congruence|reflexivity]. }
    rewrite Hunf, E1. simpl. destruct has_bound eqn:Hb.
    - apply has_bound_true in Hb.
      destruct (mapM_ok (bound_edge rp E w o) (enumerate odd)) as [bes [E2 F2]].
      { intros [k i] Hki. apply in_enumerate in Hki. apply nth_error_In in Hki.
        destruct (bound_edge_ok (k, i) Hb Hki) as (? & ? & ? & ? & Hx & _). eauto. }
      rewrite E2. simpl. exists (mids ++ bes ++ map virt_edge (combs (map me_v bes))), (map me_v bes), mids, bes.
      split; [reflexivity|]. split; [congruence|]. constructor; auto; [|congruence]. intros _.
      clear E2.       assert (Hsub : forall ki, In ki (enumerate odd) -> In ki (enumerate odd)) by auto.
      revert F2 Hsub. generalize (enumerate odd) at 1 2 4. intros L F2 Hsub.
      induction F2 as [|ki e L m He HF IH]; constructor.
      + destruct ki as [k i]. pose proof (in_enumerate _ _ _ (Hsub _ (or_introl eq_refl))) as Hk.
        destruct (bound_edge_ok (k, i) Hb (nth_error_In _ _ Hk)) as (c & full & q & rest & Hx & H1 & H2 & H3 & H4 & H5 & H6 & H7 & H8).
        simpl in *. rewrite Hx in He. injection He as <-. simpl. split; [reflexivity|]. split; [eauto|].
        exists k, i, c, full, q, rest. auto 12.
      + apply IH. intros; apply Hsub; right; assumption.
    - assert (bp = []) by (unfold has_bound_points in Hb; destruct bp; congruence).
      exists mids, [], mids, []. split; [reflexivity|]. split; [congruence|]. constructor; auto.
      + simpl. rewrite app_nil_r. reflexivity.
      + congruence.
  Qed.

  (* ---------- perfect matchings ---------- *)
  Section MG.
    Variables (mg : list medge) (virt : list mnode) (mids bes : list medge).
    Hypothesis HS : mg_spec mg virt mids bes.
    Let mnodes : list mnode := map MStab odd ++ virt.

    Lemma virt_is_virt v : In v virt -> exists q k, v = MVirt (NPt q) k /\ (k < length odd)%nat.
    Proof.
      intros Hv. rewrite (ms_virt _ _ _ _ HS) in Hv. apply in_map_iff in Hv. destruct Hv as [e [<- He]].
      destruct bp_case as [Eb|Eb]; [rewrite (ms_nobes _ _ _ _ HS Eb) in He; destruct He|].
      pose proof (ms_bes _ _ _ _ HS Eb) as F.
      destruct (F2_in_r _ _ _ _ F He) as ([k i] & Hki & _ & (q & Hq) & _). simpl in Hq.
      exists q, k. split; [assumption|]. apply in_enumerate in Hki. apply nth_error_Some. congruence.
    Qed.

    Lemma enumerate_fst {A} (l : list A) : map fst (enumerate l) = seq 0 (length l).
    Proof.
      unfold enumerate. generalize 0%nat. induction l as [|x l IH]; intros j; [reflexivity|]. simpl. rewrite IH. reflexivity.
    Qed.
    Lemma enumerate_snd {A} (l : list A) : map snd (enumerate l) = l.
    Proof.
      unfold enumerate. generalize 0%nat. induction l as [|x l IH]; intros j; [reflexivity|]. simpl. rewrite IH. reflexivity.
    Qed.

    Definition vidx (v : mnode) : nat := match v with MVirt _ k => k | _ => 0%nat end.
    Lemma virt_idx : bp <> [] -> map vidx virt = seq 0 (length odd).
    Proof.
      intros Hb. rewrite (ms_virt _ _ _ _ HS), <- (enumerate_fst odd).
      pose proof (ms_bes _ _ _ _ HS Hb) as F. clear -F. induction F as [|ki e L m He HF IH]; [reflexivity|].
      simpl. rewrite IH. f_equal. destruct He as (_ & (q & ->) & _). reflexivity.
    Qed.

    Lemma virt_NoDup : NoDup virt.
    Proof.
      destruct bp_case as [Eb|Eb].
      - rewrite (ms_virt _ _ _ _ HS), (ms_nobes _ _ _ _ HS Eb). constructor.
      - apply (NoDup_map_inv vidx). rewrite virt_idx by assumption. apply seq_NoDup.
    Qed.

    Lemma mnodes_NoDup : NoDup mnodes.
    Proof.
      unfold mnodes. apply NoDup_app_intro; [|apply virt_NoDup|].
      - apply NoDup_map_inj; [congruence|assumption].
      - intros x Hx Hv. apply in_map_iff in Hx. destruct Hx as [i [<- _]].
        destruct (virt_is_virt _ Hv) as (q & k & F & _). discriminate.
    Qed.

    Lemma same_match_iff u v e : same_match u v e = true <-> (me_u e = u /\ me_v e = v) \/ (me_u e = v /\ me_v e = u).
    Proof.
      unfold same_match, mneqb. rewrite orb_true_iff, !andb_true_iff.
      destruct (mnode_eq_dec (me_u e) u), (mnode_eq_dec (me_v e) v), (mnode_eq_dec (me_u e) v), (mnode_eq_dec (me_v e) u);
        split; intros; intuition (try discriminate; try congruence).
    Qed.

    Lemma edge_kinds e : In e mg -> kind_mid e \/ (kind_bound e /\ In (me_v e) virt) \/ (In (me_u e) virt /\ In (me_v e) virt /\ me_w e = 0).
    Proof.
      intros He. rewrite (ms_mg _ _ _ _ HS), !in_app_iff in He. destruct He as [He|[He|He]].
      - left. destruct (F2_in_r _ _ _ _ (ms_mids _ _ _ _ HS) He) as (ab & _ & _ & _ & H). assumption.
      - right; left. destruct bp_case as [Eb|Eb]; [rewrite (ms_nobes _ _ _ _ HS Eb) in He; destruct He|].
        pose proof (ms_bes _ _ _ _ HS Eb) as F.
        destruct (F2_in_r _ _ _ _ F He) as (ki & _ & _ & _ & H). split; [assumption|].
        rewrite (ms_virt _ _ _ _ HS). apply in_map. assumption.
      - right; right. apply in_map_iff in He. destruct He as [[a b] [<- Hab]]. apply in_combs in Hab. simpl. tauto.
    Qed.

    Lemma edge_nodes e : In e mg -> In (me_u e) mnodes /\ In (me_v e) mnodes.
    Proof.
      intros He. unfold mnodes. rewrite !in_app_iff.
      destruct (edge_kinds e He) as [(a & b & p & Ha & Hb & _ & -> & _)|[[(k & i & c & full & q & rest & Hk & -> & _) Hv]|(H1 & H2 & _)]].
      - simpl. split; left; apply in_map; assumption.
      - simpl in *. split; [left; apply in_map; eapply nth_error_In; eassumption|right; assumption].
      - auto.
    Qed.

    Lemma matching_nodes M : is_matching mg M -> incl (endpoints M) mnodes.
    Proof.
      intros [_ HM] x Hx. unfold endpoints in Hx. apply in_flat_map in Hx. destruct Hx as [[u v] [Huv Hx]].
      destruct (HM _ Huv) as (e & He & Hs). apply same_match_iff in Hs. simpl in Hs.
      destruct (edge_nodes e He) as [H1 H2]. simpl in Hx.
      destruct Hs as [[<- <-]|[<- <-]]; destruct Hx as [<-|[<-|[]]]; assumption.
    Qed.

    Lemma endpoints_length {A} (M : list (A * A)) : length (endpoints M) = (2 * length M)%nat.
    Proof. unfold endpoints. induction M as [|x M IH]; simpl in *; [reflexivity|]. rewrite IH. lia. Qed.

    (* the pairing used when there is no boundary *)
    Fixpoint pairup (l : list nat) : list (mnode * mnode) :=
      match l with x :: y :: l' => (MStab x, MStab y) :: pairup l' | _ => [] end.

    Lemma pairup_spec : forall m l, (length l <= m)%nat -> Nat.even (length l) = true ->
      endpoints (pairup l) = map MStab l /\
      forall u v, In (u, v) (pairup l) -> exists x y, u = MStab x /\ v = MStab y /\ In x l /\ In y l.
    Proof.
      induction m as [|m IH]; intros l Hl He.
      - destruct l; [|simpl in Hl; lia]. split; [reflexivity|intros u v []].
      - destruct l as [|x [|y l]]; [split; [reflexivity|intros u v []]|discriminate|].
        simpl in He. destruct (IH l) as [E1 H1]; [simpl in Hl; lia|assumption|]. split.
        + simpl. unfold endpoints in *. rewrite E1. reflexivity.
        + intros u v [E2|H2].
          * injection E2 as <- <-. exists x, y. simpl. auto 10.
          * destruct (H1 u v H2) as (a & b & -> & -> & Ha & Hb). exists a, b. simpl. auto 10.
    Qed.

    Hypothesis Heven : bp = [] -> Nat.even (length odd) = true.

    Lemma mid_exists a b : In a odd -> In b odd -> a <> b ->
      exists e, In e mg /\ same_match (MStab a) (MStab b) e = true.
    Proof.
      intros Ha Hb Hab. destruct (combs_total odd a b Ha Hb Hab) as [H|H];
        destruct (F2_in_l _ _ _ _ (ms_mids _ _ _ _ HS) H) as (e & He & H1 & H2 & _); exists e;
        (split; [rewrite (ms_mg _ _ _ _ HS); apply in_app_iff; left; assumption|]); apply same_match_iff; auto.
    Qed.

    Lemma perfect_exists : exists M, is_matching mg M /\ (2 * length M)%nat = length mnodes.
    Proof.
      destruct bp_case as [Eb|Hb].
      - exists (pairup odd). destruct (pairup_spec (length odd) odd ltac:(lia) (Heven Eb)) as [E1 H1].
        assert (Hv : virt = []) by (rewrite (ms_virt _ _ _ _ HS), (ms_nobes _ _ _ _ HS Eb); reflexivity).
        assert (Hnd : NoDup (endpoints (pairup odd))) by (rewrite E1; apply NoDup_map_inj; [congruence|assumption]).
        split.
        + split; [assumption|]. intros [u v] Huv. destruct (H1 u v Huv) as (x & y & -> & -> & Hx & Hy).
          apply mid_exists; auto. intros ->. simpl.
          apply in_split in Huv. destruct Huv as (M1 & M2 & EM). rewrite EM in Hnd. unfold endpoints in Hnd.
          rewrite flat_map_app in Hnd. apply nodup_app_r in Hnd. simpl in Hnd. inversion Hnd as [|? ? Hx' _]; subst.
          apply Hx'. left; reflexivity.
        + unfold mnodes. rewrite Hv, app_nil_r, <- E1, endpoints_length. reflexivity.
      - exists (map (fun e => (me_u e, me_v e)) bes).
        pose proof (ms_bes _ _ _ _ HS Hb) as F.
        assert (Hu : map me_u bes = map MStab odd).
        { rewrite <- (enumerate_snd odd) at 1. clear -F. induction F as [|ki e L m He HF IH]; [reflexivity|].
          simpl. rewrite IH. f_equal. apply He. }
        assert (Hperm : Permutation (endpoints (map (fun e => (me_u e, me_v e)) bes)) mnodes).
        { unfold mnodes. rewrite <- Hu, (ms_virt _ _ _ _ HS). clear. induction bes as [|e l IH]; [reflexivity|].
          simpl. constructor. transitivity (me_v e :: (map me_u l ++ map me_v l)); [constructor; assumption|].
          apply Permutation_middle. }
        split.
        + split.
          * apply (Permutation_NoDup (l := mnodes)); [symmetry; assumption|apply mnodes_NoDup].
          * intros uv Huv. apply in_map_iff in Huv. destruct Huv as [e [<- He]]. exists e. split.
            -- rewrite (ms_mg _ _ _ _ HS). apply in_app_iff; right. apply in_app_iff; left. assumption.
            -- apply same_match_iff. left; auto.
        + rewrite <- endpoints_length. apply Permutation_length. assumption.
    Qed.

    Lemma best_perfect M : best_matching mg M -> Permutation (endpoints M) mnodes.
    Proof.
      intros (HM & Hmax & _). destruct perfect_exists as (M0 & HM0 & Hlen).
      specialize (Hmax M0 HM0).
      apply NoDup_Permutation_bis.
      - apply HM.
      - rewrite endpoints_length. lia.
      - apply matching_nodes. assumption.
    Qed.

    (* ---------- decoding ---------- *)
    Definition m_end (u : mnode) (i : nat) : bool := match u with MStab j => Nat.eqb j i | _ => false end.
    Definition snode_of (u : mnode) : snode := match u with MStab i => NStab i | MVirt p _ => p end.

    Lemma mmem_In u l : mmem u l = true <-> In u l.
    Proof.
      unfold mmem. rewrite existsb_exists. unfold mneqb. split.
      - intros [x [Hx H]]. destruct (mnode_eq_dec u x); [subst; assumption|discriminate].
      - intros H. exists u. split; [assumption|]. destruct (mnode_eq_dec u u); congruence.
    Qed.

    (* the path stored for a match that is not between two virtual points *)
    Lemma match_path uv : (exists e, In e mg /\ same_match (fst uv) (snd uv) e = true) ->
      (mmem (fst uv) virt && mmem (snd uv) virt = true /\ forall i, m_end (fst uv) i = false /\ m_end (snd uv) i = false) \/
      (mmem (fst uv) virt && mmem (snd uv) virt = false /\
       exists e, edge_path mg uv = Ok (me_path e) /\ edge_wt mg uv = me_w e /\ In e mg /\ same_match (fst uv) (snd uv) e = true /\
         (kind_mid e \/ kind_bound e) /\
         is_path (gadj E) (snode_of (me_v e)) (snode_of (me_u e)) (match me_v e with MVirt _ _ => me_path e | _ => rev (me_path e) end)).
    Proof.
      intros Hex. destruct (mmem (fst uv) virt && mmem (snd uv) virt) eqn:Ev.
      - left. split; [reflexivity|]. apply andb_true_iff in Ev. rewrite !mmem_In in Ev. destruct Ev as [V1 V2].
        intros i. destruct (virt_is_virt _ V1) as (q1 & k1 & -> & _). destruct (virt_is_virt _ V2) as (q2 & k2 & -> & _).
        split; reflexivity.
      - right. split; [reflexivity|]. unfold edge_path, edge_wt.
        destruct (find (same_match (fst uv) (snd uv)) mg) as [e|] eqn:F.
        + apply find_some in F. destruct F as [He Hs]. exists e. split; [reflexivity|]. split; [reflexivity|].
          split; [assumption|]. split; [assumption|].
          destruct (edge_kinds e He) as [K|[[K Hv]|(V1 & V2 & _)]].
          * split; [left; assumption|]. destruct K as (a & b & p & Ha & Hb & _ & -> & Hp & _). simpl.
            apply is_path_rev; [apply gadj_sym|]. apply radj_path_gadj. assumption.
          * split; [right; assumption|]. destruct K as (k & i & c & full & q & rest & Hk & -> & _ & _ & _ & _ & _ & Hp & _). simpl.
            assumption.
          * exfalso. apply mmem_In in V1, V2. apply same_match_iff in Hs.
            destruct Hs as [[S1 S2]|[S1 S2]]; rewrite S1 in V1; rewrite S2 in V2; rewrite V1, V2 in Ev; discriminate.
        + exfalso. destruct Hex as (e & He & Hs). rewrite (find_none _ _ F e He) in Hs. discriminate.
    Qed.

    Lemma match_path' uv : (exists e, In e mg /\ same_match (fst uv) (snd uv) e = true) ->
      mmem (fst uv) virt && mmem (snd uv) virt = false ->
      exists p x y, edge_path mg uv = Ok p /\ is_path (gadj E) x y p /\ real x = true /\ real y = true /\
        forall i, xorb (is_end x i) (is_end y i) = xorb (m_end (fst uv) i) (m_end (snd uv) i).
    Proof.
      intros Hex Hv. destruct (match_path uv Hex) as [[F _]|[_ (e & E1 & _ & He & Hs & K & _)]]; [congruence|].
      exists (me_path e). apply same_match_iff in Hs.
      destruct K as [(a & b & p & Ha & Hb & _ & -> & Hp & _)|(k & i & c & full & q & rest & Hk & -> & _ & _ & _ & _ & _ & Hp & _)].
      - exists (NStab a), (NStab b). split; [assumption|]. simpl in *. split; [apply radj_path_gadj; assumption|].
        split; [reflexivity|]. split; [reflexivity|]. intros i. destruct Hs as [[<- <-]|[<- <-]]; simpl; [reflexivity|apply xorb_comm].
      - exists (NPt q), (NStab i). split; [assumption|]. simpl in *. split; [assumption|].
        split; [reflexivity|]. split; [reflexivity|]. intros j. destruct Hs as [[<- <-]|[<- <-]]; simpl; destruct (Nat.eqb i j); reflexivity.
    Qed.

    Lemma flip_all M : (forall uv, In uv M -> exists e, In e mg /\ same_match (fst uv) (snd uv) e = true) ->
      forall s, good s -> omem None s = false ->
      exists s', foldM (fun s uv => if mmem (fst uv) virt && mmem (snd uv) virt then Ok s
                         else bind (edge_path mg uv) (flip_path E s)) s M = Ok s' /\
        good s' /\ omem None s' = false /\
        (forall i, (i < n)%nat -> xsum (in_stab stabs i) s' =
           xorb (xsum (in_stab stabs i) s) (xsum (fun x => m_end x i) (endpoints M))) .
    Proof.
      induction M as [|uv M IH]; intros HM s Hs Hn.
      - exists s. split; [reflexivity|]. split; [assumption|]. split; [assumption|]. intros i _. simpl. rewrite xorb_false_r. reflexivity.
      - simpl foldM. pose proof (HM uv (or_introl eq_refl)) as Hex.
        assert (HM' : forall uv, In uv M -> exists e, In e mg /\ same_match (fst uv) (snd uv) e = true) by (intros; apply HM; right; assumption).
        destruct (mmem (fst uv) virt && mmem (snd uv) virt) eqn:Ev.
        + destruct (match_path uv Hex) as [[_ Hz]|[F _]]; [|congruence]. simpl.
          destruct (IH HM' s Hs Hn) as (s' & E1 & G1 & N1 & X1). exists s'. split; [assumption|]. split; [assumption|].
          split; [assumption|]. intros i Hi. rewrite (X1 i Hi). simpl. destruct (Hz i) as [-> ->]. rewrite !xorb_false_l. reflexivity.
        + destruct (match_path' uv Hex Ev) as (p & x & y & Ep & Hp & Rx & Ry & Hends). rewrite Ep. simpl.
          destruct (flip_path_ok x y p Hp s Hs) as (s1 & E1 & G1 & X1 & N1 & _). rewrite E1. simpl.
          assert (Hn1 : omem None s1 = false). { rewrite N1, Hn. unfold conn. rewrite Rx, Ry. reflexivity. }
          destruct (IH HM' s1 G1 Hn1) as (s' & E2 & G2 & N2 & X2). exists s'. split; [assumption|]. split; [assumption|].
          split; [assumption|]. intros i Hi. rewrite (X2 i Hi), (X1 i Hi), Hends. simpl.
          destruct (xsum _ s), (m_end (fst uv) i), (m_end (snd uv) i), (xsum _ (endpoints M)); reflexivity.
    Qed.

    Lemma odd_xsum i : xsum (fun x => m_end x i) mnodes = if in_dec Nat.eq_dec i odd then true else false.
    Proof.
      unfold mnodes. rewrite xsum_app, xsum_map.
      rewrite (xsum_all_false _ virt), xorb_false_r.
      - clear - Hodd. induction odd as [|x l IH]; [reflexivity|]. inversion Hodd; subst. change (xorb (Nat.eqb x i) (xsum (fun x => m_end (MStab x) i) l) = if in_dec Nat.eq_dec i (x :: l) then true else false).
        rewrite IH by assumption. destruct (Nat.eqb x i) eqn:Ex.
        + apply Nat.eqb_eq in Ex. subst. destruct (in_dec Nat.eq_dec i l); [contradiction|].
          destruct (in_dec Nat.eq_dec i (i :: l)) as [|F]; [reflexivity|exfalso; apply F; left; reflexivity].
        + apply Nat.eqb_neq in Ex. destruct (in_dec Nat.eq_dec i l), (in_dec Nat.eq_dec i (x :: l)) as [F|F]; try reflexivity.
          * exfalso. apply F. right; assumption.
          * destruct F; [congruence|contradiction].
      - intros x Hx. destruct (virt_is_virt x Hx) as (q & k & -> & _). reflexivity.
    Qed.

    Lemma decode_ok M : best_matching mg M ->
      exists s, qubits_to_flip E mg virt M = Ok s /\ good s /\ ~ In None s /\
        forall i, (i < n)%nat -> xsum (in_stab stabs i) s = if in_dec Nat.eq_dec i odd then true else false.
    Proof.
      intros HB. pose proof (best_perfect M HB) as HP.
      destruct (flip_all M (proj2 (proj1 HB)) []) as (s & E1 & G1 & N1 & X1).
      - split; [constructor|intros q []].
      - reflexivity.
      - exists s. split; [assumption|]. split; [assumption|]. split.
        + intros F. apply omem_true in F. congruence.
        + intros i Hi. rewrite (X1 i Hi). simpl. rewrite (xsum_perm _ _ _ HP), odd_xsum.
          destruct (in_dec Nat.eq_dec i odd); reflexivity.
    Qed.

    (* ---------- weights ---------- *)
    Variables ra rb k : Z.
    Hypothesis Hex : near ra rb k rp w.
    Hypothesis Hw : forall q, 0 <= w q.

    Lemma wt_nonneg u v : 0 <= wt E w u v.
    Proof.
      unfold wt. destruct (find (same_pair u v) E) as [[uv [q|]]|]; unfold sedge_weight; simpl; auto; lia.
    Qed.
    Lemma cost_nonneg p : 0 <= cost E w p.
    Proof. unfold cost. apply sumZ_nonneg. intros x _. apply wt_nonneg. Qed.
    Lemma cost_reported p : exact k rp w -> cost E w p = k * reported rp E w p.
    Proof.
      clear Hex. unfold cost, reported. intros (_ & H0 & H1). induction (pairs p) as [|[u v] l IH]; [simpl; lia|].
      cbn [sumZ fold_right fst snd]. fold (sumZ (fun xy => wt E w (fst xy) (snd xy)) l).
      fold (sumZ (fun xy => rp (wt E w (fst xy) (snd xy))) l). rewrite IH.
      assert (wt E w u v = k * rp (wt E w u v)).
      { unfold wt. destruct (find (same_pair u v) E) as [[uv [q|]]|]; unfold sedge_weight; simpl; auto; rewrite H0; lia. }
      lia.
    Qed.
    Lemma cost_near p : 0 <= reported rp E w p /\ k * reported rp E w p <= cost E w p /\ rb * cost E w p <= ra * (k * reported rp E w p).
    Proof.
      unfold cost, reported. destruct Hex as (Hk & Ha & Hb & H0 & H1). induction (pairs p) as [|[u v] l IH]; [simpl; lia|].
      cbn [sumZ fold_right fst snd]. fold (sumZ (fun xy => wt E w (fst xy) (snd xy)) l).
      fold (sumZ (fun xy => rp (wt E w (fst xy) (snd xy))) l).
      assert (0 <= rp (wt E w u v) /\ k * rp (wt E w u v) <= wt E w u v /\ rb * wt E w u v <= ra * (k * rp (wt E w u v))).
      { unfold wt. destruct (find (same_pair u v) E) as [[uv [q|]]|]; unfold sedge_weight; simpl; auto; rewrite H0; lia. }
      nia.
    Qed.

    Lemma edge_cost e : In e mg -> rb * cost E w (me_path e) <= ra * (k * me_w e) /\ 0 <= me_w e.
    Proof.
      intros He. rewrite (ms_mg _ _ _ _ HS), !in_app_iff in He. destruct He as [He|[He|He]].
      - destruct (F2_in_r _ _ _ _ (ms_mids _ _ _ _ HS) He) as (ab & _ & _ & _ & K).
        destruct K as (i & j & p & _ & _ & _ & -> & _). simpl. pose proof (cost_near p). tauto.
      - destruct bp_case as [Eb|Eb]; [rewrite (ms_nobes _ _ _ _ HS Eb) in He; destruct He|].
        destruct (F2_in_r _ _ _ _ (ms_bes _ _ _ _ HS Eb) He) as (ki & _ & _ & _ & K).
        destruct K as (j & i & c & full & q & rest & _ & -> & _ & -> & _). cbn [me_path me_w].
        destruct (cost_near (c :: NPt q :: rest)) as (N1 & _ & N3). split; [|exact N1]. eapply Z.le_trans; [|exact N3]. apply Z.mul_le_mono_nonneg_l; [destruct Hex as (_ & _ & Hb & _); lia|].
        unfold cost. cbn [pairs]. cbn [sumZ fold_right fst snd]. pose proof (wt_nonneg c (NPt q)).
        fold (pairs (NPt q :: rest)). unfold sumZ. simpl pairs. lia.
      - apply in_map_iff in He. destruct He as [[x y] [<- Hab]]. simpl. unfold cost. simpl. lia.
    Qed.

    Lemma flip_all_weight M : (forall uv, In uv M -> exists e, In e mg /\ same_match (fst uv) (snd uv) e = true) ->
      forall s s', good s ->
      foldM (fun s uv => if mmem (fst uv) virt && mmem (snd uv) virt then Ok s
                         else bind (edge_path mg uv) (flip_path E s)) s M = Ok s' ->
      rb * sumZ (pt_wt w) s' <= rb * sumZ (pt_wt w) s + ra * (k * total_weight mg M).
    Proof.
      assert (Hk : 0 < k) by apply Hex. assert (Ha : 0 <= ra) by apply Hex. assert (Hb : 0 < rb) by apply Hex.
      induction M as [|uv M IH]; intros HM s s' Hs HF.
      - simpl in HF. injection HF as <-. unfold total_weight. simpl. lia.
      - simpl in HF. pose proof (HM uv (or_introl eq_refl)) as Hex1.
        assert (HM' : forall uv, In uv M -> exists e, In e mg /\ same_match (fst uv) (snd uv) e = true) by (intros; apply HM; right; assumption).
        assert (Htw : total_weight mg (uv :: M) = edge_wt mg uv + total_weight mg M) by reflexivity.
        destruct (mmem (fst uv) virt && mmem (snd uv) virt) eqn:Ev.
        + simpl in HF. pose proof (IH HM' s s' Hs HF).
          assert (0 <= edge_wt mg uv).
          { unfold edge_wt. destruct (find (same_match (fst uv) (snd uv)) mg) eqn:F; [|lia].
            apply find_some in F. apply edge_cost. apply F. }
          rewrite Htw. assert (0 <= ra * (k * edge_wt mg uv)) by (apply Z.mul_nonneg_nonneg; [exact Ha|apply Z.mul_nonneg_nonneg; lia]). lia.
        + destruct (match_path' uv Hex1 Ev) as (p & x & y & Ep & Hp & _). rewrite Ep in HF. simpl in HF.
          destruct (flip_path_ok x y p Hp s Hs) as (s1 & E1 & G1 & _ & _ & W1). rewrite E1 in HF. simpl in HF.
          pose proof (IH HM' s1 s' G1 HF). specialize (W1 w Hw). rewrite Htw.
          assert (rb * cost E w p <= ra * (k * edge_wt mg uv)).
          { unfold edge_path in Ep. unfold edge_wt. destruct (find (same_match (fst uv) (snd uv)) mg) eqn:F; [|discriminate].
            injection Ep as <-. apply find_some in F. apply edge_cost. apply F. }
          assert (rb * sumZ (pt_wt w) s1 <= rb * (sumZ (pt_wt w) s + cost E w p)) by (apply Z.mul_le_mono_nonneg_l; lia). lia.
    Qed.

    Lemma decode_weight M s : best_matching mg M -> qubits_to_flip E mg virt M = Ok s ->
      rb * sumZ (pt_wt w) s <= ra * (k * total_weight mg M).
    Proof.
      intros HB HF. pose proof (flip_all_weight M (proj2 (proj1 HB)) [] s) as H. simpl in H. rewrite Z.mul_0_r in H. apply H; [|assumption].
      split; [constructor|intros q []].
    Qed.

    (* ---------- any chain of errors gives a matching that is no heavier ---------- *)
    Definition link (i j : nat) (x : Z) : Prop := (i < n)%nat /\ (j < n)%nat /\ i <> j /\
      exists p, is_path (radj E) (NStab i) (NStab j) p /\ cost E w p <= x.
    Definition blink (i : nat) (x : Z) : Prop := (i < n)%nat /\
      exists c p, conn c = true /\ is_path (gadj E) c (NStab i) p /\ cost E w p <= x.

    Inductive item := IPair (i j : nat) (x : Z) | IEnd (i : nat) (x : Z).
    Definition iok (t : item) : Prop := match t with IPair i j x => link i j x | IEnd i x => blink i x end.
    Definition iends (t : item) : list nat := match t with IPair i j _ => [i; j] | IEnd i _ => [i] end.
    Definition icost (t : item) : Z := match t with IPair _ _ x => x | IEnd _ x => x end.

    Lemma cost_app u x v p q : is_path (gadj E) u x p -> is_path (gadj E) x v (x :: q) ->
      cost E w (p ++ q) = cost E w p + cost E w (x :: q).
    Proof.
      intros H Hq. apply ipath_of in H. induction H as [u|u y v0 p Huy Hp HI IH].
      - unfold cost at 2. simpl. reflexivity.
      - simpl app. unfold cost. rewrite (pairs_cons u y (p ++ q)).
        2: { destruct Hp as (_ & F & _). destruct p; [discriminate|exact F]. }
        rewrite (pairs_cons u y p) by apply Hp. cbn [sumZ fold_right fst snd].
        specialize (IH Hq). unfold cost in IH. unfold sumZ in *. lia.
    Qed.

    Lemma cost_rev u v p : is_path (gadj E) u v p -> cost E w (rev p) = cost E w p.
    Proof.
      intros H. apply ipath_of in H. induction H as [u|u y v p Huy Hp HI IH]; [reflexivity|].
      simpl rev. pose proof (is_path_rev _ _ _ _ (gadj_sym E) Hp) as Hr.
      rewrite (cost_app v y u (rev p) [u]); [| assumption | apply (is_path_cons _ _ u); [apply gadj_sym; assumption|apply is_path_one]].
      rewrite IH. unfold cost. rewrite (pairs_cons u y p) by apply Hp. cbn [pairs sumZ fold_right fst snd].
      rewrite (wt_sym E w y u). unfold sumZ. lia.
    Qed.

    Lemma tl_path {R : snode -> snode -> Prop} x v p : is_path R x v p -> exists q, p = x :: q.
    Proof. intros (_ & F & _). destruct p as [|y q]; [discriminate|]. injection F as ->. exists q. reflexivity. Qed.

    Lemma link_sym i j x : link i j x -> link j i x.
    Proof.
      intros (Hi & Hj & Hn & p & Hp & Hc). split; [assumption|]. split; [assumption|]. split; [congruence|].
      exists (rev p). split; [apply is_path_rev; [apply radj_sym|assumption]|].
      rewrite (cost_rev (NStab i) (NStab j)) by (apply radj_path_gadj; assumption). assumption.
    Qed.
    Lemma link_trans i j l x y : link i j x -> link j l y -> i <> l -> link i l (x + y).
    Proof.
      intros (Hi & Hj & Hn & p & Hp & Hc) (_ & Hl & Hn' & p' & Hp' & Hc') Hil.
      split; [assumption|]. split; [assumption|]. split; [assumption|].
      destruct (tl_path _ _ _ Hp') as [q ->]. exists (p ++ q). split; [eapply is_path_app; eassumption|].
      rewrite (cost_app (NStab i) (NStab j) (NStab l)); try (apply radj_path_gadj; assumption). lia.
    Qed.
    Lemma blink_trans i j x y : blink i x -> link i j y -> blink j (x + y).
    Proof.
      intros (Hi & c & p & Hcn & Hp & Hc) (_ & Hj & _ & p' & Hp' & Hc'). split; [assumption|].
      destruct (tl_path _ _ _ Hp') as [q ->]. apply radj_path_gadj in Hp'. exists c, (p ++ q). split; [assumption|].
      split; [eapply is_path_app; eassumption|]. rewrite (cost_app c (NStab i) (NStab j)); try assumption. lia.
    Qed.

    Definition eps (L : list item) : list nat := flat_map iends L.
    Definition pari (l : list nat) (i : nat) : bool := xsum (Nat.eqb i) l.
    Definition conf (L : list item) : Prop := NoDup (eps L) /\ Forall iok L.
    Definition icosts (L : list item) : Z := sumZ icost L.

    Lemma link_nonneg t : iok t -> 0 <= icost t.
    Proof.
      destruct t as [i j x|i x]; simpl.
      - intros (_ & _ & _ & p & _ & H). pose proof (cost_nonneg p). lia.
      - intros (_ & c & p & _ & _ & H). pose proof (cost_nonneg p). lia.
    Qed.

    Lemma pari_in l i : NoDup l -> pari l i = true <-> In i l.
    Proof.
      unfold pari. induction l as [|x l IH]; intros Hn; simpl; [split; [discriminate|intros []]|].
      inversion Hn; subst. specialize (IH H2). destruct (Nat.eqb i x) eqn:Ex.
      - apply Nat.eqb_eq in Ex. subst. split; [auto|]. intros _. destruct (xsum (Nat.eqb x) l) eqn:F; [|reflexivity].
        exfalso. apply H1. apply IH. reflexivity.
      - apply Nat.eqb_neq in Ex. rewrite xorb_false_l, IH. split; [auto|]. intros [->|?]; [congruence|assumption].
    Qed.

    Lemma conf_take L i : conf L -> In i (eps L) -> exists t L0, iok t /\ In i (iends t) /\ conf L0 /\
      (length L0 < length L)%nat /\ icosts L = icost t + icosts L0 /\
      forall j, pari (eps L) j = xorb (pari (iends t) j) (pari (eps L0) j).
    Proof.
      intros [Hn Hf] Hi. unfold eps in Hi. apply in_flat_map in Hi. destruct Hi as (t & Ht & Hi).
      apply in_split in Ht. destruct Ht as (L1 & L2 & ->). exists t, (L1 ++ L2).
      assert (P : Permutation (L1 ++ t :: L2) (t :: L1 ++ L2)) by (symmetry; apply Permutation_middle).
      rewrite Forall_app in Hf. destruct Hf as [F1 F2]. inversion F2; subst.
      split; [assumption|]. split; [assumption|].
      assert (PE : Permutation (eps (L1 ++ t :: L2)) (iends t ++ eps (L1 ++ L2))).
      { unfold eps. rewrite !flat_map_app. simpl. rewrite !app_assoc. apply Permutation_app_tail. apply Permutation_app_comm. }
      split.
      { split; [|rewrite Forall_app; auto]. apply (Permutation_NoDup PE) in Hn. apply nodup_app_r in Hn. assumption. }
      split; [rewrite !app_length; simpl; lia|]. split.
      - unfold icosts. rewrite (sumZ_perm _ _ _ P). reflexivity.
      - intros j. unfold pari. rewrite (xsum_perm _ _ _ PE), xsum_app. reflexivity.
    Qed.

    Lemma insert_item : forall m L, (length L <= m)%nat -> conf L -> forall t, iok t ->
      exists L', conf L' /\ icosts L' <= icosts L + icost t /\
        forall j, pari (eps L') j = xorb (pari (eps L) j) (pari (iends t) j).
    Proof.
      induction m as [|m IH]; intros L HL HC t Ht.
      { destruct L; [|simpl in HL; lia]. exists [t]. split.
        - split; [|constructor; [assumption|constructor]]. unfold eps. simpl. rewrite app_nil_r.
          destruct t as [i j x|i x]; simpl in *; [|constructor; [intros []|constructor]].
          destruct Ht as (_ & _ & Hne & _). constructor; [intros [F|[]]; congruence|]. constructor; [intros []|constructor].
        - split; [unfold icosts; simpl; lia|]. intros j. unfold eps. simpl. rewrite app_nil_r. destruct (pari (iends t) j); reflexivity. }
      assert (Hadd : (forall i, In i (iends t) -> ~ In i (eps L)) -> exists L', conf L' /\ icosts L' <= icosts L + icost t /\
        forall j, pari (eps L') j = xorb (pari (eps L) j) (pari (iends t) j)).
      { intros Hno. exists (t :: L). destruct HC as [Hn Hf]. split.
        - split; [|constructor; assumption]. unfold eps. simpl. apply NoDup_app_intro; [|assumption|assumption].
          destruct t as [i j x|i x]; simpl in *; [|constructor; [intros []|constructor]].
          destruct Ht as (_ & _ & Hne & _). constructor; [intros [F|[]]; congruence|]. constructor; [intros []|constructor].
        - split; [unfold icosts; simpl; lia|]. intros j. unfold eps, pari. simpl. rewrite xsum_app. apply xorb_comm. }
      (* merging t with an item containing the stabilizer i, j the other end of t *)
      assert (Hmerge : forall i (rest : option nat),
        (match rest with Some j => link j i (icost t) | None => blink i (icost t) end) ->
        (forall l, pari (iends t) l = xorb (Nat.eqb l i) (match rest with Some j => Nat.eqb l j | None => false end)) ->
        In i (eps L) -> exists L', conf L' /\ icosts L' <= icosts L + icost t /\
          forall j, pari (eps L') j = xorb (pari (eps L) j) (pari (iends t) j)).
      { intros i rest Hlink Hpar Hi. destruct (conf_take L i HC Hi) as (s & L0 & Hs & His & HC0 & Hl & Hcost & Hp).
        assert (Hso : exists rest', (match rest' with Some j => link i j (icost s) | None => blink i (icost s) end) /\
           forall l, pari (iends s) l = xorb (Nat.eqb l i) (match rest' with Some j => Nat.eqb l j | None => false end)).
        { destruct s as [a b x|a x]; simpl in *.
          - destruct His as [->|[->|[]]].
            + exists (Some b). split; [assumption|]. intros l. unfold pari. simpl. rewrite xorb_false_r. reflexivity.
            + exists (Some a). split; [apply link_sym; assumption|]. intros l. unfold pari. simpl. rewrite xorb_false_r. apply xorb_comm.
          - destruct His as [->|[]]. exists None. split; [assumption|]. intros l. unfold pari. reflexivity. }
        destruct Hso as (rest' & Hlink' & Hpar').
        assert (Hs0 : 0 <= icost s) by (apply link_nonneg; assumption).
        assert (Ht0 : 0 <= icost t) by (apply link_nonneg; assumption).
        assert (Hdrop : (forall l, pari (iends t) l = pari (iends s) l) -> exists L', conf L' /\ icosts L' <= icosts L + icost t /\
            forall j, pari (eps L') j = xorb (pari (eps L) j) (pari (iends t) j)).
        { intros Hsame. exists L0. split; [assumption|]. split; [lia|]. intros j. rewrite Hp, Hsame.
          destruct (pari (iends s) j), (pari (eps L0) j); reflexivity. }
        assert (Hins : forall u, iok u -> icost u = icost t + icost s ->
            (forall l, pari (iends u) l = xorb (pari (iends t) l) (pari (iends s) l)) ->
            exists L', conf L' /\ icosts L' <= icosts L + icost t /\
            forall j, pari (eps L') j = xorb (pari (eps L) j) (pari (iends t) j)).
        { intros u Hu Hcu Hpu. destruct (IH L0 ltac:(lia) HC0 u Hu) as (L' & C' & K' & P').
          exists L'. split; [assumption|]. split; [lia|]. intros l. rewrite P', Hp, Hpu.
          destruct (pari (iends t) l), (pari (iends s) l), (pari (eps L0) l); reflexivity. }
        destruct rest as [j|], rest' as [j'|].
        - destruct (Nat.eq_dec j j') as [->|Hjj].
          + apply Hdrop. intros l. rewrite Hpar, Hpar'. reflexivity.
          + apply (Hins (IPair j j' (icost t + icost s))); [|reflexivity|].
            * simpl. eapply link_trans; eassumption.
            * intros l. rewrite Hpar, Hpar'. unfold pari. simpl.
              destruct (Nat.eqb l i), (Nat.eqb l j), (Nat.eqb l j'); reflexivity.
        - apply (Hins (IEnd j (icost t + icost s))); [|reflexivity|].
          + simpl. rewrite Z.add_comm. eapply blink_trans; [eassumption|]. apply link_sym. assumption.
          + intros l. rewrite Hpar, Hpar'. unfold pari. simpl. destruct (Nat.eqb l i), (Nat.eqb l j); reflexivity.
        - apply (Hins (IEnd j' (icost t + icost s))); [|reflexivity|].
          + simpl. eapply blink_trans; eassumption.
          + intros l. rewrite Hpar, Hpar'. unfold pari. simpl. destruct (Nat.eqb l i), (Nat.eqb l j'); reflexivity.
        - apply Hdrop. intros l. rewrite Hpar, Hpar'. reflexivity. }
      destruct t as [i j x|i x]; simpl in Ht.
      - destruct (in_dec Nat.eq_dec i (eps L)) as [Hi|Hi].
        + apply (Hmerge i (Some j)); [apply link_sym; assumption| |assumption].
          intros l. unfold pari. simpl. rewrite xorb_false_r. reflexivity.
        + destruct (in_dec Nat.eq_dec j (eps L)) as [Hj|Hj].
          * apply (Hmerge j (Some i)); [assumption| |assumption].
            intros l. unfold pari. simpl. rewrite xorb_false_r. apply xorb_comm.
          * apply Hadd. simpl. intros l [<-|[<-|[]]]; assumption.
      - destruct (in_dec Nat.eq_dec i (eps L)) as [Hi|Hi].
        + apply (Hmerge i None); [assumption| |assumption]. intros l. unfold pari. reflexivity.
        + apply Hadd. simpl. intros l [<-|[]]; assumption.
    Qed.

    (* the shared vertex kept on an edge is the lightest one (always, if two stabilizers share
       at most one qubit or weights are uniform) *)
    Hypothesis Hlight : forall i j q, (i < j < n)%nat -> In q (shared stabs i j) -> w (ch i j) <= w q.

    Lemma item_of q : In q (concat stabs) -> exists t, iok t /\ icost t <= w q /\
      forall i, (i < n)%nat -> pari (iends t) i = pmem q (stab_of stabs i).
    Proof.
      intros Hq. assert (Hh : exists i, (i < n)%nat /\ In q (stab_of stabs i)).
      { apply in_concat in Hq. destruct Hq as (st & Hst & Hq). apply In_nth with (d := []) in Hst.
        destruct Hst as (i & Hi & Es). exists i. split; [assumption|]. unfold stab_of. rewrite Es. assumption. }
      destruct Hh as (i & Hi & Hqi).
      assert (Hmem : forall j, (j < n)%nat -> pmem q (stab_of stabs j) = true <-> In j (holders stabs q)).
      { intros j Hj. rewrite in_holders, pmem_In. tauto. }
      destruct (holders_count stabs bp WF q i Hi Hqi) as [[Hb Hh]|[Hb Hh]].
      - exists (IEnd i (w q)). split; [|split; [simpl; lia|]].
        + simpl. split; [assumption|].
          assert (Hq2 : In q (low_half bp) \/ In q (high_half bp)) by (rewrite <- (halves bp) in Hb; apply in_app_iff; assumption).
          assert (Hc : exists c, conn c = true /\ gadj E c (NPt q)).
          { destruct Hq2 as [H|H]; [exists NLow|exists NHigh]; (split; [reflexivity|]); exists None; left; apply in_E; right; right;
              (split; [reflexivity|]); exists q; auto. }
          destruct Hc as (c & Hc & Hadj). exists c, [c; NPt q; NStab i]. split; [assumption|].
          assert (Hadj2 : gadj E (NPt q) (NStab i)).
          { exists (Some q). right. apply in_E. right; left. exists i, q. auto 6. }
          split; [apply (is_path_cons _ _ (NPt q)); [assumption|apply (is_path_cons _ _ (NStab i)); [assumption|apply is_path_one]]|].
          unfold cost. cbn [pairs sumZ fold_right fst snd].
          destruct (gadj_cv E c (NPt q) Hadj) as (cv1 & _ & I1 & W1). rewrite W1.
          destruct (gadj_cv E (NPt q) (NStab i) Hadj2) as (cv2 & _ & I2 & W2). rewrite W2.
          assert (HN1 : cv1 = None).
          { destruct I1 as [H|H]; apply in_E in H;
              destruct H as [(a & b & F1 & F2 & _)|[(a & b & F1 & F2 & _)|[-> _]]]; try discriminate; try reflexivity;
              rewrite F1 in Hc || rewrite F2 in Hc; discriminate. }
          assert (HN2 : cv2 = Some q).
          { destruct I2 as [H|H]; apply in_E in H;
              destruct H as [(a & b & F1 & F2 & _)|[(a & b & F1 & F2 & _ & _ & _ & ->)|[-> (q' & F & [[F1 _]|[F1 _]])]]]; try discriminate.
            injection F2 as <-. reflexivity. }
          subst. lia.
        + intros j Hj. apply eq_true_iff_eq. rewrite (Hmem j Hj), Hh. unfold pari. simpl. rewrite xorb_false_r, Nat.eqb_eq. intuition.
      - destruct (holders stabs q) as [|a [|b' [|? ?]]] eqn:Eh; try discriminate.
        pose proof (holders_NoDup stabs q) as Hnd. rewrite Eh in Hnd. inversion Hnd as [|? ? Ha _]; subst.
        assert (Ia : In a (holders stabs q)) by (rewrite Eh; left; reflexivity).
        assert (Ib : In b' (holders stabs q)) by (rewrite Eh; right; left; reflexivity).
        apply in_holders in Ia. apply in_holders in Ib. destruct Ia as [La Qa], Ib as [Lb Qb].
        assert (Hab : a <> b') by (intros ->; apply Ha; left; reflexivity).
        assert (Hlk : forall x y, (x < y < n)%nat -> In q (stab_of stabs x) -> In q (stab_of stabs y) -> link x y (w q)).
        { intros x y Hxy Qx Qy. split; [lia|]. split; [lia|]. split; [lia|].
          assert (Hsh : In q (shared stabs x y)) by (apply in_shared; auto).
          assert (Hin : In (NStab x, NStab y, Some (ch x y)) E).
          { apply in_E. left. exists x, y. split; [reflexivity|]. split; [reflexivity|]. split; [assumption|].
            split; [intros F; rewrite F in Hsh; destruct Hsh|reflexivity]. }
          assert (Hadj : gadj E (NStab x) (NStab y)) by (exists (Some (ch x y)); left; assumption).
          exists [NStab x; NStab y]. split.
          - apply (is_path_cons _ _ (NStab y)); [split; [assumption|auto]|apply is_path_one].
          - unfold cost. cbn [pairs sumZ fold_right fst snd].
            destruct (gadj_cv E _ _ Hadj) as (cv & _ & I & W). rewrite W.
            assert (cv = Some (ch x y)).
            { destruct I as [I|I]; [exact (edge_data_unique stabs bp ch _ _ _ _ I Hin)|].
              exfalso. exact (edge_direction stabs bp ch _ _ _ _ Hin I). }
            subst. pose proof (Hlight x y q Hxy Hsh). lia. }
        exists (IPair a b' (w q)). split; [|split; [simpl; lia|]].
        + simpl. destruct (Nat.lt_ge_cases a b'); [apply Hlk; auto; lia|apply link_sym, Hlk; auto; lia].
        + intros j Hj. apply eq_true_iff_eq. rewrite (Hmem j Hj). unfold pari. simpl. rewrite xorb_false_r.
          destruct (Nat.eqb_spec j a), (Nat.eqb_spec j b'); simpl; intuition congruence.
    Qed.

    Lemma chain_conf F : (forall q, In q F -> In q (concat stabs)) ->
      exists L, conf L /\ icosts L <= sumZ w F /\
        forall i, (i < n)%nat -> pari (eps L) i = xsum (fun q => pmem q (stab_of stabs i)) F.
    Proof.
      induction F as [|q F IH]; intros HF.
      - exists []. split; [split; constructor|]. split; [unfold icosts; simpl; lia|]. reflexivity.
      - destruct IH as (L & C & K & P); [intros; apply HF; right; assumption|].
        destruct (item_of q (HF q (or_introl eq_refl))) as (t & Ht & Kt & Pt).
        destruct (insert_item (length L) L ltac:(lia) C t Ht) as (L' & C' & K' & P').
        exists L'. split; [assumption|]. split; [simpl; fold (sumZ w F); lia|].
        intros i Hi. rewrite P', (P i Hi), (Pt i Hi). simpl. apply xorb_comm.
    Qed.

    (* from a pairing of the odd stabilizers to a perfect matching *)
    Lemma bes_u : bp <> [] -> map me_u bes = map MStab odd.
    Proof.
      intros Hb. pose proof (ms_bes _ _ _ _ HS Hb) as F. rewrite <- (enumerate_snd odd) at 1. clear -F.
      induction F as [|ki e L m He HF IH]; [reflexivity|]. simpl. rewrite IH. f_equal. apply He.
    Qed.

    Definition vof (i : nat) : mnode :=
      match find (fun e => mneqb (me_u e) (MStab i)) bes with Some e => me_v e | None => MStab i end.

    Lemma lookup_map (l : list medge) : forall od, map me_u l = map MStab od -> NoDup od ->
      map (fun i => match find (fun e => mneqb (me_u e) (MStab i)) l with Some e => me_v e | None => MStab i end) od = map me_v l.
    Proof.
      induction l as [|e l IH]; intros [|i od] H Hn; try discriminate; [reflexivity|].
      simpl in H. injection H as H1 H2. inversion Hn; subst. simpl. unfold mneqb at 1.
      destruct (mnode_eq_dec (me_u e) (MStab i)) as [|F]; [|congruence]. f_equal.
      rewrite <- (IH od H2 H4). apply map_ext_in. intros j Hj. unfold mneqb at 1.
      destruct (mnode_eq_dec (me_u e) (MStab j)) as [F|F]; [|reflexivity]. exfalso. apply H3. congruence.
    Qed.

    Lemma vof_map : bp <> [] -> map vof odd = virt.
    Proof. intros Hb. rewrite (ms_virt _ _ _ _ HS). apply lookup_map; [apply bes_u; assumption|assumption]. Qed.

    Lemma vof_edge i : bp <> [] -> In i odd -> exists e, In e bes /\ me_u e = MStab i /\ me_v e = vof i.
    Proof.
      intros Hb Hi. unfold vof. destruct (find (fun e => mneqb (me_u e) (MStab i)) bes) as [e|] eqn:F.
      - apply find_some in F. destruct F as [He Hu]. exists e. split; [assumption|]. split; [|reflexivity].
        unfold mneqb in Hu. destruct (mnode_eq_dec (me_u e) (MStab i)); [assumption|discriminate].
      - exfalso. assert (Hin : In (MStab i) (map me_u bes)) by (rewrite (bes_u Hb); apply in_map; assumption).
        apply in_map_iff in Hin. destruct Hin as (e & Hu & He). apply (find_none _ _ F) in He. unfold mneqb in He.
        destruct (mnode_eq_dec (me_u e) (MStab i)); [discriminate|contradiction].
    Qed.

    Definition mitem (t : item) : list (mnode * mnode) :=
      match t with
      | IPair i j _ => (MStab i, MStab j) :: (if has_bound then [(vof i, vof j)] else [])
      | IEnd i _ => [(MStab i, vof i)]
      end.

    Lemma edge_wt_found uv : (exists e, In e mg /\ same_match (fst uv) (snd uv) e = true) ->
      exists e, In e mg /\ same_match (fst uv) (snd uv) e = true /\ edge_wt mg uv = me_w e.
    Proof.
      intros (e & He & Hs). unfold edge_wt. destruct (find (same_match (fst uv) (snd uv)) mg) as [e'|] eqn:F.
      - apply find_some in F. exists e'. tauto.
      - rewrite (find_none _ _ F e He) in Hs. discriminate.
    Qed.

    Lemma pair_weight i j x : link i j x -> In i odd -> In j odd -> k * edge_wt mg (MStab i, MStab j) <= x.
    Proof.
      intros (_ & _ & Hij & p & Hp & Hc) Hi Hj.
      destruct (edge_wt_found (MStab i, MStab j) (mid_exists i j Hi Hj Hij)) as (e & He & Hs & ->).
      apply same_match_iff in Hs. simpl in Hs.
      destruct (edge_kinds e He) as [K|[[K _]|(V1 & V2 & _)]].
      - destruct K as (a0 & b0 & p0 & _ & _ & _ & -> & Hp0 & Hmin). simpl in *. pose proof (proj1 (proj2 (cost_near p0))) as Hnear. eapply Z.le_trans; [exact Hnear|].
        destruct Hs as [[E1 E2]|[E1 E2]]; injection E1 as ->; injection E2 as ->.
        + pose proof (Hmin p Hp). lia.
        + pose proof (Hmin (rev p) (is_path_rev _ _ _ _ (radj_sym E) Hp)) as H.
          rewrite (cost_rev (NStab i) (NStab j)) in H by (apply radj_path_gadj; assumption). lia.
      - destruct K as (k0 & i0 & c & full & q & rest & _ & -> & _). simpl in Hs.
        destruct Hs as [[_ F]|[_ F]]; discriminate.
      - destruct (virt_is_virt _ V1) as (q & k0 & F & _). destruct Hs as [[F' _]|[F' _]]; rewrite F in F'; discriminate.
    Qed.

    Lemma end_weight i x : bp <> [] -> blink i x -> In i odd -> k * edge_wt mg (MStab i, vof i) <= x.
    Proof.
      intros Hb (_ & c' & p & Hc' & Hp & Hc) Hi. assert (Hk : 0 < k) by apply Hex.
      destruct (vof_edge i Hb Hi) as (e0 & He0 & U0 & V0).
      destruct (edge_wt_found (MStab i, vof i)) as (e & He & Hs & ->).
      { exists e0. split; [rewrite (ms_mg _ _ _ _ HS); apply in_app_iff; right; apply in_app_iff; left; assumption|].
        apply same_match_iff. left. auto. }
      apply same_match_iff in Hs. simpl in Hs.
      assert (Vv : In (vof i) virt) by (rewrite <- (vof_map Hb); apply in_map; assumption).
      destruct (virt_is_virt _ Vv) as (q0 & k0 & EV & _).
      destruct (edge_kinds e He) as [K|[[K _]|(V1 & V2 & _)]].
      - destruct K as (a & b & p0 & _ & _ & _ & -> & _). simpl in Hs. rewrite EV in Hs. destruct Hs as [[_ F]|[F _]]; discriminate.
      - destruct K as (k1 & i1 & c & full & q & rest & _ & -> & _ & _ & _ & _ & _ & _ & _ & Hmin). simpl in *.
        destruct Hs as [[E1 _]|[E1 _]]; [|rewrite EV in E1; discriminate]. injection E1 as ->.
        destruct (Hmin c' Hc') as (full' & Hf & Hm & Hr). pose proof (Hm p Hp). pose proof (proj1 (proj2 (cost_near full'))). nia.
      - destruct (virt_is_virt _ V1) as (q1 & k1 & F1 & _). destruct (virt_is_virt _ V2) as (q2 & k2 & F2 & _).
        destruct Hs as [[F' _]|[_ F']]; [rewrite F1 in F'|rewrite F2 in F']; discriminate.
    Qed.

    Lemma virt_edge_exists a b : In a virt -> In b virt -> a <> b -> exists e, In e mg /\ same_match a b e = true.
    Proof.
      intros Ha Hb Hab. destruct (combs_total virt a b Ha Hb Hab) as [H|H];
        [exists (virt_edge (a, b))|exists (virt_edge (b, a))];
        (split; [rewrite (ms_mg _ _ _ _ HS); apply in_app_iff; right; apply in_app_iff; right; apply in_map; assumption|]);
        apply same_match_iff; simpl; auto.
    Qed.

    Lemma virt_weight a b : In a virt -> In b virt -> a <> b -> edge_wt mg (a, b) = 0.
    Proof.
      intros Ha Hb Hab. destruct (edge_wt_found (a, b) (virt_edge_exists a b Ha Hb Hab)) as (e & He & Hs & ->).
      apply same_match_iff in Hs. simpl in Hs.
      destruct (virt_is_virt _ Ha) as (q1 & k1 & F1 & _). destruct (virt_is_virt _ Hb) as (q2 & k2 & F2 & _).
      destruct (edge_kinds e He) as [K|[[K _]|(V1 & V2 & H0)]].
      - destruct K as (x & y & p0 & _ & _ & _ & -> & _). simpl in Hs. rewrite F1, F2 in Hs. destruct Hs as [[F _]|[F _]]; discriminate.
      - destruct K as (j & i & c & full & q & rest & _ & -> & _). simpl in Hs. rewrite F1, F2 in Hs. destruct Hs as [[F _]|[F _]]; discriminate.
      - assumption.
    Qed.

    Lemma vof_inj i j : bp <> [] -> In i odd -> In j odd -> i <> j -> vof i <> vof j.
    Proof.
      intros Hb Hi Hj Hij F. pose proof virt_NoDup as Hn. rewrite <- (vof_map Hb) in Hn.
      clear - Hn Hi Hj Hij F. induction odd as [|x l IH]; [destruct Hi|]. simpl in Hn. inversion Hn; subst.
      destruct Hi as [->|Hi], Hj as [->|Hj].
      - congruence.
      - apply H1. rewrite F. apply in_map. assumption.
      - apply H1. rewrite <- F. apply in_map. assumption.
      - auto.
    Qed.

    Lemma no_ends L : bp = [] -> Forall iok L -> forall t, In t L -> exists i j x, t = IPair i j x.
    Proof.
      intros Hb HF t Ht. rewrite Forall_forall in HF. specialize (HF t Ht). destruct t as [i j x|i x]; [eauto|].
      exfalso. destruct HF as (_ & c & p & Hc & Hp & _).
      destruct (is_path_inv _ _ _ _ Hp) as [[_ Ex]|(y & p' & _ & Hcx & _)]; [rewrite Ex in Hc; discriminate|].
      destruct (conn_nbr c y Hc Hcx) as (q & _ & _ & Hq). rewrite Hb in Hq. destruct Hq.
    Qed.

    Lemma conf_matching L : conf L -> Permutation (eps L) odd ->
      exists M, is_matching mg M /\ (2 * length M)%nat = length mnodes /\ k * total_weight mg M <= icosts L.
    Proof.
      intros [Hn Hf] HP. exists (flat_map mitem L).
      assert (Hin : forall t i, In t L -> In i (iends t) -> In i odd).
      { intros t i Ht Hi. apply (Permutation_in _ HP). apply in_flat_map. exists t. auto. }
      assert (Hends : Permutation (endpoints (flat_map mitem L)) mnodes).
      { unfold mnodes. destruct bp_case as [Eb|Eb].
        - assert (virt = []) as -> by (rewrite (ms_virt _ _ _ _ HS), (ms_nobes _ _ _ _ HS Eb); reflexivity).
          rewrite app_nil_r, <- HP. pose proof (no_ends L Eb Hf) as Hne. clear - Hne Eb.
          assert (Hb : has_bound = false) by (unfold has_bound_points; rewrite Eb; reflexivity).
          induction L as [|t L IH]; [reflexivity|]. destruct (Hne t (or_introl eq_refl)) as (i & j & x & ->).
          simpl. rewrite Hb. simpl. do 2 constructor. apply IH. intros; apply Hne; right; assumption.
        - rewrite <- (vof_map Eb), <- HP.
          assert (Hb : has_bound = true) by (apply has_bound_true; assumption). clear - Hb.
          induction L as [|t L IH]; [reflexivity|]. destruct t as [i j x|i x]; simpl.
          + rewrite Hb. simpl. do 2 constructor.
            transitivity (vof i :: vof j :: (map MStab (eps L) ++ map vof (eps L))); [do 2 constructor; assumption|].
            etransitivity; [|apply Permutation_middle]. constructor. apply Permutation_middle.
          + constructor. etransitivity; [|apply Permutation_middle]. constructor. assumption. }
      assert (Hnd : NoDup (endpoints (flat_map mitem L))) by (apply (Permutation_NoDup (l := mnodes)); [symmetry; assumption|apply mnodes_NoDup]).
      split; [|split].
      - split; [assumption|]. intros uv Huv. apply in_flat_map in Huv. destruct Huv as (t & Ht & Huv).
        pose proof (proj1 (Forall_forall _ _) Hf t Ht) as Hok.
        destruct t as [i j x|i x]; simpl in Huv.
        + assert (Hi : In i odd) by (apply (Hin _ i Ht); left; reflexivity).
          assert (Hj : In j odd) by (apply (Hin _ j Ht); right; left; reflexivity).
          destruct Hok as (_ & _ & Hij & _).
          destruct Huv as [<-|Huv]; [simpl; apply mid_exists; assumption|].
          destruct has_bound eqn:Hb; [|destruct Huv]. apply has_bound_true in Hb. destruct Huv as [<-|[]]. simpl.
          apply virt_edge_exists; [rewrite <- (vof_map Hb); apply in_map; assumption|rewrite <- (vof_map Hb); apply in_map; assumption|].
          apply vof_inj; assumption.
        + assert (Hi : In i odd) by (apply (Hin _ i Ht); left; reflexivity).
          destruct bp_case as [Eb|Eb]; [destruct (no_ends L Eb Hf _ Ht) as (? & ? & ? & F); discriminate|].
          destruct Huv as [<-|[]]. simpl. destruct (vof_edge i Eb Hi) as (e & He & U & V). exists e.
          split; [rewrite (ms_mg _ _ _ _ HS); apply in_app_iff; right; apply in_app_iff; left; assumption|].
          apply same_match_iff. auto.
      - rewrite <- endpoints_length. apply Permutation_length. assumption.
      - assert (Hk : 0 < k) by apply Hex.
        assert (Hsub : forall t, In t L -> k * total_weight mg (mitem t) <= icost t).
        { intros t Ht. pose proof (proj1 (Forall_forall _ _) Hf t Ht) as Hok.
          destruct t as [i j x|i x]; simpl in Hok |- *.
          - assert (Hi : In i odd) by (apply (Hin _ i Ht); left; reflexivity).
            assert (Hj : In j odd) by (apply (Hin _ j Ht); right; left; reflexivity).
            pose proof (pair_weight i j x Hok Hi Hj). destruct Hok as (_ & _ & Hij & _).
            unfold total_weight. destruct has_bound eqn:Hb; simpl; [|lia]. apply has_bound_true in Hb.
            rewrite (virt_weight (vof i) (vof j)); [lia| | |].
            + rewrite <- (vof_map Hb); apply in_map; assumption.
            + rewrite <- (vof_map Hb); apply in_map; assumption.
            + apply vof_inj; assumption.
          - assert (Hi : In i odd) by (apply (Hin _ i Ht); left; reflexivity).
            destruct bp_case as [Eb|Eb]; [destruct (no_ends L Eb Hf _ Ht) as (? & ? & ? & F); discriminate|].
            pose proof (end_weight i x Eb Hok Hi). unfold total_weight. simpl. lia. }
        clear - Hsub. induction L as [|t L IH]; [unfold total_weight, icosts; simpl; lia|].
        simpl flat_map. unfold total_weight in *. rewrite sumZ_app.
        pose proof (Hsub t (or_introl eq_refl)). unfold icosts in *. simpl.
        pose proof (IH (fun t Ht => Hsub t (or_intror Ht))). unfold sumZ in *. lia.
    Qed.

    (* minimum weight: the recovery set is no heavier than any set of qubits with the same syndrome *)
    Lemma decode_min_weight M s F : best_matching mg M -> qubits_to_flip E mg virt M = Ok s ->
      (forall q, In q F -> In q (concat stabs)) ->
      (forall i, (i < n)%nat -> xsum (fun q => pmem q (stab_of stabs i)) F = if in_dec Nat.eq_dec i odd then true else false) ->
      rb * sumZ (pt_wt w) s <= ra * sumZ w F.
    Proof.
      intros HB HQ HF Hsyn. destruct (chain_conf F HF) as (L & HC & HK & HPar).
      assert (HP : Permutation (eps L) odd).
      { apply NoDup_Permutation; [apply HC|assumption|]. intros i. split; intros Hi.
        - assert (Hin : (i < n)%nat).
          { unfold eps in Hi. apply in_flat_map in Hi. destruct Hi as (t & Ht & Hi). destruct HC as [_ Hf].
            pose proof (proj1 (Forall_forall _ _) Hf t Ht) as Hok. destruct t as [a b x|a x]; simpl in *.
            - destruct Hok as (Ha & Hb & _). destruct Hi as [<-|[<-|[]]]; assumption.
            - destruct Hok as (Ha & _). destruct Hi as [<-|[]]; assumption. }
          apply (pari_in _ i (proj1 HC)) in Hi. rewrite (HPar i Hin), (Hsyn i Hin) in Hi.
          destruct (in_dec Nat.eq_dec i odd); [assumption|discriminate].
        - apply (pari_in _ i (proj1 HC)). rewrite (HPar i (Hodd_n i Hi)), (Hsyn i (Hodd_n i Hi)).
          destruct (in_dec Nat.eq_dec i odd); [reflexivity|contradiction]. }
      destruct (conf_matching L HC HP) as (M' & HM' & Hlen & Hwt).
      pose proof (decode_weight M s HB HQ) as H1.
      destruct HB as (HM & Hmax & Hmin).
      assert (Hl : length M' = length M).
      { assert (H := Permutation_length (best_perfect M (conj HM (conj Hmax Hmin)))). rewrite endpoints_length in H. lia. }
      pose proof (Hmin M' HM' Hl) as Hle. assert (0 < k) by apply Hex. assert (Ha : 0 <= ra) by apply Hex.
      eapply Z.le_trans; [exact H1|]. apply Z.mul_le_mono_nonneg_l; [exact Ha|]. nia.
    Qed.
  End MG.
End Cx.

(* ---------- recovery ---------- *)
Lemma recovery_ok nodes qs : (forall x, In x qs -> exists q, x = Some q /\ In q nodes) ->
  forall bit, exists bit', recovery nodes qs bit = Ok bit' /\
    forall x, bit' x = xorb (bit x) (xsum (fun oq => match oq with Some q => peqb x q | None => false end) qs).
Proof.
  induction qs as [|oq qs IH]; intros H bit.
  - exists bit. split; [reflexivity|]. intros x. simpl. rewrite xorb_false_r. reflexivity.
  - destruct (H oq (or_introl eq_refl)) as (q & -> & Hq). unfold recovery. simpl.
    apply pmem_In in Hq. rewrite Hq. simpl.
    destruct (IH (fun x Hx => H x (or_intror Hx)) (fun x => if peqb x q then negb (bit x) else bit x)) as (bit' & E1 & X1).
    exists bit'. split; [exact E1|]. intros x. rewrite X1. simpl.
    destruct (peqb x q), (bit x), (xsum _ qs); reflexivity.
Qed.

Lemma xsum_mem x qs : NoDup qs ->
  xsum (fun oq => match oq with Some q => peqb x q | None => false end) qs = omem (Some x) qs.
Proof.
  induction qs as [|y qs IH]; intros Hn; [reflexivity|]. inversion Hn; subst. simpl. rewrite IH by assumption.
  unfold omem. destruct y as [q|].
  - destruct (peqb x q) eqn:E.
    + apply peqb_true in E. subst. destruct (in_dec opt_eq_dec (Some q) qs); [contradiction|].
      destruct (in_dec opt_eq_dec (Some q) (Some q :: qs)) as [|F]; [reflexivity|exfalso; apply F; left; reflexivity].
    + apply peqb_false in E. destruct (in_dec opt_eq_dec (Some x) qs), (in_dec opt_eq_dec (Some x) (Some q :: qs)) as [F|F]; try reflexivity.
      * exfalso; apply F; right; assumption.
      * destruct F; [congruence|contradiction].
  - destruct (in_dec opt_eq_dec (Some x) qs), (in_dec opt_eq_dec (Some x) (None :: qs)) as [F|F]; try reflexivity.
    + exfalso; apply F; right; assumption.
    + destruct F; [congruence|contradiction].
Qed.

(* parity of a stabilizer after flipping the qubits of a set *)
Lemma parity_flip st qs bit bit' : NoDup st -> NoDup qs ->
  (forall x, bit' x = xorb (bit x) (omem (Some x) qs)) ->
  stab_parity bit' st = xorb (stab_parity bit st) (xsum (fun oq => match oq with Some q => pmem q st | None => false end) qs).
Proof.
  intros Hst Hqs Hb. unfold stab_parity.
  rewrite (xsum_ext bit' (fun x => xorb (bit x) (omem (Some x) qs))) by (intros; apply Hb).
  rewrite xsum_xorb. f_equal.
  rewrite (xsum_ext (fun x => omem (Some x) qs) (fun x => xsum (fun oq => match oq with Some q => peqb x q | None => false end) qs))
    by (intros; symmetry; apply xsum_mem; assumption).
  rewrite xsum_swap. apply xsum_ext. intros oq _. destruct oq as [q|]; [|apply xsum_false].
  clear - Hst. induction st as [|y st IH]; [reflexivity|]. inversion Hst; subst. simpl. rewrite IH by assumption.
  unfold pmem. simpl. destruct (peqb y q) eqn:E1.
  - apply peqb_true in E1. subst. rewrite peqb_refl. simpl.
    assert (F : existsb (peqb q) st = false). { apply (pmem_false q st). assumption. }
    rewrite F. reflexivity.
  - apply peqb_false in E1. assert (F : peqb q y = false) by (apply peqb_false; congruence). rewrite F.
    simpl. destruct (existsb (peqb q) st); reflexivity.
Qed.
