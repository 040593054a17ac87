(* Paths.v: paths as lists of nodes. *)
From Verif Require Import Base.
From Coq Require Import Relations.

Fixpoint chain {A} (R : A -> A -> Prop) (l : list A) : Prop :=
  match l with
  | x :: l' => match l' with y :: _ => R x y /\ chain R l' | [] => True end
  | [] => True
  end.

(* p is a path from u to v *)
Definition is_path {A} (R : A -> A -> Prop) (u v : A) (p : list A) : Prop :=
  chain R p /\ hd_error p = Some u /\ last p u = v.

Section P.
  Context {A : Type} (R : A -> A -> Prop).

  Lemma is_path_one u : is_path R u u [u].
  Proof. repeat split. Qed.

  Lemma last_cons_default (l : list A) : forall x d d', last (x :: l) d = last (x :: l) d'.
  Proof. induction l as [|y l IH]; intros; [reflexivity|]. change (last (y :: l) d = last (y :: l) d'). apply IH. Qed.

  Lemma is_path_cons u x v p : R u x -> is_path R x v p -> is_path R u v (u :: p).
  Proof.
    intros HR (Hc & Hh & Hl). destruct p as [|y p]; [discriminate|]. injection Hh as ->.
    split; [split; assumption|]. split; [reflexivity|].
    change (last (x :: p) u = v). rewrite <- Hl. apply last_cons_default.
  Qed.

  Lemma is_path_inv u v p : is_path R u v p ->
    (p = [u] /\ u = v) \/ exists x p', p = u :: p' /\ R u x /\ is_path R x v p'.
  Proof.
    intros (Hc & Hh & Hl). destruct p as [|y p]; [discriminate|]. injection Hh as ->.
    destruct p as [|x p]; [left; auto|]. right. exists x, (x :: p). destruct Hc as [H1 H2].
    split; [reflexivity|]. split; [assumption|]. split; [assumption|]. split; [reflexivity|].
    rewrite <- Hl. change (last (x :: p) x = last (x :: p) u). apply last_cons_default.
  Qed.

  Inductive ipath : A -> A -> list A -> Prop :=
    | ip_one u : ipath u u [u]
    | ip_cons u x v p : R u x -> is_path R x v p -> ipath x v p -> ipath u v (u :: p).

  Lemma is_path_ind' (P : A -> A -> list A -> Prop) :
    (forall u, P u u [u]) ->
    (forall u x v p, R u x -> is_path R x v p -> P x v p -> P u v (u :: p)) ->
    forall u v p, is_path R u v p -> P u v p.
  Proof.
    intros H1 H2 u v p. revert u. induction p as [|y p IH]; intros u Hp; [destruct Hp as (_ & ? & _); discriminate|].
    destruct (is_path_inv _ _ _ Hp) as [[E <-]|(x & p' & E & HR & Hp')].
    - rewrite E. apply H1.
    - injection E as -> <-. eapply H2; eauto.
  Qed.

  Lemma ipath_of u v p : is_path R u v p -> ipath u v p.
  Proof. revert u v p. apply is_path_ind'; [constructor|]. intros; econstructor; eauto. Qed.

  Lemma rt_path u v : clos_refl_trans_1n A R u v -> exists p, is_path R u v p.
  Proof.
    induction 1 as [w|w x y HR _ [p Hp]]; [exists [w]; apply is_path_one|].
    exists (w :: p). eapply is_path_cons; eauto.
  Qed.

  Lemma path_rt u v p : is_path R u v p -> clos_refl_trans_1n A R u v.
  Proof. intros H. apply ipath_of in H; induction H; [constructor|]. econstructor; eauto. Qed.

  Lemma is_path_app u x v p q : is_path R u x p -> is_path R x v (x :: q) -> is_path R u v (p ++ q).
  Proof.
    intros H. revert q. apply ipath_of in H; induction H; intros q Hq; [assumption|].
    simpl. eapply is_path_cons; [eassumption|]. apply IHipath. assumption.
  Qed.

  Lemma is_path_snoc u x v p : is_path R u x p -> R x v -> is_path R u v (p ++ [v]).
  Proof.
    intros H HR. apply (is_path_app u x v p [v] H). apply (is_path_cons x v v [v] HR). apply is_path_one.
  Qed.

  Lemma is_path_in_first u v p : is_path R u v p -> In u p.
  Proof. intros (_ & Hh & _). destruct p; [discriminate|]. injection Hh as ->. left; reflexivity. Qed.

  Lemma is_path_in_last u v p : is_path R u v p -> In v p.
  Proof. intros H. apply ipath_of in H; induction H; [left; reflexivity|right; assumption]. Qed.

  (* cut a path at an intermediate node *)
  Lemma is_path_split u v p x : is_path R u v p -> In x p ->
    exists p1 p2, p = p1 ++ p2 /\ is_path R u x (p1 ++ [x]) /\ is_path R x v p2.
  Proof.
    intros H. apply ipath_of in H; induction H as [u|u y v p HR Hp H IH]; intros Hx.
    - destruct Hx as [<-|[]]. exists [], [u]. repeat split.
    - destruct Hx as [<-|Hx].
      + exists [], (u :: p). split; [reflexivity|]. split; [apply is_path_one|]. eapply is_path_cons; eauto.
      + destruct (IH Hx) as (p1 & p2 & -> & H1 & H2). exists (u :: p1), p2. split; [reflexivity|].
        split; [|assumption]. simpl. eapply is_path_cons; eauto.
  Qed.
End P.

Lemma is_path_impl {A} (R R' : A -> A -> Prop) u v p :
  is_path R u v p -> (forall x y, In x p -> In y p -> R x y -> R' x y) -> is_path R' u v p.
Proof.
  intros H. apply ipath_of in H; induction H as [u|u y v p HR Hp H IH]; intros Hi; [apply is_path_one|].
  apply (is_path_cons R' u y).
  - apply Hi; [left; reflexivity|right; apply (is_path_in_first R y v); assumption|assumption].
  - apply IH. intros; apply Hi; auto; right; assumption.
Qed.

Lemma is_path_rev {A} (R : A -> A -> Prop) u v p : (forall x y, R x y -> R y x) ->
  is_path R u v p -> is_path R v u (rev p).
Proof.
  intros Hs H. apply ipath_of in H; induction H as [u|u y v p HR Hp H IH]; [apply is_path_one|].
  simpl. eapply is_path_snoc; eauto.
Qed.

Lemma is_path_map {A B} (f : A -> B) (R : A -> A -> Prop) (R' : B -> B -> Prop) u v p :
  (forall x y, R x y -> R' (f x) (f y)) -> is_path R u v p -> is_path R' (f u) (f v) (map f p).
Proof.
  intros Hf H. apply ipath_of in H; induction H; [apply is_path_one|].
  simpl. eapply is_path_cons; eauto.
Qed.
