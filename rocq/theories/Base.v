(* Base.v: small library shared by all models.
   Nothing here models flamingpy code; it models the Python substrate:
   exceptions as values, range(), xor-sums over lists. *)
From Coq Require Export ZArith List Bool Lia Permutation.
From Coq Require Export ZifyBool ZifyNat.
Export ListNotations.
Ltac Zify.zify_post_hook ::= Z.div_mod_to_equations.
Global Arguments Z.mul : simpl never.
Global Arguments Z.add : simpl never.
Global Arguments Z.sub : simpl never.
Global Arguments Z.modulo : simpl never.
Global Arguments Z.div : simpl never.

(* Python exceptions as values. *)
Inductive exn :=
  | ValueError | TypeError | KeyError | IndexError | AttributeError
  | NetworkXError | UnboundLocalError | PlainException | OverflowError | ZeroDivisionError
  | RecursionError | FileExistsError | NoEdgeError
  | OutOfFuel (* model only: a bound on the number of loop iterations was exceeded *).

Inductive res (A : Type) := Ok (a : A) | Err (e : exn).
Arguments Ok {A} a.
Arguments Err {A} e.

Definition bind {A B} (r : res A) (f : A -> res B) : res B :=
  match r with Ok a => f a | Err e => Err e end.

(* Python range(lo, hi) *)
Definition py_range (lo hi : Z) : list Z :=
  map (fun k => (lo + Z.of_nat k)%Z) (seq 0 (Z.to_nat (hi - lo))).

Lemma in_py_range lo hi x : In x (py_range lo hi) <-> (lo <= x < hi)%Z.
Proof.
  unfold py_range. rewrite in_map_iff. split.
  - intros [k [Hk Hin]]. apply in_seq in Hin. lia.
  - intros H. exists (Z.to_nat (x - lo)). split; [lia|]. apply in_seq. lia.
Qed.

Lemma NoDup_py_range lo hi : NoDup (py_range lo hi).
Proof.
  unfold py_range. apply FinFun.Injective_map_NoDup; [|apply seq_NoDup].
  intros a b H. lia.
Qed.

Lemma length_py_range lo hi : length (py_range lo hi) = Z.to_nat (hi - lo).
Proof. unfold py_range. rewrite map_length, seq_length. reflexivity. Qed.

(* vs enumerates the set of elements of l: what iterating over set(l) yields,
   in some order that the program does not control. *)
Definition set_enum {A} (l vs : list A) : Prop :=
  NoDup vs /\ forall v, In v vs <-> In v l.

Lemma set_enum_nodup {A} (dec : forall x y : A, {x = y} + {x <> y}) l : set_enum l (nodup dec l).
Proof. split; [apply NoDup_nodup|]. intros v. apply nodup_In. Qed.

(* Parity of the number of elements satisfying f. *)
Fixpoint xsum {A} (f : A -> bool) (l : list A) : bool :=
  match l with
  | [] => false
  | x :: l' => xorb (f x) (xsum f l')
  end.

Section XSum.
  Context {A : Type}.
  Implicit Types (f g : A -> bool) (l : list A).

  Lemma xsum_app f l1 l2 : xsum f (l1 ++ l2) = xorb (xsum f l1) (xsum f l2).
  Proof.
    induction l1 as [|x l1 IH]; simpl; [destruct (xsum f l2); reflexivity|].
    rewrite IH. destruct (f x), (xsum f l1), (xsum f l2); reflexivity.
  Qed.

  Lemma xsum_ext f g l : (forall x, In x l -> f x = g x) -> xsum f l = xsum g l.
  Proof.
    induction l as [|x l IH]; simpl; intros H; [reflexivity|].
    rewrite H by auto. rewrite IH; auto.
  Qed.

  Lemma xsum_perm f l1 l2 : Permutation l1 l2 -> xsum f l1 = xsum f l2.
  Proof.
    induction 1; simpl; auto.
    - rewrite IHPermutation; reflexivity.
    - destruct (f x), (f y), (xsum f l); reflexivity.
    - congruence.
  Qed.

  Lemma xsum_xorb f g l : xsum (fun x => xorb (f x) (g x)) l = xorb (xsum f l) (xsum g l).
  Proof.
    induction l as [|x l IH]; simpl; [reflexivity|].
    rewrite IH. destruct (f x), (g x), (xsum f l), (xsum g l); reflexivity.
  Qed.

  Lemma xsum_false l : xsum (fun _ : A => false) l = false.
  Proof. induction l as [|x l IH]; simpl; [reflexivity|]. rewrite IH; reflexivity. Qed.

  Lemma xsum_all_false f l : (forall x, In x l -> f x = false) -> xsum f l = false.
  Proof. intros H. rewrite (xsum_ext f (fun _ => false)); auto using xsum_false. Qed.

  Lemma xsum_filter f g l : xsum f (filter g l) = xsum (fun x => g x && f x) l.
  Proof.
    induction l as [|x l IH]; simpl; [reflexivity|].
    destruct (g x); simpl; rewrite IH; destruct (f x), (xsum _ l); reflexivity.
  Qed.

  Lemma xsum_odd f l : xsum f l = Nat.odd (length (filter f l)).
  Proof.
    induction l as [|x l IH]; simpl; [reflexivity|].
    destruct (f x); cbn [length]; rewrite IH.
    - rewrite Nat.odd_succ, <- Nat.negb_odd. destruct (Nat.odd _); reflexivity.
    - destruct (Nat.odd _); reflexivity.
  Qed.

  Lemma xsum_andb_l (b : bool) f l : xsum (fun x => b && f x) l = b && xsum f l.
  Proof. destruct b; simpl; [reflexivity| apply xsum_false]. Qed.
End XSum.

Lemma xsum_map {A B} (h : A -> B) (f : B -> bool) l :
  xsum f (map h l) = xsum (fun x => f (h x)) l.
Proof. induction l as [|x l IH]; simpl; [reflexivity|]; rewrite IH; reflexivity. Qed.

Lemma xsum_flat_map {A B} (h : A -> list B) (f : B -> bool) l :
  xsum f (flat_map h l) = xsum (fun x => xsum f (h x)) l.
Proof.
  induction l as [|x l IH]; simpl; [reflexivity|]. rewrite xsum_app, IH. reflexivity.
Qed.

(* Exchanging the order of summation. *)
Lemma xsum_swap {A B} (F : A -> B -> bool) (l : list A) (m : list B) :
  xsum (fun x => xsum (fun y => F x y) m) l = xsum (fun y => xsum (fun x => F x y) l) m.
Proof.
  induction l as [|x l IH]; simpl.
  - symmetry; apply xsum_false.
  - rewrite IH. rewrite <- xsum_xorb. reflexivity.
Qed.

(* A subset given as a NoDup list, summed through its indicator on a larger NoDup list. *)
Lemma xsum_indicator {A} (dec : forall x y : A, {x = y} + {x <> y}) (f : A -> bool) (s u : list A) :
  NoDup s -> NoDup u -> incl s u ->
  xsum f s = xsum (fun x => (if in_dec dec x s then true else false) && f x) u.
Proof.
  intros Hs Hu Hi.
  rewrite <- xsum_filter. apply xsum_perm. apply NoDup_Permutation; auto.
  - apply NoDup_filter; assumption.
  - intros x. rewrite filter_In. destruct (in_dec dec x s); split; intros; intuition; discriminate.
Qed.

Lemma NoDup_same_length {A} (l1 l2 : list A) :
  NoDup l1 -> NoDup l2 -> (forall x, In x l1 <-> In x l2) -> length l1 = length l2.
Proof. intros. apply Permutation_length. apply NoDup_Permutation; auto. Qed.

Lemma NoDup_app_intro {A} (l1 l2 : list A) :
  NoDup l1 -> NoDup l2 -> (forall x, In x l1 -> ~ In x l2) -> NoDup (l1 ++ l2).
Proof.
  induction l1 as [|b l1 IH1]; simpl; intros N1 N2 Hdis; [assumption|].
  inversion N1; subst. constructor.
  - rewrite in_app_iff. intros [?|?]; [auto|]. eapply Hdis; eauto.
  - apply IH1; auto.
Qed.

Lemma NoDup_flat_map {A B} (h : A -> list B) l :
  NoDup l ->
  (forall x, In x l -> NoDup (h x)) ->
  (forall x y b, In x l -> In y l -> In b (h x) -> In b (h y) -> x = y) ->
  NoDup (flat_map h l).
Proof.
  induction l as [|x l IH]; simpl; intros Hn Hh Hd; [constructor|].
  inversion Hn; subst.
  apply NoDup_app_intro.
  - apply Hh; auto.
  - apply IH; auto. intros; eapply Hd; eauto.
  - intros b Hb Hb'. apply in_flat_map in Hb'. destruct Hb' as [y [Hy Hby]].
    assert (x = y) by (eapply Hd; eauto). subst. contradiction.
Qed.

Lemma NoDup_map_inj {A B} (f : A -> B) l :
  (forall x y, In x l -> In y l -> f x = f y -> x = y) -> NoDup l -> NoDup (map f l).
Proof.
  induction l as [|x l IH]; simpl; intros Hi Hn; constructor; inversion Hn; subst.
  - rewrite in_map_iff. intros [y [Hy Hin]]. assert (y = x) by (apply Hi; auto). subst. contradiction.
  - apply IH; auto.
Qed.
