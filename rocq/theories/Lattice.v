(* Lattice.v: integer points, axes and boundary kinds used by surface_code.py. *)
From Verif Require Import Base.
Open Scope Z_scope.

(* Coordinate tuples of the lattice (surface_code.py 178-188: three-tuples of ints). *)
Definition point := (Z * Z * Z)%type.

(* Tuple positions 0, 1, 2. *)
Inductive axis := AX | AY | AZ.
Definition axes : list axis := [AX; AY; AZ].

Definition get {A} (a : axis) (t : A * A * A) : A :=
  let '(x, y, z) := t in match a with AX => x | AY => y | AZ => z end.

(* point[a] *)
Definition co (a : axis) (p : point) : Z := get a p.

(* l = list(p); l[a] = v; tuple(l) *)
Definition setco (a : axis) (v : Z) (p : point) : point :=
  let '(x, y, z) := p in
  match a with AX => (v, y, z) | AY => (x, v, z) | AZ => (x, y, v) end.

Definition axis_eq_dec (a b : axis) : {a = b} + {a <> b}.
Proof. decide equality. Defined.

Definition point_eq_dec (p q : point) : {p = q} + {p <> q}.
Proof. repeat decide equality. Defined.

Definition peqb (p q : point) : bool := if point_eq_dec p q then true else false.

Lemma peqb_true p q : peqb p q = true <-> p = q.
Proof. unfold peqb; destruct (point_eq_dec p q); split; congruence. Qed.

Lemma peqb_refl p : peqb p p = true.
Proof. apply peqb_true; reflexivity. Qed.

Lemma peqb_false p q : peqb p q = false <-> p <> q.
Proof. unfold peqb; destruct (point_eq_dec p q); split; congruence. Qed.

(* p in l, for a list (or set) of points *)
Definition pmem (p : point) (l : list point) : bool := existsb (peqb p) l.

Lemma pmem_In p l : pmem p l = true <-> In p l.
Proof.
  unfold pmem. rewrite existsb_exists. split.
  - intros [x [Hx He]]. apply peqb_true in He. subst; assumption.
  - intros H. exists p. split; auto. apply peqb_refl.
Qed.

Lemma pmem_false p l : pmem p l = false <-> ~ In p l.
Proof. rewrite <- pmem_In. destruct (pmem p l); split; congruence. Qed.

(* Boundary kinds 'primal', 'dual', 'periodic'. *)
Inductive bnd := BPrimal | BDual | BPeriodic.
Definition bnd_eq_dec (a b : bnd) : {a = b} + {a <> b}.
Proof. decide equality. Defined.
Definition bnd_eqb (a b : bnd) : bool :=
  match a, b with
  | BPrimal, BPrimal | BDual, BDual | BPeriodic, BPeriodic => true
  | _, _ => false
  end.

Definition bnds := (bnd * bnd * bnd)%type.
Definition dims := (Z * Z * Z)%type.

Lemma co_setco_same a v p : co a (setco a v p) = v.
Proof. destruct p as [[x y] z], a; reflexivity. Qed.

Lemma co_setco_other a b v p : a <> b -> co b (setco a v p) = co b p.
Proof. destruct p as [[x y] z], a, b; simpl; congruence. Qed.

Lemma point_ext p q : (forall a, co a p = co a q) -> p = q.
Proof.
  destruct p as [[x y] z], q as [[x' y'] z']. intros H.
  pose proof (H AX); pose proof (H AY); pose proof (H AZ); simpl in *; congruence.
Qed.

Lemma axes_all a : In a axes.
Proof. destruct a; simpl; auto. Qed.
