(* CountDraws.v: counting vectors of equally likely draws. *)
From Coq Require Import Reals Lra.
From Verif Require Import Base.
Open Scope nat_scope.

(* all vectors of n numbers below M *)
Fixpoint all_draws (M n : nat) : list (list nat) :=
  match n with 0 => [[]] | S n' => flat_map (fun k => map (cons k) (all_draws M n')) (seq 0 M) end.
(* the number of members of l with property f *)
Definition count_if {A} (f : A -> bool) (l : list A) : nat := length (filter f l).
(* binomial coefficients *)
Fixpoint choose (n k : nat) : nat :=
  match n, k with _, 0 => 1 | 0, S _ => 0 | S n', S k' => choose n' k' + choose n' k end.
Fixpoint nsum {A} (f : A -> nat) (l : list A) : nat := match l with [] => 0 | x :: l' => f x + nsum f l' end.

Lemma in_all_draws M n v : In v (all_draws M n) <-> length v = n /\ Forall (fun k => k < M) v.
Proof.
  revert v. induction n as [|n IH]; intros v; cbn [all_draws].
  - split; [intros [<-|[]]; auto|]. intros [H _]. destruct v; [left; reflexivity|discriminate].
  - rewrite in_flat_map. split.
    + intros (k & Hk & Hv). apply in_seq in Hk. apply in_map_iff in Hv. destruct Hv as (w & <- & Hw). apply IH in Hw. destruct Hw as [H1 H2]. split; [cbn; lia|constructor; [lia|exact H2]].
    + intros [H1 H2]. destruct v as [|k w]; [discriminate|]. inversion H2; subst. exists k. split; [apply in_seq; lia|]. apply in_map. apply IH. split; [cbn in H1; lia|assumption].
Qed.
Lemma all_draws_NoDup M n : NoDup (all_draws M n).
Proof.
  induction n as [|n IH]; cbn [all_draws]; [constructor; [intros []|constructor]|].
  apply NoDup_flat_map; [apply seq_NoDup| |].
  - intros k _. apply NoDup_map_inj; [|exact IH]. intros x y _ _ H. congruence.
  - intros x y z _ _ H1 H2. apply in_map_iff in H1, H2. destruct H1 as (u & <- & _), H2 as (w & H2 & _). congruence.
Qed.

Lemma count_app {A} f (l m : list A) : count_if f (l ++ m) = count_if f l + count_if f m.
Proof. unfold count_if. rewrite filter_app, app_length. reflexivity. Qed.
Lemma count_map {A B} f (g : A -> B) l : count_if f (map g l) = count_if (fun x => f (g x)) l.
Proof. unfold count_if. induction l as [|x l IH]; [reflexivity|]. cbn. destruct (f (g x)); cbn; lia. Qed.
Lemma count_flat {A B} f (g : A -> list B) l : count_if f (flat_map g l) = nsum (fun x => count_if f (g x)) l.
Proof. induction l as [|x l IH]; [reflexivity|]. cbn [flat_map nsum]. rewrite count_app, IH. reflexivity. Qed.
Lemma count_ext {A} f g (l : list A) : (forall x, In x l -> f x = g x) -> count_if f l = count_if g l.
Proof. intros H. unfold count_if. rewrite (filter_ext_in f g l H). reflexivity. Qed.
Lemma count_le {A} f g (l : list A) : (forall x, In x l -> f x = true -> g x = true) -> count_if f l <= count_if g l.
Proof.
  unfold count_if. induction l as [|x l IH]; intros H; [apply le_n|]. cbn [filter]. specialize (IH (fun y Hy => H y (or_intror Hy))).
  pose proof (H x (or_introl eq_refl)) as Hx. destruct (f x); [rewrite (Hx eq_refl); cbn; lia|destruct (g x); cbn; lia].
Qed.
Lemma count_true {A} (l : list A) : count_if (fun _ => true) l = length l.
Proof. unfold count_if. induction l as [|x l IH]; [reflexivity|]. cbn. lia. Qed.
Lemma count_false {A} (l : list A) : count_if (fun _ => false) l = 0.
Proof. unfold count_if. induction l; auto. Qed.
Lemma nsum_ext {A} f g (l : list A) : (forall x, In x l -> f x = g x) -> nsum f l = nsum g l.
Proof. induction l as [|x l IH]; intros H; [reflexivity|]. cbn. rewrite (H x (or_introl eq_refl)), (IH (fun y Hy => H y (or_intror Hy))). reflexivity. Qed.
Lemma nsum_app {A} f (l m : list A) : nsum f (l ++ m) = nsum f l + nsum f m.
Proof. induction l as [|x l IH]; [reflexivity|]. cbn. rewrite IH. lia. Qed.
Lemma nsum_map {A B} f (g : A -> B) l : nsum f (map g l) = nsum (fun x => f (g x)) l.
Proof. induction l as [|x l IH]; [reflexivity|]. cbn. rewrite IH. reflexivity. Qed.
Lemma nsum_flat {A B} f (g : A -> list B) l : nsum f (flat_map g l) = nsum (fun x => nsum f (g x)) l.
Proof. induction l as [|x l IH]; [reflexivity|]. cbn [flat_map nsum]. rewrite nsum_app, IH. reflexivity. Qed.
Lemma nsum_plus {A} f g (l : list A) : nsum (fun x => f x + g x) l = nsum f l + nsum g l.
Proof. induction l as [|x l IH]; [reflexivity|]. cbn. rewrite IH. lia. Qed.
Lemma nsum_const {A} n (l : list A) : nsum (fun _ => n) l = length l * n.
Proof. induction l as [|x l IH]; [reflexivity|]. cbn. rewrite IH. reflexivity. Qed.
Lemma nsum_mul {A} f n (l : list A) : nsum (fun x => f x * n) l = nsum f l * n.
Proof. induction l as [|x l IH]; [reflexivity|]. cbn. rewrite IH. lia. Qed.
Lemma nsum_count {A} (f : A -> bool) (l : list A) : nsum (fun x => if f x then 1 else 0) l = count_if f l.
Proof. unfold count_if. induction l as [|x l IH]; [reflexivity|]. cbn. rewrite IH. destruct (f x); reflexivity. Qed.
Lemma nsum_two {A} (f : A -> bool) (x y : nat) (l : list A) : nsum (fun k => if f k then x else y) l = count_if f l * x + (length l - count_if f l) * y.
Proof.
  assert (H : forall l : list A, count_if f l <= length l) by (intros m; unfold count_if; induction m as [|z m IH]; cbn; [lia|destruct (f z); cbn; lia]).
  induction l as [|z l IH]; [reflexivity|]. cbn [nsum]. rewrite IH. specialize (H l).
  unfold count_if in *. cbn [filter]. destruct (f z); cbn [length]; [lia|]. replace (S (length l) - length (filter f l)) with (S (length l - length (filter f l))) by lia. lia.
Qed.

Lemma count_compl {A} (f : A -> bool) l : count_if (fun x => negb (f x)) l = length l - count_if f l.
Proof.
  assert (H : count_if (fun x => negb (f x)) l + count_if f l = length l); [|lia].
  unfold count_if. induction l as [|x l IH]; [reflexivity|]. cbn [filter]. destruct (f x); cbn [negb length]; lia.
Qed.

Lemma all_draws_len M n : length (all_draws M n) = M ^ n.
Proof. induction n as [|n IH]; [reflexivity|]. cbn [all_draws]. rewrite <- count_true, count_flat, (nsum_ext _ (fun _ => M ^ n)). - rewrite nsum_const, seq_length. cbn. reflexivity. - intros k _. rewrite count_map, count_true. exact IH. Qed.
Lemma all_draws_add M a b : all_draws M (a + b) = flat_map (fun u => map (app u) (all_draws M b)) (all_draws M a).
Proof.
  induction a as [|a IH]; cbn [all_draws Nat.add flat_map].
  - rewrite app_nil_r. symmetry. rewrite <- (map_id (all_draws M b)) at 2. apply map_ext. reflexivity.
  - rewrite IH. generalize (all_draws M b) as X. generalize (all_draws M a) as Y. clear. intros Y X. induction (seq 0 M) as [|k l IHl]; [reflexivity|]. cbn [flat_map]. rewrite flat_map_app, <- IHl. f_equal. clear.
    induction Y as [|y Y IH]; [reflexivity|]. cbn [flat_map map]. rewrite map_app, IH, map_map. reflexivity.
Qed.

Lemma choose_above n : forall k, n < k -> choose n k = 0.
Proof. induction n as [|n IH]; intros [|k] H; try lia; [reflexivity|]. cbn. rewrite !IH by lia. reflexivity. Qed.

(* ---------- how many draws hit a marked place ---------- *)
Section Hits.
  Variables (M : nat) (hit : nat -> bool).
  Notation a := (count_if hit (seq 0 M)).

  Fixpoint hits (marks : list bool) (v : list nat) : nat :=
    match marks, v with m :: marks', k :: v' => (if m && hit k then 1 else 0) + hits marks' v' | _, _ => 0 end.
  Notation size marks := (count_if (fun m : bool => m) marks).

  Lemma a_le : a <= M.
  Proof. unfold count_if. pose proof (seq_length M 0) as H. rewrite <- H at 2. generalize (seq 0 M) as l. clear. induction l as [|z m IH]; cbn; [lia|destruct (hit z); cbn; lia]. Qed.
  Lemma size_le marks : size marks <= length marks.
  Proof. unfold count_if. induction marks as [|z m IH]; cbn; [lia|destruct z; cbn; lia]. Qed.

  Lemma hits_le marks : forall v, hits marks v <= size marks.
  Proof. induction marks as [|m marks IH]; intros [|k v]; cbn [hits]; try lia. specialize (IH v). unfold count_if in *. cbn [filter]. destruct m, (hit k); cbn [andb length]; lia. Qed.

  Lemma hits_count marks : forall k,
    count_if (fun v => Nat.eqb (hits marks v) k) (all_draws M (length marks)) =
    choose (size marks) k * a ^ k * (M - a) ^ (size marks - k) * M ^ (length marks - size marks).
  Proof.
    induction marks as [|m marks IH]; intros k.
    - cbn. destruct k; cbn; reflexivity.
    - cbn [length all_draws]. rewrite count_flat.
      rewrite (nsum_ext _ (fun j => if m && hit j then (match k with 0 => 0 | S k' => count_if (fun v => Nat.eqb (hits marks v) k') (all_draws M (length marks)) end) else count_if (fun v => Nat.eqb (hits marks v) k) (all_draws M (length marks)))).
      2:{ intros j _. rewrite count_map. destruct (m && hit j) eqn:E.
          - destruct k as [|k]; [|apply count_ext; intros v _; cbn [hits]; rewrite E; reflexivity]. etransitivity; [|apply (count_false (all_draws M (length marks)))]. apply count_ext. intros v _. cbn [hits]. rewrite E. reflexivity.
          - apply count_ext. intros v _. cbn [hits]. rewrite E. reflexivity. }
      rewrite nsum_two, seq_length. pose proof (size_le marks) as Hs. destruct m; cbn [andb].
      + replace (size (true :: marks)) with (S (size marks)) by reflexivity. cbn [Nat.sub]. change (count_if (fun x => hit x) (seq 0 M)) with a. rewrite (IH k).
        set (A := a). set (m := size marks) in *. set (X := M ^ (length marks - m)). destruct k as [|k].
        * cbn [choose Nat.pow]. rewrite !Nat.sub_0_r. destruct m; cbn [choose Nat.pow]; lia.
        * rewrite (IH k). fold A m X. cbn [choose Nat.sub].
          destruct (Nat.lt_ge_cases k m) as [H|H].
          -- replace (m - k) with (S (m - S k)) by lia. cbn [Nat.pow]. lia.
          -- rewrite (choose_above m (S k)) by lia. cbn [Nat.pow]. lia.
      + rewrite count_false. replace (size (false :: marks)) with (size marks) by reflexivity. rewrite (IH k). rewrite Nat.sub_0_r, Nat.mul_0_l, Nat.add_0_l.
        replace (S (length marks) - size marks) with (S (length marks - size marks)) by lia. cbn [Nat.pow]. lia.
  Qed.

  (* a count split by the value of a bounded statistic *)
  Lemma count_split {A} (f : A -> nat) t m (l : list A) : (forall x, In x l -> f x <= m) ->
    count_if (fun x => Nat.leb t (f x)) l = nsum (fun k => count_if (fun x => Nat.eqb (f x) k) l) (seq t (S m - t)).
  Proof.
    intros H. induction l as [|x l IH].
    - rewrite (nsum_ext _ (fun _ => 0)) by reflexivity. rewrite nsum_const. cbn. lia.
    - rewrite (nsum_ext _ (fun k => (if Nat.eqb (f x) k then 1 else 0) + count_if (fun x => Nat.eqb (f x) k) l)).
      2:{ intros k _. unfold count_if. cbn [filter]. destruct (Nat.eqb (f x) k); reflexivity. }
      rewrite nsum_plus, <- (IH (fun y Hy => H y (or_intror Hy))). specialize (H x (or_introl eq_refl)).
      assert (G : nsum (fun k => if Nat.eqb (f x) k then 1 else 0) (seq t (S m - t)) = if Nat.leb t (f x) then 1 else 0).
      { remember (S m - t) as c eqn:Hc. assert (Hc' : f x < t + c \/ f x < t) by lia. clear Hc H IH. revert t Hc'. induction c as [|c IHc]; intros t Hc'.
        - cbn. destruct (Nat.leb_spec t (f x)); [lia|reflexivity].
        - cbn [seq nsum].
          rewrite IHc by lia. destruct (Nat.eqb_spec (f x) t), (Nat.leb_spec (S t) (f x)), (Nat.leb_spec t (f x)); lia. }
      rewrite G. unfold count_if. cbn [filter]. destruct (Nat.leb t (f x)); cbn [length]; lia.
  Qed.

  (* the tail of the binomial distribution *)
  Lemma hits_tail marks t :
    count_if (fun v => Nat.leb t (hits marks v)) (all_draws M (length marks)) =
    M ^ (length marks - size marks) * nsum (fun k => choose (size marks) k * a ^ k * (M - a) ^ (size marks - k)) (seq t (S (size marks) - t)).
  Proof.
    rewrite (count_split (hits marks) t (size marks)) by (intros v _; apply hits_le).
    rewrite (nsum_ext _ (fun k => choose (size marks) k * a ^ k * (M - a) ^ (size marks - k) * M ^ (length marks - size marks))) by (intros k _; apply hits_count).
    rewrite nsum_mul. lia.
  Qed.

  (* at least t hits: choose the places of t of them *)
  Lemma hits_union marks : forall t,
    count_if (fun v => Nat.leb t (hits marks v)) (all_draws M (length marks)) <= choose (size marks) t * a ^ t * M ^ (length marks - t).
  Proof.
    induction marks as [|m marks IH]; intros t.
    - cbn. destruct t; cbn; lia.
    - cbn [length all_draws]. rewrite count_flat.
      rewrite (nsum_ext _ (fun j => if m && hit j then (match t with 0 => count_if (fun _ => true) (all_draws M (length marks)) | S t' => count_if (fun v => Nat.leb t' (hits marks v)) (all_draws M (length marks)) end) else count_if (fun v => Nat.leb t (hits marks v)) (all_draws M (length marks)))).
      2:{ intros j _. rewrite count_map. destruct (m && hit j) eqn:E.
          - destruct t as [|t]; apply count_ext; intros v _; cbn [hits]; rewrite E; reflexivity.
          - apply count_ext. intros v _. cbn [hits]. rewrite E. reflexivity. }
      rewrite nsum_two, seq_length. pose proof (size_le marks) as Hs. pose proof a_le as Ha. destruct m; cbn [andb].
      + replace (size (true :: marks)) with (S (size marks)) by reflexivity. change (count_if (fun x => hit x) (seq 0 M)) with a. set (A := a) in *. pose proof (IH t) as It. destruct t as [|t].
        * rewrite count_true, all_draws_len. cbn [choose Nat.pow] in *. rewrite Nat.sub_0_r in *.
          assert (count_if (fun v => Nat.leb 0 (hits marks v)) (all_draws M (length marks)) = M ^ length marks) as -> by (rewrite <- (all_draws_len M (length marks)); rewrite <- (count_true (all_draws M (length marks))); apply count_ext; reflexivity).
          change (M ^ S (length marks)) with (M * M ^ length marks). replace (choose (S (size marks)) 0) with 1 by reflexivity. rewrite <- Nat.mul_add_distr_r. replace (A + (M - A)) with M by lia. lia.
        * pose proof (IH t) as It'. fold A in It, It'. cbn [choose Nat.sub]. set (m := size marks) in *. set (X := count_if (fun v => Nat.leb t (hits marks v)) (all_draws M (length marks))) in *.
          set (Y := count_if (fun v => Nat.leb (S t) (hits marks v)) (all_draws M (length marks))) in *. cbn [Nat.pow].
          assert (Y <= choose m (S t) * (A * A ^ t) * M ^ (length marks - S t)) by exact It. clear It.
          destruct (Nat.lt_ge_cases t m) as [Hl|Hl].
          -- replace (length marks - t) with (S (length marks - S t)) in * by lia. cbn [Nat.pow] in *. set (P := M ^ (length marks - S t)) in *. set (C1 := choose m t) in *. set (C2 := choose m (S t)) in *. set (Q := A ^ t) in *.
             assert (A * X <= A * (C1 * Q * (M * P))) by (apply Nat.mul_le_mono_l; exact It').
             assert ((M - A) * Y <= M * (C2 * (A * Q) * P)) by (apply Nat.mul_le_mono; [lia|exact H]). nia.
          -- rewrite (choose_above m (S t)) in * by lia. cbn [Nat.mul] in H. assert (Y = 0) as -> by lia. rewrite Nat.mul_0_r.
             assert (A * X <= A * (choose m t * A ^ t * M ^ (length marks - t))) by (apply Nat.mul_le_mono_l; exact It'). nia.
      + rewrite count_false. replace (size (false :: marks)) with (size marks) by reflexivity. rewrite Nat.sub_0_r, Nat.mul_0_l, Nat.add_0_l. specialize (IH t).
        destruct (Nat.le_gt_cases t (length marks)) as [Hl|Hl].
        * replace (S (length marks) - t) with (S (length marks - t)) by lia. cbn [Nat.pow]. nia.
        * rewrite (choose_above (size marks) t) in * by lia. cbn [Nat.mul] in *. nia.
  Qed.

  (* one given pattern *)
  Fixpoint pattern (es : list bool) (v : list nat) : bool :=
    match es, v with e :: es', k :: v' => Bool.eqb (hit k) e && pattern es' v' | [], [] => true | _, _ => false end.
  Lemma pattern_count es : count_if (pattern es) (all_draws M (length es)) = a ^ size es * (M - a) ^ (length es - size es).
  Proof.
    induction es as [|e es IH]; [reflexivity|]. cbn [length all_draws]. rewrite count_flat.
    rewrite (nsum_ext _ (fun j => if Bool.eqb (hit j) e then count_if (pattern es) (all_draws M (length es)) else 0)).
    2:{ intros j _. rewrite count_map. destruct (Bool.eqb (hit j) e) eqn:E.
        - apply count_ext. intros v _. cbn [pattern]. rewrite E. reflexivity.
        - etransitivity; [|apply (count_false (all_draws M (length es)))]. apply count_ext. intros v _. cbn [pattern]. rewrite E. reflexivity. }
    rewrite nsum_two, seq_length, IH. pose proof (size_le es) as Hs. destruct e.
    - replace (count_if (fun k => Bool.eqb (hit k) true) (seq 0 M)) with a by (apply count_ext; intros j _; destruct (hit j); reflexivity).
      replace (size (true :: es)) with (S (size es)) by reflexivity. cbn [Nat.sub Nat.pow]. lia.
    - assert (F : count_if (fun k => Bool.eqb (hit k) false) (seq 0 M) = M - a).
      { transitivity (length (seq 0 M) - a); [|rewrite seq_length; reflexivity]. rewrite <- count_compl. apply count_ext. intros j _. destruct (hit j); reflexivity. }
      rewrite F. replace (size (false :: es)) with (size es) by reflexivity. replace (S (length es) - size es) with (S (length es - size es)) by lia. cbn [Nat.pow]. lia.
  Qed.
End Hits.

(* ---------- exactly k hits among some places, none among others, the rest free ---------- *)
Section LineHits.
  Variables (M : nat) (hit : nat -> bool).
  Notation a := (count_if hit (seq 0 M)).
  (* Some true: a place whose hits are counted; Some false: a place that must not be hit; None: free *)
  Fixpoint line_hits (marks : list (option bool)) (k : nat) (v : list nat) : bool :=
    match marks, v with
    | [], _ => Nat.eqb k 0
    | _ :: _, [] => false
    | None :: ms, _ :: v' => line_hits ms k v'
    | Some false :: ms, x :: v' => negb (hit x) && line_hits ms k v'
    | Some true :: ms, x :: v' => if hit x then match k with 0 => false | S k' => line_hits ms k' v' end else line_hits ms k v'
    end.
  Definition is_line (o : option bool) : bool := match o with Some x => x | None => false end.
  Definition is_free (o : option bool) : bool := match o with Some _ => false | None => true end.
  Definition is_off (o : option bool) : bool := match o with Some x => negb x | None => false end.
  Lemma line_hits_count marks : forall k,
    count_if (line_hits marks k) (all_draws M (length marks)) =
    choose (count_if is_line marks) k * a ^ k * (M - a) ^ (count_if is_line marks - k) * (M - a) ^ (count_if is_off marks) * M ^ (count_if is_free marks).
  Proof.
    induction marks as [|m marks IH]; intros k.
    - destruct k; reflexivity.
    - cbn [length all_draws]. rewrite count_flat. destruct m as [[|]|].
      + rewrite (nsum_ext _ (fun j => if hit j then (match k with 0 => 0 | S k' => count_if (line_hits marks k') (all_draws M (length marks)) end) else count_if (line_hits marks k) (all_draws M (length marks)))).
        2:{ intros j _. rewrite count_map. destruct (hit j) eqn:E.
            - destruct k as [|k]; [|apply count_ext; intros v _; cbn [line_hits]; rewrite E; reflexivity]. etransitivity; [|apply (count_false (all_draws M (length marks)))]. apply count_ext. intros v _. cbn [line_hits]. rewrite E. reflexivity.
            - apply count_ext. intros v _. cbn [line_hits]. rewrite E. reflexivity. }
        rewrite nsum_two, seq_length. change (count_if (fun x => hit x) (seq 0 M)) with a. rewrite (IH k).
        change (count_if is_line (Some true :: marks)) with (S (count_if is_line marks)). change (count_if is_off (Some true :: marks)) with (count_if is_off marks). change (count_if is_free (Some true :: marks)) with (count_if is_free marks).
        set (A := a). set (m := count_if is_line marks) in *. set (X := (M - A) ^ count_if is_off marks). set (Y := M ^ count_if is_free marks). destruct k as [|k].
        * cbn [Nat.pow]. rewrite !Nat.sub_0_r. replace (choose m 0) with 1 by (destruct m; reflexivity). cbn [choose Nat.pow]. lia.
        * rewrite (IH k). fold A m X Y. cbn [choose Nat.sub].
          destruct (Nat.lt_ge_cases k m) as [H|H].
          -- replace (m - k) with (S (m - S k)) by lia. cbn [Nat.pow]. lia.
          -- rewrite (choose_above m (S k)) by lia. cbn [Nat.pow]. lia.
      + rewrite (nsum_ext _ (fun j => if hit j then 0 else count_if (line_hits marks k) (all_draws M (length marks)))).
        2:{ intros j _. rewrite count_map. destruct (hit j) eqn:E.
            - etransitivity; [|apply (count_false (all_draws M (length marks)))]. apply count_ext. intros v _. cbn [line_hits]. rewrite E. reflexivity.
            - apply count_ext. intros v _. cbn [line_hits]. rewrite E. reflexivity. }
        rewrite nsum_two, seq_length. change (count_if (fun x => hit x) (seq 0 M)) with a. rewrite (IH k).
        change (count_if is_line (Some false :: marks)) with (count_if is_line marks). change (count_if is_off (Some false :: marks)) with (S (count_if is_off marks)). change (count_if is_free (Some false :: marks)) with (count_if is_free marks).
        cbn [Nat.pow]. lia.
      + rewrite (nsum_ext _ (fun j => count_if (line_hits marks k) (all_draws M (length marks)))) by (intros j _; rewrite count_map; reflexivity).
        rewrite nsum_const, seq_length, (IH k).
        change (count_if is_line (None :: marks)) with (count_if is_line marks). change (count_if is_off (None :: marks)) with (count_if is_off marks). change (count_if is_free (None :: marks)) with (S (count_if is_free marks)).
        cbn [Nat.pow]. lia.
  Qed.
End LineHits.

(* a one-to-one change of the draws does not change counts *)
Lemma count_involution M n (T : list nat -> list nat) f : (forall v, In v (all_draws M n) -> In (T v) (all_draws M n) /\ T (T v) = v) ->
  count_if (fun v => f (T v)) (all_draws M n) = count_if f (all_draws M n).
Proof.
  intros H. rewrite <- (count_map f T). unfold count_if. apply Permutation_length. apply NoDup_Permutation.
  - apply NoDup_filter. apply NoDup_map_inj; [|apply all_draws_NoDup]. intros x y Hx Hy E. destruct (H x Hx) as [_ <-]. destruct (H y Hy) as [_ <-]. rewrite E. reflexivity.
  - apply NoDup_filter, all_draws_NoDup.
  - intros x. rewrite !filter_In. rewrite in_map_iff. split.
    + intros [(y & <- & Hy) Hf]. split; [apply H, Hy|exact Hf].
    + intros [Hx Hf]. split; [|exact Hf]. exists (T x). destruct (H x Hx) as [H1 H2]. auto.
Qed.
