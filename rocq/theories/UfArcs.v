(* UfArcs.v: intervals of integers, read modulo M (M = 0: not at all), attached to the classes
   of a partition.  Joining two classes whose intervals meet gives a class with an interval
   that covers both and is not longer than both together. *)
From Coq Require Import Relations Znumtheory.
From Verif Require Import Base Lattice RhgModel SurfaceModel StabGraphModel MwpmModel UfModel UfTrees UfSpec PropsUfTrees.
Open Scope Z_scope.

Definition zsum {A} (f : A -> Z) (l : list A) : Z := fold_right (fun x s => f x + s) 0 l.
Lemma zsum_ext {A} (f g : A -> Z) l : (forall x, In x l -> f x = g x) -> zsum f l = zsum g l.
Proof. induction l as [|x l IH]; intros H; simpl; [reflexivity|]. rewrite (H x), IH; auto; [intros; apply H; right; assumption|left; reflexivity]. Qed.
Lemma zsum_le {A} (f g : A -> Z) l : (forall x, In x l -> f x <= g x) -> zsum f l <= zsum g l.
Proof.
  induction l as [|x l IH]; intros H; simpl; [lia|]. pose proof (H x (or_introl eq_refl)).
  assert (zsum f l <= zsum g l) by (apply IH; intros; apply H; right; assumption). lia.
Qed.
Lemma zsum_plus {A} (f g : A -> Z) l : zsum (fun x => f x + g x) l = zsum f l + zsum g l.
Proof. induction l as [|x l IH]; simpl; lia. Qed.
Lemma zsum_scale {A} (f : A -> Z) k l : zsum (fun x => k * f x) l = k * zsum f l.
Proof. induction l as [|x l IH]; simpl; lia. Qed.
Lemma zsum_nonneg {A} (f : A -> Z) l : (forall x, In x l -> 0 <= f x) -> 0 <= zsum f l.
Proof. intros H. induction l as [|x l IH]; simpl; [lia|]. pose proof (H x (or_introl eq_refl)). assert (0 <= zsum f l) by (apply IH; intros; apply H; right; assumption). lia. Qed.
Lemma zsum_const {A} (l : list A) : zsum (fun _ => 1) l = Z.of_nat (length l).
Proof. induction l as [|x l IH]; [reflexivity|]. cbn [zsum fold_right length]. fold (zsum (fun _ : A => 1) l). lia. Qed.
Lemma zsum_remove (f : snode -> Z) l x : NoDup l -> In x l -> zsum f l = f x + zsum f (remove snode_eq_dec x l).
Proof.
  induction l as [|y l IH]; intros Hn Hx; [destruct Hx|]. apply NoDup_cons_iff in Hn. destruct Hn as [Hy Hn]. simpl.
  destruct (snode_eq_dec x y) as [->|Hne].
  - rewrite notin_remove by assumption. reflexivity.
  - destruct Hx as [->|Hx]; [congruence|]. simpl. rewrite (IH Hn Hx). lia.
Qed.
Lemma zsum_perm {A} (f : A -> Z) l m : Permutation l m -> zsum f l = zsum f m.
Proof. induction 1; simpl; lia. Qed.
Lemma zsum_map {A B} (h : A -> B) (f : B -> Z) l : zsum f (map h l) = zsum (fun x => f (h x)) l.
Proof. induction l as [|x l IH]; simpl; [reflexivity|]. rewrite IH. reflexivity. Qed.
(* a sum over fewer elements *)
Lemma zsum_incl (f : snode -> Z) l m : NoDup l -> NoDup m -> incl l m -> (forall x, In x m -> 0 <= f x) -> zsum f l <= zsum f m.
Proof.
  revert m. induction l as [|x l IH]; intros m Hl Hm Hi Hf; simpl; [apply zsum_nonneg; assumption|].
  apply NoDup_cons_iff in Hl. destruct Hl as [Hx Hl].
  rewrite (zsum_remove f m x Hm) by (apply Hi; left; reflexivity).
  assert (zsum f l <= zsum f (remove snode_eq_dec x m)); [|lia]. apply IH; [assumption|apply NoDup_remove_elt; assumption| |].
  - intros y Hy. apply in_in_remove; [congruence|apply Hi; right; assumption].
  - intros y Hy. apply in_remove in Hy. apply Hf. tauto.
Qed.

Section Arcs.
  Variable M : Z.
  Definition arc : Type := Z * Z.
  Definition len (A : arc) : Z := snd A - fst A.
  Definition sub (A B : arc) : Prop := exists t, (M | t) /\ fst B <= fst A + t /\ snd A + t <= snd B.
  (* the position x lies on the arc *)
  Definition on (A : arc) (x : Z) : Prop := exists m, (M | x - m) /\ fst A <= m <= snd A.
  (* the segment from x to x + d lies on the arc *)
  Definition half (A : arc) (x d : Z) : Prop := exists m, (M | x - m) /\ fst A <= m <= snd A /\ fst A <= m + d <= snd A.

  Lemma sub_refl A : sub A A.
  Proof. exists 0. split; [apply Z.divide_0_r|lia]. Qed.
  Lemma sub_trans A B C : sub A B -> sub B C -> sub A C.
  Proof. intros (t & H1 & H2 & H3) (u & H4 & H5 & H6). exists (t + u). split; [apply Z.divide_add_r; assumption|lia]. Qed.
  Lemma sub_on A B x : sub A B -> on A x -> on B x.
  Proof.
    intros (t & H1 & H2 & H3) (m & H4 & H5). exists (m + t). split; [|lia].
    replace (x - (m + t)) with ((x - m) - t) by lia. apply Z.divide_sub_r; assumption.
  Qed.
  Lemma sub_half A B x d : sub A B -> half A x d -> half B x d.
  Proof.
    intros (t & H1 & H2 & H3) (m & H4 & H5 & H6). exists (m + t). split; [|lia].
    replace (x - (m + t)) with ((x - m) - t) by lia. apply Z.divide_sub_r; assumption.
  Qed.
  Lemma sub_wider (A B : arc) : fst B <= fst A -> snd A <= snd B -> sub A B.
  Proof. intros. exists 0. split; [apply Z.divide_0_r|lia]. Qed.
  Lemma half_on A x d : half A x d -> on A x.
  Proof. intros (m & H1 & H2 & _). exists m. auto. Qed.

  Record classes (N : list snode) (R : snode -> snode -> Prop) (lb : snode -> snode) (A : snode -> arc) (L : list snode) : Prop := {
    cl_nd : NoDup L;
    cl_in : forall x, In x N -> In (lb x) L;
    cl_ne : forall c, In c L -> fst (A c) <= snd (A c);
    cl_R : forall x y, R x y -> In x N /\ In y N;
    cl_eq : forall x y, In x N -> In y N -> (lb x = lb y <-> clos_refl_sym_trans _ R x y)
  }.
  Definition total (A : snode -> arc) (L : list snode) : Z := zsum (fun c => len (A c)) L.

  Lemma join N R lb A L a b z : classes N R lb A L -> In a N -> In b N -> on (A (lb a)) z -> on (A (lb b)) z ->
    exists lb' A' L', classes N (fun p q => R p q \/ (p = a /\ q = b)) lb' A' L' /\ total A' L' <= total A L /\
      forall x, In x N -> sub (A (lb x)) (A' (lb' x)).
  Proof.
    intros [Hnd Hin Hne HR Heq] Ha Hb (m1 & D1 & I1) (m2 & D2 & I2).
    assert (HR' : forall x y, R x y \/ (x = a /\ y = b) -> In x N /\ In y N) by (intros x y [H|[-> ->]]; auto).
    destruct (snode_eq_dec (lb a) (lb b)) as [Eab|Eab].
    - exists lb, A, L. split; [|split; [lia|intros; apply sub_refl]]. constructor; auto.
      intros x y Hx Hy. rewrite Heq by assumption. split; [apply rst_mono; auto|].
      intros H. apply Heq; auto. clear Hx Hy. induction H as [p q [H|[-> ->]]|p|p q _ IH|p q r0 _ IH1 _ IH2]; [|assumption|reflexivity|congruence|congruence].
      destruct (HR _ _ H). apply Heq; auto. apply rst_step; assumption.
    - set (t := m1 - m2).
      assert (Dt : (M | t)) by (unfold t; replace (m1 - m2) with ((z - m2) - (z - m1)) by lia; apply Z.divide_sub_r; assumption).
      set (h := (Z.min (fst (A (lb a))) (fst (A (lb b)) + t), Z.max (snd (A (lb a))) (snd (A (lb b)) + t))).
      exists (merge lb (lb b) (lb a)), (supd A (lb a) h), (remove snode_eq_dec (lb b) L). split; [|split].
      + constructor.
        * apply NoDup_remove_elt. assumption.
        * intros x Hx. unfold merge. destruct (snode_eq_dec (lb x) (lb b)) as [Ex|Ex]; (apply in_in_remove; [congruence|auto]).
        * intros c Hc. apply in_remove in Hc. destruct Hc as [Hc Hcb]. unfold supd. destruct (snode_eq_dec c (lb a)) as [->|]; [|auto].
          unfold h. cbn [fst snd]. pose proof (Hne _ Hc). lia.
        * exact HR'.
        * intros x y Hx Hy. exact (proj1 (merge_conn R N lb a b (lb a) (lb b) Heq HR Ha Hb eq_refl eq_refl Eab x y Hx Hy)).
      + unfold total. rewrite (zsum_remove (fun c => len (A c)) L (lb b) Hnd (Hin b Hb)).
        pose proof (NoDup_remove_elt (lb b) L Hnd) as Hnd'.
        assert (Ha' : In (lb a) (remove snode_eq_dec (lb b) L)) by (apply in_in_remove; auto).
        rewrite (zsum_remove (fun c => len (A c)) _ (lb a) Hnd' Ha'), (zsum_remove _ _ (lb a) Hnd' Ha').
        rewrite supd_same. rewrite (zsum_ext (fun c => len (supd A (lb a) h c)) (fun c => len (A c)) (remove snode_eq_dec (lb a) _)).
        * unfold len, h. cbn [fst snd]. unfold t. lia.
        * intros c Hc. apply in_remove in Hc. rewrite supd_other by tauto. reflexivity.
      + intros x Hx. unfold merge. destruct (snode_eq_dec (lb x) (lb b)) as [Ex|Ex].
        * rewrite supd_same, Ex. exists t. split; [assumption|]. unfold h. cbn [fst snd]. lia.
        * unfold supd. destruct (snode_eq_dec (lb x) (lb a)) as [->|]; [|apply sub_refl].
          apply sub_wider; unfold h; cbn [fst snd]; lia.
  Qed.

  Lemma classes_ext N R R' lb A L : (forall p q, R p q <-> R' p q) -> classes N R lb A L -> classes N R' lb A L.
  Proof.
    intros H [H1 H2 H3 H4 H5]. constructor; auto.
    - intros x y HR. apply H4, H, HR.
    - intros x y Hx Hy. rewrite H5 by assumption. split; apply rst_mono; intros; apply H; assumption.
  Qed.

  Lemma joins N F : forall R lb A L, classes N R lb A L ->
    (forall a b, In (a, b) F -> In a N /\ In b N /\ exists z, on (A (lb a)) z /\ on (A (lb b)) z) ->
    exists lb' A' L', classes N (fun p q => R p q \/ In (p, q) F) lb' A' L' /\ total A' L' <= total A L /\
      forall x, In x N -> sub (A (lb x)) (A' (lb' x)).
  Proof.
    induction F as [|[a b] F IH]; intros R lb A L HC HF.
    - exists lb, A, L. split; [|split; [lia|intros; apply sub_refl]]. apply (classes_ext N R); [|assumption].
      intros p q. simpl. tauto.
    - destruct (HF a b (or_introl eq_refl)) as (Ha & Hb & z & Hz1 & Hz2).
      destruct (join N R lb A L a b z HC Ha Hb Hz1 Hz2) as (lb1 & A1 & L1 & HC1 & Ht1 & Hs1).
      destruct (IH _ lb1 A1 L1 HC1) as (lb2 & A2 & L2 & HC2 & Ht2 & Hs2).
      { intros p q Hpq. destruct (HF p q (or_intror Hpq)) as (Hp & Hq & z' & H1 & H2). split; [assumption|]. split; [assumption|].
        exists z'. split; eapply sub_on; eauto. }
      exists lb2, A2, L2. split; [|split; [lia|]].
      + apply (classes_ext N (fun p q => (R p q \/ p = a /\ q = b) \/ In (p, q) F)); [|assumption].
        intros p q. simpl. split; [intros [[H|[-> ->]]|H]; auto|intros [H|[[= -> ->]|H]]; auto].
      + intros x Hx. eapply sub_trans; eauto.
  Qed.

  (* joining along edges of length two *)
  Lemma extend A x d : Z.abs d <= 1 -> on A x -> exists A', len A' <= len A + 2 /\ fst A' <= fst A /\ snd A <= snd A' /\
    exists m, (M | x - m) /\ fst A' <= m <= snd A' /\ fst A' <= m + d <= snd A' /\ fst A' <= m + 2 * d <= snd A'.
  Proof.
    intros Hd (m & D & I). exists (Z.min (fst A) (m + 2 * d), Z.max (snd A) (m + 2 * d)). unfold len. cbn [fst snd].
    split; [lia|]. split; [lia|]. split; [lia|]. exists m. split; [assumption|]. lia.
  Qed.

  Lemma bridges N (pos : snode -> Z) (F : list (snode * snode * Z)) : forall R lb A L, classes N R lb A L ->
    (forall x, In x N -> on (A (lb x)) (pos x)) ->
    (forall a b d, In (a, b, d) F -> In a N /\ In b N /\ Z.abs d <= 1 /\ (M | pos b - pos a - 2 * d)) ->
    exists lb' A' L', classes N (fun p q => R p q \/ exists d, In (p, q, d) F) lb' A' L' /\
      total A' L' <= total A L + 2 * Z.of_nat (length F) /\
      (forall x, In x N -> sub (A (lb x)) (A' (lb' x))) /\
      (forall a b d, In (a, b, d) F -> half (A' (lb' a)) (pos a) d /\ half (A' (lb' b)) (pos b) (- d)).
  Proof.
    induction F as [|[[a b] d] F IH]; intros R lb A L HC Hon HF.
    - exists lb, A, L. split; [|split; [simpl; lia|split; [intros; apply sub_refl|intros a b d []]]]. apply (classes_ext N R); [|assumption].
      intros p q. split; [auto|]. intros [H|(d & [])]; assumption.
    - destruct (HF a b d (or_introl eq_refl)) as (Ha & Hb & Hd & Hpos).
      destruct (extend (A (lb a)) (pos a) d Hd (Hon a Ha)) as (h & Hl & Hl1 & Hl2 & m & Dm & I1 & I2 & I3).
      assert (HC0 : classes N R lb (supd A (lb a) h) L).
      { destruct HC as [H1 H2 H3 H4 H5]. constructor; auto. intros c Hc. unfold supd. destruct (snode_eq_dec c (lb a)) as [->|]; [|auto].
        lia. }
      assert (Hs0 : forall x, sub (A (lb x)) (supd A (lb a) h (lb x))).
      { intros x. unfold supd. destruct (snode_eq_dec (lb x) (lb a)) as [->|]; [apply sub_wider; assumption|apply sub_refl]. }
      assert (Dm' : (M | pos b - (m + 2 * d))).
      { replace (pos b - (m + 2 * d)) with ((pos b - pos a - 2 * d) + (pos a - m)) by lia. apply Z.divide_add_r; assumption. }
      destruct (join N R lb (supd A (lb a) h) L a b (pos b) HC0 Ha Hb) as (lb1 & A1 & L1 & HC1 & Ht1 & Hs1).
      { rewrite supd_same. exists (m + 2 * d). auto. }
      { eapply sub_on; [apply Hs0|]. apply Hon; assumption. }
      assert (Ht0 : total (supd A (lb a) h) L <= total A L + 2).
      { unfold total. pose proof (cl_nd _ _ _ _ _ HC) as Hnd. pose proof (cl_in _ _ _ _ _ HC a Ha) as HL.
        rewrite !(zsum_remove _ L (lb a) Hnd HL). rewrite supd_same.
        rewrite (zsum_ext (fun c => len (supd A (lb a) h c)) (fun c => len (A c)) (remove snode_eq_dec (lb a) L)); [lia|].
        intros c Hc. apply in_remove in Hc. rewrite supd_other by tauto. reflexivity. }
      assert (Hsub1 : forall x, In x N -> sub (A (lb x)) (A1 (lb1 x))) by (intros; eapply sub_trans; [apply Hs0|auto]).
      assert (Heq1 : lb1 a = lb1 b) by (apply (cl_eq _ _ _ _ _ HC1 a b Ha Hb); apply rst_step; right; auto).
      assert (Hha : half (A1 (lb1 a)) (pos a) d).
      { eapply sub_half; [apply Hs1; assumption|]. rewrite supd_same. exists m. auto. }
      assert (Hhb : half (A1 (lb1 b)) (pos b) (- d)).
      { rewrite <- Heq1. eapply sub_half; [apply Hs1; assumption|]. rewrite supd_same. exists (m + 2 * d). split; [assumption|]. lia. }
      destruct (IH _ lb1 A1 L1 HC1) as (lb2 & A2 & L2 & HC2 & Ht2 & Hs2 & Hh2).
      { intros x Hx. eapply sub_on; [apply Hsub1; assumption|auto]. }
      { intros; apply HF; right; assumption. }
      exists lb2, A2, L2. split; [|split; [cbn [length]; lia|split]].
      + apply (classes_ext N (fun p q => (R p q \/ p = a /\ q = b) \/ exists d, In (p, q, d) F)); [|assumption].
        intros p q. split.
        * intros [[H|[-> ->]]|(d' & H)]; [auto|right; exists d; left; reflexivity|right; exists d'; right; assumption].
        * intros [H|(d2 & [[= -> -> _]|H])]; [auto|left; right; split; reflexivity|right; exists d2; assumption].
      + intros x Hx. eapply sub_trans; [apply Hsub1|apply Hs2]; assumption.
      + intros p q d' [[= <- <- <-]|H]; [|auto]. split; eapply sub_half; [apply Hs2; assumption|exact Hha|apply Hs2; assumption|exact Hhb].
  Qed.

  (* pigeonhole, up to congruence *)
  Lemma pigeon (Lx : list Z) : forall T, NoDup T -> (forall t t', In t T -> In t' T -> (M | t - t') -> t = t') ->
    (forall t, In t T -> exists x, In x Lx /\ (M | t - x)) -> (length T <= length Lx)%nat.
  Proof.
    induction Lx as [|x Lx IH]; intros T Hn Hd Hc.
    - destruct T as [|t T]; [simpl; lia|]. destruct (Hc t (or_introl eq_refl)) as (x & [] & _).
    - set (p := fun t => if Zdivide_dec M (t - x) then false else true).
      assert (Hf : (length T <= S (length (filter p T)))%nat).
      { clear IH Hc. clear Lx. induction T as [|t T IHT]; [simpl; lia|]. apply NoDup_cons_iff in Hn. destruct Hn as [Ht Hn].
        cbn [filter length]. unfold p at 1. destruct (Zdivide_dec M (t - x)) as [Hdt|Hdt].
        - assert (Hall : filter p T = T).
          { assert (G : forall t', In t' T -> p t' = true).
            { intros t' Ht'. unfold p. destruct (Zdivide_dec M (t' - x)) as [H'|]; [|reflexivity]. exfalso. apply Ht.
              rewrite (Hd t t'); [assumption|left; reflexivity|right; assumption|].
              replace (t - t') with ((t - x) - (t' - x)) by lia. apply Z.divide_sub_r; assumption. }
            clear - G. induction T as [|y T IH]; [reflexivity|]. simpl. rewrite (G y (or_introl eq_refl)). f_equal. apply IH. intros; apply G; right; assumption. }
          rewrite Hall. lia.
        - cbn [length]. assert (length T <= S (length (filter p T)))%nat; [|lia]. apply IHT; [assumption|]. intros; apply Hd; auto; right; assumption. }
      assert (Hl : (length (filter p T) <= length Lx)%nat); [|simpl; lia].
      apply IH; [apply NoDup_filter; assumption| |].
      + intros t t' Ht Ht'. apply filter_In in Ht, Ht'. apply Hd; tauto.
      + intros t Ht. apply filter_In in Ht. destruct Ht as [Ht Hp]. destruct (Hc t Ht) as (y & [<-|Hy] & Hdy); [|eauto].
        unfold p in Hp. destruct (Zdivide_dec M (t - x)); [discriminate|contradiction].
  Qed.
End Arcs.
