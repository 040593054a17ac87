(* PropsUfTrees.v: C19 (cluster trees implement a partition) and C48 (they stay shallow). *)
From Coq Require Import Relations.
From Verif Require Import Base Lattice RhgModel SurfaceModel StabGraphModel Paths MwpmModel UfModel UfTrees.
Open Scope nat_scope.

(* ------------------------------------------------------------------ *)
(* Specification: histories of calls.  Make x creates a Root for node x with its label;
   Find x is node.find_root(); Union x y is union(x.find_root(), y.find_root()), as in
   algos.py 168-171; Link x y is union on the two Root objects above x and y, held by the
   caller, without any find_root (as in initialize_cluster_trees). *)
Inductive op := Make (x : snode) | Find (x : snode) | Union (x y : snode) | Link (x y : snode).

(* walk the parents without touching anything: the Root object a caller may hold *)
Fixpoint held (fuel : nat) (h : heap) (x : snode) : res snode :=
  match h_par h x with
  | PRoot => Ok x
  | PUp u => match fuel with 0 => Err OutOfFuel | S f => held f h u end
  | PSelf => Err AttributeError
  end.

Definition run_op (lab : snode -> option bool) (fuel : nat) (h : heap) (o : op) : res heap :=
  match o with
  | Make x => Ok (new_root x (lab x) h)
  | Find x => bind (find_root fuel h x) (fun r => Ok (snd r))
  | Union x y =>
      bind (find_root fuel h x) (fun r0 => bind (find_root fuel (snd r0) y) (fun r1 =>
      match fst r0, fst r1 with
      | Some a, Some b => Ok (fst (union (snd r1) a b))
      | _, _ => Err AttributeError
      end))
  | Link x y => bind (held fuel h x) (fun a => bind (held fuel h y) (fun b => Ok (fst (union h a b))))
  end.
Definition run (lab : snode -> option bool) (fuel : nat) (ops : list op) : res heap :=
  foldM (run_op lab fuel) fresh_heap ops.

(* the nodes created by a history *)
Definition made (ops : list op) : list snode := flat_map (fun o => match o with Make x => [x] | _ => [] end) ops.
(* every node is created once, before it is used *)
Fixpoint legal (N : list snode) (ops : list op) : Prop :=
  match ops with
  | [] => True
  | Make x :: ops' => ~ In x N /\ legal (x :: N) ops'
  | Find x :: ops' => In x N /\ legal N ops'
  | Union x y :: ops' | Link x y :: ops' => In x N /\ In y N /\ legal N ops'
  end.
(* connected by the unions of the history *)
Definition united (ops : list op) : snode -> snode -> Prop :=
  clos_refl_sym_trans _ (fun x y => In (Union x y) ops \/ In (Link x y) ops).

(* ------------------------------------------------------------------ *)
Lemma held_ok h x n r : up h x n r -> forall fuel, n <= fuel -> held fuel h x = Ok r.
Proof.
  induction 1 as [r Hr|x u n r Hx Hu IH]; intros fuel Hf.
  - destruct fuel; simpl; rewrite Hr; reflexivity.
  - destruct fuel as [|fuel]; [lia|]. simpl. rewrite Hx. apply IH. lia.
Qed.

Lemma rst_mono {A} (R R' : A -> A -> Prop) x y : (forall a b, R a b -> R' a b) ->
  clos_refl_sym_trans _ R x y -> clos_refl_sym_trans _ R' x y.
Proof.
  intros H. induction 1; [apply rst_step; auto|apply rst_refl|apply rst_sym; assumption|eapply rst_trans; eassumption].
Qed.

(* adding one pair to a relation whose closure is "same representative" *)
Lemma merge_conn (R : snode -> snode -> Prop) N rep x y a b :
  (forall u v, In u N -> In v N -> (rep u = rep v <-> clos_refl_sym_trans _ R u v)) ->
  (forall u v, R u v -> In u N /\ In v N) ->
  In x N -> In y N -> rep x = a -> rep y = b -> a <> b ->
  forall u v, In u N -> In v N ->
  ((merge rep b a u = merge rep b a v) <-> clos_refl_sym_trans _ (fun p q => R p q \/ (p = x /\ q = y)) u v) /\
  ((merge rep a b u = merge rep a b v) <-> clos_refl_sym_trans _ (fun p q => R p q \/ (p = x /\ q = y)) u v).
Proof.
  intros HR HN Hx Hy Ha Hb Hne.
  set (R' := fun p q => R p q \/ (p = x /\ q = y)).
  assert (Hxy : clos_refl_sym_trans _ R' x y) by (apply rst_step; right; auto).
  assert (Hcl : forall u v, In u N -> In v N -> rep u = rep v -> clos_refl_sym_trans _ R' u v).
  { intros u v Hu Hv E. apply HR in E; auto. apply rst_mono with R; [left; assumption|assumption]. }
  assert (Hin : forall u v, clos_refl_sym_trans _ R' u v -> u = v \/ (In u N /\ In v N)).
  { induction 1 as [p q [H|[-> ->]]|p|p q _ IH|p q r _ IH1 _ IH2].
    - right; apply HN; assumption.
    - right; auto.
    - left; reflexivity.
    - intuition congruence.
    - destruct IH1 as [->|[]]; [assumption|]. destruct IH2 as [->|[]]; right; auto. }
  assert (Hgen : forall c d, (c = a /\ d = b) \/ (c = b /\ d = a) -> forall u v, In u N -> In v N ->
            (merge rep c d u = merge rep c d v <-> clos_refl_sym_trans _ R' u v)).
  { intros c d Hcd u v Hu Hv. split.
    - assert (Hto : forall w, In w N -> rep w = a -> clos_refl_sym_trans _ R' w x) by (intros; apply Hcl; congruence).
      assert (Hto' : forall w, In w N -> rep w = b -> clos_refl_sym_trans _ R' w y) by (intros; apply Hcl; congruence).
      assert (Hto2 : forall w, In w N -> rep w = b -> clos_refl_sym_trans _ R' w x).
      { intros w Hw E. eapply rst_trans; [apply Hto'; assumption|apply rst_sym; assumption]. }
      assert (Hab : forall w w', In w N -> In w' N -> (rep w = a \/ rep w = b) -> (rep w' = a \/ rep w' = b) -> clos_refl_sym_trans _ R' w w').
      { intros w w' Hw Hw' H1 H2. apply rst_trans with x; [destruct H1; auto|apply rst_sym; destruct H2; auto]. }
      unfold merge. destruct (snode_eq_dec (rep u) c) as [Eu|Eu], (snode_eq_dec (rep v) c) as [Ev|Ev]; intros E.
      + apply Hcl; congruence.
      + apply Hab; auto; destruct Hcd as [[-> ->]|[-> ->]]; auto.
      + apply Hab; auto; destruct Hcd as [[-> ->]|[-> ->]]; auto.
      + apply Hcl; auto.
    - intros H. clear Hu Hv. induction H as [p q [H|[-> ->]]|p|p q H IH|p q r H1 IH1 H2 IH2].
      + destruct (HN _ _ H) as [Hp Hq]. assert (E : rep p = rep q) by (apply HR; auto; apply rst_step; assumption).
        unfold merge. rewrite E. reflexivity.
      + unfold merge. rewrite Ha, Hb. destruct Hcd as [[-> ->]|[-> ->]];
          repeat match goal with |- context [snode_eq_dec ?p ?q] => destruct (snode_eq_dec p q) end; congruence.
      + reflexivity.
      + congruence.
      + congruence. }
  intros u v Hu Hv. split; apply Hgen; auto.
Qed.

Definition represents (lab : snode -> option bool) (N : list snode) (R : snode -> snode -> Prop) (h : heap) : Prop :=
  exists rep, trees lab N rep h /\ (forall x y, R x y -> In x N /\ In y N) /\
    forall x y, In x N -> In y N -> (rep x = rep y <-> clos_refl_sym_trans _ R x y).

Lemma represents_iff lab N R R' h : (forall x y, R x y <-> R' x y) -> represents lab N R h -> represents lab N R' h.
Proof.
  intros E (rep & T & HN & HR). exists rep. split; [assumption|]. split; [intros x y H; apply HN, E, H|].
  intros x y Hx Hy. rewrite HR by assumption. split; apply rst_mono; intros a b; apply E.
Qed.

Lemma union_any lab N (R : snode -> snode -> Prop) h x y rep a b : trees lab N rep h -> (forall x y, R x y -> In x N /\ In y N) ->
  (forall x y, In x N -> In y N -> (rep x = rep y <-> clos_refl_sym_trans _ R x y)) ->
  In x N -> In y N -> rep x = a -> rep y = b ->
  represents lab N (fun p q => R p q \/ (p = x /\ q = y)) (fst (union h a b)).
Proof.
  intros T HN HR Hx Hy Ha Hb.
  assert (HN' : forall p q, R p q \/ (p = x /\ q = y) -> In p N /\ In q N) by (intros p q [H|[-> ->]]; auto).
  destruct (snode_eq_dec a b) as [E|E].
  - exists rep. unfold union. destruct (snode_eq_dec a b); [|contradiction]. split; [assumption|]. split; [assumption|].
    intros u v Hu Hv. rewrite HR by assumption. split.
    + apply rst_mono. auto.
    + induction 1 as [p q [H|[-> ->]]|p|p q H IH|p q r H1 IH1 H2 IH2].
      * apply rst_step; assumption.
      * apply HR; auto. congruence.
      * apply rst_refl.
      * apply rst_sym; auto.
      * assert (Hin : In q N).
        { destruct (in_dec snode_eq_dec q N) as [|Hq]; [assumption|]. exfalso. apply Hq.
          assert (G : forall p q, clos_refl_sym_trans _ (fun p q => R p q \/ (p = x /\ q = y)) p q -> In p N <-> In q N).
          { clear -HN'. induction 1 as [p q H|p|p q H IH|p q r H1 IH1 H2 IH2]; [|tauto|tauto|tauto].
            destruct (HN' _ _ H); tauto. }
          apply (G _ _ H1). assumption. }
        eapply rst_trans; eauto.
  - assert (HA : h_par h a = PRoot) by (rewrite <- Ha; eapply rep_isroot; eauto).
    assert (HB : h_par h b = PRoot) by (rewrite <- Hb; eapply rep_isroot; eauto).
    destruct (union_ok _ _ _ _ a b T HA HB E) as (big & small & h' & -> & Hbs & _ & T' & _).
    exists (merge rep small big). split; [assumption|]. split; [assumption|].
    intros u v Hu Hv. destruct (merge_conn R N rep x y a b HR HN Hx Hy Ha Hb E u v Hu Hv) as [M1 M2].
    destruct Hbs as [[-> ->]|[-> ->]]; assumption.
Qed.

Lemma run_op_ok lab fuel N R h o : represents lab N R h -> length N <= fuel ->
  match o with Make x => ~ In x N | Find x => In x N | Union x y | Link x y => In x N /\ In y N end ->
  exists h', run_op lab fuel h o = Ok h' /\
    represents lab (match o with Make x => x :: N | _ => N end)
      (match o with Union x y | Link x y => fun p q => R p q \/ (p = x /\ q = y) | _ => R end) h'.
Proof.
  intros (rep & T & HN & HR) Hf Hl. destruct o as [x|x|x y|x y]; simpl.
  - eexists. split; [reflexivity|]. exists (supd rep x x). split; [apply new_root_ok; assumption|].
    split; [intros p q H; destruct (HN _ _ H); split; right; assumption|].
    assert (Hiso : forall p q, clos_refl_sym_trans _ R p q -> p = x <-> q = x).
    { induction 1 as [p q H|p|p q H IH|p q r H1 IH1 H2 IH2]; [|tauto|tauto|tauto].
      destruct (HN _ _ H). split; intros ->; contradiction. }
    intros u v Hu Hv. unfold supd. destruct (snode_eq_dec u x) as [->|Hux], (snode_eq_dec v x) as [->|Hvx].
    + split; intros; [apply rst_refl|reflexivity].
    + destruct Hv as [->|Hv]; [congruence|]. split.
      * intros E. exfalso. apply Hl. rewrite E. eapply rep_N; eauto.
      * intros H. apply Hiso in H. tauto.
    + destruct Hu as [->|Hu]; [congruence|]. split.
      * intros E. exfalso. apply Hl. rewrite <- E. eapply rep_N; eauto.
      * intros H. apply Hiso in H. tauto.
    + apply HR; [destruct Hu|destruct Hv]; congruence || assumption.
  - destruct (find_root_ok lab N rep h T fuel x Hl Hf) as (h' & -> & T' & _). simpl. eexists. split; [reflexivity|].
    exists rep; auto.
  - destruct Hl as [Hx Hy].
    destruct (find_root_ok lab N rep h T fuel x Hx Hf) as (h1 & -> & T1 & _). simpl.
    destruct (find_root_ok lab N rep h1 T1 fuel y Hy Hf) as (h2 & -> & T2 & _). simpl.
    eexists. split; [reflexivity|]. eapply union_any; eauto.
  - destruct Hl as [Hx Hy].
    destruct (t_up _ _ _ _ T x Hx) as (n & Hu & _). destruct (t_up _ _ _ _ T y Hy) as (m & Hv & _).
    rewrite (held_ok _ _ _ _ Hu) by (pose proof (up_bound _ _ _ _ _ _ _ T Hu); lia). simpl.
    rewrite (held_ok _ _ _ _ Hv) by (pose proof (up_bound _ _ _ _ _ _ _ T Hv); lia). simpl.
    eexists. split; [reflexivity|]. eapply union_any; eauto.
Qed.

Lemma run_ok lab fuel ops : forall N R h, represents lab N R h -> legal N ops -> length (made ops) + length N <= fuel ->
  exists h', foldM (run_op lab fuel) h ops = Ok h' /\
    represents lab (rev (made ops) ++ N) (fun p q => R p q \/ In (Union p q) ops \/ In (Link p q) ops) h'.
Proof.
  induction ops as [|o ops IH]; intros N R h Hr Hl Hf.
  - exists h. split; [reflexivity|]. simpl. eapply represents_iff; [|exact Hr]. simpl. tauto.
  - assert (Hl1 : match o with Make x => ~ In x N | Find x => In x N | Union x y | Link x y => In x N /\ In y N end)
      by (destruct o; simpl in Hl; tauto).
    destruct (run_op_ok lab fuel N R h o Hr) as (h1 & E1 & Hr1).
    + destruct o; simpl in Hf; lia.
    + assumption.
    + destruct (IH _ _ h1 Hr1) as (h2 & E2 & Hr2).
      * destruct o; simpl in Hl; tauto.
      * destruct o; simpl in *; lia.
      * exists h2. split.
        -- change (bind (run_op lab fuel h o) (fun s => foldM (run_op lab fuel) s ops) = Ok h2). rewrite E1. exact E2.
        -- replace (rev (made (o :: ops)) ++ N) with (rev (made ops) ++ match o with Make x => x :: N | _ => N end).
           ++ eapply represents_iff; [|exact Hr2]. intros p q. destruct o as [a|a|a b|a b]; simpl.
              ** intuition congruence.
              ** intuition congruence.
              ** split; [|intuition congruence]. intros [[H|[-> ->]]|H]; tauto.
              ** split; [|intuition congruence]. intros [[H|[-> ->]]|H]; tauto.
           ++ destruct o; simpl; try reflexivity. rewrite <- app_assoc. reflexivity.
Qed.

(* C19: after every legal history (any interleaving of root creations, finds and unions),
   nothing has raised, and for every created node x find_root returns the root of x's cluster:
   the clusters are the classes generated by the unions (so finds never change them), the root
   is a member of its cluster, and its size, parity and boundary are those of the cluster. *)
Theorem C19_clusters_are_a_partition lab fuel ops :
  legal [] ops -> length (made ops) <= fuel ->
  exists h root,
    run lab fuel ops = Ok h /\
    (forall x, In x (made ops) -> exists h', find_root fuel h x = Ok (Some (root x), h')) /\
    (forall x y, In x (made ops) -> In y (made ops) -> (root x = root y <-> united ops x y)) /\
    (forall x, In x (made ops) ->
       united ops x (root x) /\
       exists M, NoDup M /\ (forall y, In y M <-> In y (made ops) /\ united ops x y) /\
         h_size h (root x) = length M /\
         h_pty h (root x) = Nat.odd (length (filter (fun y => match lab y with Some b => b | None => false end) M)) /\
         match h_bnd h (root x) with
         | Some b => In b M /\ lab b = None
         | None => forall y, In y M -> lab y <> None
         end).
Proof.
  intros Hl Hf. destruct (run_ok lab fuel ops [] (fun _ _ => False) fresh_heap) as (h & E & (rep & T & HN & HR)).
  - exists (fun x => x). split; [apply trees_fresh|]. split; [tauto|]. intros x y [].
  - assumption.
  - simpl. lia.
  - assert (Hin : forall x, In x (rev (made ops) ++ []) <-> In x (made ops)).
    { intros x. rewrite app_nil_r, <- in_rev. reflexivity. }
    assert (Hlen : length (rev (made ops) ++ []) <= fuel) by (rewrite app_nil_r, rev_length; lia).
    assert (HU : forall x y, In x (made ops) -> In y (made ops) -> (rep x = rep y <-> united ops x y)).
    { intros x y Hx Hy. rewrite HR by (apply Hin; assumption). unfold united.
      split; apply rst_mono; intros a b; tauto. }
    assert (Hcl : forall x y, united ops x y -> In x (made ops) <-> In y (made ops)).
    { induction 1 as [p q H|p|p q H IH|p q r H1 IH1 H2 IH2]; [|tauto|tauto|tauto].
      destruct (HN p q) as [H1 H2]; [tauto|]. apply Hin in H1. apply Hin in H2. tauto. }
    exists h, rep. split; [exact E|]. split.
    { intros x Hx. apply Hin in Hx. destruct (find_root_ok lab _ rep h T fuel x Hx Hlen) as (h' & -> & _). eauto. }
    split; [assumption|].
    intros x Hx. pose proof (proj2 (Hin x) Hx) as Hx'.
    pose proof (rep_isroot _ _ _ _ _ T Hx') as Hroot.
    assert (Hrx : In (rep x) (made ops)) by (apply Hin; eapply rep_N; eauto).
    split.
    { apply HU; auto. symmetry. eapply isroot_rep; eauto. }
    exists (members (rev (made ops) ++ []) rep (rep x)).
    split; [apply NoDup_filter, (t_nd _ _ _ _ T)|]. split.
    { intros y. rewrite members_In, Hin. split.
      - intros [Hy Ey]. split; [assumption|]. apply HU; auto.
      - intros [Hy Ey]. split; [assumption|]. symmetry. apply HU; auto. }
    split; [apply (t_size _ _ _ _ T); assumption|]. split.
    { rewrite (t_pty _ _ _ _ T) by assumption. rewrite xsum_odd. reflexivity. }
    apply (t_bnd _ _ _ _ T). assumption.
Qed.

(* number of parent links from a node to its root *)
Inductive depth (h : heap) : snode -> nat -> snode -> Prop :=
  | depth_root r : h_par h r = PRoot -> depth h r 0 r
  | depth_step x u n r : h_par h x = PUp u -> depth h u n r -> depth h x (S n) r.

(* C48: after every legal history (with or without finds) every created node is at depth at
   most log2 of the size of its cluster. *)
Theorem C48_trees_stay_shallow lab fuel ops :
  legal [] ops -> length (made ops) <= fuel ->
  exists h, run lab fuel ops = Ok h /\
    forall x, In x (made ops) -> exists n r, depth h x n r /\ 2 ^ n <= h_size h r /\ n <= Nat.log2 (h_size h r).
Proof.
  intros Hl Hf. destruct (run_ok lab fuel ops [] (fun _ _ => False) fresh_heap) as (h & E & (rep & T & HN & HR)).
  - exists (fun x => x). split; [apply trees_fresh|]. split; [tauto|]. intros x y [].
  - assumption.
  - simpl. lia.
  - exists h. split; [exact E|]. intros x Hx.
    destruct (t_up _ _ _ _ T x) as (n & Hu & Hs); [rewrite app_nil_r, <- in_rev; assumption|].
    exists n, (rep x). split; [|split; [assumption|]].
    + clear -Hu. induction Hu; [constructor|econstructor]; eauto.
    + apply Nat.log2_le_pow2; [|assumption]. pose proof (Nat.pow_nonzero 2 n). lia.
Qed.

(* a history in which all four operations do something *)
Definition ex_history : list op :=
  [Make (NStab 0); Make (NStab 1); Make (NStab 2); Make (NPt (1,2,3)%Z); Make (NStab 4);
   Link (NStab 0) (NStab 1); Link (NStab 2) (NPt (1,2,3)%Z); Union (NStab 1) (NPt (1,2,3)%Z);
   Find (NPt (1,2,3)%Z); Union (NStab 2) (NStab 1)].
Definition ex_lab (x : snode) : option bool := match x with NPt _ => None | _ => Some true end.
Example C19_example : legal [] ex_history /\ length (made ex_history) <= 5 /\
  match run ex_lab 5 ex_history with
  | Ok h => h_size h (NStab 0) = 4 /\ h_pty h (NStab 0) = true /\ h_bnd h (NStab 0) = Some (NPt (1,2,3)%Z) /\
            h_par h (NStab 4) = PRoot
  | Err _ => False
  end.
Proof.
  split; [|split; [simpl; lia|vm_compute; auto]].
  simpl. intuition congruence.
Qed.
(* path compression is what keeps the point at depth one here *)
Example C48_example : match run ex_lab 5 (firstn 8 ex_history) with
  | Ok h => h_par h (NPt (1,2,3)%Z) = PUp (NStab 2) /\ h_par h (NStab 2) = PUp (NStab 0) | Err _ => False end.
Proof. vm_compute. auto. Qed.

Print Assumptions C19_clusters_are_a_partition.
Print Assumptions C48_trees_stay_shallow.
