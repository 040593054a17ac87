(* UfDecode.v: growth, spanning forest and peeling together. *)
From Coq Require Import Relations.
From Verif Require Import Base Lattice RhgModel SurfaceModel StabGraphModel Paths MwpmModel MwpmProofs UfModel UfTrees UfSpec UfPeel PropsUfTrees UfGrow.
Open Scope nat_scope.

(* ---------------------------------------------------------------- *)
(* the parity dictionary *)
Section Parity.
  Variable sp : nat -> bool.
  Notation lab := (label sp).

  Definition is_stab (x : snode) : bool := match x with NStab _ => true | _ => false end.

  Lemma pd0_ok tree : forall pd x,
    fold_left (fun pd x => match x with NStab i => supd pd x (Some (sp i)) | _ => supd pd x (Some false) end) tree pd x
    = if smem x tree then Some (parb (lab x)) else pd x.
  Proof.
    induction tree as [|y tree IH]; intros pd x; [reflexivity|]. simpl fold_left. rewrite IH.
    change (smem x (y :: tree)) with (sneqb x y || smem x tree). unfold sneqb. destruct (smem x tree) eqn:E; [rewrite orb_true_r; reflexivity|]. rewrite orb_false_r.
    destruct (snode_eq_dec x y) as [->|Hne].
    - destruct y; rewrite supd_same; reflexivity.
    - destruct y; rewrite supd_other by assumption; reflexivity.
  Qed.
  Lemma bnode_ok tree : forall b0, let b := fold_left (fun b x => match x with NStab _ => b | _ => Some x end) tree b0 in
    (forall x, b = Some x -> b0 = Some x \/ (In x tree /\ is_stab x = false)) /\
    (b = None -> b0 = None /\ forall x, In x tree -> is_stab x = true).
  Proof.
    induction tree as [|y tree IH]; intros b0; simpl; [split; [auto|intros H; split; [assumption|intros x []]]|].
    destruct (IH (match y with NStab _ => b0 | _ => Some y end)) as [H1 H2]. split.
    - intros x Hx. destruct (H1 x Hx) as [H|[H H']]; [|auto]. destruct y; auto; injection H as <-; auto.
    - intros Hn. destruct (H2 Hn) as [H3 H4]. destruct y; try discriminate. split; [assumption|]. intros x [<-|Hx]; auto.
  Qed.

  Lemma nb_odd tree : Nat.odd (length (filter (fun x => match x with NStab i => sp i | _ => false end) tree)) = xsum (fun x => parb (lab x)) tree.
  Proof.
    rewrite xsum_odd. f_equal. f_equal. apply filter_ext. intros []; reflexivity.
  Qed.

  (* pd agrees with the syndrome on stabilizers, is defined exactly on the tree, and is even
     on the tree if the tree is even or has a boundary point *)
  Lemma tree_parity_ok tree : NoDup tree ->
    (forall x, tree_parity sp tree x = None <-> ~ In x tree) /\
    (forall i, In (NStab i) tree -> tree_parity sp tree (NStab i) = Some (sp i)) /\
    (xsum (fun x => parb (lab x)) tree = false \/ (exists x, In x tree /\ is_stab x = false) ->
     xsum (fun x => pb (tree_parity sp tree) x) tree = false).
  Proof.
    intros Hnd. unfold tree_parity. rewrite nb_odd.
    set (pd0 := fold_left _ tree (fun _ => None)).
    assert (Hpd : forall x, pd0 x = if smem x tree then Some (parb (lab x)) else None).
    { intros x. unfold pd0. rewrite pd0_ok. reflexivity. }
    assert (Hdef : forall x, pd0 x = None <-> ~ In x tree).
    { intros x. rewrite Hpd, <- smem_false. destruct (smem x tree); split; congruence. }
    assert (Hst : forall i, In (NStab i) tree -> pd0 (NStab i) = Some (sp i)).
    { intros i Hi. rewrite Hpd. apply smem_In in Hi. rewrite Hi. reflexivity. }
    assert (Hsum : xsum (fun x => pb pd0 x) tree = xsum (fun x => parb (lab x)) tree).
    { apply xsum_ext. intros x Hx. unfold pb. rewrite Hpd. apply smem_In in Hx. rewrite Hx. reflexivity. }
    destruct (bnode_ok tree None) as [Hb1 Hb2]. cbv zeta in Hb1, Hb2.
    destruct (xsum (fun x => parb (lab x)) tree) eqn:Eodd.
    - destruct (fold_left _ tree None) as [b|] in *.
      + destruct (Hb1 b eq_refl) as [H|[Hbt Hbs]]; [discriminate|].
        split; [|split].
        * intros x. unfold supd. destruct (snode_eq_dec x b) as [->|]; [|apply Hdef]. split; [discriminate|contradiction].
        * intros i Hi. rewrite supd_other; [auto|]. intros <-. discriminate.
        * intros _. rewrite (xsum_ext _ (fun x => xorb (sneqb x b && true) (pb pd0 x))).
          -- rewrite xsum_xorb, xsum_point by assumption. transitivity (xorb true true); [f_equal; exact Hsum|reflexivity].
          -- intros x Hx. unfold pb, supd, sneqb. destruct (snode_eq_dec x b) as [->|]; [|destruct (pd0 x) as [[]|]; reflexivity].
             rewrite Hpd. apply smem_In in Hx. rewrite Hx. destruct b; try discriminate; reflexivity.
      + split; [assumption|]. split; [assumption|]. intros [H|(x & Hx & Hs)]; [discriminate|].
        destruct (Hb2 eq_refl) as [_ H]. rewrite (H x Hx) in Hs. discriminate.
    - split; [assumption|]. split; [assumption|]. intros _. exact Hsum.
  Qed.

  Lemma parity_dict_ok trees : NoDup (concat trees) -> forall pd,
    let pd' := fold_left (fun pd tree x => match tree_parity sp tree x with Some b => Some b | None => pd x end) trees pd in
    (forall x, ~ In x (concat trees) -> pd' x = pd x) /\
    (forall tree x, In tree trees -> In x tree -> pd' x = tree_parity sp tree x).
  Proof.
    induction trees as [|t trees IH]; intros Hnd pd; simpl; [split; [auto|intros ? ? []]|].
    assert (Hn : NoDup t /\ NoDup (concat trees) /\ forall x, In x t -> ~ In x (concat trees)).
    { clear -Hnd. simpl in Hnd. induction t as [|y l IHl]; simpl in *; [split; [constructor|split; [assumption|intros x []]]|].
      inversion Hnd as [|? ? H1 H2]; subst. destruct (IHl H2) as (N1 & N2 & N3).
      rewrite in_app_iff in H1. split; [constructor; tauto|]. split; [assumption|]. intros x [<-|Hx]; [tauto|auto]. }
    destruct Hn as (Hn1 & Hn2 & Hn3). destruct (IH Hn2 (fun x => match tree_parity sp t x with Some b => Some b | None => pd x end)) as [H1 H2].
    destruct (tree_parity_ok t Hn1) as (Hdef & _). split.
    - intros x Hx. rewrite in_app_iff in Hx. rewrite H1 by tauto. rewrite (proj2 (Hdef x)) by tauto. reflexivity.
    - intros tree x [<-|Ht] Hx; [|apply H2; assumption]. rewrite H1 by (apply Hn3; assumption).
      destruct (tree_parity sp t x) eqn:E; [reflexivity|]. exfalso. apply (Hdef x); assumption.
  Qed.
End Parity.

Lemma pb_ext pd pd' x : pd x = pd' x -> pb pd x = pb pd' x.
Proof. unfold pb. intros ->. reflexivity. Qed.

Section Decode.
  Variables (E : list sedge) (er : point -> bool) (sp : nat -> bool) (lib : ulib).
  Variable sch : sched.
  Variable fuel : nat.
  Hypothesis Huniq : forall e e' u v, In e E -> In e' E -> same_pair u v e = true -> same_pair u v e' = true -> e = e'.
  Hypothesis HE : NoDup E.
  Hypothesis Hloop : forall a b cv, In (a, b, cv) (RE E) -> a <> b.
  Hypothesis Hcv : forall e e', In e (RE E) -> In e' (RE E) -> snd e = snd e' -> e = e'.
  Hypothesis Hlib : lib_ok E lib.
  Hypothesis Hsch : sched_ok sch.
  Hypothesis Hfuel : 2 * length E + 2 <= fuel.
  Let N := l_nodes lib (RE E).
  Hypothesis Hconn : forall x y, In x N -> In y N -> conn (RE E) x y.
  Hypothesis Heven : (exists x, In x N /\ label sp x = None) \/ xsum (fun x => parb (label sp x)) N = false.

  Lemma nodes_bound es : length (l_nodes lib es) <= 2 * length es.
  Proof.
    destruct Hlib as (_ & Hn & _). destruct (Hn es) as [Hnd HI].
    assert (Hincl : incl (l_nodes lib es) (flat_map (fun e => [fst (fst e); snd (fst e)]) es)).
    { intros x Hx. apply HI in Hx. destruct Hx as ([[a b] cv] & He & Hi). apply incident_iff in Hi.
      apply in_flat_map. exists (a, b, cv). split; [assumption|]. simpl. destruct Hi; auto. }
    pose proof (NoDup_incl_length Hnd Hincl) as Hl.
    assert (Hfl : length (flat_map (fun e : sedge => [fst (fst e); snd (fst e)]) es) = 2 * length es).
    { clear. induction es as [|e es IH]; simpl; [reflexivity|]. rewrite IH. lia. }
    exact (eq_ind _ (fun k => length (l_nodes lib es) <= k) Hl _ Hfl).
  Qed.
  Lemma RE_len : length (RE E) <= length E.
  Proof. unfold RE. clear. induction E as [|e l IH]; simpl; [lia|]. destruct (real_edge e); simpl; lia. Qed.
  Lemma RE_nd : NoDup (RE E).
  Proof. apply NoDup_filter, HE. Qed.

  Lemma comps_init : components N (filter (erased er) (RE E)) (l_comps lib N (filter (erased er) (RE E))).
  Proof.
    destruct Hlib as (_ & Hn & Hc & _). destruct (Hn (RE E)) as [Hnd HI]. apply Hc; [exact Hnd|].
    intros a b cv H. apply filter_In in H. destruct H as [H _].
    split; apply HI; exists (a, b, cv); (split; [assumption|apply incident_iff; auto]).
  Qed.

  (* C20: the growth loop ends, and its clusters are even or have a boundary point *)
  Lemma growth_ok :
    exists s, grow_clusters E er sp (l_out lib) sch fuel fuel (l_comps lib N (filter (erased er) (RE E))) = Ok s /\
      (forall e, erased er e = true -> u_st s e = Grown) /\
      forall x, In x N -> exists M, NoDup M /\ (forall y, In y M <-> In y N /\ conn (grown_edges E (u_st s)) x y) /\
        (xsum (fun y => parb (label sp y)) M = false \/ exists y, In y M /\ label sp y = None).
  Proof.
    pose proof comps_init as (C1 & C2 & C3 & C4). destruct Hlib as (Ho & Hn & _). destruct (Hn (RE E)) as [Hnd HI].
    pose proof (nodes_bound (RE E)) as HbN. pose proof RE_len as HbR.
    destruct (grow_clusters_ok E er sp (l_out lib) sch fuel N Huniq Ho Hsch Hnd HI ltac:(unfold N; lia)
                (l_comps lib N (filter (erased er) (RE E))) C1 C2 C3 C4 Hconn Heven fuel ltac:(lia)) as (s & rep & Es & (T & _ & HR & _) & HS & Her).
    exists s. split; [exact Es|]. split; [assumption|]. intros x Hx.
    exists (members N rep (rep x)). split; [apply NoDup_filter; exact Hnd|]. split.
    - intros y. rewrite members_In. split; intros [Hy Hxy]; (split; [assumption|]).
      + symmetry in Hxy. apply HR in Hxy; auto. eapply rst_mono; [|exact Hxy]. intros a b (cv & H1 & H2). exists cv.
        apply filter_In. split; [assumption|]. rewrite H2. reflexivity.
      + symmetry. apply HR; auto. eapply rst_mono; [|exact Hxy]. intros a b (cv & H). exists cv.
        apply filter_In in H. destruct H as [H1 H2]. split; [assumption|]. destruct (u_st s (a, b, cv)); try discriminate; reflexivity.
    - pose proof (rep_isroot _ _ _ _ _ T Hx) as Rr. destruct (HS _ Rr) as [Hp|Hb].
      + left. rewrite <- (t_pty _ _ _ _ T _ Rr). assumption.
      + right. pose proof (t_bnd _ _ _ _ T _ Rr) as B. destruct (h_bnd (u_heap s) (rep x)) as [b|]; [|congruence]. eauto.
  Qed.

  (* the recovery set has odd degree exactly at the odd stabilizers *)
  Lemma decode_ok : exists s rec F,
    grow_clusters E er sp (l_out lib) sch fuel fuel (l_comps lib N (filter (erased er) (RE E))) = Ok s /\ incl F (grown_edges E (u_st s)) /\
    uf_decoder E er sp lib sch fuel = Ok rec /\ NoDup rec /\ NoDup F /\ incl F (RE E) /\
    (forall q, In q rec -> exists e, In e F /\ snd e = q) /\
    forall i, In (NStab i) N -> xsum (fun e => incident (NStab i) e && chosen rec e) F = sp i.
  Proof.
    destruct growth_ok as (s & Es & _ & Hcl). unfold uf_decoder. fold N. rewrite Es. simpl bind.
    set (G := grown_edges E (u_st s)) in *. destruct Hlib as (_ & Hn & Hc & Hm). pose proof (Hn G) as (HVnd & HV). pose proof (Hn (RE E)) as (HNnd & HN).
    set (V := l_nodes lib G) in *.
    assert (HGR : incl G (RE E)) by (intros e He; apply filter_In in He; tauto).
    assert (HGnd : NoDup G) by (apply NoDup_filter, RE_nd).
    assert (HVN : forall x, In x V -> In x N).
    { intros x Hx. apply HV in Hx. destruct Hx as (e & He & Hi). apply HN. exists e. split; [apply HGR|]; assumption. }
    assert (HGV : forall a b cv, In (a, b, cv) G -> In a V /\ In b V).
    { intros a b cv H. split; apply HV; exists (a, b, cv); (split; [assumption|apply incident_iff; auto]). }
    destruct (Hm V G HGnd HGV) as (HFG & HF & HFc). set (F := l_mst lib V G) in *.
    destruct (Hc V F HVnd) as (C1 & C2 & C3 & C4); [intros a b cv H; apply (HGV a b cv); apply HFG; assumption|].
    set (trees := l_comps lib V F) in *.
    assert (HtN : NoDup (concat trees)) by (eapply Permutation_NoDup; [symmetry; exact C1|assumption]).
    assert (HFGc : forall x y, conn F x y <-> conn G x y).
    { intros x y. split; [apply conn_mono; assumption|].
      induction 1 as [a b (cv & H)|a|a b _ IH|a b c _ IH1 _ IH2]; [eapply HFc; eauto|apply rst_refl|apply rst_sym; assumption|eapply rst_trans; eassumption]. }
    destruct (parity_dict_ok sp trees HtN (fun _ => None)) as (_ & Hpd). cbv zeta in Hpd. fold (parity_dict sp trees) in Hpd.
    assert (Htr : forall t, In t trees -> NoDup t).
    { intros t Ht. clear -HtN Ht. induction trees as [|t' ts IH]; [destruct Ht|]. simpl in HtN.
      destruct Ht as [->|Ht].
      - clear IH. induction t as [|y l IHl]; [constructor|]. simpl in HtN. inversion HtN; subst. constructor; [|auto].
        intros H; apply H1; apply in_or_app; auto.
      - apply IH; [|assumption]. clear -HtN. induction t' as [|y l IHl]; [assumption|]. simpl in HtN. inversion HtN; auto. }
    assert (HinT : forall x, In x V -> exists t, In t trees /\ In x t).
    { intros x Hx. apply (Permutation_in _ (Permutation_sym C1)) in Hx. apply in_concat in Hx. assumption. }
    (* trees are even *)
    assert (Hte : forall t, In t trees -> xsum (fun x => pb (tree_parity sp t) x) t = false).
    { intros t Ht. apply (tree_parity_ok sp t (Htr t Ht)).
      destruct t as [|x t'] eqn:Et; [exfalso; exact (C2 _ Ht eq_refl)|]. rewrite <- Et in *.
      assert (Hxt : In x t) by (rewrite Et; left; reflexivity).
      assert (HtV : forall y, In y t -> In y V) by (intros y Hy; apply (Permutation_in _ C1); apply in_concat; exists t; auto).
      destruct (Hcl x (HVN x (HtV x Hxt))) as (M & HMnd & HM & HMe).
      assert (HMt : Permutation M t).
      { apply NoDup_Permutation; [assumption|apply Htr; assumption|]. intros y. rewrite HM, <- HFGc. split.
        - intros [Hy Hxy]. apply (conn_closed F (fun z => In z t) x y); auto. intros a b cv HI. eapply C4; eauto.
        - intros Hy. split; [apply HVN; auto|]. eapply C3; eauto. }
      rewrite (xsum_perm _ _ _ HMt) in HMe. destruct HMe as [He|(y & Hy & Hl)]; [left; assumption|].
      right. exists y. split; [eapply Permutation_in; eassumption|]. destruct y; try reflexivity. discriminate. }
    assert (Hev : even_closed V F (parity_dict sp trees)).
    { intros S HS. rewrite <- (xsum_perm _ _ _ C1).
      replace (concat trees) with (flat_map (fun t => t) trees) by (rewrite flat_map_concat_map, map_id; reflexivity).
      rewrite xsum_flat_map. apply xsum_all_false. intros t Ht.
      destruct t as [|x t'] eqn:Et; [exfalso; exact (C2 _ Ht eq_refl)|]. rewrite <- Et in *.
      rewrite (xsum_ext _ (fun y => S x && pb (tree_parity sp t) y)).
      - rewrite xsum_andb_l, Hte by assumption. apply andb_false_r.
      - intros y Hy. rewrite (pb_ext _ _ _ (Hpd t y Ht Hy)). f_equal.
        assert (Hxy : conn F x y) by (apply (C3 t); auto; rewrite Et; left; reflexivity).
        assert (Hiff : S x = true <-> S y = true).
        { apply (conn_closed F (fun z => S z = true) x y); [|assumption]. intros a b cv HI. rewrite (HS a b cv HI). reflexivity. }
        destruct (S x), (S y); intuition congruence. }
    destruct (peeling_ok V F (parity_dict sp trees) HVnd HF) with (fuel := fuel) as (rec & Er & Hrnd & Hrin & Hdeg).
    { intros a b cv H. apply (HGV a b cv), HFG, H. }
    { intros v Hv. destruct (HinT v Hv) as (t & Ht & Hvt). rewrite (Hpd t v Ht Hvt).
      intros H. apply (tree_parity_ok sp t (Htr t Ht)) in H. contradiction. }
    { intros e e' He He'. apply Hcv; apply HGR, HFG; assumption. }
    { exact Hev. }
    { assert (length F <= length (RE E)) by (apply NoDup_incl_length; [apply HF|intros e He; apply HGR, HFG, He]).
      pose proof RE_len. lia. }
    exists s, rec, F. split; [reflexivity|]. split; [exact HFG|]. split; [exact Er|]. split; [assumption|]. split; [apply HF|]. split; [intros e He; apply HGR, HFG, He|].
    split; [assumption|]. intros i Hi. destruct (in_dec snode_eq_dec (NStab i) V) as [HiV|HiV].
    - unfold rdeg in Hdeg. rewrite (Hdeg _ HiV). destruct (HinT _ HiV) as (t & Ht & Hit).
      rewrite (pb_ext _ _ _ (Hpd t _ Ht Hit)). destruct (tree_parity_ok sp t (Htr t Ht)) as (_ & H & _).
      unfold pb. rewrite (H i Hit). reflexivity.
    - rewrite xsum_all_false.
      + destruct (Hcl _ Hi) as (M & HMnd & HM & HMe).
        assert (Hone : forall y, In y M <-> y = NStab i).
        { intros y. rewrite HM. split.
          - intros [_ Hy]. apply (conn_closed G (fun z => z = NStab i) (NStab i) y); auto.
            intros a b cv HI. destruct (HGV a b cv HI). split; intros ->; contradiction.
          - intros ->. split; [assumption|apply rst_refl]. }
        assert (HMp : Permutation M [NStab i]).
        { apply NoDup_Permutation; [assumption|constructor; [simpl; tauto|constructor]|]. intros y. rewrite Hone. simpl. intuition. }
        destruct HMe as [He|(y & Hy & Hl)].
        * rewrite (xsum_perm _ _ _ HMp) in He. simpl in He. rewrite xorb_false_r in He. symmetry; assumption.
        * apply Hone in Hy. subst. discriminate.
      + intros e He. destruct (incident (NStab i) e) eqn:Ei; [|reflexivity]. exfalso. apply HiV. apply HV. exists e. split; [apply HFG|]; assumption.
  Qed.

  (* summed over the recovery set *)
  Lemma decode_sum (mem : option point -> nat -> bool) :
    (forall e i, In e (RE E) -> In (NStab i) N -> mem (snd e) i = incident (NStab i) e) ->
    exists s rec,
      grow_clusters E er sp (l_out lib) sch fuel fuel (l_comps lib N (filter (erased er) (RE E))) = Ok s /\
      uf_decoder E er sp lib sch fuel = Ok rec /\ NoDup rec /\
      (forall q, In q rec -> exists e, In e (grown_edges E (u_st s)) /\ snd e = q) /\
      forall i, In (NStab i) N -> xsum (fun q => mem q i) rec = sp i.
  Proof.
    intros Hmem. destruct decode_ok as (s & rec & F & Es & HFG & Er & Hrnd & HFnd & HFR & Hrin & Hdeg).
    exists s, rec. split; [exact Es|]. split; [assumption|]. split; [assumption|]. split; [intros q Hq; destruct (Hrin q Hq) as (e & H1 & H2); exists e; auto|].
    intros i Hi. rewrite <- (Hdeg i Hi).
    assert (HP : Permutation rec (map snd (filter (chosen rec) F))).
    { apply NoDup_Permutation; [assumption| |].
      - apply NoDup_map_inj; [|apply NoDup_filter; assumption]. intros x y Hx Hy Hxy. apply filter_In in Hx, Hy.
        apply Hcv; auto; apply HFR; tauto.
      - intros q. rewrite in_map_iff. split.
        + intros Hq. destruct (Hrin q Hq) as (e & He & <-). exists e. split; [reflexivity|]. apply filter_In. split; [assumption|].
          unfold chosen. destruct (in_dec opt_eq_dec (snd e) rec); [reflexivity|contradiction].
        + intros (e & <- & He). apply filter_In in He. destruct He as [_ He]. unfold chosen in He.
          destruct (in_dec opt_eq_dec (snd e) rec); [assumption|discriminate]. }
    rewrite (xsum_perm _ _ _ HP), xsum_map, xsum_filter. apply xsum_ext. intros e He.
    rewrite (Hmem e i (HFR e He) Hi). apply andb_comm.
  Qed.
End Decode.
