(* PropsUf.v: C20 (growth), C21 (peeling), C22 (the Union-Find decoder clears the syndrome). *)
From Coq Require Import Relations.
From Verif Require Import Base Lattice RhgModel RhgSpec SurfaceModel SurfaceSpec SurfaceProofs SurfaceTheorems SurfaceGauge StabGraphModel
  Complex SurfaceComplex PropsSurface Paths MwpmModel MwpmProofs PropsMwpm UfModel UfTrees UfSpec UfPeel PropsUfTrees UfGrow UfDecode UfInst.
Open Scope nat_scope.

Lemma low_half_nd bp : NoDup bp -> NoDup (low_half bp) /\ NoDup (high_half bp).
Proof.
  intros H. rewrite <- (halves bp) in H. split.
  - revert H. generalize (high_half bp). intros m. induction (low_half bp) as [|x l IH]; simpl; [constructor|].
    intros H. inversion H; subst. constructor; [|auto]. intros HI. apply H2, in_or_app. auto.
  - apply nodup_app_r in H. assumption.
Qed.

Section Cx.
  Variables (stabs : list (list point)) (bp : list point) (ch : nat -> nat -> point).
  Hypothesis WF : wf_complex stabs bp.
  Hypothesis Hch : valid_choice stabs ch.
  Notation E := (sg_edges stabs bp ch).
  Notation n := (length stabs).

  Lemma edges_uniq e e' u v : In e E -> In e' E -> same_pair u v e = true -> same_pair u v e' = true -> e = e'.
  Proof.
    destruct e as [[a b] cv], e' as [[a' b'] cv']. intros H H' Hs Hs'. apply same_pair_iff in Hs, Hs'. simpl in Hs, Hs'.
    destruct Hs as [[-> ->]|[-> ->]], Hs' as [[-> ->]|[-> ->]].
    - rewrite (edge_data_unique stabs bp ch _ _ _ _ H H'). reflexivity.
    - exfalso. eapply (edge_direction stabs bp ch); eauto.
    - exfalso. eapply (edge_direction stabs bp ch); eauto.
    - rewrite (edge_data_unique stabs bp ch _ _ _ _ H H'). reflexivity.
  Qed.

  Lemma edges_nd : NoDup E.
  Proof.
    destruct (low_half_nd bp (wf_bp _ _ WF)) as [HL HH].
    assert (H1 : NoDup (conn_edges (low_half bp) (high_half bp))).
    { unfold conn_edges. apply NoDup_app_intro.
      - apply NoDup_map_inj; [|assumption]. intros x y _ _ [= ->]. reflexivity.
      - apply NoDup_map_inj; [|assumption]. intros x y _ _ [= ->]. reflexivity.
      - intros x Hx Hy. apply in_map_iff in Hx, Hy. destruct Hx as (p & <- & _), Hy as (q & Hq & _). discriminate. }
    assert (H2 : NoDup (stab_edges stabs ch)).
    { unfold stab_edges. apply NoDup_flat_map; [apply combos_NoDup| |].
      - intros [i j] _. simpl. destruct (shared stabs i j); repeat constructor; simpl; tauto.
      - intros [i j] [i' j'] b _ _. simpl. destruct (shared stabs i j), (shared stabs i' j'); simpl; try tauto.
        intros [<-|[]] [[= -> -> _]|[]]. reflexivity. }
    assert (H3 : NoDup (point_edges stabs (low_half bp ++ high_half bp))).
    { unfold point_edges. apply NoDup_flat_map; [apply seq_NoDup| |].
      - intros i _. apply NoDup_flat_map; [rewrite halves; apply (wf_bp _ _ WF)| |].
        + intros p _. destruct (pmem p (stab_of stabs i)); repeat constructor; simpl; tauto.
        + intros p q b _ _. destruct (pmem p (stab_of stabs i)), (pmem q (stab_of stabs i)); simpl; try tauto.
          intros [<-|[]] [[= ->]|[]]. reflexivity.
      - intros i j b _ _ Hi Hj. apply in_flat_map in Hi, Hj. destruct Hi as (p & _ & Hi), Hj as (q & _ & Hj).
        destruct (pmem p (stab_of stabs i)); [|destruct Hi]. destruct (pmem q (stab_of stabs j)); [|destruct Hj].
        destruct Hi as [<-|[]]. destruct Hj as [[= ->]|[]]. reflexivity. }
    unfold sg_edges. apply NoDup_app_intro; [assumption|apply NoDup_app_intro; [assumption|assumption|]|].
    - intros x Hx Hy. unfold stab_edges in Hx. apply in_flat_map in Hx. destruct Hx as ([i j] & _ & Hx). simpl in Hx.
      destruct (shared stabs i j); [destruct Hx|]. destruct Hx as [<-|[]].
      unfold point_edges in Hy. apply in_flat_map in Hy. destruct Hy as (k & _ & Hy). apply in_flat_map in Hy. destruct Hy as (pp & _ & Hy).
      destruct (pmem pp (stab_of stabs k)); [|destruct Hy]. destruct Hy as [Hy|[]]. discriminate.
    - intros x Hx Hy. unfold conn_edges in Hx. apply in_app_iff in Hx, Hy.
      assert (Hn : snd x = None) by (destruct Hx as [Hx|Hx]; apply in_map_iff in Hx; destruct Hx as (p & <- & _); reflexivity).
      destruct Hy as [Hy|Hy].
      + unfold stab_edges in Hy. apply in_flat_map in Hy. destruct Hy as ([i j] & _ & Hy). simpl in Hy.
        destruct (shared stabs i j); [destruct Hy|]. destruct Hy as [<-|[]]. discriminate.
      + unfold point_edges in Hy. apply in_flat_map in Hy. destruct Hy as (k & _ & Hy). apply in_flat_map in Hy. destruct Hy as (p & _ & Hy).
        destruct (pmem p (stab_of stabs k)); [|destruct Hy]. destruct Hy as [<-|[]]. discriminate.
  Qed.

  Lemma RE_some u v cv : In (u, v, cv) (RE E) -> In (u, v, cv) E /\ exists q, cv = Some q.
  Proof.
    intros H. apply RE_In in H. destruct H as (H & Hu & Hv). split; [assumption|]. apply in_E in H.
    destruct H as [(i & j & _ & _ & _ & _ & ->)|[(i & p & _ & _ & _ & _ & _ & ->)|[_ (p & _ & [[-> _]|[-> _]])]]]; eauto; discriminate.
  Qed.
  Lemma RE_cv e e' : In e (RE E) -> In e' (RE E) -> snd e = snd e' -> e = e'.
  Proof.
    destruct e as [[u v] cv], e' as [[u' v'] cv']. simpl. intros H H' <-. destruct (RE_some _ _ _ H) as [H1 (q & ->)].
    apply RE_some in H'. destruct H' as [H2 _]. destruct (edge_unique stabs bp ch WF Hch _ _ _ _ _ H1 H2) as [-> ->]. reflexivity.
  Qed.

  (* a qubit on an edge is in the stabilizers at the ends of the edge, and in no other *)
  Lemma RE_mem e i : In e (RE E) -> i < n -> in_stab stabs i (snd e) = incident (NStab i) e.
  Proof.
    destruct e as [[u v] cv]. intros H Hi. destruct (RE_some _ _ _ H) as [H1 _]. simpl snd.
    destruct (cv_toggle stabs bp ch WF Hch u v cv i Hi (or_introl H1)) as [-> _].
    assert (Hend : forall w, is_end w i = sneqb w (NStab i)).
    { intros []; simpl; unfold sneqb; try (destruct (snode_eq_dec _ _); [discriminate|reflexivity]).
      destruct (Nat.eqb_spec i0 i) as [->|Hne]; destruct (snode_eq_dec _ _); congruence. }
    rewrite !Hend. unfold incident. simpl.
    destruct (sneqb u (NStab i)) eqn:Eu, (sneqb v (NStab i)) eqn:Ev; try reflexivity.
    apply sneqb_iff in Eu, Ev. subst. exfalso. eapply (edge_direction stabs bp ch); eauto.
  Qed.

  Lemma stab_in_N i q : i < n -> In q (stab_of stabs i) -> exists e, In e (RE E) /\ incident (NStab i) e = true.
  Proof.
    intros Hi Hq. destruct (holders_count stabs bp WF q i Hi Hq) as [[Hb _]|[Hb Hl]].
    - exists (NStab i, NPt q, Some q). split; [|apply incident_iff; auto]. apply RE_In. split; [|auto].
      apply in_E. right; left. exists i, q. repeat split; auto.
    - assert (Hj : exists j, In j (holders stabs q) /\ j <> i).
      { pose proof (holders_NoDup stabs q) as Hn. destruct (holders stabs q) as [|a [|b [|]]]; try discriminate.
        inversion Hn; subst. simpl in *. destruct (Nat.eq_dec a i) as [->|]; [exists b|exists a]; (split; [tauto|]); [|assumption]. intros ->. tauto. }
      destruct Hj as (j & Hj & Hne). apply in_holders in Hj. destruct Hj as [Hj Hqj].
      destruct (proj2 (stab_adj stabs bp ch Hch i j Hi Hj (not_eq_sym Hne)) (ex_intro _ q (conj Hq Hqj))) as (cv & H).
      destruct H as [H|H]; eexists; (split; [apply RE_In; split; [exact H|auto]|apply incident_iff; auto]).
  Qed.
End Cx.

Section UfCode.
  Variables (D : dims) (e : ecx) (b : bdk) (pol : option (point * point -> Z)) (c : scode).
  Hypothesis H2 : dims_ge2 D.
  Hypothesis HC : is_surface_code D e b pol c.
  Variable ch : nat -> nat -> point.
  Hypothesis Hch : valid_choice (sc_stabs c) ch.
  Notation E := (sg_edges (sc_stabs c) (sc_bound c) ch).
  Notation n := (length (sc_stabs c)).
  Let WF := surface_wf D e b pol c H2 HC.

  Variable bit : point -> bool.
  Notation sp := (fun i => stab_parity bit (stab_of (sc_stabs c) i)).
  Variable N : list snode.
  Hypothesis HNd : NoDup N.
  Hypothesis HN : forall x, In x N <-> exists e, In e (RE E) /\ incident x e = true.

  Lemma N_cases x : In x N -> (exists i, x = NStab i /\ i < n) \/ (exists p i, x = NPt p /\ i < n /\ conn (RE E) x (NStab i) /\ In p (sc_bound c)).
  Proof.
    intros H. apply HN in H. destruct H as ([[u v] cv] & H & Hi). pose proof H as HR. apply RE_In in H. destruct H as (H & Hu & Hv).
    apply incident_iff in Hi. pose proof H as H'. apply in_E in H'.
    destruct H' as [(i & j & -> & -> & Hij & _)|[(i & p & -> & -> & Hlt & Hp & _)|[_ (p & _ & [[-> _]|[-> _]])]]]; [| |discriminate|discriminate].
    - left. destruct Hi as [<-|<-]; eexists; (split; [reflexivity|lia]).
    - destruct Hi as [<-|<-]; [left; eauto|]. right. exists p, i. split; [reflexivity|]. split; [assumption|]. split; [|assumption].
      apply rst_sym, rst_step. eauto.
  Qed.

  Lemma radj_conn u v : (exists p, is_path (radj E) u v p) -> conn (RE E) u v.
  Proof.
    intros (p & Hp). apply ipath_of in Hp. induction Hp as [u|u x v p Hux Hp Hi IH]; [apply rst_refl|].
    apply rst_trans with x; [|assumption]. destruct Hux as [[cv [H|H]] [Hu Hx]].
    - apply rst_step. exists cv. apply RE_In. auto.
    - apply rst_sym, rst_step. exists cv. apply RE_In. auto.
  Qed.

  Lemma uf_conn x y : In x N -> In y N -> conn (RE E) x y.
  Proof.
    assert (Hto : forall x, In x N -> exists i, i < n /\ conn (RE E) x (NStab i)).
    { intros z Hz. destruct (N_cases z Hz) as [(i & -> & Hi)|(p & i & -> & Hi & Hc & _)]; exists i; (split; [assumption|]); [apply rst_refl|assumption]. }
    intros Hx Hy. destruct (Hto x Hx) as (i & Hi & Hxi), (Hto y Hy) as (j & Hj & Hyj).
    eapply rst_trans; [exact Hxi|]. eapply rst_trans; [|apply rst_sym; exact Hyj].
    apply radj_conn. exact (code_conn D e b pol c H2 HC ch Hch i j Hi Hj).
  Qed.

  Lemma sp_notin i : ~ In (NStab i) N -> sp i = false.
  Proof.
    intros H. destruct (lt_dec i n) as [Hi|Hi].
    - unfold stab_parity. apply xsum_all_false. intros q Hq. exfalso. apply H, HN.
      eapply stab_in_N; eauto.
    - unfold stab_of. rewrite nth_overflow by lia. reflexivity.
  Qed.

  Lemma uf_even : (exists x, In x N /\ label sp x = None) \/ xsum (fun x => parb (label sp x)) N = false.
  Proof.
    assert (Hb : sc_bound c = [] \/ exists p, In p (sc_bound c)) by (clear; destruct (sc_bound c) as [|p l]; [auto|right; exists p; left; reflexivity]).
    destruct Hb as [Eb|(p & Hp)].
    - right. pose proof (code_even D e b pol c H2 HC bit Eb) as Hev. unfold odd_stabs in Hev.
      rewrite <- Nat.negb_odd, <- xsum_odd in Hev. apply negb_true_iff in Hev. rewrite <- Hev.
      set (all := map NStab (seq 0 n)).
      transitivity (xsum (fun x => parb (label sp x)) all); [|unfold all; rewrite xsum_map; reflexivity].
      rewrite (xsum_indicator snode_eq_dec _ N all).
      + apply xsum_ext. intros x Hx. destruct (in_dec snode_eq_dec x N) as [HI|HI]; [reflexivity|]. simpl.
        apply in_map_iff in Hx. destruct Hx as (i & <- & _). symmetry. simpl. apply sp_notin. assumption.
      + assumption.
      + apply NoDup_map_inj; [|apply seq_NoDup]. intros x y _ _ [= ->]. reflexivity.
      + intros x Hx. destruct (N_cases x Hx) as [(i & -> & Hi)|(p & i & -> & Hi & _ & Hp)].
        * apply in_map, in_seq. lia.
        * rewrite Eb in Hp. destruct Hp.
    - left. exists (NPt p). split; [|reflexivity]. apply HN.
      pose proof (wf_one _ _ WF p Hp) as Hone. rewrite <- holders_length in Hone.
      destruct (holders (sc_stabs c) p) as [|i l] eqn:Eh; [discriminate|].
      assert (Hi : In i (holders (sc_stabs c) p)) by (rewrite Eh; left; reflexivity). apply in_holders in Hi. destruct Hi as [Hi Hq].
      exists (NStab i, NPt p, Some p). split; [|apply incident_iff; auto]. apply RE_In. split; [|auto].
      apply in_E. right; left. exists i, p. repeat split; auto.
  Qed.
End UfCode.

(* ------------------------------------------------------------------ *)
(* C20.  For every code, syndrome, set of erased qubits, iteration order and library answer
   that meets its contract: the loop ends without error, within a number of rounds that
   depends only on the number of edges, every erased edge is in the support, and every
   cluster (a class of nodes connected by fully grown edges) has an even number of odd
   stabilizers or contains a boundary point. *)
Definition odd_node (c : scode) (bit : point -> bool) (x : snode) : bool :=
  match x with NStab i => stab_parity bit (stab_of (sc_stabs c) i) | _ => false end.

Theorem C20_growth_ends_even :
  forall D e b pol c ch er lib sch fuel bit,
  dims_ge2 D -> is_surface_code D e b pol c -> valid_choice (sc_stabs c) ch ->
  let E := sg_edges (sc_stabs c) (sc_bound c) ch in
  let N := l_nodes lib (RE E) in
  lib_ok E lib -> sched_ok sch -> 2 * length E + 2 <= fuel ->
  exists s,
    grow_clusters E er (fun i => stab_parity bit (stab_of (sc_stabs c) i)) (l_out lib) sch fuel fuel
      (l_comps lib N (filter (erased er) (RE E))) = Ok s /\
    (forall u v q, In (u, v, Some q) (RE E) -> er q = true -> In (u, v, Some q) (grown_edges E (u_st s))) /\
    forall x, In x N -> exists M, NoDup M /\
      (forall y, In y M <-> In y N /\ conn (grown_edges E (u_st s)) x y) /\
      (Nat.even (length (filter (odd_node c bit) M)) = true \/ exists p, In (NPt p) M /\ In p (sc_bound c)).
Proof.
  intros D e b pol c ch er lib sch fuel bit H2 HC Hch E N Hlib Hsch Hf.
  pose proof (surface_wf D e b pol c H2 HC) as WF. destruct (proj1 (proj2 Hlib) (RE E)) as [HNd HN]. fold N in HNd, HN.
  destruct (growth_ok E er (fun i => stab_parity bit (stab_of (sc_stabs c) i)) lib sch fuel) as (s & Es & Her & Hcl); auto.
  - intros; eapply edges_uniq; eauto.
  - apply (uf_conn D e b pol c H2 HC ch Hch bit N HN).
  - apply (uf_even D e b pol c H2 HC ch Hch bit N HNd HN).
  - exists s. split; [exact Es|]. split.
    + intros u v q Hq Hr. apply filter_In. split; [assumption|]. rewrite Her; [reflexivity|exact Hr].
    + intros x Hx. destruct (Hcl x Hx) as (M & HM1 & HM2 & HM3). exists M. split; [assumption|]. split; [assumption|].
      destruct HM3 as [Hev|(y & Hy & Hl)].
      * left. rewrite <- Nat.negb_odd, <- xsum_odd. apply negb_true_iff. rewrite <- Hev. apply xsum_ext. intros []; reflexivity.
      * right. pose proof (proj1 (proj1 (HM2 y) Hy)) as HyN.
        destruct (N_cases D c ch bit N HN y HyN) as [(i & -> & _)|(p & i & -> & _ & _ & Hp)]; [discriminate|eauto].
Qed.
Print Assumptions C20_growth_ends_even.

(* ------------------------------------------------------------------ *)
(* C21.  V: the nodes of the forest by index, F: its edges, each with its own qubit;
   parity: a 0/1 label for every node, summing to an even number over every tree.  Peeling
   ends without error and the number of chosen edges at a node is odd exactly if the label of
   the node is 1.  The orders in which leaves and edges are visited are those of V and F. *)
Theorem C21_peeling_matches_parities :
  forall V F parity trees fuel,
  NoDup V -> forest F -> (forall a b cv, In (a, b, cv) F -> In a V /\ In b V) ->
  (forall e e', In e F -> In e' F -> snd e = snd e' -> e = e') ->
  components V F trees ->
  (forall x, In x V -> exists k, parity x = Some k) ->
  (forall t, In t trees -> Nat.even (length (filter (fun x => match parity x with Some true => true | _ => false end) t)) = true) ->
  length F <= fuel ->
  exists rec, peeling fuel V F parity = Ok rec /\ NoDup rec /\
    (forall q, In q rec -> exists e, In e F /\ snd e = q) /\
    forall x, In x V ->
      (Nat.odd (length (filter (fun e => incident x e && if in_dec opt_eq_dec (snd e) rec then true else false) F)) = true
       <-> parity x = Some true).
Proof.
  intros V F parity trees fuel HV HF HFV Hcv (C1 & C2 & C3 & C4) Hpd Hev Hf.
  assert (Hpb : forall x, pb parity x = match parity x with Some true => true | _ => false end).
  { intros x. unfold pb. destruct (parity x) as [[]|]; reflexivity. }
  destruct (peeling_ok V F parity HV HF) with (fuel := fuel) as (rec & Er & Hnd & Hin & Hdeg); auto.
  - intros v Hv. destruct (Hpd v Hv) as (k & ->). discriminate.
  - intros S HS. rewrite <- (xsum_perm _ _ _ C1).
    replace (concat trees) with (flat_map (fun t => t) trees) by (rewrite flat_map_concat_map, map_id; reflexivity).
    rewrite xsum_flat_map. apply xsum_all_false. intros t Ht.
    destruct t as [|x t'] eqn:Et; [exfalso; exact (C2 _ Ht eq_refl)|]. rewrite <- Et in *.
    rewrite (xsum_ext _ (fun y => S x && pb parity y)).
    + rewrite xsum_andb_l. specialize (Hev t Ht). rewrite <- Nat.negb_odd, <- xsum_odd in Hev. apply negb_true_iff in Hev.
      rewrite (xsum_ext _ _ t (fun x _ => Hpb x)), Hev. apply andb_false_r.
    + intros y Hy. f_equal. assert (Hxy : conn F x y) by (apply (C3 t); auto; rewrite Et; left; reflexivity).
      assert (Hiff : S x = true <-> S y = true).
      { apply (conn_closed F (fun z => S z = true) x y); [|assumption]. intros a b cv HI. rewrite (HS a b cv HI). reflexivity. }
      destruct (S x), (S y); intuition congruence.
  - exists rec. split; [assumption|]. split; [assumption|]. split; [assumption|]. intros x Hx.
    specialize (Hdeg x Hx). rewrite Hpb in Hdeg. rewrite <- xsum_odd. unfold rdeg, chosen in Hdeg. rewrite Hdeg.
    destruct (parity x) as [[]|]; split; congruence.
Qed.
Print Assumptions C21_peeling_matches_parities.

Example C21_example :
  let s := NStab in
  let q k := Some (Z.of_nat k, 0, 0)%Z in
  let V := [s 0; s 1; s 2; s 3; s 4; s 5] in
  let F := [(s 0, s 1, q 1); (s 1, s 2, q 2); (s 3, s 1, q 3); (s 4, s 5, q 4)] in
  let parity x := Some (smem x [s 0; s 3; s 4; s 5]) in
  peeling 4 V F parity = Ok [q 4; q 3; q 1].
Proof. vm_compute. reflexivity. Qed.

(* ------------------------------------------------------------------ *)
(* C22 *)
Theorem C22_uf_clears_syndrome :
  forall D e b pol c ch er lib sch fuel bit sanity,
  dims_ge2 D -> is_surface_code D e b pol c -> valid_choice (sc_stabs c) ch ->
  let E := sg_edges (sc_stabs c) (sc_bound c) ch in
  lib_ok E lib -> sched_ok sch -> 2 * length E + 2 <= fuel ->
  exists qs bit' r,
    uf_decoder E er (fun i => stab_parity bit (stab_of (sc_stabs c) i)) lib sch fuel = Ok qs /\
    (* the recovery set consists of syndrome qubits *)
    NoDup qs /\ (forall x, In x qs -> exists q, x = Some q /\ In q (sc_syn c)) /\
    recovery (node_list (sc_graph c)) qs bit = Ok bit' /\
    correct_uf c ch er lib sch fuel bit sanity = Ok (bit', r) /\
    (* exactly the qubits of the recovery set are flipped *)
    (forall q, bit' q = xorb (bit q) (omem (Some q) qs)) /\
    (* and after recovery no stabilizer has odd parity *)
    (forall st, In st (sc_stabs c) -> stab_parity bit' st = false).
Proof.
  intros D e b pol c ch er lib sch fuel bit sanity H2 HC Hch E Hlib Hsch Hf.
  pose proof (surface_wf D e b pol c H2 HC) as WF. destruct (proj1 (proj2 Hlib) (RE E)) as [HNd HN].
  set (N := l_nodes lib (RE E)) in *.
  assert (HNi : forall i, In (NStab i) N -> i < length (sc_stabs c)).
  { intros i Hi. destruct (N_cases D c ch bit N HN _ Hi) as [(j & [= ->] & Hj)|(p & j & Hc & _)]; [assumption|discriminate]. }
  destruct (decode_sum E er (fun i => stab_parity bit (stab_of (sc_stabs c) i)) lib sch fuel)
    with (mem := fun q i => in_stab (sc_stabs c) i q) as (s & qs & _ & Hd & Hnd & Hin0 & Hx); auto.
  - intros; eapply edges_uniq; eauto.
  - apply edges_nd. assumption.
  - intros; eapply RE_cv; eauto.
  - apply (uf_conn D e b pol c H2 HC ch Hch bit N HN).
  - apply (uf_even D e b pol c H2 HC ch Hch bit N HNd HN).
  - intros ed i He Hi. eapply RE_mem; eauto.
  - fold N in Hx.
    assert (Hin : forall q, In q qs -> exists e, In e (RE E) /\ snd e = q).
    { intros q Hq. destruct (Hin0 q Hq) as (e0 & He & Hs). apply filter_In in He. exists e0. tauto. }
    assert (Hall : forall x, In x qs -> exists q, x = Some q /\ In q (sc_syn c)).
    { intros x Hxq. destruct (Hin x Hxq) as ([[u v] cv] & He & <-). simpl.
      destruct (RE_some _ _ _ _ _ _ He) as [HE (q & ->)]. exists q. split; [reflexivity|].
      pose proof (cv_in (sc_stabs c) (sc_bound c) ch Hch u v q) as Hcv.
      assert (Hst : In q (concat (sc_stabs c))) by (apply Hcv; auto).
      apply in_concat in Hst. destruct Hst as (st & Hst & Hqs).
      apply (syn_graph D e b pol c H2 HC). apply (stab_nodes D e b pol c H2 HC st); assumption. }
    assert (Hnodes : forall x, In x qs -> exists q, x = Some q /\ In q (node_list (sc_graph c))).
    { intros x Hxq. destruct (Hall x Hxq) as (q & -> & Hq'). exists q. split; [reflexivity|].
      apply (syn_graph D e b pol c H2 HC) in Hq'. tauto. }
    destruct (recovery_ok _ qs Hnodes bit) as (bit' & Hr & Hb).
    assert (Hb' : forall x, bit' x = xorb (bit x) (omem (Some x) qs)).
    { intros x. rewrite Hb. f_equal. apply xsum_mem. assumption. }
    destruct (C11_code_distance D e b pol c H2 HC) as (_ & _ & Hck). destruct (Hck bit' sanity) as (r & Hck').
    exists qs, bit', r. split; [assumption|]. split; [assumption|]. split; [assumption|]. split; [assumption|].
    split; [unfold correct_uf; fold E; rewrite Hd; simpl; rewrite Hr; simpl; rewrite Hck'; reflexivity|].
    split; [assumption|]. intros st Hst. apply (In_nth _ _ []) in Hst. destruct Hst as (i & Hi & <-).
    destruct (in_dec snode_eq_dec (NStab i) N) as [HiN|HiN].
    + rewrite (parity_flip _ qs bit bit'); [|apply (wf_nd _ _ WF), nth_In; assumption|assumption|assumption].
      specialize (Hx i HiN). unfold stab_of in Hx. rewrite <- Hx.
      etransitivity; [|apply (xorb_nilpotent (xsum (in_stab (sc_stabs c) i) qs))]. f_equal.
    + unfold stab_parity. apply xsum_all_false. intros q Hq. exfalso. apply HiN, HN.
      eapply stab_in_N; eauto.
Qed.
Print Assumptions C22_uf_clears_syndrome.

(* The contracts are met for every code, and the fuel bound can always be met. *)
Example C22_nonvacuous : forall E, exists lib sch fuel, lib_ok E lib /\ sched_ok sch /\ 2 * length E + 2 <= fuel.
Proof.
  intros E. exists (kruskal_lib E), rev_sched, (2 * length E + 2). split; [apply kruskal_lib_ok|].
  split; [apply rev_sched_ok|apply le_n].
Qed.

(* a run on a code with boundary: two errors, one erased qubit *)
Example C22_run :
  let c := mk_code (3, 2, 2)%Z EcPrimal BdOpen None in
  let ch := fun i j => hd (0, 0, 0)%Z (shared (sc_stabs c) i j) in
  let E := sg_edges (sc_stabs c) (sc_bound c) ch in
  let q1 := (2, 1, 1)%Z in let q2 := (2, 3, 3)%Z in
  let bit q := pmem q [q1; q2] in
  pmem q1 (sc_syn c) = true /\ pmem q2 (sc_syn c) = true /\
  uf_decoder E (fun q => peqb q q2) (fun i => stab_parity bit (stab_of (sc_stabs c) i)) (kruskal_lib E) id_sched (2 * length E + 2)
  = Ok [Some q2; Some q1].
Proof. cbv zeta. split; [vm_compute; reflexivity|]. split; [vm_compute; reflexivity|]. vm_compute. reflexivity. Qed.

(* ------------------------------------------------------------------ *)
(* C22, second part: without a syndrome nothing is flipped, whatever was erased. *)
Lemma trim_trivial fuel : forall s leaf s', trim fuel s leaf = Ok s' -> (forall x, p_pd s x <> Some true) -> p_rec s = [] ->
  (forall x, p_pd s' x <> Some true) /\ p_rec s' = [].
Proof.
  induction fuel as [|fuel IH]; intros s leaf s' H Hp Hr; cbn [trim] in H;
    (destruct (filter (incident leaf) (p_F s)) as [|ed l]; [injection H as <-; auto|]);
    (destruct (p_pd s leaf) as [pl|] eqn:E; [|discriminate]);
    (destruct pl; [exfalso; exact (Hp leaf E)|]); cbn [bind] in H;
    destruct (degree _ _ =? 1); try discriminate; try (injection H as <-; auto; fail).
  apply IH in H; assumption.
Qed.

Lemma tree_parity_false t x : tree_parity (fun _ => false) t x <> Some true.
Proof.
  unfold tree_parity.
  assert (Hz : length (filter (fun x => match x with NStab _ => false | _ => false end) t) = 0).
  { induction t as [|y t IH]; [reflexivity|]. simpl. destruct y; assumption. }
  cbv zeta. rewrite Hz. simpl Nat.odd. cbv iota.
  assert (G : forall t pd, (forall x : snode, pd x <> Some true) ->
    fold_left (fun pd x => match x with NStab _ => supd pd x (Some false) | _ => supd pd x (Some false) end) t pd x <> Some true).
  { clear t Hz. induction t as [|y t IH]; intros pd H; simpl; [apply H|]. apply IH. intros z.
    destruct y; unfold supd; destruct (snode_eq_dec z _); congruence || apply H. }
  apply G. discriminate.
Qed.

Lemma parity_dict_false ts x : parity_dict (fun _ => false) ts x <> Some true.
Proof.
  unfold parity_dict. assert (G : forall ts pd, (forall x : snode, pd x <> Some true) ->
    fold_left (fun pd tree x => match tree_parity (fun _ => false) tree x with Some b => Some b | None => pd x end) ts pd x <> Some true).
  { clear ts. induction ts as [|t ts IH]; intros pd H; simpl; [apply H|]. apply IH. intros z.
    pose proof (tree_parity_false t z). destruct (tree_parity (fun _ => false) t z); [congruence|apply H]. }
  apply G. discriminate.
Qed.

Lemma parity_dict_ext sp sp' ts : (forall i, sp i = sp' i) -> forall x, parity_dict sp ts x = parity_dict sp' ts x.
Proof.
  intros H. assert (T : forall t x, tree_parity sp t x = tree_parity sp' t x).
  { intros t x. unfold tree_parity. cbv zeta.
    assert (Hl : length (filter (fun x => match x with NStab i => sp i | _ => false end) t)
               = length (filter (fun x => match x with NStab i => sp' i | _ => false end) t)).
    { f_equal. apply filter_ext. intros []; auto. }
    rewrite Hl. assert (Hf : forall t (pd pd' : snode -> option bool), (forall x, pd x = pd' x) -> forall x,
      fold_left (fun pd x => match x with NStab i => supd pd x (Some (sp i)) | _ => supd pd x (Some false) end) t pd x =
      fold_left (fun pd x => match x with NStab i => supd pd x (Some (sp' i)) | _ => supd pd x (Some false) end) t pd' x).
    { clear t Hl x. induction t as [|y t IH]; intros pd pd' Hpd x; simpl; [apply Hpd|]. apply IH. intros z.
      destruct y; unfold supd; destruct (snode_eq_dec z _); rewrite ?H; auto. }
    destruct (Nat.odd _); [|apply Hf; reflexivity]. destruct (fold_left _ t None); [|apply Hf; reflexivity].
    match goal with |- supd ?f s ?v x = supd ?g s ?v x => assert (Hfg : f x = g x) by (apply Hf; reflexivity); revert Hfg; generalize f, g end.
    intros f g Hfg. unfold supd. destruct (snode_eq_dec x s); [reflexivity|exact Hfg]. }
  unfold parity_dict. assert (G : forall ts (pd pd' : snode -> option bool), (forall x, pd x = pd' x) -> forall x,
    fold_left (fun pd tree x => match tree_parity sp tree x with Some b => Some b | None => pd x end) ts pd x =
    fold_left (fun pd tree x => match tree_parity sp' tree x with Some b => Some b | None => pd x end) ts pd' x).
  { clear ts. induction ts as [|t ts IH]; intros pd pd' Hpd x; simpl; [apply Hpd|]. apply IH. intros z. rewrite T, Hpd. reflexivity. }
  apply G. reflexivity.
Qed.

Theorem C22_no_syndrome_no_flip :
  forall D e b pol c ch er lib sch fuel bit sanity,
  dims_ge2 D -> is_surface_code D e b pol c -> valid_choice (sc_stabs c) ch ->
  let E := sg_edges (sc_stabs c) (sc_bound c) ch in
  lib_ok E lib -> sched_ok sch -> 2 * length E + 2 <= fuel ->
  (forall st, In st (sc_stabs c) -> stab_parity bit st = false) ->
  exists bit' r, correct_uf c ch er lib sch fuel bit sanity = Ok (bit', r) /\ forall q, bit' q = bit q.
Proof.
  intros D e b pol c ch er lib sch fuel bit sanity H2 HC Hch E Hlib Hsch Hf Hz.
  destruct (C22_uf_clears_syndrome D e b pol c ch er lib sch fuel bit sanity H2 HC Hch Hlib Hsch Hf)
    as (qs & bit' & r & Hd & _ & _ & _ & Hc & Hb & _).
  exists bit', r. split; [exact Hc|]. intros q. rewrite Hb.
  assert (Hq : qs = []); [|subst; destruct (bit q); reflexivity].
  assert (Hsp : forall i, stab_parity bit (stab_of (sc_stabs c) i) = false).
  { intros i. destruct (lt_dec i (length (sc_stabs c))) as [Hi|Hi]; [apply Hz, nth_In; assumption|].
    unfold stab_of. rewrite nth_overflow by lia. reflexivity. }
  fold E in Hd. unfold uf_decoder in Hd. destruct (grow_clusters _ _ _ _ _ _ _ _) as [s|]; [|discriminate]. simpl in Hd.
  unfold peeling in Hd.
  match type of Hd with bind (foldM (trim fuel) {| p_F := ?F; p_pd := ?P; p_rec := [] |} ?L) _ = _ =>
    assert (HP : forall x, P x <> Some true); [|revert Hd; generalize P, HP; clear; generalize F, L]
  end.
  - intros x. rewrite (parity_dict_ext _ (fun _ => false)) by exact Hsp. apply parity_dict_false.
  - intros F L pd Hpd Hd.
    assert (G : forall L s s', (forall x, p_pd s x <> Some true) -> p_rec s = [] -> foldM (trim fuel) s L = Ok s' -> p_rec s' = []).
    { clear. induction L as [|x L IH]; intros s s' H1 H2 H; simpl in H; [injection H as <-; assumption|].
      destruct (trim fuel s x) as [s1|] eqn:E; [|discriminate]. simpl in H. apply trim_trivial in E; auto. destruct E. eapply IH; eauto. }
    destruct (foldM (trim fuel) _ L) as [s'|] eqn:Ef; [|discriminate]. simpl in Hd. injection Hd as <-. eapply G; [| |exact Ef]; auto.
Qed.
Print Assumptions C22_no_syndrome_no_flip.
