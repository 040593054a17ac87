(* UfGeometry.v: the real edges of the stabilizer graph of a surface code, along one of the
   directions in which logical errors propagate.  Lemmas behind C54 and C55. *)
From Coq Require Import Relations.
From Verif Require Import Base Lattice RhgModel RhgSpec RhgProofs RhgDegree SurfaceModel SurfaceSpec SurfaceProofs SurfaceIncidence SurfaceTheorems
  StabGraphModel Complex Paths SurfaceComplex MwpmModel MwpmProofs UfModel UfTrees UfSpec UfPeel PropsUfTrees UfGrow UfSync UfArcs UfDistance UfDecode UfInst PropsUf.
Open Scope Z_scope.

Lemma k_out_nd (E : list sedge) : NoDup E ->
  (forall e e' u v, In e E -> In e' E -> same_pair u v e = true -> same_pair u v e' = true -> e = e') ->
  (forall a b cv, In (a, b, cv) E -> a <> b) -> forall u, NoDup (k_out E u).
Proof.
  intros Hn Hu Hl u. unfold k_out.
  assert (Hin : forall (e : sedge) v, In v ((if snode_eq_dec (fst (fst e)) u then [snd (fst e)] else []) ++ (if snode_eq_dec (snd (fst e)) u then [fst (fst e)] else [])) ->
    same_pair u v e = true).
  { intros [[a b] cv] v H. apply same_pair_iff. cbn [fst snd] in *. apply in_app_or in H.
    destruct H as [H|H]; [destruct (snode_eq_dec a u) as [->|]|destruct (snode_eq_dec b u) as [->|]]; ((destruct H as [<-|[]]; auto) || destruct H). }
  apply NoDup_flat_map; [assumption| |].
  - intros [[a b] cv] H. cbn [fst snd]. pose proof (Hl a b cv H).
    destruct (snode_eq_dec a u), (snode_eq_dec b u); simpl; try congruence; repeat constructor; simpl; tauto.
  - intros e e' v He He' H H'. apply (Hu e e' u v); auto.
Qed.

Section Geo.
  Variables (D : dims) (e : ecx) (b : bdk) (pol : option (point * point -> Z)) (c : scode).
  Hypothesis H2 : dims_ge2 D.
  Hypothesis HC : is_surface_code D e b pol c.
  Variable ch : nat -> nat -> point.
  Hypothesis Hch : valid_choice (sc_stabs c) ch.
  Notation stabs := (sc_stabs c).
  Notation E := (sg_edges (sc_stabs c) (sc_bound c) ch).
  Notation n := (length (sc_stabs c)).
  Notation B := (code_bnds e b).
  Let WF := surface_wf D e b pol c H2 HC.
  Let CF : code_facts D e b pol c := surface_code_facts D e b pol c (ge2_ok D B H2) HC.
  Notation ctr := (ctr D e b).

  Variable a : axis.
  Hypothesis Ha : In a (logical_axes e b).
  Definition modulus : Z := match get a B with BPeriodic => 2 * get a D | _ => 0 end.
  Definition dlt (x y : Z) : Z := if (x - y =? 1) || (x - y =? 1 - modulus) then 1 else -1.
  Definition pos (x : snode) : Z :=
    match x with
    | NStab i => co a (ctr i)
    | NPt p => if co a p =? par e then co a p - 1 else co a p + 1
    | _ => 0
    end.
  Definition dir (ed : sedge) : Z :=
    match snd ed with
    | Some q => if co a q mod 2 =? par e then dlt (co a q) (pos (fst (fst ed))) else 0
    | None => 0
    end.

  Lemma syn_site q : In q (sc_syn c) -> site D B q /\ exists a', has_axis e q a'.
  Proof. intros H. apply (cf_syn _ _ _ _ _ CF) in H. apply qubit_axis_iff in H. assumption. Qed.
  Lemma stab_in_syn i q : (i < n)%nat -> In q (stab_of stabs i) -> In q (sc_syn c).
  Proof. intros Hi Hq. apply (stab_syn D e b pol c H2 HC (stab_of stabs i)); [apply nth_In|]; assumption. Qed.

  Lemma dlt_pm x y : dlt x y = 1 \/ dlt x y = -1.
  Proof. unfold dlt. destruct (_ || _); auto. Qed.

  (* the centre of a cell beside a qubit *)
  Lemma beside i q : (i < n)%nat -> In q (stab_of stabs i) ->
    (co a q mod 2 = par e -> (modulus | co a (ctr i) + dlt (co a q) (co a (ctr i)) - co a q) /\
       (co a (ctr i) = nxt (get a D) (co a q) /\ dlt (co a q) (co a (ctr i)) = -1 \/ co a (ctr i) = prv (get a D) (co a q) /\ dlt (co a q) (co a (ctr i)) = 1) /\
       (forall a', a' <> a -> co a' (ctr i) = co a' q)) /\
    (co a q mod 2 <> par e -> co a (ctr i) = co a q).
  Proof.
    intros Hi Hq. destruct (stab_ctr D e b pol c H2 HC i Hi) as [Hcell Hst]. pose proof (proj1 (Hst q) Hq) as Hon.
    destruct (syn_site q (stab_in_syn i q Hi Hq)) as [Hs (a' & Ha')].
    destruct (proj1 (cells_of_qubit D e B H2 q a' Hs Ha' (ctr i)) (conj Hcell Hon)) as [Hsc Hm].
    apply in_moves in Hm. destruct Hm as [Hm Ho].
    assert (Hax : co a q mod 2 = par e <-> a' = a).
    { destruct Ha' as [A1 A2]. split; [|intros <-; assumption]. intros Hp. destruct (axis_eq_dec a a') as [|Hne]; [congruence|].
      specialize (A2 a Hne). unfold par in *. destruct e; lia. }
    split.
    - intros Hp. apply Hax in Hp. subst a'. split; [|split; [|assumption]].
      + pose proof (H2 a) as Hd. pose proof (Hsc a) as R1. pose proof (Hs a) as R2. unfold modulus, dlt, modulus in *.
        unfold nxt, prv in Hm.
        destruct (get a B) eqn:EB; simpl in R1, R2.
        1, 2: (match goal with |- (0 | ?z) => assert (Hz : z = 0) end;
          [destruct (co a q =? 2 * get a D - 1) eqn:?, (co a q =? 0) eqn:?; destruct Hm as [Hm|Hm]; rewrite Hm in *;
           match goal with |- context [if ?t then _ else _] => destruct t eqn:?E0 end; lia|rewrite Hz; apply Z.divide_0_r]).
        match goal with |- (?m | ?z) => assert (Hz : z = 0 \/ z = m \/ z = - m) end;
          [destruct (co a q =? 2 * get a D - 1) eqn:?, (co a q =? 0) eqn:?; destruct Hm as [Hm|Hm]; rewrite Hm in *;
           match goal with |- context [if ?t then _ else _] => destruct t eqn:?E0 end; lia|].
        destruct Hz as [->|[->| ->]]; [apply Z.divide_0_r|apply Z.divide_refl|apply Z.divide_opp_r, Z.divide_refl].
      + pose proof (H2 a) as Hd. pose proof (Hsc a) as R1. pose proof (Hs a) as R2. unfold dlt, modulus.
        unfold nxt, prv in *. destruct (get a B) eqn:EB; simpl in R1, R2;
        destruct (co a q =? 2 * get a D - 1) eqn:?, (co a q =? 0) eqn:?; (destruct Hm as [Hm|Hm]; [left|right]); (split; [exact Hm|]); rewrite Hm in *;
           match goal with |- context [if ?t then _ else _] => destruct t eqn:?E0 end; lia.
    - intros Hp. apply Ho. intros <-. apply Hp, Hax. reflexivity.
  Qed.

  (* boundary qubits *)
  Lemma bound_axis p : In p (sc_bound c) -> b = BdOpen /\ get a B = ec_bnd e /\ modulus = 0 /\ co a p mod 2 = par e /\
    (co a p = par e \/ co a p = hi e (get a D)).
  Proof.
    intros Hp. unfold sc_bound in Hp. apply in_app_iff in Hp. rewrite (cf_low _ _ _ _ _ CF), (cf_high _ _ _ _ _ CF) in Hp.
    assert (Hb : b = BdOpen) by (destruct Hp as [[_ (x & Hx & _)]|[_ (x & Hx & _)]]; destruct b; simpl in Hx; congruence).
    split; [assumption|]. pose proof Ha as Ea. rewrite Hb in Ea, Hp. simpl in Ea. destruct Ea as [Ea|[]].
    assert (Hv : co a p = par e \/ co a p = hi e (get a D)).
    { destruct Hp as [[_ (x & Hx & Hv)]|[_ (x & Hx & Hv)]]; simpl in Hx; injection Hx as <-; rewrite Ea in Hv; unfold par, hi, par; destruct e; [left|left|right|right]; lia. }
    split; [rewrite Hb, <- Ea; clear; destruct e; reflexivity|]. split; [unfold modulus; rewrite Hb, <- Ea; clear; destruct e; reflexivity|].
    split; [|assumption]. unfold hi, par in *. clear - Hv. destruct e; lia.
  Qed.

  (* a real edge and its qubit *)
  Lemma edge_geo u v q : In (u, v, Some q) (RE E) -> In q (sc_syn c) /\
    (modulus | pos v - pos u - 2 * dir (u, v, Some q)) /\
    (co a q mod 2 = par e -> dir (u, v, Some q) <> 0 /\ (modulus | co a q - (pos u + dir (u, v, Some q)))) /\
    Z.abs (dir (u, v, Some q)) <= 1.
  Proof.
    intros H. apply RE_In in H. destruct H as (H & _ & _). apply in_E in H.
    assert (Habs : forall x, Z.abs (dlt (co a q) x) = 1) by (intros x; destruct (dlt_pm (co a q) x) as [->| ->]; reflexivity).
    destruct H as [(i & j & -> & -> & Hij & Hs & [= ->])|[(i & p & -> & -> & Hi & Hp & Hs & [= ->])|[Hq _]]]; [| |discriminate].
    - set (q := ch i j) in *. pose proof (Hch i j Hij Hs) as Hin. fold q in Hin. apply in_shared in Hin. destruct Hin as [Q1 Q2].
      destruct (beside i q ltac:(lia) Q1) as [P1 P2], (beside j q ltac:(lia) Q2) as [P3 P4].
      split; [apply (stab_in_syn i); auto; lia|]. unfold dir. cbn [snd fst pos].
      destruct (Z.eqb_spec (co a q mod 2) (par e)) as [Hp|Hp].
      + destruct (P1 Hp) as (D1 & C1 & O1), (P3 Hp) as (D3 & C3 & O3).
        assert (Hne : co a (ctr i) <> co a (ctr j)).
        { intros Hc. assert (ctr i = ctr j).
          { apply point_ext. intros a'. destruct (axis_eq_dec a' a) as [->|Hn]; [assumption|]. rewrite O1, O3 by assumption. reflexivity. }
          assert (i = j) by (apply (ctr_inj D e b pol c H2 HC); auto; lia). lia. }
        assert (Hopp : dlt (co a q) (co a (ctr j)) = - dlt (co a q) (co a (ctr i))).
        { destruct C1 as [[C1 ->]|[C1 ->]], C3 as [[C3 ->]|[C3 ->]]; congruence || reflexivity. }
        rewrite Hopp in D3. split; [|split; [|rewrite Habs; lia]].
        * replace (co a (ctr j) - co a (ctr i) - 2 * dlt (co a q) (co a (ctr i)))
            with ((co a (ctr j) + - dlt (co a q) (co a (ctr i)) - co a q) - (co a (ctr i) + dlt (co a q) (co a (ctr i)) - co a q)) by lia.
          apply Z.divide_sub_r; assumption.
        * intros _. split; [destruct (dlt_pm (co a q) (co a (ctr i))) as [->| ->]; discriminate|].
          replace (co a q - (co a (ctr i) + dlt (co a q) (co a (ctr i)))) with (- (co a (ctr i) + dlt (co a q) (co a (ctr i)) - co a q)) by lia.
          apply Z.divide_opp_r. assumption.
      + split; [|split; [intros; contradiction|simpl; lia]]. rewrite (P2 Hp), (P4 Hp). replace (co a q - co a q - 2 * 0) with 0 by lia. apply Z.divide_0_r.
    - destruct (bound_axis p Hp) as (Hb & EB & HM & Hpar & Hv). destruct (beside i p Hi Hs) as [P1 _]. destruct (P1 Hpar) as (D1 & C1 & _).
      destruct (stab_ctr D e b pol c H2 HC i Hi) as [Hcell _]. pose proof (proj1 (proj1 (cell_par D e B (ctr i)) Hcell) a) as R.
      pose proof (bound_syn D e b pol c H2 HC p Hp) as Hsyn. pose proof (proj1 (syn_site p Hsyn) a) as Rp.
      split; [assumption|]. unfold dir. cbn [snd fst pos]. rewrite Hpar, Z.eqb_refl.
      rewrite HM in *. apply Z.divide_0_l in D1. pose proof (H2 a) as Hd.
      assert (HpV : (if co a p =? par e then co a p - 1 else co a p + 1) - co a (ctr i) - 2 * dlt (co a p) (co a (ctr i)) = 0).
      { rewrite EB in R, Rp. unfold hi, par, nxt, prv in *. clear - D1 C1 Hv R Rp Hd.
        destruct C1 as [[C1 Hdl]|[C1 Hdl]]; rewrite Hdl in *;
        destruct e; simpl in R, Rp; repeat match goal with |- context [?x =? ?y] => destruct (Z.eqb_spec x y) | H : context [?x =? ?y] |- _ => destruct (Z.eqb_spec x y) end; lia. }
      split; [|split; [|rewrite Habs; lia]].
      + rewrite HpV. apply Z.divide_0_r.
      + intros _. split; [destruct (dlt_pm (co a p) (co a (ctr i))) as [->| ->]; discriminate|].
        replace (co a p - (co a (ctr i) + dlt (co a p) (co a (ctr i)))) with 0 by lia. apply Z.divide_0_r.
  Qed.

  (* with at least three layers in periodic directions, every qubit has its own edge *)
  Hypothesis H3 : forall a', get a' B = BPeriodic -> 3 <= get a' D.
  Lemma qubit_edge q : In q (sc_syn c) -> exists u v, In (u, v, Some q) (RE E).
  Proof.
    intros Hq. pose proof (stab_count D e b pol c H2 HC q Hq) as Hn. rewrite <- holders_length in Hn.
    destruct (pmem q (sc_bound c)) eqn:Eb.
    - apply pmem_In in Eb. destruct (holders stabs q) as [|i l] eqn:Eh; [discriminate|].
      assert (Hi : In i (holders stabs q)) by (rewrite Eh; left; reflexivity). apply in_holders in Hi. destruct Hi as [Hi Hqi].
      exists (NStab i), (NPt q). apply RE_In. split; [|auto]. apply in_E. right; left. exists i, q. auto 7.
    - assert (G : forall i j, (i < j < n)%nat -> In q (stab_of stabs i) -> In q (stab_of stabs j) -> exists u v, In (u, v, Some q) (RE E)).
      { intros i j Hij Hi Hj. assert (Hs : shared stabs i j <> []) by (intros F; assert (Hx : In q []) by (rewrite <- F; apply in_shared; auto); destruct Hx).
        exists (NStab i), (NStab j). apply RE_In. split; [|auto]. apply in_E. left. exists i, j. repeat split; auto; try lia. f_equal.
        pose proof (Hch i j Hij Hs) as Hc. apply in_shared in Hc. destruct Hc as [C1 C2].
        destruct (stab_ctr D e b pol c H2 HC i ltac:(lia)) as [Ci Si], (stab_ctr D e b pol c H2 HC j ltac:(lia)) as [Cj Sj].
        apply (unique_shared D e b H2 (ctr i) (ctr j)); auto; try apply Si; try apply Sj; auto.
        intros F. apply (ctr_inj D e b pol c H2 HC) in F; lia. }
      pose proof (holders_NoDup stabs q) as Hnd. destruct (holders stabs q) as [|i [|j l]] eqn:Eh; try discriminate.
      assert (Hi : In i (holders stabs q)) by (rewrite Eh; left; reflexivity). assert (Hj : In j (holders stabs q)) by (rewrite Eh; right; left; reflexivity).
      apply in_holders in Hi, Hj. destruct Hi as [Hi Hqi], Hj as [Hj Hqj].
      assert (Hne : i <> j) by (intros ->; apply NoDup_cons_iff in Hnd; destruct Hnd as [Hnd _]; apply Hnd; left; reflexivity).
      destruct (Nat.lt_ge_cases i j); [apply (G i j)|apply (G j i)]; auto; lia.
  Qed.

  Variable bit : point -> bool.
  Definition ebit (ed : sedge) : bool := match snd ed with Some q => bit q | None => false end.
  Lemma parity_edges i : (i < n)%nat -> stab_parity bit (stab_of stabs i) = xsum (fun ed => incident (NStab i) ed && ebit ed) (RE E).
  Proof.
    intros Hi. rewrite <- xsum_filter. unfold stab_parity.
    transitivity (xsum (fun o => match o with Some q => bit q | None => false end) (map snd (filter (incident (NStab i)) (RE E)))).
    2: (rewrite xsum_map; reflexivity).
    transitivity (xsum (fun o => match o with Some q => bit q | None => false end) (map Some (stab_of stabs i))).
    1: (rewrite xsum_map; reflexivity).
    apply xsum_perm. apply NoDup_Permutation.
    - apply NoDup_map_inj; [intros x y _ _ [= ->]; reflexivity|]. apply (wf_nd _ _ WF). apply nth_In. assumption.
    - apply NoDup_map_inj; [|apply NoDup_filter, NoDup_filter, edges_nd; assumption]. intros x y Hx Hy Hxy.
      apply filter_In in Hx, Hy. eapply (RE_cv stabs (sc_bound c) ch WF Hch); eauto; tauto.
    - intros o. rewrite !in_map_iff. split.
      + intros (q & <- & Hq). destruct (qubit_edge q (stab_in_syn i q Hi Hq)) as (u & v & Huv). exists (u, v, Some q). split; [reflexivity|].
        apply filter_In. split; [assumption|]. rewrite <- (RE_mem stabs (sc_bound c) ch WF Hch (u, v, Some q) i Huv Hi). simpl. apply pmem_In. assumption.
      + intros (ed & <- & Hed). apply filter_In in Hed. destruct Hed as [HR Hinc].
        rewrite <- (RE_mem stabs (sc_bound c) ch WF Hch ed i HR Hi) in Hinc. destruct ed as [[u v] cv]. cbn [snd] in *.
        destruct cv as [q|]; [|discriminate]. exists q. split; [reflexivity|]. apply pmem_In. exact Hinc.
  Qed.

  (* boundary points are extreme *)
  Variable N : list snode.
  Hypothesis HN : forall x, In x N <-> exists ed, In ed (RE E) /\ incident x ed = true.
  Lemma bound_extreme x : In x N -> label (fun i => stab_parity bit (stab_of stabs i)) x = None ->
    modulus = 0 /\ ((forall y, In y N -> pos x <= pos y) \/ (forall y, In y N -> pos y <= pos x)).
  Proof.
    intros Hx Hl. destruct (N_cases D c ch bit N HN x Hx) as [(i & -> & _)|(p & i & -> & Hi & _ & Hp)]; [discriminate|].
    destruct (bound_axis p Hp) as (Hb & EB & HM & Hpar & Hv). split; [assumption|]. pose proof (H2 a) as Hd.
    assert (Hy : forall y, In y N -> par e - 1 <= pos y <= hi e (get a D) + 1).
    { intros y Hy. destruct (N_cases D c ch bit N HN y Hy) as [(j & -> & Hj)|(p' & j & -> & Hj & _ & Hp')].
      - destruct (stab_ctr D e b pol c H2 HC j Hj) as [Hcell _]. pose proof (proj1 (proj1 (cell_par D e B (ctr j)) Hcell) a) as R.
        rewrite EB in R. cbn [pos]. unfold hi, par. clear - R. destruct e; simpl in R; lia.
      - destruct (bound_axis p' Hp') as (_ & _ & _ & _ & Hv'). cbn [pos]. clear - Hv' Hd. unfold hi, par in *.
        destruct e; destruct (co a p' =? _) eqn:?; lia. }
    cbn [pos]. destruct Hv as [Hv|Hv].
    - left. intros y Hyn. specialize (Hy y Hyn). rewrite Hv, Z.eqb_refl. lia.
    - right. intros y Hyn. specialize (Hy y Hyn). rewrite Hv. destruct (Z.eqb_spec (hi e (get a D)) (par e)); [|lia].
      exfalso. unfold hi, par in *. destruct e; lia.
  Qed.
End Geo.
