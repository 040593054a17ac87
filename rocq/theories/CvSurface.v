(* CvSurface.v: CVLayer on a SurfaceCode (C40). *)
From Coq Require Import String.
From Verif Require Import Base Lattice RhgModel RhgSpec RhgProofs RhgDegree SurfaceModel SurfaceSpec SurfaceProofs SurfaceTheorems PropsSurface MacroSpec PropsMacro
  GkpModel OpsModel EgraphModel EgraphSpec EgraphProofs EgraphInv PropsEgraph PropsOps PropsGkp CvModel CvSpec CvProofs CvNoise PropsCv.
Open Scope Z_scope.

(* code.graph, surface_code.py 343-344: the lattice as an EGraph, with index_generator called *)
Definition lattice_egraph (c : scode) : eg := new_egraph (node_list (sc_graph c)) (map (fun e => (fst e, eweight (snd e))) (gedges (sc_graph c))) false None.
Definition code_egraph (c : scode) : eg := fst (index_generator (lattice_egraph c)).
(* {ec}_syndrome_inds, surface_code.py 408-427: the indices of the points of all stabilizers, those of
   each stabilizer in some order; points of two stabilizers are listed twice *)
Definition code_inds (c : scode) (inds : list nat) : Prop :=
  exists lists, Forall2 (@Permutation point) (map (actual_stabe (sc_ec c) (sc_dims c) (sc_bnds c) (sc_graph c)) (sc_phys c)) lists /\
    mapR (fun p => match idx (code_egraph c) p with Some i => Ok i | None => Err KeyError end) (List.concat lists) = Ok inds.

Section Code.
  Variables (D : dims) (e : ecx) (b : bdk) (pol : option (point * point -> Z)) (c : scode).
  Hypothesis HD : dims_ge2 D.
  Hypothesis HC : is_surface_code D e b pol c.
  Let B := code_bnds e b.
  Lemma code_lattice : exists vs, set_enum (six_body_points D B) vs /\ sc_graph c = rhg_graph D B pol vs.
  Proof. apply HC. Qed.
  Lemma code_fresh : fresh (lattice_egraph c).
  Proof.
    destruct code_lattice as (vs & Hvs & EG). pose proof (ge2_ok D B HD) as HO. unfold lattice_egraph, new_egraph. split; [|split; [split; reflexivity|reflexivity]]. split; [|split; [|exact I]]; cbn [e_nodes e_edges].
    - rewrite EG. apply (rhg_exact_lattice D B pol vs HO Hvs).
    - intros u v w H. apply in_map_iff in H. destruct H as (((u' & v') & t) & E & H). cbn [fst snd] in E. injection E as -> -> _. rewrite EG in *.
      destruct (rhg_edge_enum D B pol vs HO Hvs) as (_ & _ & EE). assert (A : edge_attr (rhg_graph D B pol vs) u v = Some t) by (apply EE; auto). assert (A' : edge_attr (rhg_graph D B pol vs) v u = Some t) by (apply EE; auto).
      split; [apply (rhg_ends D B pol vs u v HO Hvs); congruence|apply (rhg_ends D B pol vs v u HO Hvs); congruence].
  Qed.
  Lemma code_history : history 1 (lattice_egraph c) (code_egraph c).
  Proof.
    apply (HStep _ _ OIndex (code_egraph c)); [|apply HNil]. split; [exact I|]. unfold run, code_egraph. destruct (index_generator (lattice_egraph c)) as (g', r). exists (bind r (fun _ => Ok tt)). split; [reflexivity|right; reflexivity].
  Qed.
  Lemma code_indexed : exists d l, e_idx (code_egraph c) = Some d /\ same_graph (lattice_egraph c) (code_egraph c) /\ Permutation l (e_nodes (lattice_egraph c)) /\
    (forall p i, idx (code_egraph c) p = Some i <-> nth_error l i = Some p) /\ (forall p i, pnt (code_egraph c) i = Some p <-> nth_error l i = Some p).
  Proof.
    destruct code_fresh as (H1 & H2 & _). destruct (C28_indices_sorted_bijection (lattice_egraph c) H1 H2 eq_refl) as (g' & d & E & E1 & HS & (l & L1 & _ & L2 & L3) & _).
    exists d, l. unfold code_egraph. rewrite E. cbn [fst]. auto.
  Qed.
  Lemma in_actual_node q cube : In q (actual_stabe (sc_ec c) (sc_dims c) (sc_bnds c) (sc_graph c) cube) -> In cube (sc_phys c) -> In q (sc_syn c).
  Proof.
    intros Hq Hc. destruct HC as (E1 & E2 & E3 & _ & Ep & _ & Hsyn & _). unfold sc_bnds in Hq. rewrite E1, E2, E3 in Hq. apply Hsyn. apply in_concat. eexists. split; [|exact Hq]. apply in_map. rewrite Ep in Hc. exact Hc.
  Qed.
  Lemma syn_node q : In q (sc_syn c) -> In q (e_nodes (lattice_egraph c)).
  Proof.
    intros H. destruct (C05_qubits_checked_once_or_twice D e b pol c HD HC) as (_ & H2 & _). apply H2 in H. apply H.
  Qed.
  Lemma code_inds_exist : exists inds, code_inds c inds.
  Proof.
    set (L := map (actual_stabe (sc_ec c) (sc_dims c) (sc_bnds c) (sc_graph c)) (sc_phys c)).
    assert (H : exists inds, mapR (fun p => match idx (code_egraph c) p with Some i => Ok i | None => Err KeyError end) (List.concat L) = Ok inds).
    { assert (Hin : forall q, In q (List.concat L) -> idx (code_egraph c) q <> None).
      { intros q Hq. apply in_concat in Hq. destruct Hq as (l & Hl & Hq). apply in_map_iff in Hl. destruct Hl as (cube & <- & Hc). destruct code_indexed as (d & l & _ & _ & HP & H1 & _).
        pose proof (syn_node q (in_actual_node q cube Hq Hc)) as Hn. apply (Permutation_in _ (Permutation_sym HP)) in Hn. apply In_nth_error in Hn. destruct Hn as (i & Hi). apply H1 in Hi. congruence. }
      induction (List.concat L) as [|q l IH]; [exists []; reflexivity|]. destruct IH as (inds & E); [intros; apply Hin; right; assumption|]. simpl. destruct (idx (code_egraph c) q) as [i|] eqn:Ei; [|exfalso; apply (Hin q); [left; reflexivity|assumption]].
      simpl. rewrite E. simpl. eauto. }
    destruct H as (inds & H). exists inds, L. split; [|exact H]. fold L. clearbody L. clear. induction L; constructor; auto.
  Qed.
  (* the syndrome indices are those of the syndrome coordinates *)
  Lemma code_inds_in inds : code_inds c inds -> forall i, In i inds <-> exists q, In q (sc_syn c) /\ idx (code_egraph c) q = Some i.
  Proof.
    intros (lists & HF & E). assert (Hset : forall q, In q (List.concat lists) <-> In q (sc_syn c)).
    { intros q. destruct HC as (E1 & E2 & E3 & _ & Ep & _ & Hsyn & _). rewrite (proj2 Hsyn q). unfold sc_bnds in HF. rewrite E1, E2, E3, Ep in HF. clear - HF. induction HF as [|x y l l' Hp _ IH]; [reflexivity|]. simpl. rewrite !in_app_iff, IH. split; intros [H|H]; auto; left; [apply (Permutation_in _ (Permutation_sym Hp))|apply (Permutation_in _ Hp)]; assumption. }
    intros i. setoid_rewrite <- Hset. apply mapR_ok in E. clear Hset HF. induction E as [|q j l l' Hq _ IH]; [simpl; split; [intros []|intros (q & [] & _)]|]. simpl. rewrite IH. destruct (idx (code_egraph c) q) as [k|] eqn:Ek; [|discriminate]. injection Hq as ->. split.
    - intros [<-|(q' & H1 & H2)]; eauto.
    - intros (q' & [<-|H1] & H2); [left; congruence|right; eauto].
  Qed.
  (* CVLayer(code, delta=delta, ...) *)
  Lemma code_cv_init a0 perf delta states p_swap order trans inds : code_inds c inds ->
    match perf with Some l => incl l (e_nodes (lattice_egraph c)) | None => True end ->
    (p_swap <> None -> forall s, states = Some s -> exists x, dget String.eqb s "p"%string = Some x /\ x_l x = []) ->
    exists g v, cv_init (code_egraph c) a0 perf (Some (inds, sc_syn c)) delta states p_swap order trans = (g, Ok v) /\
      numbered v /\ code_layer v inds (sc_syn c) /\ v_N v = List.length (node_list (sc_graph c)) /\
      (forall i j p q, node_at v i p -> node_at v j q -> v_adj v i j = IZR (match edge_attr (sc_graph c) p q with Some t => eweight t | None => 0 end)) /\
      (forall p, (exists i, node_at v i p) <-> In p (node_list (sc_graph c))) /\
      v_delta v = delta /\ v_pswap v = p_swap /\ v_order v = match order with Some ""%string | None => "initial"%string | Some s => s end /\
      v_trans v = (match trans with Some f => f | None => fun x => fst (GKP_binner x) end) /\
      v_states v = match states with Some (_ :: _) => match states with Some s => s | None => [] end | _ => [("p"%string, arr [])] end.
  Proof.
    intros Hi Hp Hs. destruct (cv_init (code_egraph c) a0 perf (Some (inds, sc_syn c)) delta states p_swap order trans) as (g & r) eqn:E.
    destruct code_indexed as (d & l & Ed & HS & HP & L1 & L2). pose proof code_history as Hh. pose proof code_fresh as Hf.
    destruct (adj_generator (code_egraph c) true) as (g1 & ra) eqn:Ea. destruct (C30_adjacency_current_partial 1 _ _ true g1 ra ltac:(lia) Hf Hh Ea) as (HS1 & Hr).
    assert (Hpnt1 : forall i, pnt g1 i = pnt (code_egraph c) i /\ forall p, idx g1 p = idx (code_egraph c) p).
    { intros i. unfold adj_generator in Ea. destruct (e_adj (code_egraph c)); [injection Ea as <- _; auto|]. destruct (e_pts (code_egraph c)) as [t|] eqn:Et.
      - destruct (bind _ _) as [a|]; injection Ea as <- _; unfold pnt, idx, set_adj; cbn [e_pts e_idx]; auto.
      - exfalso. destruct (Permutation_length HP). destruct l as [|p l]; [|specialize (L2 p 0%nat); unfold pnt in L2; rewrite Et in L2; simpl in L2; destruct L2 as [_ L2]; specialize (L2 eq_refl); discriminate].
        apply Permutation_nil in HP. destruct code_lattice as (vs & Hvs & EG). destruct (rhg_exact_lattice D B pol vs (ge2_ok D B HD) Hvs) as (_ & EN & _). cbn in HP. rewrite EG in HP. 
        assert (HX : In (1, 1, 2) (node_list (rhg_graph D B pol vs))). { apply EN. left. split; [|reflexivity]. intros a. pose proof (HD a) as Ha. unfold in_range. destruct a; cbn [co get] in *; destruct (get _ B); simpl; lia. } rewrite HP in HX. destruct HX. }
    assert (exists rows, ra = Ok rows) as (rows & ->).
    { destruct ra as [rows|er]; [eauto|]. exfalso. destruct Hr as [(_ & i & Hlt & Hn)|[(_ & Hn)|((Hn & _) & _)]].
      - rewrite (proj1 (Hpnt1 i)) in Hn. destruct (nth_error l i) as [p|] eqn:En; [apply L2 in En; congruence|]. apply nth_error_None in En. destruct HS as (HS & _). rewrite HS, <- (Permutation_length HP) in Hlt. lia.
      - destruct HS as (HS & _). rewrite HS in Hn. destruct code_lattice as (vs & Hvs & EG). destruct (rhg_exact_lattice D B pol vs (ge2_ok D B HD) Hvs) as (_ & EN & _). cbn in Hn. rewrite EG in Hn.
        assert (HX : In (1, 1, 2) (node_list (rhg_graph D B pol vs))). { apply EN. left. split; [|reflexivity]. intros a. pose proof (HD a) as Ha. unfold in_range. destruct a; cbn [co get] in *; destruct (get _ B); simpl; lia. } rewrite Hn in HX. destruct HX.
      - congruence. }
    assert (exists v, r = Ok v) as (v & ->).
    { unfold cv_init in E. rewrite Ea in E. cbn [bind] in E. destruct (match perf with None => _ | Some ps => _ end) as [pinds|er] eqn:Ep.
      - cbn [bind] in E. destruct p_swap as [ps|]; [|injection E as _ <-; eauto]. destruct states as [s|]; [|injection E as _ <-; eauto]. destruct (Hs ltac:(discriminate) s eq_refl) as (x & Ex & Ex2). rewrite Ex, Ex2 in E. injection E as _ <-. eauto.
      - exfalso. destruct perf as [ps|]; [|discriminate]. clear E. revert Ep Hp. generalize er. clear - Hpnt1 HP L1 Ed. intros er Ep Hp.
        assert (G : exists pl, mapR (fun p => match e_idx g1 with Some d => match dget peqb d p with Some i => Ok i | None => Err KeyError end | None => Err TypeError end) ps = Ok pl).
        { clear Ep. induction ps as [|p ps IH]; [exists []; reflexivity|]. destruct IH as (pl & E); [intros x Hx; apply Hp; right; assumption|]. simpl. specialize (Hp p (or_introl eq_refl)). apply (Permutation_in _ (Permutation_sym HP)), In_nth_error in Hp. destruct Hp as (i & Hi). apply L1 in Hi.
          rewrite <- (proj2 (Hpnt1 0%nat) p) in Hi. unfold idx in Hi. destruct (e_idx g1) as [dd|]; [|discriminate]. rewrite Hi. simpl. rewrite E. simpl. eauto. }
        destruct G as (pl & G). rewrite G in Ep. discriminate. }
    destruct (C39_constructor 1 (lattice_egraph c) (code_egraph c) a0 perf (Some (inds, sc_syn c)) delta states p_swap order trans g v ltac:(lia) Hf Hh E) as (C1 & C2 & C3 & C4 & C5 & (rw & C6 & C6') & _ & C8 & C9 & C10 & C11 & C12 & _).
    assert (g = g1) by (unfold cv_init in E; rewrite Ea in E; injection E as <- _; reflexivity). subst g.
    assert (C5' : forall i p, node_at v i p <-> idx (code_egraph c) p = Some i) by (intros i p; rewrite C5, (proj1 (Hpnt1 i)), L1, L2; reflexivity).
    exists g1, v. split; [reflexivity|]. split; [exact C4|]. split; [|split; [|split; [|split]]].
    - split; [exact C10|]. pose proof (code_inds_in inds Hi) as Hin. split.
      + intros i H. apply Hin in H. destruct H as (q & _ & Hq). apply C4. exists q. apply C5'. exact Hq.
      + intros p H. pose proof (syn_node p H) as Hn. apply (Permutation_in _ (Permutation_sym HP)) in Hn. apply In_nth_error in Hn. destruct Hn as (i & Hn). apply L1 in Hn. exists i. split; [apply Hin; eauto|apply C5'; assumption].
    - rewrite C3. destruct HS as (-> & _). reflexivity.
    - intros i j p q Hpi Hqj. rewrite C6'. f_equal. destruct C6 as (_ & _ & C6). destruct C1 as (S1 & S2 & _).
      assert (Hlt : forall i p, node_at v i p -> (i < List.length (e_nodes g1))%nat) by (intros i0 p0 H0; rewrite S1, <- C3; apply C4; eauto).
      specialize (C6 i j p q (Hlt _ _ Hpi) (Hlt _ _ Hqj) (proj1 (C5 _ _) Hpi) (proj1 (C5 _ _) Hqj)). destruct code_lattice as (vs & Hvs & EG). destruct (rhg_edge_enum D B pol vs (ge2_ok D B HD) Hvs) as (_ & _ & EE). rewrite <- EG in EE.
      assert (Hj : forall w, joined g1 p q w <-> exists t, edge_attr (sc_graph c) p q = Some t /\ eweight t = w).
      { intros w. unfold joined. rewrite S2. destruct HS as (_ & -> & _). unfold lattice_egraph, new_egraph. cbn [e_edges]. split.
        - intros [H|H]; apply in_map_iff in H; destruct H as (((u' & v') & t) & Et & H); cbn [fst snd] in Et; injection Et as -> -> <-; exists t; (split; [|reflexivity]); apply EE; auto.
        - intros (t & H & <-). apply EE in H. destruct H as [H|H]; [left|right]; apply in_map_iff; eexists; (split; [|exact H]); reflexivity. }
      destruct C6 as [H|[H1 H2]].
      + apply Hj in H. destruct H as (t & -> & <-). reflexivity.
      + rewrite H1. destruct (edge_attr (sc_graph c) p q) as [t|] eqn:Et; [|reflexivity]. exfalso. apply (H2 (eweight t)). apply Hj. eauto.
    - intros p. setoid_rewrite C5'. setoid_rewrite L1. split.
      + intros (i & Hn). apply nth_error_In in Hn. apply (Permutation_in _ HP) in Hn. exact Hn.
      + intros Hn. apply (Permutation_in _ (Permutation_sym HP)) in Hn. apply In_nth_error in Hn. exact Hn.
    - split; [exact C8|]. split; [exact C9|]. split; [exact C11|]. split; [|exact C12].
      unfold cv_init in E. rewrite Ea in E. cbn [bind] in E. destruct (match perf with None => _ | Some ps => _ end) as [pinds|er]; [|discriminate]. cbn [bind] in E.
      destruct p_swap as [ps|]; [|injection E as <-; reflexivity]. destruct states as [s|]; [|injection E as <-; reflexivity]. destruct (dget String.eqb s "p"%string) as [x|]; [|discriminate]. destruct (Nat.eqb _ 0); [|discriminate]. injection E as <-. reflexivity.
  Qed.
End Code.

(* ------------------------------------------------------------------ *)
(* C40 for surface codes.  For every code, every delta > 0 and every documented choice of states (a
   swap-out probability, an array of p-squeezed indices, or nothing): the layer is constructed, every
   number of trials succeeds, whatever is drawn, and after each trial every syndrome qubit of the code
   has a homodyne outcome and the bit to which the translator maps it. *)
Definition documented_states (N : nat) (states : option (list (string * idxs))) (p_swap : option R) : Prop :=
  match p_swap with Some x => (0 <= x <= 1)%R /\ (states = None \/ states = Some []\/ states = Some [("p"%string, arr [])]) /\ states <> Some []
  | None => states = None \/ states = Some [] \/ exists l, states = Some [("p"%string, arr l)] /\ forall i, In i l -> (i < N)%nat end.
Theorem C40_surface_code : forall D e b pol c inds a0 perf delta states p_swap order trans, dims_ge2 D -> is_surface_code D e b pol c -> code_inds c inds ->
  match perf with Some l => incl l (node_list (sc_graph c)) | None => True end ->
  (0 < delta)%R -> documented_states (List.length (node_list (sc_graph c))) states p_swap -> order = None \/ order = Some "initial"%string ->
  exists g v, cv_init (code_egraph c) a0 perf (Some (inds, sc_syn c)) delta states p_swap order trans = (g, Ok v) /\
    fresh_layer v /\ code_layer v inds (sc_syn c) /\ v_N v = List.length (node_list (sc_graph c)) /\
    (forall i j p q, node_at v i p -> node_at v j q -> v_adj v i j = IZR (match edge_attr (sc_graph c) p q with Some t => eweight t | None => 0 end)) /\
    forall ds d, Forall (draws_ok (v_N v)) (ds ++ [d]) -> exists v', trials v (ds ++ [d]) = (v', Ok tt) /\
      (forall q, In q (sc_syn c) -> exists h, a_homp (v_attr v' q) = Some h /\ a_bit (v_attr v' q) = Some (match trans with Some f => f h | None => fst (GKP_binner h) end)) /\
      (trans = None -> forall q, In q (sc_syn c) -> a_bit (v_attr v' q) = Some 0 \/ a_bit (v_attr v' q) = Some 1).
Proof.
  intros D e b pol c inds a0 perf delta states p_swap order trans HD HC Hi Hp Hde Hst Hor.
  assert (Hs : p_swap <> None -> forall s, states = Some s -> exists x, dget String.eqb s "p"%string = Some x /\ x_l x = []).
  { intros Hn s Es. destruct p_swap as [x|]; [|congruence]. destruct Hst as (_ & [H|[H|H]] & Hne); [congruence|congruence|]. rewrite H in Es. injection Es as <-. exists (arr []). split; reflexivity. }
  destruct (code_cv_init D e b pol c HD HC a0 perf delta states p_swap order trans inds Hi Hp Hs) as (g & v & E & H1 & H2 & H3 & H4 & _ & H5 & H6 & H7 & H8 & H9).
  exists g, v. split; [exact E|].
  assert (Hx : exists l, v_states v = [("p"%string, arr l)] /\ forall i, In i l -> (i < v_N v)%nat).
  { rewrite H9, H3. unfold documented_states in Hst. destruct p_swap as [x|].
    - destruct Hst as (_ & [->|[->| ->]] & _); exists []; (split; [reflexivity|intros i []]).
    - destruct Hst as [->|[->|(l & -> & Hl)]]; [exists []; split; [reflexivity|intros i []]|exists []; split; [reflexivity|intros i []]|exists l; split; [reflexivity|exact Hl]]. }
  assert (HF : fresh_layer v).
  { split; [exact H1|]. split; [destruct Hx as (l & Hl & Hl2); exists (arr l); split; [exact Hl|exact Hl2]|]. rewrite H6. unfold documented_states in Hst. destruct p_swap; [apply Hst|exact I]. }
  assert (Ho : v_order v = "initial"%string) by (rewrite H7; destruct Hor as [-> | ->]; reflexivity).
  split; [exact HF|]. split; [exact H2|]. split; [exact H3|]. split; [exact H4|]. intros ds d Hds. apply Forall_app in Hds. destruct Hds as [Hds Hd]. inversion Hd as [|? ? Hd' _]; subst.
  assert (Ha : forall x, v_states v = [("p"%string, x)] -> x_arr x = true) by (intros x Ex; destruct Hx as (l & Hl & _); rewrite Hl in Ex; injection Ex as <-; reflexivity).
  destruct (C40_noise_partial v inds (sc_syn c) ds d HF H2 Hds Hd' Ho Hde Ha) as (_ & v' & sq & sp & _ & E' & _ & _ & _ & Hh & _). exists v'. split; [exact E'|].
  assert (G : forall q, In q (sc_syn c) -> exists h, a_homp (v_attr v' q) = Some h /\ a_bit (v_attr v' q) = Some (match trans with Some f => f h | None => fst (GKP_binner h) end)).
  { intros q Hq. destruct H2 as (_ & _ & H2). destruct (H2 q Hq) as (i & _ & Hn). destruct (Hh i q Hq Hn) as (h & A & B & _). exists h. split; [exact A|]. rewrite B, H8. destruct trans; reflexivity. }
  split; [exact G|]. intros -> q Hq. destruct (G q Hq) as (h & _ & ->). destruct (C34_binning_partial h) as (_ & [-> | ->] & _); auto.
Qed.
Print Assumptions C40_surface_code.

(* CVLayer(code, delta=delta) with the other arguments at their defaults, on every surface code: after
   any even number of trials all bits are 0, whatever the generator returns, although every qubit is
   labelled as a GKP state with finite energy. *)
Theorem C40_default_layer_refuted : forall D e b pol c inds a0 delta, dims_ge2 D -> is_surface_code D e b pol c -> code_inds c inds -> (0 < delta)%R ->
  exists g v, cv_init (code_egraph c) a0 None (Some (inds, sc_syn c)) delta None None None None = (g, Ok v) /\
    forall n ds, List.length ds = (2 * S n)%nat -> Forall (draws_ok (v_N v)) ds -> exists v', trials v ds = (v', Ok tt) /\
      forall q, In q (sc_syn c) -> a_homp (v_attr v' q) = Some 0%R /\ a_bit (v_attr v' q) = Some 0.
Proof.
  intros D e b pol c inds a0 delta HD HC Hi Hde. destruct (code_cv_init D e b pol c HD HC a0 None delta None None None None inds Hi I ltac:(congruence)) as (g & v & E & H1 & H2 & H3 & H4 & _ & H5 & H6 & H7 & H8 & H9).
  exists g, v. split; [exact E|]. intros n ds Hl Hds.
  assert (HF : fresh_layer v) by (split; [exact H1|]; split; [exists (arr []); split; [exact H9|intros i []]|rewrite H6; exact I]).
  destruct (C40_every_second_trial_noiseless_refuted v inds (sc_syn c) (S n) ds HF H2 H7) as (v' & Et & Hb); try assumption; [lra|left; assumption|unfold inds_of; rewrite H9; reflexivity|intros x Ex; rewrite H9 in Ex; injection Ex as <-; reflexivity|lia|].
  exists v'. split; [exact Et|]. intros q Hq. destruct (Hb q Hq) as (A & B). split; [exact A|]. rewrite B, H8, default_translator_0. reflexivity.
Qed.
Print Assumptions C40_default_layer_refuted.

(* the hypotheses hold for every size *)
Example C40_witness : let c := mk_code (3, 2, 4) EcPrimal BdOpen None in dims_ge2 (3, 2, 4) /\ is_surface_code (3, 2, 4) EcPrimal BdOpen None c /\ (exists inds, code_inds c inds) /\
  documented_states 5 (Some [("p"%string, arr [1%nat; 3%nat])]) None /\ documented_states 5 None (Some (1 / 4)%R) /\
  draws_ok 5 {| d_p := [4%nat; 2%nat]; d_unif := fun _ => (1 / 2)%R; d_bit := fun k => Z.of_nat k mod 2; d_z := fun k => INR k; d_z2 := fun k => INR k; d_list := fun l => rev l |}.
Proof.
  intros c. assert (HD : dims_ge2 (3, 2, 4)) by (intros []; simpl; lia). assert (HC : is_surface_code (3, 2, 4) EcPrimal BdOpen None c) by apply mk_code_ok. split; [exact HD|]. split; [exact HC|]. split; [apply (code_inds_exist _ _ _ _ _ HD HC)|]. split; [|split].
  - right. right. exists [1%nat; 3%nat]. split; [reflexivity|]. simpl. intros i [<-|[<-|[]]]; lia.
  - split; [lra|]. split; [left; reflexivity|discriminate].
  - split; [|split; [|split; [|split]]]; cbn [d_p d_unif d_bit d_list].
    + repeat constructor; simpl; intuition lia.
    + simpl. intros i [<-|[<-|[]]]; lia.
    + intros k. lra.
    + intros k. lia.
    + intros l _. apply Permutation_sym, Permutation_rev.
Qed.
