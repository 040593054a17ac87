(* PropsCv.v: C39, C40, C50. *)
From Coq Require Import String.
From Verif Require Import Base Lattice GkpModel OpsModel EgraphModel EgraphSpec EgraphProofs EgraphInv PropsOps PropsGkp CvModel CvSpec CvProofs CvNoise.
Open Scope Z_scope.

(* ------------------------------------------------------------------ *)
(* The constructor.  For every EGraph reachable from a fresh one by its own methods: if the layer is
   constructed at all, its N indices name the nodes of the graph one to one, its adjacency matrix is the
   current one, and the perfect indices are those of the perfect points. *)
Lemma indexed_pts_range g : graph_ok g -> indexed g -> (forall i, (i < List.length (e_nodes g))%nat -> pnt g i <> None) ->
  forall i, (exists p, pnt g i = Some p) <-> (i < List.length (e_nodes g))%nat.
Proof.
  intros (Hnd & _) (_ & _ & Hb & Hn) Hall i. split.
  - intros (p & Hp). set (N := List.length (e_nodes g)).
    set (f := fun j => match pnt g j with Some q => q | None => (0, 0, 0) end). assert (Hin : forall j, (j < N)%nat -> pnt g j = Some (f j) /\ In (f j) (e_nodes g)).
    { intros j Hj. specialize (Hall j Hj). unfold f. destruct (pnt g j) as [q|] eqn:E; [|congruence]. split; [reflexivity|]. apply Hn. apply Hb in E. rewrite E. discriminate. }
    assert (HP : Permutation (map f (seq 0 N)) (e_nodes g)).
    { apply NoDup_Permutation_bis; [|rewrite map_length, seq_length; unfold N; lia|].
      - assert (Hinj : forall l, NoDup l -> (forall j, In j l -> (j < N)%nat) -> NoDup (map f l)).
        { induction l as [|j l IH]; intros Hl Hlt; [constructor|]. apply NoDup_cons_iff in Hl. destruct Hl as [Hj Hl]. simpl. constructor; [|apply IH; [assumption|intros k Hk; apply Hlt; right; assumption]].
          intros Hf. apply in_map_iff in Hf. destruct Hf as (k & Ek & Hk). apply Hj. destruct (Hin j) as [A _]; [apply Hlt; left; reflexivity|]. destruct (Hin k) as [B _]; [apply Hlt; right; assumption|].
          rewrite Ek in B. apply Hb in A, B. congruence. }
        apply Hinj; [apply seq_NoDup|]. intros j Hj. apply in_seq in Hj. lia.
      - intros q Hq. apply in_map_iff in Hq. destruct Hq as (j & <- & Hj). apply in_seq in Hj. apply Hin. lia. }
    assert (Hpn : In p (e_nodes g)) by (apply Hn; apply Hb in Hp; rewrite Hp; discriminate). apply (Permutation_in _ (Permutation_sym HP)) in Hpn. apply in_map_iff in Hpn. destruct Hpn as (j & Ej & Hj). apply in_seq in Hj.
    destruct (Hin j) as [A _]; [lia|]. rewrite Ej in A. apply Hb in A, Hp. assert (i = j) by congruence. subst. lia.
  - intros Hi. specialize (Hall i Hi). destruct (pnt g i) as [p|]; [exists p; reflexivity|congruence].
Qed.
Theorem C39_constructor : forall U g0 g a0 perf code delta states p_swap order trans g' c, 0 < U -> fresh g0 -> history U g0 g ->
  cv_init g a0 perf code delta states p_swap order trans = (g', Ok c) ->
  same_graph g g' /\ indexed g' /\ v_N c = List.length (e_nodes g) /\ numbered c /\ (forall i p, node_at c i p <-> pnt g' i = Some p) /\
  (exists rows, current g' rows /\ forall i j, v_adj c i j = IZR (nth j (nth i rows []) 0)) /\
  match perf, v_perf c with
  | Some ps, Some l => forall i, In i l <-> exists p, In p ps /\ pnt g' i = Some p
  | None, None => True
  | _, _ => False
  end /\
  v_delta c = delta /\ v_pswap c = p_swap /\ v_code c = code /\ (v_order c = match order with Some ""%string | None => "initial"%string | Some s => s end) /\
  v_states c = match states with Some (_ :: _) => match states with Some s => s | None => [] end | _ => [("p"%string, arr [])] end /\
  (* swap-out probability and explicit indices exclude each other *)
  (p_swap <> None -> forall s, states = Some s -> exists x, dget String.eqb s "p"%string = Some x /\ x_l x = []).
Proof.
  intros U g0 g a0 perf code delta states p_swap order trans g' c HU Hf Hh E. destruct (history_inv U g0 g HU (fresh_inv g0 Hf) Hh) as [HI _].
  unfold cv_init in E. destruct (adj_generator g true) as (g1, r) eqn:Ea. destruct (adj_generator_inv g true g1 r HI Ea) as (HI1 & HS & _ & Hok).
  destruct r as [rows|e]; [|discriminate]. destruct (Hok rows eq_refl) as [Hix Hcur]. apply indexed_ok_indexed in Hix. cbn [bind] in E.
  destruct (match perf with None => _ | Some ps => _ end) as [pinds|e] eqn:Ep; [|discriminate]. cbn [bind] in E.
  assert (Hc : g' = g1 /\ c = {| v_N := List.length (e_nodes g1); v_pts := match e_pts g1 with Some d => d | None => [] end; v_adj := rows_mat rows; v_perf := pinds;
                   v_delta := delta; v_pswap := p_swap; v_order := match order with Some ((String _ _) as s) => s | _ => "initial"%string end;
                   v_trans := match trans with Some f => f | None => fun x => fst (GKP_binner x) end; v_code := code;
                   v_states := match states with Some ((_ :: _) as s) => s | _ => [("p"%string, arr [])] end; v_attr := a0 |} /\
                 (p_swap <> None -> forall s, states = Some s -> exists x, dget String.eqb s "p"%string = Some x /\ x_l x = [])).
  { destruct p_swap as [r|]; [|injection E as <- <-; split; [reflexivity|]; split; [reflexivity|congruence]]. destruct states as [s|]; [|injection E as <- <-; split; [reflexivity|]; split; [reflexivity|discriminate]].
    destruct (dget String.eqb s "p"%string) as [x|] eqn:Ed; [|discriminate]. destruct (Nat.eqb_spec (List.length (x_l x)) 0) as [El|]; [|discriminate]. injection E as <- <-. split; [reflexivity|]. split; [reflexivity|].
    intros _ s' Es'. injection Es' as <-. exists x. split; [exact Ed|]. destruct (x_l x); [reflexivity|discriminate]. }
  destruct Hc as (-> & -> & Hex). cbn [v_N v_pts v_adj v_perf v_delta v_pswap v_order v_trans v_code v_states v_attr]. pose proof HS as (S1 & _).
  assert (Hnode : forall i p, dget Nat.eqb (match e_pts g1 with Some d => d | None => [] end) i = Some p <-> pnt g1 i = Some p) by (intros i p; unfold pnt; destruct (e_pts g1); [reflexivity|]; simpl; split; discriminate).
  split; [exact HS|]. split; [exact Hix|]. split; [rewrite S1; reflexivity|]. split; [|split].
  - split; unfold node_at; cbn [v_pts v_N].
    + intros i. setoid_rewrite Hnode. apply indexed_pts_range; [apply HI1|exact Hix|]. intros j Hj. apply Hcur. exact Hj.
    + intros i j p A B. apply Hnode in A, B. destruct Hix as (_ & _ & Hb & _). apply Hb in A, B. congruence.
  - intros i p. unfold node_at. cbn [v_pts]. apply Hnode.
  - split; [exists rows; split; [exact Hcur|reflexivity]|]. split; [|split; [reflexivity|]; split; [reflexivity|]; split; [reflexivity|]; split; [|split; [destruct states as [[|]|]; reflexivity|exact Hex]]].
    + destruct perf as [ps|]; [|injection Ep as <-; exact I]. destruct (mapR _ ps) as [l|] eqn:El; [|discriminate]. injection Ep as <-. apply mapR_ok in El. destruct Hix as (_ & _ & Hb & _).
      clear - El Hb. assert (Hf : forall p i, match e_idx g1 with Some d => match dget peqb d p with Some i => Ok i | None => Err KeyError end | None => Err TypeError end = Ok i <-> pnt g1 i = Some p).
      { intros p i. rewrite <- Hb. unfold idx. destruct (e_idx g1) as [d|]; [|split; discriminate]. destruct (dget peqb d p); split; congruence. }
      induction El as [|p i ps l Hpi _ IH]; intros j; [simpl; split; [intros []|intros (p & [] & _)]|]. simpl. rewrite IH. apply Hf in Hpi. split.
      * intros [<-|(q & Hq & Hj)]; [exists p; auto|exists q; auto].
      * intros (q & [<-|Hq] & Hj); [left|right; exists q; auto]. apply Hb in Hpi, Hj. congruence.
    + destruct order as [[|]|]; reflexivity.
Qed.
Print Assumptions C39_constructor.

(* ------------------------------------------------------------------ *)
(* C39.  After every history of public method calls (whether or not they succeeded) in which at least
   one call assigned states, for all swap-out choices: the node labels are those of the last
   assignment: 'p' at the p-squeezed indices and 'GKP' everywhere else.  The list of p-squeezed
   indices is the chosen one; the GKP list is what is left after removing the p list and the GKP list
   of the previous assignment. *)
Lemma run_call_other c o : assigns o = None -> same_states c (run_call c o).
Proof. destruct o; simpl; try discriminate; intros _; [apply measure_syndrome_kept|apply inner_decoder_kept|apply measure_hom_kept]. Qed.
Lemma run_calls_other os : forall c, Forall (fun o => assigns o = None) os -> same_states c (run_calls c os).
Proof. induction os as [|o os IH]; intros c H; [apply same_states_refl|]. inversion H; subst. eapply same_states_trans; [apply run_call_other; eassumption|apply IH; assumption]. Qed.
Lemma run_call_assign c0 c o d : fresh_layer c0 -> live c0 c -> assigns o = Some d -> draws_ok (v_N c0) d ->
  inds_of (run_call c o) "p" = trial_p c0 d /\ NoDup (inds_of (run_call c o) "GKP") /\
  (forall i, In i (inds_of (run_call c o) "GKP") <-> (i < v_N c0)%nat /\ ~ In i (trial_p c0 d) /\ ~ In i (inds_of c "GKP")) /\
  (forall i p, node_at c0 i p -> a_state (v_attr (run_call c o) p) = Some (if memn i (trial_p c0 d) then "p"%string else "GKP"%string)).
Proof.
  intros HF HL Ho HD. destruct (populate_ok c0 c d HF HL HD) as (c1 & x & G & Ep & HL1 & Es & Ex & Hx & Hxa & HGn & HG & Hlab).
  assert (K : same_states c1 (run_call c o)).
  { destruct o as [d'|d'| | |]; simpl in Ho; try discriminate; injection Ho as ->; unfold run_call; [rewrite Ep; apply same_states_refl|]. unfold apply_noise. rewrite Ep. cbn [andthen]. apply after_populate_kept. }
  destruct K as (_ & K2 & K3). rewrite Es in K2. destruct (inds_of_pair _ x G K2) as [I1 I2]. rewrite I1, I2. split; [exact Ex|]. split; [exact HGn|]. split; [exact HG|].
  intros i p Hn. rewrite K3, (Hlab i p Hn), Ex. reflexivity.
Qed.
Theorem C39_labels_after_every_call : forall c os o d more, fresh_layer c -> Forall (call_ok (v_N c)) (os ++ o :: more) ->
  assigns o = Some d -> Forall (fun o => assigns o = None) more ->
  let before := run_calls c os in let after := run_calls c (os ++ o :: more) in
  (forall i p, node_at c i p -> a_state (v_attr after p) = Some (if memn i (trial_p c d) then "p"%string else "GKP"%string)) /\
  inds_of after "p" = trial_p c d /\ NoDup (inds_of after "GKP") /\
  (forall i, In i (inds_of after "GKP") <-> (i < v_N c)%nat /\ ~ In i (trial_p c d) /\ ~ In i (inds_of before "GKP")).
Proof.
  intros c os o d more HF Hok Ho Hm before after. apply Forall_app in Hok. destruct Hok as [H1 H2]. inversion H2 as [|? ? Ho1 _]; subst. unfold call_ok in Ho1. rewrite Ho in Ho1.
  assert (Ea : after = run_calls (run_call before o) more) by (unfold after, before, run_calls; rewrite fold_left_app; reflexivity).
  destruct (run_calls_other more (run_call before o) Hm) as (_ & K2 & K3). rewrite <- Ea in K2, K3.
  destruct (run_call_assign c before o d HF (run_calls_live c os c HF (fresh_live c) H1) Ho Ho1) as (A1 & A2 & A3 & A4). unfold inds_of in *. rewrite K2. split; [|auto].
  intros i p Hn. rewrite K3. apply A4. assumption.
Qed.
Print Assumptions C39_labels_after_every_call.
(* After the first assignment the two lists partition the indices.  Missing for the full statement:
   later assignments, where it is false (below). *)
Theorem C39_partition_partial : forall c os o d more, fresh_layer c -> Forall (call_ok (v_N c)) (os ++ o :: more) ->
  Forall (fun o => assigns o = None) os -> assigns o = Some d -> Forall (fun o => assigns o = None) more ->
  let after := run_calls c (os ++ o :: more) in
  NoDup (inds_of after "GKP") /\ (forall i, (i < v_N c)%nat <-> In i (inds_of after "p") \/ In i (inds_of after "GKP")) /\ (forall i, In i (inds_of after "p") -> In i (inds_of after "GKP") -> False).
Proof.
  intros c os o d more HF Hok Hos Ho Hm after. pose proof HF as (_ & (x & E0 & Hx0) & _). destruct (C39_labels_after_every_call c os o d more HF Hok Ho Hm) as (_ & A1 & A2 & A3).
  assert (Hb : inds_of (run_calls c os) "GKP" = []) by (destruct (run_calls_other os c Hos) as (_ & K2 & _); unfold inds_of; rewrite K2, E0; reflexivity). rewrite Hb in A3.
  apply Forall_app in Hok. destruct Hok as [_ H2]. inversion H2 as [|? ? Ho1 _]; subst. unfold call_ok in Ho1. rewrite Ho in Ho1.
  destruct (squeezed_ok c c d HF (fresh_live c) Ho1) as (y & _ & Ey & Hy & _). rewrite Ey in Hy. fold after in A1, A2, A3. rewrite A1. split; [exact A2|]. split.
  - intros i. rewrite A3. simpl. destruct (in_dec Nat.eq_dec i (trial_p c d)) as [Hi|Hi]; [split; auto|]. split; [auto|]. intros [H|H]; [apply Hy; exact H|apply H].
  - intros i Hi Hi'. apply A3 in Hi'. tauto.
Qed.
Print Assumptions C39_partition_partial.
(* False for every later assignment without swap-out: on the second call no index at all is listed as
   GKP, on the third all are listed again, and so on *)
Theorem C39_partition_refuted : forall c os d1 d2, fresh_layer c -> v_pswap c = None -> draws_ok (v_N c) d1 -> draws_ok (v_N c) d2 ->
  Forall (call_ok (v_N c)) os -> Forall (fun o => assigns o = None) os ->
  inds_of (run_calls c (CApply d1 :: os ++ [CApply d2])) "GKP" = [] /\
  forall i p, node_at c i p -> ~ In i (inds_of c "p") -> a_state (v_attr (run_calls c (CApply d1 :: os ++ [CApply d2])) p) = Some "GKP"%string /\
    ~ In i (inds_of (run_calls c (CApply d1 :: os ++ [CApply d2])) "p") /\ ~ In i (inds_of (run_calls c (CApply d1 :: os ++ [CApply d2])) "GKP").
Proof.
  intros c os d1 d2 HF Hps H1 H2 Hos Hn. assert (Ht : forall d, trial_p c d = inds_of c "p") by (intros d; unfold trial_p; rewrite Hps; reflexivity).
  assert (Hok : Forall (call_ok (v_N c)) ((CApply d1 :: os) ++ CApply d2 :: [])) by (constructor; [exact H1|]; apply Forall_app; split; [exact Hos|]; constructor; [exact H2|constructor]).
  assert (Hok1 : Forall (call_ok (v_N c)) ([] ++ CApply d1 :: os)) by (constructor; [exact H1|exact Hos]).
  destruct (C39_labels_after_every_call c (CApply d1 :: os) (CApply d2) d2 [] HF Hok eq_refl (Forall_nil _)) as (L & P2 & _ & A). rewrite Ht in L, A, P2.
  destruct (C39_labels_after_every_call c [] (CApply d1) d1 os HF Hok1 eq_refl Hn) as (_ & _ & _ & B). rewrite Ht in B. cbn [app] in *.
  assert (E : inds_of (run_calls c (CApply d1 :: os ++ [CApply d2])) "GKP" = []).
  { apply incl_l_nil. intros i Hi. exfalso. apply A in Hi. destruct Hi as (Hi & Hp & Hg). apply Hg. apply B. split; [assumption|]. split; [assumption|]. intros H. unfold run_calls, inds_of in H. destruct HF as (_ & (x & E0 & _) & _). simpl in H. rewrite E0 in H. destruct H. }
  split; [exact E|]. intros i p Hnode Hi. rewrite E, P2. split; [|split; [assumption|intros []]]. rewrite (L i p Hnode). apply memn_false in Hi. rewrite Hi. reflexivity.
Qed.
Print Assumptions C39_partition_refuted.

(* ------------------------------------------------------------------ *)
(* C40.  CVLayer on a code in the 'initial' sampling order, delta > 0: every sequence of trials succeeds,
   and in the last trial the homodyne value of every syndrome qubit is its own momentum noise plus the
   weighted position noise of its neighbours, with the documented standard deviations for the qubits in
   the p and GKP lists, and its bit is the binned value.  In the first trial every qubit that is not
   perfect is in one of the lists, so that its noise is positive.  Missing for the full statement: later
   trials, where it is false (below). *)
Lemma trials_live c ds inds coords : fresh_layer c -> Forall (draws_ok (v_N c)) ds -> code_layer c inds coords ->
  v_order c = "initial"%string -> v_delta c <> 0%R -> (forall x, v_states c = [("p"%string, x)] -> x_arr x = true) ->
  forall c1, live c c1 -> exists c2, trials c1 ds = (c2, Ok tt) /\ live c c2.
Proof.
  intros HF Hds Hc Ho Hde Ha. induction Hds as [|d ds Hd _ IH]; intros c1 HL; [exists c1; split; [reflexivity|assumption]|].
  destruct (apply_noise_ok c c1 d inds coords HF HL Hd Hc Ho Hde Ha) as (c' & sq & sp & E & HL' & _). unfold trials. cbn [for_each]. rewrite E. apply IH. assumption.
Qed.
Lemma for_each_app {A S} (f : S -> A -> S * res unit) l1 l2 : forall c, for_each f c (l1 ++ l2) = match for_each f c l1 with (c', Ok _) => for_each f c' l2 | (c', Err e) => (c', Err e) end.
Proof. induction l1 as [|x l1 IH]; intros c; [reflexivity|]. simpl. destruct (f c x) as [c' [u|e]]; [apply IH|reflexivity]. Qed.
Theorem C40_noise_partial : forall c inds coords ds d, fresh_layer c -> code_layer c inds coords -> Forall (draws_ok (v_N c)) ds -> draws_ok (v_N c) d ->
  v_order c = "initial"%string -> (0 < v_delta c)%R -> (forall x, v_states c = [("p"%string, x)] -> x_arr x = true) ->
  exists before after sq sp, trials c ds = (before, Ok tt) /\ trials c (ds ++ [d]) = (after, Ok tt) /\
    inds_of after "p" = trial_p c d /\ (forall i, In i (inds_of after "GKP") <-> (i < v_N c)%nat /\ ~ In i (trial_p c d) /\ ~ In i (inds_of before "GKP")) /\
    std_spec c (inds_of after "p") (inds_of after "GKP") sq sp /\
    (forall i p, In p coords -> node_at c i p -> exists h, a_homp (v_attr after p) = Some h /\ a_bit (v_attr after p) = Some (v_trans c h) /\
      h = (sp i * d_z d (v_N c + i)%nat + Rsum (fun j => v_adj c i j * (sq j * d_z d j)) (v_N c))%R) /\
    (ds = [] -> forall i, (i < v_N c)%nat -> ~ is_perfect c i -> (0 < sq i)%R /\ (0 < sp i)%R).
Proof.
  intros c inds coords ds d HF Hc Hds Hd Ho Hde Ha. assert (Hd0 : v_delta c <> 0%R) by lra. destruct (trials_live c ds inds coords HF Hds Hc Ho Hd0 Ha c (fresh_live c)) as (c1 & E1 & HL1).
  destruct (apply_noise_ok c c1 d inds coords HF HL1 Hd Hc Ho Hd0 Ha) as (c2 & sq & sp & E2 & HL2 & P & _ & G & Std & Hh).
  exists c1, c2, sq, sp. split; [exact E1|]. split; [unfold trials in *; rewrite for_each_app, E1; cbn [for_each]; rewrite E2; reflexivity|]. split; [exact P|]. split; [exact G|]. split; [exact Std|]. split; [exact Hh|].
  intros -> i Hi Hnp. unfold trials in E1. simpl in E1. injection E1 as <-. destruct (Std i Hi) as (_ & SP & SG & _). rewrite P in SP, SG.
  assert (Hs : (0 < sqrt (v_delta c / 2))%R) by (apply sqrt_lt_R0; lra). assert (Hs2 : (0 < 1 / sqrt (2 * v_delta c))%R) by (apply Rdiv_lt_0_compat; [lra|]; apply sqrt_lt_R0; lra).
  destruct (in_dec Nat.eq_dec i (trial_p c d)) as [Hp|Hp]; [destruct (SP Hnp Hp) as [-> ->]; split; assumption|].
  destruct (SG Hnp Hp) as [-> ->]; [|split; assumption]. apply G. split; [assumption|]. split; [assumption|]. destruct HF as (_ & (x & E0 & _) & _). unfold inds_of. rewrite E0. intros [].
Qed.
Print Assumptions C40_noise_partial.

(* Without p-squeezed states, every second trial is free of noise: whatever the normal values drawn,
   all homodyne outcomes are 0 and so are all bits.  (For an even number of trials.) *)
Lemma no_p_trials c inds coords : fresh_layer c -> code_layer c inds coords -> v_order c = "initial"%string -> (0 < v_delta c)%R ->
  (v_pswap c = None \/ v_pswap c = Some 0%R) -> inds_of c "p" = [] -> (forall x, v_states c = [("p"%string, x)] -> x_arr x = true) ->
  forall n ds, List.length ds = (2 * n)%nat -> Forall (draws_ok (v_N c)) ds -> exists c', trials c ds = (c', Ok tt) /\ live c c' /\ inds_of c' "GKP" = [] /\
    ((n > 0)%nat -> forall p, In p coords -> a_homp (v_attr c' p) = Some 0%R /\ a_bit (v_attr c' p) = Some (v_trans c 0)).
Proof.
  intros HF Hc Ho Hde Hsw Hp Ha. assert (Hd0 : v_delta c <> 0%R) by lra. assert (Ht : forall d, trial_p c d = []) by (intros d; unfold trial_p; destruct Hsw as [-> | ->]; [assumption|]; destruct (Req_EM_T 0 0); [assumption|lra]).
  induction n as [|n IH]; intros ds Hlen Hds.
  - destruct ds; [|discriminate]. exists c. split; [reflexivity|]. split; [apply fresh_live|]. split; [|lia]. destruct HF as (_ & (x & E0 & _) & _). unfold inds_of. rewrite E0. reflexivity.
  - destruct (exists_last (l := ds)) as (ds1 & d2 & ->); [destruct ds; [simpl in Hlen; lia|discriminate]|]. rewrite app_length in Hlen. simpl in Hlen.
    destruct (exists_last (l := ds1)) as (ds0 & d1 & ->); [destruct ds1; [simpl in Hlen; lia|discriminate]|]. rewrite app_length in Hlen. simpl in Hlen.
    apply Forall_app in Hds. destruct Hds as [Hds Hd2]. apply Forall_app in Hds. destruct Hds as [Hds Hd1]. inversion Hd1 as [|? ? Hd1' _]; subst. inversion Hd2 as [|? ? Hd2' _]; subst.
    destruct (IH ds0 ltac:(lia) Hds) as (c0 & E0 & HL0 & G0 & _).
    destruct (apply_noise_ok c c0 d1 inds coords HF HL0 Hd1' Hc Ho Hd0 Ha) as (c1 & sq1 & sp1 & E1 & HL1 & _ & _ & G1 & _). rewrite Ht, G0 in G1.
    destruct (apply_noise_ok c c1 d2 inds coords HF HL1 Hd2' Hc Ho Hd0 Ha) as (c2 & sq & sp & E2 & HL2 & P2 & _ & G2 & Std & Hh). rewrite Ht in *.
    assert (GN : inds_of c2 "GKP" = []) by (apply incl_l_nil; intros i Hi; exfalso; apply G2 in Hi; destruct Hi as (A & B & C); apply C, G1; auto).
    exists c2. split; [unfold trials in *; rewrite !for_each_app, E0; cbn [for_each]; rewrite E1; cbn [for_each]; rewrite E2; reflexivity|]. split; [assumption|]. split; [assumption|]. intros _ p Hpc.
    destruct Hc as (_ & _ & Hcc). destruct (Hcc p Hpc) as (i & _ & Hn). destruct (Hh i p Hpc Hn) as (h & H1 & H2 & H3).
    assert (Hz : forall j, (j < v_N c)%nat -> sq j = 0%R /\ sp j = 0%R) by (intros j Hj; destruct (Std j Hj) as (_ & _ & _ & S4); rewrite P2, GN in S4; apply S4; intros []).
    assert (Hi : (i < v_N c)%nat) by (destruct HF as ((N1 & _) & _); apply N1; exists p; assumption).
    assert (h = 0%R); [|subst h; rewrite <- H; split; assumption]. rewrite H3. rewrite (proj2 (Hz i Hi)), Rsum_zero; [ring|]. intros j Hj. rewrite (proj1 (Hz j Hj)). ring.
Qed.
Theorem C40_every_second_trial_noiseless_refuted : forall c inds coords n ds, fresh_layer c -> code_layer c inds coords -> v_order c = "initial"%string -> (0 < v_delta c)%R ->
  (v_pswap c = None \/ v_pswap c = Some 0%R) -> inds_of c "p" = [] -> (forall x, v_states c = [("p"%string, x)] -> x_arr x = true) ->
  (n > 0)%nat -> List.length ds = (2 * n)%nat -> Forall (draws_ok (v_N c)) ds ->
  exists c', trials c ds = (c', Ok tt) /\ forall p, In p coords -> a_homp (v_attr c' p) = Some 0%R /\ a_bit (v_attr c' p) = Some (v_trans c 0).
Proof.
  intros c inds coords n ds HF Hc Ho Hde Hsw Hp Ha Hn Hlen Hds. destruct (no_p_trials c inds coords HF Hc Ho Hde Hsw Hp Ha n ds Hlen Hds) as (c' & E & _ & _ & H). exists c'. auto.
Qed.
Print Assumptions C40_every_second_trial_noiseless_refuted.
(* ... the default translator gives the bit 0 *)
Lemma default_translator_0 : fst (GKP_binner 0) = 0.
Proof. destruct (C34_binning_partial 0) as (_ & _ & _ & _ & H & _). apply H. pose proof spi_pos. lra. Qed.
