(* PropsSeed.v: C76, seeds and independence of simulations. *)
From Coq Require Import String Reals Lra Lia FunctionalExtensionality.
From Verif Require Import Base Lattice RhgModel RhgSpec SurfaceModel SurfaceSpec SurfaceProofs StabGraphModel MwpmModel UfModel UfSpec UfInst PropsSurface PropsUfDist.
From Verif Require Import SimModel SimSpec SimProofs SimTrial SeedModel PropsSim PropsSimUf CountDraws CvMacroGauge PropsCvMacro PropsIidRate.
Open Scope Z_scope.

(* ---------- the number behind the seed ---------- *)
Lemma printed_last_digit d : forall u, u mod 10 <> 0 -> printed_fraction d u = (d, u).
Proof. intros u H. destruct d as [|[|d]]; try reflexivity. cbn [printed_fraction]. destruct (Z.eqb_spec (u mod 10) 0); [contradiction|reflexivity]. Qed.
Lemma int_time_full us : us mod 10 <> 0 -> int_time us = us.
Proof.
  intros H. unfold int_time. rewrite printed_last_digit; [change (10 ^ Z.of_nat 6) with 1000000; lia|].
  intros E. apply H. lia.
Qed.
(* in general the number of microseconds, divided by a power of ten *)
Lemma int_time_scaled us : exists j, 0 <= j <= 5 /\ us = int_time us * 10 ^ j.
Proof.
  assert (G : forall d u, (1 <= d)%nat -> exists j, 0 <= j /\ (Z.of_nat (fst (printed_fraction d u)) + j = Z.of_nat d) /\ u = snd (printed_fraction d u) * 10 ^ j /\ (1 <= fst (printed_fraction d u))%nat).
  { induction d as [|d IH]; intros u Hd; [lia|]. destruct d as [|d].
    - exists 0. cbn. lia.
    - change (printed_fraction (S (S d)) u) with (if u mod 10 =? 0 then printed_fraction (S d) (u / 10) else (S (S d), u)).
      destruct (Z.eqb_spec (u mod 10) 0) as [E|E].
      + destruct (IH (u / 10) ltac:(lia)) as (j & Hj & Hs & Hu & H1). exists (j + 1). split; [lia|]. split; [lia|]. split; [|exact H1].
        rewrite Z.pow_add_r by lia. change (10 ^ 1) with 10. rewrite Z.mul_assoc, <- Hu. lia.
      + exists 0. cbn [fst snd]. lia. }
  unfold int_time. destruct (G 6%nat (us mod 1000000) ltac:(lia)) as (j & Hj & Hs & Hu & H1).
  destruct (printed_fraction 6 (us mod 1000000)) as [d u]. cbn [fst snd] in *. exists j. split; [lia|].
  rewrite Z.mul_add_distr_r, <- Hu, <- Z.mul_assoc, <- Z.pow_add_r by lia. rewrite Hs. change (10 ^ Z.of_nat 6) with 1000000. lia.
Qed.

(* Two processes of rank 0 that are started in different microseconds (between the years 2001 and 2286) have different
   seeds, although the number does not grow with the time; and so have the ranks of one world, if they all read the
   same time. *)
Theorem C76_seeds :
  (forall us us', 10 ^ 15 <= us < 10 ^ 16 -> 10 ^ 15 <= us' < 10 ^ 16 -> rank_seed 0 us = rank_seed 0 us' -> us = us') /\
  (forall us r r', rank_seed r us = rank_seed r' us -> r = r') /\
  (exists us us', 10 ^ 15 <= us < us' /\ us' < 10 ^ 16 /\ rank_seed 0 us' < rank_seed 0 us).
Proof.
  split; [|split].
  - intros us us' H H'. unfold rank_seed. intros E. assert (E' : int_time us = int_time us') by lia. clear E.
    destruct (int_time_scaled us) as (j & Hj & Hu), (int_time_scaled us') as (j' & Hj' & Hu'). rewrite <- E' in Hu'. set (x := int_time us) in *. clearbody x.
    change (10 ^ 15) with 1000000000000000 in *. change (10 ^ 16) with 10000000000000000 in *.
    assert (Cj : j = 0 \/ j = 1 \/ j = 2 \/ j = 3 \/ j = 4 \/ j = 5) by lia. assert (Cj' : j' = 0 \/ j' = 1 \/ j' = 2 \/ j' = 3 \/ j' = 4 \/ j' = 5) by lia.
    destruct Cj as [->|[->|[->|[->|[->| ->]]]]]; destruct Cj' as [->|[->|[->|[->|[->| ->]]]]];
      match type of Hu with _ = x * ?p => let v := eval vm_compute in p in change p with v in Hu end;
      match type of Hu' with _ = x * ?p => let v := eval vm_compute in p in change p with v in Hu' end; lia.
  - intros us r r'. unfold rank_seed. lia.
  - exists 1700000000123456, 1700000000200000. split; [vm_compute; split; [discriminate|reflexivity]|]. split; vm_compute; reflexivity.
Qed.
Print Assumptions C76_seeds.

(* ---------- runs from the same generator state ---------- *)
Section Same.
  Context {S : Type} (rnd : generator S) (p : R) (nodes syn : list point) (decode : (point -> bool) -> res ((point -> bool) * bool)).
  Hypothesis ND : NoDup nodes.
  Hypothesis total : forall bit, exists bit' r, decode bit = Ok (bit', r).
  Hypothesis Hsyn : incl syn nodes.
  Hypothesis ext : forall bit bit2 b1 b2 r1 r2, (forall q, In q syn -> bit q = bit2 q) -> decode bit = Ok (b1, r1) -> decode bit2 = Ok (b2, r2) -> r1 = r2.

  Lemma same_bits A A' s q : In q nodes -> SimModel.bits_of (fst (iid_apply rnd p nodes A s)) q = SimModel.bits_of (fst (iid_apply rnd p nodes A' s)) q.
  Proof.
    intros Hq. apply (@In_nth_error point) in Hq. destruct Hq as (k & Hk).
    destruct (iid_apply_spec rnd p nodes A s ND) as (_ & H & _). destruct (iid_apply_spec rnd p nodes A' s ND) as (_ & H' & _).
    unfold SimModel.bits_of. rewrite (H k q Hk), (H' k q Hk). reflexivity.
  Qed.

  (* the outcomes do not depend on what was on the nodes before *)
  Lemma same_runs : forall T (A : node_attrs) s, exists outs, List.length outs = T /\ forall A', exists st', runs (gen_trial rnd p nodes decode) (A', s) outs st'.
  Proof.
    induction T as [|T IH]; intros A s; [exists []; split; [reflexivity|]; intros A'; exists (A', s); constructor|].
    destruct (total (SimModel.bits_of (fst (iid_apply rnd p nodes A s)))) as (b1 & r & E1).
    destruct (IH A (snd (iid_apply rnd p nodes A s))) as (outs & Hl & Hr). exists (r :: outs). split; [cbn [List.length]; lia|]. intros A'.
    destruct (total (SimModel.bits_of (fst (iid_apply rnd p nodes A' s)))) as (b2 & r2 & E2).
    assert (r2 = r) by (apply (ext _ _ _ _ _ _ (fun q Hq => same_bits A' A s q (Hsyn q Hq)) E2 E1)). subst r2.
    assert (Es : snd (iid_apply rnd p nodes A' s) = snd (iid_apply rnd p nodes A s)).
    { destruct (iid_apply_spec rnd p nodes A s ND) as (-> & _). destruct (iid_apply_spec rnd p nodes A' s ND) as (-> & _). reflexivity. }
    destruct (iid_apply rnd p nodes A' s) as [A1 s1] eqn:E. cbn [fst snd] in *. subst s1.
    destruct (Hr (store_bits nodes A1 b2)) as (st' & Hst). exists st'.
    eapply runs_cons; [|exact Hst]. unfold gen_trial. cbn [fst snd]. rewrite E, E2. reflexivity.
  Qed.
End Same.

Lemma runs_firstn {S} (step : S -> S * res bool) : forall outs k s st', runs step s outs st' -> exists st2, runs step s (firstn k outs) st2.
Proof.
  induction outs as [|b outs IH]; intros k s st' H; inversion H; subst.
  - exists st'. rewrite firstn_nil. constructor.
  - destruct k as [|k]; [exists s; constructor|]. match goal with Hs : step s = (?s1, _), Hr : runs step ?s1 outs st' |- _ => destruct (IH k s1 st' Hr) as [st2 H2]; exists st2; cbn [firstn]; eapply runs_cons; [exact Hs|exact H2] end.
Qed.

(* A second simulation in the same process repeats the first one: for every surface code, every error probability,
   both decoders with uniform weights, every generator and every way default_rng makes a generator from a seed, the
   number of errors that ec_monte_carlo reports is the same in every call of the session, whatever the objects went
   through in between; with more trials the first ones are the same again. *)
Definition session_repeats {S} (default_rng : Z -> S) (trial : node_attrs * S -> (node_attrs * S) * res bool) (import_us : Z) : Prop :=
  exists errors : nat -> Z,
    (forall T A, exists st', seeded_monte_carlo default_rng trial import_us (Z.of_nat T) A = (st', Ok (errors T))) /\
    (forall T1 T2, (T1 <= T2)%nat -> 0 <= errors T2 - errors T1 <= Z.of_nat T2 - Z.of_nat T1).
Theorem C76_repeated_run_refuted : forall D e b pol c ch (S : Type) (rnd : generator S) (default_rng : Z -> S) p trial import_us,
  dims_ge2 D -> is_surface_code D e b pol c -> valid_choice (sc_stabs c) ch -> uniform_decoder rnd p c ch trial ->
  session_repeats default_rng trial import_us.
Proof.
  intros D e b pol c ch S rnd default_rng p trial us HD HC Hch Hdec.
  destruct (decoder_gen D e b pol c ch rnd p trial HD HC Hch Hdec) as (decode & -> & Htot & Hext & _).
  pose proof (code_nodes_NoDup D e b pol c HD HC) as ND.
  assert (Hsyn : incl (sc_syn c) (node_list (sc_graph c))) by (intros q; apply (syn_in_nodes D e b pol c HD HC)).
  set (nodes := node_list (sc_graph c)) in *. set (s0 := default_rng (rank_seed 0 us)).
  pose (A0 := (fun _ _ => None) : node_attrs).
  (* a list of outcomes for every length, each a beginning of the longer ones *)
  assert (K : forall T, exists outs, List.length outs = T /\ forall A', exists st', runs (gen_trial rnd p nodes decode) (A', s0) outs st').
  { intros T. exact (same_runs rnd p nodes (sc_syn c) decode ND Htot Hsyn Hext T A0 s0). }
  assert (F : forall T outs outs', List.length outs = T -> (T <= List.length outs')%nat -> (exists st', runs (gen_trial rnd p nodes decode) (A0, s0) outs st') -> (exists st', runs (gen_trial rnd p nodes decode) (A0, s0) outs' st') -> outs = firstn T outs').
  { clear. intros T outs. revert T. generalize (A0, s0). induction outs as [|x outs IH]; intros s T outs' Hl Hle (st1 & H1) (st2 & H2); subst T; [reflexivity|].
    cbn [List.length] in Hle. destruct outs' as [|y outs']; [cbn [List.length] in Hle; lia|]. cbn [List.length firstn] in *.
    inversion H1 as [|? ? s1 ? ? Hs1 Hr1]; subst. inversion H2 as [|? ? s2 ? ? Hs2 Hr2]; subst. rewrite Hs1 in Hs2. injection Hs2 as <- <-.
    f_equal. apply (IH s1); [reflexivity|lia|eauto|eauto]. }
  assert (Err : forall T outs A, List.length outs = T -> (exists st', runs (gen_trial rnd p nodes decode) (A, s0) outs st') ->
     exists st', seeded_monte_carlo default_rng (gen_trial rnd p nodes decode) us (Z.of_nat T) A = (st', Ok (Z.of_nat (List.length (filter negb outs))))).
  { intros T outs A Hl (st' & Hr). exists st'. unfold seeded_monte_carlo. fold s0.
    apply (C43_errors_single_process _ (gen_trial rnd p nodes decode) (Z.of_nat T) (A, s0) outs st' (Zle_0_nat T) Hr). rewrite Hl. reflexivity. }
  exists (fun T => match snd (seeded_monte_carlo default_rng (gen_trial rnd p nodes decode) us (Z.of_nat T) A0) with Ok z => z | Err _ => 0 end).
  assert (V : forall T outs, List.length outs = T -> (forall A', exists st', runs (gen_trial rnd p nodes decode) (A', s0) outs st') ->
    match snd (seeded_monte_carlo default_rng (gen_trial rnd p nodes decode) us (Z.of_nat T) A0) with Ok z => z | Err _ => 0 end = Z.of_nat (List.length (filter negb outs))).
  { intros T outs Hl Hr. destruct (Err T outs A0 Hl (Hr A0)) as (st' & ->). reflexivity. }
  split.
  - intros T A. destruct (K T) as (outs & Hl & Hr). rewrite (V T outs Hl Hr). exact (Err T outs A Hl (Hr A)).
  - intros T1 T2 Hle. destruct (K T1) as (o1 & L1 & R1), (K T2) as (o2 & L2 & R2). rewrite (V T1 o1 L1 R1), (V T2 o2 L2 R2).
    rewrite (F T1 o1 o2 L1 ltac:(lia) (R1 A0) (R2 A0)). clear - Hle L2.
    rewrite <- (firstn_skipn T1 o2) at 1 3. rewrite filter_app, app_length.
    assert (H : (List.length (filter negb (skipn T1 o2)) <= List.length (skipn T1 o2))%nat).
    { generalize (skipn T1 o2). intros l. induction l as [|x l IH]; [apply le_n|]. cbn [filter List.length]. destruct x; cbn [negb List.length]; lia. }
    rewrite skipn_length in H. lia.
Qed.
Print Assumptions C76_repeated_run_refuted.

(* ---------- MPI ---------- *)
Lemma count_blocks (f : nat -> bool) (size : Z) (T : nat) : 0 < size ->
  count (fun i => f (Z.to_nat (i / size))) (size * Z.of_nat T) = size * Z.of_nat (count_if f (seq 0 T)).
Proof.
  intros Hs. unfold count. induction T as [|T IH]; [cbn [seq]; unfold count_if; cbn [filter List.length]; change (Z.of_nat 0) with 0; rewrite !Z.mul_0_r; reflexivity|].
  rewrite seq_S, count_app. cbn [Nat.add].
  assert (E : py_range 0 (size * Z.of_nat (Datatypes.S T)) = py_range 0 (size * Z.of_nat T) ++ map (fun j => size * Z.of_nat T + j) (py_range 0 size)).
  { unfold py_range. rewrite !Z.sub_0_r.
    replace (Z.to_nat (size * Z.of_nat (Datatypes.S T))) with (Z.to_nat (size * Z.of_nat T) + Z.to_nat size)%nat by nia. rewrite seq_app, map_app. f_equal.
    rewrite map_map. cbn [Nat.add]. rewrite <- (Nat.add_0_r (Z.to_nat (size * Z.of_nat T))) at 1.
    assert (G : forall n a k, map (fun k0 : nat => 0 + Z.of_nat k0) (seq (a + k) n) = map (fun x : nat => Z.of_nat a + (0 + Z.of_nat x)) (seq k n)).
    { induction n as [|n IHn]; intros a k; [reflexivity|]. cbn [seq map]. f_equal; [lia|]. rewrite <- IHn. f_equal. f_equal. lia. }
    rewrite G. apply map_ext. intros k. lia. }
  rewrite E, filter_app, app_length, Nat2Z.inj_add, IH.
  assert (G : forall l : list Z, (forall j, In j l -> 0 <= j < size) ->
    Z.of_nat (List.length (filter (fun i => f (Z.to_nat (i / size))) (map (fun j => size * Z.of_nat T + j) l))) = if f T then Z.of_nat (List.length l) else 0).
  { induction l as [|j l IHl]; intros Hl; [destruct (f T); reflexivity|]. cbn [map filter].
    specialize (IHl (fun j Hj => Hl j (or_intror Hj))). specialize (Hl j (or_introl eq_refl)).
    replace (Z.to_nat ((size * Z.of_nat T + j) / size)) with T.
    - destruct (f T); [cbn [List.length]; lia|exact IHl].
    - rewrite Z.add_comm, Z.mul_comm, Z.div_add by lia. rewrite Z.div_small by lia. lia. }
  rewrite G by (intros j Hj; apply in_py_range in Hj; exact Hj). rewrite length_py_range, Z.sub_0_r.
  unfold count_if. cbn [filter]. destruct (f T); cbn [List.length]; lia.
Qed.

(* Two ranks draw the same numbers exactly when the clocks they read differ by the difference of their ranks (times
   that are not multiples of ten microseconds). *)
Theorem C76_rank_collision : forall r r' us us', us mod 10 <> 0 -> us' mod 10 <> 0 ->
  (rank_seed r us = rank_seed r' us' <-> us - us' = r' - r).
Proof. intros r r' us us' H H'. unfold rank_seed. rewrite !int_time_full by assumption. lia. Qed.
Print Assumptions C76_rank_collision.

Lemma nth_seq_procs {A} (l : list A) r x : nth_error (combine (seq 0 (List.length l)) l) r = Some x -> nth_error l r = Some (snd x) /\ fst x = r.
Proof.
  assert (G : forall l s r, nth_error (combine (seq s (List.length l)) l) r = Some x -> nth_error l r = Some (snd x) /\ fst x = (s + r)%nat).
  { clear. induction l as [|y l IH]; intros s [|r] H; cbn [List.length seq combine nth_error] in H; try discriminate.
    - injection H as <-. cbn. split; [reflexivity|lia].
    - apply IH in H. cbn [nth_error]. destruct H. split; [assumption|lia]. }
  intros H. apply G in H. exact H.
Qed.

(* If the processes of a world are started in consecutive microseconds, the last rank first, all of them run the same
   trials: the errors reported for size * T trials are size times the errors of T trials in one process. *)
Theorem C76_parallel_refuted : forall D e b pol c ch (S : Type) (rnd : generator S) (default_rng : Z -> S) p trial us (procs : list (Z * node_attrs)) T,
  dims_ge2 D -> is_surface_code D e b pol c -> valid_choice (sc_stabs c) ch -> uniform_decoder rnd p c ch trial ->
  let size := Z.of_nat (List.length procs) in 0 < size <= us mod 10 ->
  (forall r t A, nth_error procs r = Some (t, A) -> t = us - Z.of_nat r) ->
  exists errors, seeded_mpi default_rng trial (size * Z.of_nat T) procs = Some (Ok (size * errors)) /\
    forall A, exists st', seeded_monte_carlo default_rng trial us (Z.of_nat T) A = (st', Ok errors).
Proof.
  intros D e b pol c ch S rnd default_rng p trial us procs T HD HC Hch Hdec size Hsz Hp.
  destruct (decoder_gen D e b pol c ch rnd p trial HD HC Hch Hdec) as (decode & -> & Htot & Hext & _).
  pose proof (code_nodes_NoDup D e b pol c HD HC) as ND.
  assert (Hsyn : incl (sc_syn c) (node_list (sc_graph c))) by (intros q; apply (syn_in_nodes D e b pol c HD HC)).
  set (nodes := node_list (sc_graph c)) in *.
  destruct (same_runs rnd p nodes (sc_syn c) decode ND Htot Hsyn Hext T (fun _ _ => None) (default_rng us)) as (outs & Hl & Hr).
  exists (Z.of_nat (List.length (filter negb outs))). split.
  - unfold seeded_mpi.
    set (ss := map (fun rp : nat * (Z * node_attrs) => (snd (snd rp), default_rng (rank_seed (Z.of_nat (fst rp)) (fst (snd rp))))) (combine (seq 0 (List.length procs)) procs)).
    assert (Ls : List.length ss = List.length procs) by (unfold ss; rewrite map_length, combine_length, seq_length; lia).
    assert (Hss : ss <> []) by (intros E; rewrite E in Ls; cbn in Ls; lia).
    assert (Hst : forall r s, nth_error ss r = Some s -> (r < List.length procs)%nat /\ snd s = default_rng us).
    { intros r s Hs. assert (Hlt : (r < List.length procs)%nat) by (rewrite <- Ls; apply nth_error_Some; congruence). split; [exact Hlt|].
      unfold ss in Hs. rewrite nth_error_map in Hs. destruct (nth_error (combine _ procs) r) as [rp|] eqn:E; [|discriminate]. injection Hs as <-.
      apply nth_seq_procs in E. destruct E as [E Er]. destruct rp as [r' [t A]]. cbn [fst snd] in *. subst r'. rewrite (Hp r t A E). unfold rank_seed.
      rewrite int_time_full by lia. f_equal. lia. }
    destruct (list_choice (@nil bool) ((fun _ _ => None) : node_attrs, default_rng us) ss (fun r s o st' => runs (gen_trial rnd p nodes decode) s outs st' /\ o = outs)) as (o & ends & Ho).
    { intros r [A s] Hs. destruct (Hst r _ Hs) as [_ Es]. cbn [snd] in Es. subst s. destruct (Hr A) as (st' & H'). exists outs, st'. auto. }
    destruct (C43_errors_at_root _ (gen_trial rnd p nodes decode) (size * Z.of_nat T) ss (fun _ => outs) ends ltac:(nia) Hss) as [H _].
    + intros r s Hs. split; [apply Ho; exact Hs|]. rewrite Ls. fold size. destruct (Hst r s Hs) as [Hlt _].
      rewrite share_eq by (unfold size in *; nia). rewrite Hl.
      assert (E : (size * Z.of_nat T - Z.of_nat r + size - 1) / size = Z.of_nat T); [|lia].
      replace (size * Z.of_nat T - Z.of_nat r + size - 1) with ((size - 1 - Z.of_nat r) + Z.of_nat T * size) by lia. rewrite Z.div_add by lia. rewrite Z.div_small by (unfold size; lia). lia.
    + rewrite H. do 2 f_equal. rewrite Ls. fold size.
      rewrite (count_blocks (fun t => negb (nth t outs false)) size T) by lia. f_equal. f_equal.
      rewrite <- Hl. clear. unfold count_if. induction outs as [|x l IH]; [reflexivity|]. cbn [List.length seq filter nth]. rewrite <- seq_shift.
      destruct x; cbn [negb List.length]; rewrite filter_map_len; cbn [nth]; rewrite IH; reflexivity.
  - intros A. destruct (Hr A) as (st' & H'). exists st'. unfold seeded_monte_carlo, rank_seed. rewrite int_time_full by lia. rewrite Z.add_0_l.
    apply (C43_errors_single_process _ (gen_trial rnd p nodes decode) (Z.of_nat T) (A, default_rng us) outs st' (Zle_0_nat T) H'). rewrite Hl. reflexivity.
Qed.
Print Assumptions C76_parallel_refuted.

(* ---------- one process, two error probabilities ---------- *)
Lemma runs_state {S} (rnd : generator S) p nodes decode : NoDup nodes -> forall outs A s st', runs (gen_trial rnd p nodes decode) (A, s) outs st' -> snd st' = after rnd s (List.length outs * List.length nodes).
Proof.
  intros ND. induction outs as [|x outs IH]; intros A s st' H; inversion H as [|? ? s1 ? ? Hs Hr]; subst; [reflexivity|].
  unfold gen_trial in Hs. cbn [fst snd] in Hs. destruct (iid_apply_spec rnd p nodes A s ND) as (E & _). destruct (iid_apply rnd p nodes A s) as [A1 s2]. cbn [snd] in E.
  destruct (decode (SimModel.bits_of A1)) as [[bit r]|]; [|discriminate]. injection Hs as <- <-. apply IH in Hr. rewrite Hr, E. cbn [List.length Nat.mul].
  clear. generalize (List.length outs * List.length nodes)%nat. generalize (List.length nodes). intros n a. rewrite Nat.add_comm.
  revert s. induction a as [|a IH]; intros s; [reflexivity|]. cbn [Nat.add after]. rewrite IH. reflexivity.
Qed.

(* Simulations of one process at two error probabilities use the same draws: in every trial the qubits in error at the
   smaller probability are in error at the larger one, whatever the two decoders did in the trials before. *)
Theorem C76_common_draws : forall D e b pol c ch (S : Type) (rnd : generator S) (default_rng : Z -> S) p p' trial trial' import_us A A' outs outs' st st',
  dims_ge2 D -> is_surface_code D e b pol c -> valid_choice (sc_stabs c) ch -> uniform_decoder rnd p c ch trial -> uniform_decoder rnd p' c ch trial' -> (p <= p')%R ->
  let s := default_rng (rank_seed 0 import_us) in let nodes := node_list (sc_graph c) in
  runs trial (A, s) outs st -> runs trial' (A', s) outs' st' -> List.length outs = List.length outs' ->
  forall q, In q nodes -> SimModel.bits_of (fst (iid_apply rnd p nodes (fst st) (snd st))) q = true ->
    SimModel.bits_of (fst (iid_apply rnd p' nodes (fst st') (snd st'))) q = true.
Proof.
  intros D e b pol c ch S rnd default_rng p p' trial trial' us A A' outs outs' st st' HD HC Hch Hdec Hdec' Hp s nodes R R' HL q Hq Hb.
  destruct (decoder_gen D e b pol c ch rnd p trial HD HC Hch Hdec) as (decode & -> & _).
  destruct (decoder_gen D e b pol c ch rnd p' trial' HD HC Hch Hdec') as (decode' & -> & _).
  pose proof (code_nodes_NoDup D e b pol c HD HC) as ND. fold nodes in ND, R, R'.
  apply (runs_state rnd p nodes decode ND) in R. apply (runs_state rnd p' nodes decode' ND) in R'. rewrite <- HL, <- R in R'. rewrite R'.
  apply (@In_nth_error point) in Hq. destruct Hq as (k & Hk).
  destruct (iid_apply_spec rnd p nodes (fst st) (snd st) ND) as (_ & H & _). destruct (iid_apply_spec rnd p' nodes (fst st') (snd st) ND) as (_ & H' & _).
  unfold SimModel.bits_of in *. rewrite (H k q Hk) in Hb. rewrite (H' k q Hk).
  destruct (Rlt_dec (draw rnd (snd st) k) p) as [h|h]; [|discriminate]. destruct (Rlt_dec (draw rnd (snd st) k) p') as [h'|h']; [reflexivity|]. exfalso. lra.
Qed.
Print Assumptions C76_common_draws.

(* a toric code of size (3, 3, 3), the Union-Find decoder, a generator that counts up from its seed, and three ranks
   started at 13:17:45.123457, .123456 and .123455 *)
Example C76_nonvacuous :
  let c := mk_code (3, 3, 3) EcPrimal BdToric None in
  let ch := fun i j => hd (0, 0, 0) (shared (sc_stabs c) i j) in
  let rnd : generator Z := fun s => ((IZR (s mod 1000) / 1000)%R, s + 1) in
  let us := 1700000265123457 in
  exists trial, uniform_decoder rnd (1 / 100) c ch trial /\ session_repeats (fun z => z) trial us /\
  rank_seed 0 us = rank_seed 2 (us - 2) /\
  exists errors, seeded_mpi (fun z => z) trial 300 (map (fun r => (us - r, fun _ _ => None)) [0; 1; 2]) = Some (Ok (3 * errors)).
Proof.
  intros c ch rnd us. assert (HD : dims_ge2 (3, 3, 3)) by (intros []; cbn; lia). assert (HC : is_surface_code (3, 3, 3) EcPrimal BdToric None c) by apply mk_code_ok.
  assert (Hch : valid_choice (sc_stabs c) ch) by apply first_choice_valid.
  destruct (C54_contracts_met (3, 3, 3) EcPrimal BdToric None c ch HD HC Hch) as (lib & L1 & L2).
  pose (E := sg_edges (sc_stabs c) (sc_bound c) ch). pose (tr := iid_uf_trial rnd (1 / 100) c ch (fun _ => false) lib id_sched (2 * List.length E + 2)).
  assert (U : uniform_decoder rnd (1 / 100) c ch tr).
  { right. exists lib, id_sched, (2 * List.length E + 2)%nat. split; [exact L1|]. split; [exact L2|]. split; [exact id_sched_ok|]. split; [apply le_n|reflexivity]. }
  exists tr. split; [exact U|]. clearbody tr c. split; [exact (C76_repeated_run_refuted _ _ _ _ c ch Z rnd (fun z => z) _ tr us HD HC Hch U)|].
  split; [vm_compute; reflexivity|].
  destruct (C76_parallel_refuted _ _ _ _ c ch Z rnd (fun z => z) _ tr us (map (fun r => (us - r, fun _ _ => None)) [0; 1; 2]) 100 HD HC Hch U) as (errors & H & _).
  - vm_compute. split; [reflexivity|discriminate].
  - intros r t A Hr. destruct r as [|[|[|r]]]; cbn [map nth_error] in Hr; try discriminate; try (destruct r; discriminate); injection Hr as <- _; reflexivity.
  - exists errors. exact H.
Qed.
