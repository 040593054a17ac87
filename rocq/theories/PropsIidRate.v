(* PropsIidRate.v: C71, the distribution of errors and failures under IidNoise. *)
From Coq Require Import String Reals Lra Lia FunctionalExtensionality.
From Verif Require Import Base Lattice RhgModel RhgSpec SurfaceModel SurfaceSpec SurfaceProofs SurfaceIncidence SurfaceTheorems SurfaceGauge StabGraphModel PropsSurface MwpmModel MwpmInst PropsMwpm UfModel UfSpec UfInst PropsUf PropsUfDist.
From Verif Require Import SimModel SimSpec SimProofs SimTrial PropsSim PropsSimUf PropsCount CountDraws CvMacroGauge PropsCvMacro.
Open Scope nat_scope.

(* ---------- specification ---------- *)
(* A generator whose draws are multiples of 1/M (numpy: M = 2^53), taken from a list. *)
Definition grid (M : nat) : generator (list nat) :=
  fun ds => match ds with k :: ds' => ((INR k / INR M)%R, ds') | [] => (0%R, []) end.
(* the draws that flip a bit, and their number *)
Definition below (M : nat) (p : R) (k : nat) : bool := if Rlt_dec (INR k / INR M) p then true else false.
Definition flips (M : nat) (p : R) : nat := count_if (below M p) (seq 0 M).
Definition rsum (f : nat -> R) (l : list nat) : R := fold_right (fun k s => (f k + s)%R) 0%R l.
(* the trial does not report success *)
Definition fails {S} (trial : node_attrs * S -> (node_attrs * S) * res bool) (A : node_attrs) (ds : S) : bool :=
  match snd (trial (A, ds)) with Ok true => false | _ => true end.

(* ---------- the draws of the grid ---------- *)
Lemma after_grid M : forall n ds, after (grid M) ds n = skipn n ds.
Proof.
  assert (S1 : forall ds, snd (grid M ds) = skipn 1 ds) by (intros [|k ds]; reflexivity).
  induction n as [|n IH]; intros ds; [reflexivity|]. cbn [after]. rewrite IH, S1. revert ds. clear. induction n as [|n IH]; intros [|k ds]; try reflexivity. cbn [skipn] in *. apply IH.
Qed.
Lemma draw_grid M n ds : n < List.length ds -> draw (grid M) ds n = (INR (nth n ds 0%nat) / INR M)%R.
Proof.
  intros H. unfold draw. rewrite after_grid. revert ds H. induction n as [|n IH]; intros [|k ds] H; cbn [List.length] in H; try lia; [reflexivity|]. cbn [skipn nth]. apply IH. lia.
Qed.

Section Trial.
  Variables (M : nat) (p : R) (nodes syn : list point) (decode : (point -> bool) -> res ((point -> bool) * bool)).
  Hypothesis ND : NoDup nodes.
  Hypothesis total : forall bit, exists bit' r, decode bit = Ok (bit', r).
  Hypothesis Hsyn : incl syn nodes.
  Hypothesis ext : forall bit bit2 b1 b2 r1 r2, (forall q, In q syn -> bit q = bit2 q) -> decode bit = Ok (b1, r1) -> decode bit2 = Ok (b2, r2) -> r1 = r2.
  Notation n := (List.length nodes).
  Notation trial := (gen_trial (grid M) p nodes decode).

  Lemma bits_grid A ds k q : n <= List.length ds -> nth_error nodes k = Some q ->
    SimModel.bits_of (fst (iid_apply (grid M) p nodes A ds)) q = below M p (nth k ds 0).
  Proof.
    intros Hl Hk. destruct (iid_apply_spec (grid M) p nodes A ds ND) as (_ & H & _). unfold SimModel.bits_of. rewrite (H k q Hk).
    assert (k < n) by (apply nth_error_Some; congruence). rewrite draw_grid by lia. unfold below. destruct (Rlt_dec _ p); reflexivity.
  Qed.
  Lemma rest_grid A ds : snd (iid_apply (grid M) p nodes A ds) = skipn n ds.
  Proof. destruct (iid_apply_spec (grid M) p nodes A ds ND) as (H & _). rewrite H. apply after_grid. Qed.

  (* the outcome depends on the first n draws only *)
  Lemma trial_block A A0 v rest : List.length v = n -> exists A', trial (A, v ++ rest) = ((A', rest), Ok (negb (fails trial A0 v))).
  Proof.
    intros Hv. unfold fails, gen_trial. cbn [fst snd].
    assert (Hb : forall q, In q syn -> SimModel.bits_of (fst (iid_apply (grid M) p nodes A (v ++ rest))) q = SimModel.bits_of (fst (iid_apply (grid M) p nodes A0 v)) q).
    { intros q Hq. apply Hsyn in Hq. apply (In_nth_error nodes) in Hq. destruct Hq as (k & Hk). assert (k < n) by (apply nth_error_Some; congruence).
      rewrite (bits_grid A _ k q), (bits_grid A0 _ k q); [|lia|exact Hk|rewrite app_length; lia|exact Hk]. f_equal. apply app_nth1. lia. }
    pose proof (rest_grid A (v ++ rest)) as Hr. rewrite <- Hv, skipn_app, Nat.sub_diag, skipn_all, skipn_O in Hr. cbn [app] in Hr.
    destruct (iid_apply (grid M) p nodes A (v ++ rest)) as [A1 s1]. destruct (iid_apply (grid M) p nodes A0 v) as [A2 s2]. cbn [fst snd] in *. subst s1.
    destruct (total (SimModel.bits_of A1)) as (b1 & r1 & E1). destruct (total (SimModel.bits_of A2)) as (b2 & r2 & E2). rewrite E1, E2. cbn [snd].
    rewrite (ext _ _ _ _ _ _ Hb E1 E2). eexists. destruct r2; reflexivity.
  Qed.

  Fixpoint bad_blocks (A0 : node_attrs) (T : nat) (ds : list nat) : list bool :=
    match T with O => [] | S T' => negb (fails trial A0 (firstn n ds)) :: bad_blocks A0 T' (skipn n ds) end.
  Lemma bad_len A0 T : forall ds, List.length (bad_blocks A0 T ds) = T.
  Proof. induction T as [|T IH]; intros ds; [reflexivity|]. cbn. rewrite IH. reflexivity. Qed.
  Lemma runs_blocks A0 T : forall A ds, List.length ds = T * n -> exists st', runs trial (A, ds) (bad_blocks A0 T ds) st'.
  Proof.
    induction T as [|T IH]; intros A ds Hl; [exists (A, ds); constructor|]. cbn [bad_blocks Nat.mul] in *.
    assert (Hf : List.length (firstn n ds) = n) by (apply firstn_length_le; lia).
    destruct (trial_block A A0 (firstn n ds) (skipn n ds) Hf) as (A' & HT). rewrite firstn_skipn in HT.
    destruct (IH A' (skipn n ds)) as (st' & Hr); [rewrite skipn_length; lia|]. exists st'. eapply runs_cons; [exact HT|exact Hr].
  Qed.
  Definition nbad (A0 : node_attrs) (T : nat) (ds : list nat) : nat := count_if negb (bad_blocks A0 T ds).
  Lemma errors_blocks A0 T A ds : List.length ds = T * n -> exists st', mc_single trial (Z.of_nat T) 1 0 (A, ds) = (st', Ok (Z.of_nat (nbad A0 T ds))).
  Proof.
    intros Hl. destruct (runs_blocks A0 T A ds Hl) as (st' & Hr). exists st'.
    apply (C43_errors_single_process _ trial (Z.of_nat T) (A, ds) _ st' (Zle_0_nat T) Hr). rewrite bad_len. reflexivity.
  Qed.

  Lemma nbad_sum A0 T : nsum (nbad A0 T) (all_draws M (T * n)) * M ^ n = T * count_if (fails trial A0) (all_draws M n) * M ^ (T * n).
  Proof.
    induction T as [|T IH]; [cbn; lia|]. cbn [Nat.mul]. rewrite all_draws_add, nsum_flat.
    rewrite (nsum_ext _ (fun u => (if fails trial A0 u then 1 else 0) * M ^ (T * n) + nsum (nbad A0 T) (all_draws M (T * n)))).
    - rewrite nsum_plus, nsum_mul, nsum_count, nsum_const, all_draws_len, Nat.pow_add_r. nia.
    - intros u Hu. apply in_all_draws in Hu. destruct Hu as [Hu _]. rewrite nsum_map.
      rewrite (nsum_ext _ (fun v => (if fails trial A0 u then 1 else 0) + nbad A0 T v)).
      + rewrite nsum_plus, nsum_const, all_draws_len. lia.
      + intros v _. unfold nbad. cbn [bad_blocks]. rewrite <- Hu at 1 2.
        rewrite firstn_app, Nat.sub_diag, firstn_all, firstn_O, app_nil_r, skipn_app, Nat.sub_diag, skipn_all, skipn_O. cbn [app]. unfold count_if. cbn [filter]. destruct (fails trial A0 u); reflexivity.
  Qed.
End Trial.

(* ---------- the decoders look at the syndrome qubits only ---------- *)
Section Ext.
  Variables (D : Z * Z * Z) (e : ecx) (b : bdk) (pol : option (point * point -> Z)) (c : scode) (ch : nat -> nat -> point).
  Hypotheses (HD : dims_ge2 D) (HC : is_surface_code D e b pol c) (Hch : valid_choice (sc_stabs c) ch).
  Let E := sg_edges (sc_stabs c) (sc_bound c) ch.
  Variables bit bit2 : point -> bool.
  Hypothesis Hb : forall q, In q (sc_syn c) -> bit q = bit2 q.

  Lemma same_parities : (fun i => stab_parity bit (stab_of (sc_stabs c) i)) = (fun i => stab_parity bit2 (stab_of (sc_stabs c) i)).
  Proof.
    apply functional_extensionality. intros i. unfold stab_parity. apply xsum_ext. intros q Hq. apply Hb.
    destruct (le_lt_dec (List.length (sc_stabs c)) i) as [Hi|Hi]; [unfold stab_of in Hq; rewrite nth_overflow in Hq by exact Hi; destruct Hq|].
    apply (stab_syn D e b pol c HD HC (stab_of (sc_stabs c) i)); [apply nth_In, Hi|exact Hq].
  Qed.
  Lemma same_recovery nodes qs : forall f g f', (forall q, In q (sc_syn c) -> f q = g q) -> recovery nodes qs f = Ok f' -> exists g', recovery nodes qs g = Ok g' /\ forall q, In q (sc_syn c) -> f' q = g' q.
  Proof.
    unfold recovery. induction qs as [|[x|] qs IH]; intros f g f' H R; cbn [foldM] in *.
    - injection R as <-. exists g. split; [reflexivity|exact H].
    - destruct (pmem x nodes); [|discriminate]. cbn [bind] in *. apply (IH _ (fun y => if peqb y x then negb (g y) else g y)) in R; [exact R|]. intros q Hq. rewrite (H q Hq). reflexivity.
    - discriminate.
  Qed.
  Lemma same_check f g sanity : (forall q, In q (sc_syn c) -> f q = g q) -> check_correction c f sanity = check_correction c g sanity.
  Proof.
    intros H. rewrite !(check_correction_eq D e b pol c HD HC). f_equal. induction (logical_axes e b) as [|a l IH]; [reflexivity|]. cbn [forallb]. rewrite IH. f_equal. f_equal.
    unfold plane. apply xsum_ext. intros q Hq. rewrite (H q Hq). reflexivity.
  Qed.
  Lemma ext_tail (qs : res (list (option point))) sanity b1 b2 r1 r2 :
    bind qs (fun qs => bind (recovery (node_list (sc_graph c)) qs bit) (fun bit' => bind (check_correction c bit' sanity) (fun ok => Ok (bit', ok)))) = Ok (b1, r1) ->
    bind qs (fun qs => bind (recovery (node_list (sc_graph c)) qs bit2) (fun bit' => bind (check_correction c bit' sanity) (fun ok => Ok (bit', ok)))) = Ok (b2, r2) -> r1 = r2.
  Proof.
    destruct qs as [qs|]; cbn [bind]; [|discriminate]. destruct (recovery _ qs bit) as [f'|] eqn:R; cbn [bind]; [|discriminate].
    destruct (same_recovery _ _ _ _ _ Hb R) as (g' & -> & Hg). cbn [bind]. rewrite (same_check f' g' sanity Hg). destruct (check_correction c g' sanity) as [r|]; cbn [bind]; [|discriminate]. congruence.
  Qed.
  Lemma ext_mwpm rp w o pick sanity b1 b2 r1 r2 : correct_mwpm rp c ch w o pick bit sanity = Ok (b1, r1) -> correct_mwpm rp c ch w o pick bit2 sanity = Ok (b2, r2) -> r1 = r2.
  Proof.
    unfold correct_mwpm, mwpm_decoder. unfold odd_stabs. pose proof same_parities as H.
    rewrite (filter_ext (fun i => stab_parity bit (stab_of (sc_stabs c) i)) (fun i => stab_parity bit2 (stab_of (sc_stabs c) i))) by (intros i; exact (f_equal (fun f => f i) H)).
    apply ext_tail.
  Qed.
  Lemma ext_uf er lib sch fuel sanity b1 b2 r1 r2 : correct_uf c ch er lib sch fuel bit sanity = Ok (b1, r1) -> correct_uf c ch er lib sch fuel bit2 sanity = Ok (b2, r2) -> r1 = r2.
  Proof. unfold correct_uf. rewrite same_parities. apply ext_tail. Qed.
End Ext.

(* ---------- real numbers ---------- *)
Lemma INR_nsum {A} (f : A -> nat) l : INR (nsum f l) = fold_right (fun x s => (INR (f x) + s)%R) 0%R l.
Proof. induction l as [|x l IH]; [reflexivity|]. cbn [nsum fold_right]. rewrite plus_INR, IH. reflexivity. Qed.
Lemma rsum_ext f g l : (forall k, In k l -> f k = g k) -> rsum f l = rsum g l.
Proof. induction l as [|x l IH]; intros H; [reflexivity|]. cbn. rewrite (H x (or_introl eq_refl)). f_equal. apply IH. intros k Hk. apply H. right. exact Hk. Qed.
Lemma rsum_mul f x l : (x * rsum f l = rsum (fun k => x * f k) l)%R.
Proof. induction l as [|y l IH]; cbn; [lra|]. unfold rsum in IH. rewrite <- IH. lra. Qed.

Lemma pow_quot x y n : (y <> 0 -> (x / y) ^ n = x ^ n / y ^ n)%R.
Proof. intros H. unfold Rdiv. rewrite Rpow_mult_distr, pow_inv. reflexivity. Qed.

(* a binomial tail, as a count of M^n draws and as a probability *)
Lemma tail_real M a m n t : 0 < M -> a <= M -> m <= n ->
  Rdiv (INR (M ^ (n - m) * nsum (fun k => choose m k * a ^ k * (M - a) ^ (m - k)) (seq t (S m - t)))) (INR (M ^ n)) =
   rsum (fun k => (INR (choose m k) * (INR a / INR M) ^ k * (1 - INR a / INR M) ^ (m - k))%R) (seq t (S m - t)).
Proof.
  intros HM Ha Hm. assert (HR : (INR M <> 0)%R) by (apply not_0_INR; lia).
  rewrite mult_INR, INR_nsum. change (fold_right (fun (x : nat) (s : R) => (INR ((choose m x * a ^ x * (M - a) ^ (m - x))%nat) + s)%R) 0%R) with (rsum (fun x => INR (choose m x * a ^ x * (M - a) ^ (m - x)))).
  set (T := rsum (fun x => INR (choose m x * a ^ x * (M - a) ^ (m - x))) (seq t (S m - t))).
  replace (INR ((M ^ (n - m))%nat) * T / INR ((M ^ n)%nat))%R with (/ (INR M ^ m) * T)%R.
  - unfold T. rewrite rsum_mul. apply rsum_ext. intros k Hk. apply in_seq in Hk.
    rewrite !mult_INR, !pow_INR, minus_INR by exact Ha.
    replace (1 - INR a / INR M)%R with ((INR M - INR a) / INR M)%R by (field; exact HR). rewrite !pow_quot by exact HR.
    replace (INR M ^ m)%R with (INR M ^ k * INR M ^ (m - k))%R by (rewrite <- pow_add; f_equal; lia). field. split; apply pow_nonzero; exact HR.
  - rewrite !pow_INR. replace (INR M ^ n)%R with (INR M ^ (n - m) * INR M ^ m)%R by (rewrite <- pow_add; f_equal; lia). field. split; apply pow_nonzero; exact HR.
Qed.

(* ---------- C71 ---------- *)
(* The draws flip a bit with a probability that is p up to 1/M, and p itself if p is a multiple of 1/M. *)
Theorem C71_draw_probability : forall M p, 0 < M -> (0 <= p <= 1)%R ->
  flips M p <= M /\ (p <= INR (flips M p) / INR M < p + 1 / INR M)%R /\ forall a, p = (INR a / INR M)%R -> flips M p = a.
Proof.
  intros M p HM Hp. assert (HR : (0 < INR M)%R) by (apply lt_0_INR; exact HM).
  assert (K : forall m, (exists a, a <= m /\ count_if (below M p) (seq 0 m) = a /\ (forall k, k < m -> (below M p k = true <-> k < a)))).
  { induction m as [|m (a & Ha & Ca & Ka)]; [exists 0; split; [lia|split; [reflexivity|lia]]|]. rewrite seq_S, count_app, Ca. cbn [Nat.add].
    assert (mono : forall i j, i <= j -> below M p j = true -> below M p i = true).
    { intros i j Hij. unfold below. destruct (Rlt_dec (INR j / INR M) p) as [h|h]; [|discriminate]. intros _. destruct (Rlt_dec (INR i / INR M) p) as [h'|h']; [reflexivity|]. exfalso. apply h'.
      eapply Rle_lt_trans; [|exact h]. apply Rmult_le_compat_r; [left; apply Rinv_0_lt_compat; exact HR|apply le_INR; exact Hij]. }
    unfold count_if. cbn [filter]. destruct (below M p m) eqn:Em; cbn [List.length].
    - assert (a = m). { destruct (Nat.eq_dec a m) as [|Hn]; [assumption|]. exfalso. assert (Hk : a < m) by lia. specialize (Ka a Hk). pose proof (mono a m ltac:(lia) Em) as Hx. apply Ka in Hx. lia. }
      exists (m + 1). split; [lia|]. split; [lia|]. intros k Hk. split; [lia|]. intros _. apply (mono k m); [lia|exact Em].
    - exists (a + 0). split; [lia|]. split; [reflexivity|]. intros k Hk. destruct (Nat.eq_dec k m) as [->|Hn]; [rewrite Em; split; [discriminate|lia]|rewrite (Ka k) by lia; lia]. }
  destruct (K M) as (a & Ha & Ca & Ka). assert (Hf : flips M p = a) by exact Ca. rewrite Hf. split; [exact Ha|].
  assert (B : (p <= INR a / INR M < p + 1 / INR M)%R).
  { split.
    - destruct (Nat.eq_dec a M) as [->|Hn]; [unfold Rdiv; rewrite Rinv_r by lra; lra|]. assert (Hlt : a < M) by lia.
      specialize (Ka a Hlt). destruct (below M p a) eqn:Eb; [assert (a < a) by (apply Ka; reflexivity); lia|]. unfold below in Eb. destruct (Rlt_dec (INR a / INR M) p); [discriminate|lra].
    - destruct a as [|a]; [cbn [INR]; assert (0 < 1 / INR M)%R by (apply Rdiv_lt_0_compat; lra); unfold Rdiv in *; lra|].
      assert (Hk : below M p a = true) by (apply Ka; lia). unfold below in Hk. destruct (Rlt_dec (INR a / INR M) p) as [h|]; [|discriminate]. rewrite S_INR. unfold Rdiv in *. lra. }
  split; [exact B|]. intros a' ->. destruct B as [B1 B2]. unfold Rdiv in B1, B2.
  assert (I : (0 < / INR M)%R) by (apply Rinv_0_lt_compat; exact HR).
  assert (L1 : (INR a' <= INR a)%R) by (apply Rmult_le_reg_r with (/ INR M)%R; assumption).
  assert (L2 : (INR a < INR (a' + 1))%R). { apply Rmult_lt_reg_r with (/ INR M)%R; [exact I|]. rewrite plus_INR. cbn [INR]. lra. }
  apply INR_le in L1. apply INR_lt in L2. lia.
Qed.

(* The bits are independent: every pattern of bits on the nodes has the product of the probabilities. *)
Theorem C71_bits_independent : forall D e b pol c M p A (f : point -> bool), dims_ge2 D -> is_surface_code D e b pol c ->
  let nodes := node_list (sc_graph c) in let n := List.length nodes in let k := count_if f nodes in
  count_if (fun ds => forallb (fun q => Bool.eqb (SimModel.bits_of (fst (iid_apply (grid M) p nodes A ds)) q) (f q)) nodes) (all_draws M n) =
  flips M p ^ k * (M - flips M p) ^ (n - k).
Proof.
  intros D e b pol c M p A f HD HC nodes n k. pose proof (code_nodes_NoDup D e b pol c HD HC) as ND. fold nodes in ND.
  pose proof (pattern_count M (below M p) (map f nodes)) as H. rewrite map_length, count_map in H. change (count_if (fun x => f x) nodes) with k in H. fold n in H.
  change (count_if (below M p) (seq 0 M)) with (flips M p) in H. rewrite <- H. apply count_ext. intros v Hv. apply in_all_draws in Hv. destruct Hv as [Hv _].
  assert (G : forall l w, (forall j q, nth_error l j = Some q -> SimModel.bits_of (fst (iid_apply (grid M) p nodes A v)) q = below M p (nth j w 0)) -> List.length w = List.length l ->
    forallb (fun q => Bool.eqb (SimModel.bits_of (fst (iid_apply (grid M) p nodes A v)) q) (f q)) l = pattern (below M p) (map f l) w).
  { induction l as [|q l IH]; intros [|x w] Hj Hl; cbn [List.length] in Hl; try discriminate; [reflexivity|]. cbn [forallb map pattern]. rewrite (Hj 0 q eq_refl). cbn [nth]. f_equal.
    apply IH; [|lia]. intros j q' Hq'. exact (Hj (S j) q' Hq'). }
  apply G; [|exact Hv]. intros j q Hq. apply (bits_grid M p nodes ND A v j q); [fold n; lia|exact Hq].
Qed.

(* The two decoders with uniform weights, as in C62. *)
Definition uniform_decoder {S} (rnd : generator S) (p : R) (c : scode) (ch : nat -> nat -> point) (trial : node_attrs * S -> (node_attrs * S) * res bool) : Prop :=
  let E := sg_edges (sc_stabs c) (sc_bound c) ch in
  (exists rp o pick, (rp = nx_report \/ rp = rx_report 1) /\ oracle_ok E (fun _ => 1%Z) o /\ (forall mg, best_matching mg (pick mg)) /\ trial = iid_mwpm_trial rnd p c ch rp o pick) \/
  (exists lib sch fuel, lib_ok E lib /\ (forall u, NoDup (l_out lib u)) /\ sched_ok sch /\ 2 * List.length E + 2 <= fuel /\ trial = iid_uf_trial rnd p c ch (fun _ => false) lib sch fuel).

Lemma decoder_gen {S} D e b pol c ch (rnd : generator S) p trial : dims_ge2 D -> is_surface_code D e b pol c -> valid_choice (sc_stabs c) ch -> uniform_decoder rnd p c ch trial ->
  exists decode, trial = gen_trial rnd p (node_list (sc_graph c)) decode /\ (forall bit, exists bit' r, decode bit = Ok (bit', r)) /\
    (forall bit bit2 b1 b2 r1 r2, (forall q, In q (sc_syn c) -> bit q = bit2 q) -> decode bit = Ok (b1, r1) -> decode bit2 = Ok (b2, r2) -> r1 = r2) /\
    (forall bit, (forall a, In a (logical_axes e b) -> (2 * Z.of_nat (List.length (filter bit (sc_syn c))) < get a D)%Z) -> exists bit', decode bit = Ok (bit', true)).
Proof.
  intros HD HC Hch [(rp & o & pick & Hrp & Ho & Hp & ->)|(lib & sch & fuel & Hl & Hn & Hs & Hf & ->)].
  - exists (fun bit => correct_mwpm rp c ch (fun _ => 1%Z) o pick bit false). split; [reflexivity|]. split; [|split].
    + intros bit. destruct (exact_mwpm D e b pol c ch HD HC Hch rp (fun _ => 1%Z) o pick false bit Ho Hp) as (bit' & r & _ & H & _). eauto.
    + intros bit bit2 b1 b2 r1 r2 Hb. apply (ext_mwpm D e b pol c ch HD HC bit bit2 Hb).
    + intros bit Hw. exact (C15_mwpm_corrects_small_errors D e b pol c ch rp o pick bit false HD HC Hch Hrp Ho Hp Hw).
  - exists (fun bit => correct_uf c ch (fun _ => false) lib sch fuel bit false). split; [reflexivity|]. split; [|split].
    + intros bit. destruct (exact_uf D e b pol c ch HD HC Hch (fun _ => false) lib sch fuel false bit Hl Hs Hf) as (bit' & r & _ & H & _). eauto.
    + intros bit bit2 b1 b2 r1 r2 Hb. apply (ext_uf D e b pol c ch HD HC bit bit2 Hb).
    + intros bit Hw. exact (C54_uf_corrects_small_errors D e b pol c ch lib sch fuel bit false HD HC Hch Hl Hn Hs Hf Hw).
Qed.

Lemma fails_hits D e b pol c ch M p A trial t : dims_ge2 D -> is_surface_code D e b pol c -> valid_choice (sc_stabs c) ch ->
  uniform_decoder (grid M) p c ch trial -> (forall a, In a (logical_axes e b) -> (2 * Z.of_nat t <= get a D + 1)%Z) ->
  let n := List.length (node_list (sc_graph c)) in let m := List.length (sc_syn c) in
  exists marks, List.length marks = n /\ count_if (fun x => x) marks = m /\
    count_if (fails trial A) (all_draws M n) <= count_if (fun v => Nat.leb t (hits (below M p) marks v)) (all_draws M n).
Proof.
  intros HD HC Hch Hdec Ht n m.
  destruct (decoder_gen D e b pol c ch (grid M) p trial HD HC Hch Hdec) as (decode & -> & Htot & Hext & Hgood).
  pose proof (code_nodes_NoDup D e b pol c HD HC) as ND. set (nodes := node_list (sc_graph c)) in *.
  pose proof (surface_code_facts D e b pol c (ge2_ok D _ HD) HC) as CF. pose proof (cf_syn_nd _ _ _ _ _ CF) as NS.
  assert (Hsyn : incl (sc_syn c) nodes) by (intros q; apply (syn_in_nodes D e b pol c HD HC)).
  pose (marks := map (fun q => pmem q (sc_syn c)) nodes).
  assert (Lm : List.length marks = n) by apply map_length.
  assert (Sm : count_if (fun x => x) marks = m).
  { unfold marks. rewrite count_map. unfold count_if, m. apply Permutation_length. apply NoDup_Permutation; [apply NoDup_filter, ND|exact NS|].
    intros q. rewrite filter_In, pmem_In. split; [tauto|]. intros Hq. split; [apply Hsyn, Hq|exact Hq]. }
  exists marks. split; [exact Lm|]. split; [exact Sm|].
  apply count_le. intros v Hv Hf. apply in_all_draws in Hv. destruct Hv as [Hv _]. apply Nat.leb_le.
  destruct (Nat.le_gt_cases t (hits (below M p) marks v)) as [|Hlt]; [assumption|]. exfalso.
  assert (Hh : hits (below M p) marks v = List.length (filter (SimModel.bits_of (fst (iid_apply (grid M) p nodes A v))) (sc_syn c))).
  { set (bit := SimModel.bits_of (fst (iid_apply (grid M) p nodes A v))).
    transitivity (count_if (fun q => pmem q (sc_syn c) && bit q) nodes).
    - assert (G : forall l w, (forall j q, nth_error l j = Some q -> bit q = below M p (nth j w 0)) -> List.length w = List.length l ->
        hits (below M p) (map (fun q => pmem q (sc_syn c)) l) w = count_if (fun q => pmem q (sc_syn c) && bit q) l).
      { induction l as [|q l IH]; intros [|x w] Hj Hl; cbn [List.length] in Hl; try discriminate; [reflexivity|]. cbn [map hits]. rewrite (IH w); [|intros j q' Hq'; exact (Hj (S j) q' Hq')|lia].
        specialize (Hj 0 q eq_refl). cbn [nth] in Hj. rewrite <- Hj. unfold count_if. cbn [filter]. destruct (pmem q (sc_syn c) && bit q); reflexivity. }
      apply G; [|exact Hv]. intros j q Hq. apply (bits_grid M p nodes ND A v j q); [fold n; lia|exact Hq].
    - unfold count_if. apply Permutation_length. apply NoDup_Permutation; [apply NoDup_filter, ND|apply NoDup_filter, NS|].
      intros q. rewrite !filter_In, andb_true_iff, pmem_In. pose proof (Hsyn q). tauto. }
  destruct (Hgood (SimModel.bits_of (fst (iid_apply (grid M) p nodes A v)))) as (bit' & Hd).
  { intros a Ha. specialize (Ht a Ha). rewrite <- Hh. lia. }
  unfold fails, gen_trial in Hf. cbn [fst snd] in Hf. destruct (iid_apply (grid M) p nodes A v) as [A1 s1]. cbn [fst] in Hd. rewrite Hd in Hf. cbn [snd] in Hf. discriminate.
Qed.

(* The failure rate of one trial: the draws (all equally likely) for which the trial does not report success are at
   most a binomial tail, from t errors among the m syndrome qubits, where t is at most half the length of the code,
   rounded up, in every direction of a logical operator. *)
Theorem C71_failure_rate : forall D e b pol c ch M p A trial t, dims_ge2 D -> is_surface_code D e b pol c -> valid_choice (sc_stabs c) ch ->
  0 < M -> uniform_decoder (grid M) p c ch trial ->
  (forall a, In a (logical_axes e b) -> (2 * Z.of_nat t <= get a D + 1)%Z) ->
  let n := List.length (node_list (sc_graph c)) in let m := List.length (sc_syn c) in let r := (INR (flips M p) / INR M)%R in
  let rate := (INR (count_if (fails trial A) (all_draws M n)) / INR (M ^ n)%nat)%R in
  (rate <= rsum (fun k => INR (choose m k) * r ^ k * (1 - r) ^ (m - k)) (seq t (S m - t)))%R /\
  (* in particular *) (rate <= INR (choose m t) * r ^ t)%R.
Proof.
  intros D e b pol c ch M p A trial t HD HC Hch HM Hdec Ht n m r rate.
  destruct (fails_hits D e b pol c ch M p A trial t HD HC Hch Hdec Ht) as (marks & Lm & Sm & Hle). fold n in Lm, Hle. fold m in Sm.
  assert (Hmn : m <= n) by (pose proof (size_le M (below M p) marks) as Hsz; rewrite Sm, Lm in Hsz; exact Hsz).
  assert (Hfl : flips M p <= M) by apply a_le. assert (HR : (INR M <> 0)%R) by (apply not_0_INR; lia).
  assert (HP : (0 < / INR (M ^ n)%nat)%R) by (apply Rinv_0_lt_compat; apply lt_0_INR; apply Nat.neq_0_lt_0; apply Nat.pow_nonzero; lia).
  split.
  - unfold rate, r. rewrite <- (tail_real M (flips M p) m n t HM Hfl Hmn). apply Rmult_le_compat_r; [left; exact HP|].
    apply le_INR. pose proof (hits_tail M (below M p) marks t) as HT. rewrite Sm, Lm in HT. change (count_if (below M p) (seq 0 M)) with (flips M p) in HT. rewrite <- HT. exact Hle.
  - pose proof (hits_union M (below M p) marks t) as HU. rewrite Sm, Lm in HU. change (count_if (below M p) (seq 0 M)) with (flips M p) in HU.
    assert (Hall : count_if (fails trial A) (all_draws M n) <= choose m t * flips M p ^ t * M ^ (n - t)) by (etransitivity; [exact Hle|exact HU]).
    destruct (Nat.le_gt_cases t n) as [Htn|Htn].
    + apply le_INR in Hall. rewrite !mult_INR, !pow_INR in Hall. unfold rate, r. rewrite pow_INR. rewrite pow_quot by exact HR.
      apply Rmult_le_reg_r with (INR M ^ n)%R; [apply pow_lt; apply lt_0_INR; exact HM|].
      replace (INR (count_if (fails trial A) (all_draws M n)) / INR M ^ n * INR M ^ n)%R with (INR (count_if (fails trial A) (all_draws M n))) by (field; apply pow_nonzero; exact HR).
      eapply Rle_trans; [exact Hall|]. right. replace (INR M ^ n)%R with (INR M ^ t * INR M ^ (n - t))%R by (rewrite <- pow_add; f_equal; lia). field. apply pow_nonzero. exact HR.
    + rewrite (choose_above m t) in * by lia. cbn [Nat.mul] in Hall. assert (Z0 : count_if (fails trial A) (all_draws M n) = 0) by lia. unfold rate. rewrite Z0. cbn [INR]. unfold Rdiv. lra.
Qed.

(* ec_monte_carlo: over all equally likely draws, the mean of errors / trials is exactly the failure rate of one trial
   (whatever the bit values of the nodes are before the first trial). *)
Theorem C71_unbiased : forall D e b pol c ch M p A A0 trial T, dims_ge2 D -> is_surface_code D e b pol c -> valid_choice (sc_stabs c) ch ->
  0 < M -> uniform_decoder (grid M) p c ch trial ->
  let n := List.length (node_list (sc_graph c)) in
  exists errors : list nat -> nat,
    (forall ds, List.length ds = T * n -> exists st', mc_single trial (Z.of_nat T) 1 0 (A, ds) = (st', Ok (Z.of_nat (errors ds)))) /\
    nsum errors (all_draws M (T * n)) * M ^ n = T * count_if (fails trial A0) (all_draws M n) * M ^ (T * n).
Proof.
  intros D e b pol c ch M p A A0 trial T HD HC Hch HM Hdec n.
  destruct (decoder_gen D e b pol c ch (grid M) p trial HD HC Hch Hdec) as (decode & -> & Htot & Hext & _).
  pose proof (code_nodes_NoDup D e b pol c HD HC) as ND.
  assert (Hsyn : incl (sc_syn c) (node_list (sc_graph c))) by (intros q; apply (syn_in_nodes D e b pol c HD HC)).
  exists (nbad M p (node_list (sc_graph c)) decode A0 T). split.
  - intros ds Hl. exact (errors_blocks M p _ (sc_syn c) decode ND Htot Hsyn Hext A0 T A ds Hl).
  - apply nbad_sum.
Qed.

(* a toric code of size (3, 3, 3) with the Union-Find decoder, 1000 equally likely draws per node and p = 1/100 *)
Example C71_nonvacuous :
  let c := mk_code (3, 3, 3)%Z EcPrimal BdToric None in
  let ch := fun i j => hd (0, 0, 0)%Z (shared (sc_stabs c) i j) in
  flips 1000 (1 / 100) = 10 /\ (exists trial, uniform_decoder (grid 1000) (1 / 100) c ch trial /\ forall A,
    let n := List.length (node_list (sc_graph c)) in
    (INR (count_if (fails trial A) (all_draws 1000 n)) / INR (1000 ^ n)%nat <= INR (choose (List.length (sc_syn c)) 2) * (INR 10 / INR 1000) ^ 2)%R).
Proof.
  intros c ch. assert (HD : dims_ge2 (3, 3, 3)%Z) by (intros []; cbn; lia). assert (HC : is_surface_code (3, 3, 3)%Z EcPrimal BdToric None c) by apply mk_code_ok.
  assert (Hch : valid_choice (sc_stabs c) ch) by apply first_choice_valid.
  assert (H1 : (INR 1000 = 1000)%R) by (rewrite INR_IZR_INZ; reflexivity). assert (H2 : (INR 10 = 10)%R) by (rewrite INR_IZR_INZ; reflexivity).
  assert (HF : flips 1000 (1 / 100) = 10).
  { apply C71_draw_probability; [lia|lra|]. rewrite H1, H2. lra. }
  split; [exact HF|]. destruct (C54_contracts_met (3, 3, 3)%Z EcPrimal BdToric None c ch HD HC Hch) as (lib & L1 & L2).
  pose (E := sg_edges (sc_stabs c) (sc_bound c) ch).
  exists (iid_uf_trial (grid 1000) (1 / 100) c ch (fun _ => false) lib id_sched (2 * List.length E + 2)).
  assert (U : uniform_decoder (grid 1000) (1 / 100) c ch (iid_uf_trial (grid 1000) (1 / 100) c ch (fun _ => false) lib id_sched (2 * List.length E + 2))).
  { right. exists lib, id_sched, (2 * List.length E + 2). split; [exact L1|]. split; [exact L2|]. split; [exact id_sched_ok|]. split; [apply le_n|reflexivity]. }
  split; [exact U|]. intros A n. clearbody c.
  assert (Ht : forall a, In a (logical_axes EcPrimal BdToric) -> (2 * Z.of_nat 2 <= get a (3, 3, 3)%Z + 1)%Z) by (intros [] _; cbn; lia).
  destruct (C71_failure_rate (3, 3, 3)%Z EcPrimal BdToric None c ch 1000 (1 / 100) A _ 2 HD HC Hch ltac:(lia) U Ht) as [_ H]. rewrite HF in H. exact H.
Qed.
Print Assumptions C71_draw_probability. Print Assumptions C71_bits_independent. Print Assumptions C71_failure_rate. Print Assumptions C71_unbiased.
