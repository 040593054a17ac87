(* PropsEnumerator.v: C82, the failure rate as a polynomial in the error probability: its coefficients are the numbers of
   uncorrectable errors of every weight, and its leading order is the half distance. *)
From Coq Require Import String Reals Lra Lia.
From Verif Require Import Base Lattice RhgModel RhgSpec SurfaceModel SurfaceSpec SurfaceProofs SurfaceIncidence SurfaceTheorems SurfaceGauge StabGraphModel PropsSurface MwpmModel MwpmProofs MwpmInst PropsMwpm UfModel UfSpec UfInst PropsUf PropsUfDist PropsHomology.
From Verif Require Import SimModel SimSpec SimProofs SimTrial PropsSim PropsSimUf PropsCount CountDraws CvMacroGauge PropsCvMacro PropsIidRate PropsLimits PropsRounds.
Open Scope nat_scope.

(* ---------- specification ---------- *)
(* the subsets of a list without repetitions *)
Fixpoint sublists {A} (l : list A) : list (list A) :=
  match l with [] => [[]] | x :: l' => map (cons x) (sublists l') ++ sublists l' end.
(* correct() with uniform weights: MWPM or Union-Find *)
Definition uniform_call (c : scode) (ch : nat -> nat -> point) (call : call_t) : Prop :=
  let E := sg_edges (sc_stabs c) (sc_bound c) ch in
  (exists rp o pick, (rp = nx_report \/ rp = rx_report 1) /\ oracle_ok E (fun _ => 1%Z) o /\ (forall mg, best_matching mg (pick mg)) /\
     call = (fun bit => correct_mwpm rp c ch (fun _ => 1%Z) o pick bit false)) \/
  (exists lib sch fuel, lib_ok E lib /\ (forall u, NoDup (l_out lib u)) /\ sched_ok sch /\ 2 * List.length E + 2 <= fuel /\
     call = (fun bit => correct_uf c ch (fun _ => false) lib sch fuel bit false)).
(* the error on exactly the qubits of S is not corrected *)
Definition uncorrected (call : call_t) (S : list point) : bool := match call (fun q => pmem q S) with Ok (_, true) => false | _ => true end.
(* the syndrome qubits, in the order of the nodes *)
Definition qubits (c : scode) : list point := filter (fun q => pmem q (sc_syn c)) (node_list (sc_graph c)).
(* the number of sets of k syndrome qubits that are not corrected *)
Definition uncorrectable (c : scode) (call : call_t) (k : nat) : nat :=
  count_if (fun S => Nat.eqb (List.length S) k && uncorrected call S) (sublists (qubits c)).

(* ---------- subsets ---------- *)
Section Sub.
  Context {A : Type}.
  Lemma sub_incl (l : list A) : forall S, In S (sublists l) -> incl S l.
  Proof.
    induction l as [|x l IH]; intros S; cbn [sublists]; [intros [<-|[]]; intros y []|]. rewrite in_app_iff, in_map_iff. intros [(T & <- & HT)|H] y Hy.
    - destruct Hy as [<-|Hy]; [left; reflexivity|right; exact (IH T HT y Hy)].
    - right. exact (IH S H y Hy).
  Qed.
  Lemma sub_NoDup_elem (l : list A) : NoDup l -> forall S, In S (sublists l) -> NoDup S.
  Proof.
    induction 1 as [|x l Hx _ IH]; intros S; cbn [sublists]; [intros [<-|[]]; constructor|]. rewrite in_app_iff, in_map_iff. intros [(T & <- & HT)|H]; [|apply IH, H].
    constructor; [|apply IH, HT]. intros K. apply Hx. exact (sub_incl l T HT x K).
  Qed.
  Lemma sub_NoDup (l : list A) : NoDup l -> NoDup (sublists l).
  Proof.
    induction 1 as [|x l Hx H IH]; cbn [sublists]; [constructor; [intros []|constructor]|].
    apply NoDup_app_intro; [apply NoDup_map_inj; [intros y z _ _ E; congruence|exact IH]|exact IH|].
    intros S H1 H2. apply in_map_iff in H1. destruct H1 as (T & <- & _). apply Hx. exact (sub_incl l _ H2 x (or_introl eq_refl)).
  Qed.
  Lemma sub_filter (f : A -> bool) (l : list A) : In (filter f l) (sublists l).
  Proof. induction l as [|x l IH]; [left; reflexivity|]. cbn [filter sublists]. apply in_app_iff. destruct (f x); [left; apply in_map, IH|right; exact IH]. Qed.
  Lemma sub_trans (l : list A) (f : A -> bool) : incl (sublists (filter f l)) (sublists l).
  Proof.
    induction l as [|x l IH]; intros S HS; [exact HS|]. cbn [filter] in HS. cbn [sublists]. apply in_app_iff. destruct (f x); [|right; apply IH, HS].
    cbn [sublists] in HS. apply in_app_iff in HS. destruct HS as [HS|HS]; [left|right; apply IH, HS]. apply in_map_iff in HS. destruct HS as (T & <- & HT). apply in_map, IH, HT.
  Qed.
  Lemma sub_choose (l : list A) : forall k, count_if (fun S => Nat.eqb (List.length S) k) (sublists l) = choose (List.length l) k.
  Proof.
    induction l as [|x l IH]; intros k; cbn [sublists List.length]; [destruct k; reflexivity|].
    rewrite CountDraws.count_app, CountDraws.count_map, IH. cbn [List.length choose]. destruct k as [|k].
    - rewrite (CountDraws.count_ext _ (fun _ => false)) by (intros; reflexivity). rewrite CountDraws.count_false. destruct (List.length l); reflexivity.
    - rewrite (CountDraws.count_ext _ (fun S => Nat.eqb (List.length S) k)) by (intros; reflexivity). rewrite IH. reflexivity.
  Qed.
End Sub.
(* every set of points of l is listed exactly once *)
Lemma sub_pmem (l : list point) : NoDup l -> forall S, In S (sublists l) -> S = filter (fun q => pmem q S) l.
Proof.
  induction 1 as [|x l Hx H IH]; intros S; cbn [sublists]; [intros [<-|[]]; reflexivity|]. rewrite in_app_iff, in_map_iff. intros [(T & <- & HT)|HS]; cbn [filter].
  - assert (E : pmem x (x :: T) = true) by (apply pmem_In; left; reflexivity). rewrite E. f_equal. rewrite (IH T HT) at 1. apply filter_ext_in. intros q Hq.
    destruct (pmem q T) eqn:E1; symmetry; [apply pmem_In; right; apply pmem_In, E1|]. apply pmem_false. intros [->|K]; [contradiction|]. apply pmem_In in K. congruence.
  - assert (E : pmem x S = false) by (apply pmem_false; intros K; apply Hx; exact (sub_incl l S HS x K)). rewrite E. apply IH, HS.
Qed.
Lemma sub_complement (l : list point) : NoDup l -> Permutation (map (fun S => filter (fun q => negb (pmem q S)) l) (sublists l)) (sublists l).
Proof.
  intros N. set (co := fun S => filter (fun q => negb (pmem q S)) l).
  assert (Hco : forall S, In S (sublists l) -> co (co S) = S).
  { intros S HS. unfold co. transitivity (filter (fun q => pmem q S) l); [|symmetry; apply sub_pmem; assumption]. apply filter_ext_in. intros q Hq.
    destruct (pmem q S) eqn:E.
    - apply negb_true_iff, pmem_false. intros K. apply filter_In in K. destruct K as [_ K]. rewrite E in K. discriminate.
    - apply negb_false_iff, pmem_In, filter_In. rewrite E. auto. }
  apply NoDup_Permutation.
  - apply NoDup_map_inj; [|apply sub_NoDup, N]. intros S T HS HT E. rewrite <- (Hco S HS), <- (Hco T HT). unfold co in *. rewrite E. reflexivity.
  - apply sub_NoDup, N.
  - intros S. rewrite in_map_iff. split; [intros (T & <- & HT); apply sub_filter|]. intros HS. exists (co S). split; [apply Hco, HS|apply sub_filter].
Qed.
Lemma count_perm {A} f (l m : list A) : Permutation l m -> count_if f l = count_if f m.
Proof. induction 1; unfold count_if in *; cbn [filter]; try (destruct (f x)); try (destruct (f y)); cbn [List.length]; congruence. Qed.
Lemma count_incl {A} f (l m : list A) : NoDup l -> incl l m -> count_if f l <= count_if f m.
Proof.
  intros N I. unfold count_if. apply NoDup_incl_length; [apply NoDup_filter, N|]. intros x Hx. apply filter_In in Hx. apply filter_In. split; [apply I, Hx|apply Hx].
Qed.

(* ---------- draws and subsets ---------- *)
Section Draws.
  Variables (M : nat) (hit : nat -> bool) (mark : point -> bool).
  Notation a := (count_if hit (seq 0 M)).
  Fixpoint struck (l : list point) (v : list nat) : list point :=
    match l, v with q :: l', k :: v' => if mark q && hit k then q :: struck l' v' else struck l' v' | _, _ => [] end.
  Lemma struck_count l : forall P : list point -> bool,
    count_if (fun v => P (struck l v)) (all_draws M (List.length l)) =
    nsum (fun S => if P S then a ^ List.length S * (M - a) ^ (count_if mark l - List.length S) else 0) (sublists (filter mark l)) * M ^ (List.length l - count_if mark l).
  Proof.
    assert (Hm : forall l, count_if mark l <= List.length l) by (intros m; unfold count_if; induction m as [|z m IH]; cbn; [lia|destruct (mark z); cbn; lia]).
    induction l as [|q l IH]; intros P; [cbn; unfold count_if; cbn; destruct (P []); reflexivity|]. cbn [List.length all_draws]. rewrite count_flat. specialize (Hm l).
    rewrite (nsum_ext _ (fun j => if mark q && hit j then count_if (fun v => P (q :: struck l v)) (all_draws M (List.length l)) else count_if (fun v => P (struck l v)) (all_draws M (List.length l)))).
    2:{ intros j _. rewrite CountDraws.count_map. cbn [struck]. destruct (mark q && hit j); reflexivity. }
    rewrite nsum_two, seq_length. rewrite (IH P). rewrite (IH (fun S => P (q :: S))).
    destruct (mark q) eqn:Eq; cbn [filter]; rewrite Eq; cbn [andb].
    - assert (C1 : count_if mark (q :: l) = S (count_if mark l)) by (unfold count_if; cbn [filter]; rewrite Eq; reflexivity). rewrite C1. cbn [Nat.sub].
      change (count_if (fun x => hit x) (seq 0 M)) with a. set (A := a). set (m := count_if mark l) in *. cbn [sublists]. rewrite nsum_app, nsum_map. cbn [List.length].
      rewrite (nsum_ext (fun S => if P (q :: S) then A ^ Datatypes.S (List.length S) * (M - A) ^ (Datatypes.S m - Datatypes.S (List.length S)) else 0)
        (fun S => (if P (q :: S) then A ^ List.length S * (M - A) ^ (m - List.length S) else 0) * A)).
      2:{ intros S _. cbn [Nat.sub Nat.pow]. destruct (P (q :: S)); lia. }
      rewrite (nsum_ext (fun S => if P S then A ^ List.length S * (M - A) ^ (Datatypes.S m - List.length S) else 0)
        (fun S => (if P S then A ^ List.length S * (M - A) ^ (m - List.length S) else 0) * (M - A))).
      2:{ intros S HS. destruct (P S); [|reflexivity]. assert (List.length S <= m).
          { assert (L : forall (l : list point) S, In S (sublists l) -> List.length S <= List.length l).
            { clear. induction l as [|x l IHl]; intros S; cbn [sublists]; [intros [<-|[]]; cbn; lia|]. rewrite in_app_iff, in_map_iff. intros [(T & <- & HT)|H]; [apply IHl in HT; cbn; lia|apply IHl in H; cbn; lia]. }
            exact (L _ _ HS). }
          replace (Datatypes.S m - List.length S) with (Datatypes.S (m - List.length S)) by lia. cbn [Nat.pow]. lia. }
      rewrite !nsum_mul. fold A. ring.
    - assert (C1 : count_if mark (q :: l) = count_if mark l) by (unfold count_if; cbn [filter]; rewrite Eq; reflexivity). rewrite C1.
      rewrite CountDraws.count_false.
      cbn [Nat.mul Nat.add]. rewrite Nat.sub_0_r. replace (S (List.length l) - count_if mark l) with (S (List.length l - count_if mark l)) by lia. cbn [Nat.pow]. lia.
  Qed.
  Lemma struck_filter bit l : forall v, List.length v = List.length l -> (forall j q, nth_error l j = Some q -> bit q = hit (nth j v 0)) ->
    struck l v = filter (fun q => mark q && bit q) l.
  Proof.
    induction l as [|x l IH]; intros [|k v] Hl H; cbn [List.length] in Hl; try discriminate; [reflexivity|]. cbn [struck filter].
    pose proof (H 0 x eq_refl) as H0. cbn [nth] in H0. rewrite H0, (IH v); [reflexivity|lia|]. intros j q Hj. exact (H (S j) q Hj).
  Qed.
End Draws.

Lemma uniform_call_trial {S} (rnd : generator S) p c ch trial : uniform_decoder rnd p c ch trial <->
  exists call, uniform_call c ch call /\ trial = gen_trial rnd p (node_list (sc_graph c)) call.
Proof.
  split.
  - intros [(rp & o & pick & Hrp & Ho & Hp & ->)|(lib & sch & fuel & Hl & Hn & Hs & Hf & ->)].
    + eexists. split; [left; exists rp, o, pick; split; [exact Hrp|]; split; [exact Ho|]; split; [exact Hp|reflexivity]|reflexivity].
    + eexists. split; [right; exists lib, sch, fuel; split; [exact Hl|]; split; [exact Hn|]; split; [exact Hs|]; split; [exact Hf|reflexivity]|reflexivity].
  - intros (call & [(rp & o & pick & Hrp & Ho & Hp & ->)|(lib & sch & fuel & Hl & Hn & Hs & Hf & ->)] & ->).
    + left. exists rp, o, pick. auto.
    + right. exists lib, sch, fuel. repeat (split; [assumption|]). reflexivity.
Qed.

(* a sum over a list, grouped by a bounded statistic *)
Lemma nsum_group {A} (P : A -> bool) (f : A -> nat) (g : nat -> nat) m (l : list A) : (forall x, In x l -> f x <= m) ->
  nsum (fun x => if P x then g (f x) else 0) l = nsum (fun k => count_if (fun x => Nat.eqb (f x) k && P x) l * g k) (seq 0 (S m)).
Proof.
  induction l as [|x l IH]; intros H; [cbn [nsum]; symmetry; transitivity (nsum (fun _ : nat => 0) (seq 0 (Datatypes.S m))); [apply nsum_ext; reflexivity|rewrite nsum_const; lia]|].
  cbn [nsum]. rewrite IH by (intros y Hy; apply H; right; exact Hy).
  rewrite (nsum_ext (fun k => count_if (fun x => Nat.eqb (f x) k && P x) (x :: l) * g k) (fun k => (if Nat.eqb (f x) k && P x then g k else 0) + count_if (fun x => Nat.eqb (f x) k && P x) l * g k)).
  2:{ intros k _. unfold count_if. cbn [filter]. destruct (Nat.eqb (f x) k && P x); cbn [List.length]; lia. }
  rewrite nsum_plus. f_equal. specialize (H x (or_introl eq_refl)). clear IH.
  assert (G : forall c s, (f x < s \/ s + c <= f x -> nsum (fun k => if Nat.eqb (f x) k && P x then g k else 0) (seq s c) = 0) /\
    (s <= f x < s + c -> nsum (fun k => if Nat.eqb (f x) k && P x then g k else 0) (seq s c) = if P x then g (f x) else 0)).
  { induction c as [|c IHc]; intros s; cbn [seq nsum]; [split; [reflexivity|lia]|]. destruct (IHc (S s)) as [I1 I2]. split; intros Hs.
    - rewrite I1 by lia. destruct (Nat.eqb_spec (f x) s); [lia|reflexivity].
    - destruct (Nat.eqb_spec (f x) s) as [E|E]; [rewrite I1 by lia; rewrite <- E; cbn [andb]; destruct (P x); lia|rewrite I2 by lia; reflexivity]. }
  destruct (G (S m) 0) as [_ G2]. symmetry. apply G2. lia.
Qed.

Section Code.
  Variables (D : Z * Z * Z) (e : ecx) (b : bdk) (pol : option (point * point -> Z)) (c : scode) (ch : nat -> nat -> point).
  Hypotheses (HD : dims_ge2 D) (HC : is_surface_code D e b pol c) (Hch : valid_choice (sc_stabs c) ch).
  Variable call : call_t.
  Hypothesis Hcall : uniform_call c ch call.
  Notation nodes := (node_list (sc_graph c)).
  Notation n := (List.length nodes).
  Notation m := (List.length (sc_syn c)).

  Lemma in_qubits q : In q (qubits c) <-> In q (sc_syn c).
  Proof. unfold qubits. rewrite filter_In, pmem_In. split; [tauto|]. intros H. split; [apply (syn_in_nodes D e b pol c HD HC), H|exact H]. Qed.
  Lemma qubits_nd : NoDup (qubits c).
  Proof. apply NoDup_filter, (code_nodes_NoDup D e b pol c HD HC). Qed.
  Lemma qubits_perm : Permutation (qubits c) (sc_syn c).
  Proof. apply NoDup_Permutation; [apply qubits_nd|apply (cf_syn_nd _ _ _ _ _ (surface_code_facts D e b pol c (ge2_ok D _ HD) HC))|apply in_qubits]. Qed.
  Lemma qubits_len : count_if (fun q => pmem q (sc_syn c)) nodes = m.
  Proof. apply (Permutation_length qubits_perm). Qed.
  Lemma m_le_n : m <= n.
  Proof. rewrite <- qubits_len. unfold count_if. generalize nodes as l. intros l. induction l as [|x l IH]; cbn; [lia|destruct (pmem x (sc_syn c)); cbn; lia]. Qed.
  Lemma sub_len S : In S (sublists (qubits c)) -> List.length S <= m.
  Proof. intros HS. rewrite <- (Permutation_length qubits_perm). apply NoDup_incl_length; [exact (sub_NoDup_elem _ qubits_nd S HS)|exact (sub_incl _ S HS)]. Qed.

  Lemma call_general : correct_call c ch call.
  Proof.
    destruct Hcall as [(rp & o & pick & Hrp & Ho & Hp & ->)|(lib & sch & fuel & Hl & Hn & Hs & Hf & ->)].
    - left. exists rp, (fun _ => 1%Z), o, pick, false. auto.
    - right. exists (fun _ => false), lib, sch, fuel, false. auto.
  Qed.
  Lemma call_facts : (forall bit, exists bit' r, call bit = Ok (bit', r)) /\
    (forall bit bit2 b1 b2 r1 r2, (forall q, In q (sc_syn c) -> bit q = bit2 q) -> call bit = Ok (b1, r1) -> call bit2 = Ok (b2, r2) -> r1 = r2) /\
    (forall bit, (forall a, In a (logical_axes e b) -> (2 * Z.of_nat (List.length (filter bit (sc_syn c))) < get a D)%Z) -> exists bit', call bit = Ok (bit', true)).
  Proof.
    destruct Hcall as [(rp & o & pick & Hrp & Ho & Hp & ->)|(lib & sch & fuel & Hl & Hn & Hs & Hf & ->)].
    - split; [|split].
      + intros bit. destruct (exact_mwpm D e b pol c ch HD HC Hch rp (fun _ => 1%Z) o pick false bit Ho Hp) as (bit' & r & _ & H & _). eauto.
      + intros bit bit2 b1 b2 r1 r2 Hb. apply (ext_mwpm D e b pol c ch HD HC bit bit2 Hb).
      + intros bit Hw. exact (C15_mwpm_corrects_small_errors D e b pol c ch rp o pick bit false HD HC Hch Hrp Ho Hp Hw).
    - split; [|split].
      + intros bit. destruct (exact_uf D e b pol c ch HD HC Hch (fun _ => false) lib sch fuel false bit Hl Hs Hf) as (bit' & r & _ & H & _). eauto.
      + intros bit bit2 b1 b2 r1 r2 Hb. apply (ext_uf D e b pol c ch HD HC bit bit2 Hb).
      + intros bit Hw. exact (C54_uf_corrects_small_errors D e b pol c ch lib sch fuel bit false HD HC Hch Hl Hn Hs Hf Hw).
  Qed.

  Lemma fails_struck M p A v : List.length v = n -> fails (gen_trial (grid M) p nodes call) A v = uncorrected call (struck (below M p) (fun q => pmem q (sc_syn c)) nodes v).
  Proof.
    intros Hv. pose proof (code_nodes_NoDup D e b pol c HD HC) as ND. destruct call_facts as (Tot & Ext & _).
    set (bit := SimModel.bits_of (fst (iid_apply (grid M) p nodes A v))).
    rewrite (struck_filter (below M p) (fun q => pmem q (sc_syn c)) bit nodes v Hv) by (intros j q Hj; apply (bits_grid M p nodes ND A v j q); [lia|exact Hj]).
    unfold fails, uncorrected, gen_trial. cbn [fst snd]. destruct (iid_apply (grid M) p nodes A v) as [A1 s1] eqn:Ei. cbn [fst] in bit.
    set (S := filter _ nodes). destruct (Tot bit) as (b1 & r1 & E1). destruct (Tot (fun q => pmem q S)) as (b2 & r2 & E2).
    fold bit. rewrite E1, E2. cbn [snd]. rewrite (Ext bit (fun q => pmem q S) b1 b2 r1 r2); [reflexivity| |exact E1|exact E2].
    intros q Hq. unfold S. destruct (bit q) eqn:Eb; symmetry.
    - apply pmem_In, filter_In. split; [apply (syn_in_nodes D e b pol c HD HC), Hq|]. apply pmem_In in Hq. rewrite Hq, Eb. reflexivity.
    - apply pmem_false. intros K. apply filter_In in K. destruct K as [_ K]. rewrite Eb, andb_false_r in K. discriminate.
  Qed.

  Lemma fails_count M p A : count_if (fails (gen_trial (grid M) p nodes call) A) (all_draws M n) =
    nsum (fun k => uncorrectable c call k * (flips M p ^ k * (M - flips M p) ^ (m - k))) (seq 0 (S m)) * M ^ (n - m).
  Proof.
    rewrite (CountDraws.count_ext _ (fun v => uncorrected call (struck (below M p) (fun q => pmem q (sc_syn c)) nodes v))).
    2:{ intros v Hv. apply in_all_draws in Hv. apply fails_struck, Hv. }
    rewrite (struck_count M (below M p) (fun q => pmem q (sc_syn c)) nodes). rewrite qubits_len. f_equal. fold (flips M p).
    rewrite (nsum_group (uncorrected call) (@List.length point) (fun k => flips M p ^ k * (M - flips M p) ^ (m - k)) m); [reflexivity|]. intros S HS. apply sub_len, HS.
  Qed.

  Lemma small_corrected k : (forall a, In a (logical_axes e b) -> (2 * Z.of_nat k < get a D)%Z) -> uncorrectable c call k = 0.
  Proof.
    intros Hk. destruct call_facts as (_ & _ & Hsmall). unfold uncorrectable. etransitivity; [|apply (CountDraws.count_false (sublists (qubits c)))]. apply CountDraws.count_ext. intros S HS.
    destruct (Nat.eqb_spec (List.length S) k) as [E|]; [|reflexivity]. cbn [andb]. unfold uncorrected.
    destruct (Hsmall (fun q => pmem q S)) as (b' & ->); [|reflexivity]. intros a Ha. specialize (Hk a Ha). rewrite <- E in Hk.
    assert (L : List.length (filter (fun q => pmem q S) (sc_syn c)) = List.length S); [|rewrite L; exact Hk]. apply Permutation_length, NoDup_Permutation.
    - apply NoDup_filter, (cf_syn_nd _ _ _ _ _ (surface_code_facts D e b pol c (ge2_ok D _ HD) HC)).
    - exact (sub_NoDup_elem _ qubits_nd S HS).
    - intros q. rewrite filter_In, pmem_In. split; [tauto|]. intros Hq. split; [|exact Hq]. apply in_qubits. exact (sub_incl _ S HS q Hq).
  Qed.
  Lemma le_choose k : uncorrectable c call k <= choose m k.
  Proof. rewrite <- (Permutation_length qubits_perm), <- sub_choose. apply CountDraws.count_le. intros S _ H. apply andb_true_iff in H. apply H. Qed.

  (* a set of qubits on a logical line, or the rest of the line, is not corrected *)
  Lemma one_of_two S T : quiet c (fun q => xorb (pmem q S) (pmem q T)) -> ~ gauge_pattern c (fun q => xorb (pmem q S) (pmem q T)) ->
    uncorrected call S = true \/ uncorrected call T = true.
  Proof.
    intros Q G. pose proof call_general as Hg. set (f := fun q => pmem q S). set (g := fun q => pmem q T).
    destruct (call_ok D e b pol c ch HD HC Hch call f Hg) as (f' & r1 & E1 & _ & G1 & _). destruct (call_ok D e b pol c ch HD HC Hch call g Hg) as (g' & r2 & E2 & _ & G2 & _).
    assert (Hs : same_syndrome c f g).
    { intros st Hst. specialize (Q st Hst). unfold stab_parity in Q. rewrite xsum_xorb in Q. apply Bool.xorb_eq in Q. exact Q. }
    unfold uncorrected. fold f g. rewrite E1, E2. destruct r1; [|left; reflexivity]. destruct r2; [|right; reflexivity]. exfalso. apply G.
    pose proof (class_step c f g f' g' true true (call_shift D e b pol c ch HD HC Hch call f g f' g' true true Hg Hs E1 E2) G1 G2 eq_refl) as H. apply H. reflexivity.
  Qed.
  Lemma line_halves a k : In a (logical_axes e b) -> k <= Z.to_nat (get a D) ->
    choose (Z.to_nat (get a D)) k <= uncorrectable c call k + uncorrectable c call (Z.to_nat (get a D) - k).
  Proof.
    intros Ha Hk. destruct (line_exists D e b pol c HD HC a Ha) as (L & N & I & Len & Tr & Ng). set (d := Z.to_nat (get a D)) in *.
    set (L' := filter (fun q => pmem q L) (qubits c)).
    assert (NL : NoDup L') by apply NoDup_filter, qubits_nd.
    assert (HL : forall q, In q L' <-> In q L). { intros q. unfold L'. rewrite filter_In, pmem_In, in_qubits. specialize (I q). tauto. }
    assert (LL : List.length L' = d). { unfold d. rewrite <- Len, Nat2Z.id. apply Permutation_length, NoDup_Permutation; assumption. }
    assert (Hsub : incl (sublists L') (sublists (qubits c))) by (intros S; apply sub_trans).
    pose proof (sub_NoDup L' NL) as NS.
    set (co := fun S => filter (fun q => negb (pmem q S)) L').
    assert (Hlen : forall S, In S (sublists L') -> List.length S + List.length (co S) = d).
    { intros S HS. rewrite <- LL. rewrite (sub_pmem L' NL S HS) at 1. unfold co. generalize L' as l. intros l. induction l as [|x l IH]; [reflexivity|]. cbn [filter]. destruct (pmem x S); cbn [negb List.length]; lia. }
    assert (Hx : forall S, In S (sublists L') -> forall q, xorb (pmem q S) (pmem q (co S)) = pmem q L).
    { intros S HS q. destruct (pmem q L) eqn:El.
      - apply pmem_In in El. apply HL in El. destruct (pmem q S) eqn:Es.
        + rewrite (proj2 (pmem_false q (co S))); [reflexivity|]. intros K. apply filter_In in K. destruct K as [_ K]. rewrite Es in K. discriminate.
        + rewrite (proj2 (pmem_In q (co S))); [reflexivity|]. apply filter_In. rewrite Es. auto.
      - apply pmem_false in El. rewrite (proj2 (pmem_false q S)), (proj2 (pmem_false q (co S))); [reflexivity| |].
        + intros K. apply filter_In in K. apply El, HL, K.
        + intros K. apply El, HL. exact (sub_incl L' S HS q K). }
    rewrite <- LL, <- (sub_choose L' k). rewrite LL.
    apply Nat.le_trans with (count_if (fun S => Nat.eqb (List.length S) k && uncorrected call S) (sublists L') + count_if (fun S => Nat.eqb (List.length S) (d - k) && uncorrected call S) (sublists L')).
    2:{ apply Nat.add_le_mono; apply count_incl; assumption. }
    rewrite <- (count_perm (fun S => Nat.eqb (List.length S) (d - k) && uncorrected call S) _ _ (sub_complement L' NL)). fold co. rewrite CountDraws.count_map.
    unfold count_if. assert (G : forall l, incl l (sublists L') -> List.length (filter (fun S => Nat.eqb (List.length S) k) l) <=
      List.length (filter (fun S => Nat.eqb (List.length S) k && uncorrected call S) l) + List.length (filter (fun S => Nat.eqb (List.length (co S)) (d - k) && uncorrected call (co S)) l)).
    { induction l as [|S l IH]; intros Hl; [apply le_n|]. specialize (IH (fun x Hxl => Hl x (or_intror Hxl))). specialize (Hl S (or_introl eq_refl)). cbn [filter].
      destruct (Nat.eqb_spec (List.length S) k) as [Ek|Ek]; cbn [andb List.length].
      - pose proof (Hlen S Hl) as Hc. assert (Nat.eqb (List.length (co S)) (d - k) = true) as -> by (apply Nat.eqb_eq; lia). cbn [andb].
        destruct (one_of_two S (co S)) as [-> | ->].
        + intros st Hst. rewrite <- (Tr st Hst). unfold stab_parity. apply xsum_ext. intros q _. apply Hx, Hl.
        + intros (s & Hs). apply Ng. exists s. intros q Hq. rewrite <- (Hs q Hq). symmetry. apply Hx, Hl.
        + cbn [List.length]. destruct (uncorrected call (co S)); cbn [List.length]; lia.
        + cbn [List.length]. destruct (uncorrected call S); cbn [List.length]; lia.
      - destruct (Nat.eqb (List.length (co S)) (d - k) && uncorrected call (co S)); cbn [List.length]; lia. }
    apply G. intros x Hxl. exact Hxl.
  Qed.
End Code.

(* ---------- C82 ---------- *)
(* the failure rate of one trial of ec_monte_carlo with IidNoise, over all equally likely draws *)
Definition failure_rate (c : scode) (call : call_t) (M : nat) (p : R) (A : node_attrs) : R :=
  let n := List.length (node_list (sc_graph c)) in
  (INR (count_if (fails (gen_trial (grid M) p (node_list (sc_graph c)) call) A) (all_draws M n)) / INR (M ^ n)%nat)%R.

(* The failure rate is a polynomial in the probability r of an error: the sum over k of F_k r^k (1-r)^(m-k), where F_k is the number
   of sets of k syndrome qubits that correct() does not correct.  F_k is zero below half the distance; and of a set of k qubits on a
   shortest logical line and the rest of the line at most one is corrected. *)
Theorem C82_weight_enumerator : forall D e b pol c ch call, dims_ge2 D -> is_surface_code D e b pol c -> valid_choice (sc_stabs c) ch -> uniform_call c ch call ->
  let m := List.length (sc_syn c) in let F := uncorrectable c call in
  (forall M p A, 0 < M -> let r := (INR (flips M p) / INR M)%R in
     failure_rate c call M p A = rsum (fun k => (INR (F k) * r ^ k * (1 - r) ^ (m - k))%R) (seq 0 (S m))) /\
  (forall k, F k <= choose m k) /\
  (forall k, (forall a, In a (logical_axes e b) -> (2 * Z.of_nat k < get a D)%Z) -> F k = 0) /\
  (forall a k, In a (logical_axes e b) -> k <= Z.to_nat (get a D) -> choose (Z.to_nat (get a D)) k <= F k + F (Z.to_nat (get a D) - k)).
Proof.
  intros D e b pol c ch call HD HC Hch Hcall m F. split; [|split; [|split]].
  - intros M p A HM r. unfold failure_rate. rewrite (fails_count D e b pol c ch HD HC Hch call Hcall M p A). fold m. fold F.
    pose proof (m_le_n D e b pol c HD HC) as Hmn. fold m in Hmn. set (n := List.length (node_list (sc_graph c))) in *.
    assert (HR : (INR M <> 0)%R) by (apply not_0_INR; lia). assert (Hfl : flips M p <= M) by apply a_le.
    rewrite mult_INR, INR_nsum. change (fold_right (fun (x : nat) (s : R) => (INR (F x * (flips M p ^ x * (M - flips M p) ^ (m - x)))%nat + s)%R) 0%R) with (rsum (fun x => INR (F x * (flips M p ^ x * (M - flips M p) ^ (m - x))))).
    set (T := rsum (fun x => INR (F x * (flips M p ^ x * (M - flips M p) ^ (m - x)))) (seq 0 (S m))).
    replace (T * INR ((M ^ (n - m))%nat) / INR ((M ^ n)%nat))%R with (/ (INR M ^ m) * T)%R.
    + unfold T. rewrite rsum_mul. apply rsum_ext. intros k Hk. apply in_seq in Hk.
      rewrite !mult_INR, !pow_INR, minus_INR by exact Hfl. unfold r.
      replace (1 - INR (flips M p) / INR M)%R with ((INR M - INR (flips M p)) / INR M)%R by (field; exact HR). rewrite !pow_quot by exact HR.
      replace (INR M ^ m)%R with (INR M ^ k * INR M ^ (m - k))%R by (rewrite <- pow_add; f_equal; lia). field. split; apply pow_nonzero; exact HR.
    + rewrite !pow_INR. replace (INR M ^ n)%R with (INR M ^ (n - m) * INR M ^ m)%R by (rewrite <- pow_add; f_equal; lia). field. split; apply pow_nonzero; exact HR.
  - intros k. apply (le_choose D e b pol c HD HC).
  - intros k Hk. exact (small_corrected D e b pol c ch HD HC Hch call Hcall k Hk).
  - intros a k Ha Hk. exact (line_halves D e b pol c ch HD HC Hch call Hcall a k Ha Hk).
Qed.
Print Assumptions C82_weight_enumerator.

(* an expansion at 0 *)
Lemma poly_leading (m t : nat) (f : nat -> nat) : t <= m -> (forall k, k < t -> f k = 0) -> forall eps, (0 < eps)%R -> exists delta, (0 < delta)%R /\
  forall r, (0 < r < delta)%R -> (r <= 1)%R -> (Rabs (rsum (fun k => INR (f k) * r ^ k * (1 - r) ^ (m - k)) (seq 0 (S m)) / r ^ t - INR (f t)) < eps)%R.
Proof.
  intros Htm Hf eps He.
  (* quotient: f t (1-r)^(m-t) + r * (something bounded by the sum of the coefficients) *)
  set (W := rsum (fun k => INR (f k)) (seq (S t) (m - t))).
  assert (HW : (0 <= W)%R). { unfold W. generalize (seq (S t) (m - t)) as l. intros l. unfold rsum. induction l as [|x l IH]; cbn [fold_right]; [lra|]. pose proof (pos_INR (f x)). lra. }
  pose (K := (W + INR (f t) * INR m + 1)%R). assert (HK : (0 < K)%R) by (unfold K; pose proof (pos_INR (f t)); pose proof (pos_INR m); nra).
  exists (eps / K)%R. split; [apply Rdiv_lt_0_compat; assumption|]. intros r [Hr0 Hr] Hr1.
  assert (HrK : (r * K < eps)%R). { apply Rmult_lt_reg_r with (/ K)%R; [apply Rinv_0_lt_compat; exact HK|]. rewrite Rmult_assoc, Rinv_r by lra. unfold Rdiv in Hr. lra. }
  assert (Hrt : (0 < r ^ t)%R) by (apply pow_lt; exact Hr0).
  assert (Split : rsum (fun k => INR (f k) * r ^ k * (1 - r) ^ (m - k))%R (seq 0 (S m)) = (INR (f t) * r ^ t * (1 - r) ^ (m - t) + rsum (fun k => INR (f k) * r ^ k * (1 - r) ^ (m - k)) (seq (S t) (m - t)))%R).
  { replace (S m) with (t + S (m - t)) by lia. rewrite seq_app. cbn [Nat.add seq].
    assert (G : forall (g : nat -> R) l1 l2, rsum g (l1 ++ l2) = (rsum g l1 + rsum g l2)%R). { intros g l1 l2. unfold rsum. induction l1 as [|x l1 IH]; cbn [app fold_right]; [lra|rewrite IH; lra]. }
    rewrite G. replace (rsum (fun k => INR (f k) * r ^ k * (1 - r) ^ (m - k))%R (seq 0 t)) with 0%R.
    - unfold rsum. cbn [fold_right]. lra.
    - symmetry. transitivity (rsum (fun _ => 0%R) (seq 0 t)); [|generalize (seq 0 t) as l; intros l; unfold rsum; induction l as [|x l IH]; cbn [fold_right]; lra].
      apply rsum_ext. intros k Hk. apply in_seq in Hk. rewrite (Hf k) by lia. cbn [INR]. lra. }
  set (tail := rsum (fun k => INR (f k) * r ^ k * (1 - r) ^ (m - k))%R (seq (S t) (m - t))) in *.
  assert (P1 : forall j, (0 <= (1 - r) ^ j <= 1)%R).
  { intros j. split; [apply pow_le; lra|]. apply Rle_trans with (1 ^ j)%R; [apply pow_incr; lra|rewrite pow1; lra]. }
  assert (P2 : forall j, (1 - INR j * r <= (1 - r) ^ j)%R).
  { induction j as [|j IH]; [cbn [INR pow]; lra|]. rewrite S_INR. cbn [pow]. pose proof (pos_INR j). pose proof (P1 j). nra. }
  assert (Tail : (0 <= tail <= r ^ t * (r * W))%R).
  { unfold tail, W.
    assert (G : forall l, (forall k, In k l -> S t <= k) -> (0 <= rsum (fun k => INR (f k) * r ^ k * (1 - r) ^ (m - k)) l <= r ^ t * (r * rsum (fun k => INR (f k)) l))%R).
    { induction l as [|k l IH]; intros Hl; [unfold rsum; cbn [fold_right]; lra|]. specialize (IH (fun x Hx => Hl x (or_intror Hx))). specialize (Hl k (or_introl eq_refl)).
      unfold rsum in *. cbn [fold_right]. set (u := fold_right (fun k s => (INR (f k) * r ^ k * (1 - r) ^ (m - k) + s)%R) 0%R l) in *. set (v := fold_right (fun k s => (INR (f k) + s)%R) 0%R l) in *.
      assert (Hk : (0 <= INR (f k) * r ^ k * (1 - r) ^ (m - k) <= r ^ t * (r * INR (f k)))%R).
      { replace (r ^ k)%R with (r ^ t * r * r ^ (k - S t))%R by (replace (r ^ t * r)%R with (r ^ (S t))%R by (cbn [pow]; ring); rewrite <- pow_add; f_equal; lia).
        pose proof (pos_INR (f k)) as Hf0. pose proof (P1 (m - k)) as [P1a P1b].
        assert (Q : (0 <= r ^ (k - S t) <= 1)%R) by (split; [apply pow_le; lra|apply Rle_trans with (1 ^ (k - S t))%R; [apply pow_incr; lra|rewrite pow1; lra]]). destruct Q as [Q1 Q2].
        assert (Z1 : (0 <= r ^ (k - S t) * (1 - r) ^ (m - k) <= 1)%R).
        { split; [apply Rmult_le_pos; assumption|]. revert Q1 Q2 P1a P1b. generalize (r ^ (k - S t))%R ((1 - r) ^ (m - k))%R. intros x y. nra. }
        assert (Z2 : (0 <= r ^ t * r * INR (f k))%R) by (apply Rmult_le_pos; [apply Rmult_le_pos; lra|exact Hf0]).
        replace (INR (f k) * (r ^ t * r * r ^ (k - S t)) * (1 - r) ^ (m - k))%R with (r ^ t * r * INR (f k) * (r ^ (k - S t) * (1 - r) ^ (m - k)))%R by ring.
        replace (r ^ t * (r * INR (f k)))%R with (r ^ t * r * INR (f k) * 1)%R by ring. split; [apply Rmult_le_pos; [exact Z2|apply Z1]|apply Rmult_le_compat_l; [exact Z2|apply Z1]]. }
      replace (r ^ t * (r * (INR (f k) + v)))%R with (r ^ t * (r * INR (f k)) + r ^ t * (r * v))%R by ring. lra. }
    apply G. intros k Hk. apply in_seq in Hk. lia. }
  rewrite Split. replace ((INR (f t) * r ^ t * (1 - r) ^ (m - t) + tail) / r ^ t - INR (f t))%R with (INR (f t) * ((1 - r) ^ (m - t) - 1) + tail / r ^ t)%R by (field; lra).
  assert (T2 : (0 <= tail / r ^ t <= r * W)%R).
  { split; [apply Rmult_le_pos; [apply Tail|left; apply Rinv_0_lt_compat; exact Hrt]|]. apply Rmult_le_reg_r with (r ^ t)%R; [exact Hrt|]. replace (tail / r ^ t * r ^ t)%R with tail by (field; lra). lra. }
  pose proof (P2 (m - t)) as B. pose proof (P1 (m - t)) as B2. pose proof (pos_INR (f t)) as F0.
  assert (Hmt : (INR (m - t) <= INR m)%R) by (apply le_INR; lia). pose proof (pos_INR (m - t)) as M0.
  assert (Low : (- (INR (f t) * INR m * r) <= INR (f t) * ((1 - r) ^ (m - t) - 1) <= 0)%R).
  { split; [|nra]. assert ((- (INR m * r) <= (1 - r) ^ (m - t) - 1)%R) by nra. nra. }
  apply Rabs_def1; unfold K in HrK; nra.
Qed.

(* For small error probabilities the failure rate is F_t p^t with t half the distance, rounded up, and F_t > 0: neither decoder does
   better nor worse than the power given by the distance, for every complex and boundary. *)
Theorem C82_leading_order : forall D e b pol c ch call a t, dims_ge2 D -> is_surface_code D e b pol c -> valid_choice (sc_stabs c) ch -> uniform_call c ch call ->
  (* a: a shortest direction of a logical operator, t: half its length, rounded up *)
  In a (logical_axes e b) -> (forall a', In a' (logical_axes e b) -> (get a D <= get a' D)%Z) -> (get a D <= 2 * Z.of_nat t <= get a D + 1)%Z ->
  0 < uncorrectable c call t /\
  forall eps, (0 < eps)%R -> exists delta, (0 < delta)%R /\ forall M p A, 0 < M -> let r := (INR (flips M p) / INR M)%R in
    (0 < r < delta)%R -> (Rabs (failure_rate c call M p A / r ^ t - INR (uncorrectable c call t)) < eps)%R.
Proof.
  intros D e b pol c ch call a t HD HC Hch Hcall Ha Hmin Ht.
  destruct (C82_weight_enumerator D e b pol c ch call HD HC Hch Hcall) as (HP & Hle & Hz & Hline). set (F := uncorrectable c call) in *. set (m := List.length (sc_syn c)) in *.
  assert (Hd2 : (2 <= get a D)%Z) by apply HD.
  assert (Htd : t <= Z.to_nat (get a D)) by lia.
  assert (Hzero : forall k, k < t -> F k = 0). { intros k Hk. apply Hz. intros a' Ha'. specialize (Hmin a' Ha'). lia. }
  assert (Hpos : 0 < F t).
  { pose proof (Hline a t Ha Htd) as H. assert (Hc : 0 < choose (Z.to_nat (get a D)) t).
    { clear -Htd. revert t Htd. induction (Z.to_nat (get a D)) as [|d IH]; intros [|t] H; cbn; try lia. specialize (IH t). lia. }
    destruct (Nat.eq_dec (Z.to_nat (get a D) - t) t) as [E|E]; [rewrite E in H; lia|]. rewrite (Hzero (Z.to_nat (get a D) - t)) in H by lia. lia. }
  split; [exact Hpos|]. intros eps He.
  assert (Htm : t <= m). { destruct (Nat.le_gt_cases t m) as [H|H]; [exact H|]. specialize (Hle t). rewrite choose_above in Hle by exact H. lia. }
  destruct (poly_leading m t F Htm Hzero eps He) as (delta & Hd & H). exists delta. split; [exact Hd|]. intros M p A HM r Hr. unfold r in *. rewrite (HP M p A HM). apply H; [exact Hr|].
  assert (HR : (0 < INR M)%R) by (apply lt_0_INR; exact HM). apply Rmult_le_reg_r with (INR M); [exact HR|]. unfold Rdiv. rewrite Rmult_assoc, Rinv_l by lra. rewrite Rmult_1_r, Rmult_1_l. apply le_INR. apply a_le.
Qed.
Print Assumptions C82_leading_order.

(* these are the trials of ec_monte_carlo of C71, C79 and C80; and such calls exist for every code *)
Theorem C82_trials : forall (S : Type) (rnd : generator S) p c ch trial, uniform_decoder rnd p c ch trial <->
  exists call, uniform_call c ch call /\ trial = gen_trial rnd p (node_list (sc_graph c)) call.
Proof. intros. apply uniform_call_trial. Qed.
Print Assumptions C82_trials.
Example C82_nonvacuous : forall D e b pol c ch, dims_ge2 D -> is_surface_code D e b pol c -> valid_choice (sc_stabs c) ch -> exists call, uniform_call c ch call.
Proof.
  intros D e b pol c ch HD HC Hch. destruct (C14_nonvacuous D e b pol c ch (fun _ => 1%Z) HC) as (o & pick & Ho & Hp); [intros; lia|].
  eexists. left. exists nx_report, o, pick. split; [left; reflexivity|]. split; [exact Ho|]. split; [exact Hp|reflexivity].
Qed.
Example C82_subsets : sublists [1; 2; 3] = [[1; 2; 3]; [1; 2]; [1; 3]; [1]; [2; 3]; [2]; [3]; []].
Proof. reflexivity. Qed.
