(* LcPivot.v: the basis computed by nullspace_basis is in reduced row echelon form, so which sums of two basis vectors it offers can be
   read off the solution space: a solution is such a sum iff exactly two of its ones are in columns in which some solution begins. *)
From Verif Require Import Base LinModel LinSpec LinProofs LinNull LinLc PropsLin.
Open Scope nat_scope.

Lemma bsum_two n f p q : p < n -> q < n -> p <> q -> (forall i, i < n -> i <> p -> i <> q -> f i = false) -> bsum n f = xorb (f p) (f q).
Proof.
  intros Hp Hq Hne H. rewrite (bsum_ext n f (fun i => xorb ((i =? p) && f i) ((i =? q) && f i))).
  - rewrite bsum_xor, (bsum_single n _ p Hp), (bsum_single n _ q Hq).
    + rewrite !Nat.eqb_refl. reflexivity.
    + intros i _ Hi. apply Nat.eqb_neq in Hi. rewrite Hi. reflexivity.
    + intros i _ Hi. apply Nat.eqb_neq in Hi. rewrite Hi. reflexivity.
  - intros i Hi. destruct (Nat.eqb_spec i p) as [->|H1]; [destruct (Nat.eqb_spec p q); [contradiction|destruct (f p); reflexivity]|].
    destruct (Nat.eqb_spec i q) as [->|H2]; [destruct (f q); reflexivity|rewrite (H i Hi H1 H2); reflexivity].
Qed.

Section Pivot.
  Variable n : nat. Variables G H : bmat.
  Hypothesis Hn : n <> 0. Hypothesis HG : graph_matrix n G. Hypothesis HH : graph_matrix n H.
  Notation M := (lc_constraint_system n G H).

  (* some solution of the system has its first one in column j *)
  Definition leads (j : nat) : Prop := exists v, length v = 4 * n /\ nullvec M v /\ nth j v false = true /\ forall k, k < j -> nth k v false = false.

  Lemma basis_echelon : exists B cols, nullspace_basis (4 * n) M = Ok B /\ width (4 * n) B /\ echelon (4 * n) B (length B) cols /\
    (forall x, length x = 4 * n -> (nullvec M x <-> rowspace (4 * n) B x)).
  Proof.
    destruct (nullspace_ok (4 * n) M (sys_width n G H)) as (B & HB & HW & HI & HS).
    assert (E : exists N p, width (4 * n) N /\ reduce_RREform_mod2 (4 * n) N None = Ok (B, p)).
    { unfold nullspace_basis in HB. remember (reduce_RREform_mod2 (length M + 4 * n) _ _) as r eqn:Er. destruct r as [[R p]|e]; [|discriminate].
      cbn [bind fst snd] in HB. remember (reduce_RREform_mod2 (4 * n) _ None) as r' eqn:Er'. destruct r' as [[R' p']|e]; [|discriminate]. cbn [bind fst] in HB. injection HB as ->.
      eexists _, p'. split; [|symmetry; exact Er'].
      match type of Er with _ = reduce_RREform_mod2 _ ?A _ => assert (HA : width (length M + 4 * n) A) end.
      { intros r Hr. destruct (In_nth _ _ [] Hr) as (i & Hi & <-). rewrite mapi_length in Hi. unfold transpose in Hi. rewrite seq_map_length in Hi.
        rewrite (mapi_nth _ _ [] []) by (unfold transpose; rewrite seq_map_length; exact Hi). unfold transpose. rewrite seq_map_nth by exact Hi. unfold unit_row.
        rewrite app_length, map_length, seq_map_length. reflexivity. }
      destruct (reduce_ok _ _ (Some (length M)) HA ltac:(lia)) as (R0 & p0 & cols & Ec & _ & HW0 & _). rewrite Ec in Er. injection Er as -> ->.
      intros r Hr. apply in_map_iff in Hr. destruct Hr as (s & <- & Hs). rewrite skipn_length, (HW0 s); [lia|]. rewrite <- (firstn_skipn p0 R0). apply in_or_app. right. exact Hs. }
    destruct E as (N & p & HN & E). destruct (reduce_ok _ N None HN (le_n _)) as (B' & p' & cols & E' & _ & _ & _ & HE). rewrite E in E'. injection E' as <- <-.
    exists B, cols. split; [exact HB|]. split; [exact HW|]. split; [|exact HS].
    assert (Hp : p = length B); [|rewrite <- Hp; exact HE].
    destruct HE as (E1 & E2 & _ & _ & _ & _ & E7). destruct (Nat.eq_dec p (length B)) as [|Hne]; [assumption|exfalso].
    assert (Hz : nth p B [] = zeros (4 * n)).
    { apply row_ext; [rewrite zeros_length; apply width_nth; [exact HW|lia]|]. intros j Hj. rewrite (width_nth _ _ p HW) in Hj by lia. rewrite zeros_nth. apply (E7 p j); lia. }
    set (cs := map (fun i => i =? p) (seq 0 (length B))). assert (Hl : length cs = length B) by apply seq_map_length.
    assert (Hc : lincomb (4 * n) cs B = zeros (4 * n)).
    { apply row_ext; [rewrite lincomb_length, zeros_length by exact HW; reflexivity|]. intros j _. rewrite zeros_nth, lincomb_nth by assumption. apply bsum_zero. intros i Hi.
      unfold cs. rewrite seq_map_nth by exact Hi. destruct (Nat.eqb_spec i p) as [->|]; [|reflexivity]. unfold ent. rewrite Hz. apply zeros_nth. }
    apply HI in Hc; [|exact Hl]. assert (Hp : nth p cs false = true) by (unfold cs; rewrite seq_map_nth by lia; apply Nat.eqb_refl). rewrite Hc, nth_repeat in Hp. discriminate.
  Qed.

  Lemma row_leads B cols : width (4 * n) B -> echelon (4 * n) B (length B) cols -> (forall x, length x = 4 * n -> (nullvec M x <-> rowspace (4 * n) B x)) ->
    forall i, i < length B -> leads (nth i cols 0).
  Proof.
    intros HW (_ & _ & _ & _ & E5 & E6 & _) HS i Hi. exists (nth i B []). pose proof (width_nth _ _ i HW Hi) as Hl. split; [exact Hl|].
    split; [apply HS; [exact Hl|]; apply rs_in; [exact HW|apply nth_In, Hi]|]. split; [pose proof (E5 i i Hi Hi) as E; rewrite Nat.eqb_refl in E; exact E|]. intros k Hk. apply (E6 i k Hi Hk).
  Qed.
  Lemma leads_row B cols : width (4 * n) B -> echelon (4 * n) B (length B) cols -> (forall x, length x = 4 * n -> (nullvec M x <-> rowspace (4 * n) B x)) ->
    forall j, leads j -> exists i, i < length B /\ nth i cols 0 = j.
  Proof.
    intros HW (_ & _ & _ & _ & E5 & E6 & _) HS j (v & Hv & Hnull & Hj & Hlow). apply (HS v Hv) in Hnull. destruct Hnull as (cs & Hc & ->).
    destruct (in_dec Nat.eq_dec j (map (fun i => nth i cols 0) (seq 0 (length B)))) as [I|I].
    { apply in_map_iff in I. destruct I as (i & E & Hi). apply in_seq in Hi. exists i. split; [lia|exact E]. }
    exfalso. rewrite lincomb_nth in Hj by assumption. rewrite bsum_zero in Hj; [discriminate|]. intros i Hi.
    assert (Hci : nth (nth i cols 0) (lincomb (4 * n) cs B) false = nth i cs false) by (apply lincomb_col; [exact HW|exact Hc|exact Hi|]; intros k Hk; apply E5; assumption).
    destruct (nth i cs false) eqn:Ei; [|reflexivity]. cbn [andb].
    destruct (Nat.lt_trichotomy (nth i cols 0) j) as [L|[L|L]].
    - rewrite (Hlow _ L) in Hci. discriminate.
    - exfalso. apply I. rewrite <- L. apply in_map_iff. exists i. split; [reflexivity|apply in_seq; lia].
    - apply (E6 i j Hi L).
  Qed.

  (* a solution with exactly two ones in such columns is found *)
  Theorem two_leads s p q form : length s = 4 * n -> nullvec M s -> sat n s = true -> p <> q -> nth p s false = true -> nth q s false = true ->
    leads p -> leads q -> (forall j, nth j s false = true -> leads j -> j = p \/ j = q) -> form <> FOther ->
    exists c, are_lc_equivalent G H form = Ok (true, Some c).
  Proof.
    intros Hs Hnull Hsat Hpq Sp Sq Lp Lq Honly Hform. destruct (are_lc_run n G H form Hn HG HH) as (B' & HB' & _ & _ & _ & Er).
    destruct basis_echelon as (B & cols & HB & HW & HE & HS). rewrite HB in HB'. injection HB' as <-.
    destruct (leads_row B cols HW HE HS p Lp) as (ip & Hip & Ep). destruct (leads_row B cols HW HE HS q Lq) as (iq & Hiq & Eq).
    assert (Hne : ip <> iq) by (intros ->; apply Hpq; congruence).
    assert (E : s = vxor (nth ip B []) (nth iq B [])).
    { pose proof (width_nth _ _ ip HW Hip) as L1. pose proof (width_nth _ _ iq HW Hiq) as L2. apply row_ext; [rewrite vxor_length; congruence|]. intros j Hj.
      rewrite vxor_nth by congruence. pose proof Hnull as Hr. apply (HS s Hs) in Hr. destruct Hr as (cs & Hc & Ec).
      assert (Hcs : forall i, i < length B -> nth i cs false = nth (nth i cols 0) s false).
      { intros i Hi. rewrite Ec. symmetry. apply lincomb_col; [exact HW|exact Hc|exact Hi|]. intros k Hk. destruct HE as (_ & _ & _ & _ & E5 & _). apply E5; assumption. }
      rewrite Ec, lincomb_nth by assumption. rewrite (bsum_two _ _ ip iq Hip Hiq Hne).
      - rewrite !Hcs, Ep, Eq, Sp, Sq by assumption. reflexivity.
      - intros i Hi H1 H2. rewrite Hcs by exact Hi. destruct (nth (nth i cols 0) s false) eqn:Ei; [exfalso|reflexivity].
        destruct (Honly _ Ei (row_leads B cols HW HE HS i Hi)) as [E|E].
        + apply H1. rewrite <- Ep in E. destruct HE as (_ & _ & E3 & _). destruct (Nat.lt_trichotomy i ip) as [L|[L|L]]; [|exact L|]; [pose proof (E3 i ip ltac:(lia))|pose proof (E3 ip i ltac:(lia))]; lia.
        + apply H2. rewrite <- Eq in E. destruct HE as (_ & _ & E3 & _). destruct (Nat.lt_trichotomy i iq) as [L|[L|L]]; [|exact L|]; [pose proof (E3 i iq ltac:(lia))|pose proof (E3 iq i ltac:(lia))]; lia. }
    rewrite Er. destruct (search_nullspace (4 * n) B) as [v|] eqn:Ev; [destruct form; [eexists; reflexivity|eexists; reflexivity|congruence]|exfalso].
    pose proof (search_none n B Ev) as Hno. destruct (Nat.lt_total ip iq) as [L|[L|L]]; [|contradiction|].
    - specialize (Hno iq ip ltac:(lia)). rewrite vxor_comm, <- E, Hsat in Hno by (rewrite !(width_nth _ _ _ HW) by assumption; reflexivity). discriminate.
    - specialize (Hno ip iq ltac:(lia)). rewrite <- E, Hsat in Hno. discriminate.
  Qed.

  (* if any two solutions other than 0 are the same, the search has no pair to try *)
  Theorem one_solution form : (forall v w, length v = 4 * n -> length w = 4 * n -> nullvec M v -> nullvec M w -> v <> zeros (4 * n) -> w <> zeros (4 * n) -> v = w) ->
    are_lc_equivalent G H form = Ok (false, None).
  Proof.
    intros Hone. destruct (are_lc_run n G H form Hn HG HH) as (B' & HB' & _ & _ & _ & Er). destruct basis_echelon as (B & cols & HB & HW & HE & HS). rewrite HB in HB'. injection HB' as <-.
    rewrite Er. destruct (search_nullspace (4 * n) B) as [v|] eqn:Ev; [exfalso|reflexivity]. destruct (search_some n B v Ev) as (_ & i & j & Hij & _).
    destruct HE as (_ & _ & _ & _ & E5 & _).
    assert (Hnz : forall k, k < length B -> nth k B [] <> zeros (4 * n)).
    { intros k Hk E. pose proof (E5 k k Hk Hk) as E'. unfold ent in E'. rewrite E, zeros_nth, Nat.eqb_refl in E'. discriminate. }
    assert (E : nth i B [] = nth j B []).
    { apply Hone; try (apply width_nth; [exact HW|lia]); try (apply Hnz; lia); (apply HS; [apply width_nth; [exact HW|lia]|apply rs_in; [exact HW|apply nth_In; lia]]). }
    pose proof (E5 j i ltac:(lia) ltac:(lia)) as H1. pose proof (E5 j j ltac:(lia) ltac:(lia)) as H2. unfold ent in H1, H2. rewrite E, H2, Nat.eqb_refl in H1. symmetry in H1. apply Nat.eqb_eq in H1. lia.
  Qed.
End Pivot.
