(* LinProofs.v: row reduction modulo 2. *)
From Verif Require Import Base LinModel LinSpec.
Open Scope nat_scope.

Lemma mapi_from_length {A B} (f : nat -> A -> B) l : forall k, length (mapi_from k f l) = length l.
Proof. induction l as [|x l IH]; intros k; simpl; [reflexivity|]. rewrite IH. reflexivity. Qed.
Lemma mapi_length {A B} (f : nat -> A -> B) l : length (mapi f l) = length l.
Proof. apply mapi_from_length. Qed.
Lemma mapi_from_nth {A B} (f : nat -> A -> B) l d d' : forall k i, i < length l -> nth i (mapi_from k f l) d = f (k + i) (nth i l d').
Proof.
  induction l as [|x l IH]; intros k i H; simpl in H; [lia|]. destruct i as [|i]; simpl.
  - rewrite Nat.add_0_r. reflexivity.
  - rewrite IH by lia. f_equal. lia.
Qed.
Lemma mapi_nth {A B} (f : nat -> A -> B) l d d' i : i < length l -> nth i (mapi f l) d = f i (nth i l d').
Proof. intros H. unfold mapi. rewrite (mapi_from_nth f l d d') by assumption. reflexivity. Qed.

(* rows *)
Lemma row_ext (r s : row) : length r = length s -> (forall j, j < length r -> nth j r false = nth j s false) -> r = s.
Proof. intros H1 H2. apply (nth_ext r s false false); assumption. Qed.
Lemma zeros_length n : length (zeros n) = n.
Proof. apply repeat_length. Qed.
Lemma zeros_nth n j : nth j (zeros n) false = false.
Proof. revert j. induction n as [|n IH]; intros [|j]; simpl; auto. Qed.
Lemma vxor_length r s : length r = length s -> length (vxor r s) = length r.
Proof. intros H. unfold vxor. rewrite map_length, combine_length. lia. Qed.
Lemma vxor_nth r : forall s j, length r = length s -> nth j (vxor r s) false = xorb (nth j r false) (nth j s false).
Proof.
  induction r as [|a r IH]; intros [|b s] j H; simpl in H; try lia; [destruct j; reflexivity|].
  destruct j as [|j]; [reflexivity|]. simpl. apply IH. lia.
Qed.
Ltac lens := rewrite ?vxor_length, ?zeros_length by (rewrite ?vxor_length, ?zeros_length; lia).
Lemma vxor_comm r s : length r = length s -> vxor r s = vxor s r.
Proof. intros H. apply row_ext; [rewrite !vxor_length; lia|]. intros j _. rewrite !vxor_nth by lia. apply xorb_comm. Qed.
Lemma vxor_assoc r s t : length r = length s -> length s = length t -> vxor (vxor r s) t = vxor r (vxor s t).
Proof.
  intros H H'. assert (length (vxor r s) = length t) by (rewrite vxor_length; lia). assert (length r = length (vxor s t)) by (rewrite vxor_length; lia).
  apply row_ext; [rewrite !vxor_length; lia|]. intros j _. rewrite !vxor_nth by assumption. apply xorb_assoc.
Qed.
Lemma vxor_zero_l n r : length r = n -> vxor (zeros n) r = r.
Proof.
  intros H. apply row_ext; [rewrite vxor_length; rewrite zeros_length; lia|]. intros j _. rewrite vxor_nth by (rewrite zeros_length; lia).
  rewrite zeros_nth. apply xorb_false_l.
Qed.
Lemma vxor_zero_r n r : length r = n -> vxor r (zeros n) = r.
Proof. intros H. rewrite vxor_comm by (rewrite zeros_length; lia). apply vxor_zero_l. assumption. Qed.
Lemma vxor_self r : vxor r r = zeros (length r).
Proof.
  apply row_ext; [rewrite vxor_length by reflexivity; rewrite zeros_length; reflexivity|]. intros j _. rewrite vxor_nth by reflexivity.
  rewrite zeros_nth. apply xorb_nilpotent.
Qed.
Lemma vxor_inj r s : length r = length s -> vxor r s = zeros (length r) -> r = s.
Proof.
  intros H E. apply row_ext; [assumption|]. intros j _. assert (Hj : nth j (vxor r s) false = false) by (rewrite E; apply zeros_nth).
  rewrite vxor_nth in Hj by assumption. destruct (nth j r false), (nth j s false); simpl in Hj; congruence.
Qed.

(* linear combinations *)
Section Comb.
  Variable n : nat.
  Lemma width_cons r L : width n (r :: L) -> length r = n /\ width n L.
  Proof. intros H. split; [apply H; left; reflexivity|intros s Hs; apply H; right; assumption]. Qed.
  Lemma width_nth L i : width n L -> i < length L -> length (nth i L []) = n.
  Proof. intros H Hi. apply H, nth_In. assumption. Qed.
  Lemma lincomb_length L : width n L -> forall cs, length (lincomb n cs L) = n.
  Proof.
    induction L as [|r L IH]; intros HW cs; [destruct cs as [|[]]; apply zeros_length|]. apply width_cons in HW. destruct HW as [Hr HW].
    destruct cs as [|c cs]; [apply zeros_length|]. simpl. destruct c; [|apply IH; assumption]. rewrite vxor_length; [assumption|].
    rewrite IH by assumption. assumption.
  Qed.
  Lemma lincomb_vxor L : width n L -> forall cs ds, length cs = length L -> length ds = length L ->
    lincomb n (vxor cs ds) L = vxor (lincomb n cs L) (lincomb n ds L).
  Proof.
    induction L as [|r L IH]; intros HW cs ds Hc Hd.
    - destruct cs; [|discriminate]. destruct ds; [|discriminate]. simpl. rewrite vxor_self, zeros_length. reflexivity.
    - apply width_cons in HW. destruct HW as [Hr HW]. destruct cs as [|c cs]; [discriminate|]. destruct ds as [|d ds]; [discriminate|].
      simpl in Hc, Hd. change (vxor (c :: cs) (d :: ds)) with (xorb c d :: vxor cs ds). simpl. rewrite (IH HW) by lia.
      pose proof (lincomb_length L HW cs) as Lc. pose proof (lincomb_length L HW ds) as Ld.
      assert (Lx : length (vxor (lincomb n cs L) (lincomb n ds L)) = n) by (rewrite vxor_length; lia).
      destruct c, d; simpl.
      + apply row_ext; [rewrite !vxor_length by (rewrite ?vxor_length; lia); lia|]. intros j _.
        rewrite !vxor_nth by (rewrite ?vxor_length; lia). destruct (nth j r false), (nth j (lincomb n cs L) false), (nth j (lincomb n ds L) false); reflexivity.
      + rewrite vxor_assoc by lia. reflexivity.
      + rewrite <- vxor_assoc by lia. rewrite (vxor_comm r (lincomb n cs L)) by lia. rewrite vxor_assoc by lia. reflexivity.
      + reflexivity.
  Qed.
  Lemma lincomb_false L : forall k, lincomb n (repeat false k) L = zeros n.
  Proof. induction L as [|r L IH]; intros [|k]; simpl; auto. Qed.
  Lemma rs_length L v : width n L -> rowspace n L v -> length v = n.
  Proof. intros HW (cs & _ & ->). apply lincomb_length. assumption. Qed.
  Lemma rs_zero L : rowspace n L (zeros n).
  Proof. exists (repeat false (length L)). rewrite repeat_length, lincomb_false. auto. Qed.
  Lemma rs_add L u v : width n L -> rowspace n L u -> rowspace n L v -> rowspace n L (vxor u v).
  Proof.
    intros HW (cs & Hc & ->) (ds & Hd & ->). exists (vxor cs ds). rewrite lincomb_vxor by assumption. split; [rewrite vxor_length; lia|reflexivity].
  Qed.
  Lemma rs_cons L r v : rowspace n L v -> rowspace n (r :: L) v.
  Proof. intros (cs & Hc & ->). exists (false :: cs). simpl. auto. Qed.
  Lemma rs_in L r : width n L -> In r L -> rowspace n L r.
  Proof.
    induction L as [|s L IH]; intros HW H; [destruct H|]. apply width_cons in HW. destruct HW as [Hs HW]. destruct H as [->|H].
    - exists (true :: repeat false (length L)). simpl. rewrite repeat_length, lincomb_false, vxor_zero_r by assumption. auto.
    - apply rs_cons. auto.
  Qed.
  Lemma rs_sub L L' v : width n L' -> (forall r, In r L -> rowspace n L' r) -> rowspace n L v -> rowspace n L' v.
  Proof.
    intros HW H (cs & Hc & ->). revert cs Hc. induction L as [|r L IH]; intros cs Hc; [destruct cs; simpl; apply rs_zero|].
    destruct cs as [|c cs]; [discriminate|]. simpl in Hc. assert (HL : rowspace n L' (lincomb n cs L)).
    { apply IH; [intros; apply H; right; assumption|lia]. }
    simpl. destruct c; [|assumption]. apply rs_add; [assumption|apply H; left; reflexivity|assumption].
  Qed.

  (* a column with a single one reads off a coefficient *)
  Lemma lincomb_col L j : width n L -> forall i cs, length cs = length L -> i < length L ->
    (forall k, k < length L -> ent L k j = (k =? i)) -> nth j (lincomb n cs L) false = nth i cs false.
  Proof.
    induction L as [|r L IH]; intros HW i cs Hc Hi He; simpl in Hi; [lia|]. apply width_cons in HW. destruct HW as [Hr HW].
    destruct cs as [|c cs]; [discriminate|]. simpl in Hc. pose proof (lincomb_length L HW cs) as Ll.
    assert (H0 : nth j r false = (0 =? i)) by (apply (He 0); simpl; lia). simpl.
    assert (Hz : (forall k, k < length L -> ent L k j = false) -> nth j (lincomb n cs L) false = false).
    { clear - HW. revert cs. induction L as [|s L IH]; intros cs Hz; [destruct cs as [|[]]; apply zeros_nth|].
      apply width_cons in HW. destruct HW as [Hs HW]. destruct cs as [|d cs]; [apply zeros_nth|]. simpl.
      assert (Hrec : nth j (lincomb n cs L) false = false) by (apply IH; [assumption|intros k Hk; apply (Hz (S k)); simpl; lia]).
      destruct d; [|assumption]. rewrite vxor_nth by (rewrite (lincomb_length L HW); lia). rewrite Hrec.
      specialize (Hz 0 ltac:(simpl; lia)). unfold ent in Hz. simpl in Hz. rewrite Hz. reflexivity. }
    destruct i as [|i].
    - assert (Hz' : nth j (lincomb n cs L) false = false).
      { apply Hz. intros k Hk. apply (He (S k)). simpl. lia. }
      destruct c; [|assumption]. rewrite vxor_nth by lia. rewrite H0, Hz'. reflexivity.
    - assert (Hrec : nth j (lincomb n cs L) false = nth i cs false).
      { apply IH; [assumption|lia|lia|]. intros k Hk. apply (He (S k)). simpl. lia. }
      destruct c; [|assumption]. rewrite vxor_nth by lia. rewrite H0, Hrec. apply xorb_false_l.
  Qed.
  Lemma lincomb_skip L : forall p cs, length cs = length L -> (forall i, i < p -> nth i cs false = false) ->
    lincomb n cs L = lincomb n (skipn p cs) (skipn p L).
  Proof.
    induction L as [|r L IH]; intros p cs Hc Hz.
    - destruct cs; [|discriminate]. rewrite !skipn_nil. reflexivity.
    - destruct cs as [|c cs]; [discriminate|]. destruct p as [|p]; [reflexivity|]. simpl.
      assert (c = false) by (apply (Hz 0); lia). subst c. apply IH; [simpl in Hc; lia|]. intros i Hi. apply (Hz (S i)). lia.
  Qed.

  (* ---------------- row operations ---------------- *)
  Lemma find_pivot_spec j : forall R p, match find_pivot p j R with
    | Some i => p <= i < p + length R /\ nth j (nth (i - p) R []) false = true
    | None => forall k, nth j (nth k R []) false = false end.
  Proof.
    induction R as [|r R IH]; intros p; simpl; [intros k; destruct k; destruct j; reflexivity|].
    destruct (nth j r false) eqn:E; [split; [lia|rewrite Nat.sub_diag; assumption]|]. specialize (IH (S p)).
    destruct (find_pivot (S p) j R) as [i|].
    - destruct IH as [Hi He]. split; [lia|]. replace (i - p) with (S (i - S p)) by lia. assumption.
    - intros [|k]; [assumption|apply IH].
  Qed.
  Lemma nth_skipn {A} (l : list A) d : forall p k, nth k (skipn p l) d = nth (p + k) l d.
  Proof. induction l as [|x l IH]; intros p k; [rewrite skipn_nil; destruct k, p; reflexivity|]. destruct p as [|p]; [reflexivity|]. simpl. apply IH. Qed.
  Lemma pivot_spec R p j : p <= length R -> match find_pivot p j (skipn p R) with
    | Some i => p <= i < length R /\ ent R i j = true
    | None => forall k, p <= k -> ent R k j = false end.
  Proof.
    intros Hp. pose proof (find_pivot_spec j (skipn p R) p) as H. destruct (find_pivot p j (skipn p R)) as [i|].
    - rewrite skipn_length, nth_skipn in H. unfold ent. replace (p + (i - p)) with i in H by lia. split; [lia|tauto].
    - intros k Hk. specialize (H (k - p)). rewrite nth_skipn in H. replace (p + (k - p)) with k in H by lia. assumption.
  Qed.

  Definition swapi (p i k : nat) : nat := if k =? p then i else if k =? i then p else k.
  Lemma swap_nth p i R k : p < length R -> i < length R -> k < length R -> nth k (swap_rows p i R) [] = nth (swapi p i k) R [].
  Proof.
    intros Hp Hi Hk. unfold swap_rows. etransitivity; [apply (mapi_nth _ R [] []); assumption|]. unfold swapi. destruct (k =? p); [reflexivity|]. destruct (k =? i); reflexivity.
  Qed.
  Lemma swap_length p i R : length (swap_rows p i R) = length R.
  Proof. apply mapi_length. Qed.
  Lemma elim_length p j R : length (eliminate p j R) = length R.
  Proof. apply mapi_length. Qed.
  Lemma elim_nth p j R k : k < length R -> nth k (eliminate p j R) [] = if negb (k =? p) && ent R k j then vxor (nth k R []) (nth p R []) else nth k R [].
  Proof. intros Hk. unfold eliminate. etransitivity; [apply (mapi_nth _ R [] []); assumption|]. reflexivity. Qed.
  Lemma in_nth_ex (L : bmat) r : In r L -> exists k, k < length L /\ nth k L [] = r.
  Proof. intros H. apply (In_nth _ _ []) in H. destruct H as (k & Hk & E). eauto. Qed.
  Lemma swapi_lt p i k m : p < m -> i < m -> k < m -> swapi p i k < m.
  Proof. intros. unfold swapi. destruct (k =? p); [assumption|]. destruct (k =? i); assumption. Qed.
  Lemma swapi_inv p i k : swapi p i (swapi p i k) = k.
  Proof.
    unfold swapi. destruct (Nat.eqb_spec k p) as [->|]; [destruct (Nat.eqb_spec i p) as [->|]; [reflexivity|rewrite Nat.eqb_refl; reflexivity]|].
    destruct (Nat.eqb_spec k i) as [->|]; [rewrite Nat.eqb_refl; reflexivity|].
    destruct (Nat.eqb_spec k p); [congruence|]. destruct (Nat.eqb_spec k i); congruence.
  Qed.
  Lemma swap_in p i R r : p < length R -> i < length R -> In r (swap_rows p i R) <-> In r R.
  Proof.
    intros Hp Hi. split; intros H; apply in_nth_ex in H; destruct H as (k & Hk & <-).
    - rewrite swap_length in Hk. rewrite swap_nth by assumption. apply nth_In, swapi_lt; assumption.
    - rewrite <- (swapi_inv p i k), <- swap_nth by (try apply swapi_lt; assumption). apply nth_In. rewrite swap_length. apply swapi_lt; assumption.
  Qed.
  Lemma swap_width p i R : p < length R -> i < length R -> width n R -> width n (swap_rows p i R).
  Proof. intros Hp Hi HW r Hr. apply swap_in in Hr; auto. Qed.
  Lemma elim_width p j R : p < length R -> width n R -> width n (eliminate p j R).
  Proof.
    intros Hp HW r Hr. apply in_nth_ex in Hr. destruct Hr as (k & Hk & <-). rewrite elim_length in Hk. rewrite elim_nth by assumption.
    pose proof (width_nth R k HW Hk). pose proof (width_nth R p HW Hp). destruct (_ && _); [rewrite vxor_length; lia|assumption].
  Qed.
  Lemma elim_space p j R v : p < length R -> width n R -> rowspace n R v <-> rowspace n (eliminate p j R) v.
  Proof.
    intros Hp HW. pose proof (elim_width p j R Hp HW) as HW'. assert (Hpe : nth p (eliminate p j R) [] = nth p R []).
    { rewrite elim_nth, Nat.eqb_refl by assumption. reflexivity. }
    split; apply rs_sub; auto; intros r Hr; apply in_nth_ex in Hr; destruct Hr as (k & Hk & <-).
    - pose proof (elim_nth p j R k Hk) as E. assert (Hin : rowspace n (eliminate p j R) (nth k (eliminate p j R) [])).
      { apply rs_in; [assumption|]. apply nth_In. rewrite elim_length. assumption. }
      destruct (_ && _); [|rewrite E in Hin; assumption].
      assert (Hq : rowspace n (eliminate p j R) (nth p R [])).
      { rewrite <- Hpe. apply rs_in; [assumption|]. apply nth_In. rewrite elim_length. assumption. }
      rewrite E in Hin. pose proof (rs_add _ _ _ HW' Hin Hq) as Ha.
      pose proof (width_nth R k HW Hk). pose proof (width_nth R p HW Hp).
      rewrite vxor_assoc, vxor_self, vxor_zero_r in Ha by lia. assumption.
    - rewrite elim_length in Hk. rewrite elim_nth by assumption.
      destruct (_ && _); [apply rs_add; [assumption| |]|]; apply rs_in; auto; apply nth_In; assumption.
  Qed.

  Lemma swap_space p i R v : p < length R -> i < length R -> width n R -> rowspace n R v <-> rowspace n (swap_rows p i R) v.
  Proof.
    intros Hp Hi HW. pose proof (swap_width p i R Hp Hi HW) as HW'.
    split; apply rs_sub; auto; intros r Hr; apply rs_in; auto; [apply swap_in; assumption|apply swap_in in Hr; assumption].
  Qed.

  (* ---------------- the loop ---------------- *)
  Lemma echelon_none j R p cols : echelon j R p cols -> (forall k, p <= k -> ent R k j = false) -> echelon (S j) R p cols.
  Proof.
    intros (E1 & E2 & E3 & E4 & E5 & E6 & E7) Hn. repeat split; auto.
    - intros i Hi. specialize (E4 i Hi). lia.
    - intros k c Hk Hc. destruct (Nat.eq_dec c j) as [->|]; [apply Hn; lia|apply E7; lia].
  Qed.
  Lemma ent_swap p i R k j : p < length R -> i < length R -> k < length R -> ent (swap_rows p i R) k j = ent R (swapi p i k) j.
  Proof. intros. unfold ent. rewrite swap_nth by assumption. reflexivity. Qed.
  Lemma ent_elim p j R k c : width n R -> p < length R -> k < length R -> ent (eliminate p j R) k c = if negb (k =? p) && ent R k j then xorb (ent R k c) (ent R p c) else ent R k c.
  Proof.
    intros HW Hp Hk. unfold ent at 1. rewrite elim_nth by assumption. destruct (_ && _); [|reflexivity].
    rewrite vxor_nth; [reflexivity|]. rewrite !(width_nth R) by assumption. reflexivity.
  Qed.
  Lemma echelon_some j R p cols i : width n R -> echelon j R p cols -> p <= i < length R -> ent R i j = true ->
    echelon (S j) (eliminate p j (swap_rows p i R)) (S p) (cols ++ [j]).
  Proof.
    intros HW (E1 & E2 & E3 & E4 & E5 & E6 & E7) Hi He. assert (Hp : p < length R) by lia. destruct Hi as [Hpi Hi].
    set (S1 := swap_rows p i R). assert (HS : length S1 = length R) by apply swap_length.
    assert (HW1 : width n S1) by (apply swap_width; assumption).
    assert (Sp : forall c, ent S1 p c = ent R i c).
    { intros c. unfold S1. rewrite ent_swap by assumption. unfold swapi. rewrite Nat.eqb_refl. reflexivity. }
    assert (Sz : forall k c, p <= k < length R -> c < j -> ent S1 k c = false).
    { intros k c Hk Hc. unfold S1. rewrite ent_swap by lia. apply E7; [|assumption]. unfold swapi.
      destruct (Nat.eqb_spec k p); [lia|]. destruct (Nat.eqb_spec k i); lia. }
    assert (Slow : forall k c, k < p -> ent S1 k c = ent R k c).
    { intros k c Hk. unfold S1. rewrite ent_swap by lia. unfold swapi. destruct (Nat.eqb_spec k p); [lia|]. destruct (Nat.eqb_spec k i); [lia|reflexivity]. }
    assert (Hcol : forall k c, k < length R -> c < j -> ent (eliminate p j S1) k c = ent S1 k c).
    { intros k c Hk Hc. rewrite ent_elim by (rewrite ?HS; assumption). rewrite (Sz p c) by lia. rewrite xorb_false_r. destruct (_ && _); reflexivity. }
    assert (Hj : forall k, k < length R -> ent (eliminate p j S1) k j = (k =? p)).
    { intros k Hk. rewrite ent_elim by (rewrite ?HS; assumption). rewrite Sp, He. destruct (Nat.eqb_spec k p) as [->|]; simpl; [rewrite Sp, He; reflexivity|].
      destruct (ent S1 k j) eqn:E; reflexivity. }
    assert (Hl : length (eliminate p j S1) = length R) by (rewrite elim_length; assumption).
    assert (Hn : forall a, a < p -> nth a (cols ++ [j]) 0 = nth a cols 0) by (intros a Ha; apply app_nth1; lia).
    assert (Hnp : nth p (cols ++ [j]) 0 = j) by (rewrite app_nth2, E1, Nat.sub_diag by lia; reflexivity).
    repeat split.
    - rewrite app_length, E1. simpl. lia.
    - lia.
    - intros a b Hab. destruct (Nat.eq_dec b p) as [->|].
      + rewrite Hnp, Hn by lia. apply E4. lia.
      + rewrite !Hn by lia. apply E3. lia.
    - intros a Ha. destruct (Nat.eq_dec a p) as [->|]; [rewrite Hnp; lia|]. rewrite Hn by lia. specialize (E4 a ltac:(lia)). lia.
    - intros a k Ha Hk. rewrite Hl in Hk. destruct (Nat.eq_dec a p) as [->|]; [rewrite Hnp; apply Hj; assumption|].
      assert (Ha' : a < p) by lia. rewrite Hn by assumption. rewrite Hcol by auto.
      destruct (Nat.lt_ge_cases k p) as [Hkp|Hkp].
      + rewrite Slow by assumption. apply E5; lia.
      + rewrite Sz by (try lia; apply E4; assumption). symmetry. apply Nat.eqb_neq. lia.
    - intros a c Ha Hc. destruct (Nat.eq_dec a p) as [->|].
      + rewrite Hnp in Hc. rewrite Hcol by lia. apply Sz; lia.
      + assert (Ha' : a < p) by lia. rewrite Hn in Hc by assumption. specialize (E4 a Ha'). rewrite Hcol by lia. rewrite Slow by lia. apply E6; assumption.
    - intros k c Hk Hc. rewrite Hl in Hk. destruct (Nat.eq_dec c j) as [->|].
      + rewrite Hj by lia. apply Nat.eqb_neq. lia.
      + rewrite Hcol by lia. apply Sz; lia.
  Qed.
  Lemma echelon_full j m R p cols : echelon j R p cols -> p = length R -> j <= m -> echelon m R p cols.
  Proof.
    intros (E1 & E2 & E3 & E4 & E5 & E6 & E7) Hp Hm. repeat split; auto.
    - intros i Hi. specialize (E4 i Hi). lia.
    - intros k c Hk. lia.
  Qed.
  Lemma rref_loop_ok m : m <= n -> forall d j R p cols, j + d = m -> width n R -> echelon j R p cols ->
    exists R' p' cols', rref_loop n (seq j d) R p = Ok (R', p') /\ length R' = length R /\ width n R' /\
      (forall v, rowspace n R v <-> rowspace n R' v) /\ echelon m R' p' cols'.
  Proof.
    intros Hm. induction d as [|d IH]; intros j R p cols Hd HW HE; cbn [seq rref_loop].
    - exists R, p, cols. replace m with j by lia. split; [reflexivity|]. split; [reflexivity|]. split; [assumption|]. split; [tauto|assumption].
    - destruct (Nat.leb_spec n j); [lia|]. assert (Hp : p <= length R) by apply HE.
      pose proof (pivot_spec R p j Hp) as Hv. destruct (find_pivot p j (skipn p R)) as [i|].
      + destruct Hv as [Hi He]. pose proof (echelon_some j R p cols i HW HE Hi He) as HE'.
        set (R2 := eliminate p j (swap_rows p i R)) in *.
        assert (HL : length R2 = length R) by (unfold R2; rewrite elim_length; apply swap_length).
        assert (HW1 : width n (swap_rows p i R)) by (apply swap_width; [lia|lia|assumption]).
        assert (HW2 : width n R2) by (apply elim_width; [rewrite swap_length; lia|assumption]).
        assert (HR : forall v, rowspace n R v <-> rowspace n R2 v).
        { intros v. rewrite (swap_space p i R v) by (try lia; assumption). apply elim_space; [rewrite swap_length; lia|assumption]. }
        cbv zeta. destruct (Nat.eqb_spec (S p) (length R2)) as [Heq|Hne].
        * exists R2, (S p), (cols ++ [j]). split; [reflexivity|]. split; [assumption|]. split; [assumption|]. split; [assumption|].
          apply (echelon_full (S j)); [assumption|assumption|lia].
        * destruct (IH (S j) R2 (S p) (cols ++ [j]) ltac:(lia) HW2 HE') as (R' & p' & cols' & A1 & A2 & A3 & A4 & A5).
          exists R', p', cols'. split; [assumption|]. split; [lia|]. split; [assumption|]. split; [|assumption].
          intros v. rewrite HR. apply A4.
      + apply (IH (S j) R p cols); [lia|assumption|]. apply echelon_none; assumption.
  Qed.
  Lemma reduce_ok R mc : width n R -> (match mc with Some m => m | None => n end) <= n ->
    exists R' p cols, reduce_RREform_mod2 n R mc = Ok (R', p) /\ length R' = length R /\ width n R' /\
      (forall v, rowspace n R v <-> rowspace n R' v) /\ echelon (match mc with Some m => m | None => n end) R' p cols.
  Proof.
    intros HW Hm. unfold reduce_RREform_mod2. apply (rref_loop_ok _ Hm _ 0 R 0 []); [reflexivity|assumption|].
    repeat split; simpl; try lia.
  Qed.

  (* ---------------- counting ---------------- *)
  Fixpoint allb (k : nat) : list (list bool) := match k with 0 => [[]] | S k' => map (cons true) (allb k') ++ map (cons false) (allb k') end.
  Lemma in_allb k : forall cs, In cs (allb k) <-> length cs = k.
  Proof.
    induction k as [|k IH]; intros cs; simpl.
    - split; [intros [<-|[]]; reflexivity|]. destruct cs; [auto|discriminate].
    - rewrite in_app_iff, !in_map_iff. split.
      + intros [(x & <- & H)|(x & <- & H)]; simpl; f_equal; apply IH; assumption.
      + destruct cs as [|[] cs]; [discriminate| |]; intros H; injection H as H; [left|right]; exists cs; (split; [reflexivity|apply IH; assumption]).
  Qed.
  Lemma nodup_map_inj {A B} (f : A -> B) l : NoDup l -> (forall x y, In x l -> In y l -> f x = f y -> x = y) -> NoDup (map f l).
  Proof.
    induction l as [|x l IH]; intros Hd Hf; simpl; [constructor|]. inversion Hd as [|? ? Hx Hd']; subst. constructor.
    - intros Hi. apply in_map_iff in Hi. destruct Hi as (y & E & Hy). apply Hx. rewrite (Hf x y); [assumption|left; reflexivity|right; assumption|auto].
    - apply IH; [assumption|]. intros a b Ha Hb. apply Hf; right; assumption.
  Qed.
  Lemma nodup_map_inv {A B} (f : A -> B) l : NoDup (map f l) -> forall x y, In x l -> In y l -> f x = f y -> x = y.
  Proof.
    induction l as [|a l IH]; intros Hd x y Hx Hy E; [destruct Hx|]. simpl in Hd. inversion Hd as [|? ? Ha Hd']; subst.
    destruct Hx as [->|Hx], Hy as [->|Hy]; auto.
    - exfalso. apply Ha. rewrite E. apply in_map. assumption.
    - exfalso. apply Ha. rewrite <- E. apply in_map. assumption.
  Qed.
  Lemma nodup_allb k : NoDup (allb k).
  Proof.
    induction k as [|k IH]; simpl; [constructor; [intros []|constructor]|]. apply NoDup_app_intro.
    - apply nodup_map_inj; [assumption|]. intros x y _ _ E. congruence.
    - apply nodup_map_inj; [assumption|]. intros x y _ _ E. congruence.
    - intros x H1 H2. apply in_map_iff in H1. apply in_map_iff in H2. destruct H1 as (a & <- & _). destruct H2 as (b & E & _). discriminate.
  Qed.
  Lemma indep_inj L : width n L -> independent n L -> forall cs ds, length cs = length L -> length ds = length L -> lincomb n cs L = lincomb n ds L -> cs = ds.
  Proof.
    intros HW HI cs ds Hc Hd E. apply vxor_inj; [lia|]. rewrite Hc. apply HI; [rewrite vxor_length; lia|].
    rewrite lincomb_vxor, E, vxor_self, lincomb_length by assumption. reflexivity.
  Qed.
  Lemma indep_same_space L L' : width n L -> width n L' -> length L = length L' -> (forall v, rowspace n L v -> rowspace n L' v) ->
    independent n L -> independent n L'.
  Proof.
    intros HW HW' HL HS HI. set (k := length L) in *.
    assert (H1 : NoDup (map (fun cs => lincomb n cs L) (allb k))).
    { apply nodup_map_inj; [apply nodup_allb|]. intros x y Hx Hy. apply in_allb in Hx. apply in_allb in Hy. apply indep_inj; assumption. }
    assert (H2 : NoDup (map (fun cs => lincomb n cs L') (allb k))).
    { eapply NoDup_incl_NoDup; [exact H1|rewrite !map_length; lia|]. intros v Hv. apply in_map_iff in Hv. destruct Hv as (cs & <- & Hc). apply in_allb in Hc.
      destruct (HS (lincomb n cs L)) as (ds & Hd & E); [exists cs; auto|]. rewrite E. apply in_map_iff. exists ds. split; [reflexivity|]. apply in_allb. lia. }
    intros cs Hc E. apply (nodup_map_inv _ _ H2).
    - apply in_allb. lia.
    - apply in_allb. rewrite repeat_length. lia.
    - rewrite lincomb_false. assumption.
  Qed.
End Comb.
