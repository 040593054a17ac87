(* LinNull.v: the null space and the local Clifford search. *)
From Verif Require Import Base LinModel LinSpec LinProofs.
Open Scope nat_scope.

(* sums modulo 2 *)
Fixpoint bsum (n : nat) (f : nat -> bool) : bool := match n with 0 => false | S k => xorb (bsum k f) (f k) end.
Lemma bsum_front n : forall f, bsum (S n) f = xorb (f 0) (bsum n (fun i => f (S i))).
Proof.
  induction n as [|n IH]; intros f; [simpl; destruct (f 0); reflexivity|].
  change (bsum (S (S n)) f) with (xorb (bsum (S n) f) (f (S n))). rewrite IH. simpl. rewrite xorb_assoc. reflexivity.
Qed.
Lemma bsum_ext n f g : (forall i, i < n -> f i = g i) -> bsum n f = bsum n g.
Proof. induction n as [|n IH]; intros H; simpl; [reflexivity|]. rewrite IH by (intros; apply H; lia). rewrite H by lia. reflexivity. Qed.
Lemma bsum_zero n f : (forall i, i < n -> f i = false) -> bsum n f = false.
Proof. induction n as [|n IH]; intros H; simpl; [reflexivity|]. rewrite IH by (intros; apply H; lia). rewrite H by lia. reflexivity. Qed.
Lemma bsum_xor n f g : bsum n (fun i => xorb (f i) (g i)) = xorb (bsum n f) (bsum n g).
Proof. induction n as [|n IH]; simpl; [reflexivity|]. rewrite IH. destruct (bsum n f), (bsum n g), (f n), (g n); reflexivity. Qed.
Lemma bsum_and_l n c f : bsum n (fun i => c && f i) = c && bsum n f.
Proof. induction n as [|n IH]; simpl; [destruct c; reflexivity|]. rewrite IH. destruct c, (bsum n f), (f n); reflexivity. Qed.
Lemma bsum_and_r n c f : bsum n (fun i => f i && c) = bsum n f && c.
Proof. induction n as [|n IH]; simpl; [destruct c; reflexivity|]. rewrite IH. destruct c, (bsum n f), (f n); reflexivity. Qed.
Lemma bsum_swap m : forall n f, bsum n (fun i => bsum m (fun j => f i j)) = bsum m (fun j => bsum n (fun i => f i j)).
Proof.
  intros n. induction n as [|n IH]; intros f; simpl; [symmetry; apply bsum_zero; reflexivity|]. rewrite IH, bsum_xor. reflexivity.
Qed.
Lemma bsum_single n f k : k < n -> (forall i, i < n -> i <> k -> f i = false) -> bsum n f = f k.
Proof.
  induction n as [|n IH]; intros Hk H; [lia|]. simpl. destruct (Nat.eq_dec k n) as [->|].
  - rewrite bsum_zero by (intros; apply H; lia). apply xorb_false_l.
  - rewrite IH by (try lia; intros; apply H; lia). rewrite (H n) by lia. apply xorb_false_r.
Qed.
Lemma bsum_app m k f : bsum (m + k) f = xorb (bsum m f) (bsum k (fun i => f (m + i))).
Proof.
  induction k as [|k IH]; [rewrite Nat.add_0_r, xorb_false_r; reflexivity|]. rewrite Nat.add_succ_r. simpl. rewrite IH. apply xorb_assoc.
Qed.
Lemma dot_bsum n : forall r x, length r = n -> length x = n -> dot r x = bsum n (fun i => nth i r false && nth i x false).
Proof.
  induction n as [|n IH]; intros r x Hr Hx; [destruct r; [reflexivity|discriminate]|].
  destruct r as [|a r]; [discriminate|]. destruct x as [|b x]; [discriminate|]. rewrite bsum_front. cbn [nth]. rewrite <- IH by (simpl in *; lia). reflexivity.
Qed.
Lemma dot_comm r : forall x, dot r x = dot x r.
Proof. induction r as [|a r IH]; intros [|b x]; try reflexivity. unfold dot in *. simpl. rewrite IH, andb_comm. reflexivity. Qed.
Lemma lincomb_nth n L j : width n L -> forall cs, length cs = length L -> nth j (lincomb n cs L) false = bsum (length L) (fun i => nth i cs false && ent L i j).
Proof.
  induction L as [|r L IH]; intros HW cs Hc; [destruct cs; [apply zeros_nth|discriminate]|].
  apply width_cons in HW. destruct HW as [Hr HW]. destruct cs as [|c cs]; [discriminate|]. cbn [length]. rewrite bsum_front. cbn [nth].
  change (fun i => nth i cs false && ent (r :: L) (S i) j) with (fun i => nth i cs false && ent L i j). rewrite <- IH by (simpl in Hc; auto).
  change (ent (r :: L) 0 j) with (nth j r false). simpl. destruct c; simpl.
  - rewrite vxor_nth; [reflexivity|]. rewrite lincomb_length; assumption.
  - destruct (nth j (lincomb n cs L) false); reflexivity.
Qed.

Lemma seq_map_nth {A} (f : nat -> A) n i d : i < n -> nth i (map f (seq 0 n)) d = f i.
Proof. intros H. rewrite (nth_indep _ d (f 0)) by (rewrite map_length, seq_length; assumption). rewrite map_nth, seq_nth by assumption. reflexivity. Qed.
Lemma seq_map_length {A} (f : nat -> A) a n : length (map f (seq a n)) = n.
Proof. rewrite map_length, seq_length. reflexivity. Qed.
Lemma mulv_length M x : length (mulv M x) = length M.
Proof. apply map_length. Qed.
Lemma mulv_nth M x k : nth k (mulv M x) false = dot (nth k M []) x.
Proof. unfold mulv. exact (map_nth (fun r => dot r x) M [] k). Qed.
Lemma nullvec_mulv M x : nullvec M x <-> mulv M x = zeros (length M).
Proof.
  split.
  - intros H. apply row_ext; [rewrite mulv_length, zeros_length; reflexivity|]. intros j Hj. rewrite mulv_length in Hj.
    rewrite mulv_nth, zeros_nth. apply H, nth_In. assumption.
  - intros H r Hr. apply (In_nth _ _ []) in Hr. destruct Hr as (k & _ & <-). rewrite <- mulv_nth, H. apply zeros_nth.
Qed.

Lemma skip_exact {A} (u v : list A) k : length u = k -> skipn k (u ++ v) = v.
Proof. intros <-. rewrite skipn_app, skipn_all, Nat.sub_diag. reflexivity. Qed.

(* ---------------- the augmented matrix ---------------- *)
Section Null.
  Variable b : nat. Variable M : bmat.
  Hypothesis HM : width b M.
  Let a := length M.
  Let A : bmat := mapi (fun i r => r ++ unit_row b i) (transpose b M).
  Lemma tr_length : length (transpose b M) = b.
  Proof. apply seq_map_length. Qed.
  Lemma A_length : length A = b.
  Proof. unfold A. rewrite mapi_length. apply tr_length. Qed.
  Lemma A_nth i : i < b -> nth i A [] = map (fun r => nth i r false) M ++ unit_row b i.
  Proof.
    intros Hi. unfold A. etransitivity; [apply (mapi_nth _ (transpose b M) [] []); rewrite tr_length; assumption|].
    f_equal. exact (seq_map_nth _ b i [] Hi).
  Qed.
  Lemma A_width : width (a + b) A.
  Proof.
    intros r Hr. apply in_nth_ex in Hr. destruct Hr as (k & Hk & <-). rewrite A_length in Hk. rewrite A_nth by assumption.
    rewrite app_length, map_length. unfold unit_row. rewrite seq_map_length. reflexivity.
  Qed.
  Lemma A_ent_l i j : i < b -> j < a -> ent A i j = ent M j i.
  Proof.
    intros Hi Hj. unfold ent. rewrite A_nth by assumption. rewrite app_nth1 by (rewrite map_length; assumption).
    rewrite (nth_indep _ false ((fun r => nth i r false) [])) by (rewrite map_length; assumption).
    rewrite (map_nth (fun r => nth i r false)). reflexivity.
  Qed.
  Lemma A_ent_r i j : i < b -> j < b -> ent A i (a + j) = (j =? i).
  Proof.
    intros Hi Hj. unfold ent. rewrite A_nth by assumption. rewrite app_nth2 by (rewrite map_length; unfold a; lia). rewrite map_length.
    replace (a + j - length M) with j by (unfold a; lia). exact (seq_map_nth (fun j => j =? i) b j false Hj).
  Qed.
  Lemma A_comb x : length x = b -> lincomb (a + b) x A = mulv M x ++ x.
  Proof.
    intros Hx. pose proof A_width as HW. apply row_ext.
    - rewrite lincomb_length, app_length, mulv_length by assumption. unfold a. lia.
    - intros j Hj. rewrite lincomb_length in Hj by assumption. rewrite lincomb_nth by (rewrite ?A_length; assumption). rewrite A_length.
      destruct (Nat.lt_ge_cases j a) as [Hja|Hja].
      + rewrite app_nth1 by (rewrite mulv_length; assumption). rewrite mulv_nth, dot_comm, (dot_bsum b) by (try assumption; apply width_nth; assumption).
        apply bsum_ext. intros i Hi. rewrite A_ent_l by assumption. reflexivity.
      + rewrite app_nth2 by (rewrite mulv_length; assumption). rewrite mulv_length. fold a. set (j' := j - a). replace j with (a + j') by (unfold j'; lia).
        assert (Hj' : j' < b) by (unfold j'; lia). rewrite (bsum_single _ _ j' Hj').
        * rewrite A_ent_r, Nat.eqb_refl, andb_true_r by assumption. reflexivity.
        * intros i Hi Hne. rewrite A_ent_r by assumption. destruct (Nat.eqb_spec j' i); [congruence|]. apply andb_false_r.
  Qed.
  Lemma A_space v : rowspace (a + b) A v <-> exists x, length x = b /\ v = mulv M x ++ x.
  Proof.
    split; intros (x & Hx & ->); exists x.
    - rewrite A_length in Hx. split; [assumption|]. apply A_comb. assumption.
    - rewrite A_length. split; [assumption|]. symmetry. apply A_comb. assumption.
  Qed.
  Lemma app_zeros m k : zeros (m + k) = zeros m ++ zeros k.
  Proof. apply repeat_app. Qed.
  Lemma A_indep : independent (a + b) A.
  Proof.
    intros x Hx E. rewrite A_length in *. rewrite A_comb in E by assumption. rewrite app_zeros in E.
    apply (f_equal (skipn a)) in E. rewrite !skip_exact in E by (rewrite ?mulv_length, ?zeros_length; reflexivity). exact E.
  Qed.
  Lemma skip_comb (L : bmat) : width (a + b) L -> forall cs, length cs = length L -> skipn a (lincomb (a + b) cs L) = lincomb b cs (map (skipn a) L).
  Proof.
    intros HW cs Hc. assert (HW' : width b (map (skipn a) L)).
    { intros r Hr. apply in_map_iff in Hr. destruct Hr as (s & <- & Hs). rewrite skipn_length, (HW s Hs). lia. }
    apply row_ext; [rewrite skipn_length, !lincomb_length by assumption; lia|]. intros j _. rewrite nth_skipn.
    rewrite !lincomb_nth by (rewrite ?map_length; assumption). rewrite map_length. apply bsum_ext. intros i Hi. f_equal. unfold ent.
    rewrite (nth_indep (map (skipn a) L) [] (skipn a [])) by (rewrite map_length; assumption). rewrite (map_nth (skipn a)), nth_skipn. reflexivity.
  Qed.
  Lemma indep_skipn n p (L : bmat) : independent n L -> independent n (skipn p L).
  Proof.
    intros HI cs Hc E. rewrite skipn_length in Hc.
    assert (H0 : lincomb n (repeat false (Nat.min p (length L)) ++ cs) L = zeros n).
    { rewrite (lincomb_skip n L (Nat.min p (length L))).
      - rewrite skip_exact by apply repeat_length.
        destruct (Nat.le_ge_cases p (length L)); [rewrite Nat.min_l by assumption; assumption|]. rewrite Nat.min_r by assumption.
        rewrite skipn_all2 in E by assumption. rewrite skipn_all2 by lia. assumption.
      - rewrite app_length, repeat_length. lia.
      - intros i Hi. rewrite app_nth1 by (rewrite repeat_length; assumption). apply zeros_nth. }
    apply HI in H0; [|rewrite app_length, repeat_length; lia].
    replace (length L) with (Nat.min p (length L) + length (skipn p L)) in H0 at 2 by (rewrite skipn_length; lia).
    rewrite repeat_app in H0. apply app_inv_head in H0. assumption.
  Qed.
  Lemma mulv_add x y : length x = b -> length y = b -> mulv M (vxor x y) = vxor (mulv M x) (mulv M y).
  Proof.
    intros Hx Hy. apply row_ext; [rewrite vxor_length, !mulv_length by (rewrite !mulv_length; reflexivity); reflexivity|].
    intros j Hj. rewrite mulv_length in Hj. rewrite vxor_nth by (rewrite !mulv_length; reflexivity). rewrite !mulv_nth.
    pose proof (width_nth b M j HM Hj) as Hl. rewrite !(dot_bsum b) by (rewrite ?vxor_length; lia). rewrite <- bsum_xor. apply bsum_ext. intros i _.
    rewrite vxor_nth by lia. destruct (nth i (nth j M []) false), (nth i x false), (nth i y false); reflexivity.
  Qed.

  Lemma nullspace_ok : exists B, nullspace_basis b M = Ok B /\ width b B /\ independent b B /\ (forall x, length x = b -> (nullvec M x <-> rowspace b B x)).
  Proof.
    unfold nullspace_basis. fold A. fold a.
    destruct (reduce_ok (a + b) A (Some a) A_width ltac:(lia)) as (R & p & cols & -> & HL & HW & HS & HE). cbn [bind fst snd].
    set (N := map (skipn a) (skipn p R)).
    assert (HWs : width (a + b) (skipn p R)).
    { intros r Hr. apply HW. rewrite <- (firstn_skipn p R). apply in_or_app. right. assumption. }
    assert (HN : width b N).
    { intros r Hr. apply in_map_iff in Hr. destruct Hr as (s & <- & Hs). rewrite skipn_length, (HWs s Hs). lia. }
    assert (Hrow : forall k, p <= k < length R -> exists x, length x = b /\ nth k R [] = zeros a ++ x /\ nullvec M x).
    { intros k Hk. assert (Hr : rowspace (a + b) R (nth k R [])) by (apply rs_in; [assumption|apply nth_In; lia]).
      apply HS, A_space in Hr. destruct Hr as (x & Hx & Ex). exists x. split; [assumption|].
      assert (Hz : mulv M x = zeros a).
      { apply row_ext; [rewrite mulv_length, zeros_length; reflexivity|]. intros j Hj. rewrite mulv_length in Hj. rewrite zeros_nth.
        assert (He : ent R k j = false) by (apply HE; assumption). unfold ent in He. rewrite Ex, app_nth1 in He by (rewrite mulv_length; assumption). assumption. }
      rewrite Ex, Hz. split; [reflexivity|]. apply nullvec_mulv. assumption. }
    assert (HIs : independent (a + b) (skipn p R)).
    { apply indep_skipn. apply (indep_same_space _ A R A_width HW); [lia|apply HS|apply A_indep]. }
    assert (Hzero : forall cs, length cs = length (skipn p R) -> exists x, length x = b /\ lincomb (a + b) cs (skipn p R) = zeros a ++ x /\ mulv M x = zeros a).
    { intros cs Hc. assert (Hin : rowspace (a + b) R (lincomb (a + b) cs (skipn p R))).
      { apply (rs_sub _ (skipn p R)); [assumption| |exists cs; auto]. intros r Hr. apply rs_in; [assumption|]. rewrite <- (firstn_skipn p R). apply in_or_app. right. assumption. }
      apply HS, A_space in Hin. destruct Hin as (x & Hx & Ex). exists x. split; [assumption|].
      assert (Hz : mulv M x = zeros a).
      { apply row_ext; [rewrite mulv_length, zeros_length; reflexivity|]. intros j Hj. rewrite mulv_length in Hj. rewrite zeros_nth.
        transitivity (nth j (lincomb (a + b) cs (skipn p R)) false); [rewrite Ex, app_nth1 by (rewrite mulv_length; assumption); reflexivity|].
        rewrite lincomb_nth by assumption. apply bsum_zero. intros i Hi. rewrite skipn_length in Hi. unfold ent. rewrite nth_skipn.
        change (nth j (nth (p + i) R []) false) with (ent R (p + i) j). assert (He : ent R (p + i) j = false) by (apply HE; [lia|assumption]).
        rewrite He. apply andb_false_r. }
      rewrite Ex, Hz. auto. }
    assert (HNI : independent b N).
    { intros cs Hc E. unfold N in *. rewrite map_length in *. apply HIs; [assumption|]. destruct (Hzero cs Hc) as (x & Hx & Ex & _).
      rewrite <- skip_comb in E by assumption. rewrite Ex in *. rewrite skip_exact in E by apply zeros_length.
      rewrite E, app_zeros. reflexivity. }
    assert (HNS : forall x, length x = b -> (nullvec M x <-> rowspace b N x)).
    { intros x Hx. split.
      - intros Hn. apply nullvec_mulv in Hn. assert (Hv : rowspace (a + b) R (zeros a ++ x)).
        { apply HS, A_space. exists x. split; [assumption|]. rewrite Hn. reflexivity. }
        destruct Hv as (cs & Hc & Ev).
        assert (Hp : forall i, i < p -> nth i cs false = false).
        { intros i Hi. destruct HE as (E1 & E2 & _ & E4 & E5 & _). rewrite <- (lincomb_col (a + b) R (nth i cols 0) HW i cs Hc) by (try lia; intros; apply E5; assumption).
          rewrite <- Ev. rewrite app_nth1 by (rewrite zeros_length; apply E4; assumption). apply zeros_nth. }
        rewrite (lincomb_skip _ R p cs Hc Hp) in Ev. exists (skipn p cs). unfold N. rewrite map_length, !skipn_length. split; [lia|].
        rewrite <- skip_comb by (try assumption; rewrite !skipn_length; lia). rewrite <- Ev, skip_exact by apply zeros_length. reflexivity.
      - intros (cs & Hc & ->). unfold N in Hc. rewrite map_length in Hc. apply nullvec_mulv. unfold N. rewrite <- skip_comb by assumption.
        destruct (Hzero cs Hc) as (y & Hy & -> & Hz). rewrite skip_exact by apply zeros_length. assumption. }
    destruct (reduce_ok b N None HN ltac:(lia)) as (B & p' & cols' & -> & HL' & HW' & HS' & _). exists B. cbn [bind fst]. split; [reflexivity|].
    split; [assumption|]. split; [apply (indep_same_space b N B HN HW'); [lia|apply HS'|assumption]|].
    intros x Hx. rewrite (HNS x Hx). apply HS'.
  Qed.
End Null.
