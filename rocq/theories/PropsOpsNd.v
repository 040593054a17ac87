(* PropsOpsNd.v: C77, array arguments of the CZ functions, the splitter and the permutations. *)
From Coq Require Import Reals ZArith Lia Lra Permutation.
From Verif Require Import Base GkpModel PropsGkp OpsModel OpsNdModel PropsOps.
Open Scope R_scope.

(* ---------- specification ---------- *)
Definition shape (a : ndarray) : list nat := match a with D0 _ => [] | D1 x => [fst x] | D2 q => [rows q; cols q] | DMore => [0; 0; 0]%nat end.
(* equal entries inside the shape *)
Definition same (a b : ndarray) : Prop :=
  match a, b with
  | D1 x, D1 y => fst x = fst y /\ forall i, (i < fst x)%nat -> snd x i = snd y i
  | D2 p, D2 q => rows p = rows q /\ cols p = cols q /\ forall i j, (i < rows p)%nat -> (j < cols p)%nat -> ent p i j = ent q i j
  | _, _ => False
  end.
(* a vector of 2n quadratures or a 2n by 2n matrix *)
Definition fits (n : nat) (a : ndarray) : Prop := shape a = [(2 * n)%nat] /\ (exists x, a = D1 x) \/ shape a = [(2 * n)%nat; (2 * n)%nat].
(* S x, or S Q S^T, for the 2n by 2n matrix S = [[1, 0], [adj, 1]] *)
Definition cz_applied (n : nat) (adj : mat) (a : ndarray) : ndarray :=
  match a with
  | D1 x => D1 ((2 * n)%nat, mvec (2 * n) (SCZ_mat n adj) (snd x))
  | D2 q => D2 ((2 * n)%nat, (2 * n)%nat, mmul (2 * n) (mmul (2 * n) (SCZ_mat n adj) (ent q)) (tr (SCZ_mat n adj)))
  | _ => a
  end.

Lemma half n : (2 * n / 2 = n)%nat.
Proof. rewrite Nat.mul_comm. apply Nat.div_mul. lia. Qed.
Lemma bc_same n : bc n n = Some n.
Proof. unfold bc. rewrite Nat.eqb_refl. reflexivity. Qed.
Lemma at_lt n i : (i < n)%nat -> at_ n i = i.
Proof. unfold at_. destruct (Nat.eqb_spec n 1); lia. Qed.

Lemma scz_nd adj : if (cols adj =? rows adj)%nat then exists m, SCZ_mat_nd adj = Ok ((2 * rows adj)%nat, (2 * rows adj)%nat, m) /\
    forall i j, m i j = SCZ_mat (rows adj) (ent adj) i j
  else SCZ_mat_nd adj = Err ValueError.
Proof.
  destruct adj as [[r c] m]. unfold SCZ_mat_nd, np_block, np_hcat, np_vcat, rows, cols, ent. cbn [fst snd]. rewrite !Nat.eqb_refl. cbn [bind fst snd].
  destruct (Nat.eqb_spec c r) as [->|Hc].
  - rewrite Nat.eqb_refl. eexists. split; [apply f_equal; apply f_equal2; [f_equal; lia|reflexivity]|]. intros i j. cbn beta. unfold SCZ_mat, block. destruct (i <? r)%nat, (j <? r)%nat; reflexivity.
  - destruct (Nat.eqb_spec (r + r) (c + r)); [lia|]. reflexivity.
Qed.

Lemma mvec_ext n A B x y i : (forall j, (j < n)%nat -> A i j = B i j) -> (forall j, (j < n)%nat -> x j = y j) -> mvec n A x i = mvec n B y i.
Proof. intros H K. unfold mvec. apply Rsum_ext. intros k Hk. rewrite H, K by exact Hk. reflexivity. Qed.
Lemma mmul_ext n A B C D i j : (forall k, (k < n)%nat -> A i k = B i k) -> (forall k, (k < n)%nat -> C k j = D k j) -> mmul n A C i j = mmul n B D i j.
Proof. intros H K. unfold mmul. apply Rsum_ext. intros k Hk. rewrite H, K by exact Hk. reflexivity. Qed.

(* With one_shot=True (the default) exactly the arrays that fit are accepted: adj must be square, n by n, and quads a
   vector of length 2n or a 2n by 2n matrix.  The result has the shape of quads and is S x or S Q S^T.  Everything
   else is refused with ValueError; an array without axes gives IndexError, one with three or more UnboundLocalError. *)
Theorem C77_one_shot : forall adj quads int_dtype,
  (cols adj = rows adj /\ fits (rows adj) quads ->
     exists out, SCZ_apply_nd adj quads int_dtype true = Ok out /\ shape out = shape quads /\ same out (cz_applied (rows adj) (ent adj) quads)) /\
  (~ (cols adj = rows adj /\ fits (rows adj) quads) ->
     SCZ_apply_nd adj quads int_dtype true = Err (match quads with D0 _ => IndexError | DMore => UnboundLocalError | _ => ValueError end)).
Proof.
  intros adj quads dt. pose proof (scz_nd adj) as HS. split.
  - intros [Hsq Hf]. rewrite Hsq, Nat.eqb_refl in HS. destruct HS as (m & HS & Hm). set (n := rows adj) in *.
    destruct quads as [x|[l x]|[[r c] q]|]; destruct Hf as [[Hs [z Hz]]|Hs]; try discriminate Hs; try discriminate Hz; cbn [shape rows cols fst snd] in Hs.
    + injection Hs as ->. eexists. cbn [SCZ_apply_nd]. rewrite HS. cbn [bind]. unfold np_dot1, rows, cols, ent. cbn [fst snd]. rewrite Nat.eqb_refl. cbn [bind].
      split; [reflexivity|]. split; [reflexivity|]. split; [reflexivity|]. cbn [fst snd cz_applied]. intros i _. apply mvec_ext; [intros; apply Hm|reflexivity].
    + injection Hs as -> ->. eexists. cbn [SCZ_apply_nd]. rewrite HS. cbn [bind]. unfold np_dot2, np_T, rows, cols, ent. cbn [fst snd]. rewrite Nat.eqb_refl. cbn [bind fst snd]. rewrite Nat.eqb_refl. cbn [bind].
      split; [reflexivity|]. split; [reflexivity|]. split; [reflexivity|]. split; [reflexivity|]. unfold rows, cols, ent. cbn [fst snd]. intros i j _ _. unfold tr at 1. unfold mmul at 1 3.
      apply Rsum_ext. intros k _. unfold tr. rewrite Hm, Rmult_comm. f_equal. apply mmul_ext; [intros; apply Hm|reflexivity].
  - intros Hn. destruct quads as [x|[l x]|[[r c] q]|]; try reflexivity; cbn [SCZ_apply_nd].
    + destruct (Nat.eqb_spec (cols adj) (rows adj)) as [Hsq|Hsq]; [|rewrite HS; reflexivity]. destruct HS as (m & -> & Hm). cbn [bind]. unfold np_dot1, cols. cbn [fst snd].
      destruct (Nat.eqb_spec (2 * rows adj) l) as [<-|]; [|reflexivity]. exfalso. apply Hn. split; [exact Hsq|]. left. split; [reflexivity|]. eauto.
    + destruct (Nat.eqb_spec (cols adj) (rows adj)) as [Hsq|Hsq]; [|rewrite HS; reflexivity]. destruct HS as (m & -> & Hm). cbn [bind]. unfold np_dot2, np_T, rows, cols. cbn [fst snd].
      fold (rows adj) in *. destruct (Nat.eqb_spec (2 * rows adj) r) as [<-|]; [|reflexivity]. cbn [bind fst snd].
      destruct (Nat.eqb_spec (2 * rows adj) c) as [<-|]; [|reflexivity]. exfalso. apply Hn. split; [exact Hsq|]. right. reflexivity.
Qed.
Print Assumptions C77_one_shot.

(* ---------- integer arrays ---------- *)
Lemma trunc_int z : truncR (IZR z) = z.
Proof.
  unfold truncR. destruct (Rle_dec 0 (IZR z)); [apply Int_part_unique; lra|]. rewrite <- opp_IZR. rewrite (Int_part_unique (IZR (- z)) (- z)) by lra. lia.
Qed.
Definition integral (x : R) : Prop := exists z, x = IZR z.
Lemma store_int dt x : store dt x = x <-> (dt = true -> integral x).
Proof.
  unfold store. destruct dt; split.
  - intros E _. exists (truncR x). symmetry. exact E.
  - intros H. destruct (H eq_refl) as [z ->]. rewrite trunc_int. reflexivity.
  - intros _ H. discriminate.
  - reflexivity.
Qed.

(* ---------- block by block ---------- *)
(* two lengths that numpy can broadcast *)
Definition compatible (m n : nat) : Prop := m = n \/ m = 1%nat \/ n = 1%nat.
Lemma bc_iff m n : (exists k, bc m n = Some k) <-> compatible m n.
Proof.
  unfold bc, compatible. destruct (Nat.eqb_spec m n) as [->|]; [split; eauto|]. destruct (Nat.eqb_spec m 1); [split; eauto|]. destruct (Nat.eqb_spec n 1); [split; eauto|].
  split; [intros [k Hk]; discriminate|lia].
Qed.
Lemma bc_comm m n : bc m n = bc n m.
Proof. unfold bc. destruct (Nat.eqb_spec m n), (Nat.eqb_spec n m), (Nat.eqb_spec m 1), (Nat.eqb_spec n 1); subst; try reflexivity; try congruence; lia. Qed.
Lemma bc_idem m n k : bc m n = Some k -> bc m k = Some k /\ bc k m = Some k /\ bc k n = Some k /\ bc n k = Some k.
Proof.
  unfold bc. destruct (Nat.eqb_spec m n) as [->|].
  - intros [= <-]. rewrite Nat.eqb_refl. auto.
  - destruct (Nat.eqb_spec m 1) as [->|]; [intros [= <-]|destruct (Nat.eqb_spec n 1) as [->|]; [intros [= <-]|discriminate]]; rewrite !Nat.eqb_refl;
      repeat match goal with |- context[Nat.eqb ?a ?b] => destruct (Nat.eqb_spec a b) end; subst; try congruence; auto; lia.
Qed.

(* With one_shot=False arrays that fit give the same result, except that an integer vector is stored without the
   fractions: it agrees exactly when all its new momenta are integers. *)
Theorem C77_blockwise_values : forall adj quads int_dtype, cols adj = rows adj -> fits (rows adj) quads ->
  exists out, SCZ_apply_nd adj quads int_dtype false = Ok out /\ shape out = shape quads /\
    (same out (cz_applied (rows adj) (ent adj) quads) <->
     match quads with D1 x => int_dtype = true -> forall i, (i < rows adj)%nat -> integral (mvec (rows adj) (ent adj) (snd x) i + snd x (rows adj + i)%nat) | _ => True end).
Proof.
  intros [[r n] adj] quads dt Hsq Hf. unfold rows, cols, ent in *. cbn [fst snd] in *. subst r.
  destruct (C37_scz_apply_consistent n adj) as (K1 & K2 & _ & K4).
  destruct quads as [x|[l x]|[[r c] q]|]; destruct Hf as [[Hs [z Hz]]|Hs]; try discriminate Hs; try discriminate Hz; cbn [shape rows cols fst snd] in Hs.
  - assert (l = (2 * n)%nat) as -> by congruence. clear Hs. cbn [SCZ_apply_nd fst snd]. rewrite half. unfold head1, tail1, np_dot1, np_add1, rows, cols, ent. cbn [fst snd].
    rewrite Nat.min_l by lia. rewrite Nat.eqb_refl. cbn [bind fst snd]. replace (2 * n - n)%nat with n by lia. rewrite bc_same. cbn [bind fst snd]. rewrite Nat.eqb_refl. cbn [orb].
    eexists. split; [reflexivity|]. split; [reflexivity|]. cbn [same cz_applied fst snd].
    assert (V : forall i, (i < n)%nat -> mvec (2 * n) (SCZ_mat n adj) x i = x i).
    { intros i Hi. transitivity (SCZ_apply_vec n adj x true i); [reflexivity|]. rewrite K1 by lia. unfold SCZ_apply_vec. destruct (Nat.ltb_spec i n); [reflexivity|lia]. }
    assert (W : forall i, (i < n)%nat -> mvec (2 * n) (SCZ_mat n adj) x (n + i)%nat = mvec n adj x i + x (n + i)%nat).
    { intros i Hi. transitivity (SCZ_apply_vec n adj x true (n + i)%nat); [reflexivity|]. rewrite K1 by lia. unfold SCZ_apply_vec. destruct (Nat.ltb_spec (n + i) n); [lia|]. replace (n + i - n)%nat with i by lia. reflexivity. }
    split.
    + intros [_ H] Hdt i Hi. specialize (H (n + i)%nat ltac:(lia)). destruct (Nat.ltb_spec (n + i) n); [lia|]. replace (n + i - n)%nat with i in H by lia.
      rewrite W in H by exact Hi. rewrite !(at_lt n i) in H by exact Hi. apply (proj1 (store_int dt _) H Hdt).
    + intros H. split; [reflexivity|]. intros i Hi. destruct (Nat.ltb_spec i n) as [Hlt|Hge]; [symmetry; apply V, Hlt|].
      assert (E : mvec (2 * n) (SCZ_mat n adj) x i = mvec n adj x (i - n)%nat + x (n + (i - n))%nat) by (rewrite <- W by lia; f_equal; lia). rewrite E. rewrite !(at_lt n (i - n)%nat) by lia. apply store_int. intros Hdt. apply H; [exact Hdt|lia].
  - assert (r = (2 * n)%nat /\ c = (2 * n)%nat) as [-> ->] by (split; congruence). clear Hs. cbn [SCZ_apply_nd]. 
    unfold np_block, np_hcat, np_vcat, np_add2, np_dot2, np_T, corner, rows, cols, ent. cbn [fst snd bind]. rewrite !half. rewrite !Nat.min_l by lia. replace (2 * n - n)%nat with n by lia.
    repeat (rewrite ?Nat.eqb_refl, ?bc_same; cbn [bind fst snd]).
    eexists. split; [reflexivity|]. split; [cbn [shape]; unfold rows, cols; cbn [fst snd]; apply f_equal2; [lia|apply f_equal2; [lia|reflexivity]]|]. split; [auto|]. intros _. cbn [same cz_applied]. unfold rows, cols, ent. cbn [fst snd].
    split; [lia|]. split; [lia|]. intros i j Hi Hj. transitivity (SCZ_apply_mat n adj q true i j); [|apply K4]. rewrite K2 by lia.
    unfold SCZ_apply_mat, block, madd, tr. destruct (Nat.ltb_spec i n), (Nat.ltb_spec j n); 
      rewrite ?(at_lt n i), ?(at_lt n j), ?(at_lt n (i - n)%nat), ?(at_lt n (j - n)%nat) by lia; try reflexivity.
Qed.
Print Assumptions C77_blockwise_values.

(* the shapes that one_shot=False accepts *)
Theorem C77_blockwise_shapes : forall adj quads int_dtype,
  (exists out, SCZ_apply_nd adj quads int_dtype false = Ok out) <->
  match quads with
  | D1 x => cols adj = (fst x / 2)%nat /\ ((fst x = 2 * cols adj)%nat /\ (rows adj = cols adj \/ rows adj = 1%nat) \/ fst x = 1%nat /\ (rows adj <= 1)%nat)
  | D2 q => cols adj = (rows q / 2)%nat /\ (cols adj <= cols q)%nat /\ compatible (rows adj) (rows q - cols adj) /\ compatible (rows adj) (cols q - cols adj)
  | _ => False
  end.
Proof.
  intros [[r c] adj] quads dt. unfold rows, cols. cbn [fst snd]. destruct quads as [x|[l x]|[[R0 C0] q]|]; cbn [SCZ_apply_nd fst snd].
  - split; [intros [o H]; discriminate|tauto].
  - unfold np_dot1, np_add1, head1, tail1, rows, cols, ent. cbn [fst snd]. assert (Hm : Nat.min (l / 2) l = (l / 2)%nat) by (apply Nat.min_l, Nat.div_le_upper_bound; lia).
    rewrite Hm. assert (Hl : l = (2 * (l / 2))%nat \/ l = (2 * (l / 2) + 1)%nat) by (pose proof (Nat.div_mod l 2 ltac:(lia)); pose proof (Nat.mod_upper_bound l 2 ltac:(lia)); lia).
    set (N := (l / 2)%nat) in *. destruct (Nat.eqb_spec c N) as [->|Hc]; cbn [bind]; [|split; [intros [o H]; discriminate|intros [H _]; congruence]].
    cbn [fst snd]. unfold bc. clearbody N. destruct Hl as [->| ->]; [replace (2 * N - N)%nat with N by lia|replace (2 * N + 1 - N)%nat with (N + 1)%nat by lia];
      repeat match goal with |- context[Nat.eqb ?a ?b] => destruct (Nat.eqb_spec a b) end; cbn [bind fst snd orb];
      repeat match goal with |- context[Nat.eqb ?a ?b] => destruct (Nat.eqb_spec a b) end; cbn [bind fst snd orb]; subst;
      (split; [intros [o H]; try discriminate H; try lia|intros [_ H]; try (eexists; reflexivity); exfalso; lia]).
  - unfold np_block, np_hcat, np_vcat, np_add2, np_dot2, np_T, corner, rows, cols, ent. cbn [fst snd].
    assert (Hm : Nat.min (R0 / 2) R0 = (R0 / 2)%nat) by (apply Nat.min_l, Nat.div_le_upper_bound; lia). rewrite Hm.
    set (N := (R0 / 2)%nat) in *. destruct (Nat.eqb_spec c (Nat.min N C0)) as [Hc|Hc]; cbn [bind fst snd].
    2: { split; [intros [o H]; discriminate|]. intros (-> & H & _). exfalso. lia. }
    rewrite bc_same. destruct (bc r (C0 - N)) as [w|] eqn:Ew.
    2: { split; [intros [o H]; discriminate|]. intros (-> & _ & _ & H). apply bc_iff in H. destruct H as [k H]. congruence. }
    cbn [bind fst snd]. destruct (Nat.eqb_spec c N) as [->|Hc']; [|split; [intros [o H]; discriminate|]; intros (H & _); congruence].
    cbn [bind fst snd]. rewrite <- Hc. rewrite bc_same. destruct (bc r (R0 - N)) as [h|] eqn:Eh.
    2: { split; [intros [o H]; discriminate|]. intros (_ & _ & H & _). apply bc_iff in H. destruct H as [k H]. congruence. }
    cbn [bind fst snd]. rewrite (bc_comm (R0 - N) r), Eh, bc_same. cbn [bind fst snd]. rewrite Nat.eqb_refl. cbn [bind fst snd].
    destruct (bc_idem _ _ _ Ew) as (w1 & w2 & w3 & w4). destruct (bc_idem _ _ _ Eh) as (h1 & h2 & h3 & h4).
    rewrite h3. rewrite (bc_comm (C0 - N) r), Ew. cbn [bind fst snd]. repeat (rewrite Nat.eqb_refl; cbn [bind fst snd]). rewrite h2, w2. cbn [bind fst snd].
    repeat (rewrite !Nat.eqb_refl; cbn [bind fst snd]).
    split; [intros _|intros _; eexists; reflexivity]. split; [reflexivity|]. split; [lia|]. split; apply bc_iff; eauto.
  - split; [intros [o H]; discriminate|tauto].
Qed.
Print Assumptions C77_blockwise_shapes.

(* So the block-wise path does not check its arguments: for every n there is an n by n adjacency matrix and a rectangular
   2n by n+1 array that it turns into a 2n by 2n "covariance matrix", and an adjacency matrix with one row that it applies
   to n modes, while one_shot=True refuses both with ValueError. *)
Theorem C77_blockwise_refuted : forall n int_dtype, (2 <= n)%nat ->
  (exists adj quads out, rows adj = n /\ cols adj = n /\ shape quads = [2 * n; n + 1]%nat /\
     SCZ_apply_nd adj quads int_dtype true = Err ValueError /\ SCZ_apply_nd adj quads int_dtype false = Ok out) /\
  (exists adj quads out, rows adj = 1%nat /\ cols adj = n /\ shape quads = [2 * n]%nat /\
     SCZ_apply_nd adj quads int_dtype true = Err ValueError /\ SCZ_apply_nd adj quads int_dtype false = Ok out).
Proof.
  intros n dt Hn. split.
  - pose (adj := (n, n, mzero) : arr2). pose (quads := D2 ((2 * n)%nat, (n + 1)%nat, mzero)).
    destruct (proj2 (C77_blockwise_shapes adj quads dt)) as [out Ho].
    { cbn [adj quads rows cols fst snd]. unfold rows, cols, compatible. cbn [fst snd]. rewrite half. repeat split; lia. }
    exists adj, quads, out. split; [reflexivity|]. split; [reflexivity|]. split; [reflexivity|]. split; [|exact Ho].
    apply (proj2 (C77_one_shot adj quads dt)). intros [_ [[E _]|E]]; [discriminate E|]. unfold quads, adj, shape, rows, cols in E. cbn [fst snd] in E. injection E as E. lia.
  - pose (adj := (1%nat, n, mzero) : arr2). pose (quads := D1 ((2 * n)%nat, fun _ => 0)).
    destruct (proj2 (C77_blockwise_shapes adj quads dt)) as [out Ho].
    { unfold adj, quads, rows, cols. cbn [fst snd]. rewrite half. split; [reflexivity|]. left. lia. }
    exists adj, quads, out. split; [reflexivity|]. split; [reflexivity|]. split; [reflexivity|]. split; [|exact Ho].
    apply (proj2 (C77_one_shot adj quads dt)). intros [E _]. unfold adj, rows, cols in E. cbn [fst snd] in E. lia.
Qed.
Print Assumptions C77_blockwise_refuted.

(* two modes joined by an edge of weight w, the integer quadratures q = (1, 0), p = (0, 0) *)
Definition edge2 (w : R) : arr2 := (2%nat, 2%nat, fun i j => if (i =? j)%nat then 0 else w).
Definition ones2 : ndarray := D1 (4%nat, fun i => if (i =? 0)%nat then 1 else 0).
(* With an edge of weight 1/2 and integer quadratures the two ways differ: 1/2 is stored as 0. *)
Theorem C77_integer_vector_refuted : exists x y, SCZ_apply_nd (edge2 (1 / 2)) ones2 true true = Ok (D1 (4%nat, x)) /\
  SCZ_apply_nd (edge2 (1 / 2)) ones2 true false = Ok (D1 (4%nat, y)) /\ x 3%nat = 1 / 2 /\ y 3%nat = 0.
Proof.
  assert (T : truncR (1 / 2) = 0%Z).
  { unfold truncR. destruct (Rle_dec 0 (1 / 2)); [|lra]. apply Int_part_unique. lra. }
  eexists. eexists. split; [reflexivity|]. split; [reflexivity|]. split.
  - cbn. lra.
  - cbn -[truncR]. match goal with |- IZR (truncR ?e) = 0 => assert (E : e = 1 / 2) by (cbn; lra); rewrite E, T end. reflexivity.
Qed.
Print Assumptions C77_integer_vector_refuted.

(* splitter_symp(n) is a matrix on n modes (2n rows) exactly when n is a multiple of 4; otherwise it is smaller. *)
Theorem C77_splitter_size : forall n, (4 <= n)%nat -> exists k, splitter_rows n = Ok k /\ (k <= 2 * n)%nat /\ (2 * n < k + 8)%nat /\ (k = (2 * n)%nat <-> (n mod 4 = 0)%nat).
Proof.
  intros n Hn. unfold splitter_rows. destruct (Nat.eqb_spec n 4) as [->|H4].
  - exists 8%nat. split; [reflexivity|]. split; [lia|]. split; [lia|]. split; reflexivity.
  - destruct (Nat.ltb_spec 4 n); [|lia]. exists (8 * (n / 4))%nat. split; [reflexivity|].
    pose proof (Nat.div_mod n 4 ltac:(lia)). pose proof (Nat.mod_upper_bound n 4 ltac:(lia)). lia.
Qed.
Print Assumptions C77_splitter_size.

(* invert_permutation refuses indices outside [-n, n); an array whose entries are different modulo n is inverted, whatever
   np.empty contained: the entry at position p[i] (from the end if negative) is i. *)
Theorem C77_invert_indices : forall junk p, length junk = length p -> let n := Z.of_nat (length p) in
  (~ Forall (fun x => - n <= x < n)%Z p -> invert_permutation_nd junk p = Err IndexError) /\
  (Forall (fun x => - n <= x < n)%Z p -> NoDup (map (fun x => x mod n)%Z p) ->
     exists q, invert_permutation_nd junk p = Ok q /\ length q = length p /\
       forall i x, nth_error p i = Some x -> nth_error q (Z.to_nat (if x <? 0 then n + x else x)%Z) = Some i).
Proof.
  intros junk p HL n.
  assert (HF : forallb (fun x => (- n <=? x)%Z && (x <? n)%Z) p = true <-> Forall (fun x => - n <= x < n)%Z p).
  { rewrite forallb_forall, Forall_forall. split; intros H x Hx; specialize (H x Hx); [apply andb_prop in H; lia|apply andb_true_intro; lia]. }
  split; intros H.
  - unfold invert_permutation_nd. fold n. destruct (forallb _ p) eqn:E; [exfalso; apply H, HF; reflexivity|reflexivity].
  - intros ND. unfold invert_permutation_nd. fold n. rewrite (proj2 HF H).
    set (p' := map (fun x => Z.to_nat (x mod n)) p). exists (invert_permutation junk p'). split; [reflexivity|].
    assert (Lp : length p' = length p) by apply map_length.
    assert (Hpos : forall x, In x p -> (0 <= x mod n < n)%Z) by (intros x Hx; apply Z.mod_pos_bound; unfold n; destruct p; [destruct Hx|cbn [length]; lia]).
    assert (ND' : NoDup p').
    { unfold p'. rewrite <- (map_map (fun x => (x mod n)%Z) Z.to_nat). apply NoDup_map_inj; [|exact ND].
      intros a b Ha Hb. apply in_map_iff in Ha. apply in_map_iff in Hb. destruct Ha as (x & <- & Hx), Hb as (y & <- & Hy). pose proof (Hpos x Hx). pose proof (Hpos y Hy). lia. }
    assert (Hlt : forall x, In x p' -> (x < length junk)%nat).
    { intros x Hx. apply in_map_iff in Hx. destruct Hx as (y & <- & Hy). pose proof (Hpos y Hy). unfold n in *. lia. }
    destruct (inv_fold p' 0 junk ND' Hlt) as (H1 & H2 & _). change (fold_left _ _ _) with (invert_permutation junk p') in H1, H2. split; [lia|].
    intros i x Hx. assert (Hi : (i < length p)%nat) by (apply nth_error_Some; congruence).
    assert (Hin : In x p) by (apply (nth_error_In _ _ Hx)). rewrite Forall_forall in H. specialize (H x Hin).
    assert (E : Z.to_nat (if x <? 0 then n + x else x)%Z = nth i p' 0%nat).
    { rewrite (nth_error_nth p' i 0%nat (x := Z.to_nat (x mod n))) by (unfold p'; rewrite nth_error_map, Hx; reflexivity). f_equal.
      destruct (Z.ltb_spec x 0); [symmetry; rewrite <- (Z.mod_add x 1 n) by lia; rewrite Z.mod_small; lia|symmetry; apply Z.mod_small; lia]. }
    rewrite E. assert (Hn' : (nth i p' 0 < length junk)%nat) by (apply Hlt, nth_In; lia).
    rewrite (nth_error_nth' _ 0%nat) by lia. f_equal. apply H2. lia.
Qed.
Print Assumptions C77_invert_indices.

(* three modes in a triangle *)
Example C77_nonvacuous :
  let adj : arr2 := (3%nat, 3%nat, fun i j => if (i =? j)%nat then 0 else 1) in
  cols adj = rows adj /\ fits (rows adj) (D1 (6%nat, fun i => INR i)) /\ fits (rows adj) (D2 (6%nat, 6%nat, mid)) /\
  invert_permutation_nd [7; 7; 7; 7]%nat [-1; 1; -4; 2]%Z = Ok [2; 1; 3; 0]%nat.
Proof. cbn [rows cols fst snd]. split; [reflexivity|]. split; [left; split; [reflexivity|eauto]|]. split; [right; reflexivity|]. vm_compute. reflexivity. Qed.
