(* PropsBinomial.v: C71, the distribution of the number of errors a simulation reports, in one process and in an MPI world. *)
From Coq Require Import String Reals Lra Lia.
From Verif Require Import Base Lattice RhgModel RhgSpec SurfaceModel SurfaceSpec SurfaceProofs StabGraphModel PropsSurface MwpmModel UfModel UfSpec UfInst PropsUfDist.
From Verif Require Import SimModel SimSpec SimProofs SimTrial PropsSim PropsSimUf CountDraws CvMacroGauge PropsCvMacro PropsIidRate.
Open Scope nat_scope.

Section Dist.
  Variables (M : nat) (p : R) (nodes : list point) (decode : (point -> bool) -> res ((point -> bool) * bool)).
  Notation n := (List.length nodes).
  Notation trial := (gen_trial (grid M) p nodes decode).
  Notation nb := (nbad M p nodes decode).

  Lemma nb_cons A0 T u v : List.length u = n -> nb A0 (S T) (u ++ v) = (if fails trial A0 u then 1 else 0) + nb A0 T v.
  Proof.
    intros Hu. unfold nbad. cbn [bad_blocks]. rewrite <- Hu at 1 2.
    rewrite firstn_app, Nat.sub_diag, firstn_all, firstn_O, app_nil_r, skipn_app, Nat.sub_diag, skipn_all, skipn_O. cbn [app]. unfold count_if. cbn [filter].
    destruct (fails trial A0 u); reflexivity.
  Qed.

  Lemma nb_dist A0 T : forall j, let F := count_if (fails trial A0) (all_draws M n) in
    count_if (fun ds => Nat.eqb (nb A0 T ds) j) (all_draws M (T * n)) = choose T j * F ^ j * (M ^ n - F) ^ (T - j).
  Proof.
    induction T as [|T IH]; intros j F; [destruct j; reflexivity|]. cbn [Nat.mul]. rewrite all_draws_add, count_flat.
    rewrite (nsum_ext _ (fun u => if fails trial A0 u then count_if (fun v => Nat.eqb (S (nb A0 T v)) j) (all_draws M (T * n)) else count_if (fun v => Nat.eqb (nb A0 T v) j) (all_draws M (T * n)))).
    - rewrite nsum_two, all_draws_len. fold F. rewrite (IH j). fold F. destruct j as [|j].
      + assert (Z0 : count_if (fun v => Nat.eqb (S (nb A0 T v)) 0) (all_draws M (T * n)) = 0) by (etransitivity; [|apply (CountDraws.count_false (all_draws M (T * n)))]; apply CountDraws.count_ext; intros; reflexivity).
        rewrite Z0.
        rewrite !Nat.sub_0_r. destruct T; cbn [choose Nat.pow]; lia.
      + rewrite (CountDraws.count_ext (fun v => Nat.eqb (S (nb A0 T v)) (S j)) (fun v => Nat.eqb (nb A0 T v) j)) by (intros; reflexivity).
        rewrite (IH j). fold F. cbn [choose Nat.sub]. destruct (Nat.le_gt_cases (S j) T) as [Hj|Hj].
        * replace (T - j) with (S (T - S j)) by lia. cbn [Nat.pow]. set (G := M ^ n - F). set (Q := G ^ (T - S j)). set (C1 := choose T j). set (C2 := choose T (S j)). set (P := F ^ j). clearbody G Q C1 C2 P. nia.
        * rewrite (choose_above T (S j)) by lia. cbn [Nat.pow]. nia.
    - intros u Hu. apply in_all_draws in Hu. destruct Hu as [Hu _]. rewrite count_map.
      rewrite (CountDraws.count_ext _ (fun v => Nat.eqb ((if fails trial A0 u then 1 else 0) + nb A0 T v) j)) by (intros v _; rewrite nb_cons by exact Hu; reflexivity).
      destruct (fails trial A0 u); reflexivity.
  Qed.

  Lemma nb_app A0 T1 T2 : forall u v, List.length u = T1 * n -> nb A0 (T1 + T2) (u ++ v) = nb A0 T1 u + nb A0 T2 v.
  Proof.
    induction T1 as [|T1 IH]; intros u v Hu; cbn [Nat.mul Nat.add] in *.
    - destruct u; [|discriminate]. reflexivity.
    - rewrite <- (firstn_skipn n u), <- app_assoc. assert (Hf : List.length (firstn n u) = n) by (apply firstn_length_le; lia).
      rewrite !nb_cons by exact Hf. rewrite IH by (rewrite skipn_length; lia). lia.
  Qed.
End Dist.

(* The number of errors in T trials has the binomial distribution of T independent trials with the failure rate of one
   trial: of the M^(T n) equally likely sequences of draws, exactly choose T j * F^j * (M^n - F)^(T - j) give j errors,
   where F of the M^n sequences for one trial let it fail. *)
Theorem C71_distribution : forall D e b pol c ch M p A A0 trial T, dims_ge2 D -> is_surface_code D e b pol c -> valid_choice (sc_stabs c) ch ->
  uniform_decoder (grid M) p c ch trial ->
  let n := List.length (node_list (sc_graph c)) in let F := count_if (fails trial A0) (all_draws M n) in
  exists errors : list nat -> nat,
    (forall ds, List.length ds = T * n -> exists st', mc_single trial (Z.of_nat T) 1 0 (A, ds) = (st', Ok (Z.of_nat (errors ds)))) /\
    forall j, count_if (fun ds => Nat.eqb (errors ds) j) (all_draws M (T * n)) = choose T j * F ^ j * (M ^ n - F) ^ (T - j).
Proof.
  intros D e b pol c ch M p A A0 trial T HD HC Hch Hdec n F.
  destruct (decoder_gen D e b pol c ch (grid M) p trial HD HC Hch Hdec) as (decode & -> & Htot & Hext & _).
  pose proof (code_nodes_NoDup D e b pol c HD HC) as ND.
  assert (Hsyn : incl (sc_syn c) (node_list (sc_graph c))) by (intros q; apply (syn_in_nodes D e b pol c HD HC)).
  exists (nbad M p (node_list (sc_graph c)) decode A0 T). split.
  - intros ds Hl. exact (errors_blocks M p _ (sc_syn c) decode ND Htot Hsyn Hext A0 T A ds Hl).
  - intros j. apply nb_dist.
Qed.
Print Assumptions C71_distribution.

(* ---------- MPI ---------- *)
(* the draws of the ranks: rank r needs n draws for each of its trials *)
Definition rank_draws (n : nat) (T : nat) (dss : list (list nat)) : Prop :=
  forall r ds, nth_error dss r = Some ds -> List.length ds = share (Z.of_nat T) (Z.of_nat (List.length dss)) (Z.of_nat r) * n.
Fixpoint nlist (l : list nat) : nat := match l with [] => 0 | x :: l' => x + nlist l' end.

(* The same in an MPI world of any size, if the draws of all ranks together are independent: the number of errors
   reported at the root is the same function of the draws of all ranks, put one after the other, and so has the same
   distribution. *)
Theorem C71_mpi_distribution : forall D e b pol c ch M p A0 trial T, dims_ge2 D -> is_surface_code D e b pol c -> valid_choice (sc_stabs c) ch ->
  uniform_decoder (grid M) p c ch trial ->
  let n := List.length (node_list (sc_graph c)) in let F := count_if (fails trial A0) (all_draws M n) in
  exists errors : list nat -> nat,
    (forall As dss, As <> [] -> List.length As = List.length dss -> rank_draws n T dss ->
       List.length (List.concat dss) = T * n /\ mc_mpi trial (Z.of_nat T) (combine As dss) 0 = Some (Ok (Z.of_nat (errors (List.concat dss))))) /\
    forall j, count_if (fun ds => Nat.eqb (errors ds) j) (all_draws M (T * n)) = choose T j * F ^ j * (M ^ n - F) ^ (T - j).
Proof.
  intros D e b pol c ch M p A0 trial T HD HC Hch Hdec n F.
  destruct (decoder_gen D e b pol c ch (grid M) p trial HD HC Hch Hdec) as (decode & -> & Htot & Hext & _).
  pose proof (code_nodes_NoDup D e b pol c HD HC) as ND.
  assert (Hsyn : incl (sc_syn c) (node_list (sc_graph c))) by (intros q; apply (syn_in_nodes D e b pol c HD HC)).
  set (nodes := node_list (sc_graph c)) in *. set (nb := nbad M p nodes decode).
  exists (nb A0 T). split; [|intros j; apply nb_dist].
  intros As dss Hne HL Hd. set (size := Z.of_nat (List.length dss)).
  assert (Hpos : (0 < size)%Z) by (unfold size; destruct As; [congruence|cbn [List.length] in HL; lia]).
  set (sh := fun r => share (Z.of_nat T) size (Z.of_nat r)).
  (* the shares add up *)
  assert (Hsum : nlist (map sh (seq 0 (List.length dss))) = T).
  { destruct (C43_each_trial_one_rank size Hpos) as [_ H]. specialize (H (Z.of_nat T) (Zle_0_nat T)). unfold size in H at 2. rewrite Nat2Z.id in H.
    assert (G : forall l, zsum (map (fun r => Z.of_nat (share (Z.of_nat T) size (Z.of_nat r))) l) = Z.of_nat (nlist (map sh l))).
    { induction l as [|x l IH]; [reflexivity|]. cbn [map]. rewrite zsum_cons, IH. cbn [nlist]. unfold sh at 2. lia. }
    rewrite G in H. lia. }
  (* blocks *)
  assert (Hcat : forall l k, (forall j ds, nth_error l j = Some ds -> List.length ds = sh (k + j) * n) ->
    List.length (List.concat l) = nlist (map sh (seq k (List.length l))) * n /\
    nb A0 (nlist (map sh (seq k (List.length l)))) (List.concat l) = nlist (map (fun rd => nb A0 (sh (fst rd)) (snd rd)) (combine (seq k (List.length l)) l))).
  { induction l as [|ds l IH]; intros k Hk; [split; reflexivity|]. cbn [List.length seq map nlist List.concat combine fst snd].
    assert (H0 : List.length ds = sh k * n) by (rewrite (Hk 0 ds eq_refl), Nat.add_0_r; reflexivity).
    destruct (IH (S k)) as [I1 I2]; [intros j d Hj; rewrite (Hk (S j) d Hj); do 2 f_equal; lia|].
    split; [rewrite app_length, I1, H0; lia|]. unfold nb in *. rewrite nb_app by exact H0. rewrite I2. reflexivity. }
  assert (Hn : forall j ds, nth_error dss j = Some ds -> List.length ds = sh (0 + j) * n) by (intros j ds Hj; exact (Hd j ds Hj)).
  destruct (Hcat dss 0 Hn) as [C1 C2]. rewrite Hsum in C1, C2. split; [exact C1|]. rewrite C2. clear C1 C2 Hcat.
  (* the outcomes of every rank *)
  assert (Lss : List.length (combine As dss) = List.length dss) by (rewrite combine_length; lia).
  assert (Hss : combine As dss <> []) by (intros E; rewrite E in Lss; cbn in Lss; unfold size in Hpos; lia).
  set (outs := fun r => bad_blocks M p nodes decode A0 (sh r) (nth r dss [])).
  assert (Hsn : forall r s, nth_error (combine As dss) r = Some s -> nth_error dss r = Some (snd s)).
  { clear. revert dss. induction As as [|a As IH]; intros [|d dss] [|r] s H; try discriminate H; cbn [combine nth_error] in *; [injection H as <-; reflexivity|]. apply IH. exact H. }
  destruct (list_choice tt ((fun _ _ => None) : node_attrs, @nil nat) (combine As dss) (fun r s _ st' => runs (gen_trial (grid M) p nodes decode) s (outs r) st')) as (_u & ends & He).
  { intros r [A ds] Hr. pose proof (Hsn r _ Hr) as Hds. cbn [snd] in Hds.
    destruct (runs_blocks M p nodes (sc_syn c) decode ND Htot Hsyn Hext A0 (sh r) A ds (Hn r ds Hds)) as (st' & H). exists tt, st'. unfold outs. rewrite (nth_error_nth dss r [] Hds). exact H. }
  destruct (C43_errors_at_root _ (gen_trial (grid M) p nodes decode) (Z.of_nat T) (combine As dss) outs ends (Zle_0_nat T) Hss) as [H _].
  { intros r s Hr. split; [exact (He r s Hr)|]. unfold outs. rewrite bad_len, Lss. reflexivity. }
  rewrite H. do 2 f_equal. rewrite Lss. fold size.
  (* the failures, rank by rank *)
  rewrite <- (sum_ranks _ size (Z.of_nat T) Hpos). replace (Z.to_nat size) with (List.length dss) by (unfold size; lia).
  assert (G : forall l k, (forall j ds, nth_error l j = Some ds -> nth_error dss (k + j) = Some ds) ->
    zsum (map (fun r => Z.of_nat (List.length (filter (fun i => negb (nth (Z.to_nat (i / size)) (outs (Z.to_nat (i mod size))) false)) (filter (fun i => (i mod size =? Z.of_nat r)%Z) (py_range 0 (Z.of_nat T)))))) (seq k (List.length l)))
    = Z.of_nat (nlist (map (fun rd => nb A0 (sh (fst rd)) (snd rd)) (combine (seq k (List.length l)) l)))).
  { induction l as [|ds l IH]; intros k Hk; [reflexivity|]. cbn [List.length seq map combine fst snd]. rewrite zsum_cons. cbn [nlist]. rewrite Nat2Z.inj_add. f_equal.
    - assert (Hkd : nth_error dss k = Some ds) by (rewrite <- (Nat.add_0_r k); apply Hk; reflexivity).
      assert (Hlt : k < List.length dss) by (apply nth_error_Some; congruence).
      unfold nb, nbad. unfold count_if. f_equal. replace (bad_blocks M p nodes decode A0 (sh k) ds) with (outs k) by (unfold outs; rewrite (nth_error_nth dss k [] Hkd); reflexivity).
      rewrite (outs_of_rank size (Z.of_nat k) (Z.of_nat T) (outs k) Hpos) at 1; [|unfold size; lia|lia|unfold outs; rewrite bad_len; reflexivity].
      rewrite filter_map_len. f_equal. apply filter_ext_in. intros i Hi. apply filter_In in Hi. destruct Hi as [_ Hi]. apply Z.eqb_eq in Hi. rewrite Hi, Nat2Z.id. reflexivity.
    - apply IH. intros j d Hj. replace (S k + j) with (k + S j) by lia. apply Hk. exact Hj. }
  apply (G dss 0). intros j ds Hj. exact Hj.
Qed.
Print Assumptions C71_mpi_distribution.

(* Three trials on two ranks: two blocks of draws for rank 0, one for rank 1; and if 2 of 10 sequences let a trial fail,
   512, 384, 96 and 8 of the 1000 sequences give 0, 1, 2 and 3 errors. *)
Example C71_distribution_nonvacuous : forall n, rank_draws n 3 [repeat 0 (2 * n); repeat 5 (1 * n)] /\
  map (fun j => choose 3 j * 2 ^ j * (10 - 2) ^ (3 - j)) [0; 1; 2; 3] = [512; 384; 96; 8].
Proof.
  intros n. split; [|vm_compute; reflexivity]. intros [|[|r]] ds H; cbn [nth_error] in H; [| |destruct r; discriminate].
  - injection H as <-. rewrite repeat_length. reflexivity.
  - injection H as <-. rewrite repeat_length. reflexivity.
Qed.
