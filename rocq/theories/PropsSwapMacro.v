(* PropsSwapMacro.v: C75 for CVMacroLayer: the states of the reduced lattice. *)
From Coq Require Import Reals Lra String Permutation.
From Verif Require Import Base Lattice RhgModel RhgSpec RhgProofs RhgDegree SurfaceModel SurfaceSpec SurfaceProofs SurfaceIncidence SurfaceTheorems PropsSurface
  GkpModel OpsModel EgraphModel EgraphSpec EgraphProofs EgraphInv PropsEgraph MacroModel MacroSpec MacroMain PropsMacro PropsGkp
  CvModel CvSpec CvProofs PropsCv CvSurface CvMacroModel CvMacroLists CvMacroSpec CvMacroProofs CvMacroTrial CvMacroReduce CvMacroMath CvMacroSurface CvMacroInit CvMacroCode CvMacroGauge PropsCvMacro PropsSwap.
Open Scope R_scope.

Definition all_in (k : nat) (l : list nat) : bool := forallb (fun i => memn i l) (seq (4 * k) 4).
Lemma prob_blocks : forall N p KB A, NoDup (A ++ flat_map (fun k => seq (4 * k) 4) KB) -> incl (A ++ flat_map (fun k => seq (4 * k) 4) KB) (seq 0 N) ->
  prob_indices N p (fun l => pattern A [] l && forallb (fun k => negb (all_in k l)) KB) = p ^ List.length A * (1 - p ^ 4) ^ List.length KB.
Proof.
  intros N p KB. induction KB as [|k KB IH]; intros A HN Hi.
  - cbn [flat_map] in *. rewrite app_nil_r in *. rewrite (prob_ext _ _ _ (pattern A [])) by (intros l _ _; cbn [forallb]; apply Bool.andb_true_r). rewrite prob_pattern by (rewrite app_nil_r; assumption). cbn [List.length pow]. lra.
  - cbn [flat_map] in HN, Hi. set (bl := seq (4 * k) 4) in *. set (rest := flat_map (fun k => seq (4 * k) 4) KB) in *.
    assert (HP : Permutation (bl ++ A ++ rest) (A ++ bl ++ rest)) by apply Permutation_app_swap_app.
    assert (H1 : NoDup (A ++ rest)). { apply (Permutation_NoDup (Permutation_sym HP)) in HN. apply NoDup_app_snd in HN. exact HN. }
    assert (H2 : incl (A ++ rest) (seq 0 N)) by (intros x Hx; apply Hi, (Permutation_in _ HP), in_or_app; right; exact Hx).
    assert (H3 : NoDup ((bl ++ A) ++ rest)) by (rewrite <- app_assoc; apply (Permutation_NoDup (Permutation_sym HP)); exact HN).
    assert (H4 : incl ((bl ++ A) ++ rest) (seq 0 N)) by (rewrite <- app_assoc; intros x Hx; apply Hi, (Permutation_in _ HP); exact Hx).
    pose proof (IH A H1 H2) as E1. pose proof (IH (bl ++ A) H3 H4) as E2. rewrite (prob_split N p _ (all_in k)) in E1.
    rewrite (prob_ext N p _ (fun l => pattern (bl ++ A) [] l && forallb (fun k => negb (all_in k l)) KB)) in E1.
    2:{ intros l _ _. unfold pattern, all_in. fold bl. rewrite forallb_app. cbn [forallb]. destruct (forallb (fun i => memn i l) A), (forallb (fun i => memn i l) bl); cbn [andb]; rewrite ?Bool.andb_true_r, ?Bool.andb_false_r; reflexivity. }
    rewrite E2 in E1. rewrite (prob_ext N p _ (fun l => pattern A [] l && forallb (fun k => negb (all_in k l)) KB && negb (all_in k l))).
    2:{ intros l _ _. cbn [forallb]. destruct (pattern A [] l), (all_in k l); cbn [andb negb]; rewrite ?Bool.andb_true_r, ?Bool.andb_false_r; reflexivity. }
    assert (HL : List.length (bl ++ A) = (4 + List.length A)%nat) by (rewrite app_length; reflexivity). rewrite HL, pow_add in E1. cbn [List.length]. rewrite <- (tech_pow_Rmult (1 - p ^ 4)). lra.
Qed.

(* With a swap-out probability p, in every trial each node of the reduced lattice is p-squeezed with probability p^4 (all four of
   its micronodes are), independently of the others, and a GKP state otherwise. *)
Theorem C75_macro : forall D e b pol c es perf states p a0 r0 delta trans expf, macro_input D e b pol c es perf states (Some p) -> 0 < p < 1 -> 0 <= delta ->
  exists w, macro_layer e b c es perf a0 r0 delta None states (Some p) trans = Ok w /\
    forall ds d A B, Forall (draws_ok (v_N (w_cv w))) ds -> draws_ok (v_N (w_cv w)) d -> NoDup (A ++ B) -> incl (A ++ B) (node_list (sc_graph c)) ->
    let reduced inds v s := match r_state (w_red (fst (trials_macro expf w (ds ++ [with_p d inds]))) v) with Some t => String.eqb t s | None => false end in
    prob_indices (v_N (w_cv w)) p (fun inds => forallb (fun v => reduced inds v "p"%string) A && forallb (fun v => reduced inds v "GKP"%string) B) =
    (p ^ 4) ^ List.length A * (1 - p ^ 4) ^ List.length B.
Proof.
  intros D e b pol c es perf states p a0 r0 delta trans expf HI H01 _.
  destruct (code_macro_trial D e b pol c es perf states (Some p) a0 r0 delta trans expf HI) as (m & w & Em & _ & _ & _ & Ew & _ & _ & _ & HF & _ & HN & HP & _ & Ht).
  exists w. split; [exact Ew|]. intros ds d A B Hds Hd HND Hinc reduced.
  assert (Hps : v_pswap (w_cv w) = Some p). { clear - Ew Em.
    unfold macro_layer, cvm_init in Ew. rewrite Em in Ew. cbn [bind] in Ew.
    destruct (cv_init (macro_egraph (unit_of 1 10) m) a0 (m_perf m) None delta states (Some p) (Some "two-step"%string) trans) as (g & r) eqn:Ec. cbn [snd] in Ew. destruct r as [cc|]; [|discriminate]. cbn [bind] in Ew. injection Ew as <-. cbn [w_cv].
    unfold cv_init in Ec. destruct (adj_generator _ _) as [g1 ra]. destruct ra as [rows|er]; cbn [bind] in Ec; [|discriminate]. destruct (match m_perf m with None => _ | Some ps => _ end) as [pinds|er]; cbn [bind] in Ec; [|discriminate].
    destruct states as [st|]; [|injection Ec as _ <-; reflexivity]. destruct (dget String.eqb st "p"%string) as [x|]; [|discriminate]. destruct (Nat.eqb _ 0); [|discriminate]. injection Ec as _ <-. reflexivity. }
  assert (Hlen : List.length (verts m) = List.length (node_list (sc_graph c))) by (apply Permutation_length; exact HP).
  assert (HR : forall inds k, NoDup inds -> (forall i, In i inds -> (i < v_N (w_cv w))%nat) -> (k < List.length (verts m))%nat ->
    reduced inds (nth k (verts m) (0, 0, 0)%Z) "p"%string = all_in k inds /\ reduced inds (nth k (verts m) (0, 0, 0)%Z) "GKP"%string = negb (all_in k inds)).
  { intros inds k H1 H2 Hk. destruct (Ht ds (with_p d inds)) as (w' & q & E & _ & _ & _ & _ & _ & K).
    { apply Forall_app. split; [exact Hds|]. constructor; [|constructor]. destruct Hd as (_ & _ & D3 & D4 & D5). unfold draws_ok. cbn. auto. }
    destruct (K k Hk) as [Er _]. assert (EP : trial_p (w_cv w) (with_p d inds) = inds). { unfold trial_p. rewrite Hps. destruct (Req_EM_T p 0); [lra|]. destruct (Req_EM_T p 1); [lra|]. reflexivity. }
    rewrite EP in Er. unfold reduced. rewrite E. cbn [fst]. rewrite Er.
    assert (Ea : memn (pi inds k 0) inds = all_in k inds).
    { destruct (star_spec inds k) as [S1 _]. apply Bool.eq_true_iff_eq. rewrite memn_iff, S1. unfold all_in. rewrite forallb_forall. split.
      - intros H i Hx. apply in_seq in Hx. apply memn_iff. replace i with (4 * k + (i - 4 * k))%nat by lia. apply H. lia.
      - intros H j Hj. apply memn_iff, H, in_seq. lia. }
    rewrite Ea. destruct (all_in k inds); split; reflexivity. }
  assert (HK : forall X, incl X (node_list (sc_graph c)) -> exists KX, map (fun k => nth k (verts m) (0, 0, 0)%Z) KX = X /\ forall k, In k KX -> (k < List.length (verts m))%nat).
  { induction X as [|v X IH]; intros HX; [exists []; split; [reflexivity|intros k []]|]. destruct IH as (KX & E1 & E2); [intros y Hy; apply HX; right; exact Hy|].
    assert (Hv : In v (verts m)) by (apply (Permutation_in _ (Permutation_sym HP)), HX; left; reflexivity). apply (@In_nth point _ _ (0, 0, 0)%Z) in Hv. destruct Hv as (k & Hk & Ek).
    exists (k :: KX). split; [cbn [map]; rewrite Ek, E1; reflexivity|]. intros j [<-|Hj]; [exact Hk|apply E2; exact Hj]. }
  destruct (HK A) as (KA & EA & HA); [intros x Hx; apply Hinc, in_or_app; left; exact Hx|]. destruct (HK B) as (KB & EB & HB); [intros x Hx; apply Hinc, in_or_app; right; exact Hx|].
  assert (HNK : NoDup (KA ++ KB)). { rewrite <- EA, <- EB, <- map_app in HND. apply NoDup_map_inv in HND. exact HND. }
  assert (LA : List.length A = List.length KA) by (rewrite <- EA; apply map_length). assert (LB : List.length B = List.length KB) by (rewrite <- EB; apply map_length).
  set (f := fun k => seq (4 * k) 4).
  assert (Hflat : forall X, List.length (flat_map f X) = (4 * List.length X)%nat) by (intros X; rewrite (length_flat_map _ _ f 4) by reflexivity; lia).
  rewrite (prob_ext _ _ _ (fun l => pattern (flat_map f KA) [] l && forallb (fun k => negb (all_in k l)) KB)).
  - rewrite prob_blocks.
    + rewrite Hflat, LA, LB, pow_mult. reflexivity.
    + fold f. rewrite <- flat_map_app. clear - HNK. induction (KA ++ KB) as [|k X IH]; [constructor|]. apply NoDup_cons_iff in HNK. destruct HNK as [Hk HX]. cbn [flat_map]. apply NoDup_app_intro; [apply seq_NoDup|apply IH; exact HX|].
      intros i H1 H2. apply in_flat_map in H2. destruct H2 as (j & Hj & H2). unfold f in *. apply in_seq in H1. apply in_seq in H2. assert (k = j) by lia. subst. contradiction.
    + fold f. rewrite <- flat_map_app. intros i H. apply in_flat_map in H. destruct H as (k & Hk & H). apply in_seq in H. apply in_seq. rewrite HN, <- Hlen. assert (k < List.length (verts m))%nat by (apply in_app_or in Hk; destruct Hk; auto). lia.
  - intros l H1 H2. unfold pattern. cbn [forallb]. rewrite Bool.andb_true_r. f_equal.
    + rewrite <- EA. assert (G : forall X, (forall k, In k X -> (k < List.length (verts m))%nat) -> forallb (fun v => reduced l v "p"%string) (map (fun k => nth k (verts m) (0, 0, 0)%Z) X) = forallb (fun i => memn i l) (flat_map f X)); [|apply G; exact HA].
      induction X as [|k X IH]; intros HX; [reflexivity|]. cbn [map forallb flat_map]. rewrite forallb_app, IH by (intros j Hj; apply HX; right; exact Hj). f_equal. apply (HR l k H1 H2). apply HX. left. reflexivity.
    + rewrite <- EB. assert (G : forall X, (forall k, In k X -> (k < List.length (verts m))%nat) -> forallb (fun v => reduced l v "GKP"%string) (map (fun k => nth k (verts m) (0, 0, 0)%Z) X) = forallb (fun k => negb (all_in k l)) X); [|apply G; exact HB].
      induction X as [|k X IH]; intros HX; [reflexivity|]. cbn [map forallb]. rewrite IH by (intros j Hj; apply HX; right; exact Hj). f_equal. apply (HR l k H1 H2). apply HX. left. reflexivity.
Qed.

(* the hypotheses are met by every code of at least two cells per axis *)
Example C75_macro_nonvacuous : forall D e b, dims_ge2 D -> macro_input D e b None (mk_code D e b None) (gedges (sc_graph (mk_code D e b None))) None None (Some (1 / 4)).
Proof.
  intros D e b HD. destruct (proj1 C52_witness D e b HD) as (H1 & H2 & H3 & _). split; [exact H1|]. split; [exact H2|]. split; [exact H3|]. split; [exact I|]. split; [lra|]. split; [left; reflexivity|discriminate].
Qed.
