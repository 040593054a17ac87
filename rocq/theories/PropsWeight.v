(* PropsWeight.v: C23, weight assignment. *)
From Verif Require Import Base Lattice Paths RhgModel RhgSpec RhgProofs RhgDegree SurfaceModel SurfaceSpec SurfaceProofs SurfaceTheorems SurfaceGauge.
From Verif Require Import StabGraphModel Complex SurfaceComplex MwpmModel MwpmProofs MwpmInst MwpmSides PropsSurface PropsMwpm UfModel PropsUf GkpModel PropsGkp WeightModel.
Open Scope R_scope.

(* ------------------------------------------------------------------ *)
(* the loops *)
Definition same_inputs (a a' : attrs) : Prop := a_state a' = a_state a /\ a_hom a' = a_hom a /\ a_ppc a' = a_ppc a.
Definition blind (f : attrs -> point -> res R) : Prop := forall a a' q, same_inputs a a' -> f a' q = f a q.

Lemma node_loop_ok f coords : blind f -> forall a, (forall q, In q coords -> exists w, f a q = Ok w) ->
  exists a', node_loop f a coords = Ok a' /\ same_inputs a a' /\
    (forall q, In q coords -> exists w, f a q = Ok w /\ a_weight a' q = Some w) /\
    (forall q, ~ In q coords -> a_weight a' q = a_weight a q).
Proof.
  intros Hb. induction coords as [|x l IH]; intros a H; simpl.
  - exists a. split; [reflexivity|]. split; [repeat split|]. split; [intros q []|reflexivity].
  - destruct (H x (or_introl eq_refl)) as (w & Hw). unfold node_loop in *. simpl. rewrite Hw. simpl.
    assert (Hs : same_inputs a (put_weight a x w)) by (repeat split).
    destruct (IH (put_weight a x w)) as (a' & E & Hs' & H1 & H2).
    { intros q Hq. rewrite (Hb a _ q Hs). apply H. right. assumption. }
    exists a'. split; [exact E|]. split; [destruct Hs as (? & ? & ?), Hs' as (? & ? & ?); repeat split; congruence|]. split.
    + intros q Hq. destruct (in_dec point_eq_dec q l) as [Hl|Hl].
      * destruct (H1 q Hl) as (w' & Hw' & E'). exists w'. rewrite <- (Hb a _ q Hs). auto.
      * destruct Hq as [->|Hq]; [|contradiction]. exists w. split; [assumption|]. rewrite H2 by assumption. simpl. rewrite peqb_refl. reflexivity.
    + intros q Hq. rewrite H2 by tauto. simpl. destruct (peqb q x) eqn:Eq; [|reflexivity]. apply peqb_true in Eq. subst. tauto.
Qed.

Lemma node_loop_inv f coords : blind f -> forall a a', node_loop f a coords = Ok a' -> forall q, In q coords -> exists w, f a q = Ok w.
Proof.
  intros Hb. induction coords as [|x l IH]; intros a a' H q Hq; [destruct Hq|]. unfold node_loop in H. simpl in H.
  destruct (f a x) as [w|] eqn:Ew; [|discriminate]. simpl in H. destruct Hq as [<-|Hq]; [eauto|].
  destruct (IH _ _ H q Hq) as (w' & Hw'). exists w'. rewrite <- Hw'. symmetry. apply Hb. repeat split.
Qed.

Lemma blueprint_blind expf o g : blind (blueprint_node expf o g).
Proof. intros a a' q (E1 & E2 & E3). unfold blueprint_node. rewrite E1, E2, E3. reflexivity. Qed.
Lemma uf_blind g : blind (uf_node g).
Proof. intros a a' q (E1 & E2 & E3). unfold uf_node. rewrite E1. reflexivity. Qed.
Lemma one_blind : blind (fun _ _ => Ok 1).
Proof. intros a a' q _. reflexivity. Qed.

Definition edge_val (a : attrs) (e : sedge) : option R := match snd e with Some q => a_weight a q | None => Some 0 end.
Definition spair (e x : sedge) : bool := same_pair (fst (fst e)) (snd (fst e)) x.
Lemma spair_refl e : spair e e = true.
Proof. destruct e as [[u v] cv]. apply same_pair_iff. simpl. auto. Qed.

Lemma edges_loop nodes a E : forall wt,
  (forall e q, In e E -> snd e = Some q -> In q nodes) ->
  (forall e, In e E -> snd e = None -> is_conn (fst (fst e)) || is_conn (snd (fst e)) = true) ->
  (forall e e', In e E -> In e' E -> spair e e' = true -> e = e') ->
  exists wt', assign_edges nodes a E wt = Ok wt' /\ (forall e, In e E -> wt' e = edge_val a e) /\
    (forall x, (forall e, In e E -> spair e x = false) -> wt' x = wt x).
Proof.
  induction E as [|e E IH]; intros wt H1 H2 H3.
  - exists wt. split; [reflexivity|]. split; [intros e []|reflexivity].
  - unfold assign_edges. simpl.
    set (wt1 := fun x => if spair e x then edge_val a e else wt x).
    assert (Hstep : match snd e with
        | Some q => if pmem q nodes then Ok (fun x : sedge => if same_pair (fst (fst e)) (snd (fst e)) x then a_weight a q else wt x) else Err KeyError
        | None => if is_conn (fst (fst e)) || is_conn (snd (fst e))
                  then Ok (fun x : sedge => if same_pair (fst (fst e)) (snd (fst e)) x then Some 0 else wt x) else Ok wt
        end = Ok wt1).
    { unfold wt1, spair, edge_val. destruct (snd e) as [q|] eqn:Eq.
      - assert (Hq : pmem q nodes = true) by (apply pmem_In, (H1 e); [left; reflexivity|assumption]). rewrite Hq. reflexivity.
      - rewrite H2; [reflexivity|left; reflexivity|assumption]. }
    cbv zeta. rewrite Hstep. simpl. destruct (IH wt1) as (wt' & Ew & Ha & Hb).
    + intros; eapply H1; [right|]; eassumption.
    + intros; apply H2; [right|]; assumption.
    + intros; apply H3; [right|right|]; assumption.
    + exists wt'. split; [exact Ew|]. split.
      * intros x [<-|Hx]; [|apply Ha; assumption]. destruct (in_dec sedge_eq_dec e E) as [Hi|Hi]; [apply Ha; assumption|].
        rewrite Hb; [unfold wt1; rewrite spair_refl; reflexivity|]. intros e' He'. destruct (spair e' e) eqn:Es; [|reflexivity].
        apply H3 in Es; [subst; contradiction|right; assumption|left; reflexivity].
      * intros x Hx. rewrite Hb by (intros; apply Hx; right; assumption). unfold wt1. rewrite Hx by (left; reflexivity). reflexivity.
Qed.

(* ------------------------------------------------------------------ *)
(* Specification.  wts is what a user sees after the call: the weight attributes of the qubits
   and of the edges of the stabilizer graph. *)
Definition spec_edges (c : scode) (ch : nat -> nat -> point) (a : attrs) (wt : sedge -> option R) : Prop :=
  forall u v cv, In (u, v, cv) (sg_edges (sc_stabs c) (sc_bound c) ch) ->
    match cv with
    | Some q => In q (sc_syn c) /\ wt (u, v, cv) = a_weight a q
    | None => (u = NLow \/ u = NHigh) /\ wt (u, v, cv) = Some 0
    end.
(* nothing else is touched *)
Definition spec_frame (c : scode) (a a' : attrs) : Prop :=
  same_inputs a a' /\ forall q, ~ In q (sc_syn c) -> a_weight a' q = a_weight a q.
(* q has at least two p-squeezed neighbours *)
Definition two_p_neighbours (c : scode) (a : attrs) (q : point) : Prop :=
  exists u v, u <> v /\ edge_attr (sc_graph c) q u <> None /\ edge_attr (sc_graph c) q v <> None /\
    a_state a u = Some Lp /\ a_state a v = Some Lp.

Section Code.
  Variables (D : dims) (e : ecx) (b : bdk) (pol : option (point * point -> Z)) (c : scode) (ch : nat -> nat -> point).
  Hypothesis H2 : dims_ge2 D.
  Hypothesis HC : is_surface_code D e b pol c.
  Hypothesis Hch : valid_choice (sc_stabs c) ch.
  Notation E := (sg_edges (sc_stabs c) (sc_bound c) ch).
  Let CF : code_facts D e b pol c := surface_code_facts D e b pol c (ge2_ok D _ H2) HC.
  Let WF := surface_wf D e b pol c H2 HC.

  Lemma syn_node q : In q (sc_syn c) -> In q (node_list (sc_graph c)).
  Proof. intros H. apply (syn_graph D e b pol c H2 HC) in H. tauto. Qed.
  Lemma cv_syn u v q : In (u, v, Some q) E -> In q (sc_syn c).
  Proof.
    intros H. assert (Hc : In q (concat (sc_stabs c))) by (apply (cv_in (sc_stabs c) (sc_bound c) ch Hch u v); auto).
    apply in_concat in Hc. destruct Hc as (st & Hst & Hq). apply (stab_syn D e b pol c H2 HC st); assumption.
  Qed.
  Lemma none_conn u v : In (u, v, None) E -> u = NLow \/ u = NHigh.
  Proof.
    intros H. apply in_E in H. destruct H as [(i & j & _ & _ & _ & _ & H)|[(i & p & _ & _ & _ & _ & _ & H)|[_ (p & _ & H)]]]; [discriminate|discriminate|].
    tauto.
  Qed.
  Lemma code_edges a wt : exists wt', assign_edges (node_list (sc_graph c)) a E wt = Ok wt' /\ spec_edges c ch a wt'.
  Proof.
    destruct (edges_loop (node_list (sc_graph c)) a E wt) as (wt' & E1 & E2 & _).
    - intros [[u v] cv] q Hin Hq. simpl in Hq. subst. apply syn_node. eapply cv_syn; eassumption.
    - intros [[u v] cv] Hin Hq. simpl in Hq. subst. apply none_conn in Hin. simpl. destruct Hin as [-> | -> ]; reflexivity.
    - intros x y Hx Hy Hs. unfold spair in Hs. apply (edges_uniq (sc_stabs c) (sc_bound c) ch x y (fst (fst x)) (snd (fst x))); auto. apply spair_refl.
    - exists wt'. split; [exact E1|]. intros u v cv Hin. rewrite (E2 _ Hin). unfold edge_val. simpl. destruct cv as [q|].
      + split; [eapply cv_syn; eassumption|reflexivity].
      + split; [eapply none_conn; eassumption|reflexivity].
  Qed.

  Lemma code_loop dec o expf f coords a wt : blind f -> set_enum (sc_syn c) coords ->
    assign_nodes expf dec o (sc_graph c) coords a = node_loop f a coords ->
    (forall q, In q (sc_syn c) -> exists w, f a q = Ok w) ->
    exists a' wt', assign_weights expf c ch dec o coords a wt = Ok (a', wt') /\ spec_frame c a a' /\ spec_edges c ch a' wt' /\
      forall q, In q (sc_syn c) -> exists w, f a q = Ok w /\ a_weight a' q = Some w.
  Proof.
    intros Hb [_ Hen] Hn Hf. destruct (node_loop_ok f coords Hb a) as (a' & E1 & Hs & Hin & Hout).
    { intros q Hq. apply Hf, Hen, Hq. }
    destruct (code_edges a' wt) as (wt' & E2 & Hw). exists a', wt'. split.
    - unfold assign_weights. rewrite Hn, E1. simpl. rewrite E2. reflexivity.
    - split; [split; [assumption|intros q Hq; apply Hout; rewrite Hen; assumption]|]. split; [assumption|].
      intros q Hq. apply Hin, Hen, Hq.
  Qed.

  Lemma code_nbrs q : NoDup (nbrs (sc_graph c) q) /\ (forall u, In u (nbrs (sc_graph c) q) <-> edge_attr (sc_graph c) q u <> None) /\
    (In q (sc_syn c) -> (length (nbrs (sc_graph c) q) <= 4)%nat).
  Proof.
    destruct (cf_graph _ _ _ _ _ CF) as (vs & Hvs & HG). rewrite HG. split; [apply (G_nbrs_NoDup D (code_bnds e b) pol vs)|].
    split; [intros u; apply nbrs_iff|]. intros Hq. apply syn_node in Hq. rewrite HG in Hq.
    apply (degree_le_4 D (code_bnds e b) (ge2_ok D _ H2) H2 pol vs Hvs). assumption.
  Qed.
End Code.

Lemma two_of_filter {A} (f : A -> bool) l : NoDup l -> ((length (filter f l) <=? 1)%nat = false <-> exists u v, u <> v /\ In u l /\ In v l /\ f u = true /\ f v = true).
Proof.
  intros Hn. rewrite Nat.leb_gt. split.
  - intros H. pose proof (NoDup_filter f Hn) as Hf. destruct (filter f l) as [|u [|v m]] eqn:E; simpl in H; try lia.
    assert (Hu : In u (filter f l)) by (rewrite E; left; reflexivity). assert (Hv : In v (filter f l)) by (rewrite E; right; left; reflexivity).
    apply filter_In in Hu, Hv. exists u, v. inversion Hf; subst. simpl in H2. split; [intros ->; tauto|tauto].
  - intros (u & v & Hne & Hu & Hv & Fu & Fv). assert (Hl : (length [u; v] <= length (filter f l))%nat); [|simpl in Hl; lia].
    apply NoDup_incl_length; [repeat constructor; simpl; intuition congruence|].
    intros x [<-|[<-|[]]]; apply filter_In; auto.
Qed.

(* ------------------------------------------------------------------ *)
(* C23.  coords is the order in which the set of syndrome qubits is iterated; a and wt are the
   attributes before the call, including weights left over from earlier calls. *)
Theorem C23_uniform_mwpm :
  forall D e b pol c ch expf o coords a wt,
  dims_ge2 D -> is_surface_code D e b pol c -> valid_choice (sc_stabs c) ch -> set_enum (sc_syn c) coords -> o_method o = WUniform ->
  exists a' wt', assign_weights expf c ch DMWPM o coords a wt = Ok (a', wt') /\ spec_frame c a a' /\ spec_edges c ch a' wt' /\
    forall q, In q (sc_syn c) -> a_weight a' q = Some 1.
Proof.
  intros D e b pol c ch expf o coords a wt H2 HC Hch Hen Hm.
  destruct (code_loop D e b pol c ch H2 HC Hch DMWPM o expf (fun _ _ => Ok 1) coords a wt one_blind Hen) as (a' & wt' & H & Hf & He & Hw).
  - unfold assign_nodes. rewrite Hm. reflexivity.
  - intros; eexists; reflexivity.
  - exists a', wt'. split; [exact H|]. split; [exact Hf|]. split; [exact He|]. intros q Hq. destruct (Hw q Hq) as (w & [= <-] & E). assumption.
Qed.
Print Assumptions C23_uniform_mwpm.

Theorem C23_uniform_uf :
  forall D e b pol c ch expf o coords a wt,
  dims_ge2 D -> is_surface_code D e b pol c -> valid_choice (sc_stabs c) ch -> set_enum (sc_syn c) coords -> o_method o = WUniform ->
  exists a' wt', assign_weights expf c ch DUF o coords a wt = Ok (a', wt') /\ spec_frame c a a' /\ spec_edges c ch a' wt' /\
    forall q, In q (sc_syn c) -> (two_p_neighbours c a q -> a_weight a' q = Some (-1)) /\ (~ two_p_neighbours c a q -> a_weight a' q = Some 2).
Proof.
  intros D e b pol c ch expf o coords a wt H2 HC Hch Hen Hm.
  destruct (code_loop D e b pol c ch H2 HC Hch DUF o expf (uf_node (sc_graph c)) coords a wt (uf_blind _) Hen) as (a' & wt' & H & Hf & He & Hw).
  - unfold assign_nodes. rewrite Hm. reflexivity.
  - intros; eexists; reflexivity.
  - exists a', wt'. split; [exact H|]. split; [exact Hf|]. split; [exact He|]. intros q Hq. destruct (Hw q Hq) as (w & Ew & E). rewrite E.
    unfold uf_node in Ew. injection Ew as <-. destruct (code_nbrs D e b pol c H2 HC q) as (Hn & Hi & _).
    pose proof (two_of_filter (fun v => match a_state a v with Some s => is_p s | None => false end) _ Hn) as Ht.
    set (n := length (filter _ _)) in *.
    assert (H2p : two_p_neighbours c a q <-> (n <=? 1)%nat = false).
    { rewrite Ht. unfold two_p_neighbours. split; intros (u & v & Hne & Hu & Hv & Su & Sv); exists u, v; rewrite ?Hi in *.
      - rewrite Su, Sv. auto.
      - destruct (a_state a u) as [[]|], (a_state a v) as [[]|]; try discriminate; auto 6. }
    rewrite H2p. split; intros Hp; [rewrite Hp; reflexivity|]. apply not_false_iff_true in Hp. rewrite Hp. reflexivity.
Qed.
Print Assumptions C23_uniform_uf.

(* the error probability behind the blueprint weight of q *)
Definition blueprint_error (expf : R -> R) (c : scode) (a : attrs) (o : wopts) (q : point) (err : R) : Prop :=
  exists ps, NoDup ps /\ (forall u, In u ps <-> edge_attr (sc_graph c) q u <> None /\ a_state a u = Some Lp) /\
  match length ps with
  | 0%nat | 1%nat => exists p,
       (if o_pre o then a_ppc a q = Some p
        else exists delta h, o_delta o = Some delta /\ a_hom a q = Some h /\
             Z_err_cond expf (INR (length (nbrs (sc_graph c) q) + 1) * delta) h 10 (RVal 0) false = ZNum p) /\
       (p = 0 -> err = smallest_number) /\ (0 < p <= 1 / 2 -> err = p) /\ (1 / 2 < p -> err = 1 / 2)
  | 2%nat => err = 1 / 4
  | 3%nat => err = 1 / 3
  | 4%nat => err = 2 / 5
  | _ => False
  end.

Lemma smallest_bounds : 0 < smallest_number <= 1 / 2.
Proof.
  unfold smallest_number. split; [apply pow_lt; lra|]. change 1022%nat with (S 1021). rewrite <- tech_pow_Rmult.
  assert (H : forall n, (/ 2) ^ n <= 1).
  { induction n as [|n IH]; [simpl; lra|]. rewrite <- tech_pow_Rmult. assert (0 < (/ 2) ^ n) by (apply pow_lt; lra). lra. }
  specialize (H 1021%nat). lra.
Qed.
Lemma ln_half_bound x : 0 < x <= 1 / 2 -> / 2 < - ln x.
Proof.
  intros H. assert (Hx : ln x <= ln (1 / 2)).
  { destruct (Req_dec x (1 / 2)) as [->|Hn]; [lra|]. left. apply ln_increasing; lra. }
  assert (Hl : ln (1 / 2) < - / 2); [|lra].
  replace (1 / 2) with (/ 2) by lra. rewrite ln_Rinv by lra. assert (/ 2 < ln 2); [|lra]. apply ln_lt_2.
Qed.
Lemma round_even_near x : Rabs (x - IZR (round_even x)) <= / 2.
Proof.
  unfold round_even. pose proof (Int_part_spec x) as H. set (n := Int_part x) in *.
  destruct (Rlt_dec _ _) as [H1|H1]; [apply Rabs_le; lra|]. rewrite ?plus_IZR.
  destruct (Rlt_dec (/ 2) _) as [H3|H3].
  - rewrite plus_IZR. apply Rabs_le. lra.
  - destruct (Z.even n); rewrite ?plus_IZR; apply Rabs_le; lra.
Qed.

Lemma weight_of_pos o err : 0 < err <= 1 / 2 -> (o_integer o = true -> 1 <= o_mult o) -> 0 < weight_of o err.
Proof.
  intros He Hm. pose proof (ln_half_bound err He) as Hl. unfold weight_of. destruct (o_integer o); [|lra]. specialize (Hm eq_refl).
  assert (H : / 2 < - o_mult o * ln err).
  { replace (- o_mult o * ln err) with (o_mult o * - ln err) by ring. apply Rlt_le_trans with (1 * - ln err); [lra|].
    apply Rmult_le_compat_r; lra. }
  pose proof (round_even_near (- o_mult o * ln err)) as Hr. set (x := - o_mult o * ln err) in *. unfold Rabs in Hr. destruct (Rcase_abs _); lra.
Qed.

Lemma filter_len_le {A} (f : A -> bool) l : (length (filter f l) <= length l)%nat.
Proof. induction l as [|x l IH]; simpl; [lia|]. destruct (f x); simpl; lia. Qed.
Lemma mapM_states a l : (forall v, In v l -> a_state a v <> None) ->
  exists ss, mapM (fun v => match a_state a v with Some s => Ok s | None => Err KeyError end) l = Ok ss /\
    length (filter is_p ss) = length (filter (fun v => match a_state a v with Some s => is_p s | None => false end) l).
Proof.
  induction l as [|v l IH]; intros H; [exists []; auto|]. simpl. destruct (a_state a v) as [s|] eqn:E; [|destruct (H v); [left; reflexivity|assumption]].
  simpl. destruct IH as (ss & -> & Hl); [intros; apply H; right; assumption|]. exists (s :: ss). split; [reflexivity|].
  simpl. destruct (is_p s); simpl; congruence.
Qed.

Theorem C23_blueprint :
  forall D e b pol c ch expf o coords a wt,
  dims_ge2 D -> is_surface_code D e b pol c -> valid_choice (sc_stabs c) ch -> set_enum (sc_syn c) coords -> o_method o = WBlueprint ->
  exp_like expf ->
  (* every neighbour of a syndrome qubit has a state, and the syndrome qubits carry the data that the options ask for *)
  (forall q v, In q (sc_syn c) -> edge_attr (sc_graph c) q v <> None -> a_state a v <> None) ->
  (forall q, In q (sc_syn c) -> if o_pre o then exists p, a_ppc a q = Some p /\ 0 <= p <= 1 else a_hom a q <> None) ->
  (o_pre o = false -> exists delta, o_delta o = Some delta /\ 0 < delta) ->
  (o_integer o = true -> 1 <= o_mult o) ->
  exists a' wt', assign_weights expf c ch DMWPM o coords a wt = Ok (a', wt') /\ spec_frame c a a' /\ spec_edges c ch a' wt' /\
    forall q, In q (sc_syn c) -> exists err w, blueprint_error expf c a o q err /\ 0 < err <= 1 / 2 /\
      a_weight a' q = Some w /\ 0 < w /\
      (if o_integer o then exists n, w = IZR n /\ Rabs (- o_mult o * ln err - w) <= / 2 else w = - ln err).
Proof.
  intros D e b pol c ch expf o coords a wt H2 HC Hch Hen Hm Hexp Hst Hdat Hdel Hmul.
  assert (Hnode : forall q, In q (sc_syn c) -> exists err, blueprint_error expf c a o q err /\ 0 < err <= 1 / 2 /\
     blueprint_node expf o (sc_graph c) a q = Ok (weight_of o err)).
  { intros q Hq. destruct (code_nbrs D e b pol c H2 HC q) as (Hn & Hi & H4). specialize (H4 Hq).
    destruct (mapM_states a (nbrs (sc_graph c) q)) as (ss & Hss & Hlen); [intros v Hv; apply (Hst q v Hq), Hi, Hv|].
    set (isp := fun v => match a_state a v with Some s => is_p s | None => false end) in *.
    set (ps := filter isp (nbrs (sc_graph c) q)) in *.
    assert (Hps : NoDup ps /\ forall u, In u ps <-> edge_attr (sc_graph c) q u <> None /\ a_state a u = Some Lp).
    { split; [apply NoDup_filter; assumption|]. intros u. unfold ps. rewrite filter_In, Hi. unfold isp.
      destruct (a_state a u) as [[]|]; simpl; intuition congruence. }
    assert (Hl4 : (length ps <= 4)%nat) by (unfold ps; pose proof (filter_len_le isp (nbrs (sc_graph c) q)); lia).
    unfold blueprint_node. cbv zeta. rewrite Hss. cbn [bind]. rewrite Hlen. destruct Hps as [Hps1 Hps2].
    destruct (Nat.leb_spec (length ps) 1) as [Hle|Hgt].
    - assert (Hp : exists p, (if o_pre o then a_ppc a q = Some p
        else exists delta h, o_delta o = Some delta /\ a_hom a q = Some h /\
             Z_err_cond expf (INR (length (nbrs (sc_graph c) q) + 1) * delta) h 10 (RVal 0) false = ZNum p) /\ 0 <= p <= 1).
      { specialize (Hdat q Hq). destruct (o_pre o).
        - destruct Hdat as (p & Hp & Hb). eauto.
        - destruct (Hdel eq_refl) as (delta & Hd & Hdp). destruct (a_hom a q) as [h|]; [|congruence].
          destruct (C35_probability_partial expf (INR (length (nbrs (sc_graph c) q) + 1) * delta) h 10 0 Hexp) as (p & Hp & Hb); [|lra|].
          + apply Rmult_lt_0_compat; [apply lt_0_INR; lia|assumption].
          + exists p. split; [|assumption]. exists delta, h. auto. }
      destruct Hp as (p & Hp & Hb).
      set (err := if Req_EM_T (Rmin p 0.5) 0 then smallest_number else Rmin p 0.5).
      assert (Herr : (p = 0 -> err = smallest_number) /\ (0 < p <= 1 / 2 -> err = p) /\ (1 / 2 < p -> err = 1 / 2)).
      { unfold err. repeat split; intros Hc.
        - subst p. destruct (Req_EM_T _ 0) as [_|Hne]; [reflexivity|]. destruct Hne. rewrite Rmin_left; lra.
        - rewrite Rmin_left by lra. destruct (Req_EM_T p 0); lra.
        - rewrite Rmin_right by lra. destruct (Req_EM_T 0.5 0); lra. }
      exists err. split; [|split].
      + exists ps. split; [assumption|]. split; [assumption|]. destruct ps as [|? [|? ?]]; simpl in Hle; try lia; exists p; tauto.
      + pose proof smallest_bounds. destruct Herr as (E1 & E2 & E3).
        destruct (Req_dec p 0) as [->|Hne]; [rewrite E1 by reflexivity; assumption|].
        destruct (Rle_dec p (1 / 2)); [rewrite E2; lra|rewrite E3; lra].
      + destruct (o_pre o); [rewrite Hp; reflexivity|]. destruct Hp as (delta & h & -> & -> & ->). reflexivity.
    - assert (Hcase : length ps = 2%nat \/ length ps = 3%nat \/ length ps = 4%nat) by lia.
      destruct Hcase as [Hc|[Hc|Hc]]; rewrite Hc; eexists;
        (split; [exists ps; rewrite Hc; split; [assumption|split; [assumption|reflexivity]]|split; [lra|reflexivity]]). }
  destruct (code_loop D e b pol c ch H2 HC Hch DMWPM o expf (blueprint_node expf o (sc_graph c)) coords a wt (blueprint_blind _ _ _) Hen) as (a' & wt' & H & Hf & He & Hw).
  - unfold assign_nodes. rewrite Hm. reflexivity.
  - intros q Hq. destruct (Hnode q Hq) as (err & _ & _ & ->). eauto.
  - exists a', wt'. split; [exact H|]. split; [exact Hf|]. split; [exact He|]. intros q Hq.
    destruct (Hw q Hq) as (w & Ew & Ea). destruct (Hnode q Hq) as (err & Hbe & Hb & E'). rewrite E' in Ew. injection Ew as <-.
    exists err, (weight_of o err). split; [assumption|]. split; [assumption|]. split; [assumption|]. split; [apply weight_of_pos; assumption|].
    unfold weight_of. destruct (o_integer o); [|reflexivity]. eexists. split; [reflexivity|apply round_even_near].
Qed.
Print Assumptions C23_blueprint.

Theorem C23_blueprint_uf_refused :
  forall c ch expf o coords a wt, o_method o = WBlueprint -> assign_weights expf c ch DUF o coords a wt = Err PlainException.
Proof. intros c ch expf o coords a wt Hm. unfold assign_weights, assign_nodes. rewrite Hm. reflexivity. Qed.

(* the weights left over from earlier calls, and the order in which the set of qubits is
   iterated, have no influence: for the documented methods and decoders *)
Theorem C23_history_independent :
  forall D e b pol c ch expf dec o coords1 coords2 a1 wt1 a2 wt2 a1' wt1',
  dims_ge2 D -> is_surface_code D e b pol c -> valid_choice (sc_stabs c) ch ->
  set_enum (sc_syn c) coords1 -> set_enum (sc_syn c) coords2 ->
  (o_method o = WUniform \/ o_method o = WBlueprint) -> (dec = DMWPM \/ dec = DUF) -> same_inputs a1 a2 ->
  assign_weights expf c ch dec o coords1 a1 wt1 = Ok (a1', wt1') ->
  exists a2' wt2', assign_weights expf c ch dec o coords2 a2 wt2 = Ok (a2', wt2') /\
    (forall q, In q (sc_syn c) -> a_weight a2' q = a_weight a1' q) /\
    (forall ed, In ed (sg_edges (sc_stabs c) (sc_bound c) ch) -> wt2' ed = wt1' ed).
Proof.
  intros D e b pol c ch expf dec o coords1 coords2 a1 wt1 a2 wt2 a1' wt1' H2 HC Hch Hen1 Hen2 Hm Hd Hsame H1.
  assert (Hf : exists f, blind f /\ (forall coords a, assign_nodes expf dec o (sc_graph c) coords a = node_loop f a coords)).
  { unfold assign_nodes. destruct Hm as [Hm|Hm], Hd as [-> | -> ]; rewrite Hm in *.
    - exists (fun _ _ => Ok 1). split; [apply one_blind|reflexivity].
    - exists (uf_node (sc_graph c)). split; [apply uf_blind|reflexivity].
    - exists (blueprint_node expf o (sc_graph c)). split; [apply blueprint_blind|reflexivity].
    - exfalso. rewrite C23_blueprint_uf_refused in H1 by assumption. discriminate. }
  destruct Hf as (f & Hb & Hn).
  assert (Hok : forall q, In q (sc_syn c) -> exists w, f a1 q = Ok w).
  { intros q Hq. unfold assign_weights in H1. rewrite Hn in H1. destruct (node_loop f a1 coords1) as [a'|] eqn:El; [|discriminate].
    apply (node_loop_inv f coords1 Hb a1 a' El). apply Hen1. assumption. }
  destruct (code_loop D e b pol c ch H2 HC Hch dec o expf f coords1 a1 wt1 Hb Hen1 (Hn _ _) Hok) as (b1 & v1 & E1 & _ & He1 & Hw1).
  rewrite E1 in H1. injection H1 as <- <-.
  destruct (code_loop D e b pol c ch H2 HC Hch dec o expf f coords2 a2 wt2 Hb Hen2 (Hn _ _)) as (b2 & v2 & E2 & _ & He2 & Hw2).
  { intros q Hq. rewrite (Hb a1 a2 q Hsame). apply Hok. assumption. }
  exists b2, v2. split; [exact E2|].
  assert (Hq : forall q, In q (sc_syn c) -> a_weight b2 q = a_weight b1 q).
  { intros q Hq. destruct (Hw1 q Hq) as (w & F1 & ->), (Hw2 q Hq) as (w' & F2 & ->). rewrite (Hb a1 a2 q Hsame), F1 in F2. congruence. }
  split; [assumption|]. intros [[u v] cv] Hin. specialize (He1 u v cv Hin). specialize (He2 u v cv Hin). destruct cv as [q|].
  - destruct He1 as [Hs ->], He2 as [_ ->]. auto.
  - destruct He1 as [_ ->], He2 as [_ ->]. reflexivity.
Qed.
Print Assumptions C23_history_independent.

(* any other method name is accepted without an error and leaves the old weights in place *)
Theorem C23_unknown_method_refuted :
  forall D e b pol c ch expf dec o coords a wt, dims_ge2 D -> is_surface_code D e b pol c -> valid_choice (sc_stabs c) ch ->
  o_method o = WOther -> exists wt', assign_weights expf c ch dec o coords a wt = Ok (a, wt').
Proof.
  intros D e b pol c ch expf dec o coords a wt H2 HC Hch Hm. destruct (code_edges D e b pol c ch H2 HC Hch a wt) as (wt' & E & _).
  exists wt'. unfold assign_weights, assign_nodes. rewrite Hm. simpl. rewrite E. reflexivity.
Qed.

(* ------------------------------------------------------------------ *)
(* The whole of correct(): weight assignment followed by decoding.  The decoders read the edge
   weights of the stabilizer graph; edge_weights_are says that these are the ones of the models
   correct_mwpm and correct_uf. *)
Definition edge_weights_are (E : list sedge) (wt : sedge -> option R) (w : point -> Z) : Prop :=
  forall ed, In ed E -> wt ed = Some (IZR (sedge_weight w ed)).
Definition edge_erasures_are (E : list sedge) (wt : sedge -> option R) (er : point -> bool) : Prop :=
  forall ed, In ed (RE E) -> (erased er ed = true <-> wt ed = Some (-1)).

Theorem C23_correct_mwpm :
  forall D e b pol c ch expf wo coords a wt rp o pick bit sanity,
  dims_ge2 D -> is_surface_code D e b pol c -> valid_choice (sc_stabs c) ch -> set_enum (sc_syn c) coords -> o_method wo = WUniform ->
  let E := sg_edges (sc_stabs c) (sc_bound c) ch in
  (rp = nx_report \/ rp = rx_report 1) -> oracle_ok E (fun _ => 1%Z) o -> (forall mg, best_matching mg (pick mg)) ->
  exists a' wt' bit' r, assign_weights expf c ch DMWPM wo coords a wt = Ok (a', wt') /\ edge_weights_are E wt' (fun _ => 1%Z) /\
    correct_mwpm rp c ch (fun _ => 1%Z) o pick bit sanity = Ok (bit', r) /\
    (forall st, In st (sc_stabs c) -> stab_parity bit' st = false) /\
    ((forall ax, In ax (logical_axes e b) -> (2 * Z.of_nat (length (filter bit (sc_syn c))) < get ax D)%Z) -> r = true).
Proof.
  intros D e b pol c ch expf wo coords a wt rp o pick bit sanity H2 HC Hch Hen Hm E Hrp Ho Hp.
  destruct (C23_uniform_mwpm D e b pol c ch expf wo coords a wt H2 HC Hch Hen Hm) as (a' & wt' & Ha & _ & He & Hw).
  destruct (C14_mwpm_clears_syndrome D e b pol c ch rp (fun _ => 1%Z) o pick bit sanity H2 HC Hch Ho Hp) as (qs & bit' & r & _ & _ & _ & _ & Hc & Hs).
  exists a', wt', bit', r. split; [exact Ha|]. split.
  { intros [[u v] cv] Hin. specialize (He u v cv Hin). destruct cv as [q|]; simpl.
    - destruct He as [Hq ->]. apply Hw. assumption.
    - apply He. }
  split; [exact Hc|]. split; [exact Hs|]. intros Hsm.
  destruct (C15_mwpm_corrects_small_errors D e b pol c ch rp o pick bit sanity H2 HC Hch Hrp Ho Hp Hsm) as (bit1 & Hc1). fold E in Hc1.
  rewrite Hc in Hc1. congruence.
Qed.
Print Assumptions C23_correct_mwpm.

Theorem C23_correct_uf :
  forall D e b pol c ch expf wo coords a wt lib sch fuel bit sanity,
  dims_ge2 D -> is_surface_code D e b pol c -> valid_choice (sc_stabs c) ch -> set_enum (sc_syn c) coords -> o_method wo = WUniform ->
  let E := sg_edges (sc_stabs c) (sc_bound c) ch in
  UfSpec.lib_ok E lib -> sched_ok sch -> (2 * length E + 2 <= fuel)%nat ->
  exists a' wt' er bit' r, assign_weights expf c ch DUF wo coords a wt = Ok (a', wt') /\ edge_erasures_are E wt' er /\
    correct_uf c ch er lib sch fuel bit sanity = Ok (bit', r) /\
    (forall st, In st (sc_stabs c) -> stab_parity bit' st = false).
Proof.
  intros D e b pol c ch expf wo coords a wt lib sch fuel bit sanity H2 HC Hch Hen Hm E Hlib Hsch Hf.
  destruct (C23_uniform_uf D e b pol c ch expf wo coords a wt H2 HC Hch Hen Hm) as (a' & wt' & Ha & _ & He & Hw).
  set (er := fun q => match a_weight a' q with Some x => if Req_EM_T x (-1) then true else false | None => false end).
  destruct (C22_uf_clears_syndrome D e b pol c ch er lib sch fuel bit sanity H2 HC Hch Hlib Hsch Hf) as (qs & bit' & r & _ & _ & _ & _ & Hc & _ & Hs).
  exists a', wt', er, bit', r. split; [exact Ha|]. split; [|split; assumption].
  intros [[u v] cv] Hin. unfold RE in Hin. apply filter_In in Hin. destruct Hin as [Hin Hr]. specialize (He u v cv Hin). destruct cv as [q|].
  - destruct He as [Hq ->]. unfold erased, er. cbn [snd]. destruct (a_weight a' q) as [x|]; [|split; discriminate].
    destruct (Req_EM_T x (-1)) as [->|Hn]; split; intros; try congruence.
  - destruct He as [[-> | -> ] _]; discriminate.
Qed.
Print Assumptions C23_correct_uf.

(* blueprint weights rounded to integers: the decoder is run with positive integer weights, so
   C14 and C49 apply to it *)
Theorem C23_correct_blueprint_integer :
  forall D e b pol c ch expf wo coords a wt,
  dims_ge2 D -> is_surface_code D e b pol c -> valid_choice (sc_stabs c) ch -> set_enum (sc_syn c) coords -> o_method wo = WBlueprint ->
  o_integer wo = true -> 1 <= o_mult wo -> exp_like expf ->
  (forall q v, In q (sc_syn c) -> edge_attr (sc_graph c) q v <> None -> a_state a v <> None) ->
  (forall q, In q (sc_syn c) -> if o_pre wo then exists p, a_ppc a q = Some p /\ 0 <= p <= 1 else a_hom a q <> None) ->
  (o_pre wo = false -> exists delta, o_delta wo = Some delta /\ 0 < delta) ->
  let E := sg_edges (sc_stabs c) (sc_bound c) ch in
  exists a' wt' w, assign_weights expf c ch DMWPM wo coords a wt = Ok (a', wt') /\ edge_weights_are E wt' w /\ (forall q, 0 < w q)%Z /\
    forall rp o pick bit sanity, (rp = nx_report \/ rp = rx_report 1) -> oracle_ok E w o -> (forall mg, best_matching mg (pick mg)) ->
    exact 1 rp w /\
    exists bit' r, correct_mwpm rp c ch w o pick bit sanity = Ok (bit', r) /\ forall st, In st (sc_stabs c) -> stab_parity bit' st = false.
Proof.
  intros D e b pol c ch expf wo coords a wt H2 HC Hch Hen Hm Hint Hmul Hexp Hst Hdat Hdel E.
  destruct (C23_blueprint D e b pol c ch expf wo coords a wt H2 HC Hch Hen Hm Hexp Hst Hdat Hdel (fun _ => Hmul)) as (a' & wt' & Ha & _ & He & Hw).
  rewrite Hint in Hw.
  set (w := fun q => if pmem q (sc_syn c) then match a_weight a' q with Some x => Int_part x | None => 1%Z end else 1%Z).
  assert (Hwq : forall q, In q (sc_syn c) -> a_weight a' q = Some (IZR (w q)) /\ (0 < w q)%Z).
  { intros q Hq. destruct (Hw q Hq) as (err & x & _ & _ & Hx & Hpos & n & -> & _). unfold w.
    rewrite (proj2 (pmem_In q _) Hq), Hx. rewrite (Int_part_unique (IZR n) n) by lra. split; [reflexivity|]. apply lt_IZR. assumption. }
  exists a', wt', w. split; [exact Ha|]. split; [|split].
  - intros [[u v] cv] Hin. specialize (He u v cv Hin). destruct cv as [q|]; simpl; [|apply He].
    destruct He as [Hq ->]. apply Hwq. assumption.
  - intros q. destruct (in_dec point_eq_dec q (sc_syn c)) as [Hq|Hq]; [apply Hwq; assumption|].
    unfold w. rewrite (proj2 (pmem_false q _) Hq). lia.
  - intros rp o pick bit sanity Hrp Ho Hp. split.
    + destruct Hrp as [-> | -> ]; [apply nx_exact|apply rx_exact; [lia|]]. intros q. exists (w q). lia.
    + destruct (C14_mwpm_clears_syndrome D e b pol c ch rp w o pick bit sanity H2 HC Hch Ho Hp) as (qs & bit' & r & _ & _ & _ & _ & Hc & Hs).
      eauto.
Qed.
Print Assumptions C23_correct_blueprint_integer.

(* hypotheses of the blueprint theorem: a code of size 2 with GKP states everywhere *)
Example C23_nonvacuous :
  let c := mk_code (2, 2, 2)%Z EcPrimal BdOpen None in
  let a := {| a_state := fun _ => Some LGKP; a_hom := fun _ => Some (1 / 10); a_ppc := fun _ => None; a_weight := fun _ => Some 7 |} in
  let o := {| o_method := WBlueprint; o_integer := true; o_mult := 1; o_delta := Some (1 / 10); o_pre := false |} in
  exists ch a' wt', valid_choice (sc_stabs c) ch /\ assign_weights exp c ch DMWPM o (sc_syn c) a (fun _ => None) = Ok (a', wt') /\
    forall q, In q (sc_syn c) -> exists w, a_weight a' q = Some w /\ 0 < w.
Proof.
  intros c a o. assert (HD : dims_ge2 (2, 2, 2)%Z) by (intros []; simpl; lia).
  pose proof (mk_code_ok (2, 2, 2)%Z EcPrimal BdOpen None) as HC. fold c in HC. clearbody c.
  set (ch := fun i j => hd (0, 0, 0)%Z (shared (sc_stabs c) i j)).
  assert (Hch : valid_choice (sc_stabs c) ch) by (intros i j _ H; unfold ch; destruct (shared (sc_stabs c) i j); [contradiction|left; reflexivity]).
  destruct (C23_blueprint (2, 2, 2)%Z EcPrimal BdOpen None c ch exp o (sc_syn c) a (fun _ => None) HD HC Hch) as (a' & wt' & H & _ & _ & Hw).
  - split; [|tauto]. apply (cf_syn_nd _ _ _ _ _ (surface_code_facts _ _ _ _ c (ge2_ok _ _ HD) HC)).
  - reflexivity.
  - apply exp_exp_like.
  - discriminate.
  - intros; discriminate.
  - intros _. exists (1 / 10). split; [reflexivity|lra].
  - intros _. simpl. lra.
  - exists ch, a', wt'. split; [exact Hch|]. split; [exact H|]. intros q Hq. destruct (Hw q Hq) as (err & w & _ & _ & E1 & E2 & _). eauto.
Qed.
