(* MacroMain.v: macronize satisfies the specification whenever the new points of a vertex differ. *)
From Coq Require Import Sorting.Permutation.
From Verif Require Import Base Lattice RhgModel RhgSpec RhgProofs RhgDegree EgraphModel EgraphProofs MacroModel MacroSpec MacroArith MacroProofs.
Open Scope Z_scope.

Lemma enum_simple es : NoDup (map fst es) -> (forall u v, In (u, v) (map fst es) -> In (v, u) (map fst es) -> False) -> simple_edges es.
Proof.
  induction es as [|((u & v) & t) es IH]; simpl; intros H1 H2; [exact I|]. inversion H1; subst. split.
  - intros ((u' & v') & t') Hx. cbn [fst snd]. destruct (same_edge u v (u', v')) eqn:E; [|reflexivity]. exfalso. apply same_edge_true in E. apply (in_map fst) in Hx. cbn [fst] in Hx.
    destruct E as [E|E]; injection E as -> ->; [contradiction|]. apply (H2 u v); [left; reflexivity|right; assumption].
  - apply IH; [assumption|]. intros x y Hx Hy. apply (H2 x y); right; assumption.
Qed.
Lemma minus_opp p q : minus p q = (- co AX (minus q p), - co AY (minus q p), - co AZ (minus q p)).
Proof. destruct p as [[x y] z], q as [[x' y'] z']. unfold minus. simpl. repeat f_equal; lia. Qed.
Lemma norm2_sym p q : norm2 (minus p q) = norm2 (minus q p).
Proof. destruct p as [[x y] z], q as [[x' y'] z']. unfold norm2, minus. cbn [co get]. ring. Qed.
Lemma shorten_opp a b per n v : shorten a b per n (- v) = - shorten a b per n v.
Proof. unfold shorten. rewrite Z.sgn_opp. replace ((a * unit_of a b * - v) ^ 2) with ((a * unit_of a b * v) ^ 2) by ring. ring. Qed.
Lemma shortened_rev a b per p q i : co i (shortened_vec a b per q p) = - co i (shortened_vec a b per p q).
Proof.
  unfold shortened_vec. rewrite (norm2_sym p q). rewrite (minus_opp p q). destruct i; cbn [co get fst snd]; apply shorten_opp.
Qed.
Lemma co_shifted U p s v i : co i (shifted U p s v) = U * co i p + s * co i v.
Proof. destruct i; reflexivity. Qed.
Lemma norm2_ge p i : co i p ^ 2 <= norm2 p.
Proof. unfold norm2. destruct i; nia. Qed.
Lemma norm2_pos p q : p <> q -> 0 < norm2 (minus q p).
Proof.
  intros H. destruct p as [[x y] z], q as [[x' y'] z']. unfold norm2, minus. cbn [co get]. assert (x' - x <> 0 \/ y' - y <> 0 \/ z' - z <> 0); [|nia].
  destruct (Z.eq_dec x x'); [|lia]. destruct (Z.eq_dec y y'); [|lia]. destruct (Z.eq_dec z z'); [subst; congruence|lia].
Qed.
Lemma co_shortened a b per p q i : co i (shortened_vec a b per p q) = (if per then -1 else 1) * Z.sgn (co i (minus q p)) * comp a b (norm2 (minus q p)) (co i (minus q p)).
Proof. destruct i; reflexivity. Qed.
Lemma shortened_small a b per p q i : 0 < a -> 1000 * a < 495 * b -> p <> q -> 2 * Z.abs (co i (shortened_vec a b per p q)) < unit_of a b.
Proof.
  intros Ha Hd Hne. rewrite co_shortened. destruct (comp_small a b Ha Hd (norm2 (minus q p)) (co i (minus q p)) (norm2_ge _ _) (norm2_pos p q Hne)) as [H1 H2].
  rewrite !Z.abs_mul. rewrite (Z.abs_eq (comp _ _ _ _)) by assumption. assert (Z.abs (if per then -1 else 1) = 1) as -> by (destruct per; reflexivity).
  assert (Z.abs (Z.sgn (co i (minus q p))) <= 1) by (destruct (co i (minus q p)); simpl; lia). nia.
Qed.
Lemma near_inj U x y c d : 0 < U -> 2 * Z.abs (x - U * c) < U -> 2 * Z.abs (x - U * d) < U -> y = x -> c = d.
Proof. intros HU H1 H2 _. assert (Z.abs (U * (c - d)) < U) by lia. rewrite Z.abs_mul in H. assert (Z.abs (c - d) = 0 \/ Z.abs (c - d) >= 1) as [E|E] by lia; [lia|nia]. Qed.

(* a list of pairs (vertex, point near it) whose points at each vertex differ *)
Lemma pairs_nodup U (h : list (point * point)) : 0 < U -> (forall v x i, In (v, x) h -> 2 * Z.abs (co i x - U * co i v) < U) -> (forall v, NoDup (at_vertex v h)) -> NoDup (map snd h).
Proof.
  intros HU. induction h as [|(v & x) h IH]; simpl; intros Hn Ha; [constructor|]. constructor.
  - intros Hx. apply in_map_iff in Hx. destruct Hx as ((u & y) & E & Hy). cbn [snd] in E. subst y.
    assert (u = v). { apply point_ext. intros i. apply (near_inj U (co i x) (co i x)); [assumption|apply Hn; right; assumption|apply Hn; left; reflexivity|reflexivity]. }
    subst u. specialize (Ha v). unfold at_vertex in Ha. cbn [filter fst] in Ha. rewrite peqb_refl in Ha. cbn [map snd] in Ha. inversion Ha as [|? ? Hno _]; subst. apply Hno. apply in_at_vertex in Hy. exact Hy.
  - apply IH; [intros; apply Hn; right; assumption|]. intros u. specialize (Ha u). unfold at_vertex in *. cbn [filter fst] in Ha. destruct (peqb v u); [|assumption]. inversion Ha; assumption.
Qed.

Section Main.
  Variables (g : egr) (es : list ((point * point) * eattr)) (a b : Z).
  Hypothesis Ha : 0 < a.
  Hypothesis Hdisp : 1000 * a < 495 * b.
  Hypothesis Hes : edge_enum g es.
  Hypothesis Hnodes : NoDup (node_list g).
  Hypothesis Hends : forall u v, edge_attr g u v <> None -> In u (node_list g).
  Hypothesis Hnbrs : forall v, NoDup (nbrs g v).
  Hypothesis Hdeg : forall v, In v (node_list g) -> nbrs g v <> [].
  Notation U := (unit_of a b).
  Definition per_of (v w : point) : bool := match edge_attr g v w with Some t => eperiodic t | None => false end.
  (* the micronode of v on the edge to w *)
  Definition pos (v w : point) : point := shifted U v 1 (shortened_vec a b (per_of v w) v w).
  Hypothesis Hspread : forall v w w', In w (nbrs g v) -> In w' (nbrs g v) -> pos v w = pos v w' -> w = w'.
  Lemma noloop u v : edge_attr g u v <> None -> u <> v.
  Proof.
    intros H E. subst v. destruct (edge_attr g u u) as [t|] eqn:Et; [|congruence]. apply Hes in Et. destruct Hes as (_ & Hl & _).
    apply (Hl u u); destruct Et as [Et|Et]; apply (in_map fst) in Et; exact Et.
  Qed.
  Lemma es_attr u v t : In ((u, v), t) es -> edge_attr g u v = Some t /\ edge_attr g v u = Some t.
  Proof. intros H. split; apply Hes; auto. Qed.
  Lemma new1 e : In e es -> new_point_1 a b e = pos (fst (fst e)) (snd (fst e)).
  Proof. destruct e as [[u v] t]. intros H. apply es_attr in H. unfold new_point_1, pos, per_of. cbn [fst snd]. rewrite (proj1 H). reflexivity. Qed.
  Lemma new2 e : In e es -> new_point_2 a b e = pos (snd (fst e)) (fst (fst e)).
  Proof.
    destruct e as [[u v] t]. intros H. apply es_attr in H. unfold new_point_2, pos, per_of. cbn [fst snd]. rewrite (proj2 H). apply point_ext. intros i. rewrite !co_shifted, (shortened_rev _ _ _ u v). lia.
  Qed.
  Lemma at_halves v : at_vertex v (halves a b es) = map (pos v) (flat_map (nbr_entry v) es).
  Proof.
    assert (H : forall l, incl l es -> at_vertex v (halves a b l) = map (pos v) (flat_map (nbr_entry v) l)); [|apply H; apply incl_refl].
    induction l as [|e l IH]; intros Hl; [reflexivity|]. change (halves a b (e :: l)) with (halves a b [e] ++ halves a b l). rewrite at_vertex_app. rewrite IH by (intros x Hx; apply Hl; right; assumption).
    cbn [flat_map]. rewrite map_app. f_equal. assert (He : In e es) by (apply Hl; left; reflexivity). unfold halves. cbn [flat_map app]. rewrite (new1 e He), (new2 e He).
    destruct e as [[u w] t]. cbn [fst snd]. unfold at_vertex, nbr_entry. cbn [filter fst snd]. assert (Hne : u <> w) by (apply noloop; apply es_attr in He; rewrite (proj1 He); discriminate).
    destruct (peqb u v) eqn:E1; destruct (peqb w v) eqn:E2; cbn [map snd].
    - apply peqb_true in E1, E2. congruence.
    - apply peqb_true in E1. subst. reflexivity.
    - apply peqb_true in E2. subst. reflexivity.
    - reflexivity.
  Qed.
  Lemma es_nbrs v : NoDup (flat_map (nbr_entry v) es) /\ (forall w, In w (flat_map (nbr_entry v) es) <-> In w (nbrs g v)) /\ length (flat_map (nbr_entry v) es) = length (nbrs g v).
  Proof.
    assert (H1 : NoDup (flat_map (nbr_entry v) es)) by (apply nbrs_NoDup_list; destruct Hes as (E1 & E2 & _); apply enum_simple; assumption).
    assert (H2 : forall w, In w (flat_map (nbr_entry v) es) <-> In w (nbrs g v)).
    { intros w. rewrite nbrs_iff, in_flat_map. split.
      - intros (((x & y) & t) & He & Hw). apply in_nbr_entry in Hw. apply same_edge_true in Hw. apply es_attr in He. cbn [fst] in Hw. destruct Hw as [Hw|Hw]; injection Hw as -> ->; destruct He as [H3 H4]; congruence.
      - intros H. destruct (edge_attr g v w) as [t|] eqn:E; [|congruence]. apply Hes in E. destruct E as [E|E]; eexists; (split; [exact E|]); apply in_nbr_entry; apply same_edge_true; auto. }
    split; [assumption|]. split; [assumption|]. apply Nat.le_antisymm; apply NoDup_incl_length; try assumption; [|apply Hnbrs|]; intros w Hw; apply H2; assumption.
  Qed.
  Lemma halves_in v x : In (v, x) (halves a b es) <-> exists w, In w (nbrs g v) /\ x = pos v w.
  Proof.
    rewrite <- in_at_vertex, at_halves, in_map_iff. split.
    - intros (w & E & H). exists w. split; [apply es_nbrs; assumption|congruence].
    - intros (w & H & E). exists w. split; [congruence|apply es_nbrs; assumption].
  Qed.
  Lemma pos_near v w i : In w (nbrs g v) -> 2 * Z.abs (co i (pos v w) - U * co i v) < U.
  Proof.
    intros H. apply nbrs_iff in H. unfold pos. rewrite co_shifted. replace (U * co i v + 1 * co i (shortened_vec a b (per_of v w) v w) - U * co i v) with (co i (shortened_vec a b (per_of v w) v w)) by lia.
    apply shortened_small; [assumption|assumption|]. apply noloop. assumption.
  Qed.
  Lemma U_pos : 100 <= U. Proof. apply unit_pos. Qed.
  Lemma pad_near v i j : 2 * Z.abs (co j (pad_point U v i) - U * co j v) < U.
  Proof.
    pose proof U_pos as HU. assert (0 <= U / 20 <= U / 20) by (split; [apply Z.div_pos; lia|lia]). assert (20 * (U / 20) <= U) by (apply Z.mul_div_le; lia).
    unfold pad_point. destruct (axis_eq_dec i j) as [->|Hij]; [rewrite co_setco_same; lia|]. rewrite co_setco_other by assumption. destruct j; cbn [co get]; lia.
  Qed.
  Lemma pad_inj v i j : pad_point U v i = pad_point U v j -> i = j.
  Proof.
    pose proof U_pos as HU. assert (1 <= U / 20) by (apply Z.div_le_lower_bound; lia). destruct (axis_eq_dec i j) as [->|Hij]; [reflexivity|]. intros E. exfalso. apply (f_equal (co i)) in E. unfold pad_point in E.
    rewrite co_setco_same, co_setco_other in E by congruence. destruct i; cbn [co get] in E; lia.
  Qed.
  Lemma at_nodup v : NoDup (at_vertex v (halves a b es)).
  Proof.
    rewrite at_halves. destruct (es_nbrs v) as (H1 & H2 & _).
    assert (H3 : forall l, NoDup l -> incl l (nbrs g v) -> NoDup (map (pos v) l)).
    { induction l as [|w l IH]; intros Hl Hi; [constructor|]. inversion Hl; subst. cbn [map]. constructor; [|apply IH; [assumption|intros x Hx; apply Hi; right; assumption]].
      intros Hw. apply in_map_iff in Hw. destruct Hw as (w' & E & Hw'). assert (w' = w) by (apply (Hspread v); [apply Hi; right; assumption|apply Hi; left; reflexivity|assumption]). congruence. }
    apply H3; [assumption|]. intros w Hw. apply H2. assumption.
  Qed.

  (* the pairs after the optional padding *)
  Variable pad : bool.
  Hypothesis Hpads : pad = true -> forall v w i, In w (nbrs g v) -> pos v w <> pad_point U v i.
  Definition H0 := halves a b es.
  Definition HF : list (point * point) := H0 ++ if pad then flat_map (pads a b H0) (node_list g) else [].
  Lemma pads_at v l : NoDup l -> at_vertex v (flat_map (pads a b H0) l) = if pmem v l then map (pad_point U v) (firstn (4 - length (at_vertex v H0)) axes) else [].
  Proof.
    induction l as [|u l IH]; intros Hl; [reflexivity|]. apply NoDup_cons_iff in Hl. destruct Hl as [Hnu Hl]. cbn [flat_map]. rewrite at_vertex_app, IH by assumption. unfold pads at 1. rewrite pad_entries_at. cbn [pmem existsb].
    destruct (peqb u v) eqn:E.
    - apply peqb_true in E. subst u. rewrite peqb_refl. cbn [orb]. apply pmem_false in Hnu. unfold pmem in Hnu |- *. rewrite Hnu. rewrite app_nil_r. reflexivity.
    - assert (peqb v u = false) as -> by (apply peqb_false; apply peqb_false in E; congruence). reflexivity.
  Qed.
  Lemma axes_nodup : NoDup axes.
  Proof. repeat constructor; simpl; intuition congruence. Qed.
  Lemma HF_at v : In v (node_list g) -> at_vertex v HF = at_vertex v H0 ++ if pad then map (pad_point U v) (firstn (4 - length (nbrs g v)) axes) else [].
  Proof.
    intros Hv. unfold HF. rewrite at_vertex_app. destruct pad; [|reflexivity]. rewrite pads_at by assumption. apply pmem_In in Hv. rewrite Hv.
    assert (E : length (at_vertex v H0) = length (nbrs g v)); [|rewrite E; reflexivity]. unfold H0. rewrite at_halves, map_length. apply es_nbrs.
  Qed.
  Lemma HF_out v : ~ In v (node_list g) -> at_vertex v HF = [].
  Proof.
    intros Hv. destruct (at_vertex v HF) as [|x l] eqn:E; [reflexivity|]. exfalso. assert (Hx : In (v, x) HF) by (apply in_at_vertex; rewrite E; left; reflexivity).
    unfold HF in Hx. apply in_app_or in Hx. destruct Hx as [Hx|Hx].
    - apply halves_in in Hx. destruct Hx as (w & Hw & _). apply nbrs_iff in Hw. apply Hv. apply (Hends v w). assumption.
    - destruct pad; [|destruct Hx]. apply in_flat_map in Hx. destruct Hx as (u & Hu & Hx). unfold pads in Hx. apply in_map_iff in Hx. destruct Hx as (i & Ei & _). injection Ei as -> _. contradiction.
  Qed.
  Lemma HF_near v x i : In (v, x) HF -> 2 * Z.abs (co i x - U * co i v) < U.
  Proof.
    intros H. unfold HF in H. apply in_app_or in H. destruct H as [H|H].
    - apply halves_in in H. destruct H as (w & Hw & ->). apply pos_near. assumption.
    - destruct pad; [|destruct H]. apply in_flat_map in H. destruct H as (u & Hu & H). unfold pads in H. apply in_map_iff in H. destruct H as (j & E & _). injection E as -> <-. apply pad_near.
  Qed.
  Lemma HF_at_nodup v : NoDup (at_vertex v HF).
  Proof.
    destruct (in_dec point_eq_dec v (node_list g)) as [Hv|Hv]; [|rewrite HF_out by assumption; constructor]. rewrite HF_at by assumption.
    destruct pad eqn:Ep; [|rewrite app_nil_r; apply at_nodup]. apply NoDup_app_intro; [apply at_nodup| |].
    - apply (FinFun.Injective_map_NoDup (f := pad_point U v)); [intros i j; apply pad_inj|]. apply (NoDup_app_l _ (skipn (4 - length (nbrs g v)) axes)). rewrite firstn_skipn. apply axes_nodup.
    - intros x Hx Hp. apply in_map_iff in Hp. destruct Hp as (i & <- & _). apply in_at_vertex in Hx. apply halves_in in Hx. destruct Hx as (w & Hw & E). apply (Hpads eq_refl v w i Hw). congruence.
  Qed.
  Lemma HF_nodup : NoDup (map snd HF).
  Proof. apply (pairs_nodup U); [pose proof U_pos; lia|intros; apply HF_near; assumption|apply HF_at_nodup]. Qed.
  Lemma HF_vertex v x y : In (v, x) HF -> In (y, x) HF -> v = y.
  Proof. intros H1 H2. apply point_ext. intros i. pose proof U_pos. apply (near_inj U (co i x) (co i x)); [lia|apply HF_near; assumption|apply HF_near; assumption|reflexivity]. Qed.
  Lemma HF_length v : In v (node_list g) -> length (at_vertex v HF) = if pad then Nat.max 4 (length (nbrs g v)) else length (nbrs g v).
  Proof.
    intros Hv. rewrite HF_at by assumption. rewrite app_length. assert (E : length (at_vertex v H0) = length (nbrs g v)) by (unfold H0; rewrite at_halves, map_length; apply es_nbrs). rewrite E.
    destruct pad; [|apply Nat.add_0_r]. rewrite map_length, firstn_length. pose proof (Hdeg v Hv) as Hdv. destruct (nbrs g v); [congruence|]. cbn [length axes]. lia.
  Qed.
  Lemma HF_nonempty v : In v (node_list g) <-> at_vertex v HF <> [].
  Proof.
    split.
    - intros Hv E. pose proof (HF_length v Hv) as HL. rewrite E in HL. cbn [length] in HL. pose proof (Hdeg v Hv) as Hdv. destruct (nbrs g v); [congruence|]. destruct pad; simpl in HL; lia.
    - intros H. destruct (in_dec point_eq_dec v (node_list g)) as [Hv|Hv]; [assumption|]. rewrite HF_out in H by assumption. congruence.
  Qed.

  Theorem macronize_ok perf : (match perf with Some l => incl l (node_list g) | None => True end) -> exists m,
    macronize g es perf pad a b = Ok m /\ macronized U g es pad m /\
    (match perf with
     | Some (p :: ps) => m_perf m = Some (flat_map (fun v => at_vertex v HF) (p :: ps))
     | other => m_perf m = other end) /\ m_dict m = group HF.
  Proof.
    intros Hperf.
    assert (Estart : fold_left (split_edge g a b) es (empty_graph, []) = state g a b es H0).
    { change (empty_graph, []) with (state g a b [] []). rewrite fold_split; [reflexivity|intros x []|]. cbn [app]. pose proof HF_nodup as H. unfold HF in H. rewrite map_app in H. apply NoDup_app_l in H. exact H. }
    assert (Epad : (if pad then pad_all U (state g a b es H0) (gnodes g) else Ok (state g a b es H0)) = Ok (state g a b es HF)).
    { pose proof HF_nodup as HN. unfold HF in HN |- *. destruct pad; [|rewrite app_nil_r; reflexivity]. apply pad_all_state.
      - exact Hnodes.
      - intros v t Hvt. split; [|split; [reflexivity|]].
        + unfold node_type. destruct (find (fun e => peqb (fst e) v) (gnodes g)) as [(v' & t')|] eqn:Ef.
          * apply find_some in Ef. destruct Ef as [Ef1 Ef2]. cbn [fst] in Ef2. apply peqb_true in Ef2. subst v'. clear - Hnodes Hvt Ef1. unfold node_list in Hnodes. induction (gnodes g) as [|(w & s) l IH]; [destruct Hvt|]. simpl in Hnodes. pose proof (proj1 (NoDup_cons_iff _ _) Hnodes) as [H1 Hn2].
            destruct Hvt as [Hvt|Hvt], Ef1 as [Ef1|Ef1]; [congruence| | |auto]; exfalso; apply H1; [injection Hvt as -> _; apply (in_map fst) in Ef1; exact Ef1|injection Ef1 as -> _; apply (in_map fst) in Hvt; exact Hvt].
          * exfalso. apply (find_none _ _ Ef) in Hvt. cbn [fst] in Hvt. rewrite peqb_refl in Hvt. discriminate.
        + assert (Hv : In v (node_list g)) by (apply (in_map fst) in Hvt; exact Hvt). intros E. pose proof (Hdeg v Hv) as Hdv. apply Hdv. apply length_zero_iff_nil. destruct (es_nbrs v) as (_ & _ & <-). unfold H0 in E. rewrite at_halves in E. apply (f_equal (@length _)) in E. rewrite map_length in E. exact E.
      - exact HN. }
    unfold macronize. assert ((b <=? 2 * a) = false) as -> by (apply Z.leb_gt; lia). assert ((a <? 0) = false) as -> by (apply Z.ltb_ge; lia). assert ((a =? 0) = false) as -> by (apply Z.eqb_neq; lia). cbn [orb andb]. cbv zeta.
    rewrite Estart, Epad. cbn [bind].
    assert (Eperf : exists p', (match perf with
          | Some (p :: ps) => bind (mapR (fun q => match dget peqb (snd (state g a b es HF)) q with Some l => Ok l | None => Err KeyError end) (p :: ps)) (fun ls => Ok (Some (concat ls)))
          | other => Ok other end) = Ok p' /\ match perf with Some (p :: ps) => p' = Some (flat_map (fun v => at_vertex v HF) (p :: ps)) | other => p' = other end).
    { destruct perf as [[|p ps]|]; [eexists; split; reflexivity| |eexists; split; reflexivity]. unfold state. cbn [snd].
      assert (Em : forall l, incl l (node_list g) -> mapR (fun q => match dget peqb (group HF) q with Some l => Ok l | None => Err KeyError end) l = Ok (map (fun v => at_vertex v HF) l)).
      { induction l as [|q l IH]; intros Hl; [reflexivity|]. cbn [mapR map]. rewrite group_get. assert (Hq : at_vertex q HF <> []) by (apply HF_nonempty; apply Hl; left; reflexivity). destruct (at_vertex q HF) as [|x xs] eqn:Eq; [congruence|]. cbn [bind].
        rewrite IH by (intros x0 Hx0; apply Hl; right; assumption). reflexivity. }
      rewrite Em by assumption. cbn [bind]. eexists. split; [reflexivity|]. rewrite flat_map_concat_map. reflexivity. }
    destruct Eperf as (p' & Ep & Hp'). rewrite Ep. cbn [bind]. eexists. split; [reflexivity|]. split; [|split; [destruct perf as [[|q qs]|]; exact Hp'|reflexivity]].
    assert (Hmic : forall v x, micronode {| m_graph := fst (state g a b es HF); m_dict := snd (state g a b es HF); m_perf := p' |} v x <-> In (v, x) HF).
    { intros v x. unfold micronode. cbn [m_dict state snd]. split.
      - intros (l & H1 & H2). apply group_in in H1. destruct H1 as [-> _]. apply in_at_vertex. assumption.
      - intros H. apply in_at_vertex in H. exists (at_vertex v HF). split; [|assumption]. apply group_in. split; [reflexivity|]. intros E. rewrite E in H. destruct H. }
    constructor.
    - split; [apply group_nodup|]. intros v. cbn [m_dict state snd]. rewrite group_keys. symmetry. apply HF_nonempty.
    - intros v l Hl. cbn [m_dict state snd] in Hl. apply group_in in Hl. destruct Hl as [-> Hne]. split; [apply HF_at_nodup|]. apply HF_length. apply HF_nonempty. assumption.
    - cbn [m_graph state fst]. unfold node_list. cbn [gnodes]. rewrite typed_fst. split; [apply HF_nodup|]. intros x. rewrite in_map_iff. split.
      + intros ((v & y) & E & H). cbn [snd] in E. subst y. exists v. apply Hmic. assumption.
      + intros (v & H). apply Hmic in H. exists (v, x). auto.
    - intros v x H. apply Hmic in H. unfold node_type at 1. cbn [m_graph state fst gnodes]. destruct (find (fun e => peqb (fst e) x) (typed g HF)) as [(y & t)|] eqn:Ef.
      + apply find_some in Ef. destruct Ef as [Ef1 Ef2]. cbn [fst] in Ef2. apply peqb_true in Ef2. subst y. unfold typed in Ef1. apply in_map_iff in Ef1. destruct Ef1 as ((v' & y) & E & Hy). cbn [fst snd] in E. injection E as -> <-.
        rewrite (HF_vertex v x v' H Hy). reflexivity.
      + exfalso. assert (Hin : In (x, node_type g v) (typed g HF)) by (unfold typed; apply in_map_iff; exists (v, x); auto). apply (find_none _ _ Ef) in Hin. cbn [fst] in Hin. rewrite peqb_refl in Hin. discriminate.
    - intros v x H i. apply Hmic in H. apply HF_near. assumption.
    - cbn [m_graph state fst gedges]. unfold new_edges.
      assert (HE : forall l, incl l es -> Forall2 (fun e e' => micronode {| m_graph := fst (state g a b es HF); m_dict := snd (state g a b es HF); m_perf := p' |} (fst (fst e)) (fst (fst e')) /\ micronode {| m_graph := fst (state g a b es HF); m_dict := snd (state g a b es HF); m_perf := p' |} (snd (fst e)) (snd (fst e')) /\ snd e' = snd e) l
          (map (fun e => ((new_point_1 a b e, new_point_2 a b e), snd e)) l)); [|apply HE; apply incl_refl].
      induction l as [|e l IH]; intros Hl; [constructor|]. cbn [map]. constructor; [|apply IH; intros x Hx; apply Hl; right; assumption]. cbn [fst snd].
      assert (He : In e es) by (apply Hl; left; reflexivity). rewrite !Hmic. split; [|split; [|reflexivity]]; unfold HF; apply in_or_app; left; unfold H0, halves; apply in_flat_map; exists e; (split; [assumption|]); simpl; auto.
    - cbn [m_graph state fst gedges]. assert (HN : NoDup (map snd H0)) by (pose proof HF_nodup as H; unfold HF in H; rewrite map_app in H; apply NoDup_app_l in H; exact H).
      assert (E : forall l, flat_map (fun e : (point * point) * eattr => [fst (fst e); snd (fst e)]) (new_edges a b l) = map snd (halves a b l)).
      { induction l as [|e l IH]; [reflexivity|]. unfold new_edges, halves in *. cbn [map flat_map app fst snd]. rewrite IH. reflexivity. }
      rewrite E. exact HN.
  Qed.
End Main.
