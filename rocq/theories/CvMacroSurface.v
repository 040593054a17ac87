(* CvMacroSurface.v: the macronode layer of a macronized graph has the layout of CvMacroSpec.v, and its
   micronodes correspond to the edges of the graph. *)
From Coq Require Import String.
From Verif Require Import Base Lattice RhgModel RhgDegree GkpModel OpsModel EgraphModel EgraphSpec EgraphProofs EgraphInv PropsEgraph MacroModel MacroSpec MacroMain PropsMacro
  CvModel CvSpec CvProofs PropsCv CvMacroModel CvMacroLists CvMacroSpec.
Open Scope nat_scope.

(* ---------------- lists ---------------- *)
Fixpoint pos_in (x : point) (l : list point) : nat := match l with [] => 0 | y :: l' => if peqb y x then 0 else S (pos_in x l') end.
Lemma pos_in_ok x l d : In x l -> pos_in x l < List.length l /\ nth (pos_in x l) l d = x.
Proof.
  induction l as [|y l IH]; intros H; [destruct H|]. cbn [pos_in List.length]. destruct (peqb y x) eqn:E.
  - apply peqb_true in E. subst. split; [lia|reflexivity].
  - destruct H as [->|H]; [rewrite peqb_refl in E; discriminate|]. destruct (IH H) as [H1 H2]. split; [lia|exact H2].
Qed.
Lemma flat4 {A B} (f : A -> list B) (l : list A) (d : B) (a0 : A) : (forall x, In x l -> List.length (f x) = 4) ->
  List.length (flat_map f l) = 4 * List.length l /\ forall k j, k < List.length l -> j < 4 -> nth (4 * k + j) (flat_map f l) d = nth j (f (nth k l a0)) d.
Proof.
  induction l as [|x l IH]; intros H; [split; [reflexivity|intros k j Hk; simpl in Hk; lia]|]. destruct IH as [I1 I2]; [intros y Hy; apply H; right; assumption|]. pose proof (H x (or_introl eq_refl)) as Hx. cbn [flat_map List.length]. split.
  - rewrite app_length, I1, Hx. lia.
  - intros [|k] j Hk Hj; cbn [nth].
    + rewrite app_nth1 by lia. reflexivity.
    + rewrite app_nth2 by lia. rewrite Hx. replace (4 * S k + j - 4) with (4 * k + j) by lia. apply I2; lia.
Qed.
Lemma list4 {A} (l : list A) d : List.length l = 4 -> l = [nth 0 l d; nth 1 l d; nth 2 l d; nth 3 l d].
Proof. destruct l as [|a [|b [|c [|e [|f l]]]]]; simpl; try lia. reflexivity. Qed.

Section Scale.
  Variable U : Z.
  Hypothesis HU : (0 < U)%Z.
  Definition scale (v : point) : point := (U * co AX v, U * co AY v, U * co AZ v)%Z.
  Lemma scale_inj v v' : scale v = scale v' -> v = v'.
  Proof. intros E. injection E as E1 E2 E3. apply point_ext. intros []; nia. Qed.
  Lemma ple_scale p q : ple (scale p) (scale q) = ple p q.
  Proof.
    destruct (ple p q) eqn:E.
    - apply ple_spec in E. apply ple_spec. destruct E as [E|<-]; [|auto]. left. unfold plt, scale in *. cbn [co get] in *. nia.
    - destruct (ple (scale p) (scale q)) eqn:E'; [|reflexivity]. rewrite <- E. symmetry. apply ple_spec. apply ple_spec in E'. destruct E' as [E'|E']; [|right; apply scale_inj; assumption]. left. unfold plt, scale in *. cbn [co get] in *. nia.
  Qed.
  Lemma insert_scale p l : insert (scale p) (map scale l) = map scale (insert p l).
  Proof. induction l as [|q l IH]; [reflexivity|]. cbn [insert map]. rewrite ple_scale. destruct (ple p q); [reflexivity|]. cbn [map]. rewrite IH. reflexivity. Qed.
  Lemma sorted_scale l : sorted (map scale l) = map scale (sorted l).
  Proof. induction l as [|q l IH]; [reflexivity|]. unfold sorted in *. cbn [fold_right map]. rewrite IH. apply insert_scale. Qed.
  Lemma dget_scale {T} (d : list (point * T)) v : dget peqb (map (fun e => (scale (fst e), snd e)) d) (scale v) = dget peqb d v.
  Proof.
    assert (P : forall x, peqb (scale x) (scale v) = peqb x v /\ peqb (scale v) (scale x) = peqb v x).
    { intros x. destruct (point_eq_dec x v) as [->|H]; [rewrite !peqb_refl; auto|]. rewrite !(proj2 (peqb_false _ _)); [auto|..]; try congruence; intros E; apply scale_inj in E; congruence. }
    induction d as [|(x & t) d IH]; [reflexivity|]. cbn [map dget fst snd]. rewrite (proj1 (P x)). destruct (peqb x v); [reflexivity|]. exact IH.
  Qed.
End Scale.

(* ---------------- edges of a macronode graph ---------------- *)
Definition ends (e : point * point * Z) : list point := [fst (fst e); snd (fst e)].
Lemma single_unique (es : list (point * point * Z)) : NoDup (flat_map ends es) -> forall e e' x, In e es -> In e' es -> In x (ends e) -> In x (ends e') -> e = e'.
Proof.
  induction es as [|f es IH]; intros Hn e e' x He He' Hx Hx'; [destruct He|]. cbn [flat_map] in Hn.
  assert (Hd : forall y, In y (ends f) -> ~ In y (flat_map ends es)).
  { intros y Hy Hy'. cbn [ends app] in Hn, Hy. apply NoDup_cons_iff in Hn. destruct Hn as [N1 N2]. apply NoDup_cons_iff in N2. destruct N2 as [N2 N3]. destruct Hy as [<-|[<-|[]]]; [apply N1; right; assumption|apply N2; assumption]. }
  assert (Hn' : NoDup (flat_map ends es)). { cbn [ends app] in Hn. apply NoDup_cons_iff in Hn. destruct Hn as [_ Hn]. apply NoDup_cons_iff in Hn. apply Hn. }
  destruct He as [<-|He], He' as [<-|He'].
  - reflexivity.
  - exfalso. apply (Hd x Hx). apply in_flat_map. eauto.
  - exfalso. apply (Hd x Hx'). apply in_flat_map. eauto.
  - apply (IH Hn' e e' x); assumption.
Qed.
Lemma single_ends (es : list (point * point * Z)) : NoDup (flat_map ends es) -> forall e, In e es -> fst (fst e) <> snd (fst e).
Proof.
  induction es as [|f es IH]; intros Hn e He; [destruct He|]. cbn [flat_map ends app] in Hn. apply NoDup_cons_iff in Hn. destruct Hn as [H1 H2]. destruct He as [<-|He]; [intros E; apply H1; left; symmetry; assumption|]. apply NoDup_cons_iff in H2. apply IH; [apply H2|assumption].
Qed.
(* the edge at a node *)
Definition edge_at (es : list (point * point * Z)) (x : point) : option (point * point * Z) := find (fun e => peqb (fst (fst e)) x || peqb (snd (fst e)) x) es.
Lemma edge_at_some es x e : edge_at es x = Some e -> In e es /\ In x (ends e).
Proof. intros H. apply find_some in H. destruct H as [H1 H2]. split; [assumption|]. apply orb_true_iff in H2. cbn [ends In]. destruct H2 as [H2|H2]; apply peqb_true in H2; auto. Qed.
Lemma edge_at_in es x e : NoDup (flat_map ends es) -> In e es -> In x (ends e) -> edge_at es x = Some e.
Proof.
  intros Hn He Hx. destruct (edge_at es x) as [e'|] eqn:E.
  - apply edge_at_some in E. f_equal. apply (single_unique es Hn e' e x); tauto.
  - unfold edge_at in E. pose proof (find_none _ _ E e He) as H. apply orb_false_iff in H. destruct H as [H1 H2]. apply peqb_false in H1, H2. cbn [ends In] in Hx. destruct Hx as [Hx|[Hx|[]]]; congruence.
Qed.
Definition other (e : point * point * Z) (x : point) : point := if peqb (fst (fst e)) x then snd (fst e) else fst (fst e).
Lemma first_nbr_other es x : first_nbr es x = option_map (fun e => other e x) (edge_at es x).
Proof. unfold first_nbr, edge_at. destruct (find _ es); reflexivity. Qed.
Lemma other_ends e x : In x (ends e) -> In (other e x) (ends e).
Proof. unfold other, ends. intros [H|[H|[]]]; destruct (peqb _ _); simpl; auto. Qed.
Lemma other_other e x : fst (fst e) <> snd (fst e) -> In x (ends e) -> other e (other e x) = x.
Proof.
  unfold other, ends. intros Hne [<-|[<-|[]]].
  - rewrite peqb_refl. rewrite (proj2 (peqb_false _ (snd (fst e)))) by assumption. reflexivity.
  - rewrite (proj2 (peqb_false _ (snd (fst e)))) by assumption. rewrite peqb_refl. reflexivity.
Qed.

(* ---------------- the layout ---------------- *)
Set Default Proof Using "All".
Section Layout.
  Variables (U : Z) (g : egr) (es : list ((point * point) * eattr)) (pad : bool) (m : macro).
  Hypothesis HU : (0 < U)%Z.
  Hypothesis Hm : macronized U g es pad m.
  Hypothesis H4 : forall v l, In (v, l) (m_dict m) -> List.length l = 4.
  Hypothesis Hne : node_list g <> [].
  Definition verts : list point := sorted (map fst (m_dict m)).
  Definition mics (v : point) : list point := match dget peqb (m_dict m) v with Some l => l | None => [] end.
  Definition order : list point := flat_map mics verts.
  Definition mic_of (i : nat) : point := nth i order (0, 0, 0)%Z.
  Definition medges : list (point * point * Z) := map (fun e => (fst e, eweight (snd e))) (gedges (m_graph m)).
  Definition nbi_of (i : nat) : option nat := option_map (fun e => pos_in (other e (mic_of i)) order) (edge_at medges (mic_of i)).
  Definition wt_of (i : nat) : R := match edge_at medges (mic_of i) with Some e => IZR (snd e) | None => 0%R end.
  Notation n := (List.length verts).

  Lemma verts_in v : In v verts <-> In v (node_list g).
  Proof. unfold verts. rewrite sorted_in. apply (mz_keys _ _ _ _ _ Hm). Qed.
  Lemma verts_nodup : NoDup verts.
  Proof. apply sorted_nodup. apply (mz_keys _ _ _ _ _ Hm). Qed.
  Lemma verts_pos : 0 < n.
  Proof. assert (HV : forall v, In v (node_list g) -> In v verts) by (intros v; apply verts_in). destruct (node_list g) as [|v l] eqn:E; [contradiction|]. assert (H : In v verts) by (apply HV; left; reflexivity). destruct verts; [destruct H|simpl; lia]. Qed.
  Lemma dict_at v : In v verts -> exists l, In (v, l) (m_dict m) /\ dget peqb (m_dict m) v = Some l /\ mics v = l /\ List.length l = 4.
  Proof.
    intros H. unfold verts in H. rewrite sorted_in in H. apply in_map_iff in H. destruct H as ((v' & l) & E & H). cbn [fst] in E. subst v'. exists l. split; [assumption|].
    assert (E : dget peqb (m_dict m) v = Some l) by (apply (In_dget peqb peqb_true); [apply (mz_keys _ _ _ _ _ Hm)|assumption]). split; [assumption|]. unfold mics. rewrite E. split; [reflexivity|]. apply (H4 v); assumption.
  Qed.
  Lemma mics_micro v x : In v verts -> (In x (mics v) <-> micronode m v x).
  Proof.
    intros Hv. destruct (dict_at v Hv) as (l & Hl & Eg & -> & _). split; [intros H; exists l; auto|]. intros (l' & Hl' & Hx). assert (E : dget peqb (m_dict m) v = Some l') by (apply (In_dget peqb peqb_true); [apply (mz_keys _ _ _ _ _ Hm)|assumption]). congruence.
  Qed.
  Lemma order_spec : List.length order = 4 * n /\ forall k j, k < n -> j < 4 -> nth (4 * k + j) order (0, 0, 0)%Z = nth j (mics (nth k verts (0, 0, 0)%Z)) (0, 0, 0)%Z.
  Proof. apply flat4. intros v Hv. destruct (dict_at v Hv) as (l & _ & _ & -> & H). exact H. Qed.
  Lemma order_is : order_of (macro_egraph U m) = order.
  Proof.
    set (d := map (fun e => (scale U (fst e), snd e)) (m_dict m)). change (flat_map (fun v => match dget peqb d v with Some l => l | None => [] end) (sorted (map fst d)) = order). unfold order, verts.
    replace (map fst d) with (map (scale U) (map fst (m_dict m))) by (unfold d; rewrite !map_map; reflexivity).
    rewrite (sorted_scale U HU). generalize (sorted (map fst (m_dict m))). intros l. induction l as [|v l IH]; [reflexivity|]. cbn [map flat_map]. rewrite IH. f_equal.
    unfold mics, d. rewrite (dget_scale U HU (m_dict m) v). reflexivity.
  Qed.
  Lemma order_perm : Permutation order (node_list (m_graph m)).
  Proof.
    destruct (C32_macro_egraph U g es pad m HU Hm) as ((Hg & (Hu1 & Hu2) & _) & Hcov & _).
    destruct (C28_macronode_indices (macro_egraph U m) _ Hg (conj Hu1 Hu2) eq_refl eq_refl) as (g' & d & E & _).
    { intros p Hp. destruct (Hcov p Hp) as (k & mm & l & E & H1 & H2). injection E as <-. eauto. }
    destruct (index_generator_ok _ g' d Hg Hu1 E) as (HP & _). rewrite order_is in HP. exact HP.
  Qed.
  Lemma order_nodup : NoDup order.
  Proof. apply (Permutation_NoDup (Permutation_sym order_perm)). apply (mz_nodes _ _ _ _ _ Hm). Qed.
  Lemma mic_in i : i < 4 * n -> In (mic_of i) order.
  Proof. intros H. apply nth_In. rewrite (proj1 order_spec). assumption. Qed.
  Lemma mic_inj i j : i < 4 * n -> j < 4 * n -> mic_of i = mic_of j -> i = j.
  Proof. intros Hi Hj E. apply (proj1 (NoDup_nth order (0, 0, 0)%Z) order_nodup); [rewrite (proj1 order_spec)..|]; assumption. Qed.
  Lemma pos_mic i : i < 4 * n -> pos_in (mic_of i) order = i.
  Proof. intros Hi. destruct (pos_in_ok (mic_of i) order (0, 0, 0)%Z (mic_in i Hi)) as [H1 H2]. rewrite (proj1 order_spec) in H1. apply mic_inj; assumption. Qed.
  Lemma mic_pos x : In x order -> pos_in x order < 4 * n /\ mic_of (pos_in x order) = x.
  Proof. intros H. destruct (pos_in_ok x order (0, 0, 0)%Z H) as [H1 H2]. rewrite (proj1 order_spec) in H1. auto. Qed.
  Lemma vert_of i : i < 4 * n -> i / 4 < n /\ In (nth (i / 4) verts (0, 0, 0)%Z) verts /\ micronode m (nth (i / 4) verts (0, 0, 0)%Z) (mic_of i).
  Proof.
    intros Hi. assert (Hk : i / 4 < n) by (apply Nat.div_lt_upper_bound; lia). split; [assumption|]. assert (Hv : In (nth (i / 4) verts (0, 0, 0)%Z) verts) by (apply nth_In; assumption). split; [assumption|].
    apply mics_micro; [assumption|]. pose proof (Nat.div_mod i 4 ltac:(lia)) as Hd. pose proof (Nat.mod_upper_bound i 4 ltac:(lia)) as Hb. unfold mic_of. replace (nth i order (0, 0, 0)%Z) with (nth (4 * (i / 4) + i mod 4) order (0, 0, 0)%Z) by (f_equal; lia). rewrite (proj2 order_spec) by assumption. apply nth_In. destruct (dict_at _ Hv) as (l & _ & _ & -> & ->). assumption.
  Qed.
  Lemma micro_same v v' x : micronode m v x -> micronode m v' x -> v = v'.
  Proof. intros H1 H2. apply point_ext. intros i. apply (near_inj U (co i x) (co i x)); [assumption|apply (mz_round _ _ _ _ _ Hm); assumption|apply (mz_round _ _ _ _ _ Hm); assumption|reflexivity]. Qed.
  Lemma micro_centre v x : micronode m v x -> centre U x = v.
  Proof.
    intros H. destruct (C32_macro_egraph U g es pad m HU Hm) as (_ & _ & Hr).
    assert (Hk : micro (macro_egraph U m) (scale U v) x). { destruct H as (l & H1 & H2). exists (map (fun e => (scale U (fst e), snd e)) (m_dict m)), l. split; [reflexivity|]. split; [|assumption]. apply in_map_iff. exists (v, l). auto. }
    assert (E : forall i, round_to U (co i x) = (U * co i v)%Z) by (intros i; rewrite <- (proj2 (Hr _ _ Hk i)); destruct i; reflexivity).
    unfold centre. rewrite !E. rewrite !(Z.mul_comm U), !Z.div_mul by lia. destruct v as [[? ?] ?]. reflexivity.
  Qed.
  Lemma medges_single : NoDup (flat_map ends medges).
  Proof. pose proof (mz_single _ _ _ _ _ Hm) as H. unfold medges. rewrite flat_map_concat_map, map_map, <- flat_map_concat_map. exact H. Qed.
  Lemma medges_in e x : In e medges -> In x (ends e) -> In x order.
  Proof.
    intros He Hx. apply (Permutation_in _ (Permutation_sym order_perm)). destruct (C32_macro_egraph U g es pad m HU Hm) as (((_ & Hg & _) & _) & _).
    destruct e as [[u v] w]. destruct (Hg u v w He) as [H1 H2]. destruct Hx as [<-|[<-|[]]]; assumption.
  Qed.
  Lemma nbi_some i y : i < 4 * n -> nbi_of i = Some y -> y < 4 * n /\ exists e, In e medges /\ In (mic_of i) (ends e) /\ mic_of y = other e (mic_of i) /\ wt_of i = IZR (snd e).
  Proof.
    intros Hi. unfold nbi_of, wt_of. destruct (edge_at medges (mic_of i)) as [e|] eqn:E; [|discriminate]. intros H. injection H as <-. destruct (edge_at_some _ _ _ E) as [He Hx].
    destruct (mic_pos (other e (mic_of i)) (medges_in e _ He (other_ends e _ Hx))) as [H1 H2]. split; [assumption|]. exists e. auto.
  Qed.
  Lemma nbi_intro i y e : i < 4 * n -> y < 4 * n -> In e medges -> In (mic_of i) (ends e) -> mic_of y = other e (mic_of i) -> nbi_of i = Some y /\ wt_of i = IZR (snd e).
  Proof.
    intros Hi Hy He Hx Eo. unfold nbi_of, wt_of. rewrite (edge_at_in _ _ e medges_single He Hx). split; [|reflexivity]. cbn [option_map]. rewrite <- Eo, pos_mic by assumption. reflexivity.
  Qed.
  Lemma nbi_sym i y : i < 4 * n -> nbi_of i = Some y -> nbi_of y = Some i /\ wt_of y = wt_of i.
  Proof.
    intros Hi H. destruct (nbi_some i y Hi H) as (Hy & e & He & Hx & Eo & Ew). rewrite Ew. apply nbi_intro; [assumption|assumption|assumption| |].
    - rewrite Eo. apply other_ends. assumption.
    - rewrite Eo. symmetry. apply other_other; [|assumption]. apply (single_ends _ medges_single). assumption.
  Qed.
  Lemma nbi_block i y : i < 4 * n -> nbi_of i = Some y -> mic_of i <> mic_of y.
  Proof. intros Hi H E. destruct (nbi_some i y Hi H) as (_ & e & He & Hx & Eo & _). pose proof (single_ends _ medges_single e He) as Hd. rewrite E in *. unfold other in Eo. destruct (peqb _ _) eqn:Ep; [apply peqb_true in Ep; congruence|]. apply peqb_false in Ep. congruence. Qed.

  (* macronized edges against the edges of the graph *)
  Lemma edges_match e : In e medges -> exists f, In f es /\ micronode m (fst (fst f)) (fst (fst e)) /\ micronode m (snd (fst f)) (snd (fst e)) /\ snd e = eweight (snd f).
  Proof.
    intros He. unfold medges in He. apply in_map_iff in He. destruct He as (e' & <- & He). pose proof (mz_edges _ _ _ _ _ Hm) as HF. clear Hm. cbn [fst snd].
    induction HF as [|f f' l l' (A1 & A2 & A3) _ IH]; [destruct He|]. destruct He as [->|He]; [exists f; split; [left; reflexivity|]; split; [assumption|]; split; [assumption|]; congruence|]. destruct (IH He) as (f0 & H1 & H2). exists f0. split; [right; assumption|assumption].
  Qed.
  Lemma edges_match_inv f : In f es -> exists e, In e medges /\ micronode m (fst (fst f)) (fst (fst e)) /\ micronode m (snd (fst f)) (snd (fst e)) /\ snd e = eweight (snd f).
  Proof.
    intros Hf. pose proof (mz_edges _ _ _ _ _ Hm) as HF. clear Hm. unfold medges. revert Hf.
    induction HF as [|f1 f' l l' (A1 & A2 & A3) _ IH]; intros Hf; [destruct Hf|]. cbn [map]. destruct Hf as [->|Hf]; [eexists; split; [left; reflexivity|]; cbn [fst snd]; split; [assumption|]; split; [assumption|]; congruence|]. destruct (IH Hf) as (e & H1 & H2). exists e. split; [right; assumption|assumption].
  Qed.
  Lemma edges_inj e e' : NoDup (map fst es) -> In e medges -> In e' medges -> (exists f, In f es /\ micronode m (fst (fst f)) (fst (fst e)) /\ micronode m (snd (fst f)) (snd (fst e)) /\ micronode m (fst (fst f)) (fst (fst e')) /\ micronode m (snd (fst f)) (snd (fst e'))) -> e = e'.
  Proof.
    intros Hn He He' (f & Hf & A1 & A2 & B1 & B2). unfold medges in *. apply in_map_iff in He, He'. destruct He as (e1 & <- & He), He' as (e2 & <- & He'). cbn [fst snd] in *. pose proof (mz_edges _ _ _ _ _ Hm) as HF. pose proof micro_same as Hsame. clear Hm.
    assert (G : e1 = e2); [|subst; reflexivity].
    assert (Hl : forall (l l' : list (point * point * eattr)), Forall2 (fun e e' => micronode m (fst (fst e)) (fst (fst e')) /\ micronode m (snd (fst e)) (snd (fst e')) /\ snd e' = snd e) l l' -> forall x, In x l' ->
               exists y, In y l /\ micronode m (fst (fst y)) (fst (fst x)) /\ micronode m (snd (fst y)) (snd (fst x))).
    { clear. intros l l' H. induction H as [|a b l l' (A1 & A2 & A3) _ IH]; intros x Hx; [destruct Hx|]. destruct Hx as [<-|Hx]; [exists a; split; [left; reflexivity|auto]|]. destruct (IH x Hx) as (y & H1 & H2). exists y. split; [right; assumption|assumption]. }
    revert He He' Hn. clear Hf. induction HF as [|a b l l' (C1 & C2 & C3) HF IH]; intros He He' Hn; [destruct He|]. cbn [map] in Hn. apply NoDup_cons_iff in Hn. destruct Hn as [Hn1 Hn2].
    assert (Hout : forall x, In x l' -> micronode m (fst (fst f)) (fst (fst x)) -> micronode m (snd (fst f)) (snd (fst x)) -> fst f <> fst a).
    { intros x Hx X1 X2 E. destruct (Hl l l' HF x Hx) as (y & Hy & Y1 & Y2). apply Hn1. rewrite <- E. apply in_map_iff. exists y. split; [|assumption]. destruct (fst y) as [y1 y2], (fst f) as [f1 f2]. cbn [fst snd] in *. f_equal; eapply Hsame; eassumption. }
    assert (Hb : forall x, x = b -> micronode m (fst (fst f)) (fst (fst x)) -> micronode m (snd (fst f)) (snd (fst x)) -> fst f = fst a).
    { intros x -> X1 X2. destruct (fst f) as [f1 f2], (fst a) as [a1 a2]. cbn [fst snd] in *. f_equal; eapply Hsame; eassumption. }
    destruct He as [<-|He], He' as [<-|He'].
    - reflexivity.
    - exfalso. apply (Hout e2 He' B1 B2). apply (Hb b eq_refl A1 A2).
    - exfalso. apply (Hout e1 He A1 A2). apply (Hb b eq_refl B1 B2).
    - apply IH; assumption.
  Qed.

  Definition vx (i : nat) : point := nth (i / 4) verts (0, 0, 0)%Z.
  Lemma nb_edge i y : i < 4 * n -> nbi_of i = Some y ->
    exists e f, In e medges /\ In f es /\ wt_of i = IZR (eweight (snd f)) /\
      ((mic_of i = fst (fst e) /\ mic_of y = snd (fst e) /\ fst f = (vx i, vx y)) \/ (mic_of y = fst (fst e) /\ mic_of i = snd (fst e) /\ fst f = (vx y, vx i))).
  Proof.
    intros Hi H. destruct (nbi_some i y Hi H) as (Hy & e & He & Hx & Eo & Ew). destruct (edges_match e He) as (f & Hf & F1 & F2 & F3). exists e, f. split; [assumption|]. split; [assumption|]. split; [rewrite Ew, F3; reflexivity|].
    destruct (vert_of i Hi) as (_ & _ & Vi). destruct (vert_of y Hy) as (_ & _ & Vy). fold (vx i) in Vi. fold (vx y) in Vy. pose proof (single_ends _ medges_single e He) as Hd. unfold other in Eo. destruct Hx as [Hx|[Hx|[]]].
    - left. rewrite Hx in Eo. rewrite peqb_refl in Eo. rewrite Hx, Eo in *. split; [reflexivity|]. split; [reflexivity|]. rewrite (surjective_pairing (fst f)). f_equal; eapply micro_same; eassumption.
    - right. rewrite <- Hx in Eo. rewrite (proj2 (peqb_false _ _) Hd) in Eo. rewrite Eo, <- Hx in *. split; [reflexivity|]. split; [reflexivity|]. rewrite (surjective_pairing (fst f)). f_equal; eapply micro_same; eassumption.
  Qed.
  Hypothesis Henum : edge_enum g es.
  Hypothesis Hnb : forall v, NoDup (nbrs g v).
  Lemma nb_attr i y : i < 4 * n -> nbi_of i = Some y -> exists t, edge_attr g (vx i) (vx y) = Some t /\ wt_of i = IZR (eweight t).
  Proof.
    intros Hi H. destruct (nb_edge i y Hi H) as (e & (ff & t) & _ & Hf & Ew & Hc). cbn [fst snd] in *. exists t. split; [|assumption]. destruct Henum as (_ & _ & E3). apply E3. destruct Hc as [(_ & _ & ->)|(_ & _ & ->)]; auto.
  Qed.
  Lemma nb_inj i y i' y' : i < 4 * n -> i' < 4 * n -> nbi_of i = Some y -> nbi_of i' = Some y' -> vx i = vx i' -> vx y = vx y' -> i = i'.
  Proof.
    intros Hi Hi' H H' Ev Ey. destruct (nb_edge i y Hi H) as (e & f & He & Hf & _ & Hc). destruct (nb_edge i' y' Hi' H') as (e' & f' & He' & Hf' & _ & Hc'). destruct Henum as (E1 & E2 & _).
    assert (Hff : forall f, In f es -> In (fst f) (map fst es)) by (intros; apply in_map; assumption). pose proof (Hff f Hf) as Hi1. pose proof (Hff f' Hf') as Hi2. rewrite <- Ev, <- Ey in Hc'.
    destruct (nbi_some i y Hi H) as (Hy & _). destruct (nbi_some i' y' Hi' H') as (Hy' & _). destruct (vert_of i Hi) as (_ & _ & Vi). destruct (vert_of i' Hi') as (_ & _ & Vi'). destruct (vert_of y Hy) as (_ & _ & Vy). destruct (vert_of y' Hy') as (_ & _ & Vy').
    fold (vx i) in Vi. fold (vx i') in Vi'. fold (vx y) in Vy. fold (vx y') in Vy'. rewrite <- Ev in Vi'. rewrite <- Ey in Vy'.
    destruct Hc as [(A1 & A2 & A3)|(A1 & A2 & A3)], Hc' as [(B1 & B2 & B3)|(B1 & B2 & B3)]; rewrite A3 in Hi1; rewrite B3 in Hi2; try (exfalso; eapply E2; eassumption).
    - apply mic_inj; [assumption|assumption|]. assert (e = e'); [|congruence]. apply (edges_inj e e' E1 He He'). exists f. rewrite A3. cbn [fst snd]. rewrite <- A1, <- A2, <- B1, <- B2. auto.
    - apply mic_inj; [assumption|assumption|]. assert (e = e'); [|congruence]. apply (edges_inj e e' E1 He He'). exists f. rewrite A3. cbn [fst snd]. rewrite <- A1, <- A2, <- B1, <- B2. auto.
  Qed.
  Lemma vx_block k j : j < 4 -> vx (4 * k + j) = nth k verts (0, 0, 0)%Z.
  Proof. intros Hj. unfold vx. rewrite (proj1 (div4 _ _ Hj)). reflexivity. Qed.
  Lemma micro_index v x : In v verts -> micronode m v x -> exists i, i < 4 * n /\ mic_of i = x /\ vx i = v.
  Proof.
    intros Hv H. assert (Hx : In x order). { unfold order. apply in_flat_map. exists v. split; [assumption|]. apply mics_micro; assumption. }
    destruct (mic_pos x Hx) as [H1 H2]. exists (pos_in x order). split; [assumption|]. split; [assumption|]. destruct (vert_of _ H1) as (_ & _ & H3). rewrite H2 in H3. apply (micro_same _ _ x); assumption.
  Qed.
  Definition nb_list (k : nat) : list point := flat_map (fun j => match nbi_of (4 * k + j) with Some y => [vx y] | None => [] end) (seq 0 4).
  Lemma nb_perm k : k < n -> Permutation (nb_list k) (nbrs g (nth k verts (0, 0, 0)%Z)).
  Proof.
    intros Hk. apply NoDup_Permutation; [|apply Hnb|].
    - unfold nb_list. assert (Hl : forall l, NoDup l -> (forall j, In j l -> j < 4) -> NoDup (flat_map (fun j => match nbi_of (4 * k + j) with Some y => [vx y] | None => [] end) l)); [|apply Hl; [apply seq_NoDup|intros j Hj; apply in_seq in Hj; lia]].
      induction l as [|j l IH]; intros Hn Hl; [constructor|]. apply NoDup_cons_iff in Hn. destruct Hn as [Hj Hn]. cbn [flat_map]. apply NoDup_app_intro.
      + destruct (nbi_of _); repeat constructor. intros [].
      + apply IH; [assumption|]. intros x Hx. apply Hl. right. assumption.
      + intros x Hx Hx'. destruct (nbi_of (4 * k + j)) as [y|] eqn:E; [|destruct Hx]. destruct Hx as [<-|[]]. apply in_flat_map in Hx'. destruct Hx' as (j' & Hj' & Hx'). destruct (nbi_of (4 * k + j')) as [y'|] eqn:E'; [|destruct Hx']. destruct Hx' as [Hx'|[]].
        pose proof (Hl j (or_introl eq_refl)). pose proof (Hl j' (or_intror Hj')). assert (4 * k + j = 4 * k + j') by (apply (nb_inj _ y _ y'); try lia; try assumption; [rewrite !vx_block by assumption; reflexivity|symmetry; assumption]). assert (j = j') by lia. subst. contradiction.
    - intros w. unfold nb_list. rewrite in_flat_map. split.
      + intros (j & Hj & Hx). apply in_seq in Hj. destruct (nbi_of (4 * k + j)) as [y|] eqn:E; [|destruct Hx]. destruct Hx as [<-|[]]. destruct (nb_attr (4 * k + j) y ltac:(lia) E) as (t & Ht & _). rewrite vx_block in Ht by lia. apply nbrs_iff. congruence.
      + intros Hw. apply nbrs_iff in Hw. destruct (edge_attr g (nth k verts (0, 0, 0)%Z) w) as [t|] eqn:Et; [|congruence]. assert (Hv : In (nth k verts (0, 0, 0)%Z) verts) by (apply nth_In; assumption). destruct Henum as (_ & _ & E3).
        assert (Hf : exists x x' e, In e medges /\ In x (ends e) /\ x' = other e x /\ micronode m (nth k verts (0, 0, 0)%Z) x /\ micronode m w x').
        { apply E3 in Et. destruct Et as [Et|Et]; destruct (edges_match_inv _ Et) as (e & He & M1 & M2 & _); cbn [fst snd] in M1, M2; pose proof (single_ends _ medges_single e He) as Hd.
          - exists (fst (fst e)), (snd (fst e)), e. split; [assumption|]. split; [left; reflexivity|]. split; [unfold other; rewrite peqb_refl; reflexivity|]. auto.
          - exists (snd (fst e)), (fst (fst e)), e. split; [assumption|]. split; [right; left; reflexivity|]. split; [unfold other; rewrite (proj2 (peqb_false _ _) Hd); reflexivity|]. auto. }
        destruct Hf as (x & x' & e & He & Hx & Eo & M1 & M2). destruct (micro_index _ _ Hv M1) as (i & Hi & Ei & Vi).
        assert (Hx' : In x' order) by (apply (medges_in e); [assumption|]; rewrite Eo; apply other_ends; assumption). destruct (mic_pos x' Hx') as [Hy Ey]. set (y := pos_in x' order) in *.
        assert (Vy : vx y = w) by (apply (micro_same _ _ x'); [rewrite <- Ey; apply vert_of; assumption|assumption]).
        destruct (nbi_intro i y e) as [Hn _]; [assumption|assumption|assumption|rewrite Ei; assumption|rewrite Ei, Ey; assumption|].
        assert (Ek : i / 4 = k). { destruct (vert_of i Hi) as (Hlt & _). apply (proj1 (NoDup_nth verts (0, 0, 0)%Z) verts_nodup); [assumption|assumption|]. exact Vi. }
        pose proof (Nat.div_mod i 4 ltac:(lia)) as Hd. pose proof (Nat.mod_upper_bound i 4 ltac:(lia)) as Hb. exists (i mod 4). split; [apply in_seq; lia|]. rewrite <- Ek, <- Hd, Hn. left. assumption.
  Qed.
End Layout.
