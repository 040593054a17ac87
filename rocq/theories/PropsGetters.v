(* PropsGetters.v: C68, the getters of CVLayer report what the layer recorded, after every history of calls. *)
From Coq Require Import String Reals Lra.
From Verif Require Import Base Lattice RhgModel RhgSpec SurfaceModel SurfaceSpec SurfaceProofs PropsSurface GkpModel OpsModel EgraphModel EgraphSpec EgraphProofs CvModel CvSpec CvProofs CvNoise CvSurface PropsCv PropsCv2
  MacroModel MacroSpec CvMacroCode CvMacroModel CvMacroSpec CvMacroInit PropsCvMacro MwpmModel MwpmProofs GetterModel.
Open Scope Z_scope.

(* ---------- specification ---------- *)
Definition quad_name (q : quad) : string := match q with Qq => "q" | Qp => "p" end.
(* the call measures quadrature q of mode i; writes_bit: it may set the bit of the node p *)
Definition measures (inds : list nat) (o : call) (q : quad) (i : nat) : Prop :=
  match o with
  | CApply _ | CSyndrome _ => q = Qp /\ In i inds
  | CHom q' l _ _ _ _ => q = q' /\ In i (x_l l)
  | CPopulate _ | CDecode => False
  end.
Definition decodes (o : call) : Prop := match o with CApply _ | CDecode => True | _ => False end.
Definition measures_p (o : call) : Prop := match o with CApply _ | CSyndrome _ | CHom Qp _ _ _ _ _ => True | _ => False end.

(* ---------- what the getters read ---------- *)
Lemma getter_reads {A} (f : attrs -> A) c l : numbered c -> (forall i, In i l -> (i < v_N c)%nat) ->
  exists r, mapM (fun i => bind (to_pt c i) (fun p => Ok (f (v_attr c p)))) l = Ok r /\ Forall2 (fun i v => exists p, node_at c i p /\ v = f (v_attr c p)) l r.
Proof.
  intros [N1 _]. induction l as [|i l IH]; intros Hl; [exists []; split; [reflexivity|constructor]|]. destruct IH as (r & E & F); [intros j Hj; apply Hl; right; exact Hj|].
  destruct (proj2 (N1 i) (Hl i (or_introl eq_refl))) as (p & Hp). exists (f (v_attr c p) :: r). cbn [mapM]. unfold to_pt at 1. unfold node_at in Hp. rewrite Hp. cbn [bind]. rewrite E. split; [reflexivity|].
  constructor; [exists p; split; [exact Hp|reflexivity]|exact F].
Qed.
Lemma getter_missing {A} (f : attrs -> A) c l : numbered c -> (exists i, In i l /\ (v_N c <= i)%nat) -> mapM (fun i => bind (to_pt c i) (fun p => Ok (f (v_attr c p)))) l = Err KeyError.
Proof.
  intros [N1 N2]. induction l as [|j l IH]; intros (i & Hi & Hle); [destruct Hi|]. cbn [mapM]. unfold to_pt at 1. destruct (dget Nat.eqb (v_pts c) j) as [p|] eqn:E; [|reflexivity]. cbn [bind].
  rewrite IH; [reflexivity|]. exists i. split; [|exact Hle]. destruct Hi as [->|Hi]; [|exact Hi]. exfalso. assert (K : (i < v_N c)%nat) by (apply N1; exists p; exact E). lia.
Qed.
Lemma getter_map {A} (f : attrs -> A) c l (F : nat -> A) : numbered c -> (forall i, In i l -> exists p, node_at c i p /\ f (v_attr c p) = F i) ->
  mapM (fun i => bind (to_pt c i) (fun p => Ok (f (v_attr c p)))) l = Ok (map F l).
Proof.
  intros _. induction l as [|i l IH]; intros Hl; [reflexivity|]. destruct (Hl i (or_introl eq_refl)) as (p & Hp & Hf). cbn [mapM map]. unfold to_pt at 1. unfold node_at in Hp. rewrite Hp. cbn [bind].
  rewrite IH by (intros j Hj; apply Hl; right; exact Hj). cbn [bind]. rewrite Hf. reflexivity.
Qed.

(* ---------- frames ---------- *)
Definition keeps {A} (f : attrs -> A) (p : point) (c c' : cv) : Prop := static c c' /\ f (v_attr c' p) = f (v_attr c p).
Lemma keeps_refl {A} (f : attrs -> A) p c : keeps f p c c.
Proof. split; [apply static_refl|reflexivity]. Qed.
Lemma keeps_trans {A} (f : attrs -> A) p a b c : keeps f p a b -> keeps f p b c -> keeps f p a c.
Proof. intros [A1 A2] [B1 B2]. split; [eapply static_trans; eassumption|congruence]. Qed.
Lemma keeps_upd {A} (f : attrs -> A) p c q g : q <> p \/ (forall a, f (g a) = f a) -> keeps f p c (upd_attr c q g).
Proof.
  intros H. split; [apply static_upd|]. destruct (point_eq_dec q p) as [->|Hn]; [|rewrite upd_other by congruence; reflexivity]. rewrite upd_same. destruct H as [H|H]; [congruence|apply H].
Qed.
Lemma populate_keeps {A} (f : attrs -> A) p c d : (forall s a, f (with_state s a) = f a) -> keeps f p c (fst (populate_states c d)).
Proof.
  intros Hf. unfold populate_states. destruct (squeezed c d) as [s|]; [|apply keeps_refl]. apply (keeps_trans f p c (set_states c (add_gkp (v_N c) d s))); [split; [repeat split|reflexivity]|].
  unfold apply_state_labels. apply for_each_rel; [apply keeps_refl|apply keeps_trans|]. intros c1 e. apply for_each_rel; [apply keeps_refl|apply keeps_trans|]. intros c2 i. unfold label_one.
  destruct (to_pt c2 i); [|apply keeps_refl]. apply keeps_upd. right. intros a0. apply Hf.
Qed.
(* a measurement of quadrature q at the modes l changes neither the other attributes nor the outcomes of other nodes *)
Lemma record_keeps {A} (f : attrs -> A) p q k out l : forall n c, (forall x a, f (with_hom q x a) = f a) \/ (forall i, In i l -> ~ node_at c i p) ->
  keeps f p c (fst (for_each (fun c e => match to_pt c (snd e) with Err e => (c, Err e) | Ok p => if Nat.leb k (fst e) then (c, Err IndexError) else (upd_attr c p (with_hom q (out (fst e))), Ok tt) end) c (combine (seq n (List.length l)) l))).
Proof.
  induction l as [|i l IH]; intros n c H; [apply keeps_refl|]. cbn [List.length seq combine for_each]. cbn [fst snd]. unfold to_pt at 1. destruct (dget Nat.eqb (v_pts c) i) as [r|] eqn:E; [|apply keeps_refl].
  destruct (Nat.leb k n); [apply keeps_refl|]. eapply keeps_trans; [apply keeps_upd with (q := r) (g := with_hom q (out n))|apply IH].
  - destruct H as [H|H]; [right; intros a; apply H|left; intros ->; exact (H i (or_introl eq_refl) E)].
  - destruct H as [H|H]; [left; exact H|right; intros j Hj; exact (H j (or_intror Hj))].
Qed.
Lemma measure_keeps {A} (f : attrs -> A) p c q inds m pr d z : (forall x a, f (with_hom q x a) = f a) \/ (forall i, In i (x_l inds) -> ~ node_at c i p) -> keeps f p c (fst (measure_hom c q inds m pr d z)).
Proof.
  intros H. unfold measure_hom. cbv zeta. match goal with |- context [match ?x with Err _ => _ | Ok _ => _ end] => destruct x as [out|e] end; [|apply keeps_refl]. apply record_keeps. exact H.
Qed.
Lemma syndrome_keeps {A} (f : attrs -> A) p c inds coords d : v_code c = Some (inds, coords) -> (forall x a, f (with_homp x a) = f a) \/ (forall i, In i inds -> ~ node_at c i p) -> keeps f p c (fst (measure_syndrome c d)).
Proof. intros E H. unfold measure_syndrome. rewrite E. apply measure_keeps. exact H. Qed.
Lemma decode_keeps {A} (f : attrs -> A) p c : (forall x a, f (with_bit x a) = f a) \/ (forall inds coords, v_code c = Some (inds, coords) -> ~ In p coords) -> keeps f p c (fst (inner_decoder c)).
Proof.
  intros H. unfold inner_decoder. destruct (v_code c) as [[inds coords]|]; [|apply keeps_refl].
  assert (K : (forall x a, f (with_bit x a) = f a) \/ ~ In p coords) by (destruct H as [H|H]; [left; exact H|right; exact (H inds coords eq_refl)]). clear H. revert c K.
  induction coords as [|r l IH]; intros c K; [apply keeps_refl|]. cbn [for_each]. destruct (a_homp (v_attr c r)); [|apply keeps_refl]. eapply keeps_trans; [apply keeps_upd with (q := r) (g := with_bit (v_trans c r0))|apply IH].
  - destruct K as [K|K]; [right; intros a; apply K|left; intros ->; apply K; left; reflexivity].
  - destruct K as [K|K]; [left; exact K|right; intros Hr; apply K; right; exact Hr].
Qed.
Lemma andthen_keeps {A} (f : attrs -> A) p (x : cv * res unit) (g : cv -> unit -> cv * res unit) c : keeps f p c (fst x) -> (forall u, keeps f p (fst x) (fst (g (fst x) u))) -> keeps f p c (fst (andthen x g)).
Proof. intros H K. destruct x as [c' [u|e]]; cbn [andthen fst] in *; [eapply keeps_trans; [exact H|apply K]|exact H]. Qed.

Lemma node_static c c' i p : static c c' -> (node_at c' i p <-> node_at c i p).
Proof. intros (_ & E & _). unfold node_at. rewrite E. reflexivity. Qed.
Lemma code_static c c' : static c c' -> v_code c' = v_code c.
Proof. intros H. apply H. Qed.
Lemma numbered_static c c' : static c c' -> numbered c -> numbered c'.
Proof. intros HS (N1 & N2). destruct HS as (E1 & E2 & _). unfold numbered, node_at in *. rewrite E1, E2. split; assumption. Qed.

(* no call that measures quadrature q of mode i: the recorded outcome stays *)
Lemma hom_history c0 inds coords q i p : fresh_layer c0 -> v_code c0 = Some (inds, coords) -> node_at c0 i p -> forall os c, static c0 c -> Forall (fun o => ~ measures inds o q i) os ->
  keeps (get_hom q) p c (run_calls c os).
Proof.
  intros ((_ & N2) & _) Hc Hp. assert (Hs : forall s a, get_hom q (with_state s a) = get_hom q a) by (intros; destruct q; reflexivity).
  assert (Hb : forall s a, get_hom q (with_bit s a) = get_hom q a) by (intros; destruct q; reflexivity).
  induction os as [|o os IH]; intros c HS HF; [apply keeps_refl|]. inversion HF as [|? ? Ho HF']; subst. unfold run_calls. cbn [fold_left].
  assert (K1 : keeps (get_hom q) p c (run_call c o)).
  { assert (Hc' : v_code c = Some (inds, coords)) by (rewrite (code_static c0 c HS); exact Hc).
    assert (Hsyn : forall c1 d, static c c1 -> ~ (q = Qp /\ In i inds) -> keeps (get_hom q) p c1 (fst (measure_syndrome c1 d))).
    { intros c1 d HS1 Hn. apply (syndrome_keeps _ _ c1 inds coords); [rewrite (code_static c c1 HS1); exact Hc'|]. destruct q; [left; reflexivity|]. right. intros j Hj Hnj. apply Hn. split; [reflexivity|].
      apply (node_static c c1 _ _ HS1) in Hnj. apply (node_static c0 c _ _ HS) in Hnj. rewrite (N2 i j p Hp Hnj). exact Hj. }
    destruct o as [d|d|d| |q' l m pr d z]; unfold run_call; cbn [measures] in Ho.
    - apply populate_keeps. exact Hs.
    - unfold apply_noise. apply andthen_keeps; [apply populate_keeps; exact Hs|]. intros _. pose proof (populate_keeps (get_hom q) p c d Hs) as [HS1 _]. apply andthen_keeps; [apply Hsyn; assumption|].
      intros _. apply decode_keeps. left. exact Hb.
    - apply Hsyn; [apply static_refl|exact Ho].
    - apply decode_keeps. left. exact Hb.
    - apply measure_keeps. destruct q, q'; try (left; reflexivity); right; intros j Hj Hnj; apply Ho; (split; [reflexivity|]); apply (node_static c0 c _ _ HS) in Hnj; rewrite (N2 i j p Hp Hnj); exact Hj. }
  eapply keeps_trans; [exact K1|]. apply IH; [eapply static_trans; [exact HS|apply K1]|exact HF'].
Qed.
(* ... and the bit, when no call decodes or the node is not a syndrome node *)
Lemma bit_history c0 inds coords p : fresh_layer c0 -> v_code c0 = Some (inds, coords) -> forall os c, static c0 c -> ~ In p coords \/ Forall (fun o => ~ decodes o) os -> keeps a_bit p c (run_calls c os).
Proof.
  intros _ Hc. induction os as [|o os IH]; intros c HS HF; [apply keeps_refl|]. unfold run_calls. cbn [fold_left].
  assert (Hh : forall q x a, a_bit (with_hom q x a) = a_bit a) by (intros []; reflexivity).
  assert (K1 : keeps a_bit p c (run_call c o)).
  { assert (Hd : ~ In p coords -> forall c1, static c c1 -> keeps a_bit p c1 (fst (inner_decoder c1))).
    { intros Hn c1 HS1. apply decode_keeps. right. intros i0 c2 E2. rewrite (code_static c c1 HS1), (code_static c0 c HS), Hc in E2. injection E2 as <- <-. exact Hn. }
    assert (Hsyn : forall c1 d, static c c1 -> keeps a_bit p c1 (fst (measure_syndrome c1 d))).
    { intros c1 d HS1. apply (syndrome_keeps _ _ c1 inds coords); [rewrite (code_static c c1 HS1), (code_static c0 c HS); exact Hc|left; reflexivity]. }
    assert (Ho : ~ In p coords \/ ~ decodes o) by (destruct HF as [HF|HF]; [left; exact HF|right; inversion HF; assumption]).
    destruct o as [d|d|d| |q' l m pr d z]; unfold run_call; cbn [decodes] in Ho.
    - apply populate_keeps. reflexivity.
    - destruct Ho as [Ho|Ho]; [|exfalso; apply Ho; exact I]. unfold apply_noise. pose proof (populate_keeps a_bit p c d (fun _ _ => eq_refl)) as K. apply andthen_keeps; [exact K|]. intros _. destruct K as [HS1 _].
      apply andthen_keeps; [apply Hsyn; exact HS1|]. intros _. apply Hd; [exact Ho|]. eapply static_trans; [exact HS1|]. apply (Hsyn _ d HS1).
    - apply Hsyn. apply static_refl.
    - destruct Ho as [Ho|Ho]; [|exfalso; apply Ho; exact I]. apply Hd; [exact Ho|apply static_refl].
    - apply measure_keeps. left. apply Hh. }
  eapply keeps_trans; [exact K1|]. apply IH; [eapply static_trans; [exact HS|apply K1]|]. destruct HF as [HF|HF]; [left; exact HF|right; inversion HF; assumption].
Qed.

(* ---------- C68 ---------- *)
(* Shape: without indices the getters list all N modes in the order of the indices; an index that is no mode raises KeyError; a quadrature
   other than "q" and "p" gives None for every mode. *)
Theorem C68_shape : forall c os, fresh_layer c -> Forall (call_ok (v_N c)) os -> let after := run_calls c os in
  (forall quad, get_hom_outcomes after None quad = get_hom_outcomes after (Some (seq 0 (v_N c))) quad) /\ get_bit_values after None = get_bit_values after (Some (seq 0 (v_N c))) /\
  (forall l, (forall i, In i l -> (i < v_N c)%nat) ->
     (forall q, exists r, get_hom_outcomes after (Some l) (quad_name q) = Ok r /\ Forall2 (fun i v => exists p, node_at c i p /\ v = get_hom q (v_attr after p)) l r) /\
     (forall quad, quad <> "p"%string -> quad <> "q"%string -> get_hom_outcomes after (Some l) quad = Ok (map (fun _ => None) l)) /\
     (exists r, get_bit_values after (Some l) = Ok r /\ Forall2 (fun i v => exists p, node_at c i p /\ v = a_bit (v_attr after p)) l r)) /\
  (forall l, (exists i, In i l /\ (v_N c <= i)%nat) -> (forall quad, get_hom_outcomes after (Some l) quad = Err KeyError) /\ get_bit_values after (Some l) = Err KeyError).
Proof.
  intros c os HF Hok after. pose proof (lv_static _ _ (run_calls_live c os c HF (fresh_live c) Hok)) as HS. fold after in HS. pose proof HF as (HN & _). pose proof (numbered_static c after HS HN) as HN'.
  pose proof HS as (EN & _). unfold get_hom_outcomes, get_bit_values, all_or. rewrite EN. split; [reflexivity|]. split; [reflexivity|]. split.
  - intros l Hl. assert (Hl' : forall i, In i l -> (i < v_N after)%nat) by (intros i Hi; rewrite EN; auto).
    assert (G : forall A (f : attrs -> A), exists r, mapM (fun i => bind (to_pt after i) (fun p => Ok (f (v_attr after p)))) l = Ok r /\ Forall2 (fun i v => exists p, node_at c i p /\ v = f (v_attr after p)) l r).
    { intros A f. destruct (getter_reads f after l HN' Hl') as (r & E & F). exists r. split; [exact E|]. clear - F HS. induction F as [|i v l r (p & Hp & Hv) F IH]; constructor; [|exact IH]. exists p. split; [apply (node_static c after _ _ HS); exact Hp|exact Hv]. }
    split; [intros q; destruct (G _ (get_hom_val (quad_name q))) as (r & E & F); exists r; split; [exact E|]; destruct q; exact F|]. split; [|apply G].
    intros quad H1 H2. apply (getter_map (get_hom_val quad) after l (fun _ => None) HN'). intros i Hi. destruct (proj2 (proj1 HN' i) (Hl' i Hi)) as (p & Hp). exists p. split; [exact Hp|].
    unfold get_hom_val. rewrite (proj2 (String.eqb_neq _ _) H1), (proj2 (String.eqb_neq _ _) H2). reflexivity.
  - intros l (i & Hi & Hle). assert (K : exists i, In i l /\ (v_N after <= i)%nat) by (exists i; rewrite EN; auto). split; [intros quad; apply (getter_missing (get_hom_val quad))|apply (getter_missing a_bit)]; assumption.
Qed.
Print Assumptions C68_shape.

(* A mode whose quadrature no call of the history measured, whether or not the calls succeeded, shows what it showed at the start (None on a
   fresh lattice); so does the bit of a node that is no syndrome node, or of any node when nothing decodes. *)
Theorem C68_untouched : forall c inds coords os, fresh_layer c -> v_code c = Some (inds, coords) -> Forall (call_ok (v_N c)) os -> let after := run_calls c os in
  (forall q l, (forall i o, In i l -> In o os -> ~ measures inds o q i) -> get_hom_outcomes after (Some l) (quad_name q) = get_hom_outcomes c (Some l) (quad_name q)) /\
  (forall l, (forall i p, In i l -> node_at c i p -> ~ In p coords) \/ Forall (fun o => ~ decodes o) os -> get_bit_values after (Some l) = get_bit_values c (Some l)).
Proof.
  intros c inds coords os HF Hc Hok after. pose proof (lv_static _ _ (run_calls_live c os c HF (fresh_live c) Hok)) as HS. fold after in HS. pose proof HS as (_ & EP & _).
  assert (G : forall A (f : attrs -> A) l, (forall i p, In i l -> node_at c i p -> f (v_attr after p) = f (v_attr c p)) ->
    mapM (fun i => bind (to_pt after i) (fun p => Ok (f (v_attr after p)))) l = mapM (fun i => bind (to_pt c i) (fun p => Ok (f (v_attr c p)))) l).
  { intros A f l. induction l as [|i l IH]; intros Hl; [reflexivity|]. cbn [mapM]. rewrite IH by (intros j p Hj; apply Hl; right; exact Hj). unfold to_pt at 1 3. rewrite EP.
    destruct (dget Nat.eqb (v_pts c) i) as [p|] eqn:E; [|reflexivity]. cbn [bind]. rewrite (Hl i p (or_introl eq_refl) E). reflexivity. }
  split.
  - intros q l Hl. apply (G _ (get_hom_val (quad_name q))). intros i p Hi Hp. destruct (hom_history c inds coords q i p HF Hc Hp os c (static_refl c)) as [_ K].
    { apply Forall_forall. intros o Ho. apply Hl; assumption. } destruct q; exact K.
  - intros l Hl. apply (G _ a_bit). intros i p Hi Hp. apply (bit_history c inds coords p HF Hc os c (static_refl c)). destruct Hl as [Hl|Hl]; [left; apply (Hl i p Hi Hp)|right; exact Hl].
Qed.
Print Assumptions C68_untouched.

(* After a trial, and until p is measured again, the getters give for every list of syndrome modes the outcomes of that trial and their
   translations, in the order asked for; the outcomes are those of the noise model (C40). *)
Theorem C68_last_trial : forall c inds coords os d more l, fresh_layer c -> code_layer c inds coords -> Forall (call_ok (v_N c)) (os ++ CApply d :: more) ->
  v_order c = "initial"%string -> (0 < v_delta c)%R -> (forall x, v_states c = [("p"%string, x)] -> x_arr x = true) ->
  Forall (fun o => ~ measures_p o) more -> (forall i, In i l -> exists p, In p coords /\ node_at c i p) ->
  let trial := run_calls c (os ++ [CApply d]) in let after := run_calls c (os ++ CApply d :: more) in
  exists sq sp, std_spec c (inds_of trial "p") (inds_of trial "GKP") sq sp /\
    let h i := (sp i * d_z d (v_N c + i)%nat + Rsum (fun j => v_adj c i j * (sq j * d_z d j)) (v_N c))%R in
    get_hom_outcomes after (Some l) "p" = Ok (map (fun i => Some (h i)) l) /\ get_bit_values after (Some l) = Ok (map (fun i => Some (v_trans c (h i))) l).
Proof.
  intros c inds coords os d more l HF HC Hok Ho Hde Harr Hm Hl trial after. apply Forall_app in Hok. destruct Hok as [Hok1 Hok2]. inversion Hok2 as [|? ? Hd Hok3]; subst. cbn in Hd.
  pose proof (run_calls_live c os c HF (fresh_live c) Hok1) as HL. assert (Hd0 : v_delta c <> 0%R) by lra.
  destruct (apply_noise_ok c (run_calls c os) d inds coords HF HL Hd HC Ho Hd0 Harr) as (c1 & sq & sp & E1 & HL1 & _ & _ & _ & Std & Hh).
  assert (Et : trial = c1) by (unfold trial, run_calls; rewrite fold_left_app; cbn [fold_left run_call]; fold (run_calls c os); unfold run_call; rewrite E1; reflexivity).
  assert (Ea : after = run_calls c1 more) by (unfold after, run_calls; rewrite fold_left_app; cbn [fold_left]; f_equal; fold (run_calls c os); unfold run_call; rewrite E1; reflexivity).
  set (h i := (sp i * d_z d (v_N c + i)%nat + Rsum (fun j => v_adj c i j * (sq j * d_z d j)) (v_N c))%R) in *.
  assert (Inv : forall more c1, live c c1 -> Forall (call_ok (v_N c)) more -> Forall (fun o => ~ measures_p o) more ->
    (forall i p, In p coords -> node_at c i p -> a_homp (v_attr c1 p) = Some (h i) /\ a_bit (v_attr c1 p) = Some (v_trans c (h i))) ->
    (forall i p, In p coords -> node_at c i p -> a_homp (v_attr (run_calls c1 more) p) = Some (h i) /\ a_bit (v_attr (run_calls c1 more) p) = Some (v_trans c (h i))) /\ live c (run_calls c1 more)).
  { clear c1 E1 HL1 Std Hh Et Ea. clear Hm Hok2 Hok3 after more. induction more as [|o more IH]; intros c1 HL1 Hok Hm Hv; [split; assumption|]. inversion Hok as [|? ? Hok1' Hok2']; subst. inversion Hm as [|? ? Hm1 Hm2]; subst.
    unfold run_calls. cbn [fold_left]. apply IH; [apply run_call_live; assumption|assumption|assumption|]. pose proof (lv_static _ _ HL1) as HS. pose proof HC as (Hc & Hci & Hcc).
    intros i p Hp Hn. destruct (Hv i p Hp Hn) as [V1 V2].
    assert (Q : forall f : attrs -> option R, keeps a_homp p c1 (run_call c1 o) -> keeps a_bit p c1 (run_call c1 o) -> a_homp (v_attr (run_call c1 o) p) = Some (h i) /\ a_bit (v_attr (run_call c1 o) p) = Some (v_trans c (h i))).
    { intros _ [_ K1] [_ K2]. rewrite K1, K2. split; assumption. }
    destruct o as [d'|d'|d'| |q' l' m pr d' z]; cbn [measures_p] in Hm1; try (exfalso; apply Hm1; exact I).
    - apply (Q a_homp); apply populate_keeps; reflexivity.
    - unfold run_call. assert (Hc1 : v_code c1 = Some (inds, coords)) by (rewrite (code_static c c1 HS); exact Hc).
      destruct (inner_decoder_ok c1 inds coords (fun p => match a_homp (v_attr c1 p) with Some x => x | None => 0%R end) Hc1) as (c2 & E2 & K2 & H2 & B2).
      { intros p' Hp'. destruct (Hcc p' Hp') as (j & _ & Hj). rewrite (proj1 (Hv j p' Hp' Hj)). reflexivity. }
      rewrite E2. cbn [fst]. rewrite H2, (B2 p Hp), V1. split; [reflexivity|]. pose proof HS as (_ & _ & _ & _ & _ & _ & _ & ET & _). rewrite ET. reflexivity.
    - destruct q'; [|exfalso; apply Hm1; exact I]. apply (Q a_homp); unfold run_call; apply measure_keeps; left; reflexivity. }
  destruct (Inv more c1 HL1 Hok3 Hm) as [Hv HLa]. { intros i p Hp Hn. destruct (Hh i p Hp Hn) as (x & A & B & C). subst x. split; assumption. }
  rewrite <- Ea in Hv, HLa. pose proof (lv_static _ _ HLa) as HSa. pose proof HF as (HN & _). pose proof (numbered_static c after HSa HN) as HN'. exists sq, sp. rewrite Et. split; [exact Std|]. cbv zeta.
  assert (Hp : forall i, In i l -> exists p, node_at after i p /\ In p coords /\ node_at c i p) by (intros i Hi; destruct (Hl i Hi) as (p & Hp & Hn); exists p; split; [apply (node_static c after _ _ HSa); exact Hn|split; assumption]).
  split; [apply (getter_map (get_hom_val "p") after l (fun i => Some (h i)) HN')|apply (getter_map a_bit after l (fun i => Some (v_trans c (h i))) HN')]; intros i Hi; destruct (Hp i Hi) as (p & P1 & P2 & P3); exists p; (split; [exact P1|]); apply (Hv i p P2 P3).
Qed.
Print Assumptions C68_last_trial.

(* p_inds: exactly the modes labelled "p", after every history in which states were assigned.  gkp_inds: the modes labelled "GKP" after the
   first assignment only. *)
Theorem C68_p_inds : forall c os o d more, fresh_layer c -> Forall (call_ok (v_N c)) (os ++ o :: more) -> assigns o = Some d -> Forall (fun o => assigns o = None) more ->
  let after := run_calls c (os ++ o :: more) in
  exists x, get_p_inds after = Some x /\ x_l x = trial_p c d /\ forall i p, node_at c i p -> (In i (x_l x) <-> a_state (v_attr after p) = Some "p"%string) /\ (~ In i (x_l x) <-> a_state (v_attr after p) = Some "GKP"%string).
Proof.
  intros c os o d more HF Hok Ho Hm after. destruct (C39_labels_after_every_call c os o d more HF Hok Ho Hm) as (L & P & _).
  pose proof (run_calls_live c _ c HF (fresh_live c) Hok) as HL. fold after in L, P, HL.
  assert (X : exists x, get_p_inds after = Some x).
  { unfold get_p_inds. destruct (lv_states _ _ HL) as [E|(x & G & E & _)]; rewrite E; [|exists x; reflexivity]. destruct HF as (_ & (x & E0 & _) & _). rewrite E0. exists x. reflexivity. }
  destruct X as (x & Ex). exists x. split; [exact Ex|]. assert (El : x_l x = trial_p c d) by (rewrite <- P; unfold inds_of; unfold get_p_inds in Ex; rewrite Ex; reflexivity). split; [exact El|].
  intros i p Hn. rewrite (L i p Hn), El. destruct (memn i (trial_p c d)) eqn:E.
  - apply memn_In in E. split; [tauto|]. split; [intros K; destruct (K E)|discriminate].
  - apply memn_false in E. split; [|tauto]. split; [intros K; destruct (E K)|discriminate].
Qed.
Print Assumptions C68_p_inds.
Theorem C68_gkp_inds_partial : forall c os o d more, fresh_layer c -> Forall (call_ok (v_N c)) (os ++ o :: more) -> Forall (fun o => assigns o = None) os -> assigns o = Some d -> Forall (fun o => assigns o = None) more ->
  let after := run_calls c (os ++ o :: more) in
  exists x, get_gkp_inds after = Some x /\ NoDup (x_l x) /\ forall i p, node_at c i p -> (In i (x_l x) <-> a_state (v_attr after p) = Some "GKP"%string).
Proof.
  intros c os o d more HF Hok Hos Ho Hm after. destruct (C39_partition_partial c os o d more HF Hok Hos Ho Hm) as (A & B & C). destruct (C39_labels_after_every_call c os o d more HF Hok Ho Hm) as (L & P & _). fold after in A, B, C, L, P.
  pose proof HF as ((N1 & _) & (x0 & E0 & _) & _). pose proof (run_calls_live c _ c HF (fresh_live c) Hok) as HL. fold after in HL.
  assert (X : (exists x, get_gkp_inds after = Some x) \/ v_states after = v_states c).
  { unfold get_gkp_inds. destruct (lv_states _ _ HL) as [E|(x & G & E & _)]; [right; exact E|left; rewrite E; eexists; reflexivity]. }
  assert (Y : exists x, get_gkp_inds after = Some x).
  { destruct X as [X|X]; [exact X|]. exfalso. (* states were assigned *)
    apply Forall_app in Hok. destruct Hok as [Hok1 Hok2]. inversion Hok2 as [|? ? Hd Hok3]; subst. unfold call_ok in Hd. rewrite Ho in Hd.
    pose proof (run_calls_live c os c HF (fresh_live c) Hok1) as HL1. destruct (populate_ok c (run_calls c os) d HF HL1 Hd) as (c1 & x & G & Ep & _ & Es & _).
    assert (K : v_states (run_call (run_calls c os) o) = [("p"%string, x); ("GKP"%string, arr G)]).
    { destruct o as [d'|d'|d'| |]; try discriminate; injection Ho as ->; unfold run_call; [rewrite Ep; exact Es|]. unfold apply_noise. rewrite Ep. cbn [andthen]. destruct (after_populate_kept c1 d) as (_ & K & _). rewrite K. exact Es. }
    destruct (run_calls_other more (run_call (run_calls c os) o) Hm) as (_ & K2 & _). unfold after, run_calls in X. rewrite fold_left_app in X. cbn [fold_left] in X. unfold run_calls in K2, K. rewrite X, K, E0 in K2. discriminate. }
  destruct Y as (x & Ex). exists x. split; [exact Ex|]. assert (El : inds_of after "GKP" = x_l x) by (unfold inds_of; unfold get_gkp_inds in Ex; rewrite Ex; reflexivity). rewrite El in *.
  split; [exact A|]. intros i p Hn. rewrite (L i p Hn). destruct (memn i (trial_p c d)) eqn:E.
  - apply memn_In in E. rewrite <- P in E. split; [intros K; destruct (C i E K)|discriminate].
  - apply memn_false in E. rewrite <- P in E. split; [reflexivity|]. intros _. assert (K : (i < v_N c)%nat) by (apply N1; exists p; exact Hn). apply B in K. tauto.
Qed.
Print Assumptions C68_gkp_inds_partial.
Theorem C68_gkp_inds_refuted : forall c d1 d2, fresh_layer c -> v_pswap c = None -> draws_ok (v_N c) d1 -> draws_ok (v_N c) d2 ->
  let after := run_calls c [CApply d1; CApply d2] in
  exists x, get_gkp_inds after = Some x /\ x_l x = [] /\ forall i p, node_at c i p -> ~ In i (inds_of c "p") -> a_state (v_attr after p) = Some "GKP"%string.
Proof.
  intros c d1 d2 HF Hps H1 H2 after. destruct (C39_partition_refuted c [] d1 d2 HF Hps H1 H2 (Forall_nil _) (Forall_nil _)) as [A B]. cbn [app] in A, B. fold after in A, B.
    assert (X : exists x, get_gkp_inds after = Some x).
  { assert (Hok1 : Forall (call_ok (v_N c)) [CApply d1]) by (constructor; [exact H1|constructor]). pose proof (run_calls_live c [CApply d1] c HF (fresh_live c) Hok1) as HL1. destruct (populate_ok c (run_calls c [CApply d1]) d2 HF HL1 H2) as (c1 & x & G & Ep & _ & Es & _).
    exists (arr G). unfold get_gkp_inds, after, run_calls. cbn [fold_left]. change (fold_left run_call [CApply d1] c) with (run_call c (CApply d1)) in Ep. unfold run_calls in Ep. cbn [fold_left] in Ep.
    unfold run_call at 1. unfold apply_noise. rewrite Ep. cbn [andthen]. destruct (after_populate_kept c1 d2) as (_ & K & _). rewrite K, Es. reflexivity. }
  destruct X as (x & Ex). exists x. split; [exact Ex|]. split; [unfold inds_of in A; unfold get_gkp_inds in Ex; rewrite Ex in A; exact A|]. intros i p Hn Hi. apply (B i p Hn Hi).
Qed.
Print Assumptions C68_gkp_inds_refuted.

(* CVMacroLayer inherits the getters, but its bits are on the reduced graph: bit_values() gives None for every mode after every number of
   trials, although every node of the code has its bit. *)
Lemma lift_keeps {A} (f : attrs -> A) p (w : cvm) (x : cv * res unit) : keeps f p (w_cv w) (fst x) -> keeps f p (w_cv w) (w_cv (fst (lift_cv w x))).
Proof. intros H. exact H. Qed.
Lemma andthen_keeps_macro {A} (f : attrs -> A) p (x : cvm * res unit) (g : cvm -> unit -> cvm * res unit) c : keeps f p c (w_cv (fst x)) -> (forall u, keeps f p (w_cv (fst x)) (w_cv (fst (g (fst x) u)))) -> keeps f p c (w_cv (fst (andthen x g))).
Proof. intros H K. destruct x as [c' [u|e]]; cbn [andthen fst] in *; [eapply keeps_trans; [exact H|apply K]|exact H]. Qed.
Lemma loop_keeps_macro {B} (h : cvm -> B -> cvm * res unit) l : (forall w x, w_cv (fst (h w x)) = w_cv w) -> forall w, w_cv (fst (for_each h w l)) = w_cv w.
Proof. intros H. induction l as [|x l IH]; intros w; [reflexivity|]. cbn [for_each]. specialize (H w x). destruct (h w x) as [w' [u|e]]; cbn [fst] in *; [rewrite IH; exact H|exact H]. Qed.
Lemma macro_keeps_bits expf w d p : keeps a_bit p (w_cv w) (w_cv (fst (apply_noise_macro expf w d))).
Proof.
  unfold apply_noise_macro. apply andthen_keeps_macro; [apply lift_keeps, populate_keeps; reflexivity|]. intros _. set (w1 := fst (lift_cv w (populate_states (w_cv w) d))). clearbody w1.
  destruct (permute_star_inds (w_cv w1)) as [perm|]; [|apply keeps_refl]. apply andthen_keeps_macro.
  - unfold apply_labels. apply andthen_keeps_macro.
    + apply lift_keeps. unfold label_bodies. apply for_each_rel; [apply keeps_refl|apply keeps_trans|]. intros c1 e. destruct (to_pt c1 (snd e)); [|apply keeps_refl]. apply keeps_upd. right. reflexivity.
    + intros _. rewrite loop_keeps_macro; [apply keeps_refl|]. intros w2 i. unfold label_reduced. destruct (bind _ _) as [[q s]|]; [|reflexivity]. destruct (pmem _ _); reflexivity.
  - intros _. set (w2 := fst (apply_labels w1 perm)). clearbody w2. destruct (entangle_states w2 perm d) as [[quads qperm]|]; [|apply keeps_refl]. apply andthen_keeps_macro.
    + apply lift_keeps. unfold measure_macro. cbv zeta. apply andthen_keeps; [apply measure_keeps; left; reflexivity|]. intros _. apply measure_keeps. left. reflexivity.
    + intros _. rewrite loop_keeps_macro; [apply keeps_refl|]. intros w3 j. unfold reduce_macronode. destruct (reduced_values _ _ _ _) as [[[v x] y]|]; [|reflexivity]. destruct (pmem _ _); reflexivity.
Qed.
Lemma trials_keep_bits expf p ds : forall w, keeps a_bit p (w_cv w) (w_cv (fst (trials_macro expf w ds))).
Proof.
  unfold trials_macro. induction ds as [|d ds IH]; intros w; [apply keeps_refl|]. cbn [for_each]. pose proof (macro_keeps_bits expf w d p) as K. destruct (apply_noise_macro expf w d) as [w' [u|e]]; cbn [fst] in *; [|exact K].
  eapply keeps_trans; [exact K|apply IH].
Qed.
Lemma macro_layer_attr e b c es perf a0 r0 delta bs states p_swap trans w : macro_layer e b c es perf a0 r0 delta bs states p_swap trans = Ok w -> v_attr (w_cv w) = a0.
Proof.
  unfold macro_layer, cvm_init. intros H. destruct (macronize _ _ _ _ _ _) as [m|]; [|discriminate]. cbn [bind] in H. unfold cv_init in H. destruct (adj_generator _ _) as [g r]. cbn [snd] in H.
  destruct r as [rows|]; [|discriminate]. cbn [bind] in H. match type of H with bind (bind ?x _) _ = _ => destruct x as [pf|]; [|discriminate] end. cbn [bind] in H.
  match type of H with bind ?x _ = _ => assert (K : exists v, x = Ok v /\ v_attr v = a0) end.
  { destruct p_swap; [destruct states as [s|]; [destruct (dget String.eqb s "p"%string) as [x|]; [destruct (Nat.eqb _ 0); [|discriminate H]|discriminate H]|]|]; eexists; (split; [reflexivity|reflexivity]). }
  destruct K as (v & Ev & Ha). rewrite Ev in H. cbn [bind] in H. match type of H with bind ?x _ = _ => destruct x; [|discriminate] end. cbn [bind] in H. injection H as <-. exact Ha.
Qed.
Theorem C68_macro_bits_refuted : forall D e b pol c es perf states p_swap a0 r0 delta trans expf, macro_input D e b pol c es perf states p_swap -> (0 <= delta)%R -> (forall p, a_bit (a0 p) = None) ->
  exists w, macro_layer e b c es perf a0 r0 delta None states p_swap trans = Ok w /\
    forall ds d, Forall (draws_ok (v_N (w_cv w))) (ds ++ [d]) -> exists w', trials_macro expf w (ds ++ [d]) = (w', Ok tt) /\
      get_bit_values (w_cv w') None = Ok (repeat None (v_N (w_cv w))) /\ (0 < v_N (w_cv w))%nat /\ forall v, In v (node_list (sc_graph c)) -> r_bit (w_red w' v) <> None.
Proof.
  intros D e b pol c es perf states p_swap a0 r0 delta trans expf HI Hd Ha. destruct (code_macro_trial D e b pol c es perf states p_swap a0 r0 delta trans expf HI) as (m & w & _ & _ & _ & Hne & Ew & _ & _ & _ & HF & _ & HN & _).
  destruct (C51_every_trial_succeeds D e b pol c es perf states p_swap a0 r0 delta trans expf HI Hd) as (w0 & Ew0 & _ & HT). rewrite Ew in Ew0. injection Ew0 as <-. exists w. split; [exact Ew|]. intros ds d Hds.
  destruct (HT ds d Hds) as (w' & Et & Hv). exists w'. split; [exact Et|].
  assert (K : forall p, keeps a_bit p (w_cv w) (w_cv w')) by (intros p; pose proof (trials_keep_bits expf p (ds ++ [d]) w) as K; rewrite Et in K; exact K).
  destruct (K (0, 0, 0)) as [HS _]. pose proof HF as (HNb & _). pose proof (numbered_static _ _ HS HNb) as HN'. pose proof HS as (EN & _). split; [|split].
  - unfold get_bit_values, all_or. rewrite EN. rewrite (getter_map a_bit (w_cv w') (seq 0 (v_N (w_cv w))) (fun _ => None) HN').
    + f_equal. clear. generalize 0%nat. induction (v_N (w_cv w)) as [|n IH]; intros k; [reflexivity|]. cbn [seq map repeat]. rewrite IH. reflexivity.
    + intros i Hi. apply in_seq in Hi. destruct (proj2 (proj1 HN' i)) as (p & Hp); [rewrite EN; lia|]. exists p. split; [exact Hp|]. rewrite (proj2 (K p)), (macro_layer_attr _ _ _ _ _ _ _ _ _ _ _ _ _ Ew). apply Ha.
  - rewrite HN. destruct (node_list (sc_graph c)) as [|x l]; [congruence|]. cbn [List.length]. lia.
  - intros v Hin. destruct (Hv v Hin) as (s & x & pr & E & _). rewrite E. discriminate.
Qed.
Print Assumptions C68_macro_bits_refuted.

(* the hypotheses are met: two trials with a measurement of q and a second decoding on a CVLayer of a code, and a CVMacroLayer *)
Example C68_nonvacuous : let D := (2, 2, 3) in let c := mk_code D EcDual BdToric None in
  let d := {| d_p := []; d_unif := fun _ => (1 / 2)%R; d_bit := fun k => Z.of_nat k mod 2; d_z := fun k => INR k; d_z2 := fun k => INR k; d_list := fun l => rev l |} in
  let more := [CHom Qq (arr [0%nat]) None true d (d_z d); CDecode; CPopulate d] in
  exists inds g v, cv_init (code_egraph c) (fun _ => no_attrs) None (Some (inds, sc_syn c)) (1 / 10)%R None None None None = (g, Ok v) /\ fresh_layer v /\ code_layer v inds (sc_syn c) /\ v_order v = "initial"%string /\ (0 < v_delta v)%R /\
    (forall x, v_states v = [("p"%string, x)] -> x_arr x = true) /\ Forall (call_ok (v_N v)) ([CApply d] ++ CApply d :: more) /\ Forall (fun o => ~ measures_p o) more /\
    (forall i o, In i [1%nat] -> In o more -> ~ measures inds o Qq i) /\ inds <> [] /\ v_N v = 60%nat.
Proof.
  intros D c d more. assert (HD : dims_ge2 D) by (intros []; simpl; lia). assert (HC : is_surface_code D EcDual BdToric None c) by apply mk_code_ok. destruct (code_inds_exist _ _ _ _ _ HD HC) as (inds & Hi). exists inds.
  destruct (code_cv_init _ _ _ _ c HD HC (fun _ => no_attrs) None (1 / 10)%R None None None None inds Hi I ltac:(congruence)) as (g & v & E & H1 & H2 & H3 & H4 & _ & H5 & H6 & H7 & H8 & H9).
  exists g, v. split; [exact E|]. assert (HN : v_N v = 60%nat) by (rewrite H3; vm_compute; reflexivity). split; [|split; [exact H2|]; split; [exact H7|]; split; [rewrite H5; lra|]; split; [|split; [|split; [|split; [|split]]]]].
  - split; [exact H1|]. split; [|rewrite H6; exact I]. exists (arr []). split; [exact H9|intros i []].
  - intros x Hx. rewrite H9 in Hx. injection Hx as <-. reflexivity.
  - assert (Hd : draws_ok (v_N v) d).
    { clear. split; [constructor|]. split; [intros i []|]. split; [intros k; cbn [d_unif d]; lra|]. split; [intros k; cbn [d_bit d]; pose proof (Z.mod_pos_bound (Z.of_nat k) 2 ltac:(lia)); lia|]. intros l _. apply Permutation_sym, Permutation_rev. }
    cbn [app]. unfold more. constructor; [exact Hd|]. constructor; [exact Hd|]. constructor; [exact I|]. constructor; [exact I|]. constructor; [exact Hd|constructor].
  - unfold more. repeat (constructor; [intros K; exact K|]). constructor.
  - intros i o [<-|[]] [<-|[<-|[<-|[]]]] K; [|exact K|exact K]. destruct K as [_ [K|[]]]. discriminate.
  - intros ->. destruct H2 as (_ & _ & H2). destruct (H2 (hd (0, 0, 0) (sc_syn c))) as (i & [] & _). vm_compute. left. reflexivity.
  - exact HN.
Qed.
