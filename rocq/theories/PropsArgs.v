(* PropsArgs.v: C73, which arguments RHG_graph and SurfaceCode accept, and what they mean. *)
From Coq Require Import String.
From Verif Require Import Base Lattice RhgModel RhgSpec SurfaceModel SurfaceProofs SurfaceSpec ArgModel.
Open Scope Z_scope.
Open Scope string_scope.
Open Scope Z_scope.

(* ---------- specification ---------- *)
(* the documented names of boundaries, for x, y, z *)
Definition documented_bounds : list (string * bnds) :=
  [("open_primal", (BPrimal, BDual, BPrimal)); ("open_dual", (BPrimal, BDual, BDual)); ("primal", (BPrimal, BPrimal, BPrimal)); ("dual", (BDual, BDual, BDual));
   ("periodic", (BPeriodic, BPeriodic, BPeriodic)); ("periodic_primal", (BPeriodic, BPeriodic, BPrimal)); ("periodic_dual", (BPeriodic, BPeriodic, BDual))].
Definition name_of (b : bnd) : string := match b with BPrimal => "primal" | BDual => "dual" | BPeriodic => "periodic" end.
(* an integer d stands for (d, d, d), a sequence of three integers for itself *)
Inductive means_dims : parg -> dims -> Prop :=
  | md_int d : means_dims (AInt d) (d, d, d)
  | md_seq k x y z : means_dims (ASeq k [EInt x; EInt y; EInt z]) (x, y, z).
Definition triple (B : bnds) : list elt := [EStr (name_of (get AX B)); EStr (name_of (get AY B)); EStr (name_of (get AZ B))].
Inductive means_bounds : parg -> bnds -> Prop :=
  | mb_name s B : In (s, B) documented_bounds -> means_bounds (AStr s) B
  | mb_array B : means_bounds (ASeq Array (triple B)) B.
(* not one single name (see ArgModel) *)
Definition not_single (y : parg) : Prop := match y with ASeq _ [_] => False | _ => True end.

(* ---------- lemmas ---------- *)
Lemma bnd_of_name b : bnd_of_str (name_of b) = Some b.
Proof. destruct b; reflexivity. Qed.
Lemma bnd_of_inv s b : bnd_of_str s = Some b -> s = name_of b.
Proof.
  unfold bnd_of_str. destruct (String.eqb_spec s "primal") as [->|]; [intros [= <-]; reflexivity|]. destruct (String.eqb_spec s "dual") as [->|]; [intros [= <-]; reflexivity|].
  destruct (String.eqb_spec s "periodic") as [->|]; [intros [= <-]; reflexivity|discriminate].
Qed.
Lemma str_bounds s B : str_to_bound s = Some B <-> In (s, B) documented_bounds.
Proof.
  split.
  - unfold str_to_bound.
    destruct (String.eqb_spec s "open_primal") as [->|]; [intros [= <-]; cbn; auto|]. destruct (String.eqb_spec s "open_dual") as [->|]; [intros [= <-]; cbn; auto|].
    destruct (String.eqb_spec s "primal") as [->|]; [intros [= <-]; cbn; auto|]. destruct (String.eqb_spec s "dual") as [->|]; [intros [= <-]; cbn; auto 6|].
    destruct (String.eqb_spec s "periodic") as [->|]; [intros [= <-]; cbn; auto 7|]. destruct (String.eqb_spec s "periodic_primal") as [->|]; [intros [= <-]; cbn; auto 8|].
    destruct (String.eqb_spec s "periodic_dual") as [->|]; [intros [= <-]; cbn; auto 9|]. discriminate.
  - intros H. cbn in H. destruct H as [H|[H|[H|[H|[H|[H|[H|[]]]]]]]]; injection H as <- <-; reflexivity.
Qed.
Lemma names_inv l : forall bs, names l = Ok bs <-> l = map (fun b => EStr (name_of b)) bs.
Proof.
  induction l as [|[z| |s] l IH]; intros bs; cbn [names].
  - split; [intros [= <-]; reflexivity|]. destruct bs; [reflexivity|discriminate].
  - split; [discriminate|]. destruct bs; discriminate.
  - split; [discriminate|]. destruct bs; discriminate.
  - destruct (bnd_of_str s) as [b|] eqn:Eb.
    + destruct (names l) as [bs'|x]; cbn [bind].
      * split; [intros [= <-]; cbn [map]; rewrite (bnd_of_inv s b Eb); f_equal; apply IH; reflexivity|].
        destruct bs as [|b0 bs]; [discriminate|]. cbn [map]. intros [= -> El]. rewrite bnd_of_name in Eb. injection Eb as ->. apply IH in El. injection El as ->. reflexivity.
      * split; [discriminate|]. destruct bs as [|b0 bs]; [discriminate|]. cbn [map]. intros [= _ El]. apply IH in El. discriminate.
    + split; [discriminate|]. destruct bs as [|b0 bs]; [discriminate|]. cbn [map]. intros [= -> El]. rewrite bnd_of_name in Eb. discriminate.
Qed.
Lemma ints_inv l : forall zs, ints l = Ok zs <-> l = map EInt zs.
Proof.
  induction l as [|[z| |s] l IH]; intros zs; cbn [ints].
  - split; [intros [= <-]; reflexivity|]. destruct zs; [reflexivity|discriminate].
  - destruct (ints l) as [zs'|x]; cbn [bind].
    + split; [intros [= <-]; cbn [map]; f_equal; apply IH; reflexivity|]. destruct zs as [|z0 zs]; [discriminate|]. cbn [map]. intros [= -> El]. apply IH in El. injection El as ->. reflexivity.
    + split; [discriminate|]. destruct zs as [|z0 zs]; [discriminate|]. cbn [map]. intros [= _ El]. apply IH in El. discriminate.
  - split; [discriminate|]. destruct zs; discriminate.
  - split; [discriminate|]. destruct zs; discriminate.
Qed.
Lemma text_ints zs : has_text (map EInt zs) = false.
Proof. induction zs as [|z zs IH]; [reflexivity|exact IH]. Qed.

Definition as_list (x : parg) : list elt := match is_integer x, x with Some z, _ => [EInt z; EInt z; EInt z] | None, ASeq _ l => l | None, _ => [] end.
Lemma dims_read x D : means_dims x D <-> dims_type_ok x = true /\ match x with ASeq _ l => np_size x =? 3 | _ => true end = true /\ as_list x = map EInt [get AX D; get AY D; get AZ D].
Proof.
  split.
  - intros []; cbn; auto.
  - intros (H1 & H2 & H3). destruct D as [[a b] c]. cbn in H3. destruct x as [z|z| | |s|k l]; cbn in H1, H3; try discriminate.
    + injection H3 as -> -> ->. constructor.
    + subst l. constructor.
Qed.
Lemma bounds_read y B : means_bounds y B <-> read_bounds y = Ok ([get AX B; get AY B; get AZ B], true).
Proof.
  split.
  - intros [s B' H|B']; cbn [read_bounds].
    + apply str_bounds in H. rewrite H. reflexivity.
    + replace (names (triple B')) with (Ok [get AX B'; get AY B'; get AZ B']); [reflexivity|]. symmetry. apply names_inv. reflexivity.
  - destruct y as [z|z| | |s|k l]; cbn [read_bounds]; try discriminate.
    + destruct (str_to_bound s) as [B'|] eqn:E; [|discriminate]. intros H. injection H as H1 H2 H3. constructor. apply str_bounds. rewrite E. f_equal. destruct B as [[? ?] ?], B' as [[? ?] ?]. cbn in *. congruence.
    + destruct (names l) as [bs|] eqn:E; cbn [bind]; [|discriminate]. apply names_inv in E. destruct k; try discriminate. intros [= ->]. subst l. constructor.
Qed.

(* C73.  RHG_graph accepts exactly an int or a sequence of three integers together with a documented name or a numpy array
   of three names, with the documented meaning ... *)
Theorem C73_rhg_arguments : forall x y D B, not_single y -> (rhg_arguments x y = Ok (D, B) <-> means_dims x D /\ means_bounds y B).
Proof.
  intros x y D B Hy. rewrite dims_read, bounds_read. unfold rhg_arguments. fold (as_list x). split.
  - destruct (dims_type_ok x); cbn [negb]; [|discriminate].
    intros H. assert (H' : match x with ASeq _ _ => np_size x =? 3 | _ => true end = true /\ bind (read_bounds y) (fun '(bs, is_array) => if has_text (as_list x) then Err TypeError else match bs with [b1; b2; b3] => bind (ints (as_list x)) (fun zs => match zs with [d1; d2; d3] => if (is_array : bool) then Ok ((d1, d2, d3), (b1, b2, b3)) else Err AttributeError | _ => Err ValueError end) | _ => Err ValueError end) = Ok (D, B)).
    { destruct x as [z|z| | |s|k l]; try (split; [reflexivity|exact H]). destruct (np_size (ASeq k l) =? 3); [split; [reflexivity|exact H]|discriminate]. }
    destruct H' as [H1 H2]. destruct (read_bounds y) as [[bs [|]]|]; cbn [bind] in H2; try discriminate; destruct (has_text (as_list x)); try discriminate; destruct bs as [|b1 [|b2 [|b3 [|b4 bs]]]]; try discriminate;
      destruct (ints (as_list x)) as [zs|] eqn:Ei; cbn [bind] in H2; try discriminate; destruct zs as [|d1 [|d2 [|d3 [|d4 zs]]]]; try discriminate.
    injection H2 as <- <-. apply ints_inv in Ei. auto.
  - intros [(H1 & H2 & H3) Hb]. rewrite H1, H3, Hb, text_ints. cbn [negb bind].
    assert (Ei : ints (map EInt [get AX D; get AY D; get AZ D]) = Ok [get AX D; get AY D; get AZ D]) by (apply ints_inv; reflexivity). rewrite Ei. cbn [bind].
    destruct D as [[d1 d2] d3], B as [[b1 b2] b3]. cbn [get]. destruct x as [z|z| | |s|k l]; try reflexivity. rewrite H2. reflexivity.
Qed.
(* ... and RHG_graph then returns the lattice of that size and those boundaries (the one of C01) *)
Theorem C73_rhg_call : forall x y D B pol order, means_dims x D -> means_bounds y B -> rhg_call x y pol order = Ok (rhg_graph D B pol (order (six_body_points D B))).
Proof.
  intros x y D B pol order Hx Hy. unfold rhg_call. assert (Hs : not_single y) by (destruct Hy; exact I).
  rewrite (proj2 (C73_rhg_arguments x y D B Hs) (conj Hx Hy)). reflexivity.
Qed.

(* Other first arguments: TypeError, ValueError for a wrong number of entries; other names of boundaries: TypeError. *)
Theorem C73_rhg_refused : forall y pol order,
  (forall s, rhg_call (AStr s) y pol order = Err TypeError) /\ rhg_call AFloat y pol order = Err TypeError /\ rhg_call ANone y pol order = Err TypeError /\
  (forall k l, List.length l <> 3%nat -> rhg_call (ASeq k l) y pol order = Err ValueError) /\
  (forall x D s, means_dims x D -> (forall B, ~ In (s, B) documented_bounds) -> rhg_call x (AStr s) pol order = Err TypeError) /\
  (forall x D, means_dims x D -> rhg_call x ANone pol order = Err TypeError).
Proof.
  intros y pol order. split; [intros s; reflexivity|]. split; [reflexivity|]. split; [reflexivity|]. split; [|split].
  - intros k l Hl. unfold rhg_call, rhg_arguments, np_size. cbn [dims_type_ok negb]. destruct (Z.eqb_spec (Z.of_nat (List.length l)) 3) as [E|_]; [exfalso; lia|reflexivity].
  - intros x D s Hx Hs. unfold rhg_call, rhg_arguments. destruct (str_to_bound s) as [B|] eqn:E; [apply str_bounds in E; destruct (Hs B E)|]. destruct Hx; cbn; rewrite E; reflexivity.
  - intros x D Hx. destruct Hx; reflexivity.
Qed.

(* Refuted: the documentation of RHG_graph offers a list of three names, and an integer of numpy is an integer. *)
Theorem C73_list_boundaries_refuted : forall x D B k pol order, means_dims x D -> k <> Array ->
  rhg_call x (ASeq k (triple B)) pol order = Err AttributeError.
Proof.
  intros x D B k pol order Hx Hk.
  assert (Hb : read_bounds (ASeq k (triple B)) = Ok ([get AX B; get AY B; get AZ B], false)).
  { cbn [read_bounds]. replace (names (triple B)) with (Ok [get AX B; get AY B; get AZ B]) by (symmetry; apply names_inv; reflexivity). cbn [bind]. destruct k; try reflexivity. congruence. }
  unfold rhg_call, rhg_arguments. rewrite Hb. destruct Hx; reflexivity.
Qed.
Theorem C73_numpy_integer_refuted : forall d B pol order, rhg_call (ANpInt d) (AStr (name_of B)) pol order = Err TypeError.
Proof. reflexivity. Qed.

(* SurfaceCode accepts an integer (also of numpy) or a sequence of three integers, the documented names and backends ... *)
Inductive means_distance : parg -> dims -> Prop :=
  | mt_dims x D : means_dims x D -> means_distance x D
  | mt_np d : means_distance (ANpInt d) (d, d, d).
Lemma code_dims_ok : forall dist, exists t, code_dims dist = Ok t.
Proof.
  intros dist. destruct dist as [z|z| | |s|k l]; try (eexists; reflexivity). unfold code_dims. cbn [is_integer np_size py_tuple bind].
  destruct (_ =? 3); eexists; reflexivity.
Qed.
Theorem C73_surface_code : forall dist ec bd backend D e b,
  surface_call dist ec bd backend = Ok (D, e, b) <->
  means_distance dist D /\ ec = AStr (ec_str e) /\ bd = AStr (bd_str b) /\ (backend = AStr "networkx" \/ backend = AStr "rustworkx").
Proof.
  intros dist ec bd backend D e b.
  assert (He : forall x e, ec_of x = Some e <-> x = AStr (ec_str e)).
  { intros x e'. split.
    - destruct x as [z|z| | |s|k l]; try discriminate. cbn. destruct (String.eqb_spec s "primal") as [->|]; [intros [= <-]; reflexivity|]. destruct (String.eqb_spec s "dual") as [->|]; [intros [= <-]; reflexivity|discriminate].
    - intros ->. destruct e'; reflexivity. }
  assert (Hb : forall x b, bd_of x = Some b <-> x = AStr (bd_str b)).
  { intros x b'. split.
    - destruct x as [z|z| | |s|k l]; try discriminate. cbn. destruct (String.eqb_spec s "open") as [->|]; [intros [= <-]; reflexivity|]. destruct (String.eqb_spec s "toric") as [->|]; [intros [= <-]; reflexivity|].
      destruct (String.eqb_spec s "periodic") as [->|]; [intros [= <-]; reflexivity|discriminate].
    - intros ->. destruct b'; reflexivity. }
  assert (Hk : backend_ok backend = true <-> backend = AStr "networkx" \/ backend = AStr "rustworkx").
  { split.
    - destruct backend as [z|z| | |s|k l]; try discriminate. cbn. intros H. apply Bool.orb_true_iff in H. destruct H as [H|H]; apply String.eqb_eq in H; subst; auto.
    - intros [-> | ->]; reflexivity. }
  assert (Hd : forall t, code_dims dist = Ok (Some t) -> forall D, means_distance dist D <-> means_dims t D).
  { intros t Ht D'. unfold code_dims in Ht. destruct dist as [z|z| | |s|k l]; cbn in Ht; try discriminate.
    - injection Ht as <-. split; [intros H; inversion H as [x D0 H0|]; subst; inversion H0; subst; constructor|intros H; inversion H; subst; constructor; constructor].
    - injection Ht as <-. split; [intros H; inversion H as [x D0 H0|]; subst; [inversion H0|]; constructor|intros H; inversion H; subst; apply mt_np].
    - destruct (Z.of_nat (List.length l) =? 3); [|discriminate]. injection Ht as <-. split; [intros H; inversion H as [x D0 H0|]; subst; inversion H0; subst; constructor|intros H; inversion H; subst; repeat constructor]. }
  assert (Hn : code_dims dist = Ok None -> forall D, ~ means_distance dist D).
  { intros Hc D' H. destruct H as [x D0 H|d]; [|discriminate]. destruct H; discriminate. }
  unfold surface_call. destruct (code_dims_ok dist) as [dd Edd]. rewrite Edd in *. cbn [bind]. destruct (ec_of ec) as [e'|] eqn:Ee.
  2:{ split; [discriminate|]. intros (_ & -> & _). rewrite (proj2 (He _ e) eq_refl) in Ee. discriminate. }
  destruct (bd_of bd) as [b'|] eqn:Eb.
  2:{ split; [discriminate|]. intros (_ & _ & -> & _). rewrite (proj2 (Hb _ b) eq_refl) in Eb. discriminate. }
  apply He in Ee. apply Hb in Eb. subst ec bd.
  destruct dd as [t|].
  2:{ split; [discriminate|]. intros (H & _). destruct (Hn eq_refl D H). }
  set (y := ASeq Array _). assert (Hy : means_bounds y (code_bnds e' b')) by (change y with (ASeq Array (triple (code_bnds e' b'))); constructor).
  assert (Hs : not_single y) by exact I. destruct (rhg_arguments t y) as [[D' B']|x] eqn:Er; cbn [bind].
  - apply (C73_rhg_arguments t y D' B' Hs) in Er. destruct Er as [Er _]. destruct (backend_ok backend) eqn:Ek.
    + split.
      * intros H. injection H as -> -> ->. split; [apply (Hd t eq_refl), Er|]. split; [reflexivity|]. split; [reflexivity|]. apply Hk. reflexivity.
      * intros (H1 & H2 & H3 & _). apply (Hd t eq_refl) in H1. assert (D' = D) by (destruct Er; inversion H1; reflexivity). assert (e' = e) by (destruct e, e'; try reflexivity; discriminate). assert (b' = b) by (destruct b, b'; try reflexivity; discriminate). congruence.
    + split; [discriminate|]. intros (_ & _ & _ & H). apply Hk in H. discriminate.
  - split; [discriminate|]. intros (H & _). apply (Hd t eq_refl) in H. rewrite (proj2 (C73_rhg_arguments t y D (code_bnds e' b') Hs) (conj H Hy)) in Er. discriminate.
Qed.

(* ... and refuses others with ValueError; but a distance that is neither (a float, a sequence of another length, None)
   surfaces as AttributeError, because the attribute dims is then missing. *)
Theorem C73_surface_refused : forall dist ec bd backend,
  ((forall e, ec <> AStr (ec_str e)) \/ (forall b, bd <> AStr (bd_str b)) -> surface_call dist ec bd backend = Err ValueError) /\
  (forall D e b, means_distance dist D -> ec = AStr (ec_str e) -> bd = AStr (bd_str b) -> backend <> AStr "networkx" -> backend <> AStr "rustworkx" ->
     surface_call dist ec bd backend = Err ValueError).
Proof.
  intros dist ec bd backend. split.
  - intros H. unfold surface_call. destruct (code_dims_ok dist) as [dd Edd]. rewrite Edd. cbn [bind]. destruct (ec_of ec) as [e|] eqn:Ee; [|reflexivity]. destruct (bd_of bd) as [b|] eqn:Eb; [|reflexivity]. exfalso. destruct H as [H|H].
    + destruct ec as [z|z| | |s|k l]; try discriminate. cbn in Ee. destruct (String.eqb_spec s "primal") as [->|]; [apply (H EcPrimal); reflexivity|]. destruct (String.eqb_spec s "dual") as [->|]; [apply (H EcDual); reflexivity|discriminate].
    + destruct bd as [z|z| | |s|k l]; try discriminate. cbn in Eb. destruct (String.eqb_spec s "open") as [->|]; [apply (H BdOpen); reflexivity|]. destruct (String.eqb_spec s "toric") as [->|]; [apply (H BdToric); reflexivity|].
      destruct (String.eqb_spec s "periodic") as [->|]; [apply (H BdPeriodic); reflexivity|discriminate].
  - intros D e b Hd -> -> H1 H2.
    destruct (surface_call dist (AStr (ec_str e)) (AStr (bd_str b)) (AStr "networkx")) as [x|x] eqn:E.
    + unfold surface_call in *. destruct (code_dims_ok dist) as [dd Edd]. rewrite Edd in *. cbn [bind] in *. destruct (ec_of (AStr (ec_str e))); [|discriminate]. destruct (bd_of (AStr (bd_str b))); [|discriminate]. destruct dd; [|discriminate].
      destruct (rhg_arguments _ _) as [[D' B']|]; [|discriminate]. cbn [bind]. destruct backend as [z|z| | |s|k l]; try reflexivity. cbn.
      destruct (String.eqb_spec s "networkx") as [->|]; [congruence|]. destruct (String.eqb_spec s "rustworkx") as [->|]; [congruence|]. reflexivity.
    + assert (K : surface_call dist (AStr (ec_str e)) (AStr (bd_str b)) (AStr "networkx") = Ok (D, e, b)) by (apply C73_surface_code; auto). congruence.
Qed.
Theorem C73_distance_refuted : forall e b backend,
  let call dist := surface_call dist (AStr (ec_str e)) (AStr (bd_str b)) backend in
  call AFloat = Err AttributeError /\ call ANone = Err AttributeError /\ (forall s, call (AStr s) = Err AttributeError) /\
  (forall k l, List.length l <> 3%nat -> call (ASeq k l) = Err AttributeError).
Proof.
  intros e b backend call.
  assert (K : forall dist, code_dims dist = Ok None -> call dist = Err AttributeError).
  { intros dist H. unfold call, surface_call. rewrite H. destruct e, b; reflexivity. }
  split; [apply K; reflexivity|]. split; [apply K; reflexivity|]. split; [intros s; apply K; reflexivity|].
  intros k l Hl. apply K. unfold code_dims. cbn [is_integer np_size]. destruct (Z.eqb_spec (Z.of_nat (List.length l)) 3) as [E|]; [exfalso; lia|reflexivity].
Qed.

(* Refuted: sizes are not checked.  SurfaceCode(d) with d <= 0, and with d = 1 and open boundaries, is accepted; the code
   has no node, no stabilizer and no syndrome qubit, and check_correction reports success. *)
Theorem C73_size_refuted : forall d e b pol c bit, d <= 0 \/ (d = 1 /\ b = BdOpen) ->
  surface_call (AInt d) (AStr (ec_str e)) (AStr (bd_str b)) (AStr "rustworkx") = Ok ((d, d, d), e, b) /\
  (is_surface_code (d, d, d) e b pol c ->
     node_list (sc_graph c) = [] /\ sc_stabs c = [] /\ sc_syn c = [] /\ check_correction c bit false = Ok true).
Proof.
  intros d e b pol c bit Hd. split; [apply C73_surface_code; repeat split; auto; constructor; constructor|].
  intros (_ & He & Hb & (vs & Hvs & Hg) & _ & Hst & Hsyn & _).
  assert (Hd' : d <= match b with BdOpen => 1 | _ => 0 end) by (destruct Hd as [Hd|[-> -> ]]; [destruct b; lia|lia]). clear Hd.
  assert (R : forall lo hi, hi <= lo -> py_range lo hi = []) by (intros lo hi H; unfold py_range; replace (Z.to_nat (hi - lo)) with 0%nat by lia; reflexivity).
  assert (P : forall l1 l2 l3, (l1 = [] \/ l2 = [] \/ l3 = []) -> product3 l1 l2 l3 = []).
  { intros l1 l2 l3 [-> | [-> | -> ]]; unfold product3; [reflexivity| |].
    - induction l1; auto.
    - induction l1 as [|x l1 IH]; [reflexivity|]. cbn [flat_map]. rewrite IH, app_nil_r. clear. induction l2; auto. }
  assert (HI : rhg_inds (d, d, d) (code_bnds e b) = []).
  { unfold rhg_inds. destruct e, b; cbn; apply P; (left; apply R; lia) || (right; left; apply R; lia) || (right; right; apply R; lia). }
  assert (HS : six_body_points (d, d, d) (code_bnds e b) = []) by (unfold six_body_points, primal_cubes; rewrite HI; reflexivity).
  assert (HJ : all_six_bodies e (d, d, d) (code_bnds e b) = []).
  { destruct e; cbn [all_six_bodies].
    - unfold primal_cubes. rewrite HI. reflexivity.
    - assert (HK : dual_inds (d, d, d) (code_bnds EcDual b) = []); [|rewrite HK; reflexivity]. unfold dual_inds. destruct b; cbn; apply P; (left; apply R; lia) || (right; left; apply R; lia). }
  rewrite HS in Hvs. rewrite HJ in Hst, Hsyn. cbn in Hsyn. destruct Hvs as [_ Hvs]. destruct Hsyn as [_ Hsyn].
  assert (vs = []) as -> by (destruct vs as [|x vs]; [reflexivity|]; destruct (proj1 (Hvs x) (or_introl eq_refl))).
  assert (Hs : sc_syn c = []) by (destruct (sc_syn c) as [|x l]; [reflexivity|]; destruct (proj1 (Hsyn x) (or_introl eq_refl))).
  split; [rewrite Hg; reflexivity|]. split; [inversion Hst; reflexivity|]. split; [exact Hs|].
  unfold check_correction. rewrite He, Hb.
  assert (HT : forall a, truth c bit false a = [true]).
  { intros a. unfold truth. rewrite He. replace (sheets (minimum e) (minimum e + 2)) with [minimum e]; [|destruct e; reflexivity]. cbn [map]. unfold sheet_parity. rewrite Hs.
    assert (HF : forall l : list point, filter (fun p => pmem p []) l = []) by (induction l as [|x l IH]; auto). rewrite HF. reflexivity. }
  induction (planes_to_check e b) as [|a l IH]; [reflexivity|]. cbn [fold_right]. rewrite HT, IH. reflexivity.
Qed.

Example C73_nonvacuous :
  means_dims (ASeq List_ [EInt 2; EInt 3; EInt 4]) (2, 3, 4) /\ means_bounds (AStr "open_dual") (BPrimal, BDual, BDual) /\
  rhg_arguments (ASeq List_ [EInt 2; EInt 3; EInt 4]) (AStr "open_dual") = Ok ((2, 3, 4), (BPrimal, BDual, BDual)) /\
  rhg_arguments (AInt 2) (ASeq List_ [EStr "primal"; EStr "dual"; EStr "dual"]) = Err AttributeError /\
  surface_call (ANpInt 3) (AStr "dual") (AStr "toric") (AStr "networkx") = Ok ((3, 3, 3), EcDual, BdToric) /\
  surface_call (ASeq Tuple [EInt 3; EInt 3]) (AStr "dual") (AStr "toric") (AStr "networkx") = Err AttributeError /\
  surface_call (AInt 3) (AStr "both") (AStr "toric") (AStr "networkx") = Err ValueError.
Proof. split; [constructor|]. split; [constructor; right; left; reflexivity|]. repeat split. Qed.

Print Assumptions C73_rhg_arguments.
Print Assumptions C73_surface_code.
Print Assumptions C73_size_refuted.
