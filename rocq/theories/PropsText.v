(* PropsText.v: C65, the titles, colours, labels and hover texts of the pictures of graphs. *)
From Coq Require Import String Sorting.Sorted.
From Verif Require Import Base Lattice RhgModel SurfaceModel StabGraphModel MwpmModel MwpmProofs SimModel VizModel PropsViz PropsViz2.
Open Scope Z_scope.

(* ---------- specification: draw_EGraph's documentation ---------- *)
(* the value of an attribute, None when it is not set *)
Definition value (d : dict) (k : string) : pyval := match lookup k d with Some v => v | None => VNone end.
(* Python's == on attribute values: equal values of the same type, True == 1 and False == 0 *)
Inductive py_equal : pyval -> pyval -> Prop :=
  | PE_none : py_equal VNone VNone
  | PE_bool b : py_equal (VBool b) (VBool b)
  | PE_int z : py_equal (VInt z) (VInt z)
  | PE_true_l : py_equal (VBool true) (VInt 1) | PE_false_l : py_equal (VBool false) (VInt 0)
  | PE_true_r : py_equal (VInt 1) (VBool true) | PE_false_r : py_equal (VInt 0) (VBool false)
  | PE_float s : py_equal (VFloat s) (VFloat s)
  | PE_str s : py_equal (VStr s) (VStr s)
  | PE_obj s : py_equal (VObj s) (VObj s)
  | PE_tuple l m : Forall2 py_equal l m -> py_equal (VTuple l) (VTuple m).
(* "color_nodes": how an object with the attributes d is coloured *)
Definition documented_color (default missing : string) (d : dict) (option : pyval) (col : pyval) : Prop :=
  match option with
  | VStr s => col = VStr s
  | VTuple [VStr a; VDict colors] =>
      (exists key, In (key, col) colors /\ py_equal (value d a) key) \/ ((forall kv, In kv colors -> ~ py_equal (value d a) (fst kv)) /\ col = if String.eqb missing "" then VNone else VStr missing)
  | VBool true => (lookup "color" d = None /\ col = VStr default) \/ (exists v, lookup "color" d = Some v /\ (truthy v = true -> col = v))
  | VBool false | VNone => col = VStr default
  | _ => True
  end.
(* options of the documented types *)
Definition color_option (option : pyval) : Prop :=
  match option with VStr _ | VBool _ | VNone => True | VTuple [VStr _; VDict _] => True | _ => False end.
(* the attribute that the option refers to can be looked up in a dictionary *)
Definition colorable (option : pyval) (d : dict) : Prop :=
  match option with VTuple [VStr a; VDict _] => hashable (value d a) = true | _ => True end.
(* title and label of the documented types *)
Definition plain_english : list (string * string) :=
  [("p_phase", "Phase error probabilities"); ("p_phase_cond", "Conditional phase error probabilities"); ("hom_val_p", "p-homodyne outcomes");
   ("hom_val_q", "q-homodyne outcomes"); ("bit_val", "Bit values"); ("weight", "Weights"); ("index", "Indices")]%string.
Definition label_title (label : string) (t : string) : Prop := In (label, t) plain_english \/ ~ In label (map fst plain_english) /\ t = label.

(* ---------- colours ---------- *)
Lemma py_eqb_spec : forall v w, py_eqb v w = true <-> py_equal v w.
Proof.
  fix IH 1. intros v w.
  assert (L : forall l m, (fix all (l m : list pyval) := match l, m with [], [] => true | x :: l', y :: m' => py_eqb x y && all l' m' | _, _ => false end) l m = true <-> Forall2 py_equal l m).
  { fix IHl 1. intros [|x l] [|y m].
    - split; [constructor|reflexivity].
    - split; [discriminate|intros H; inversion H].
    - split; [discriminate|intros H; inversion H].
    - split.
      + intros H. apply andb_true_iff in H. destruct H as [H1 H2]. constructor; [apply IH; exact H1|apply IHl; exact H2].
      + intros H. inversion H; subst. apply andb_true_iff. split; [apply IH; assumption|apply IHl; assumption]. }
  destruct v as [|b|z|s|s|s|l|l|l], w as [|b'|z'|s'|s'|s'|l'|l'|l']; cbn [py_eqb]; try (split; [discriminate|intros K; inversion K]; fail).
  - split; [constructor|reflexivity].
  - rewrite Bool.eqb_true_iff. split; [intros ->; constructor|intros K; inversion K; reflexivity].
  - destruct b; cbn [Z.b2z]; rewrite Z.eqb_eq; (split; [intros <-; constructor|intros K; inversion K; reflexivity]).
  - destruct b'; cbn [Z.b2z]; rewrite Z.eqb_eq; (split; [intros ->; constructor|intros K; inversion K; reflexivity]).
  - rewrite Z.eqb_eq. split; [intros ->; constructor|intros K; inversion K; reflexivity].
  - rewrite String.eqb_eq. split; [intros ->; constructor|intros K; inversion K; reflexivity].
  - rewrite String.eqb_eq. split; [intros ->; constructor|intros K; inversion K; reflexivity].
  - rewrite String.eqb_eq. split; [intros ->; constructor|intros K; inversion K; reflexivity].
  - split; [intros K; constructor; apply L; exact K|intros K; inversion K; subst; apply L; assumption].
Qed.
Lemma dict_get_spec d k default col : dict_get d k default = Ok col ->
  (exists key, In (key, col) d /\ py_equal k key) \/ ((forall kv, In kv d -> ~ py_equal k (fst kv)) /\ col = default).
Proof.
  unfold dict_get. destruct (hashable k); [|discriminate]. intros H. destruct (find _ d) as [[key v]|] eqn:F; injection H as <-.
  - left. apply find_some in F. destruct F as [F1 F2]. exists key. split; [exact F1|apply py_eqb_spec; exact F2].
  - right. split; [|reflexivity]. intros kv Hk K. apply py_eqb_spec in K. pose proof (find_none _ _ F kv Hk) as N. cbn beta in N. congruence.
Qed.
Lemma node_color_spec d o col : get_node_color d o = Ok col -> documented_color "black" "black" d o col.
Proof.
  destruct o as [|b|z|s|s|l|l|l|s]; unfold get_node_color, documented_color; intros H; try (injection H as <-); try exact I; try reflexivity.
  - destruct b; [|injection H as <-; reflexivity]. destruct (lookup "color" d) as [v|]; injection H as <-; [right; eauto|left; auto].
  - destruct l as [|[] [|[] [|]]]; try discriminate H; try exact I. apply dict_get_spec in H. unfold value. unfold attr_get in H. exact H.
Qed.
Lemma edge_color_spec d o col : get_edge_color d o = Ok col -> documented_color "grey" "" d o col.
Proof.
  destruct o as [|b|z|s|s|l|l|l|s]; unfold get_edge_color, documented_color; intros H; try (injection H as <-); try exact I; try reflexivity.
  - destruct b; [|injection H as <-; reflexivity]. unfold attr_get in H. destruct (lookup "color" d) as [v|]; injection H as <-; [right|left; auto]. exists v. split; [reflexivity|]. intros ->. reflexivity.
  - destruct l as [|[] [|[] [|]]]; try discriminate H; try exact I. apply dict_get_spec in H. unfold value. unfold attr_get in H. exact H.
Qed.
Lemma node_color_ok d o : color_option o -> colorable o d -> exists col, get_node_color d o = Ok col.
Proof.
  destruct o as [|b|z|s|s|l|l|l|s]; unfold color_option, colorable, get_node_color; intros H K; try destruct H; eauto.
  - destruct b; eauto.
  - destruct l as [|[] [|[] [|]]]; try destruct H. unfold dict_get. change (attr_get d s) with (value d s). rewrite K. eauto.
Qed.
Lemma edge_color_ok d o : color_option o -> colorable o d -> exists col, get_edge_color d o = Ok col.
Proof.
  destruct o as [|b|z|s|s|l|l|l|s]; unfold color_option, colorable, get_edge_color; intros H K; try destruct H; eauto.
  - destruct b; eauto.
  - destruct l as [|[] [|[] [|]]]; try destruct H. unfold dict_get. change (attr_get d s) with (value d s). rewrite K. eauto.
Qed.

Lemma F2_map_r {A B C} (R : A -> C -> Prop) (f : B -> C) l m : Forall2 (fun x y => R x (f y)) l m -> Forall2 R l (map f m).
Proof. induction 1; constructor; auto. Qed.
Lemma F2_impl {A B} (R S : A -> B -> Prop) l m : (forall x y, In x l -> R x y -> S x y) -> Forall2 R l m -> Forall2 S l m.
Proof. intros H F. induction F as [|x y l m K F IH]; constructor; [apply H; [left; reflexivity|exact K]|apply IH; intros; apply H; [right|]; assumption]. Qed.
Lemma F2_eq {A B C} (f : A -> C) (h : B -> C) l m : Forall2 (fun x y => h y = f x) l m -> map h m = map f l.
Proof. induction 1; cbn; congruence. Qed.

(* C65.  In every picture of a graph each dot has the documented colour of its node (black by default, also when the colour dictionary has
   no entry), and each line the documented colour of its edge (grey by default; None, that is matplotlib's own choice, when the dictionary has
   no entry). *)
Theorem C65_colors : forall g indices cn ce label title legend dims pic, draw_matplotlib g indices cn ce label title legend dims = Ok pic ->
  Forall2 (fun n dot => fst dot = exchange (fst n) /\ documented_color "black" "black" (snd n) cn (snd dot)) (vg_nodes g) (pc_dots pic) /\
  Forall2 (fun e seg => fst seg = (exchange (fst (fst e)), exchange (snd (fst e))) /\ documented_color "grey" "" (snd e) ce (snd seg)) (vg_edges g) (pc_segs pic).
Proof.
  intros g indices cn ce label title legend dims pic H. destruct (draw_parts _ _ _ _ _ _ _ _ _ H) as (parts & E1 & Ed & _ & Es & _). apply mapM_inv in E1. apply mapM_inv in Es. split.
  - rewrite Ed. apply F2_map_r. apply (F2_impl _ _ _ _ (fun n y _ K => K)) in E1. revert E1. apply F2_impl. intros n [dot t] _ K. cbn [fst].
    destruct (plot_node_dot _ _ _ _ _ _ K) as [K1 K2]. split; [exact K1|]. apply node_color_spec. exact K2.
  - revert Es. apply F2_impl. intros e s _ K. destruct (get_edge_color (snd e) ce) as [col|] eqn:Ec; [|discriminate K]. cbn [bind] in K. injection K as <-. cbn [fst snd]. split; [reflexivity|]. apply edge_color_spec. exact Ec.
Qed.
Print Assumptions C65_colors.

(* The legend is drawn exactly when it is asked for and the nodes are coloured by an attribute: it then has one entry for each pair of the
   given colour dictionary, in its order, and no other. *)
Theorem C65_legend : forall g indices cn ce label title legend dims pic, draw_matplotlib g indices cn ce label title legend dims = Ok pic ->
  (forall s d, cn = VTuple [VStr s; VDict d] -> legend = true -> pc_legend pic = d) /\
  (legend = false \/ (forall l, cn <> VTuple l) -> pc_legend pic = []).
Proof.
  intros g indices cn ce label title legend dims pic H. assert (K : pc_legend pic = node_legend cn legend).
  { unfold draw_matplotlib in H. destruct (match dims with Some d => Ok d | None => _ end) as [[[xl yl] zl]|]; [|discriminate H]. cbn [bind] in H.
    destruct (get_title title label) as [t|]; [|discriminate H]. cbn [bind] in H.
    destruct (plot_nodes g indices cn label t legend) as [[[ds ts] lg]|] eqn:En; [|discriminate H]. cbn [bind] in H.
    destruct (plot_edges g ce) as [segs|]; [|discriminate H]. cbn [bind fst snd] in H. injection H as <-. cbn [pc_legend snd].
    unfold plot_nodes in En. destruct (mapM (plot_node indices cn label) (vg_nodes g)) as [parts|]; [|discriminate En]. cbn [bind] in En.
    destruct (truthy label && _); [destruct t; [|discriminate En]|]; injection En as _ _ <-; reflexivity. }
  rewrite K. split.
  - intros s d -> ->. reflexivity.
  - intros [-> |Hn].
    + unfold node_legend. destruct cn as [ | | | | | | |l| ]; try reflexivity; destruct l as [|[] [|[] [|]]]; reflexivity.
    + unfold node_legend. destruct cn; try reflexivity. exfalso. eapply Hn. reflexivity.
Qed.
Print Assumptions C65_legend.

(* ---------- titles ---------- *)
Lemma title_of_spec s : label_title s (title_of s).
Proof.
  unfold title_of, label_title. destruct (find _ title_dict) as [[k t]|] eqn:F.
  - apply find_some in F. destruct F as [F1 F2]. cbn [fst snd] in *. apply String.eqb_eq in F2. subst k. left. exact F1.
  - right. split; [|reflexivity]. intros Hin. apply in_map_iff in Hin. destruct Hin as (kv & E & Hk). pose proof (find_none _ _ F kv Hk) as K. cbn beta in K. rewrite E, String.eqb_refl in K. discriminate.
Qed.
Lemma label_title_fun s t t' : label_title s t -> label_title s t' -> t = t'.
Proof.
  assert (U : forall a b b', In (a, b) plain_english -> In (a, b') plain_english -> b = b').
  { intros a b b' H H'. cbn in H, H'. repeat (destruct H as [H|H]; [injection H as <- <-; repeat (destruct H' as [H'|H']; [first [discriminate H'|injection H' as <-; reflexivity]|]); destruct H'|]). destruct H. }
  intros [H|[N E]] [H'|[N' E']]; [eapply U; eauto| | |congruence].
  - destruct N'. apply (in_map fst _ _ H).
  - destruct N. apply (in_map fst _ _ H').
Qed.
Lemma mapM_strs l : mapM (fun v => match v with VStr s => Ok s | _ => Err TypeError end) (map VStr l) = Ok l.
Proof. induction l as [|s l IH]; [reflexivity|]. cbn [map mapM bind]. rewrite IH. reflexivity. Qed.

(* C65.  The title is that of the documentation: none for a false title; the title itself for a string and a single label; with title=True the
   label in plain English, or the label itself when it is not one of the known attributes, or several labels separated by commas. *)
Theorem C65_titles :
  (forall title label, In title [VNone; VBool false; VInt 0; VStr ""; VFloat "0.0"; VTuple []; VList []; VDict []] -> get_title title label = Ok None) /\
  (forall s label, s <> ""%string -> (forall l, label <> VTuple l /\ label <> VList l) -> get_title (VStr s) label = Ok (Some s)) /\
  (forall label t, get_title (VBool true) (VStr label) = Ok (Some t) <-> label_title label t) /\
  (forall label t, get_title (VBool true) (VList [VStr label]) = Ok (Some t) <-> label_title label t) /\
  (forall l, (2 <= List.length l)%nat -> get_title (VBool true) (VList (map VStr l)) = Ok (Some (join ", " l)) /\ get_title (VBool true) (VTuple (map VStr l)) = Ok (Some (join ", " l))) /\
  get_title (VBool true) VNone = Ok None.
Proof.
  assert (T : forall label t, Ok (Some (title_of label)) = Ok (Some t) <-> label_title label t).
  { intros label t. split; [intros E; injection E as <-; apply title_of_spec|]. intros H. do 2 f_equal. exact (label_title_fun _ _ _ (title_of_spec label) H). }
  repeat split.
  - intros title label H. cbn [In] in H. repeat (destruct H as [<-|H]; [reflexivity|]). destruct H.
  - intros s label Hs Hl. unfold get_title. cbn [truthy]. destruct (String.eqb_spec s ""); [contradiction|]. cbn [negb]. destruct label as [|b|z|s0|s0|l|l|l|s0]; try reflexivity; destruct (Hl l); congruence.
  - apply T.
  - apply T.
  - apply T.
  - apply T.
  - unfold get_title. cbn [truthy negb]. destruct l as [|a [|b l]]; cbn [List.length] in H; [lia|lia|]. change (map VStr (a :: b :: l)) with (VStr a :: VStr b :: map VStr l). cbn [py_join].
    unfold py_join. change (VStr a :: VStr b :: map VStr l) with (map VStr (a :: b :: l)). rewrite mapM_strs. reflexivity.
  - unfold get_title. cbn [truthy negb]. destruct l as [|a [|b l]]; cbn [List.length] in H; [lia|lia|]. change (map VStr (a :: b :: l)) with (VStr a :: VStr b :: map VStr l). cbn [py_join].
    unfold py_join. change (VStr a :: VStr b :: map VStr l) with (map VStr (a :: b :: l)). rewrite mapM_strs. reflexivity.
Qed.
Print Assumptions C65_titles.

(* "If title is a string, it will simply return the string": not with several labels; "In all other cases, the function will return None":
   not for numbers; and an empty list of labels is an error *)
Theorem C65_titles_refuted :
  (forall s l, s <> ""%string -> (2 <= List.length l)%nat -> get_title (VStr s) (VList (map VStr l)) = Ok (Some (join ", " l))) /\
  (exists s l, s <> ""%string /\ (2 <= List.length l)%nat /\ s <> join ", " l) /\
  (forall z label, z <> 0 -> get_title (VInt z) (VStr label) = Err UnboundLocalError) /\
  (forall title, truthy title = true -> get_title title (VList []) = Err IndexError).
Proof.
  split; [|split; [|split]].
  - intros s l Hs H. unfold get_title. cbn [truthy]. destruct (String.eqb_spec s ""); [contradiction|]. cbn [negb]. destruct l as [|a [|b l]]; cbn [List.length] in H; [lia|lia|].
    change (map VStr (a :: b :: l)) with (VStr a :: VStr b :: map VStr l). cbn [py_join]. unfold py_join. change (VStr a :: VStr b :: map VStr l) with (map VStr (a :: b :: l)). rewrite mapM_strs. reflexivity.
  - exists "My code"%string, ["bit_val"; "weight"]%string. split; [discriminate|]. split; [cbn; lia|discriminate].
  - intros z label Hz. unfold get_title. cbn [truthy]. destruct (Z.eqb_spec z 0); [contradiction|]. reflexivity.
  - intros title Ht. unfold get_title. rewrite Ht. reflexivity.
Qed.

(* ---------- values next to the nodes ---------- *)
(* `value < 0` is possible *)
Definition number (v : pyval) : Prop := match v with VBool _ | VInt _ | VFloat _ => True | _ => False end.
Definition labelled (d : dict) (s : string) : bool := match value d s with VNone => false | _ => true end.

Lemma draw_compose g indices cn ce label title legend t parts segs : vg_nodes g <> [] -> get_title title label = Ok t ->
  mapM (plot_node indices cn label) (vg_nodes g) = Ok parts -> plot_edges g ce = Ok segs ->
  (truthy label = true -> (List.length (flat_map (fun a => opt_list (snd a)) parts) < List.length parts)%nat -> t <> None) ->
  exists pic, draw_matplotlib g indices cn ce label title legend None = Ok pic /\ pc_dots pic = map fst parts /\ pc_texts pic = flat_map (fun a => opt_list (snd a)) parts /\
    pc_title pic = match t with Some s => if String.eqb s "" then None else Some s | None => None end.
Proof.
  intros Hne Ht Hp He Hm. unfold draw_matplotlib. destruct (vg_nodes g) as [|n0 l0] eqn:Eg; [congruence|]. rewrite <- Eg in *. cbn [bind]. rewrite Ht. cbn [bind]. unfold plot_nodes. rewrite Hp. cbn [bind].
  destruct (truthy label) eqn:El; cbn [andb].
  - destruct (Nat.ltb_spec (List.length (flat_map (fun a => opt_list (snd a)) parts)) (List.length parts)) as [L|L].
    + destruct t as [s|]; [|exfalso; apply Hm; auto]. rewrite He. cbn [bind fst snd]. eexists. split; [reflexivity|]. cbn. auto.
    + rewrite He. cbn [bind fst snd]. eexists. split; [reflexivity|]. cbn. auto.
  - rewrite He. cbn [bind fst snd]. eexists. split; [reflexivity|]. cbn. auto.
Qed.
Lemma plot_edges_ok g ce : color_option ce -> (forall e, In e (vg_edges g) -> colorable ce (snd e)) -> exists segs, plot_edges g ce = Ok segs.
Proof.
  intros H K. unfold plot_edges. destruct (mapM_ok (fun e => bind (get_edge_color (snd e) ce) (fun c => Ok ((shown (fst (fst e)), shown (snd (fst e))), c))) (vg_edges g)) as (segs & E & _); [|eauto].
  intros e He. destruct (edge_color_ok (snd e) ce H (K e He)) as (col & ->). cbn [bind]. eauto.
Qed.
Lemma title_exists title s : title = VBool true \/ (exists u, title = VStr u /\ u <> ""%string) -> exists t, get_title title (VStr s) = Ok (Some t).
Proof.
  intros [-> |(u & -> & Hu)]; [exists (title_of s); reflexivity|]. exists u. unfold get_title. cbn [truthy]. destruct (String.eqb_spec u ""); [contradiction|]. reflexivity.
Qed.

(* C65.  With a title, label=s writes next to every node whose attribute s is set its value, and nothing next to the other nodes; the picture
   is drawn whether or not some nodes have no value.  label="index" writes next to every node its index. *)
Theorem C65_labels : forall g indices cn ce s title legend, vg_nodes g <> [] -> color_option cn -> color_option ce ->
  (forall n, In n (vg_nodes g) -> colorable cn (snd n)) -> (forall e, In e (vg_edges g) -> colorable ce (snd e)) ->
  s <> ""%string -> s <> "index"%string -> (title = VBool true \/ exists u, title = VStr u /\ u <> ""%string) ->
  (forall n, In n (vg_nodes g) -> value (snd n) s = VNone \/ number (value (snd n) s)) ->
  exists pic, draw_matplotlib g indices cn ce (VStr s) title legend None = Ok pic /\
    pc_texts pic = map (fun n => (exchange (fst n), value (snd n) s)) (filter (fun n => labelled (snd n) s) (vg_nodes g)).
Proof.
  intros g indices cn ce s title legend Hne Hcn Hce Kn Ke Hs Hi Ht Hv.
  destruct (plot_edges_ok g ce Hce Ke) as (segs & Es). destruct (title_exists title s Ht) as (t & Et).
  assert (P : forall n, In n (vg_nodes g) -> exists col, plot_node indices cn (VStr s) n = Ok ((exchange (fst n), col), if labelled (snd n) s then Some (exchange (fst n), value (snd n) s) else None)).
  { intros n Hn. destruct (node_color_ok (snd n) cn Hcn (Kn n Hn)) as (col & Ec). exists col. unfold plot_node. rewrite Ec. cbn [bind truthy].
    destruct (String.eqb_spec s ""); [contradiction|]. cbn [negb label_value]. destruct (String.eqb_spec s "index"); [contradiction|]. cbn [bind]. change (attr_get (snd n) s) with (value (snd n) s). unfold labelled.
    destruct (Hv n Hn) as [E|E]; [rewrite E; reflexivity|]. destruct (value (snd n) s); try destruct E; reflexivity. }
  destruct (mapM_ok (plot_node indices cn (VStr s)) (vg_nodes g)) as (parts & Ep & F). { intros n Hn. destruct (P n Hn) as (col & K). eauto. }
  destruct (draw_compose g indices cn ce (VStr s) title legend (Some t) parts segs Hne Et Ep Es) as (pic & E & _ & Ex & _); [discriminate|].
  exists pic. split; [exact E|]. rewrite Ex. clear - F P. induction F as [|n y l parts K F IH]; [reflexivity|]. cbn [flat_map filter map]. destruct (P n (or_introl eq_refl)) as (col & K'). rewrite K in K'. injection K' as ->. cbn [snd].
  rewrite IH by (intros; apply P; right; assumption). destruct (labelled (snd n) s); reflexivity.
Qed.
Print Assumptions C65_labels.

Lemma index_in_spec l p : In p (map fst l) -> exists i, index_in l p = Ok (VInt i) /\ In (p, i) l.
Proof.
  intros H. unfold index_in. destruct (find (fun kv => peqb (fst kv) p) l) as [[q i]|] eqn:F.
  - apply find_some in F. destruct F as [F1 F2]. cbn [fst] in F2. apply peqb_true in F2. subst q. exists i. split; [reflexivity|exact F1].
  - exfalso. apply in_map_iff in H. destruct H as (kv & E & Hk). pose proof (find_none _ _ F kv Hk) as K. cbn beta in K. rewrite E, peqb_refl in K. discriminate.
Qed.
Theorem C65_index_labels : forall g indices cn ce title legend, vg_nodes g <> [] -> color_option cn -> color_option ce ->
  (forall n, In n (vg_nodes g) -> colorable cn (snd n)) -> (forall e, In e (vg_edges g) -> colorable ce (snd e)) ->
  (forall n, In n (vg_nodes g) -> In (fst n) (map fst indices)) -> (truthy title = false \/ title = VBool true \/ exists u, title = VStr u) ->
  exists pic, draw_matplotlib g indices cn ce (VStr "index") title legend None = Ok pic /\
    Forall2 (fun n text => fst text = exchange (fst n) /\ exists i, snd text = VInt i /\ In (fst n, i) indices) (vg_nodes g) (pc_texts pic).
Proof.
  intros g indices cn ce title legend Hne Hcn Hce Kn Ke Hi Ht.
  destruct (plot_edges_ok g ce Hce Ke) as (segs & Es).
  assert (Et : exists t, get_title title (VStr "index") = Ok t).
  { destruct (truthy title) eqn:E; [|exists None; unfold get_title; rewrite E; reflexivity]. destruct Ht as [Ht|[-> |(u & ->)]]; [discriminate|eexists; reflexivity|]. cbn [truthy] in E. unfold get_title. cbn [truthy]. rewrite E. eexists. reflexivity. }
  destruct Et as (t & Et).
  assert (P : forall n, In n (vg_nodes g) -> exists col i, plot_node indices cn (VStr "index") n = Ok ((exchange (fst n), col), Some (exchange (fst n), VInt i)) /\ In (fst n, i) indices).
  { intros n Hn. destruct (node_color_ok (snd n) cn Hcn (Kn n Hn)) as (col & Ec). destruct (index_in_spec indices (fst n) (Hi n Hn)) as (i & Ei & Hin). exists col, i. split; [|exact Hin]. unfold plot_node. rewrite Ec. cbn [bind truthy].
    change (String.eqb "index" "") with false. cbn [negb label_value]. rewrite Ei. reflexivity. }
  destruct (mapM_ok (plot_node indices cn (VStr "index")) (vg_nodes g)) as (parts & Ep & F). { intros n Hn. destruct (P n Hn) as (col & i & K & _). eauto. }
  assert (T : Forall2 (fun n text => fst text = exchange (fst n) /\ exists i, snd text = VInt i /\ In (fst n, i) indices) (vg_nodes g) (flat_map (fun a => opt_list (snd a)) parts) /\
              List.length (flat_map (fun a => opt_list (snd a)) parts) = List.length parts).
  { clear - F P. induction F as [|n y l parts K F IH]; [split; [constructor|reflexivity]|]. destruct (P n (or_introl eq_refl)) as (col & i & K' & Hin). rewrite K in K'. injection K' as ->. cbn [flat_map snd opt_list app List.length].
    destruct IH as [I1 I2]; [intros; apply P; right; assumption|]. split; [constructor; [|exact I1]|congruence]. split; [reflexivity|]. exists i. split; [reflexivity|exact Hin]. }
  destruct T as [T1 T2].
  destruct (draw_compose g indices cn ce (VStr "index") title legend t parts segs Hne Et Ep Es) as (pic & E & _ & Ex & _); [intros _ L; lia|].
  exists pic. split; [exact E|]. rewrite Ex. exact T1.
Qed.
Print Assumptions C65_index_labels.

(* "If the attribute [is not set] for some or all of the nodes, a message will print": without a title there is an error instead *)
Theorem C65_untitled_refuted : forall g indices cn ce s title legend n, color_option cn -> (forall n, In n (vg_nodes g) -> colorable cn (snd n)) ->
  s <> ""%string -> s <> "index"%string -> truthy title = false -> (forall n, In n (vg_nodes g) -> value (snd n) s = VNone \/ number (value (snd n) s)) ->
  In n (vg_nodes g) -> value (snd n) s = VNone -> draw_matplotlib g indices cn ce (VStr s) title legend None = Err AttributeError.
Proof.
  intros g indices cn ce s title legend n0 Hcn Kn Hs Hi Ht Hv Hn0 E0. unfold draw_matplotlib. destruct (vg_nodes g) as [|n1 l1] eqn:Eg; [destruct Hn0|]. rewrite <- Eg in *. cbn [bind]. unfold get_title. rewrite Ht. cbn [negb bind].
  assert (P : forall n, In n (vg_nodes g) -> exists col, plot_node indices cn (VStr s) n = Ok ((exchange (fst n), col), if labelled (snd n) s then Some (exchange (fst n), value (snd n) s) else None)).
  { intros n Hn. destruct (node_color_ok (snd n) cn Hcn (Kn n Hn)) as (col & Ec). exists col. unfold plot_node. rewrite Ec. cbn [bind truthy].
    destruct (String.eqb_spec s ""); [contradiction|]. cbn [negb label_value]. destruct (String.eqb_spec s "index"); [contradiction|]. cbn [bind]. change (attr_get (snd n) s) with (value (snd n) s). unfold labelled.
    destruct (Hv n Hn) as [E|E]; [rewrite E; reflexivity|]. destruct (value (snd n) s); try destruct E; reflexivity. }
  destruct (mapM_ok (plot_node indices cn (VStr s)) (vg_nodes g)) as (parts & Ep & F). { intros n Hn. destruct (P n Hn) as (col & K). eauto. }
  unfold plot_nodes. rewrite Ep. cbn [bind truthy]. destruct (String.eqb_spec s ""); [contradiction|]. cbn [negb andb].
  assert (L : (List.length (flat_map (fun a => opt_list (snd a)) parts) < List.length parts)%nat).
  { clear - F P Hn0 E0. assert (G : (List.length (flat_map (fun a => opt_list (snd a)) parts) <= List.length parts)%nat) by (clear; induction parts as [|[? []] l IH]; cbn in *; lia).
    induction F as [|n y l parts K F IH]; [destruct Hn0|]. destruct (P n (or_introl eq_refl)) as (col & K'). rewrite K in K'. injection K' as ->. cbn [flat_map snd] in *. rewrite app_length in *. cbn [List.length] in *.
    assert (G' : (List.length (flat_map (fun a => opt_list (snd a)) parts) <= List.length parts)%nat) by (clear; induction parts as [|[? []] l IH]; cbn in *; lia).
    destruct Hn0 as [-> |Hn0].
    - unfold labelled. rewrite E0. cbn. lia.
    - specialize (IH Hn0 (fun n Hn => P n (or_intror Hn)) G'). destruct (labelled (snd n) s); cbn; lia. }
  apply Nat.ltb_lt in L. rewrite L. reflexivity.
Qed.
Print Assumptions C65_untitled_refuted.

(* attributes that are not numbers cannot be shown, nor can several attributes *)
Theorem C65_text_labels_refuted : forall g indices cn ce s u title legend n, color_option cn -> colorable cn (snd n) -> (forall n', In n' (vg_nodes g) -> colorable cn (snd n')) ->
  s <> "index"%string -> (truthy title = false \/ title = VBool true) -> hd_error (vg_nodes g) = Some n -> value (snd n) s = VStr u -> s <> ""%string ->
  draw_matplotlib g indices cn ce (VStr s) title legend None = Err TypeError.
Proof.
  intros g indices cn ce s u title legend n Hcn Kn _ Hi Ht Hn E0 Hs. unfold draw_matplotlib. destruct (vg_nodes g) as [|n1 l1] eqn:Eg; [discriminate|]. injection Hn as ->. cbn [bind].
  assert (Et : exists t, get_title title (VStr s) = Ok t) by (destruct Ht as [Ht| ->]; [exists None; unfold get_title; rewrite Ht; reflexivity|eexists; reflexivity]). destruct Et as (t & ->). cbn [bind].
  unfold plot_nodes. rewrite Eg. cbn [mapM]. unfold plot_node at 1. destruct (node_color_ok (snd n) cn Hcn Kn) as (col & ->). cbn [bind truthy]. destruct (String.eqb_spec s ""); [contradiction|]. cbn [negb label_value].
  destruct (String.eqb_spec s "index"); [contradiction|]. change (attr_get (snd n) s) with (value (snd n) s). rewrite E0. reflexivity.
Qed.
Theorem C65_list_label_refuted : forall g indices cn ce a l title legend n, color_option cn -> colorable cn (snd n) -> hd_error (vg_nodes g) = Some n ->
  (truthy title = false \/ title = VBool true) -> draw_matplotlib g indices cn ce (VList (map VStr (a :: l))) title legend None = Err TypeError.
Proof.
  intros g indices cn ce a l title legend n Hcn Kn Hn Ht. unfold draw_matplotlib. destruct (vg_nodes g) as [|n1 l1] eqn:Eg; [discriminate|]. injection Hn as ->. cbn [bind].
  assert (Et : exists t, get_title title (VList (map VStr (a :: l))) = Ok t).
  { destruct Ht as [Ht| ->]; [exists None; unfold get_title; rewrite Ht; reflexivity|]. destruct l as [|b l]; [eexists; reflexivity|]. exists (Some (join ", " (a :: b :: l))). apply (proj1 (proj2 (proj2 (proj2 (proj2 C65_titles))))). cbn; lia. }
  destruct Et as (t & ->). cbn [bind]. unfold plot_nodes. rewrite Eg. cbn [mapM]. unfold plot_node at 1. destruct (node_color_ok (snd n) cn Hcn Kn) as (col & ->). cbn [bind truthy map]. reflexivity.
Qed.

(* the documentation's own example, color_nodes=["state", {"GKP": "b", "p": "r"}], a list, colours every node black *)
Theorem C65_list_colors_refuted : forall g indices ce label title legend dims l pic, draw_matplotlib g indices (VList l) ce label title legend dims = Ok pic ->
  Forall (fun dot => snd dot = VStr "black") (pc_dots pic).
Proof.
  intros g indices ce label title legend dims l pic H. destruct (draw_parts _ _ _ _ _ _ _ _ _ H) as (parts & E1 & Ed & _). apply mapM_inv in E1. rewrite Ed. apply Forall_forall. intros dot Hd. apply in_map_iff in Hd.
  destruct Hd as ([d t] & <- & Hd). destruct (F2_in_r _ _ _ _ E1 Hd) as (n & _ & K). destruct (plot_node_dot _ _ _ _ _ _ K) as [_ K2]. cbn [fst]. cbn in K2. injection K2 as K2. symmetry. exact K2.
Qed.
