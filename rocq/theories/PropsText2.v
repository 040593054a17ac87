(* PropsText2.v: C65, the pictures drawn with plotly and the texts shown when hovering over a node. *)
From Coq Require Import String Sorting.Sorted.
From Verif Require Import Base Lattice RhgModel SurfaceModel StabGraphModel MwpmModel MwpmProofs SimModel VizModel PropsViz PropsViz2 PropsText.
Open Scope Z_scope.

(* ---------- specification: the documentation of _get_node_info ---------- *)
Definition coordinates (p : point) : string := ("(" ++ dec (co AX p) ++ ", " ++ dec (co AY p) ++ ", " ++ dec (co AZ p) ++ ")")%string.
(* one line "key: value"; nothing for an attribute that is not set; the index i of the node under the key "index" *)
Definition entry (i : Z) (d : dict) (k : string) : string :=
  (if String.eqb k "index" then "<br />index: " ++ dec i
   else match value d k with VNone => "" | v => "<br />" ++ k ++ ": " ++ py_str v end)%string.
Definition hover (i : Z) (p : point) (d : dict) (ks : list string) : string := (coordinates p ++ String.concat "" (map (entry i d) ks))%string.
Definition str_le (s t : string) : Prop := String.compare s t <> Gt.


Lemma append_assoc s t u : ((s ++ t) ++ u = s ++ t ++ u)%string.
Proof. induction s as [|a s IH]; [reflexivity|]. cbn. rewrite IH. reflexivity. Qed.
Lemma str_node_spec p : str_node p = coordinates p.
Proof.
  unfold str_node, coordinates. change (py_repr (VTuple [VInt (co AX p); VInt (co AY p); VInt (co AZ p)])) with ("(" ++ (dec (co AX p) ++ ", " ++ dec (co AY p) ++ ", " ++ dec (co AZ p)) ++ ")")%string.
  rewrite !append_assoc. reflexivity.
Qed.

(* ---------- dictionaries and sorting ---------- *)
Lemma lookup_cons k kv d : lookup k (kv :: d) = if String.eqb (fst kv) k then Some (snd kv) else lookup k d.
Proof. unfold lookup. cbn [find]. destruct (String.eqb (fst kv) k); reflexivity. Qed.
Lemma value_set k v d k' : value (dict_set k v d) k' = if String.eqb k k' then v else value d k'.
Proof.
  unfold value, dict_set. destruct (lookup k d) as [w|] eqn:E.
  - assert (K : lookup k' (map (fun kv => if String.eqb (fst kv) k then (k, v) else kv) d) = if String.eqb k k' then Some v else lookup k' d).
    { clear -E. assert (H : k = k' -> exists w, lookup k' d = Some w) by (intros <-; eauto). clear E w. induction d as [|kv d IH].
      - cbn. destruct (String.eqb_spec k k') as [e|e]; [destruct (H e); discriminate|reflexivity].
      - cbn [map]. rewrite !lookup_cons. destruct (String.eqb_spec (fst kv) k) as [Ek|Ek]; cbn [fst snd].
        + rewrite Ek. destruct (String.eqb_spec k k') as [e|e]; [reflexivity|]. apply IH. intros; contradiction.
        + destruct (String.eqb_spec (fst kv) k') as [Ek'|Ek'].
          * destruct (String.eqb_spec k k') as [e|e]; [congruence|reflexivity].
          * apply IH. intros e. destruct (H e) as (w & Hw). rewrite lookup_cons in Hw. destruct (String.eqb_spec (fst kv) k'); [contradiction|]. eauto. }
    rewrite K. destruct (String.eqb k k'); reflexivity.
  - assert (K : lookup k' (d ++ [(k, v)]) = match lookup k' d with Some w => Some w | None => if String.eqb k k' then Some v else None end).
    { clear E. induction d as [|kv d IH]; [cbn [app]; rewrite lookup_cons; cbn [fst snd]; reflexivity|]. cbn [app]. rewrite !lookup_cons. destruct (String.eqb (fst kv) k'); [reflexivity|exact IH]. }
    rewrite K. destruct (String.eqb_spec k k') as [<-|e]; [rewrite E; reflexivity|]. destruct (lookup k' d); reflexivity.
Qed.
Lemma str_leb_le s t : str_leb s t = true <-> str_le s t.
Proof. unfold str_leb, str_le. destruct (String.compare s t); split; congruence. Qed.
Lemma insert_perm s l : Permutation (insert s l) (s :: l).
Proof. induction l as [|t l IH]; [reflexivity|]. cbn [insert]. destruct (str_leb s t); [reflexivity|]. rewrite IH. apply perm_swap. Qed.
Lemma sort_perm l : Permutation (sort_strings l) l.
Proof. unfold sort_strings. induction l as [|s l IH]; [reflexivity|]. cbn [fold_right]. rewrite insert_perm, IH. reflexivity. Qed.
Lemma compare_antisym s : forall t, String.compare s t = CompOpp (String.compare t s).
Proof.
  exact (String.compare_antisym s).
Qed.
Lemma insert_sorted s l : Sorted str_le l -> Sorted str_le (insert s l).
Proof.
  induction l as [|t l IH]; intros H; [repeat constructor|]. cbn [insert]. destruct (str_leb s t) eqn:E.
  - constructor; [exact H|]. constructor. apply str_leb_le. exact E.
  - apply Sorted_inv in H. destruct H as [H1 H2]. constructor; [auto|]. assert (Ht : str_le t s).
    { unfold str_leb in E. unfold str_le. rewrite compare_antisym. destruct (String.compare s t); cbn; congruence. }
    destruct l as [|u l]; [constructor; exact Ht|]. cbn [insert]. destruct (str_leb s u); constructor; [exact Ht|]. inversion H2; assumption.
Qed.
Lemma sort_sorted l : Sorted str_le (sort_strings l).
Proof. unfold sort_strings. induction l as [|s l IH]; [constructor|]. cbn [fold_right]. apply insert_sorted. exact IH. Qed.

(* ---------- hover texts ---------- *)
Lemma mentions_list ks : existsb (py_eqb (str "index")) (map VStr ks) = existsb (String.eqb "index") ks.
Proof. induction ks as [|k ks IH]; [reflexivity|]. cbn [map existsb]. rewrite IH. reflexivity. Qed.
Lemma has_index ks : existsb (String.eqb "index") ks = true <-> In "index"%string ks.
Proof. rewrite existsb_exists. split; [intros (x & H & E); apply String.eqb_eq in E; subst; exact H|]. intros H. exists "index"%string. split; [exact H|apply String.eqb_refl]. Qed.
Lemma entries_index i d ks : mapM (info_entry (dict_set "index" (VInt i) d)) (map VStr ks) = Ok (map (entry i d) ks).
Proof.
  induction ks as [|k ks IH]; [reflexivity|]. cbn [map mapM]. rewrite IH. unfold info_entry at 1. cbn [hashable bind]. do 2 f_equal. unfold entry. change (attr_get (dict_set "index" (VInt i) d) k) with (value (dict_set "index" (VInt i) d) k).
  rewrite value_set. rewrite String.eqb_sym. destruct (String.eqb_spec k "index") as [-> |]; [reflexivity|]. destruct (value d k); reflexivity.
Qed.
Lemma entries_plain i d ks : ~ In "index"%string ks -> mapM (info_entry d) (map VStr ks) = Ok (map (entry i d) ks).
Proof.
  induction ks as [|k ks IH]; intros H; [reflexivity|]. cbn [map mapM]. rewrite IH by (intros K; apply H; right; exact K). unfold info_entry at 1. cbn [hashable bind]. do 2 f_equal. unfold entry. change (attr_get d k) with (value d k).
  destruct (String.eqb_spec k "index") as [-> |]; [destruct H; left; reflexivity|]. destruct (value d k); reflexivity.
Qed.
Lemma info_list index p d ks information : information = VList (map VStr ks) \/ information = VTuple (map VStr ks) ->
  (In "index"%string ks -> exists l, index = Some l /\ In p (map fst l)) ->
  exists i, (In "index"%string ks -> exists l, index = Some l /\ In (p, i) l) /\ get_node_info index p d information = Ok (Some (hover i p d ks)).
Proof.
  intros Hi Hx. assert (E : get_node_info index p d information = bind (Ok (existsb (String.eqb "index") ks)) (fun m =>
    bind (if m then match index with None => Err TypeError | Some l => bind (index_in l p) (fun i => Ok (dict_set "index" i d)) end else Ok d) (fun d' =>
    bind (mapM (info_entry d') (map VStr ks)) (fun ss => Ok (Some (str_node p ++ String.concat "" ss)%string))))).
  { destruct Hi as [-> | ->]; unfold get_node_info, mentions_index; rewrite mentions_list; reflexivity. }
  rewrite E. clear E Hi. cbn [bind]. destruct (existsb (String.eqb "index") ks) eqn:Eb.
  - apply has_index in Eb. destruct (Hx Eb) as (l & -> & Hp). destruct (index_in_spec l p Hp) as (i & Ei & Hin). exists i. split; [eauto|]. rewrite Ei. cbn [bind]. rewrite entries_index. cbn [bind]. rewrite str_node_spec. reflexivity.
  - assert (N : ~ In "index"%string ks) by (intros K; apply has_index in K; congruence). exists 0. split; [contradiction|]. cbn [bind]. rewrite (entries_plain 0 d ks N). cbn [bind]. rewrite str_node_spec. reflexivity.
Qed.
Lemma info_all index p d l : index = Some l -> In p (map fst l) ->
  exists i ks, In (p, i) l /\ Permutation ks (map fst d) /\ Sorted str_le ks /\ get_node_info index p d (VStr "all") = Ok (Some (hover i p d ("index"%string :: ks))).
Proof.
  intros -> Hp. set (ks := sort_strings (map fst d)).
  destruct (info_list (Some l) p d ("index"%string :: ks) (VList (map VStr ("index"%string :: ks))) (or_introl eq_refl)) as (i & Hi & E); [eauto|].
  destruct (Hi (or_introl eq_refl)) as (l' & El & Hin). injection El as <-. exists i, ks. split; [exact Hin|]. split; [apply sort_perm|]. split; [apply sort_sorted|]. rewrite <- E. reflexivity.
Qed.

Lemma F2_combine {A B C} (R : A -> B -> C -> Prop) l bs cs : Forall2 (fun a b => True) l bs -> Forall2 (fun a c => True) l cs -> (forall a b c, In (a, (b, c)) (combine l (combine bs cs)) -> R a b c) ->
  Forall2 (fun a y => fst y = a /\ R a (fst (snd y)) (snd (snd y))) l (combine l (combine bs cs)).
Proof.
  intros F. revert cs. induction F as [|a b l bs _ F IH]; intros cs G H; [constructor|]. inversion G as [|? c ? cs' _ G']; subst. cbn [combine] in *. constructor; [cbn [fst snd]; split; [reflexivity|apply H; left; reflexivity]|].
  apply IH; [exact G'|]. intros; apply H; right; assumption.
Qed.
Lemma F2_two {A B C} (P : A -> B -> Prop) (Q : A -> C -> Prop) l bs cs : Forall2 P l bs -> Forall2 Q l cs -> forall (f : A -> point),
  Forall2 (fun a y => fst y = f a /\ P a (fst (snd y)) /\ Q a (snd (snd y))) l (combine (map f l) (combine bs cs)).
Proof.
  intros F. revert cs. induction F as [|a b l bs H F IH]; intros cs G f; [constructor|]. inversion G as [|? c ? cs' K G']; subst. cbn [combine map]. constructor; [cbn [fst snd]; auto|]. apply IH. exact G'.
Qed.

(* C65.  A picture drawn with plotly has a dot at the coordinates of every node, in the documented colour; the line of the edges goes, edge by edge,
   from one end to the other and is then interrupted.  Hovering over a node shows its coordinates and the requested attributes that are set, in
   the requested order (label="all": the index and all attributes in alphabetic order). *)
Definition hover_spec (g : vgraph) (label : pyval) (n : point * dict) (text : option string) : Prop :=
  match label with
  | VStr "coordinates" => text = Some (coordinates (fst n))
  | VStr "all" => exists l i ks, vg_index g = Some l /\ In (fst n, i) l /\ Permutation ks (map fst (snd n)) /\ Sorted str_le ks /\ text = Some (hover i (fst n) (snd n) ("index"%string :: ks))
  | VList vs | VTuple vs => forall ks, vs = map VStr ks -> exists i, (In "index"%string ks -> exists l, vg_index g = Some l /\ In (fst n, i) l) /\ text = Some (hover i (fst n) (snd n) ks)
  | _ => True
  end.
(* labels of the documented types; the graph has indices if they are asked for *)
Definition label_ok (g : vgraph) (label : pyval) : Prop :=
  let indexed := exists l, vg_index g = Some l /\ forall n, In n (vg_nodes g) -> In (fst n) (map fst l) in
  label = VStr "coordinates" \/ (label = VStr "all" /\ indexed) \/ exists ks, (label = VList (map VStr ks) \/ label = VTuple (map VStr ks)) /\ (In "index"%string ks -> indexed).
Lemma strs_inj l m : map VStr l = map VStr m -> l = m.
Proof. revert m. induction l as [|a l IH]; intros [|b m] H; try discriminate; [reflexivity|]. cbn in H. injection H as -> H. f_equal. auto. Qed.
Lemma info_ok g label n : label_ok g label -> In n (vg_nodes g) -> exists text, get_node_info (vg_index g) (fst n) (snd n) label = Ok text /\ hover_spec g label n text.
Proof.
  intros H Hn. destruct H as [-> |[[-> (l & El & Hl)]|(ks & Hk & Hi)]].
  - exists (Some (coordinates (fst n))). split; [|reflexivity]. rewrite <- str_node_spec. reflexivity.
  - destruct (info_all (vg_index g) (fst n) (snd n) l El (Hl n Hn)) as (i & ks & H1 & H2 & H3 & H4). exists (Some (hover i (fst n) (snd n) ("index"%string :: ks))). split; [exact H4|]. exists l, i, ks. auto.
  - destruct (info_list (vg_index g) (fst n) (snd n) ks label Hk) as (i & H1 & H2).
    { intros K. destruct (Hi K) as (l & El & Hl). exists l. split; [exact El|apply Hl; exact Hn]. }
    exists (Some (hover i (fst n) (snd n) ks)). split; [exact H2|]. destruct Hk as [-> | ->]; cbn [hover_spec]; intros ks' E; apply strs_inj in E; subst ks'; exists i; auto.
Qed.

Theorem C65_plotly : forall g cn ce label title, vg_nodes g <> [] -> color_option cn -> color_option ce ->
  (forall n, In n (vg_nodes g) -> colorable cn (snd n)) -> (forall e, In e (vg_edges g) -> colorable ce (snd e)) ->
  label_ok g label -> truthy title = false ->
  exists pic, draw_plotly g cn ce label title = Ok pic /\
    Forall2 (fun n y => fst y = fst n /\ documented_color "black" "black" (snd n) cn (fst (snd y)) /\ hover_spec g label n (snd (snd y))) (vg_nodes g) (ply_nodes pic) /\
    ply_edges pic = List.concat (map (fun e => [Some (fst (fst e)); Some (snd (fst e)); None]) (vg_edges g)) /\ ply_title pic = None.
Proof.
  intros g cn ce label title Hne Hcn Hce Kn Ke Hl Ht. unfold draw_plotly, get_title. rewrite Ht. cbn [negb bind].
  destruct (mapM_ok (fun n : point * dict => get_node_color (snd n) cn) (vg_nodes g)) as (cs & E1 & F1). { intros n Hn. apply node_color_ok; auto. }
  destruct (mapM_ok (fun n : point * dict => get_node_info (vg_index g) (fst n) (snd n) label) (vg_nodes g)) as (infos & E2 & F2). { intros n Hn. destruct (info_ok g label n Hl Hn) as (t & K & _). eauto. }
  destruct (mapM_ok (fun e : (point * point) * dict => get_edge_color (snd e) ce) (vg_edges g)) as (es & E3 & _). { intros e He. apply edge_color_ok; auto. }
  destruct (vg_nodes g) as [|n0 l0] eqn:Eg; [congruence|]. rewrite <- Eg in *. rewrite E1, E2, E3. cbn [bind]. eexists. split; [reflexivity|]. cbn [ply_nodes ply_edges ply_title].
  split; [|split; [apply flat_map_concat_map|reflexivity]].
  assert (F1' : Forall2 (fun n col => documented_color "black" "black" (snd n) cn col) (vg_nodes g) cs) by (revert F1; apply F2_impl; intros n col _ K; apply node_color_spec; exact K).
  assert (F2' : Forall2 (fun n t => hover_spec g label n t) (vg_nodes g) infos).
  { revert F2. apply F2_impl. intros n t Hn K. destruct (info_ok g label n Hl Hn) as (t' & K1 & K2). rewrite K in K1. injection K1 as ->. exact K2. }
  exact (F2_two _ _ _ _ _ F1' F2' fst).
Qed.
Print Assumptions C65_plotly.

Lemma shown_twice p : exchange (shown p) = p.
Proof. destruct p as [[? ?] ?]. reflexivity. Qed.
(* C65.  Both backends draw the same picture: the same nodes in the same order and colours, the same ends of every edge; only y and z are exchanged.
   The edge colours of matplotlib are those that plotly is given for the markers of its trace of edges (see below). *)
Theorem C65_backends_agree : forall g indices cn ce label1 label2 title1 title2 legend dims pic ply,
  draw_matplotlib g indices cn ce label1 title1 legend dims = Ok pic -> draw_plotly g cn ce label2 title2 = Ok ply ->
  map (fun y => (exchange (fst y), fst (snd y))) (ply_nodes ply) = pc_dots pic /\
  ply_edges ply = flat_map (fun s => [Some (exchange (fst (fst s))); Some (exchange (snd (fst s))); None]) (pc_segs pic) /\
  ply_marker_colors ply = map snd (pc_segs pic).
Proof.
  intros g indices cn ce label1 label2 title1 title2 legend dims pic ply H1 H2. destruct (draw_parts _ _ _ _ _ _ _ _ _ H1) as (parts & E1 & Ed & _ & Es & _).
  unfold draw_plotly in H2. destruct (get_title title2 label2) as [t|]; [|discriminate H2]. cbn [bind] in H2. destruct (vg_nodes g) as [|n0 l0] eqn:Eg; [discriminate H2|]. rewrite <- Eg in *. clear Eg n0 l0.
  destruct (mapM (fun n => get_node_color (snd n) cn) (vg_nodes g)) as [cs|] eqn:M1; [|discriminate H2]. cbn [bind] in H2.
  destruct (mapM (fun n => get_node_info (vg_index g) (fst n) (snd n) label2) (vg_nodes g)) as [infos|] eqn:M2; [|discriminate H2]. cbn [bind] in H2.
  destruct (mapM (fun e => get_edge_color (snd e) ce) (vg_edges g)) as [es|] eqn:M3; [|discriminate H2]. cbn [bind] in H2. injection H2 as <-. cbn [ply_nodes ply_edges ply_marker_colors].
  apply mapM_inv in M1, M2, M3, E1, Es. split; [|].
  - rewrite Ed. clear Ed Es M3 es H1. revert cs infos parts M1 M2 E1. induction (vg_nodes g) as [|n l IH]; intros cs infos parts M1 M2 E1; inversion M1; inversion M2; inversion E1; subst; [reflexivity|].
    cbn [map combine fst snd]. f_equal; [|apply IH; assumption]. match goal with K : plot_node _ _ _ n = Ok ?y |- _ => destruct y as [d t']; destruct (plot_node_dot _ _ _ _ _ _ K) as [K1 K2] end. cbn [fst] in *.
    destruct d as [x col]. cbn [fst snd] in *. congruence.
  - clear Ed E1 M1 M2 H1 parts cs infos. revert es M3 Es. generalize (pc_segs pic). induction (vg_edges g) as [|e l IH]; intros segs es M3 Es; inversion M3; inversion Es; subst; [split; reflexivity|].
    match goal with K : bind _ _ = Ok _, K' : get_edge_color _ _ = Ok _ |- _ => rewrite K' in K; cbn [bind] in K; injection K as <- end.
    match goal with M : Forall2 (fun x y => get_edge_color _ _ = Ok _) l _, N : Forall2 (fun x y => bind _ _ = Ok _) l _ |- _ => destruct (IH _ _ M N) as [I1 I2] end.
    cbn [flat_map map fst snd app]. rewrite !shown_twice, I1, I2. split; reflexivity.
Qed.
Print Assumptions C65_backends_agree.

(* what plotly shows of a trace: markers only if its mode mentions them, lines only in the colour of the line *)
Definition ply_edge_color (ply : ply) : option pyval := if String.eqb (ply_mode ply) "lines" then Some (ply_line_color ply) else None.
(* C65 refuted: the edges of the plotly picture are black whatever color_edges and the attributes of the edges are, e.g. with color_edges = "r",
   when matplotlib draws all of them red. *)
Theorem C65_plotly_edges_refuted : forall g cn ce label title ply, draw_plotly g cn ce label title = Ok ply -> ply_edge_color ply = Some (VStr "black") /\
  forall indices label1 title1 legend dims pic, draw_matplotlib g indices cn (VStr "r") label1 title1 legend dims = Ok pic -> Forall (fun s => snd s = VStr "r") (pc_segs pic).
Proof.
  intros g cn ce label title ply H. split.
  - unfold draw_plotly in H. destruct (get_title title label) as [t|]; [|discriminate H]. cbn [bind] in H. destruct (vg_nodes g) as [|n0 l0] eqn:Eg; [discriminate H|]. rewrite <- Eg in *.
    destruct (mapM (fun n => get_node_color (snd n) cn) (vg_nodes g)) as [cs|]; [|discriminate H]. cbn [bind] in H.
    destruct (mapM (fun n => get_node_info (vg_index g) (fst n) (snd n) label) (vg_nodes g)) as [infos|]; [|discriminate H]. cbn [bind] in H.
    destruct (mapM (fun e => get_edge_color (snd e) ce) (vg_edges g)) as [es|]; [|discriminate H]. cbn [bind] in H. injection H as <-. reflexivity.
  - intros indices label1 title1 legend dims pic H1. destruct (draw_parts _ _ _ _ _ _ _ _ _ H1) as (parts & _ & _ & _ & Es & _). apply mapM_inv in Es. clear - Es.
    induction Es as [|e s l m Hh Ht IH]; constructor; [|exact IH]. cbn [get_edge_color bind] in Hh. injection Hh as <-. reflexivity.
Qed.

(* an attribute whose name merely contains "index" cannot be shown unless indices were made: the test `"index" in information` looks for a substring *)
Lemma substring_app u s v : substring_of s (u ++ s ++ v) = true.
Proof.
  assert (P : forall s v, String.prefix s (s ++ v) = true). { induction s0 as [|a s0 IH]; intros v0; [destruct v0; reflexivity|]. cbn. destruct (Ascii.ascii_dec a a); [apply IH|contradiction]. }
  induction u as [|a u IH]; cbn [String.append].
  - specialize (P s v). destruct (s ++ v)%string; cbn [substring_of]; rewrite P; reflexivity.
  - change (String.prefix s (String a (u ++ s ++ v)) || substring_of s (u ++ s ++ v) = true). rewrite IH. apply orb_true_r.
Qed.
Theorem C65_hover_substring_refuted : forall u v p d, (u ++ "index" ++ v)%string <> "all"%string -> get_node_info None p d (VStr (u ++ "index" ++ v)) = Err TypeError.
Proof.
  intros u v p d Hne. assert (E : get_node_info None p d (VStr (u ++ "index" ++ v)) = bind (mentions_index (VStr (u ++ "index" ++ v))) (fun m =>
    bind (if m then Err TypeError else Ok d) (fun d => if String.eqb (u ++ "index" ++ v) "coordinates" then Ok (Some (str_node p)) else Ok (Some ((u ++ "index" ++ v) ++ ": " ++ py_str (attr_get d (u ++ "index" ++ v)))%string)))).
  { unfold get_node_info. generalize dependent (u ++ "index" ++ v)%string. intros s Hs. repeat (destruct s as [|[[|][|][|][|][|][|][|][|]] s]; try reflexivity; try congruence). }
  rewrite E. unfold mentions_index. rewrite substring_app. reflexivity.
Qed.

(* label=None is documented ("nothing will be displayed") but raises; the default label="all" needs indices, which only index_generator makes *)
Theorem C65_hover_refuted : forall g cn ce title, vg_nodes g <> [] -> color_option cn -> (forall n, In n (vg_nodes g) -> colorable cn (snd n)) -> truthy title = false ->
  draw_plotly g cn ce VNone title = Err TypeError /\ (vg_index g = None -> draw_plotly g cn ce (VStr "all") title = Err TypeError).
Proof.
  intros g cn ce title Hne Hcn Kn Ht. unfold draw_plotly, get_title. rewrite Ht. cbn [negb bind].
  destruct (mapM_ok (fun n : point * dict => get_node_color (snd n) cn) (vg_nodes g)) as (cs & E1 & _). { intros n Hn. apply node_color_ok; auto. }
  destruct (vg_nodes g) as [|n0 l0] eqn:Eg; [congruence|]. rewrite E1. cbn [bind]. split; [reflexivity|]. intros Ei. rewrite Ei. reflexivity.
Qed.

(* C65.  CVLayer.draw colours GKP states gold and p-squeezed states blue (and nodes without a state black), with either backend. *)
Lemma cv_color d : (value d "state" = VStr "GKP" -> get_node_color d cv_node_colors = Ok (VStr "gold")) /\ (value d "state" = VStr "p" -> get_node_color d cv_node_colors = Ok (VStr "blue")) /\
  (value d "state" = VNone -> get_node_color d cv_node_colors = Ok (VStr "black")).
Proof. repeat split; intros H; change (get_node_color d cv_node_colors) with (dict_get [(str "GKP", str "gold"); (str "p", str "blue")] (value d "state") (str "black")); rewrite H; reflexivity. Qed.
Theorem C65_layer_colors : forall g indices ce label title legend dims pic, draw_matplotlib g indices cv_node_colors ce label title legend dims = Ok pic ->
  Forall2 (fun n dot => (value (snd n) "state" = VStr "GKP" -> snd dot = VStr "gold") /\ (value (snd n) "state" = VStr "p" -> snd dot = VStr "blue") /\ (value (snd n) "state" = VNone -> snd dot = VStr "black"))
    (vg_nodes g) (pc_dots pic).
Proof.
  intros g indices ce label title legend dims pic H. destruct (draw_parts _ _ _ _ _ _ _ _ _ H) as (parts & E1 & Ed & _). apply mapM_inv in E1. rewrite Ed. apply F2_map_r. revert E1. apply F2_impl. intros n [dot t] _ K.
  destruct (plot_node_dot _ _ _ _ _ _ K) as [_ K2]. cbn [fst]. destruct (cv_color (snd n)) as (C1 & C2 & C3). repeat split; intros E; [rewrite (C1 E) in K2|rewrite (C2 E) in K2|rewrite (C3 E) in K2]; congruence.
Qed.

(* a graph of three nodes, one without values *)
Definition three : vgraph :=
  {| vg_nodes := [((0, 1, 2), [("type", VStr "dual"); ("state", VStr "GKP"); ("bit_val", VInt 1)]); ((0, 2, 2), [("state", VStr "p"); ("bit_val", VInt 0)]); ((1, 2, 3), [("type", VStr "primal")])]%string;
     vg_edges := [(((0, 1, 2), (0, 2, 2)), [("weight"%string, VInt (-1))]); (((0, 2, 2), (1, 2, 3)), [("color"%string, VStr "r")])]; vg_index := Some [((0, 1, 2), 0); ((0, 2, 2), 1); ((1, 2, 3), 2)] |}.
Example C65_nonvacuous :
  (exists pic, draw_matplotlib three [] cv_node_colors (VBool true) (VStr "bit_val") (VBool true) true None = Ok pic /\
     pc_dots pic = [((0, 2, 1), VStr "gold"); ((0, 2, 2), VStr "blue"); ((1, 3, 2), VStr "black")] /\ map snd (pc_segs pic) = [VStr "grey"; VStr "r"] /\
     pc_texts pic = [((0, 2, 1), VInt 1); ((0, 2, 2), VInt 0)] /\ pc_title pic = Some "Bit values"%string) /\
  draw_matplotlib three [] cv_node_colors (VBool true) (VStr "bit_val") VNone true None = Err AttributeError /\
  draw_matplotlib three [] cv_node_colors (VBool true) (VStr "state") VNone true None = Err TypeError /\
  (exists pic, draw_plotly three cv_node_colors (VBool false) (VStr "all") VNone = Ok pic /\
     map (fun y => snd (snd y)) (ply_nodes pic) = [Some "(0, 1, 2)<br />index: 0<br />bit_val: 1<br />state: GKP<br />type: dual"; Some "(0, 2, 2)<br />index: 1<br />bit_val: 0<br />state: p"; Some "(1, 2, 3)<br />index: 2<br />type: primal"]%string) /\
  label_ok three (VStr "all") /\ color_option cv_node_colors /\ Forall (fun n => colorable cv_node_colors (snd n)) (vg_nodes three).
Proof.
  split; [eexists; split; [reflexivity|repeat split]|]. split; [reflexivity|]. split; [reflexivity|]. split; [eexists; split; [reflexivity|reflexivity]|]. split; [|split; [exact I|repeat constructor]].
  right. left. split; [reflexivity|]. exists [((0, 1, 2), 0); ((0, 2, 2), 1); ((1, 2, 3), 2)]. split; [reflexivity|]. intros n [<-|[<-|[<-|[]]]]; cbn; auto.
Qed.

(* Every picture carries the title of C65_titles, with both backends (an empty one is not drawn). *)
Theorem C65_title_shown :
  (forall g indices cn ce label title legend dims pic, draw_matplotlib g indices cn ce label title legend dims = Ok pic -> get_title title label = Ok (pc_title pic) \/ (get_title title label = Ok (Some ""%string) /\ pc_title pic = None)) /\
  (forall g cn ce label title pic, draw_plotly g cn ce label title = Ok pic -> get_title title label = Ok (ply_title pic)).
Proof.
  split.
  - intros g indices cn ce label title legend dims pic H. unfold draw_matplotlib in H. destruct (match dims with Some d => Ok d | None => _ end) as [[[xl yl] zl]|]; [|discriminate H]. cbn [bind] in H.
    destruct (get_title title label) as [t|]; [|discriminate H]. cbn [bind] in H. destruct (plot_nodes g indices cn label t legend) as [[[ds ts] lg]|]; [|discriminate H]. cbn [bind] in H.
    destruct (plot_edges g ce) as [segs|]; [|discriminate H]. cbn [bind fst snd] in H. injection H as <-. cbn [pc_title]. destruct t as [s|]; [|left; reflexivity]. destruct (String.eqb_spec s "") as [->|]; [right|left]; auto.
  - intros g cn ce label title pic H. unfold draw_plotly in H. destruct (get_title title label) as [t|]; [|discriminate H]. cbn [bind] in H. destruct (vg_nodes g); [discriminate H|].
    destruct (mapM _ _) as [cs|]; [|discriminate H]. cbn [bind] in H. destruct (mapM _ _) as [is|]; [|discriminate H]. cbn [bind] in H. destruct (mapM _ _) as [es|]; [|discriminate H]. cbn [bind] in H. injection H as <-. reflexivity.
Qed.
Print Assumptions C65_title_shown.
