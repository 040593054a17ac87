(* PropsViz2.v: C64, the picture of a graph and the picture of a code. *)
From Coq Require Import String.
From Verif Require Import Base Lattice RhgModel RhgSpec RhgProofs SurfaceModel SurfaceSpec SurfaceProofs SurfaceIncidence SurfaceTheorems SurfaceGauge StabGraphModel Paths Complex
  SurfaceComplex PropsRhg PropsSurface MwpmModel MwpmProofs SimModel VizModel PropsViz PropsMacro.
Open Scope Z_scope.

(* ---------- specification ---------- *)
(* the documented placement: "y and z are swapped so that z goes into the page" *)
Definition exchange (p : point) : point := (co AX p, co AZ p, co AY p).
Definition str_typ (t : ntyp) : string := match t with Primal => "primal" | Dual => "dual" end.
(* an EGraph with the nodes, node types, edges and edge weights of G, each edge in one of its two orientations *)
Definition depicts (g : vgraph) (G : egr) : Prop :=
  (forall p, In p (map fst (vg_nodes g)) <-> In p (node_list G)) /\ NoDup (map fst (vg_nodes g)) /\
  (forall p d t, In (p, d) (vg_nodes g) -> node_type G p = Some t -> lookup "type" d = Some (str (str_typ t))) /\
  (forall u v, edge_attr G u v <> None <-> In (u, v) (map fst (vg_edges g)) \/ In (v, u) (map fst (vg_edges g))) /\
  (forall u v d a, In ((u, v), d) (vg_edges g) -> edge_attr G u v = Some a -> lookup "weight" d = Some (VInt (eweight a))).

(* ---------- the picture of any graph ---------- *)
Lemma shown_exchange p : shown p = exchange p. Proof. reflexivity. Qed.
Lemma exchange_inj p q : exchange p = exchange q -> p = q.
Proof. destruct p as [[? ?] ?], q as [[? ?] ?]. unfold exchange, co. cbn [get fst snd]. congruence. Qed.
Lemma fold_min_le l : forall m, fold_left Z.min l m <= m /\ (forall x, In x l -> fold_left Z.min l m <= x) /\ (fold_left Z.min l m = m \/ In (fold_left Z.min l m) l).
Proof.
  induction l as [|y l IH]; intros m; cbn [fold_left]; [split; [lia|split; [intros x []|auto]]|]. destruct (IH (Z.min m y)) as (H1 & H2 & H3). split; [lia|]. split.
  - intros x [<-|Hx]; [lia|auto].
  - destruct H3 as [H3|H3]; [|right; right; exact H3]. rewrite H3. destruct (Z.min_dec m y) as [-> | ->]; [left; reflexivity|right; left; reflexivity].
Qed.
Lemma fold_max_ge l : forall m, m <= fold_left Z.max l m /\ (forall x, In x l -> x <= fold_left Z.max l m) /\ (fold_left Z.max l m = m \/ In (fold_left Z.max l m) l).
Proof.
  induction l as [|y l IH]; intros m; cbn [fold_left]; [split; [lia|split; [intros x []|auto]]|]. destruct (IH (Z.max m y)) as (H1 & H2 & H3). split; [lia|]. split.
  - intros x [<-|Hx]; [lia|auto].
  - destruct H3 as [H3|H3]; [|right; right; exact H3]. rewrite H3. destruct (Z.max_dec m y) as [-> | ->]; [left; reflexivity|right; left; reflexivity].
Qed.
Lemma lmin_spec l : l <> [] -> In (lmin l) l /\ forall x, In x l -> lmin l <= x.
Proof.
  destruct l as [|y l]; [congruence|]. intros _. unfold lmin. destruct (fold_min_le l y) as (H1 & H2 & H3). split; [destruct H3 as [-> |H3]; [left; reflexivity|right; exact H3]|]. intros x [<-|Hx]; auto.
Qed.
Lemma lmax_spec l : l <> [] -> In (lmax l) l /\ forall x, In x l -> x <= lmax l.
Proof.
  destruct l as [|y l]; [congruence|]. intros _. unfold lmax. destruct (fold_max_ge l y) as (H1 & H2 & H3). split; [destruct H3 as [-> |H3]; [left; reflexivity|right; exact H3]|]. intros x [<-|Hx]; auto.
Qed.

Lemma plot_node_dot indices cn label n d t : plot_node indices cn label n = Ok (d, t) -> fst d = exchange (fst n) /\ get_node_color (snd n) cn = Ok (snd d).
Proof.
  unfold plot_node. intros H. destruct (get_node_color (snd n) cn) as [col|]; [|discriminate H]. cbn [bind] in H. destruct (truthy label).
  - destruct (label_value indices (fst n) (snd n) label) as [v|]; [|discriminate H]. cbn [bind] in H. destruct v; cbn [is_number] in H; try discriminate H; injection H as <- _; split; reflexivity.
  - injection H as <- _. split; reflexivity.
Qed.

Lemma draw_parts g indices cn ce label title legend dims pic : draw_matplotlib g indices cn ce label title legend dims = Ok pic ->
  exists parts, mapM (plot_node indices cn label) (vg_nodes g) = Ok parts /\ pc_dots pic = map fst parts /\ pc_texts pic = flat_map (fun a => opt_list (snd a)) parts /\
    plot_edges g ce = Ok (pc_segs pic) /\
    (dims = None -> vg_nodes g <> [] /\ let e a := extent (map fst (vg_nodes g)) a in
       pc_lims pic = (widened (e AX), widened (e AZ), widened (e AY)) /\ pc_ticks pic = (ticks (e AX), ticks (e AZ), ticks (e AY))).
Proof.
  unfold draw_matplotlib. intros H.
  destruct (match dims with Some d => Ok d | None => match vg_nodes g with [] => Err ValueError | _ => let e := extent (map fst (vg_nodes g)) in Ok (e AX, e AY, e AZ) end end) as [[[xl yl] zl]|] eqn:Ed; [|discriminate H].
  cbn [bind] in H. destruct (get_title title label) as [t|]; [|discriminate H]. cbn [bind] in H.
  destruct (plot_nodes g indices cn label t legend) as [[[ds ts] lg]|] eqn:En; [|discriminate H]. cbn [bind] in H.
  destruct (plot_edges g ce) as [segs|] eqn:Ee; [|discriminate H]. cbn [bind fst snd] in H. injection H as <-. cbn [pc_dots pc_texts pc_segs pc_lims pc_ticks].
  unfold plot_nodes in En. destruct (mapM (plot_node indices cn label) (vg_nodes g)) as [parts|]; [|discriminate En]. cbn [bind] in En. exists parts. split; [reflexivity|].
  assert (K : ds = map fst parts /\ ts = flat_map (fun a => opt_list (snd a)) parts).
  { destruct (truthy label && _); [destruct t; [|discriminate En]|]; injection En as <- <- _; auto. }
  destruct K as [-> ->]. split; [reflexivity|]. split; [reflexivity|]. split; [reflexivity|]. intros ->. destruct (vg_nodes g) as [|n l]; [discriminate Ed|]. split; [discriminate|]. injection Ed as <- <- <-. split; reflexivity.
Qed.

Lemma F2_map_fst {A B C} (R : A -> B -> Prop) (f : A -> C) (h : B -> C) l m : Forall2 R l m -> (forall x y, R x y -> h y = f x) -> map h m = map f l.
Proof. intros F K. induction F as [|x y l m H F IH]; [reflexivity|]. cbn. rewrite IH, (K _ _ H). reflexivity. Qed.

(* C64.  Whenever draw_EGraph succeeds, every node is one dot and every edge one segment between the dots of its ends, at the coordinates
   of the node with y and z exchanged; different nodes are different dots; the limits of the axes contain all dots and are as tight as
   possible, and every integer position of a dot has a tick. *)
Theorem C64_graph : forall g indices cn ce label title legend pic, draw_matplotlib g indices cn ce label title legend None = Ok pic ->
  map fst (pc_dots pic) = map (fun n => exchange (fst n)) (vg_nodes g) /\
  map fst (pc_segs pic) = map (fun e => (exchange (fst (fst e)), exchange (snd (fst e)))) (vg_edges g) /\
  (NoDup (map fst (vg_nodes g)) -> NoDup (map fst (pc_dots pic))) /\
  forall a, let lim := get a (pc_lims pic) in
    (forall x, In x (map fst (pc_dots pic)) -> fst lim <= co a x <= snd lim /\ In (co a x) (get a (pc_ticks pic))) /\
    (forall t, In t (get a (pc_ticks pic)) -> fst lim <= t <= snd lim) /\
    ((exists x y, In x (map fst (pc_dots pic)) /\ In y (map fst (pc_dots pic)) /\ co a x < co a y /\ lim = (co a x, co a y)) \/
     (exists x, In x (map fst (pc_dots pic)) /\ lim = (co a x - 1, co a x + 1) /\ forall y, In y (map fst (pc_dots pic)) -> co a y = co a x)).
Proof.
  intros g indices cn ce label title legend pic H. destruct (draw_parts _ _ _ _ _ _ _ _ _ H) as (parts & E1 & Ed & _ & Es & El). destruct (El eq_refl) as (Hne & HL & HT). clear El H.
  apply mapM_inv in E1. apply mapM_inv in Es.
  assert (D : map fst (pc_dots pic) = map (fun n => exchange (fst n)) (vg_nodes g)).
  { rewrite Ed, map_map. apply (F2_map_fst _ _ _ _ _ E1). intros n [d t] K. apply (plot_node_dot _ _ _ _ _ _ K). }
  split; [exact D|]. split.
  { apply (F2_map_fst _ _ _ _ _ Es). intros e s K. destruct (get_edge_color (snd e) ce); [|discriminate K]. cbn [bind] in K. injection K as <-. reflexivity. }
  split.
  { intros ND. rewrite D, <- map_map. apply NoDup_map_inj; [intros x y _ _; apply exchange_inj|exact ND]. }
  intros a lim. rewrite D. clear D.
  set (sw := match a with AX => AX | AY => AZ | AZ => AY end).
  assert (C : forall p, co a (exchange p) = co sw p) by (intros [[? ?] ?]; destruct a; reflexivity).
  assert (L1 : lim = widened (extent (map fst (vg_nodes g)) sw)) by (unfold lim; rewrite HL; destruct a; reflexivity).
  assert (L2 : get a (pc_ticks pic) = ticks (extent (map fst (vg_nodes g)) sw)) by (rewrite HT; destruct a; reflexivity).
  rewrite L2. clearbody lim. clear HL HT L2 E1 Es Ed. set (P := map fst (vg_nodes g)) in *.
  assert (Hmap : map (fun n => exchange (fst n)) (vg_nodes g) = map exchange P) by (unfold P; rewrite map_map; reflexivity). rewrite Hmap. clear Hmap.
  assert (HP : P <> []) by (unfold P; destruct (vg_nodes g); [congruence|discriminate]). clearbody P. clear Hne.
  assert (Hm : map (co sw) P <> []) by (destruct P; [congruence|discriminate]).
  destruct (lmin_spec _ Hm) as [M1 M2]. destruct (lmax_spec _ Hm) as [X1 X2]. unfold extent in *. set (lo := lmin (map (co sw) P)) in *. set (hi := lmax (map (co sw) P)) in *. clearbody lo hi.
  apply in_map_iff in M1, X1. destruct M1 as (pl & El & Hl), X1 as (ph & Eh & Hh).
  assert (R : forall p, In p P -> lo <= co sw p <= hi) by (intros p Hp; split; [apply M2|apply X2]; apply in_map; exact Hp).
  assert (W : (lo < hi /\ lim = (lo, hi)) \/ (lo = hi /\ lim = (lo - 1, lo + 1))).
  { subst lim. unfold widened. cbn [fst snd]. pose proof (R pl Hl). destruct (Z.eqb_spec lo hi) as [E|E]; [right; split; [exact E|f_equal; lia]|left; split; [lia|reflexivity]]. }
  assert (B : fst lim <= lo /\ hi <= snd lim) by (destruct W as [[? ->]|[? ->]]; cbn [fst snd]; lia).
  split; [|split].
  - intros x Hx. apply in_map_iff in Hx. destruct Hx as (p & <- & Hp). rewrite C. specialize (R p Hp). split; [lia|]. unfold ticks. cbn [fst snd]. apply in_py_range. lia.
  - intros t Ht. unfold ticks in Ht. cbn [fst snd] in Ht. apply in_py_range in Ht. lia.
  - destruct W as [[Hlt ->]|[Heq ->]].
    + left. exists (exchange pl), (exchange ph). rewrite !C, El, Eh. repeat split; try (apply in_map; assumption). lia.
    + right. exists (exchange pl). rewrite C, El. split; [apply in_map; assumption|]. split; [reflexivity|]. intros y Hy. apply in_map_iff in Hy. destruct Hy as (p & <- & Hp). rewrite C. specialize (R p Hp). lia.
Qed.
Print Assumptions C64_graph.

(* ---------- the picture of a surface code ---------- *)
(* C64.  SurfaceCode.draw with its default options succeeds and draws the primal vertices of the lattice black and the dual ones grey; with
   the alternating polarity, edges of weight +1 are blue and edges of weight -1 are red; without a polarity every edge is grey. *)
Theorem C64_code : forall D e b pol c g indices title legend name, dims_ge2 D -> is_surface_code D e b pol c -> depicts g (sc_graph c) ->
  (pol = None /\ name = None \/ pol = Some apol /\ name = Some "alternating_polarity"%string) -> truthy title = false ->
  let B := documented_bnds e b in
  exists pic, draw_matplotlib g indices code_node_colors (code_edge_colors name) VNone title legend None = Ok pic /\
    (forall x col, In (x, col) (pc_dots pic) <-> exists p, x = exchange p /\ (primal_vertex D B p /\ col = str "black" \/ dual_vertex D B p /\ col = str "grey")) /\
    NoDup (map fst (pc_dots pic)) /\
    (forall p q, lattice_edge D B p q -> exists col, (In ((exchange p, exchange q), col) (pc_segs pic) \/ In ((exchange q, exchange p), col) (pc_segs pic)) /\
       (pol = None -> col = str "grey") /\ (pol <> None -> forall w, alternating_polarity (p, q) = Ok w -> w = 1 /\ col = str "b" \/ w = -1 /\ col = str "r")) /\
    (forall s col, In (s, col) (pc_segs pic) -> exists p q, s = (exchange p, exchange q) /\ (lattice_edge D B p q \/ lattice_edge D B q p)) /\
    pc_texts pic = [] /\ pc_title pic = None.
Proof.
  intros D e b pol c g indices title legend name HD HC (HN & HND & HT & HE & HW) Hpol Htitle B.
  destruct HC as (_ & _ & _ & (vs & Hvs & EG) & _). fold B in Hvs, EG. change (code_bnds e b) with (code_bnds e b) in *. rewrite code_bnds_eq in Hvs, EG. fold B in Hvs, EG. clearbody B.
  pose proof (ge2_ok D B HD) as HO. destruct (C01_rhg_exact_lattice D B pol vs HO Hvs) as (_ & CN & CP & CD & CE & _). rewrite EG in *. set (G := rhg_graph D B pol vs) in *.
  set (tcol := fun t => match t with Primal => str "black" | Dual => str "grey" end).
  assert (NT : forall p d, In (p, d) (vg_nodes g) -> exists t, (match t with Primal => primal_vertex D B p | Dual => dual_vertex D B p end) /\ get_node_color d code_node_colors = Ok (tcol t)).
  { intros p d Hp. assert (Hin : In p (node_list G)) by (apply HN; apply (in_map fst _ _ Hp)). apply CN in Hin.
    assert (K : exists t, (match t with Primal => primal_vertex D B p | Dual => dual_vertex D B p end) /\ node_type G p = Some t) by (destruct Hin as [Hin|Hin]; [exists Primal|exists Dual]; auto).
    destruct K as (t & K1 & K2). exists t. split; [exact K1|]. change (get_node_color d code_node_colors) with (dict_get [(str "primal", str "black"); (str "dual", str "grey")] (attr_get d "type") (str "black")). unfold attr_get. rewrite (HT p d t Hp K2). destruct t; reflexivity. }
  assert (EC : forall u v d, In ((u, v), d) (vg_edges g) -> exists a, edge_attr G u v = Some a /\ exists col, get_edge_color d (code_edge_colors name) = Ok col /\ (pol = None -> col = str "grey") /\
    (pol <> None -> eweight a = 1 /\ col = str "b" \/ eweight a = -1 /\ col = str "r")).
  { intros u v d Huv. assert (Hn : edge_attr G u v <> None) by (apply HE; left; apply (in_map fst _ _ Huv)). destruct (edge_attr G u v) as [a|] eqn:Ea; [|congruence]. exists a. split; [reflexivity|].
    specialize (HW u v d a Huv Ea). destruct Hpol as [[Ep ->]|[Ep ->]].
    - exists (str "grey"). split; [reflexivity|]. split; [auto|congruence].
    - destruct (C03_alternating_polarity_balanced D B vs HO HD Hvs) as [H3 _]. assert (Ea2 : edge_attr (rhg_graph D B (Some apol) vs) u v = Some a) by (rewrite <- Ep; exact Ea). destruct (H3 u v a Ea2) as [_ [W|W]].
      + exists (str "b"). change (get_edge_color d (code_edge_colors (Some "alternating_polarity"%string))) with (dict_get [(VInt 1, str "b"); (VInt (-1), str "r")] (attr_get d "weight") VNone). unfold attr_get. rewrite HW, W. split; [reflexivity|]. split; [congruence|auto].
      + exists (str "r"). change (get_edge_color d (code_edge_colors (Some "alternating_polarity"%string))) with (dict_get [(VInt 1, str "b"); (VInt (-1), str "r")] (attr_get d "weight") VNone). unfold attr_get. rewrite HW, W. split; [reflexivity|]. split; [congruence|auto]. }
  destruct (mapM_ok (plot_node indices code_node_colors VNone) (vg_nodes g)) as (parts & E1 & F1).
  { intros [p d] Hp. destruct (NT p d Hp) as (t & _ & K). unfold plot_node. cbn [fst snd]. rewrite K. cbn [bind truthy]. eauto. }
  destruct (mapM_ok (fun e0 => bind (get_edge_color (snd e0) (code_edge_colors name)) (fun c0 => Ok ((shown (fst (fst e0)), shown (snd (fst e0))), c0))) (vg_edges g)) as (segs & E2 & F2).
  { intros [[u v] d] Huv. destruct (EC u v d Huv) as (a & _ & col & K & _). cbn [fst snd]. rewrite K. cbn [bind]. eauto. }
  assert (HP : vg_nodes g <> []).
  { intros E0. assert (Hin : In (1, 1, 2) (node_list G)).
    { apply CN. left. split; [|reflexivity]. intros a. pose proof (HD a) as Ha. unfold in_range. destruct a; cbn [co get] in *; destruct (get _ B); simpl; lia. }
    apply HN in Hin. rewrite E0 in Hin. destruct Hin. }
  assert (Draw : exists pic, draw_matplotlib g indices code_node_colors (code_edge_colors name) VNone title legend None = Ok pic /\ pc_title pic = None).
  { unfold draw_matplotlib. destruct (vg_nodes g) as [|n0 l0] eqn:Eg; [congruence|]. rewrite <- Eg in *. cbn [bind]. unfold get_title. rewrite Htitle. cbn [negb bind].
    unfold plot_nodes. rewrite E1. cbn [bind truthy andb]. unfold plot_edges. rewrite E2. cbn [bind fst snd]. eexists. split; [reflexivity|reflexivity]. }
  destruct Draw as (pic & EP & Et). exists pic. split; [exact EP|].
  destruct (draw_parts _ _ _ _ _ _ _ _ _ EP) as (parts' & E1' & Ed & Etx & Es & _). rewrite E1 in E1'. injection E1' as <-. unfold plot_edges in Es. rewrite E2 in Es. injection Es as <-.
  destruct (C64_graph _ _ _ _ _ _ _ _ EP) as (_ & _ & ND & _). specialize (ND HND).
  assert (PN : forall n x, plot_node indices code_node_colors VNone n = Ok x -> exists col, get_node_color (snd n) code_node_colors = Ok col /\ x = ((exchange (fst n), col), None)).
  { intros n x K. unfold plot_node in K. destruct (get_node_color (snd n) code_node_colors) as [col|]; [|discriminate K]. cbn [bind truthy] in K. injection K as <-. exists col. split; reflexivity. }
  split; [|split; [exact ND|split; [|split; [|split; [|exact Et]]]]].
  - intros x col. rewrite Ed. split.
    + intros Hx. apply in_map_iff in Hx. destruct Hx as (y & Ey & Hy). destruct (F2_in_r _ _ _ _ F1 Hy) as ([p d] & Hp & K). destruct (PN _ _ K) as (col' & K1 & ->). cbn [fst] in Ey. injection Ey as <- <-. cbn [fst snd] in *.
      destruct (NT p d Hp) as (t & K2 & K3). rewrite K3 in K1. injection K1 as <-. exists p. split; [reflexivity|]. destruct t; auto.
    + intros (p & -> & Hp). assert (Hin : In p (map fst (vg_nodes g))) by (apply HN, CN; destruct Hp as [[? _]|[? _]]; auto).
      apply in_map_iff in Hin. destruct Hin as ([p' d] & E0 & Hin). cbn [fst] in E0. subst p'. destruct (NT p d Hin) as (t & K2 & K3).
      destruct (F2_in_l _ _ _ _ F1 Hin) as (y & Hy & K). destruct (PN _ _ K) as (col' & K1 & ->). cbn [fst snd] in *. rewrite K3 in K1. injection K1 as <-.
      assert (Ec : tcol t = col). { destruct Hp as [[[_ Hp] ->]|[[_ Hp] ->]], t; try reflexivity; destruct K2 as [_ K2]; lia. }
      rewrite <- Ec. apply in_map_iff. eexists. split; [|exact Hy]. reflexivity.
  - intros p q Hpq. assert (Hn : edge_attr G p q <> None) by (apply CE; auto).
    assert (K : forall u v, In (u, v) (map fst (vg_edges g)) -> (u, v) = (p, q) \/ (u, v) = (q, p) -> exists col, In ((exchange u, exchange v), col) segs /\
       (pol = None -> col = str "grey") /\ (pol <> None -> forall w, alternating_polarity (p, q) = Ok w -> w = 1 /\ col = str "b" \/ w = -1 /\ col = str "r")).
    { intros u v Huv Hor. apply in_map_iff in Huv. destruct Huv as ([[u' v'] d] & E0 & Huv). cbn [fst] in E0. injection E0 as -> ->. destruct (EC u v d Huv) as (a & Ea & col & K1 & K2 & K3).
      destruct (F2_in_l _ _ _ _ F2 Huv) as (y & Hy & K). cbn [fst snd] in K. rewrite K1 in K. cbn [bind] in K. injection K as <-. exists col. split; [exact Hy|]. split; [exact K2|]. intros Hp w Hw.
      assert (Ea' : edge_attr G p q = Some a). { destruct Hor as [E|E]; injection E as -> ->; [exact Ea|]. destruct (rhg_edge_enum D B pol vs HO Hvs) as (_ & _ & EE). apply EE. apply EE in Ea. destruct Ea; auto. }
      destruct Hpol as [[Ep _]|[Ep _]]; [congruence|]. destruct (C03_alternating_polarity_balanced D B vs HO HD Hvs) as [H3 _]. unfold G in Ea'. rewrite Ep in Ea'. destruct (H3 p q a Ea') as [W _]. rewrite Hw in W. injection W as ->. apply K3. exact Hp. }
    apply HE in Hn. destruct Hn as [Hn|Hn]; [destruct (K p q Hn (or_introl eq_refl)) as (col & K1 & K2)|destruct (K q p Hn (or_intror eq_refl)) as (col & K1 & K2)]; exists col; auto.
  - intros s col Hs. destruct (F2_in_r _ _ _ _ F2 Hs) as ([[u v] d] & Huv & K). cbn [fst snd] in K. destruct (get_edge_color d (code_edge_colors name)); [|discriminate K]. cbn [bind] in K. injection K as <- _.
    exists u, v. split; [reflexivity|]. apply CE. apply HE. left. apply (in_map fst _ _ Huv).
  - rewrite Etx. assert (Z : forall y, In y parts -> snd y = None). { intros y Hy. destruct (F2_in_r _ _ _ _ F1 Hy) as (n & _ & K). destruct (PN _ _ K) as (? & _ & ->). reflexivity. }
    clear - Z. induction parts as [|y l IH]; [reflexivity|]. cbn [flat_map]. rewrite (Z y (or_introl eq_refl)). cbn. apply IH. intros; apply Z; right; assumption.
Qed.
Print Assumptions C64_code.

(* the attribute dictionaries of the graph of a surface code before any noise *)
Definition view (G : egr) : vgraph :=
  {| vg_nodes := map (fun n => (fst n, match snd n with Some t => [("type", str (str_typ t))] | None => [] end)%string) (gnodes G);
     vg_edges := map (fun e => (fst e, [("weight"%string, VInt (eweight (snd e)))])) (gedges G); vg_index := None |}.
Lemma view_depicts D B pol vs : dims_ok D B -> set_enum (six_body_points D B) vs -> depicts (view (rhg_graph D B pol vs)) (rhg_graph D B pol vs).
Proof.
  intros HO Hvs. destruct (C01_rhg_exact_lattice D B pol vs HO Hvs) as (ND & _). destruct (rhg_edge_enum D B pol vs HO Hvs) as (_ & _ & EE). set (G := rhg_graph D B pol vs) in *. clearbody G.
  assert (EN : map fst (vg_nodes (view G)) = node_list G) by (unfold view, node_list; cbn [vg_nodes]; rewrite map_map; reflexivity).
  assert (E2 : map fst (vg_edges (view G)) = map fst (gedges G)) by (unfold view; cbn [vg_edges]; rewrite map_map; reflexivity).
  unfold depicts. rewrite EN, E2. split; [reflexivity|]. split; [exact ND|]. split; [|split].
  - intros p d t Hp Ht. unfold view in Hp. cbn [vg_nodes] in Hp. apply in_map_iff in Hp. destruct Hp as ([p' o] & E & Hp). cbn [fst snd] in E. injection E as -> <-.
    unfold node_type in Ht. unfold node_list in ND. assert (F : find (fun e0 => peqb (fst e0) p) (gnodes G) = Some (p, o)).
    { clear - ND Hp. induction (gnodes G) as [|[q o'] l IH]; [destruct Hp|]. cbn [map fst] in ND. apply NoDup_cons_iff in ND. destruct ND as [N1 N2]. cbn [find fst]. destruct Hp as [E|Hp].
      - injection E as -> ->. rewrite peqb_refl. reflexivity.
      - destruct (peqb q p) eqn:Eq; [|auto]. apply peqb_true in Eq. subst. destruct N1. apply (in_map fst _ _ Hp). }
    rewrite F in Ht. subst o. reflexivity.
  - intros u v. split.
    + intros H. destruct (edge_attr G u v) as [a|] eqn:Ea; [|congruence]. apply EE in Ea. destruct Ea as [Ea|Ea]; [left|right]; apply (in_map fst _ _ Ea).
    + intros H. assert (K : exists a, edge_attr G u v = Some a).
      { destruct H as [H|H]; apply in_map_iff in H; destruct H as ([[u' v'] a] & E & H); cbn [fst] in E; injection E as -> ->; exists a; apply EE; auto. }
      destruct K as (a & ->). discriminate.
  - intros u v d a H Ha. unfold view in H. cbn [vg_edges] in H. apply in_map_iff in H. destruct H as ([[u' v'] a'] & E & H). cbn [fst snd] in E. injection E as -> -> <-.
    assert (E' : edge_attr G u v = Some a') by (apply EE; auto). rewrite Ha in E'. injection E' as ->. reflexivity.
Qed.

Example C64_code_nonvacuous : exists c, is_surface_code (2, 2, 2) EcPrimal BdOpen (Some apol) c /\ depicts (view (sc_graph c)) (sc_graph c) /\
  exists pic, draw_matplotlib (view (sc_graph c)) [] code_node_colors (code_edge_colors (Some "alternating_polarity"%string)) VNone VNone true None = Ok pic /\
    In ((0, 1, 1), str "black") (pc_dots pic) /\ In ((0, 1, 2), str "grey") (pc_dots pic) /\ List.length (pc_dots pic) = 21%nat /\ get AY (pc_lims pic) = (1, 3).
Proof.
  exists (mk_code (2, 2, 2) EcPrimal BdOpen (Some apol)). split; [apply mk_code_ok|]. split.
  - destruct (mk_code_ok (2, 2, 2) EcPrimal BdOpen (Some apol)) as (_ & _ & _ & (vs & Hvs & EG) & _). rewrite EG. apply view_depicts; [|exact Hvs]. intros []; cbn; lia.
  - eexists. split; [vm_compute; reflexivity|]. cbn [pc_dots pc_lims]. split; [|split; [|split; [|reflexivity]]].
    + repeat (first [left; reflexivity|right]).
    + repeat (first [left; reflexivity|right]).
    + reflexivity.
Qed.
