(* PropsScript.v: C83, what correct(..., sanity_check=True) prints, and the example program decode_surface_code. *)
From Coq Require Import String Ascii Reals Lra.
From Verif Require Import Base Lattice RhgModel RhgSpec RhgProofs RhgDegree SurfaceModel SurfaceSpec SurfaceProofs SurfaceIncidence SurfaceTheorems StabGraphModel Complex SurfaceComplex PropsSurface
  GkpModel OpsModel EgraphModel EgraphSpec CvModel CvSpec CvProofs CvNoise PropsCv CvSurface CvTrial MacroModel MacroSpec CvMacroModel CvMacroLists CvMacroSpec CvMacroProofs CvMacroTrial CvMacroReduce CvMacroSurface CvMacroCode CvMacroGauge PropsCvMacro CvMacroCount MwpmModel MwpmProofs MwpmSides MwpmInst PropsMwpm UfModel UfSpec UfInst PropsUf PropsUfDist.
From Verif Require Import SimModel SimTrial SimSpec SimProofs PropsSim PropsHomology PropsCount PropsGkp PropsGauge PropsCvDecode PropsCountCv WeightModel PropsWeight FullModel PropsMacro PropsFull PropsRounds VizModel PropsText2 ScriptModel.
Open Scope Z_scope.

(* ---------- specification ---------- *)
Definition title_case (e : ecx) : string := match e with EcPrimal => "Primal" | EcDual => "Dual" end.
Definition lower_case (e : ecx) : string := match e with EcPrimal => "primal" | EcDual => "dual" end.
Definition word (t : bool) : string := if t then "True" else "False".
(* a printed list with n equal entries *)
Definition row (n : Z) (t : bool) : string := ("[" ++ String.concat ", " (repeat (word t) (Z.to_nat n)) ++ "]")%string.
(* the three lines: the syndrome is cleared, an empty line, and the verdicts of the planes; `even` says for every direction whether its
   planes have even parity.  A code of n cells in a checked direction has n planes; the lists of the other directions are empty *)
Definition plane_row (D : dims) (e : ecx) (b : bdk) (even : axis -> bool) (a : axis) : string :=
  if existsb (fun a' => if axis_eq_dec a' a then true else false) (logical_axes e b) then row (get a D) (even a) else "[]".
Definition transcript (D : dims) (e : ecx) (b : bdk) (even : axis -> bool) : list string :=
  [title_case e ++ " recovery succeeded - no unsatisfied stabilizers.";
   "";
   title_case e ++ " error correction check -- {'x': " ++ plane_row D e b even AX ++ ", 'y': " ++ plane_row D e b even AY ++ ", 'z': " ++ plane_row D e b even AZ ++ "}"]%string.
(* the number of set bits among the syndrome qubits in the plane: coordinate a equal to s *)
Definition set_in_plane (c : scode) (bit : point -> bool) (a : axis) (s : Z) : nat := List.length (filter (fun q => bit q && (co a q =? s)) (sc_syn c)).
Definition first_plane (e : ecx) : Z := match e with EcPrimal => 0 | EcDual => 1 end.
Definition planes_even (D : dims) (e : ecx) (b : bdk) (c : scode) (bit : point -> bool) (even : axis -> bool) : Prop :=
  forall a k, In a (logical_axes e b) -> 0 <= k < get a D -> Nat.even (set_in_plane c bit a (first_plane e + 2 * k)) = even a.

(* ---------- texts ---------- *)
Lemma capital e : capitalize (ec_str e) = title_case e.
Proof. destruct e; reflexivity. Qed.
Lemma join_concat sep l : join sep l = String.concat sep l.
Proof. induction l as [|s [|t l] IH]; reflexivity. Qed.
Lemma list_text v n : py_repr (VList (map VBool (repeat v n))) = ("[" ++ String.concat ", " (repeat (word v) n) ++ "]")%string.
Proof.
  change (py_repr (VList (map VBool (repeat v n)))) with ("[" ++ join ", " (map py_repr (map VBool (repeat v n))) ++ "]")%string.
  rewrite join_concat, map_map. do 3 f_equal. induction n as [|n IH]; [reflexivity|]. cbn [repeat map]. rewrite IH. reflexivity.
Qed.
Lemma dict_text x y z : py_repr (VDict [(VStr "x", x); (VStr "y", y); (VStr "z", z)]) = ("{'x': " ++ py_repr x ++ ", 'y': " ++ py_repr y ++ ", 'z': " ++ py_repr z ++ "}")%string.
Proof.
  change (py_repr (VDict [(VStr "x", x); (VStr "y", y); (VStr "z", z)])) with
    ("{" ++ (("'x'" ++ ": " ++ py_repr x) ++ ", " ++ ("'y'" ++ ": " ++ py_repr y) ++ ", " ++ ("'z'" ++ ": " ++ py_repr z)) ++ "}")%string.
  rewrite !append_assoc. reflexivity.
Qed.
Lemma xsum_odd_count {A} (f : A -> bool) l : negb (xsum f l) = Nat.even (List.length (filter f l)).
Proof. rewrite xsum_odd, Nat.negb_odd. reflexivity. Qed.
Lemma all_equal_repeat {A} (v : A) l : (forall t, In t l -> t = v) -> l = repeat v (List.length l).
Proof. induction l as [|x l IH]; intros H; [reflexivity|]. cbn [List.length repeat]. rewrite (H x) by (left; reflexivity). f_equal. apply IH. intros t Ht. apply H. right. exact Ht. Qed.

Section Code.
  Variables (D : dims) (e : ecx) (b : bdk) (pol : option (point * point -> Z)) (c : scode) (ch : nat -> nat -> point).
  Hypothesis HD : dims_ge2 D.
  Hypothesis HC : is_surface_code D e b pol c.
  Hypothesis Hch : valid_choice (sc_stabs c) ch.
  Notation E := (sg_edges (sc_stabs c) (sc_bound c) ch).

  Lemma plane_count bit a s : negb (plane (sc_syn c) bit a s) = Nat.even (set_in_plane c bit a s).
  Proof. unfold plane, set_in_plane. rewrite xsum_odd_count. do 2 f_equal. apply filter_ext. intros q. apply andb_comm. Qed.
  Lemma planes_are bit : quiet c bit -> planes_even D e b c bit (fun a => negb (plane (sc_syn c) bit a (par e))).
  Proof.
    intros Q a k Ha Hk. rewrite <- plane_count. apply (truth_all_equal D e b pol c HD HC bit a Q Ha). unfold SurfaceModel.truth.
    pose proof (surface_code_facts D e b pol c (ge2_ok D (code_bnds e b) HD) HC) as CF. rewrite (cf_ec _ _ _ _ _ CF), (cf_dims _ _ _ _ _ CF).
    apply in_map_iff. exists (first_plane e + 2 * k). split; [f_equal; apply (sheet_plane D e b pol c HD HC)|]. unfold sheets. apply in_map_iff. exists (Z.to_nat k).
    rewrite Z2Nat.id by lia. split; [destruct e; reflexivity|]. apply in_seq. change (minimum e) with (first_plane e). unfold first_plane. destruct e; lia.
  Qed.
  Lemma row_text bit a : quiet c bit -> py_repr (truth_list c bit a) = plane_row D e b (fun a => negb (plane (sc_syn c) bit a (par e))) a.
  Proof.
    intros Q. unfold truth_list, plane_row. pose proof (surface_code_facts D e b pol c (ge2_ok D (code_bnds e b) HD) HC) as CF. rewrite (cf_ec _ _ _ _ _ CF), (cf_bd _ _ _ _ _ CF), planes_to_check_eq.
    assert (X : existsb (fun a' => if axis_eq_dec a a' then true else false) (logical_axes e b) = existsb (fun a' => if axis_eq_dec a' a then true else false) (logical_axes e b)).
    { induction (logical_axes e b) as [|x l IH]; [reflexivity|]. cbn [existsb]. rewrite IH. destruct (axis_eq_dec a x), (axis_eq_dec x a); congruence. }
    rewrite X. destruct (existsb (fun a' => if axis_eq_dec a' a then true else false) (logical_axes e b)) eqn:Ex; [|reflexivity]. apply existsb_exists in Ex. destruct Ex as (a' & Ha & Heq). destruct (axis_eq_dec a' a) as [->|]; [|discriminate].
    rewrite (all_equal_repeat (negb (plane (sc_syn c) bit a (par e))) (SurfaceModel.truth c bit true a)) by (intros t Ht; exact (truth_all_equal D e b pol c HD HC bit a Q Ha t Ht)).
    rewrite list_text. unfold row. rewrite (truth_length D e b pol c HD HC). reflexivity.
  Qed.
  Lemma printed_text enum bit : quiet c bit -> printed c enum bit = transcript D e b (fun a => negb (plane (sc_syn c) bit a (par e))).
  Proof.
    intros Q. unfold printed, transcript, recovery_line, check_line. pose proof (surface_code_facts D e b pol c (ge2_ok D (code_bnds e b) HD) HC) as CF. rewrite (cf_ec _ _ _ _ _ CF), capital.
    assert (F : filter (fun st => stab_parity bit st) (sc_stabs c) = []).
    { destruct (filter _ (sc_stabs c)) as [|st l] eqn:Ef; [reflexivity|]. assert (H : In st (filter (fun st => stab_parity bit st) (sc_stabs c))) by (rewrite Ef; left; reflexivity).
      apply filter_In in H. destruct H as [H1 H2]. rewrite (Q st H1) in H2. discriminate. }
    rewrite F, dict_text, !row_text by exact Q. reflexivity.
  Qed.
  Lemma transcript_of call enum bit : correct_call c ch call -> exists bit' r even, call bit = Ok (bit', r) /\ quiet c bit' /\ (r = true <-> gauge_pattern c bit') /\
    printed c enum bit' = transcript D e b even /\ planes_even D e b c bit' even /\ r = forallb even (logical_axes e b).
  Proof.
    intros Hc. destruct (call_ok D e b pol c ch HD HC Hch call bit Hc) as (bit' & r & E1 & Q & G & K).
    exists bit', r, (fun a => negb (plane (sc_syn c) bit' a (par e))). split; [exact E1|]. split; [exact Q|]. split; [exact G|]. split; [apply printed_text, Q|]. split; [apply planes_are, Q|].
    rewrite (check_correction_eq D e b pol c HD HC) in K. injection K as <-. reflexivity.
  Qed.
End Code.

(* C83.  correct() with sanity_check=True, with any weights and either decoder: the bits and the verdict are those without the checks; the three
   lines say that the syndrome is cleared and list the verdicts of all parallel planes, which agree in every direction; the verdict returned
   is True exactly if all of them are. *)
Theorem C83_sanity_check : forall D e b pol c ch enum bit, dims_ge2 D -> is_surface_code D e b pol c -> valid_choice (sc_stabs c) ch ->
  let E := sg_edges (sc_stabs c) (sc_bound c) ch in
  forall call : bool -> (point -> bool) -> res ((point -> bool) * bool),
  ((exists rp w o pick, oracle_ok E w o /\ (forall mg, best_matching mg (pick mg)) /\ call = fun sanity bit => correct_mwpm rp c ch w o pick bit sanity) \/
   (exists er lib sch fuel, lib_ok E lib /\ sched_ok sch /\ (2 * List.length E + 2 <= fuel)%nat /\ call = fun sanity bit => correct_uf c ch er lib sch fuel bit sanity)) ->
  exists bit' r even, call true bit = Ok (bit', r) /\ call false bit = Ok (bit', r) /\
    printed c enum bit' = transcript D e b even /\ planes_even D e b c bit' even /\ (r = true <-> forall a, In a (logical_axes e b) -> even a = true).
Proof.
  intros D e b pol c ch enum bit HD HC Hch E call Hcall.
  assert (Hc : correct_call c ch (call true)).
  { destruct Hcall as [(rp & w & o & pick & A1 & A2 & ->)|(er & lib & sch & fuel & A1 & A2 & A3 & ->)]; [left; exists rp, w, o, pick, true; auto|right; exists er, lib, sch, fuel, true; auto]. }
  destruct (transcript_of D e b pol c ch HD HC Hch (call true) enum bit Hc) as (bit' & r & even & E1 & _ & _ & K1 & K2 & K3).
  exists bit', r, even. split; [exact E1|]. split.
  - destruct Hcall as [(rp & w & o & pick & _ & _ & ->)|(er & lib & sch & fuel & _ & _ & _ & ->)]; cbn beta in *; revert E1.
    + unfold correct_mwpm. destruct (mwpm_decoder _ _ _ _ _ _ _ _); [|discriminate]. cbn [bind]. destruct (recovery _ _ _); [|discriminate]. cbn [bind]. rewrite !(check_correction_eq D e b pol c HD HC). intros K; exact K.
    + unfold correct_uf. destruct (uf_decoder _ _ _ _ _ _); [|discriminate]. cbn [bind]. destruct (recovery _ _ _); [|discriminate]. cbn [bind]. rewrite !(check_correction_eq D e b pol c HD HC). intros K; exact K.
  - split; [exact K1|]. split; [exact K2|]. rewrite K3. apply forallb_forall.
Qed.
Print Assumptions C83_sanity_check.

(* Bits with a syndrome, as after flipping other qubits: the line names the stabilizers with odd parity, in their order, and their qubits. *)
Theorem C83_unsatisfied : forall D e b pol c enum bit, dims_ge2 D -> is_surface_code D e b pol c -> (forall st, Permutation (enum st) st) ->
  (exists st, In st (sc_stabs c) /\ stab_parity bit st = true) ->
  exists odd : list (list point), odd <> [] /\ (forall st, In st (sc_stabs c) -> (Nat.even (List.length (filter bit st)) = false <-> exists l, Permutation l st /\ In l odd)) /\
    (forall l, In l odd -> exists st, In st (sc_stabs c) /\ Permutation l st) /\ (List.length odd <= List.length (sc_stabs c))%nat /\
    recovery_line c enum bit = ("Unsatisfied " ++ lower_case e ++ " stabilizers: [" ++ String.concat ", " (map (fun l => "Stabilizer at nodes [" ++ String.concat ", " (map coordinates l) ++ "]") odd) ++ "]")%string.
Proof.
  intros D e b pol c enum bit HD HC He (s0 & Hs0 & Hp0). pose proof (surface_code_facts D e b pol c (ge2_ok D (code_bnds e b) HD) HC) as CF.
  set (bad := filter (fun st => stab_parity bit st) (sc_stabs c)). exists (map enum bad).
  assert (Hb : forall st, In st bad <-> In st (sc_stabs c) /\ stab_parity bit st = true) by (intros st; apply filter_In).
  assert (Hpar : forall st, stab_parity bit st = negb (Nat.even (List.length (filter bit st)))) by (intros st; unfold stab_parity; rewrite <- xsum_odd_count, negb_involutive; reflexivity).
  split; [|split; [|split; [|split]]].
  - intros F. apply map_eq_nil in F. assert (K : In s0 bad) by (apply Hb; auto). rewrite F in K. destruct K.
  - intros st Hst. split.
    + intros H. exists (enum st). split; [apply He|]. apply in_map, Hb. split; [exact Hst|]. rewrite Hpar, H. reflexivity.
    + intros (l & Hl & Hi). apply in_map_iff in Hi. destruct Hi as (st' & <- & Hi). apply Hb in Hi. destruct Hi as [_ Hi]. apply negb_true_iff. rewrite <- Hpar. rewrite <- Hi. unfold stab_parity.
      apply xsum_perm. rewrite <- Hl. apply He.
  - intros l Hl. apply in_map_iff in Hl. destruct Hl as (st & <- & Hl). apply Hb in Hl. exists st. split; [apply Hl|apply He].
  - rewrite map_length. unfold bad. clear. induction (sc_stabs c) as [|st l IH]; [apply Nat.le_refl|]. cbn [filter]. destruct (stab_parity bit st); cbn [List.length]; lia.
  - unfold recovery_line. fold bad. destruct bad as [|st l] eqn:Eb; [assert (K : In s0 []) by (apply Hb; auto); destruct K|]. rewrite <- Eb in *. clear Eb st l.
    rewrite (cf_ec _ _ _ _ _ CF). change (ec_str e) with (lower_case e).
    change (py_repr (VList (map (stab_repr enum) bad))) with ("[" ++ join ", " (map py_repr (map (stab_repr enum) bad)) ++ "]")%string. rewrite join_concat, !map_map.
    assert (M : map (fun x => py_repr (stab_repr enum x)) bad = map (fun x => ("Stabilizer at nodes [" ++ String.concat ", " (map coordinates (enum x)) ++ "]")%string) bad).
    { apply map_ext. intros st. unfold stab_repr. cbn [py_repr]. rewrite join_concat, map_map.
      rewrite (map_ext _ coordinates); [|intros p; rewrite <- str_node_spec; reflexivity]. rewrite <- (append_assoc "Stabilizer at nodes " "["). reflexivity. }
    rewrite M. reflexivity.
Qed.
Print Assumptions C83_unsatisfied.

(* ---------- the example program ---------- *)
(* searches, matchings and library functions as documented; fl rounds weights to multiples of 1/unit *)
Definition fair_world (c : scode) (ch : nat -> nat -> point) (W : world) : Prop :=
  let E := sg_edges (sc_stabs c) (sc_bound c) ch in
  set_enum (sc_syn c) (w_coords W) /\ exp_like (w_exp W) /\
  (forall x y, (x <= y)%R -> w_fl W x <= w_fl W y) /\ 0 < w_unit W /\ (forall n, w_fl W (IZR n) = w_unit W * n) /\
  (forall w, (forall q, 0 <= w q) -> oracle_ok E w (w_paths W w)) /\ (forall mg, best_matching mg (w_match W mg)) /\
  lib_ok E (w_lib W) /\ (forall v, NoDup (l_out (w_lib W) v)) /\ sched_ok (w_sched W) /\ (2 * List.length E + 2 <= w_fuel W)%nat.

Section Program.
  Variables (D : dims) (e : ecx) (b : bdk) (pol : option (point * point -> Z)) (c : scode) (ch : nat -> nat -> point) (W : world).
  Hypothesis HD : dims_ge2 D.
  Hypothesis HC : is_surface_code D e b pol c.
  Hypothesis Hch : valid_choice (sc_stabs c) ch.
  Hypothesis HW : fair_world c ch W.
  Notation E := (sg_edges (sc_stabs c) (sc_bound c) ch).
  Notation big := (forall a, get a (documented_bnds e b) = BPeriodic -> 3 <= get a D).

  (* correct() of the program: the call is one of those of C81 *)
  Lemma loud_mwpm_ok wo a m bit : options_fit wo -> attrs_fit c wo a -> exists m' after r even call,
    loud_mwpm (w_fl W) (w_exp W) (rx_report (w_unit W)) c ch wo (w_coords W) (w_paths W) (w_match W) (w_enum W) a m bit = Ok (m', (after, r), transcript D e b even) /\
    correct_call c ch call /\ call bit = Ok (after, r) /\
    mwpm_outcome (w_fl W) (w_unit W) (w_exp W) (rx_report (w_unit W)) c wo big a m' bit after /\ (r = true <-> gauge_pattern c after) /\ planes_even D e b c after even /\ r = forallb even (logical_axes e b).
  Proof.
    destruct HW as (W1 & W2 & W3 & W4 & W5 & W6 & W7 & _). intros Hop Hat.
    destruct (full_mwpm_ok D e b pol c ch HD HC Hch (w_fl W) (w_exp W) (rx_report (w_unit W)) wo (w_coords W) (w_paths W) (w_match W) a m bit (w_unit W) W1 W2 Hop Hat W3 W4 W5 W6 W7) as (m' & after & r & E1 & O1 & G1).
    destruct (assign_mwpm D e b pol c ch HD HC Hch (w_exp W) wo (w_coords W) (with_weights a m) (wm_edge m) W1 W2 Hop Hat) as (a' & wt' & x & Ea & He & Hx).
    unfold full_mwpm in E1. unfold loud_mwpm. rewrite Ea in E1 |- *. cbn [bind fst snd] in E1 |- *.
    set (w := fun q => match edge_reads E wt' q with Some r => w_fl W r | None => 0 end) in *.
    assert (Hw : forall q, 0 <= w q).
    { intros q. unfold w. pose proof (reads_label c ch a' wt' q He) as K. destruct (edge_reads E wt' q) as [y|]; [|lia]. destruct K as [K Hq]. destruct (Hx q Hq) as [K' Hr].
      replace 0 with (w_fl W (IZR 0)) by (rewrite W5; lia). apply W3. rewrite K in K'. injection K' as ->. unfold weight_rule in Hr. destruct (o_method wo); [rewrite Hr; lra|destruct Hr as (? & _ & _ & P & _); lra|contradiction]. }
    set (call := fun bit => correct_mwpm (rx_report (w_unit W)) c ch w (w_paths W w) (w_match W) bit true).
    assert (Hc : correct_call c ch call) by (left; exists (rx_report (w_unit W)), w, (w_paths W w), (w_match W), true; auto).
    destruct (transcript_of D e b pol c ch HD HC Hch call (w_enum W) bit Hc) as (bit' & r' & even & T1 & _ & T3 & T4 & T5 & T6).
    assert (T0 : correct_mwpm (rx_report (w_unit W)) c ch w (w_paths W w) (w_match W) bit false = Ok (bit', r')).
    { revert T1. unfold call, correct_mwpm. destruct (mwpm_decoder _ _ _ _ _ _ _ _); [|discriminate]. cbn [bind]. destruct (recovery _ _ _); [|discriminate]. cbn [bind]. rewrite !(check_correction_eq D e b pol c HD HC). intros K; exact K. }
    rewrite T0 in E1. cbn [bind] in E1. injection E1 as <- <- <-. eexists _, bit', r', even, call. split; [unfold call in T1; rewrite T1; cbn [bind fst]; rewrite T4; reflexivity|].
    split; [exact Hc|]. split; [exact T1|]. split; [exact O1|]. split; [exact T3|]. split; [exact T5|exact T6].
  Qed.
  Lemma loud_uf_ok wo a m bit : o_method wo = WUniform -> exists m' after r even call,
    loud_uf (w_exp W) c ch wo (w_coords W) (w_lib W) (w_sched W) (w_fuel W) (w_enum W) a m bit = Ok (m', (after, r), transcript D e b even) /\
    correct_call c ch call /\ call bit = Ok (after, r) /\
    uf_outcome D e b c a m' bit after /\ (r = true <-> gauge_pattern c after) /\ planes_even D e b c after even /\ r = forallb even (logical_axes e b).
  Proof.
    destruct HW as (W1 & W2 & W3 & W4 & W5 & W6 & W7 & W8 & W9 & W10 & W11). intros Hop.
    destruct (full_uf_ok D e b pol c ch HD HC Hch (w_exp W) wo (w_coords W) (w_lib W) (w_sched W) (w_fuel W) a m bit W1 Hop W8 W9 W10 W11) as (m' & after & r & E1 & O1 & G1).
    unfold full_uf in E1. unfold loud_uf. destruct (assign_weights _ _ _ _ _ _ _ _) as [aw|]; [|discriminate E1]. cbn [bind fst snd] in E1 |- *.
    set (er := fun q => match edge_reads E (snd aw) q with Some r => if Req_EM_T r (-1) then true else false | None => false end) in *.
    set (call := fun bit => correct_uf c ch er (w_lib W) (w_sched W) (w_fuel W) bit true).
    assert (Hc : correct_call c ch call) by (right; exists er, (w_lib W), (w_sched W), (w_fuel W), true; auto).
    destruct (transcript_of D e b pol c ch HD HC Hch call (w_enum W) bit Hc) as (bit' & r' & even & T1 & _ & T3 & T4 & T5 & T6).
    assert (T0 : correct_uf c ch er (w_lib W) (w_sched W) (w_fuel W) bit false = Ok (bit', r')).
    { revert T1. unfold call, correct_uf. destruct (uf_decoder _ _ _ _ _ _); [|discriminate]. cbn [bind]. destruct (recovery _ _ _); [|discriminate]. cbn [bind]. rewrite !(check_correction_eq D e b pol c HD HC). intros K; exact K. }
    rewrite T0 in E1. cbn [bind] in E1. injection E1 as <- <- <-. eexists _, bit', r', even, call. split; [unfold call in T1; rewrite T1; cbn [bind fst]; rewrite T4; reflexivity|].
    split; [exact Hc|]. split; [exact T1|]. split; [exact O1|]. split; [exact T3|]. split; [exact T5|exact T6].
  Qed.

  (* the layer of the program *)
  Lemma script_layer inds dc : code_inds c inds -> draws_ok (List.length (node_list (sc_graph c))) dc -> exists g v lay,
    cv_init (code_egraph c) (fun _ => no_attrs) None (Some (inds, sc_syn c)) (1 / 100)%R None (Some (5 / 100)%R) None None = (g, Ok v) /\
    apply_noise v dc = (lay, Ok tt) /\ cv_made c v dc lay /\ attrs_fit c script_blueprint (cv_look lay).
  Proof.
    intros Hi Hd.
    destruct (code_cv_init D e b pol c HD HC (fun _ => no_attrs) None (1 / 100)%R None (Some (5 / 100)%R) None None inds Hi I) as (g & v & E' & H1 & H2 & H3 & H4 & Hnode & H5 & H6 & H7 & H8 & H9); [discriminate|].
    rewrite <- H3 in Hd. exists g, v.
    assert (HF : fresh_layer v).
    { split; [exact H1|]. split; [exists (arr []); split; [rewrite H9; reflexivity|intros i []]|]. rewrite H6. lra. }
    assert (Ha : forall x, v_states v = [("p"%string, x)] -> x_arr x = true) by (intros x Ex; rewrite H9 in Ex; injection Ex as <-; reflexivity).
    assert (Hdn : v_delta v <> 0%R) by lra. pose proof (fresh_live v) as Hl.
    destruct (apply_noise_ok v v dc inds (sc_syn c) HF Hl Hd H2 H7 Hdn Ha) as (v1 & sq & sp & En & HL1 & P & Q1 & Q2 & Std & Hh).
    assert (M1 : forall i q, node_at v i q -> CvModel.a_state (v_attr v1 q) = Some (if memn i (trial_p v dc) then "p"%string else "GKP"%string)).
    { intros i q Hn. destruct (populate_ok v v dc HF Hl Hd) as (v2 & x & G & Ep & HL2 & Es & Ex & _ & _ & _ & _ & Hlab). unfold apply_noise in En. rewrite Ep in En. cbn [andthen] in En.
      pose proof (after_populate_kept v2 dc) as K. rewrite En in K. cbn [fst] in K. destruct K as (_ & _ & K). rewrite K, <- Ex. apply Hlab, Hn. }
    exists v1. split; [exact E'|]. split; [exact En|]. split.
    - split; [intros q; cbn [cv_look WeightModel.a_state a_hom a_ppc]; destruct (label_read (CvModel.a_state (v_attr v1 q))); auto|]. split; [exact M1|].
      exists sq, sp. rewrite <- P. split; [exact Std|]. intros i q Hq Hn. destruct (Hh i q Hq Hn) as (h & K1 & K2 & K3). exists h. split; [exact K3|]. split; [exact K1|]. unfold cv_bits. rewrite K2. reflexivity.
    - intros _. split.
      + intros q u Hq Hu. cbn [cv_look WeightModel.a_state]. destruct (code_lattice D e b pol c HC) as (vs & Hvs & EG). assert (Hun : In u (node_list (sc_graph c))).
        { rewrite EG in *. eapply rhg_ends; [apply ge2_ok, HD|exact Hvs|]. rewrite edge_attr_sym. exact Hu. }
        apply Hnode in Hun. destruct Hun as (i & Hn). rewrite (M1 i u Hn). discriminate.
      + intros q Hq. cbn [cv_look a_hom script_blueprint o_pre]. destruct (proj2 (proj2 H2) q Hq) as (i & _ & Hn). destruct (Hh i q Hq Hn) as (h & K1 & _). rewrite K1. discriminate.
  Qed.
  Lemma script_noise di : exists A, iid_noise (2 / 100)%R c (fun _ _ => None) di = (A, Ok tt) /\ iid_made (2 / 100)%R c (fun _ _ => None) di A.
  Proof.
    exists (fst (iid_apply numbers (2 / 100)%R (node_list (sc_graph c)) (fun _ _ => None) di)). split; [reflexivity|].
    destruct (iid_apply_spec numbers (2 / 100)%R (node_list (sc_graph c)) (fun _ _ => None) di (code_nodes_NoDup D e b pol c HD HC)) as (_ & K2 & K3).
    assert (Hk : forall q key, key <> "bit_val"%string -> fst (iid_apply numbers (2 / 100)%R (node_list (sc_graph c)) (fun _ _ => None) di) q key = None) by (intros q key Hkey; rewrite (K3 q key) by tauto; reflexivity).
    split; [|split; [clear Hk|exact Hk]].
    - intros q. cbn [iid_look WeightModel.a_state a_hom a_ppc]. rewrite (Hk q "state"%string) by discriminate. split; [split; discriminate|]. split; [tauto|split; reflexivity].
    - intros k q Hq. unfold SimModel.bits_of. rewrite (K2 k q Hq), numbers_draw. destruct (Rlt_dec (di k) (2 / 100)); [tauto|]. split; [discriminate|contradiction].
  Qed.
End Program.

(* what the program does after the noise: qubit attributes a and bits `noise` *)
Definition program_did (D : dims) (e : ecx) (b : bdk) (c : scode) (W : world) (decoder : string) (wo : wopts) (a : WeightModel.attrs) (noise : point -> bool)
    (out : res (((point -> bool) * (point -> bool)) * list string * bool)) : Prop :=
  exists after r even m,
    out = Ok ((noise, after), transcript D e b even ++ [("Success: " ++ word r)%string], r) /\
    (r = true <-> gauge_pattern c after) /\ planes_even D e b c after even /\ (r = true <-> forall a, In a (logical_axes e b) -> even a = true) /\
    (decoder = "MWPM"%string -> mwpm_outcome (w_fl W) (w_unit W) (w_exp W) (rx_report (w_unit W)) c wo (forall a, get a (documented_bnds e b) = BPeriodic -> 3 <= get a D) a m noise after) /\
    (decoder = "UF"%string -> uf_outcome D e b c a m noise after).

Lemma word_str r : py_str (VBool r) = word r.
Proof. destruct r; reflexivity. Qed.
Lemma script_tail D e b pol c ch W decoder wo a noise : dims_ge2 D -> is_surface_code D e b pol c -> valid_choice (sc_stabs c) ch -> fair_world c ch W ->
  (decoder = "MWPM" /\ options_fit wo /\ attrs_fit c wo a \/ decoder = "UF" /\ o_method wo = WUniform)%string ->
  program_did D e b c W decoder wo a noise (bind (script_correct W c ch decoder wo a noise) (fun out => let '(_, (after, r), lines) := out in
    Ok ((noise, after), lines ++ [("Success: " ++ py_str (VBool r))%string], r))).
Proof.
  intros HD HC Hch HW [(-> & Ho & Ha)|(-> & Ho)]; unfold script_correct, program_did; cbn [String.eqb Ascii.eqb Bool.eqb].
  - destruct (loud_mwpm_ok D e b pol c ch W HD HC Hch HW wo a no_weights noise Ho Ha) as (m & after & r & even & call & E1 & _ & _ & O1 & G & P & R).
    exists after, r, even, m. rewrite E1. cbn [bind]. rewrite word_str. split; [reflexivity|]. split; [exact G|]. split; [exact P|]. split; [rewrite R; apply forallb_forall|]. split; [intros _; exact O1|discriminate].
  - destruct (loud_uf_ok D e b pol c ch W HD HC Hch HW wo a no_weights noise Ho) as (m & after & r & even & call & E1 & _ & _ & O1 & G & P & R).
    exists after, r, even, m. rewrite E1. cbn [bind]. rewrite word_str. split; [reflexivity|]. split; [exact G|]. split; [exact P|]. split; [rewrite R; apply forallb_forall|]. split; [discriminate|intros _; exact O1].
Qed.

(* C83, the program, for any code, either noise and either decoder, all random values: it always runs to its end, prints exactly five lines
   with `Success: ` and the verdict at the end, and returns the verdict. *)
Theorem C83_script : forall D e b pol c ch inds W decoder dc di, dims_ge2 D -> is_surface_code D e b pol c -> valid_choice (sc_stabs c) ch -> code_inds c inds -> fair_world c ch W ->
  decoder = "MWPM"%string \/ decoder = "UF"%string -> draws_ok (List.length (node_list (sc_graph c))) dc ->
  (exists g v lay, cv_init (code_egraph c) (fun _ => no_attrs) None (Some (inds, sc_syn c)) (1 / 100)%R None (Some (5 / 100)%R) None None = (g, Ok v) /\ cv_made c v dc lay /\
     program_did D e b c W decoder (if String.eqb decoder "MWPM" then script_blueprint else script_uniform) (cv_look lay) (cv_bits lay) (decode_surface_code W c ch inds "cv" decoder dc di)) /\
  (exists A, iid_made (2 / 100)%R c (fun _ _ => None) di A /\
     program_did D e b c W decoder script_uniform (iid_look A) (SimModel.bits_of A) (decode_surface_code W c ch inds "dv" decoder dc di)).
Proof.
  intros D e b pol c ch inds W decoder dc di HD HC Hch Hi HW Hdec Hd. split.
  - destruct (script_layer D e b pol c HD HC inds dc Hi Hd) as (g & v & lay & E1 & E2 & M & F). exists g, v, lay. split; [exact E1|]. split; [exact M|].
    unfold decode_surface_code. rewrite E1. cbn [snd bind String.eqb Ascii.eqb Bool.eqb]. rewrite E2. cbn [bind]. apply (script_tail D e b pol c ch W decoder _ _ _ HD HC Hch HW).
    destruct Hdec as [-> | ->]; [left|right]; (split; [reflexivity|]); [|reflexivity]. split; [|exact F].
    right. split; [reflexivity|]. split; [intros _; cbn; lra|]. intros _. exists (1 / 100)%R. split; [reflexivity|lra].
  - destruct (script_noise D e b pol c HD HC di) as (A & E1 & M). exists A. split; [exact M|]. unfold decode_surface_code. cbn [String.eqb Ascii.eqb Bool.eqb]. rewrite E1. cbn [bind].
    apply (script_tail D e b pol c ch W decoder _ _ _ HD HC Hch HW). destruct Hdec as [-> | ->]; [left|right]; (split; [reflexivity|]); [|reflexivity]. split; [left; reflexivity|discriminate].
Qed.
Print Assumptions C83_script.

(* with independent errors on fewer than half the distance of the syndrome qubits: the complete output.  Random number k belongs to node k *)
Theorem C83_script_success : forall D e b pol c ch inds W decoder dc di, dims_ge2 D -> is_surface_code D e b pol c -> valid_choice (sc_stabs c) ch -> fair_world c ch W ->
  decoder = "MWPM"%string \/ decoder = "UF"%string ->
  forall errs : list point, (forall k q, nth_error (node_list (sc_graph c)) k = Some q -> In q (sc_syn c) -> (di k < 2 / 100)%R -> In q errs) ->
  (forall a, In a (logical_axes e b) -> 2 * Z.of_nat (List.length errs) < get a D) ->
  exists bits, decode_surface_code W c ch inds "dv" decoder dc di = Ok (bits, transcript D e b (fun _ => true) ++ ["Success: True"%string], true).
Proof.
  intros D e b pol c ch inds W decoder dc di HD HC Hch HW Hdec errs Herr Hfew.
  destruct (script_noise D e b pol c HD HC di) as (A & E1 & (M1 & M2 & _)).
  set (noise := SimModel.bits_of A).
  assert (Hbits : incl (filter noise (sc_syn c)) errs).
  { intros q Hq. apply filter_In in Hq. destruct Hq as [Hq Hb]. destruct (In_nth_error _ _ (syn_in_nodes D e b pol c HD HC q Hq)) as (k & Hk). apply (Herr k q Hk Hq). apply (M2 k q Hk). exact Hb. }
  assert (Hnd : NoDup (sc_syn c)) by apply (cf_syn_nd _ _ _ _ _ (surface_code_facts D e b pol c (ge2_ok D _ HD) HC)).
  assert (Hcount : forall a, In a (logical_axes e b) -> 2 * Z.of_nat (List.length (filter noise (sc_syn c))) < get a D).
  { intros a Ha. specialize (Hfew a Ha). pose proof (NoDup_incl_length (NoDup_filter noise Hnd) Hbits). lia. }
  assert (Hzero : filter noise (sc_syn c) = [] -> forall call after r, correct_call c ch call -> call noise = Ok (after, r) -> gauge_pattern c after).
  { intros Hz call after r Hc Ec. assert (Hno : forall q, In q (sc_syn c) -> noise q = false).
    { intros q Hq. destruct (noise q) eqn:Eq; [|reflexivity]. assert (K : In q (filter noise (sc_syn c))) by (apply filter_In; auto). rewrite Hz in K. destruct K. }
    assert (Gn : gauge_pattern c noise) by (exists (fun _ => false); intros q Hq; rewrite (Hno q Hq), xsum_false; reflexivity).
    pose proof (proj1 (proj2 (C61_verdict_exact D e b pol c noise false HD HC) Gn)) as Qn.
    destruct (quiet_fixed D e b pol c ch HD HC Hch call noise Hc Qn) as (r' & Er). rewrite Er in Ec. injection Ec as <- _. exact Gn. }
  assert (Hbig : filter noise (sc_syn c) <> [] -> forall a, get a (documented_bnds e b) = BPeriodic -> 3 <= get a D).
  { intros Hz a Ha. assert (Hl : In a (logical_axes e b)) by (destruct e, b, a; cbn in Ha |- *; first [discriminate|tauto]). specialize (Hcount a Hl).
    destruct (filter noise (sc_syn c)); [contradiction|]. cbn [List.length] in Hcount. lia. }
  unfold decode_surface_code. cbn [String.eqb Ascii.eqb Bool.eqb]. rewrite E1. cbn [bind]. fold noise.
  assert (Hdone : forall after r even, (r = true <-> gauge_pattern c after) -> planes_even D e b c after even -> r = forallb even (logical_axes e b) -> gauge_pattern c after ->
     r = true /\ transcript D e b even = transcript D e b (fun _ => true)).
  { intros after r even G _ R K. apply G in K. split; [exact K|]. rewrite K in R. symmetry in R. rewrite forallb_forall in R.
    assert (X : forall a, plane_row D e b even a = plane_row D e b (fun _ => true) a).
    { intros a. unfold plane_row. destruct (existsb (fun a' => if axis_eq_dec a' a then true else false) (logical_axes e b)) eqn:Ex; [|reflexivity]. apply existsb_exists in Ex. destruct Ex as (a' & Ha & Heq).
      destruct (axis_eq_dec a' a) as [->|]; [|discriminate]. rewrite (R a Ha). reflexivity. }
    unfold transcript. rewrite !X. reflexivity. }
  unfold script_correct. destruct Hdec as [-> | ->]; cbn [String.eqb Ascii.eqb Bool.eqb].
  - destruct (loud_mwpm_ok D e b pol c ch W HD HC Hch HW script_uniform (iid_look A) no_weights noise) as (m & after & r & even & call & L1 & L2 & L3 & O1 & G & P & R); [left; reflexivity|discriminate|].
    destruct (Hdone after r even G P R) as [-> T].
    2:{ exists (noise, after). rewrite L1. cbn [bind]. rewrite T. reflexivity. }
    destruct (list_eq_dec point_eq_dec (filter noise (sc_syn c)) []) as [Hz|Hz]; [exact (Hzero Hz call after r L2 L3)|]. specialize (Hbig Hz).
    destruct O1 as (x & R0 & X1 & (X2 & X2' & X2'') & X3 & X4 & _). specialize (X4 Hbig (or_intror (conj eq_refl (or_introl eq_refl))) (filter noise (sc_syn c))).
    destruct HW as (_ & _ & _ & Wu & Wf & _).
    assert (Hw : forall F, incl F (sc_syn c) -> set_weight (fun q => w_fl W (x q)) F = w_unit W * Z.of_nat (List.length F)).
    { induction F as [|q F IH]; intros HF; [cbn; lia|]. unfold set_weight in *. cbn [fold_right List.length]. rewrite IH by (intros y Hy; apply HF; right; exact Hy).
      destruct (X1 q (HF q (or_introl eq_refl))) as [_ K]. unfold weight_rule in K. cbn in K. rewrite K, (Wf 1). lia. }
    assert (Hcl : clears c noise (filter noise (sc_syn c))).
    { split; [apply NoDup_filter, Hnd|]. split; [intros q Hq; apply filter_In in Hq; apply Hq|]. intros st Hst. apply xsum_all_false. intros q Hq.
      assert (Hs : In q (sc_syn c)) by exact (SurfaceComplex.stab_syn D e b pol c HD HC st q Hst Hq).
      destruct (noise q) eqn:En; [assert (K : pmem q (filter noise (sc_syn c)) = true) by (apply pmem_In, filter_In; auto)|assert (K : pmem q (filter noise (sc_syn c)) = false) by (apply pmem_false; intros K; apply filter_In in K; destruct K; congruence)]; rewrite K; reflexivity. }
    specialize (X4 Hcl). rewrite !Hw in X4 by (try exact X2'; intros q Hq; apply filter_In in Hq; apply Hq).
    assert (Hlen : Z.of_nat (List.length R0) <= Z.of_nat (List.length (filter noise (sc_syn c)))) by nia.
    destruct (check_correction c after false) as [v|] eqn:Ev; [|rewrite (check_correction_eq D e b pol c HD HC) in Ev; discriminate].
    assert (Q : quiet c after) by (intros st Hst; rewrite <- (X2'' st Hst); apply xsum_ext; intros q _; apply X3).
    destruct v; [apply (C61_verdict_exact D e b pol c after false HD HC); auto|exfalso].
    destruct (proj1 (C61_distance D e b pol c HD HC) after Q) as (a & Ha & Hd).
    { intros K. apply (C61_verdict_exact D e b pol c after false HD HC) in K. destruct K as [_ K]. congruence. }
    specialize (Hcount a Ha).
    assert (Hi : incl (filter after (sc_syn c)) (filter noise (sc_syn c) ++ R0)).
    { intros q Hq. apply filter_In in Hq. destruct Hq as [Hq Hb]. rewrite X3 in Hb. apply in_app_iff. destruct (noise q) eqn:En; [left; apply filter_In; auto|right; apply pmem_In; rewrite xorb_false_l in Hb; exact Hb]. }
    pose proof (NoDup_incl_length (NoDup_filter after Hnd) Hi) as K. rewrite app_length in K. lia.
  - destruct (loud_uf_ok D e b pol c ch W HD HC Hch HW script_uniform (iid_look A) no_weights noise eq_refl) as (m & after & r & even & call & L1 & L2 & L3 & O1 & G & P & R).
    destruct (Hdone after r even G P R) as [-> T].
    2:{ exists (noise, after). rewrite L1. cbn [bind]. rewrite T. reflexivity. }
    destruct (list_eq_dec point_eq_dec (filter noise (sc_syn c)) []) as [Hz|Hz]; [exact (Hzero Hz call after r L2 L3)|]. specialize (Hbig Hz).
    destruct O1 as (_ & _ & O1). apply (O1 []); [constructor| |exact Hbig|].
    + intros q. split; [intros []|]. intros [_ (v1 & v2 & _ & _ & _ & K & _)]. exfalso. destruct (M1 v1) as ((K' & _) & _). specialize (K' K). discriminate.
    + intros a Ha. specialize (Hcount a Ha). cbn [filter List.length].
      rewrite (filter_ext (fun q => noise q && negb (pmem q [])) noise) by (intros q; cbn; apply andb_true_r). lia.
Qed.
Print Assumptions C83_script_success.

(* other names of the noise or of the decoder *)
Theorem C83_other_names : forall D e b pol c ch inds W decoder noise dc di, dims_ge2 D -> is_surface_code D e b pol c -> valid_choice (sc_stabs c) ch -> code_inds c inds -> fair_world c ch W ->
  draws_ok (List.length (node_list (sc_graph c))) dc ->
  (noise <> "cv"%string -> noise <> "dv"%string -> decode_surface_code W c ch inds noise decoder dc di = Err UnboundLocalError) /\
  (noise = "cv"%string \/ noise = "dv"%string -> decoder <> "MWPM"%string -> decoder <> "UF"%string -> decode_surface_code W c ch inds noise decoder dc di = Err KeyError).
Proof.
  intros D e b pol c ch inds W decoder noise dc di HD HC Hch Hi HW Hd. split.
  - intros N1 N2. unfold decode_surface_code. apply String.eqb_neq in N1, N2. rewrite N1, N2. reflexivity.
  - intros Hn N1 N2. apply String.eqb_neq in N1, N2.
    assert (K : forall a bit, script_correct W c ch decoder script_uniform a bit = Err KeyError).
    { intros a bit. unfold script_correct. rewrite N1, N2. destruct HW as (W1 & _).
      destruct (C23_uniform_mwpm D e b pol c ch (w_exp W) script_uniform (w_coords W) (with_weights a no_weights) (wm_edge no_weights) HD HC Hch W1 eq_refl) as (a' & wt' & E & _).
      assert (E' : assign_weights (w_exp W) c ch DOther script_uniform (w_coords W) (with_weights a no_weights) (wm_edge no_weights) = Ok (a', wt')) by exact E. rewrite E'. reflexivity. }
    unfold decode_surface_code. destruct Hn as [-> | ->]; cbn [String.eqb Ascii.eqb Bool.eqb].
    + destruct (script_layer D e b pol c HD HC inds dc Hi Hd) as (g & v & lay & E1 & E2 & _). rewrite E1. cbn [snd bind]. rewrite E2, N1. cbn [bind]. rewrite K. reflexivity.
    + destruct (script_noise D e b pol c HD HC di) as (A & E1 & _). rewrite E1. cbn [bind]. rewrite K. reflexivity.
Qed.
Print Assumptions C83_other_names.

(* the text for the code of the program's own arguments: distance 3, open boundaries, primal *)
Example C83_text : transcript (3, 3, 3) EcPrimal BdOpen (fun _ => true) =
  ["Primal recovery succeeded - no unsatisfied stabilizers."; ""; "Primal error correction check -- {'x': [True, True, True], 'y': [], 'z': []}"]%string.
Proof. reflexivity. Qed.
(* the hypotheses are met, with searches in place of the libraries: one error at a syndrome qubit of a 3 x 3 x 3 code *)
Example C83_nonvacuous : exists c ch W, is_surface_code (3, 3, 3) EcDual BdPeriodic None c /\ valid_choice (sc_stabs c) ch /\ fair_world c ch W /\
  forall inds dc q k0, In q (sc_syn c) -> nth_error (node_list (sc_graph c)) k0 = Some q ->
    exists bits, decode_surface_code W c ch inds "dv" "UF" dc (fun k => if Nat.eqb k k0 then 1 / 100 else 1 / 2)%R = Ok (bits, transcript (3, 3, 3) EcDual BdPeriodic (fun _ => true) ++ ["Success: True"%string], true).
Proof.
  assert (HD : dims_ge2 (3, 3, 3)) by (intros []; simpl; lia).
  assert (HX : exists c, is_surface_code (3, 3, 3) EcDual BdPeriodic None c) by (eexists; apply mk_code_ok). destruct HX as (c & HC).
  assert (HY : exists ch, valid_choice (sc_stabs c) ch) by (eexists; apply first_choice_valid). destruct HY as (ch & Hch).
  set (E := sg_edges (sc_stabs c) (sc_bound c) ch).
  set (W := {| w_fl := Int_part; w_unit := 1; w_exp := exp; w_coords := sc_syn c; w_paths := search_oracle E; w_match := search_match; w_lib := kruskal_lib E; w_sched := rev_sched;
              w_fuel := (2 * List.length E + 2)%nat; w_enum := fun l => rev l |}).
  assert (HW : fair_world c ch W).
  { split; [split; [apply (cf_syn_nd _ _ _ _ _ (surface_code_facts (3, 3, 3) EcDual BdPeriodic None c (ge2_ok (3, 3, 3) _ HD) HC))|tauto]|]. split; [apply exp_exp_like|].
    split. { intros x y Hx. cbn [w_fl W]. pose proof (base_Int_part x) as [K1 _]. pose proof (base_Int_part y) as [_ K2]. assert (K' : (IZR (Int_part x) < IZR (Int_part y + 1))%R) by (rewrite plus_IZR; lra). apply lt_IZR in K'. lia. }
    split; [cbn; lia|]. split; [intros n; cbn [w_fl w_unit W]; rewrite (Int_part_unique (IZR n) n) by lra; lia|]. split; [intros w Hw; apply search_oracle_ok; exact Hw|]. split; [apply search_match_ok|].
    split; [apply kruskal_lib_ok|]. split; [apply (kruskal_out_nd (3, 3, 3) EcDual BdPeriodic None c ch HD HC Hch)|]. split; [apply rev_sched_ok|apply Nat.le_refl]. }
  exists c, ch, W. split; [exact HC|]. split; [exact Hch|]. split; [exact HW|]. clearbody W. intros inds dc q k0 Hq Hk0.
  apply (C83_script_success (3, 3, 3) EcDual BdPeriodic None c ch inds W "UF" dc _ HD HC Hch HW (or_intror eq_refl) [q]).
  - intros k q' Hk Hq' Hlt. cbn beta in Hlt. destruct (Nat.eqb_spec k k0) as [->|n]; [left; congruence|lra].
  - intros [] _; cbn; lia.
Qed.
