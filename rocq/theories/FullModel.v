(* FullModel.v: correct(), decoder.py 226-296, with the weight assignment inside it, and ec_mc_trial, simulations.py 45-60, for a noise
   layer whose attributes the weight assignment reads.  One value of code.ec, sanity_check=False, as ec_mc_trial calls it. *)
From Coq Require Import String.
From Verif Require Import Base Lattice RhgModel SurfaceModel StabGraphModel MwpmModel UfModel GkpModel WeightModel CvModel CvTrial CvMacroModel CvMacroCount SimModel SimTrial.
Open Scope Z_scope.

(* what calls of correct() leave behind: "weight" of the nodes of the code's graph and of the edges of the stabilizer graph *)
Record wmem := { wm_node : point -> option R; wm_edge : sedge -> option R }.
Definition with_weights (a : WeightModel.attrs) (m : wmem) : WeightModel.attrs :=
  {| WeightModel.a_state := WeightModel.a_state a; WeightModel.a_hom := WeightModel.a_hom a; WeightModel.a_ppc := WeightModel.a_ppc a; WeightModel.a_weight := wm_node m |}.

(* the weight of the edge of the stabilizer graph whose common vertex is q *)
Definition edge_reads (E : list sedge) (wt : sedge -> option R) (q : point) : option R :=
  match find (fun ed => match snd ed with Some p => peqb p q | None => false end) E with Some ed => wt ed | None => None end.

(* assign_weights, then mwpm_decoder, recovery and check_correction.  The shortest path and matching functions work with
   multiples of a small unit (floats): fl is the rounding of a weight, in these units. *)
Definition full_mwpm (fl : R -> Z) (expf : R -> R) (rp : Z -> Z) (c : scode) (ch : nat -> nat -> point) (wo : wopts) (coords : list point)
    (o : (point -> Z) -> sp_oracle) (pick : list medge -> list (mnode * mnode)) (a : WeightModel.attrs) (m : wmem) (bit : point -> bool) : res (wmem * ((point -> bool) * bool)) :=
  bind (assign_weights expf c ch DMWPM wo coords (with_weights a m) (wm_edge m)) (fun aw =>
  let w := fun q => match edge_reads (sg_edges (sc_stabs c) (sc_bound c) ch) (snd aw) q with Some r => fl r | None => 0 end in
  bind (correct_mwpm rp c ch w (o w) pick bit false) (fun br =>
  Ok ({| wm_node := a_weight (fst aw); wm_edge := snd aw |}, br))).

(* assign_weights, then uf_decoder (edges of weight -1 are erased), recovery and check_correction *)
Definition full_uf (expf : R -> R) (c : scode) (ch : nat -> nat -> point) (wo : wopts) (coords : list point) (lib : ulib) (sch : sched) (fuel : nat)
    (a : WeightModel.attrs) (m : wmem) (bit : point -> bool) : res (wmem * ((point -> bool) * bool)) :=
  bind (assign_weights expf c ch DUF wo coords (with_weights a m) (wm_edge m)) (fun aw =>
  let er := fun q => match edge_reads (sg_edges (sc_stabs c) (sc_bound c) ch) (snd aw) q with Some r => if Req_EM_T r (-1) then true else false | None => false end in
  bind (correct_uf c ch er lib sch fuel bit false) (fun br =>
  Ok ({| wm_node := a_weight (fst aw); wm_edge := snd aw |}, br))).

(* ec_mc_trial: apply_noise, then correct().  The state is the noise layer, the weights left behind, and the results of the random
   generator from now on (one record for each call of apply_noise). *)
Definition full_trial {L Dr : Type} (noise : L -> Dr -> L * res unit) (look : L -> WeightModel.attrs) (bits : L -> point -> bool) (store : L -> (point -> bool) -> L)
    (full : WeightModel.attrs -> wmem -> (point -> bool) -> res (wmem * ((point -> bool) * bool))) (st : (L * wmem) * (nat -> Dr)) : ((L * wmem) * (nat -> Dr)) * res bool :=
  match noise (fst (fst st)) (snd st O) with
  | (l, Err e) => (((l, snd (fst st)), fun k => snd st (S k)), Err e)
  | (l, Ok _) => match full (look l) (snd (fst st)) (bits l) with
                 | Err e => (((l, snd (fst st)), fun k => snd st (S k)), Err e)
                 | Ok (m, (bit, r)) => (((store l bit, m), fun k => snd st (S k)), Ok r)
                 end
  end.

(* the attribute "state" *)
Definition as_label (s : string) : label := if String.eqb s "p" then Lp else if String.eqb s "GKP" then LGKP else LOther.
(* CVLayer: state and hom_val_p are on the nodes of the code's graph; nothing writes p_phase_cond *)
Definition cv_look (v : cv) : WeightModel.attrs :=
  {| WeightModel.a_state := fun p => option_map as_label (a_state (v_attr v p)); WeightModel.a_hom := fun p => a_homp (v_attr v p); WeightModel.a_ppc := fun _ => None; WeightModel.a_weight := fun _ => None |}.
(* CVMacroLayer: the code's graph is the reduced graph, with state and p_phase_cond; hom_val_p is on the macronode graph only *)
Definition macro_look (w : cvm) : WeightModel.attrs :=
  {| WeightModel.a_state := fun p => option_map as_label (r_state (w_red w p)); WeightModel.a_hom := fun _ => None; WeightModel.a_ppc := fun p => r_prob (w_red w p); WeightModel.a_weight := fun _ => None |}.

(* IidNoise.apply_noise, noise/iid.py 38-49: d k is the k-th number of rng.random() in this call *)
Definition numbers : generator (nat -> R) := fun d => (d O, fun k => d (S k)).
Definition iid_noise (p : R) (c : scode) (A : node_attrs) (d : nat -> R) : node_attrs * res unit := (fst (iid_apply numbers p (node_list (sc_graph c)) A d), Ok tt).
(* IidNoise writes bit_val only; "state" may be there from an earlier noise layer on the same code.  Simplified: hom_val_p and
   p_phase_cond are taken to be missing *)
Definition iid_look (A : node_attrs) : WeightModel.attrs :=
  {| WeightModel.a_state := fun q => match A q "state"%string with Some (VStr s) => Some (as_label s) | Some _ => Some LOther | None => None end;
     WeightModel.a_hom := fun _ => None; WeightModel.a_ppc := fun _ => None; WeightModel.a_weight := fun _ => None |}.
