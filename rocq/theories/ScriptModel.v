(* ScriptModel.v: what correct() prints with sanity_check=True (decoders/decoder.py 118-224, 281-296), and the example program
   decode_surface_code (examples/decoding.py 25-97) with draw=False and show=False. *)
From Coq Require Import String Ascii Reals.
From Verif Require Import Base Lattice RhgModel SurfaceModel StabGraphModel MwpmModel UfModel GkpModel WeightModel CvModel CvSurface CvTrial SimModel SimTrial FullModel.
Open Scope Z_scope.

(* str.capitalize, for ASCII: the first character in upper case, the others in lower case *)
Definition up (a : ascii) : ascii := let n := nat_of_ascii a in if (Nat.leb 97 n && Nat.leb n 122)%bool then ascii_of_nat (n - 32) else a.
Definition low (a : ascii) : ascii := let n := nat_of_ascii a in if (Nat.leb 65 n && Nat.leb n 90)%bool then ascii_of_nat (n + 32) else a.
Fixpoint lower (s : string) : string := match s with EmptyString => EmptyString | String a s' => String (low a) (lower s') end.
Definition capitalize (s : string) : string := match s with EmptyString => EmptyString | String a s' => String (up a) (lower s') end.

(* Stabilizer.__repr__ and coords, codes/stabilizer.py 40-41, 57-59.  The nodes of a subgraph are listed in the order of a set:
   enum is that order *)
Definition stab_repr (enum : list point -> list point) (st : list point) : pyval :=
  VObj ("Stabilizer at nodes " ++ py_repr (VList (map (fun p => VTuple [VInt (co AX p); VInt (co AY p); VInt (co AZ p)]) (enum st)))).
(* recovery, decoder.py 142-148, and odd_parity_stabilizers, stabilizer_graph.py 304-306; bit are the bits after the flips *)
Definition recovery_line (c : scode) (enum : list point -> list point) (bit : point -> bool) : string :=
  match filter (fun st => stab_parity bit st) (sc_stabs c) with
  | [] => capitalize (ec_str (sc_ec c)) ++ " recovery succeeded - no unsatisfied stabilizers."
  | odd => "Unsatisfied " ++ ec_str (sc_ec c) ++ " stabilizers:" ++ " " ++ py_repr (VList (map (stab_repr enum) odd))
  end.
(* check_correction, decoder.py 189-217: an empty line, then truth_dict.  Every plane direction that is not checked keeps its empty list *)
Definition truth_list (c : scode) (bit : point -> bool) (a : axis) : pyval :=
  VList (map VBool (if existsb (fun a' => if axis_eq_dec a a' then true else false) (planes_to_check (sc_ec c) (sc_bd c)) then truth c bit true a else [])).
Definition check_line (c : scode) (bit : point -> bool) : string :=
  (capitalize (ec_str (sc_ec c)) ++ " error correction check --" ++ " " ++
   py_repr (VDict [(VStr "x", truth_list c bit AX); (VStr "y", truth_list c bit AY); (VStr "z", truth_list c bit AZ)]))%string.
(* everything that correct(..., sanity_check=True) prints, line by line, when it returns normally *)
Definition printed (c : scode) (enum : list point -> list point) (bit : point -> bool) : list string := [recovery_line c enum bit; ""; check_line c bit]%string.

(* FullModel.full_mwpm and full_uf (correct(), decoder.py 226-296) with sanity_check=True: bits, verdict and printed lines *)
Definition loud_mwpm (fl : R -> Z) (expf : R -> R) (rp : Z -> Z) (c : scode) (ch : nat -> nat -> point) (wo : wopts) (coords : list point)
    (o : (point -> Z) -> sp_oracle) (pick : list medge -> list (mnode * mnode)) (enum : list point -> list point) (a : WeightModel.attrs) (m : wmem) (bit : point -> bool)
    : res (wmem * ((point -> bool) * bool) * list string) :=
  bind (assign_weights expf c ch DMWPM wo coords (with_weights a m) (wm_edge m)) (fun aw =>
  let w := fun q => match edge_reads (sg_edges (sc_stabs c) (sc_bound c) ch) (snd aw) q with Some r => fl r | None => 0 end in
  bind (correct_mwpm rp c ch w (o w) pick bit true) (fun br =>
  Ok ({| wm_node := a_weight (fst aw); wm_edge := snd aw |}, br, printed c enum (fst br)))).
Definition loud_uf (expf : R -> R) (c : scode) (ch : nat -> nat -> point) (wo : wopts) (coords : list point) (lib : ulib) (sch : sched) (fuel : nat)
    (enum : list point -> list point) (a : WeightModel.attrs) (m : wmem) (bit : point -> bool) : res (wmem * ((point -> bool) * bool) * list string) :=
  bind (assign_weights expf c ch DUF wo coords (with_weights a m) (wm_edge m)) (fun aw =>
  let er := fun q => match edge_reads (sg_edges (sc_stabs c) (sc_bound c) ch) (snd aw) q with Some r => if Req_EM_T r (-1) then true else false | None => false end in
  bind (correct_uf c ch er lib sch fuel bit true) (fun br =>
  Ok ({| wm_node := a_weight (fst aw); wm_edge := snd aw |}, br, printed c enum (fst br)))).

(* the libraries and the orders of sets that one run meets *)
Record world := { w_fl : R -> Z; w_unit : Z; w_exp : R -> R; w_coords : list point; w_paths : (point -> Z) -> sp_oracle; w_match : list medge -> list (mnode * mnode);
  w_lib : ulib; w_sched : sched; w_fuel : nat; w_enum : list point -> list point }.
(* weight_options, examples/decoding.py 50-58 and 64; None gives the defaults of assign_weights, decoder.py 54-55 *)
Definition script_blueprint : wopts := {| o_method := WBlueprint; o_integer := true; o_mult := 100; o_delta := Some (1 / 100)%R; o_pre := false |}.
Definition script_uniform : wopts := {| o_method := WUniform; o_integer := false; o_mult := 1; o_delta := None; o_pre := false |}.
Definition no_weights : wmem := {| wm_node := fun _ => None; wm_edge := fun _ => None |}.
(* dec.correct as the program calls it, lines 84-91: decoder_dict[decoder] comes after assign_weights, where other names than "UF" get uniform
   weights one *)
Definition script_correct (W : world) (c : scode) (ch : nat -> nat -> point) (decoder : string) (wo : wopts) (a : WeightModel.attrs) (bit : point -> bool)
    : res (wmem * ((point -> bool) * bool) * list string) :=
  if String.eqb decoder "MWPM" then loud_mwpm (w_fl W) (w_exp W) (rx_report (w_unit W)) c ch wo (w_coords W) (w_paths W) (w_match W) (w_enum W) a no_weights bit
  else if String.eqb decoder "UF" then loud_uf (w_exp W) c ch wo (w_coords W) (w_lib W) (w_sched W) (w_fuel W) (w_enum W) a no_weights bit
  else bind (assign_weights (w_exp W) c ch DOther wo (w_coords W) (with_weights a no_weights) (wm_edge no_weights)) (fun _ => Err KeyError).
(* decode_surface_code on the code c (inds: its syndrome indices), with the random values dc of CVLayer or di of IidNoise.  Result: the bits
   before and after correct(), the printed lines, and the value returned.  Simplified: lines printed before an exception are not kept
   (by C83_script there is no exception after the first of them). *)
Definition decode_surface_code (W : world) (c : scode) (ch : nat -> nat -> point) (inds : list nat) (noise decoder : string) (dc : draws) (di : nat -> R)
    : res (((point -> bool) * (point -> bool)) * list string * bool) :=
  bind (if String.eqb noise "cv" then
          bind (snd (cv_init (code_egraph c) (fun _ => no_attrs) None (Some (inds, sc_syn c)) (1 / 100)%R None (Some (5 / 100)%R) None None)) (fun v =>
          match apply_noise v dc with
          | (_, Err x) => Err x
          | (lay, Ok _) => Ok (cv_look lay, cv_bits lay, if String.eqb decoder "MWPM" then script_blueprint else script_uniform)
          end)
        else if String.eqb noise "dv" then
          match iid_noise (2 / 100)%R c (fun _ _ => None) di with
          | (_, Err x) => Err x
          | (A, Ok _) => Ok (iid_look A, SimModel.bits_of A, script_uniform)
          end
        else Err UnboundLocalError) (fun abw => let '(a, bit, wo) := abw in
  bind (script_correct W c ch decoder wo a bit) (fun out => let '(_, (after, r), lines) := out in
  Ok ((bit, after), lines ++ [("Success: " ++ py_str (VBool r))%string], r))).
