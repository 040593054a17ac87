(* SimModel.v: model of /repo/flamingpy/noise/iid.py and /repo/flamingpy/simulations.py. *)
From Coq Require Import String Ascii DecimalString Reals.
From Coq Require Decimal.
From Verif Require Import Base Lattice RhgModel SurfaceModel.
Open Scope Z_scope.

(* ---------- Python values ---------- *)

(* A Python value stored in a node's attribute dictionary or in an argument dictionary.
   A float is represented by its repr, opaque objects by their str (= their repr). *)
Inductive pyval :=
  | VNone | VBool (b : bool) | VInt (z : Z) | VFloat (repr : string) | VStr (s : string) | VObj (repr : string)
  | VTuple (l : list pyval) | VList (l : list pyval) | VDict (l : list (pyval * pyval)).

Definition comma : ascii := ","%char.
Definition quote : ascii := """"%char.
Definition newline : ascii := "010"%char.
Definition nl : string := String newline EmptyString.
Definition apos : ascii := "'"%char.
Definition backslash : ascii := "\"%char.

(* "%i" % z and str(z) *)
Definition dec (z : Z) : string := NilZero.string_of_int (Z.to_int z).

(* membership of a character in a string *)
Fixpoint has (c : ascii) (s : string) : bool :=
  match s with EmptyString => false | String a s' => Ascii.eqb a c || has c s' end.

(* repr of a str: single quotes unless it contains ' and no double quote; the delimiter, the
   backslash and the newline are escaped.  Simplification: other escapes (control characters, non-printable
   code points) are not modelled. *)
Fixpoint escape (d : ascii) (s : string) : string :=
  match s with
  | EmptyString => EmptyString
  | String a s' =>
      if Ascii.eqb a newline then String backslash (String "n" (escape d s'))
      else if Ascii.eqb a d || Ascii.eqb a backslash then String backslash (String a (escape d s'))
      else String a (escape d s')
  end.
Definition repr_str (s : string) : string :=
  let d := if has apos s && negb (has quote s) then quote else apos in
  (String d (escape d s) ++ String d EmptyString)%string.

Fixpoint join (sep : string) (l : list string) : string :=
  match l with [] => EmptyString | [s] => s | s :: l' => (s ++ sep ++ join sep l')%string end.

(* repr(value) *)
Fixpoint py_repr (v : pyval) : string :=
  match v with
  | VNone => "None" | VBool b => if b then "True" else "False" | VInt z => dec z
  | VFloat s => s | VObj s => s | VStr s => repr_str s
  | VTuple [x] => ("(" ++ py_repr x ++ ",)")%string
  | VTuple l => ("(" ++ join ", " (map py_repr l) ++ ")")%string
  | VList l => ("[" ++ join ", " (map py_repr l) ++ "]")%string
  | VDict l => ("{" ++ join ", " (map (fun kv => py_repr (fst kv) ++ ": " ++ py_repr (snd kv)) l) ++ "}")%string
  end.
(* str(value): differs from repr on strings only *)
Definition py_str (v : pyval) : string := match v with VStr s => s | _ => py_repr v end.

(* "%s" % (value): the parentheses do not make a tuple, so a value that is a tuple supplies the list of
   arguments of the format: anything but one argument is a TypeError *)
Definition percent_s (v : pyval) : res string :=
  match v with VTuple [x] => Ok (py_str x) | VTuple _ => Err TypeError | _ => Ok (py_str v) end.

(* ---------- IidNoise, noise/iid.py ---------- *)

(* the attribute dictionaries of the nodes *)
Definition node_attrs := point -> string -> option pyval.
Definition set_bit (A : node_attrs) (v : point) (b : bool) : node_attrs :=
  fun q k => if peqb q v && String.eqb k "bit_val" then Some (VInt (Z.b2z b)) else A q k.

(* a numpy Generator: random() returns a number and changes the state *)
Definition generator (S : Type) := S -> R * S.

(* IidNoise.__init__, iid.py 29-35: refuses probabilities outside [0,1] *)
Definition iid_init (p : R) : res R :=
  if Rlt_dec p 0 then Err ValueError else if Rlt_dec 1 p then Err ValueError else Ok p.

(* IidNoise.apply_noise, iid.py 37-48: one draw for each node, in the order of nodes.data() *)
Fixpoint iid_apply {S} (rnd : generator S) (p : R) (nodes : list point) (A : node_attrs) (s : S) : node_attrs * S :=
  match nodes with
  | [] => (A, s)
  | v :: nodes' =>
      let '(x, s') := rnd s in
      iid_apply rnd p nodes' (set_bit A v (if Rlt_dec x p then true else false)) s'
  end.

(* What the decoders read: G.nodes[q]["bit_val"] (the models of the decoders take the bits as a function;
   a missing or other value is read as 0). *)
Definition bits_of (A : node_attrs) : point -> bool :=
  fun q => match A q "bit_val"%string with Some (VInt 1) => true | _ => false end.

(* ---------- ec_monte_carlo, simulations.py 63-121 ---------- *)

(* `step` is ec_mc_trial (simulations.py 45-60) as a function of everything that persists between
   trials (code, noise object, random generator). *)
Section MonteCarlo.
  Context {S : Type} (step : S -> S * res bool).

  (* the loop of lines 102-111; local_successes is a float array, exact below 2^53 *)
  Fixpoint mc_loop (size rank : Z) (is : list Z) (s : S) (succ : Z) : S * res Z :=
    match is with
    | [] => (s, Ok succ)
    | i :: is' =>
        if size =? 0 then (s, Err ZeroDivisionError)
        else if i mod size =? rank then
          match step s with
          | (s', Ok b) => mc_loop size rank is' s' (succ + Z.b2z b)
          | (s', Err e) => (s', Err e)
          end
        else mc_loop size rank is' s succ
    end.
  Definition local_run (trials size rank : Z) (s : S) : S * res Z := mc_loop size rank (py_range 0 trials) s 0.

  (* Lines 113-120 when mpi4py is not importable: `errors` for one process *)
  Definition mc_single (trials size rank : Z) (s : S) : S * res Z :=
    match local_run trials size rank s with
    | (s', Ok n) => (s', Ok (trials - n))
    | (s', Err e) => (s', Err e)
    end.

  (* the same when mpi4py is importable and world_comm is left at its default None *)
  Definition mc_no_comm (trials size rank : Z) (s : S) : S * res Z :=
    match local_run trials size rank s with
    | (s', Ok n) => (s', Err AttributeError)
    | (s', Err e) => (s', Err e)
    end.

  (* the same in an MPI world of length ss processes, process r starting in the r-th state of ss: Reduce(op=SUM,
     root=0) adds the contributions at rank 0 and leaves `successes` (zeros) untouched elsewhere.
     Answer of the process `rank`: its own exception, or None when it waits for ever for a process that has
     failed. *)
  Definition mpi_locals (trials : Z) (ss : list S) : list (res Z) :=
    map (fun rs => snd (local_run trials (Z.of_nat (List.length ss)) (Z.of_nat (fst rs)) (snd rs))) (combine (seq 0 (List.length ss)) ss).
  Fixpoint all_ok (l : list (res Z)) : option (list Z) :=
    match l with
    | [] => Some []
    | Ok n :: l' => match all_ok l' with Some t => Some (n :: t) | None => None end
    | Err _ :: _ => None
    end.
  Definition zsum (l : list Z) : Z := fold_right Z.add 0 l.
  Definition mc_mpi (trials : Z) (ss : list S) (rank : nat) : option (res Z) :=
    match nth_error (mpi_locals trials ss) rank with
    | None => None
    | Some (Err e) => Some (Err e)
    | Some (Ok _) =>
        match all_ok (mpi_locals trials ss) with
        | None => None
        | Some l => let successes := if Nat.eqb rank 0 then zsum l else 0 in Some (Ok (trials - successes))
        end
    end.
End MonteCarlo.

(* ---------- run_ec_simulation, simulations.py 124-204 ---------- *)

(* the contents of the files, by path; the directories are assumed to exist *)
Definition files := string -> option string.
Definition write (f : files) (name s : string) : files :=
  fun n => if String.eqb n name then match f n with Some t => Some (t ++ s)%string | None => Some s end else f n.

(* file.write("%s," % (value)) *)
Definition write_field (name : string) (fr : files * res unit) (v : pyval) : files * res unit :=
  match fr with
  | (f, Err e) => (f, Err e)
  | (f, Ok _) => match percent_s v with Ok s => (write f name (s ++ ","), Ok tt) | Err e => (f, Err e) end
  end.
(* the same with quotes for the key "weight_opts", lines 183-187 *)
Definition write_item (name : string) (fr : files * res unit) (kv : string * pyval) : files * res unit :=
  match fr with
  | (f, Err e) => (f, Err e)
  | (f, Ok _) =>
      if String.eqb (fst kv) "weight_opts" then
        match percent_s (snd kv) with
        | Ok s => (write f name (String quote s ++ String quote ",")%string, Ok tt)
        | Err e => (f, Err e)
        end
      else write_field name fr (snd kv)
  end.

Definition dict := list (string * pyval).

(* str(int).zfill for "%H:%M:%S" and "%f": n digits of z, the high ones first *)
Definition digit (z : Z) : ascii := ascii_of_nat (48 + Z.to_nat (z mod 10)).
Fixpoint digits (n : nat) (z : Z) : string :=
  match n with O => EmptyString | S m => (digits m (z / 10) ++ String (digit z) EmptyString)%string end.
(* time of the day, from the seconds since midnight *)
Definition fmt_time (t : Z) : string := (digits 2 (t / 3600 mod 24) ++ ":" ++ digits 2 (t / 60 mod 60) ++ ":" ++ digits 2 (t mod 60))%string.
(* "%f", from the number of microseconds (perf_counter never decreases) *)
Definition fmt_f (us : Z) : string := (dec (us / 1000000) ++ "." ++ digits 6 (us mod 1000000))%string.

(* the header, lines 157-168 *)
Definition header (code_args noise_args decoder_args : dict) : string :=
  let keys d := fold_right (fun kv s => fst kv ++ "," ++ s)%string ""%string d in
  ("code," ++ keys code_args ++ "noise," ++ keys noise_args ++ "decoder," ++ keys decoder_args ++
   "errors,trials,current_time,simulation_time,mpi_size" ++ nl)%string.

(* Lines 151-204, at rank 0, after the simulation: clock = time of the day, us = elapsed time.
   Simplification: a write is visible at once (no buffering). *)
Definition record (f : files) (name : string) (code_name : string) (code_args : dict) (noise_name : string) (noise_args : dict)
    (decoder : string) (decoder_args : dict) (errors trials clock us size : Z) : files * res unit :=
  let f0 := match f name with
            | None => write f name (header code_args noise_args decoder_args)
            | Some _ => f (* FileExistsError: open for appending *)
            end in
  let fr1 := write_field name (f0, Ok tt) (VStr code_name) in
  let fr2 := fold_left (fun fr kv => write_field name fr (snd kv)) code_args fr1 in
  let fr3 := write_field name fr2 (VStr noise_name) in
  let fr4 := fold_left (fun fr kv => write_field name fr (snd kv)) noise_args fr3 in
  let fr5 := write_field name fr4 (VStr decoder) in
  let fr6 := fold_left (write_item name) decoder_args fr5 in
  match fr6 with
  | (f6, Ok _) => (write f6 name (dec errors ++ "," ++ dec trials ++ "," ++ fmt_time clock ++ "," ++ fmt_f us ++ "," ++ dec size ++ nl)%string, Ok tt)
  | fr => fr
  end.

Definition lookup (k : string) (d : dict) : option pyval :=
  match find (fun kv => String.eqb (fst kv) k) d with Some kv => Some (snd kv) | None => None end.

(* fname or "./flamingpy/.sims_data/sims_results.csv" *)
Definition result_file (fname : option string) : string :=
  match fname with Some (String a s) => String a s | _ => "./flamingpy/.sims_data/sims_results.csv" end.

(* run_ec_simulation as seen by rank 0: `setup` is the construction of the code and of the noise
   object (lines 131-132), `mc` the answer of ec_monte_carlo (which first reads decoder_args["weight_opts"],
   line 94), None = waiting for ever. *)
Definition run_ec_simulation (f : files) (fname : option string) (code_name : string) (code_args : dict) (noise_name : string) (noise_args : dict)
    (decoder : string) (decoder_args : dict) (trials clock us size : Z) (setup : res unit) (mc : option (res Z)) : option (files * res unit) :=
  match setup with
  | Err e => Some (f, Err e)
  | Ok _ =>
      match lookup "weight_opts" decoder_args with
      | None => Some (f, Err KeyError)
      | Some _ =>
          match mc with
          | None => None
          | Some (Err e) => Some (f, Err e)
          | Some (Ok errors) => Some (record f (result_file fname) code_name code_args noise_name noise_args decoder decoder_args errors trials clock us size)
          end
      end
  end.

(* ---------- the command line, simulations.py 234-241 ---------- *)

(* str.lower() on ASCII *)
Definition lower_char (a : ascii) : ascii :=
  let n := nat_of_ascii a in if (Nat.leb 65 n && Nat.leb n 90)%bool then ascii_of_nat (n + 32) else a.
Fixpoint lower (s : string) : string := match s with EmptyString => EmptyString | String a s' => String (lower_char a) (lower s') end.
Definition mem_str (s : string) (l : list string) : bool := existsb (String.eqb s) l.
Definition normal_decoder (d : string) : res string :=
  if mem_str (lower d) ["unionfind"; "uf"; "union-find"; "union find"]%string then Ok "UF"%string
  else if mem_str (lower d) ["mwpm"; "minimum weight perfect matching"]%string then Ok "MWPM"%string
  else Err ValueError.
