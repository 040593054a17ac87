(* SimSpec.v: specifications for IID noise, Monte Carlo bookkeeping and the CSV result file. *)
From Coq Require Import String Ascii Reals.
From Verif Require Import Base Lattice SimModel.
Open Scope Z_scope.

(* ---------- random draws ---------- *)
(* the state of the generator after k draws, and the k-th draw (from 0) *)
Fixpoint after {S} (rnd : generator S) (s : S) (k : nat) : S :=
  match k with O => s | Datatypes.S k' => snd (rnd (after rnd s k')) end.
Definition draw {S} (rnd : generator S) (s : S) (k : nat) : R := fst (rnd (after rnd s k)).

(* ---------- histories of trials ---------- *)
(* starting from s, the successive trials have the outcomes outs and end in s' *)
Inductive runs {S} (step : S -> S * res bool) : S -> list bool -> S -> Prop :=
  | runs_nil s : runs step s [] s
  | runs_cons s b s1 outs s2 : step s = (s1, Ok b) -> runs step s1 outs s2 -> runs step s (b :: outs) s2.

(* the number of trials below `trials` that rank r has to run among `size` ranks *)
Definition share (trials size r : Z) : nat := List.length (filter (fun i => i mod size =? r) (py_range 0 trials)).

(* the number of trials i < trials with f i *)
Definition count (f : Z -> bool) (trials : Z) : Z := Z.of_nat (List.length (filter f (py_range 0 trials))).

(* ---------- CSV ---------- *)
(* The fields of a line: commas separate, except between double quotes; quotes are dropped.
   in_quotes tells whether the reader is between quotes. *)
Fixpoint csv_fields (in_quotes : bool) (s : string) : list string :=
  match s with
  | EmptyString => [EmptyString]
  | String a s' =>
      if Ascii.eqb a """"%char then csv_fields (negb in_quotes) s'
      else if Ascii.eqb a ","%char && negb in_quotes then EmptyString :: csv_fields in_quotes s'
      else match csv_fields in_quotes s' with
           | f :: fs => String a f :: fs
           | [] => [String a EmptyString]
           end
  end.
Definition fields := csv_fields false.

(* text without comma, quote and line break *)
Definition plain (s : string) : Prop := has ","%char s = false /\ has """"%char s = false /\ has "010"%char s = false.
(* text without quote and line break *)
Definition quotable (s : string) : Prop := has """"%char s = false /\ has "010"%char s = false.

(* A table with n columns and the given lines *)
Definition concat_lines (l : list string) : string := fold_right (fun x s => x ++ String "010" s)%string ""%string l.
Definition table (n : nat) (lines : list string) (s : string) : Prop :=
  s = concat_lines lines /\ forall x, In x lines -> has "010"%char x = false /\ List.length (fields x) = n.

(* Values that the result file can hold: not a tuple, and printed without comma, quote, line break (under
   the key weight_opts commas are allowed). *)
Definition not_tuple (v : pyval) : Prop := match v with VTuple _ => False | _ => True end.
Definition tame (kv : string * pyval) : Prop := plain (fst kv) /\ not_tuple (snd kv) /\ plain (py_str (snd kv)).
Definition tame_opt (kv : string * pyval) : Prop :=
  plain (fst kv) /\ not_tuple (snd kv) /\ if String.eqb (fst kv) "weight_opts" then quotable (py_str (snd kv)) else plain (py_str (snd kv)).

(* ---------- errors in a trial ---------- *)
(* In the t-th trial (each trial uses one draw per node) the bit of q is flipped. *)
Definition flipped {S} (rnd : generator S) (s : S) (p : R) (nodes : list point) (t : nat) (q : point) : Prop :=
  exists k, nth_error nodes k = Some q /\ (draw rnd s (t * List.length nodes + k) < p)%R.
(* P holds of at most n points *)
Definition at_most (n : nat) (P : point -> Prop) : Prop := exists l, (List.length l <= n)%nat /\ forall q, P q -> In q l.

(* One call of run_ec_simulation. *)
Record sim := { s_code : string; s_code_args : dict; s_noise : string; s_noise_args : dict; s_dec : string; s_dec_args : dict;
  s_errors : Z; s_trials : Z; s_clock : Z; s_us : Z; s_size : Z }.
Definition columns (x : sim) : nat := (8 + List.length (s_code_args x) + List.length (s_noise_args x) + List.length (s_dec_args x))%nat.
Definition tame_sim (x : sim) : Prop :=
  plain (s_code x) /\ plain (s_noise x) /\ plain (s_dec x) /\ (forall kv, In kv (s_code_args x) -> tame kv) /\ (forall kv, In kv (s_noise_args x) -> tame kv) /\
  (forall kv, In kv (s_dec_args x) -> tame_opt kv) /\ exists v, In ("weight_opts"%string, v) (s_dec_args x).

(* s is a lower-case word and t the same word with any letters in upper case *)
Inductive any_case : string -> string -> Prop :=
  | ac_nil : any_case EmptyString EmptyString
  | ac_same a s t : any_case s t -> any_case (String a s) (String a t)
  | ac_upper n s t : (65 <= n <= 90)%nat -> any_case s t -> any_case (String (ascii_of_nat (n + 32)) s) (String (ascii_of_nat n) t).
