(* SeedModel.v: the seeds of the random generators of a simulation (flamingpy/simulations.py 27 and 96). *)
From Verif Require Import Base Lattice SimModel.
Open Scope Z_scope.

(* str(datetime.now().timestamp()), simulations.py 27: the fractional part of the printed number of seconds has at most
   six digits; trailing zeros are not printed, but at least one digit is.  `digits` is the number of printed digits of
   the fraction u.  Simplification: the time is given in microseconds, and the printed float is taken to be that
   number (before the year 2106 a double of seconds is finer than half a microsecond, so its shortest decimal form is that). *)
Fixpoint printed_fraction (digits : nat) (u : Z) : nat * Z :=
  match digits with
  | S (S _ as fewer) => if u mod 10 =? 0 then printed_fraction fewer (u / 10) else (digits, u)
  | _ => (digits, u)
  end.
(* int_time = int(str(...).replace(".", "")), simulations.py 27; evaluated once, when the module is imported *)
Definition int_time (us : Z) : Z :=
  let '(d, u) := printed_fraction 6 (us mod 1000000) in us / 1000000 * 10 ^ Z.of_nat d + u.
(* mpi_rank + int_time, simulations.py 96, in a process that imported the module at the given time *)
Definition rank_seed (rank us : Z) : Z := rank + int_time us.

Section Seeded.
  Context {O S : Type} (default_rng : Z -> S) (trial : O * S -> (O * S) * res bool).
  (* ec_monte_carlo in a process without MPI (simulations.py 62-116): the generator is created anew in every call,
     from the seed; `objects` are the code and the noise as they are before the call *)
  Definition seeded_monte_carlo (import_us : Z) (trials : Z) (objects : O) : (O * S) * res Z :=
    mc_single trial trials 1 0 (objects, default_rng (rank_seed 0 import_us)).
  (* the result at the root of an MPI world; process r imported the module at time (fst (nth r procs)) *)
  Definition seeded_mpi (trials : Z) (procs : list (Z * O)) : option (res Z) :=
    mc_mpi trial trials (map (fun rp => (snd (snd rp), default_rng (rank_seed (Z.of_nat (fst rp)) (fst (snd rp))))) (combine (seq 0 (List.length procs)) procs)) 0.
End Seeded.
