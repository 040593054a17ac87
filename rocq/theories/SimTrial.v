(* SimTrial.v: one Monte Carlo trial with IID noise and uniform weights, on a surface code
   (ec_mc_trial, simulations.py 45-60). *)
From Coq Require Import String Reals.
From Verif Require Import Base Lattice RhgModel SurfaceModel StabGraphModel MwpmModel UfModel SimModel.
Open Scope Z_scope.

(* the bit values after recovery, written back into the node dictionaries (decoder.py, recovery) *)
Definition store_bits (nodes : list point) (A : node_attrs) (bit : point -> bool) : node_attrs :=
  fun q k => if pmem q nodes && String.eqb k "bit_val" then Some (VInt (Z.b2z (bit q))) else A q k.

(* ec_mc_trial with noise_instance an IidNoise and decoder "MWPM", weight_opts {} (uniform weights: by
   C23_correct_mwpm every qubit has weight 1). *)
Definition iid_mwpm_trial {S} (rnd : generator S) (p : R) (c : scode) (ch : nat -> nat -> point) (rp : Z -> Z) (o : sp_oracle)
    (pick : list medge -> list (mnode * mnode)) (st : node_attrs * S) : (node_attrs * S) * res bool :=
  let '(A, s) := iid_apply rnd p (node_list (sc_graph c)) (fst st) (snd st) in
  match correct_mwpm rp c ch (fun _ => 1) o pick (bits_of A) false with
  | Ok (bit, r) => ((store_bits (node_list (sc_graph c)) A bit, s), Ok r)
  | Err e => ((A, s), Err e)
  end.

(* the same with decoder "UF"; er: the qubits of weight -1 *)
Definition iid_uf_trial {S} (rnd : generator S) (p : R) (c : scode) (ch : nat -> nat -> point) (er : point -> bool) (lib : ulib) (sch : sched) (fuel : nat)
    (st : node_attrs * S) : (node_attrs * S) * res bool :=
  let '(A, s) := iid_apply rnd p (node_list (sc_graph c)) (fst st) (snd st) in
  match correct_uf c ch er lib sch fuel (bits_of A) false with
  | Ok (bit, r) => ((store_bits (node_list (sc_graph c)) A bit, s), Ok r)
  | Err e => ((A, s), Err e)
  end.
