(* CvTrial.v: one Monte Carlo trial with continuous-variable noise: ec_mc_trial, simulations.py 45-60, with a CVLayer on
   a surface code as noise model. *)
From Coq Require Import String.
From Verif Require Import Base Lattice CvModel.
Open Scope Z_scope.

(* recovery, decoder.py 140-141, on the attribute dictionaries of the layer's graph (the graph of the code):
   `bit_val ^= 1` where the decoder flips, so that the parity of the value becomes `bit` *)
Definition cv_store (v : cv) (bit : point -> bool) : cv :=
  set_attr v (fun q => match a_bit (v_attr v q) with
                       | Some x => with_bit (Z.lxor x (Z.b2z (xorb (bit q) (Z.odd x)))) (v_attr v q)
                       | None => v_attr v q
                       end).

(* the parities of the bit values that the decoders read, stabilizer.py 55-56 (no value is read as 0) *)
Definition cv_bits (v : cv) (q : point) : bool := match a_bit (v_attr v q) with Some x => Z.odd x | None => false end.

(* ec_mc_trial: the state is the layer and the results of the random generator from now on, one record for each
   call of apply_noise; correct v is the call of correct(), which may read the attributes that the layer v has put on the
   nodes (weights), and the bits. *)
Definition cv_trial (correct : cv -> (point -> bool) -> res ((point -> bool) * bool)) (st : cv * (nat -> draws)) : (cv * (nat -> draws)) * res bool :=
  match apply_noise (fst st) (snd st O) with
  | (v, Ok _) => match correct v (cv_bits v) with
                 | Ok (bit, r) => ((cv_store v bit, fun k => snd st (S k)), Ok r)
                 | Err e => ((v, fun k => snd st (S k)), Err e)
                 end
  | (v, Err e) => ((v, fun k => snd st (S k)), Err e)
  end.
