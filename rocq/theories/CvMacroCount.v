(* CvMacroCount.v: one Monte Carlo trial with macronode noise: ec_mc_trial, simulations.py 45-60, with a CVMacroLayer on a surface
   code as noise model. *)
From Coq Require Import String.
From Verif Require Import Base Lattice GkpModel CvModel CvMacroModel.
Open Scope Z_scope.

(* recovery, decoder.py 140-141, on the attribute dictionaries of the reduced graph (the graph of the code) *)
Definition macro_store (w : cvm) (bit : point -> bool) : cvm :=
  {| w_cv := w_cv w; w_U := w_U w; w_dict := w_dict w; w_edges := w_edges w; w_bs := w_bs w; w_rnodes := w_rnodes w;
     w_red := fun q => match r_bit (w_red w q) with
                       | Some x => {| r_state := r_state (w_red w q); r_bit := Some (Z.lxor x (Z.b2z (xorb (bit q) (Z.odd x)))); r_prob := r_prob (w_red w q) |}
                       | None => w_red w q
                       end |}.
(* the parities that the decoders read, stabilizer.py 55-56 (no value is read as 0) *)
Definition macro_bits (w : cvm) (q : point) : bool := match r_bit (w_red w q) with Some x => Z.odd x | None => false end.

(* ec_mc_trial: the state is the layer and the results of the random generator from now on; correct w is the call of correct(),
   which may read the attributes that the layer has put on the nodes of the code (weights), and the bits *)
Definition macro_cv_trial (expf : R -> R) (correct : cvm -> (point -> bool) -> res ((point -> bool) * bool)) (st : cvm * (nat -> draws)) : (cvm * (nat -> draws)) * res bool :=
  match apply_noise_macro expf (fst st) (snd st O) with
  | (w, Ok _) => match correct w (macro_bits w) with
                 | Ok (bit, r) => ((macro_store w bit, fun k => snd st (S k)), Ok r)
                 | Err e => ((w, fun k => snd st (S k)), Err e)
                 end
  | (w, Err e) => ((w, fun k => snd st (S k)), Err e)
  end.
