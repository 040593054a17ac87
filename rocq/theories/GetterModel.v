(* GetterModel.v: model of the getters of flamingpy/noise/cv.py, class CVLayer (245-268), which CVMacroLayer inherits. *)
From Coq Require Import String.
From Verif Require Import Base Lattice GkpModel OpsModel EgraphModel CvModel MwpmModel.
Open Scope Z_scope.

(* self.egraph.nodes[p].get("hom_val_" + quad): a node has no attribute of that form other than hom_val_p and hom_val_q *)
Definition get_hom_val (quad : string) (a : attrs) : option R :=
  if String.eqb quad "p" then a_homp a else if String.eqb quad "q" then a_homq a else None.
(* "if inds is None: inds = range(self._N)", 248-249 and 255-256 *)
Definition all_or (c : cv) (inds : option (list nat)) : list nat := match inds with None => seq 0 (v_N c) | Some l => l end.
(* hom_outcomes, 246-251 *)
Definition get_hom_outcomes (c : cv) (inds : option (list nat)) (quad : string) : res (list (option R)) :=
  mapM (fun i => bind (to_pt c i) (fun p => Ok (get_hom_val quad (v_attr c p)))) (all_or c inds).
(* bit_values, 253-258 *)
Definition get_bit_values (c : cv) (inds : option (list nat)) : res (list (option Z)) :=
  mapM (fun i => bind (to_pt c i) (fun p => Ok (a_bit (v_attr c p)))) (all_or c inds).
(* p_inds and gkp_inds, 260-268 *)
Definition get_p_inds (c : cv) : option idxs := dget String.eqb (v_states c) "p"%string.
Definition get_gkp_inds (c : cv) : option idxs := dget String.eqb (v_states c) "GKP"%string.
