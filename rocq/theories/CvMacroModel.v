(* CvMacroModel.v: model of flamingpy/noise/cv.py, class CVMacroLayer (352-630).
   As in CvModel.v: real numbers instead of floats.  Coordinates of the macronode graph are in units of
   1/U, those of the reduced graph (the code's lattice) are integers.  The attributes permuted_inds,
   permuted_quads and quad_permutation, which are written and read only during one call of
   apply_noise, are passed as values.  The exponential function is a parameter (see GkpModel.v). *)
From Coq Require Import String.
From Verif Require Import Base Lattice RhgModel GkpModel OpsModel EgraphModel MacroModel CvModel.
Open Scope Z_scope.

(* attributes of the nodes of the reduced graph: state, bit_val, p_phase_cond *)
Record rattrs := { r_state : option string; r_bit : option Z; r_prob : option R }.
Record cvm := {
  w_cv : cv;                                  (* the CVLayer part *)
  w_U : Z;                                    (* the unit of the coordinates *)
  w_dict : list (point * list point);         (* self.egraph.macro_to_micro *)
  w_edges : list (point * point * Z);         (* the edges of self.egraph *)
  w_bs : option mat;                          (* self.bs_network; None if the attribute was never set *)
  w_rnodes : list point;                      (* the nodes of self.reduced_graph *)
  w_red : point -> rattrs                     (* their attributes *)
}.
Definition set_cv (w : cvm) (c : cv) : cvm :=
  {| w_cv := c; w_U := w_U w; w_dict := w_dict w; w_edges := w_edges w; w_bs := w_bs w; w_rnodes := w_rnodes w; w_red := w_red w |}.
Definition upd_red (w : cvm) (p : point) (f : rattrs -> rattrs) : cvm :=
  {| w_cv := w_cv w; w_U := w_U w; w_dict := w_dict w; w_edges := w_edges w; w_bs := w_bs w; w_rnodes := w_rnodes w;
     w_red := fun q => if peqb q p then f (w_red w q) else w_red w q |}.
Definition lift_cv {A} (w : cvm) (x : cv * res A) : cvm * res A := (set_cv w (fst x), snd x).

(* __init__, 367-378.  G is the code's lattice, es and perf as for macronize; pad is
   code.bound_str != "periodic"; disp has its default 0.1.  order is given when the caller passes
   sampling_order (a duplicate keyword).  a0 and r0 are the node attributes at that time. *)
Definition cvm_init (G : egr) (es : list ((point * point) * eattr)) (a0 : point -> attrs) (r0 : point -> rattrs) (perf : option (list point)) (pad : bool)
    (delta : R) (bs : option mat) (states : option (list (string * idxs))) (p_swap : option R) (order : option string) (trans : option (R -> Z)) : res cvm :=
  bind (macronize G es perf pad 1 10) (fun m =>
  match order with
  | Some _ => Err TypeError
  | None =>
      let U := unit_of 1 10 in
      bind (snd (cv_init (macro_egraph U m) a0 (m_perf m) None delta states p_swap (Some "two-step"%string) trans)) (fun c =>
      bind (match bs with None => bind (splitter_symp 4) (fun T => Ok (Some T)) | Some _ => Ok None end) (fun b =>
      Ok {| w_cv := c; w_U := U; w_dict := m_dict m; w_edges := map (fun e => (fst e, eweight (snd e))) (gedges (m_graph m)); w_bs := b;
            w_rnodes := node_list G; w_red := r0 |}))
  end).

(* tuple(round(i) for i in point), 421, 467, 627 *)
Definition centre (U : Z) (x : point) : point := (round_to U (co AX x) / U, round_to U (co AY x) / U, round_to U (co AZ x) / U).

(* _permute_gkp_inds_in_macronode, 533-536 *)
Definition is_gkp (c : cv) (i : nat) : res bool :=
  bind (to_pt c i) (fun p => match a_state (v_attr c p) with Some s => Ok (String.eqb s "GKP") | None => Err KeyError end).
Definition permute_macronode (c : cv) (inds : list nat) : res (list nat) :=
  bind (mapR (is_gkp c) inds) (fun gkps =>
  Ok (map fst (filter (fun e => snd e) (combine inds gkps)) ++ map fst (filter (fun e => negb (snd e)) (combine inds gkps)))).
(* _permute_star_inds, 519-531; reshape needs N to be a multiple of 4, apply_along_axis N > 0 *)
Definition permute_star_inds (c : cv) : res (list nat) :=
  if Nat.eqb (v_N c mod 4) 0 && Nat.ltb 0 (v_N c) then
    bind (mapR (fun k => permute_macronode c (seq (4 * k) 4)) (seq 0 (v_N c / 4))) (fun ls => Ok (List.concat ls))
  else Err ValueError.
(* permuted_inds[::4] and np.delete(permuted_inds, np.arange(0, N, 4)) *)
Definition stars (perm : list nat) : list nat := map snd (filter (fun e => Nat.eqb (fst e mod 4) 0) (combine (seq 0 (List.length perm)) perm)).
Definition planets (perm : list nat) : list nat := map snd (filter (fun e => negb (Nat.eqb (fst e mod 4) 0)) (combine (seq 0 (List.length perm)) perm)).

(* _apply_macro_and_reduced_labels, 408-423 *)
Definition label_bodies (perm : list nat) (c : cv) : cv * res unit :=
  for_each (fun c e => match to_pt c (snd e) with Err e => (c, Err e) | Ok p => (upd_attr c p (with_body (fst e mod 4 + 1)), Ok tt) end) c (combine (seq 0 (List.length perm)) perm).
Definition label_reduced (w : cvm) (ind : nat) : cvm * res unit :=
  match bind (to_pt (w_cv w) ind) (fun p => match a_state (v_attr (w_cv w) p) with Some s => Ok (p, s) | None => Err KeyError end) with
  | Err e => (w, Err e)
  | Ok (p, s) => if pmem (centre (w_U w) p) (w_rnodes w)
                 then (upd_red w (centre (w_U w) p) (fun r => {| r_state := Some s; r_bit := r_bit r; r_prob := r_prob r |}), Ok tt)
                 else (w, Err KeyError)
  end.
Definition apply_labels (w : cvm) (perm : list nat) : cvm * res unit :=
  andthen (lift_cv w (label_bodies perm (w_cv w))) (fun w _ => for_each label_reduced w (stars perm)).

(* _entangle_states, 425-452: the permuted quadratures and the permutation *)
Definition bs_block (N : nat) (T : mat) (v : vec) (i : nat) : vec :=
  fun k => if Nat.leb i k && Nat.ltb k (i + 4) then Rsum (fun b => T (k - i)%nat b * v (i + b)%nat)%R 4
           else if Nat.leb (N + i) k && Nat.ltb k (N + i + 4) then Rsum (fun b => T (4 + (k - (N + i)))%nat (4 + b)%nat * v (N + i + b)%nat)%R 4
           else v k.
Definition macro_starts (N : nat) : list nat := map (fun k => 4 * k)%nat (seq 0 (N / 4)).      (* range(0, N - 3, 4) *)
Definition entangle_states (w : cvm) (perm : list nat) (d : draws) : res (vec * list nat) :=
  let c := w_cv w in
  let N := v_N c in
  bind (means_sampler c true d) (fun quads =>
  let qperm := perm ++ map (fun i => N + i)%nat perm in
  let permuted := fun k => quads (nth k qperm O) in
  match w_bs w with
  | None => Err AttributeError
  | Some T => Ok (fold_left (bs_block N T) (macro_starts N) permuted, qperm)
  end).
(* _measure_syndrome, 478-496.  np.empty of invert_permutation is all zeros here (its contents are
   irrelevant: C38_invert_permutation) *)
Definition measure_macro (c : cv) (perm : list nat) (quads : vec) (qperm : list nat) (d : draws) : cv * res unit :=
  let inverse := invert_permutation (repeat O (List.length qperm)) qperm in
  let unpermuted := fun k => quads (nth k inverse O) in
  andthen (measure_hom c Qp (arr (stars perm)) (Some unpermuted) true d (d_z d)) (fun c _ =>
  measure_hom c Qq (arr (planets perm)) (Some unpermuted) true d (d_z2 d)).

(* list(macro_graph[x])[0], 513-515 *)
Definition first_nbr (es : list (point * point * Z)) (x : point) : option point :=
  match find (fun e => peqb (fst (fst e)) x || peqb (snd (fst e)) x) es with
  | Some e => Some (if peqb (fst (fst e)) x then snd (fst e) else fst (fst e))
  | None => None
  end.
(* _neighbor_of_micro_i_macro_j, 498-517, with i counted from 0 *)
Definition neighbor (w : cvm) (perm : list nat) (j i : nat) : res (option (point * nat)) :=
  bind (to_pt (w_cv w) (nth (j + i) perm O)) (fun x =>
  match first_nbr (w_edges w) x with
  | None => Ok None
  | Some y => match a_body (v_attr (w_cv w) y) with Some b => Ok (Some (y, b)) | None => Err KeyError end
  end).
(* _hom_outcomes, 454-476 *)
Definition hom_outcomes (w : cvm) (x : option point) : res (nat -> R) :=
  match x with
  | None => Ok (fun _ => 0%R)
  | Some x =>
      match dget peqb (w_dict w) (centre (w_U w) x) with
      | None => Err KeyError
      | Some l => foldR (fun m y => match a_body (v_attr (w_cv w) y) with
                                    | None => Err KeyError
                                    | Some b => if Nat.eqb b 1 then Ok m
                                                else match a_homq (v_attr (w_cv w) y) with
                                                     | None => Err KeyError
                                                     | Some h => Ok (fun k => if Nat.eqb k b then h else m k)
                                                     end
                                    end) (fun _ => 0%R) l
      end
  end.
(* _process_neighboring_outcomes, 538-555 *)
Definition process (m : nat -> R) (b : option nat) : option R :=
  match b with
  | Some 1%nat => Some 0%R
  | Some 2%nat => Some (m 2%nat - m 4%nat)%R
  | Some 3%nat => Some (m 3%nat - m 4%nat)%R
  | Some 4%nat => Some (m 2%nat + m 3%nat)%R
  | _ => None
  end.
(* one pass of the loop 607-614: (p_err, num_p, outcome, the GKP entries of Z_arr) *)
Section Reduce.
  Variable expf : R -> R.
  Definition z_err (var h : R) : R := match Z_err_cond expf var h 10 (RVal 0) true with ZNum r => r | ZText => 0%R end.
  Definition reduce_step (delta : R) (acc : R * nat * R * list R) (tz : option string * option R) : res (R * nat * R * list R) :=
    let '(perr, nump, outcome, zs) := acc in
    match fst tz with
    | None => Ok acc
    | Some s =>
        if String.eqb s "p" then match snd tz with Some z => Ok (perr, S nump, (outcome - z)%R, zs) | None => Err TypeError end
        else if String.eqb s "GKP" then match snd tz with
                                        | Some z => Ok ((if Rlt_dec 0 delta then perr + z_err (2 * delta) z else perr)%R, nump, outcome, zs ++ [z])
                                        | None => Err TypeError
                                        end
        else Ok acc
    end.
  (* the values computed by _reduce_jth_macronode, 557-625 *)
  Definition reduced_values (w : cvm) (perm : list nat) (j : nat) : res (point * Z * R) :=
    let c := w_cv w in
    let delta := v_delta c in
    bind (to_pt c (nth j perm O)) (fun vertex =>
    bind (mapR (neighbor w perm j) (seq 0 4)) (fun nbs =>
    bind (mapR (fun nb => hom_outcomes w (match nb with Some (y, _) => Some y | None => None end)) nbs) (fun ms =>
    let zarr := map (fun x => process (fst x) (match snd x with Some (_, b) => Some b | None => None end)) (combine ms nbs) in
    match a_homp (v_attr c vertex) with
    | None => Err KeyError
    | Some star_p_val =>
        bind (mapR (fun nb : option (point * nat) => match nb with None => Ok None | Some (y, _) => match a_state (v_attr c y) with Some s => Ok (Some s) | None => Err KeyError end end) nbs) (fun types =>
        bind (foldR (reduce_step delta) (0%R, O, (2 * star_p_val)%R, []) (combine types zarr)) (fun '(perr, nump, outcome, zs) =>
        let perr1 := if Rlt_dec 0 delta then (perr + z_err (2 * (2 + INR nump) * delta) outcome)%R else perr in
        let perr2 := Rmax (Rmin perr1 (1 / 2)) 0 in
        let bit := (fst (GKP_binner outcome) + fold_right Z.add 0 (map (fun z => fst (GKP_binner z)) zs)) mod 2 in
        Ok (centre (w_U w) vertex, bit, perr2)))
    end))).
  Definition reduce_macronode (perm : list nat) (w : cvm) (j : nat) : cvm * res unit :=
    match reduced_values w perm j with
    | Err e => (w, Err e)
    | Ok (v, bit, perr) =>
        if pmem v (w_rnodes w) then (upd_red w v (fun r => {| r_state := r_state r; r_bit := Some bit; r_prob := Some perr |}), Ok tt)
        else (w, Err KeyError)
    end.
  (* apply_noise, 380-406 *)
  Definition apply_noise_macro (w : cvm) (d : draws) : cvm * res unit :=
    andthen (lift_cv w (populate_states (w_cv w) d)) (fun w _ =>
    match permute_star_inds (w_cv w) with
    | Err e => (w, Err e)
    | Ok perm =>
        andthen (apply_labels w perm) (fun w _ =>
        match entangle_states w perm d with
        | Err e => (w, Err e)
        | Ok (quads, qperm) =>
            andthen (lift_cv w (measure_macro (w_cv w) perm quads qperm d)) (fun w _ =>
            for_each (reduce_macronode perm) w (macro_starts (v_N (w_cv w))))
        end)
    end).
  Definition trials_macro (w : cvm) (ds : list draws) : cvm * res unit := for_each apply_noise_macro w ds.
End Reduce.
