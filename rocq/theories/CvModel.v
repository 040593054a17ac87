(* CvModel.v: model of flamingpy/noise/cv.py, class CVLayer (26-349).
   Real numbers instead of floats.  An index array is a list of natural numbers (negative indices are
   not modelled) with a flag telling whether it is a numpy array or a Python list.  Node attributes are
   a function from points to attribute records.  The random generator is a record of the values it
   returns during one call of apply_noise; rng.normal(m, s) is m + s * z for a standard normal value z.
   Methods return the object after the call together with the result or the exception.
   delta < 0, float32 rounding and drawing are not modelled; the getters are in GetterModel.v. *)
From Coq Require Import String.
From Verif Require Import Base Lattice GkpModel OpsModel EgraphModel.
Open Scope Z_scope.

(* an index array or an index list *)
Record idxs := { x_arr : bool; x_l : list nat }.
Definition arr (l : list nat) : idxs := {| x_arr := true; x_l := l |}.
Definition memn (x : nat) (l : list nat) : bool := existsb (Nat.eqb x) l.

(* what the random generator returns during one call of apply_noise *)
Record draws := {
  d_p : list nat;            (* rng.choice(range(N), size=rng.binomial(N, p_swap), replace=False), cv.py 319-321 *)
  d_unif : nat -> R;         (* rng.random(size=n), 333: the k-th value *)
  d_bit : nat -> Z;          (* rng.integers(0, 2, size=n), 336 *)
  d_z : nat -> R;            (* standard normal values of the (first) measure_hom, 205 *)
  d_z2 : nat -> R;           (* ... of the second measure_hom of CVMacroLayer *)
  d_list : list nat -> list nat   (* not the generator: the order in which list() lists a set, 311 *)
}.

(* node attributes: state, hom_val_p, hom_val_q, bit_val, body_index *)
Record attrs := { a_state : option string; a_homp : option R; a_homq : option R; a_bit : option Z; a_body : option nat }.
Definition no_attrs : attrs := {| a_state := None; a_homp := None; a_homq := None; a_bit := None; a_body := None |}.
Definition with_state (s : string) (a : attrs) : attrs := {| a_state := Some s; a_homp := a_homp a; a_homq := a_homq a; a_bit := a_bit a; a_body := a_body a |}.
Definition with_homp (x : R) (a : attrs) : attrs := {| a_state := a_state a; a_homp := Some x; a_homq := a_homq a; a_bit := a_bit a; a_body := a_body a |}.
Definition with_homq (x : R) (a : attrs) : attrs := {| a_state := a_state a; a_homp := a_homp a; a_homq := Some x; a_bit := a_bit a; a_body := a_body a |}.
Definition with_bit (b : Z) (a : attrs) : attrs := {| a_state := a_state a; a_homp := a_homp a; a_homq := a_homq a; a_bit := Some b; a_body := a_body a |}.
Definition with_body (b : nat) (a : attrs) : attrs := {| a_state := a_state a; a_homp := a_homp a; a_homq := a_homq a; a_bit := a_bit a; a_body := Some b |}.

(* a CVLayer object; the fields after v_states are written by its methods *)
Record cv := {
  v_N : nat;                                   (* self._N *)
  v_pts : list (nat * point);                  (* self._to_points *)
  v_adj : mat;                                 (* self._adj *)
  v_perf : option (list nat);                  (* self._perfect_inds *)
  v_delta : R;
  v_pswap : option R;
  v_order : string;                            (* self._sampling_order *)
  v_trans : R -> Z;                            (* self._translator, applied to one value *)
  v_code : option (list nat * list point);     (* self.code.all_syndrome_inds and .all_syndrome_coords; None without self.code *)
  v_states : list (string * idxs);             (* self.states *)
  v_attr : point -> attrs                      (* self.egraph.nodes[p] *)
}.
Definition set_states (c : cv) (s : list (string * idxs)) : cv :=
  {| v_N := v_N c; v_pts := v_pts c; v_adj := v_adj c; v_perf := v_perf c; v_delta := v_delta c; v_pswap := v_pswap c; v_order := v_order c;
     v_trans := v_trans c; v_code := v_code c; v_states := s; v_attr := v_attr c |}.
Definition set_attr (c : cv) (a : point -> attrs) : cv :=
  {| v_N := v_N c; v_pts := v_pts c; v_adj := v_adj c; v_perf := v_perf c; v_delta := v_delta c; v_pswap := v_pswap c; v_order := v_order c;
     v_trans := v_trans c; v_code := v_code c; v_states := v_states c; v_attr := a |}.
(* self.egraph.nodes[p][...] = ... *)
Definition upd_attr (c : cv) (p : point) (f : attrs -> attrs) : cv :=
  set_attr c (fun q => if peqb q p then f (v_attr c q) else v_attr c q).
(* self._to_points[i] *)
Definition to_pt (c : cv) (i : nat) : res point := match dget Nat.eqb (v_pts c) i with Some p => Ok p | None => Err KeyError end.

(* for x in l: f(x), stopping at an exception *)
Fixpoint for_each {A S} (f : S -> A -> S * res unit) (c : S) (l : list A) : S * res unit :=
  match l with [] => (c, Ok tt) | x :: l' => match f c x with (c', Ok _) => for_each f c' l' | (c', Err e) => (c', Err e) end end.
(* one call after another *)
Definition andthen {S A B} (x : S * res A) (f : S -> A -> S * res B) : S * res B :=
  match x with (c, Ok a) => f c a | (c, Err e) => (c, Err e) end.

(* CVLayer.__init__, 70-105.  g is the EGraph, perf its graph["perfect_points"], code is given when
   a code was passed, states and p_swap are the keyword arguments *)
Definition rows_mat (rows : list (list Z)) : mat := fun i j => IZR (nth j (nth i rows []) 0).
Definition cv_init (g : eg) (a0 : point -> attrs) (perf : option (list point)) (code : option (list nat * list point)) (delta : R)
    (states : option (list (string * idxs))) (p_swap : option R) (order : option string) (trans : option (R -> Z)) : eg * res cv :=
  let '(g1, r) := adj_generator g true in
  (g1, bind r (fun rows =>
       bind (match perf with
             | None => Ok None
             | Some ps => bind (mapR (fun p => match e_idx g1 with
                                               | Some d => match dget peqb d p with Some i => Ok i | None => Err KeyError end
                                               | None => Err TypeError end) ps) (fun l => Ok (Some l))
             end) (fun pinds =>
       let c := {| v_N := List.length (e_nodes g1); v_pts := match e_pts g1 with Some d => d | None => [] end; v_adj := rows_mat rows; v_perf := pinds;
                   v_delta := delta; v_pswap := p_swap;
                   v_order := match order with Some ((String _ _) as s) => s | _ => "initial"%string end;
                   v_trans := match trans with Some f => f | None => fun x => fst (GKP_binner x) end;
                   v_code := code;
                   v_states := match states with Some ((_ :: _) as s) => s | _ => [("p"%string, arr [])] end;
                   v_attr := a0 |} in
       match p_swap, states with
       | Some _, Some s => match dget String.eqb s "p"%string with
                           | None => Err KeyError
                           | Some x => if Nat.eqb (List.length (x_l x)) 0 then Ok c else Err PlainException
                           end
       | _, _ => Ok c
       end))).

(* _generate_squeezed_indices, 314-321, and the test of 133 *)
Definition squeezed (c : cv) (d : draws) : res (list (string * idxs)) :=
  match v_pswap c with
  | None => Ok (v_states c)
  | Some x =>
      if Req_EM_T x 0 then Ok (v_states c)
      else if Req_EM_T x 1 then Ok (dset String.eqb (v_states c) "p"%string (arr (seq 0 (v_N c))))
      else if Rlt_dec x 0 then Err ValueError                  (* rng.binomial *)
      else if Rlt_dec 1 x then Err ValueError
      else Ok (dset String.eqb (v_states c) "p"%string (arr (d_p d)))
  end.
(* _generate_gkp_indices, 306-312: set(range(N)) - set(used_inds), listed in some order *)
Definition used_inds (s : list (string * idxs)) : list nat := flat_map (fun e => x_l (snd e)) s.
Definition remaining (N : nat) (s : list (string * idxs)) : list nat := filter (fun i => negb (memn i (used_inds s))) (seq 0 N).
Definition add_gkp (N : nat) (d : draws) (s : list (string * idxs)) : list (string * idxs) :=
  dset String.eqb s "GKP"%string (arr (d_list d (remaining N s))).
(* _apply_state_labels, 271-275 *)
Definition label_one (psi : string) (c : cv) (i : nat) : cv * res unit :=
  match to_pt c i with Err e => (c, Err e) | Ok p => (upd_attr c p (with_state psi), Ok tt) end.
Definition apply_state_labels (c : cv) : cv * res unit := for_each (fun c e => for_each (label_one (fst e)) c (x_l (snd e))) c (v_states c).
(* populate_states, 121-140 *)
Definition populate_states (c : cv) (d : draws) : cv * res unit :=
  match squeezed c d with
  | Err e => (c, Err e)
  | Ok s => apply_state_labels (set_states c (add_gkp (v_N c) d s))
  end.

(* noise_q and noise_p, 282-283 *)
Definition noise (delta : R) (s : string) : option (R * R) :=
  if String.eqb s "p" then Some (1 / sqrt (2 * delta), sqrt (delta / 2))%R
  else if String.eqb s "GKP" then Some (sqrt (delta / 2), sqrt (delta / 2))%R
  else None.
(* x[l] = v *)
Definition assign (x : vec) (l : list nat) (v : R) : vec := fun i => if memn i l then v else x i.
(* 284-289 *)
Definition cov_step (c : cv) (covs : vec) (e : string * idxs) : res vec :=
  let indices := match v_perf c with
                 | Some ((_ :: _) as pf) => arr (filter (fun i => negb (memn i pf)) (x_l (snd e)))
                 | _ => snd e
                 end in
  if Nat.eqb (List.length (x_l indices)) 0 then Ok covs
  else match noise (v_delta c) (fst e) with
       | None => Err KeyError
       | Some (nq, np) =>
           if existsb (fun i => Nat.leb (2 * v_N c) i) (x_l indices) then Err IndexError
           else if negb (x_arr indices) then Err TypeError                      (* list + int *)
           else if existsb (fun i => Nat.leb (v_N c) i) (x_l indices) then Err IndexError
           else Ok (assign (assign covs (x_l indices) nq) (map (fun i => i + v_N c)%nat (x_l indices)) np)
       end.
Fixpoint foldR {A S} (f : S -> A -> res S) (s : S) (l : list A) : res S :=
  match l with [] => Ok s | x :: l' => bind (f s x) (fun s' => foldR f s' l') end.
(* _covs_sampler, 277-304: the array and its length *)
Fixpoint first_pos (i : nat) (l : list nat) : nat := match l with [] => O | x :: l' => if Nat.eqb x i then O else S (first_pos i l') end.
Definition covs_sampler (c : cv) (inds : idxs) : res (nat * vec) :=
  if String.eqb (v_order c) "initial" then
    if Req_EM_T (v_delta c) 0 then Err ZeroDivisionError                        (* 1 / (2 * delta) ** 0.5 *)
    else bind (foldR (cov_step c) (fun _ => 0%R) (v_states c)) (fun v => Ok ((2 * v_N c)%nat, v))
  else if String.eqb (v_order c) "two-step" then
    let covs := fun _ : nat => sqrt (v_delta c / 2) in
    match v_perf c with
    | Some ((_ :: _) as pf) =>
        let inds_to_0 := filter (fun i => memn i pf) (x_l inds) in
        if negb (x_arr inds) && negb (Nat.eqb (List.length inds_to_0) 0) then Err AttributeError       (* bool.nonzero *)
        else Ok (List.length (x_l inds), assign covs (map (fun i => first_pos i (x_l inds)) inds_to_0) 0%R)
    | _ => Ok (List.length (x_l inds), covs)
    end
  else Ok ((2 * v_N c)%nat, fun _ => 0%R).

(* _means_sampler, 323-349; indices out of range are excluded by the labels *)
Definition assign_seq (x : vec) (l : list nat) (vals : nat -> R) : vec :=
  fold_left (fun x kv => fun i => if Nat.eqb i (snd kv) then vals (fst kv) else x i) (combine (seq 0 (List.length l)) l) x.
Definition mean_vals (d : draws) (s : string) : option (nat -> R) :=
  if String.eqb s "p" then Some (fun k => d_unif d k * (2 * sqrt PI))%R
  else if String.eqb s "GKP" then Some (fun k => IZR (d_bit d k) * sqrt PI)%R
  else None.
Definition means_sampler (c : cv) (propagate : bool) (d : draws) : res vec :=
  if String.eqb (v_order c) "two-step" then
    bind (foldR (fun m e => if Nat.eqb (List.length (x_l (snd e))) 0 then Ok m
                            else match mean_vals d (fst e) with None => Err KeyError | Some f => Ok (assign_seq m (x_l (snd e)) f) end)
            (fun _ => 0%R) (v_states c)) (fun m =>
    Ok (if propagate then SCZ_apply_vec (v_N c) (v_adj c) m true else m))
  else Ok (fun _ => 0%R).

(* rng.normal(means, covs) of arrays of lengths n and k: numpy broadcasting *)
Definition normal (n k : nat) (means covs z : vec) : res (nat * vec) :=
  if Nat.eqb n k then Ok (n, fun i => means i + covs i * z i)%R
  else if Nat.eqb n 1 then Ok (k, fun i => means O + covs i * z i)%R
  else if Nat.eqb k 1 then Ok (n, fun i => means i + covs O * z i)%R
  else Err ValueError.

Inductive quad := Qq | Qp.
Definition with_hom (q : quad) : R -> attrs -> attrs := match q with Qq => with_homq | Qp => with_homp end.
(* 216-217 *)
Definition record_hom (q : quad) (inds : list nat) (k : nat) (outcomes : vec) (c : cv) : cv * res unit :=
  for_each (fun c e => match to_pt c (snd e) with
                       | Err e => (c, Err e)
                       | Ok p => if Nat.leb k (fst e) then (c, Err IndexError) else (upd_attr c p (with_hom q (outcomes (fst e))), Ok tt)
                       end) c (combine (seq 0 (List.length inds)) inds).
(* x[:N][inds] or x[N:][inds] *)
Definition part (q : quad) (N : nat) (x : vec) (inds : list nat) : vec :=
  fun k => x (match q with Qq => nth k inds O | Qp => (N + nth k inds O)%nat end).
(* measure_hom, 161-217; updated_covs is never given *)
Definition measure_hom (c : cv) (q : quad) (inds : idxs) (updated_means : option vec) (propagate : bool) (d : draws) (z : vec) : cv * res unit :=
  let N := v_N c in
  let n_inds := List.length (x_l inds) in
  match bind (match updated_means with
              | None => bind (means_sampler c propagate d) (fun m => Ok ((2 * N)%nat, m))
              | Some m => if existsb (fun i => Nat.leb N i) (x_l inds) then Err IndexError else Ok (n_inds, part q N m (x_l inds))
              end) (fun means =>
        bind (covs_sampler c inds) (fun covs =>
        bind (normal (fst means) (fst covs) (snd means) (snd covs) z) (fun out =>
        if String.eqb (v_order c) "initial" then
          if existsb (fun i => Nat.leb N i) (x_l inds) then Err IndexError
          else Ok (n_inds, part q N (SCZ_apply_vec N (v_adj c) (snd out) true) (x_l inds))
        else Ok out))) with
  | Err e => (c, Err e)
  | Ok out => record_hom q (x_l inds) (fst out) (snd out) c
  end.

(* measure_syndrome, 142-145 *)
Definition measure_syndrome (c : cv) (d : draws) : cv * res unit :=
  match v_code c with
  | None => (c, Err AttributeError)
  | Some (inds, _) => measure_hom c Qp {| x_arr := false; x_l := inds |} None true d (d_z d)
  end.
(* inner_decoder, 147-158 *)
Definition inner_decoder (c : cv) : cv * res unit :=
  match v_code c with
  | None => (c, Err AttributeError)
  | Some (_, coords) =>
      for_each (fun c p => match a_homp (v_attr c p) with
                           | None => (c, Err KeyError)
                           | Some x => (upd_attr c p (with_bit (v_trans c x)), Ok tt)
                           end) c coords
  end.
(* apply_noise, 108-119 *)
Definition apply_noise (c : cv) (d : draws) : cv * res unit :=
  andthen (populate_states c d) (fun c _ => andthen (measure_syndrome c d) (fun c _ => inner_decoder c)).
(* successive calls on one object *)
Definition trials (c : cv) (ds : list draws) : cv * res unit := for_each apply_noise c ds.
