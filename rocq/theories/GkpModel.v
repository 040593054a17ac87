(* GkpModel.v: model of flamingpy/cv/gkp.py over the real numbers.  Not modelled: rounding of
   floats.  The functions exp and erf are parameters (expf, erff), so that theorems can allow
   for implementations that differ from the exact functions (for instance an exp that
   underflows to 0). *)
From Coq Require Export Reals Lra.
From Verif Require Import Base.
Open Scope R_scope.

(* np.divmod(x, alpha) for alpha <> 0 *)
Definition divmod (x alpha : R) : Z * R := let q := Int_part (x / alpha) in (q, x - IZR q * alpha).

(* np.greater(..).astype(int) *)
Definition gt_int (x y : R) : Z := if Rlt_dec y x then 1%Z else 0%Z.

(* integer_fractional, gkp.py 19-34 *)
Definition integer_fractional (x alpha : R) : Z * R :=
  let int_frac := divmod x alpha in
  let large_frac := gt_int (snd int_frac) (alpha / 2) in
  let f := snd int_frac - alpha * IZR large_frac in
  let n := (fst int_frac + large_frac)%Z in
  (n, f).

(* GKP_binner with return_fraction=True, gkp.py 37-63 *)
Definition GKP_binner (x : R) : Z * R :=
  let int_frac := integer_fractional x (sqrt PI) in
  ((fst int_frac mod 2)%Z, snd int_frac).

Definition sumR (l : list R) : R := fold_right Rplus 0 l.

(* python range(lo, hi, step) for step > 0 *)
Definition range_step (lo hi step : Z) : list Z :=
  map (fun k => (lo + step * k)%Z) (py_range 0 ((hi - lo + step - 1) / step)).

Section ZErr.
  Variable erff : R -> R.
  (* np.ceil *)
  Definition ceilR (x : R) : Z := (- Int_part (- x))%Z.
  (* np.amax, of a non-empty array *)
  Fixpoint amax (v : R) (l : list R) : R := match l with [] => v | w :: l' => Rmax v (amax w l') end.
  (* the summation range, gkp.py 77-80 *)
  Definition n_max (var_num vmax : R) : Z := (ceilR (var_num * vmax) / 2 * 4 + 1)%Z.
  (* one entry of the error array, gkp.py 83-90 *)
  Definition Z_err_entry (nm : Z) (var : R) : R :=
    fold_left (fun e i => e - 0.5 * (erff (IZR (i + 2) * sqrt PI / (2 * var)) - erff (IZR i * sqrt PI / (2 * var))))
      (range_step (- nm) nm 4) 1.
  (* Z_err, gkp.py 66-91 *)
  Definition Z_err (vars : list R) (var_num : R) : res (list R) :=
    match vars with
    | [] => Err ValueError
    | v :: l => Ok (map (Z_err_entry (n_max var_num (amax v l))) vars)
    end.
End ZErr.

(* replace_undefined: a number or the string 'bin_location' *)
Inductive repl := RVal (r : R) | RBin.
(* what the scalar branch returns: a number, or replace_undefined itself *)
Inductive zout := ZNum (r : R) | ZText.

Section ZErrCond.
  Variable expf : R -> R.
  (* ex_val / ex, gkp.py 126-127 and 139-140 *)
  Definition ex_val (val var : R) (n : Z) : R := expf (- (val - IZR n * sqrt PI) ^ 2 / var).
  (* gkp.py 129-130 and 142-143 *)
  Definition zc_num (nmax factor : Z) (val var : R) : R :=
    sumR (map (fun n => ex_val val var (2 * n + factor)) (py_range (- nmax) nmax)).
  Definition zc_den (nmax : Z) (val var : R) : R := sumR (map (ex_val val var) (py_range (- nmax) nmax)).
  (* gkp.py 120-122 *)
  Definition zc_factor (use_hom_val : bool) (hom_val : R) : Z :=
    if use_hom_val then (1 - fst (GKP_binner hom_val))%Z else 1%Z.
  Definition zc_val (use_hom_val : bool) (hom_val : R) : R := if use_hom_val then hom_val else snd (GKP_binner hom_val).

  (* Z_err_cond on scalars, gkp.py 124-134 *)
  Definition Z_err_cond (var hom_val : R) (var_num : Z) (replace : repl) (use_hom_val : bool) : zout :=
    let val := zc_val use_hom_val hom_val in
    let denominator := zc_den var_num val var in
    if Req_EM_T denominator 0
    then match replace with RVal r => ZNum r | RBin => ZText end
    else ZNum (zc_num var_num (zc_factor use_hom_val hom_val) val var / denominator).

  (* Z_err_cond on two arrays of the same length (a list of pairs), gkp.py 135-161.
     np.full(k, a) of an array a of length n raises ValueError unless n = k or n = 1.  An array of length 1 is
     returned by the program as a number. *)
  Definition Z_err_cond_array (vh : list (R * R)) (var_num : Z) (replace : repl) (use_hom_val : bool) : res (list R) :=
    let num x := zc_num var_num (zc_factor use_hom_val (snd x)) (zc_val use_hom_val (snd x)) (fst x) in
    let den x := zc_den var_num (zc_val use_hom_val (snd x)) (fst x) in
    let where_0 := filter (fun x => if Req_EM_T (den x) 0 then true else false) vh in
    match replace with
    | RVal r => Ok (map (fun x => if Req_EM_T (den x) 0 then r else num x / den x) vh)
    | RBin =>
        if (length where_0 =? 0)%nat || (length where_0 =? length vh)%nat || (length vh =? 1)%nat
        then Ok (map (fun x => if Req_EM_T (den x) 0 then Rabs (zc_val use_hom_val (snd x)) / sqrt PI else num x / den x) vh)
        else Err ValueError
    end.
End ZErrCond.
