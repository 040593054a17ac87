(* TickModel.v: the tick positions and tick labels of the plots of flamingpy/utils/viz.py, over the real numbers (not
   modelled: rounding of floats, the sign of -0.0, nan and inf). *)
From Coq Require Import String.
From Coq Require Export Reals Lra.
From Verif Require Import Base GkpModel SimModel.
Open Scope R_scope.

(* round(x): the nearest integer, the even one of two *)
Definition py_round (x : R) : Z :=
  let f := Int_part x in
  if Rlt_dec (x - IZR f) (1 / 2) then f
  else if Rlt_dec (1 / 2) (x - IZR f) then (f + 1)%Z
  else if Z.even f then f else (f + 1)%Z.
(* math.remainder(x, y), y <> 0 *)
Definition py_remainder (x y : R) : R := x - y * IZR (py_round (x / y)).
(* np.isclose(x, 0), with the default tolerances atol = 1e-8 and rtol * 0 *)
Definition close_to_0 (x : R) : bool := if Rle_dec (Rabs x) (/ 100000000) then true else false.
(* bool * str *)
Definition when (b : bool) (s : string) : string := if b then s else EmptyString.

(* f"{x:.{d}f}", d >= 0: the decimal number with d decimals next to x (of two, the one with the even last digit) *)
Definition fmt_fixed (d : nat) (x : R) : string :=
  let n := Z.abs (py_round (x * IZR (10 ^ Z.of_nat d))) in
  ((if Rlt_dec x 0 then "-" else "") ++ dec (n / 10 ^ Z.of_nat d) ++
   match d with O => "" | S _ => "." ++ digits d (n mod 10 ^ Z.of_nat d) end)%string.

(* to_pi_string, viz.py 1087-1108; int(integer * ((1 - integer % 2) / 2 + integer % 2)) is an exact product *)
Definition to_pi_string (x : R) (tex : bool) (d : nat) : string :=
  let h := sqrt PI / 2 in
  if close_to_0 (py_remainder x h) then
    let i := py_round (x / h) in
    let m := (i mod 2)%Z in
    let pref := Z.quot (i * ((1 - m) + 2 * m)) 2 in
    let nonzero := negb (py_round x =? 0)%Z in
    (when (negb nonzero) "0" ++
     when nonzero (when tex "$" ++ when (1 + pref =? 0)%Z "-" ++ when (negb (1 - Z.abs pref =? 0)%Z) (dec pref) ++
                   "\sqrt{\pi}" ++ when (negb (m =? 0)%Z) "/2" ++ when tex "$"))%string
  else fmt_fixed d x.

(* np.linspace(lo, hi, n): n < 0 is refused *)
Definition linspace (lo hi : R) (n : Z) : res (list R) :=
  if (n <? 0)%Z then Err ValueError
  else Ok (map (fun i => lo + IZR i * ((hi - lo) / IZR (n - 1))) (py_range 0 n)).
(* x // alpha *)
Definition floordiv (x alpha : R) : R := IZR (Int_part (x / alpha)).
(* the ticks of plot_integer_part, plot_fractional_part and plot_GKP_bins, viz.py 67-68, 88-89, 113-114, and of
   plot_Z_err_cond with use_hom_val, 139-146; alpha <> 0.  xs[0] and xs[-1] raise for an empty list. *)
Definition x_ticks (xs : list R) (alpha : R) : res (list R) :=
  match xs with
  | [] => Err IndexError
  | x0 :: _ =>
      let xmin := alpha * floordiv x0 alpha in
      let xmax := alpha * floordiv (last xs x0) alpha + alpha in
      linspace xmin xmax (Int_part (floordiv (xmax - xmin) alpha) + 1)
  end.
(* the y ticks of plot_fractional_part, 90, and the ticks of plot_Z_err_cond without use_hom_val, 141-146 *)
Definition frac_y_ticks (alpha : R) : res (list R) := linspace (- alpha / 2) (alpha / 2) 7.
Definition central_ticks (alpha : R) : res (list R) :=
  linspace (- alpha / 2) (alpha / 2) (Int_part (floordiv (alpha / 2 - - alpha / 2) alpha) + 1).
