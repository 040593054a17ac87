(* ExampleModel.v: flamingpy/examples/surface_code.py, illustrate_surface_code. *)
From Coq Require Import String.
From Verif Require Import Base Lattice RhgModel SurfaceModel StabGraphModel MwpmModel SimModel VizModel.
Open Scope Z_scope.

(* The argument d: an integer, or a sequence of three integers. *)
Inductive size_arg := SizeInt (d : Z) | SizeSeq (D : dims).
(* 2 * d - 1, examples/surface_code.py 52: a doubled tuple minus an integer *)
Definition last_index (d : size_arg) : res Z := match d with SizeInt n => Ok (2 * n - 1) | SizeSeq _ => Err TypeError end.
(* planes = ("x", "y", "z") if "periodic" else ("x", "y"), 50: a non-empty string is true *)
Definition example_planes : list axis := if truthy (VStr "periodic"%string) then [AX; AY; AZ] else [AX; AY].
(* all_boundaries, 49-53 *)
Definition all_boundaries (g : egr) (last : Z) : list point :=
  flat_map (fun a => flat_map (fun i => slice_coords g a i) [0; last]) example_planes.
(* RHG_lattice.subgraph(all_boundaries), 54: the nodes of the graph among them, and the edges between them *)
Definition subgraph (g : egr) (l : list point) : list point * list (point * point) :=
  (filter (fun p => pmem p l) (node_list g), filter (fun e => pmem (fst e) l && pmem (snd e) l) (map fst (gedges g))).
(* x, z, y = point; RHG_ax.scatter(x, z, y), 70-71: the position on the three axes of the picture *)
Definition mark (p : point) : point := let '(x, z, y) := p in (x, z, y).
(* stabilizers[ind] for an integer, 67: negative indices count from the end *)
Definition pick_stab (stabs : list (list point)) (i : Z) : res (list point) :=
  let n := Z.of_nat (List.length stabs) in
  if (0 <=? i) && (i <? n) then Ok (nth (Z.to_nat i) stabs [])
  else if (- n <=? i) && (i <? 0) then Ok (nth (Z.to_nat (i + n)) stabs [])
  else Err IndexError.

Record example_pictures := {
  ep_border : option (list point * list (point * point));   (* nodes and edges of the second picture, 48-55 *)
  ep_marks : list (list point)                               (* positions of the points drawn for each chosen stabilizer, 58-71 *)
}.
(* illustrate_surface_code, 29-76, after SurfaceCode(d, ec=err, boundaries=boundaries, polarity=polarity) has given c and
   c.draw() has drawn the first picture (VizModel.draw_matplotlib, C64_code); colours of the marks are random.  One error
   complex, so the loop over RHG_code.ec has one round. *)
Definition illustrate (d : size_arg) (b : bdk) (c : scode) (inds : option (list Z)) : res example_pictures :=
  bind (match b with
        | BdOpen => Ok None
        | _ => bind (last_index d) (fun last => Ok (Some (subgraph (sc_graph c) (all_boundaries (sc_graph c) last))))
        end) (fun border =>
  bind (mapM (pick_stab (sc_stabs c)) (match inds with Some l => l | None => map Z.of_nat (seq 0 (List.length (sc_stabs c))) end)) (fun sts =>
  Ok {| ep_border := border; ep_marks := map (map mark) sts |})).
