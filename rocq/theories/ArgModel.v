(* ArgModel.v: how RHG_graph (flamingpy/codes/surface_code.py 115-245) and SurfaceCode.__init__ (309-371) treat the
   values passed to them. *)
From Coq Require Import String.
From Verif Require Import Base Lattice RhgModel SurfaceModel.
Open Scope Z_scope.

(* Values passed as arguments.  Sequences are flat; their entries are integers (Python or numpy), floats or strings.
   Booleans and objects of other classes are not modelled. *)
Inductive elt := EInt (z : Z) | EFloat | EStr (s : string).
Inductive kind := Tuple | List_ | Array.   (* Array: numpy.ndarray with one dimension *)
Inductive parg :=
  | AInt (z : Z)      (* int *)
  | ANpInt (z : Z)    (* numpy.int64 and the like *)
  | AFloat | ANone
  | AStr (s : string)
  | ASeq (k : kind) (l : list elt).

(* np.size, used at 162 and 320: the number of entries; 1 for everything that is not a sequence *)
Definition np_size (x : parg) : Z := match x with ASeq _ l => Z.of_nat (List.length l) | _ => 1 end.

(* 160-161: isinstance(dims, (int, tuple, list, np.ndarray)); numpy integers are not instances of int *)
Definition dims_type_ok (x : parg) : bool := match x with AInt _ | ASeq _ _ => true | _ => false end.
(* 164, 318: np.issubdtype(type(x), np.integer), true for int and numpy integers *)
Definition is_integer (x : parg) : option Z := match x with AInt z | ANpInt z => Some z | _ => None end.

(* the names that max_dict knows, 172 *)
Definition bnd_of_str (s : string) : option bnd :=
  if String.eqb s "primal" then Some BPrimal else if String.eqb s "dual" then Some BDual else if String.eqb s "periodic" then Some BPeriodic else None.

(* [max_dict[typ] for typ in boundaries], 173: the boundary names, or the exception.  A numpy array made by str_to_bound
   is one of three known names; np.array(None) cannot be iterated (TypeError).  A value that is not a sequence: TypeError. *)
Fixpoint names (l : list elt) : res (list bnd) :=
  match l with
  | [] => Ok []
  | EStr s :: l' => match bnd_of_str s with Some b => bind (names l') (fun bs => Ok (b :: bs)) | None => Err KeyError end
  | _ :: _ => Err KeyError
  end.
(* 167-173: the list of names, and whether boundaries is a numpy array *)
Definition read_bounds (x : parg) : res (list bnd * bool) :=
  match x with
  | AStr s => match str_to_bound s with Some B => Ok ([get AX B; get AY B; get AZ B], true) | None => Err TypeError end
  | ASeq k l => bind (names l) (fun bs => Ok (bs, match k with Array => true | _ => false end))
  | _ => Err TypeError
  end.

(* dims - np.array(..) and range(range_max[i]), 173-174: the integers, or the exception.  dims is here an int expanded at
   165 or a sequence of three.  An array of names of a length other than 1 and 3 cannot be subtracted (ValueError).
   Strings cannot be subtracted (TypeError, numpy's UFuncTypeError, raised before the shapes are compared); floats are no
   arguments for range (TypeError).  Not modelled: exactly one boundary name, which numpy would spread over the axes. *)
Definition has_text (l : list elt) : bool := existsb (fun x => match x with EStr _ => true | _ => false end) l.
Fixpoint ints (l : list elt) : res (list Z) :=
  match l with [] => Ok [] | EInt z :: l' => bind (ints l') (fun zs => Ok (z :: zs)) | _ :: _ => Err TypeError end.

(* RHG_graph, 160-193, up to the loops: the dimensions and the boundaries that the loops use *)
Definition rhg_arguments (dims_ bounds : parg) : res (dims * bnds) :=
  if negb (dims_type_ok dims_) then Err TypeError                                       (* 160-161 *)
  else if match dims_ with ASeq _ l => negb (np_size dims_ =? 3) | _ => false end then Err ValueError   (* 162-163 *)
  else
    let ds := match is_integer dims_, dims_ with Some z, _ => [EInt z; EInt z; EInt z] | None, ASeq _ l => l | None, _ => [] end in   (* 164-165 *)
    bind (read_bounds bounds) (fun '(bs, is_array) =>                                    (* 167-173 *)
    if has_text ds then Err TypeError else
    match bs with
    | [b1; b2; b3] =>
        bind (ints ds) (fun zs =>
        match zs with
        | [d1; d2; d3] =>
            (* 192-193: (boundaries == "dual").nonzero(); the comparison of a list or a tuple with a string is the bool False *)
            if is_array then Ok ((d1, d2, d3), (b1, b2, b3)) else Err AttributeError
        | _ => Err ValueError
        end)
    | _ => Err ValueError                                                                (* shapes (3,) and (n,) *)
    end).

(* RHG_graph(dims, boundaries, polarity); vs enumerates the set of points, as in RhgModel *)
Definition rhg_call (dims_ bounds : parg) (pol : option (point * point -> Z)) (order : list point -> list point) : res egr :=
  bind (rhg_arguments dims_ bounds) (fun '(D, B) => Ok (rhg_graph D B pol (order (six_body_points D B)))).

(* tuple(x), 321, for the values modelled here; a string is a sequence of characters *)
Definition py_tuple (x : parg) : res parg :=
  match x with
  | ASeq _ l => Ok (ASeq Tuple l)
  | AStr s => Ok (ASeq Tuple (map (fun a => EStr (String a EmptyString)) (list_ascii_of_string s)))
  | _ => Err TypeError
  end.
(* the attribute dims of a SurfaceCode, 317-321; Ok None: the attribute is not set; Err: the exception of tuple(..) *)
Definition code_dims (distance : parg) : res (option parg) :=
  match is_integer distance with
  | Some z => Ok (Some (ASeq Tuple [EInt z; EInt z; EInt z]))
  | None => if np_size distance =? 3 then bind (py_tuple distance) (fun t => Ok (Some t)) else Ok None
  end.

(* which of the two names an argument is; anything else is not in the tuple of 326 (numpy arrays are not modelled here) *)
Definition ec_of (x : parg) : option ecx := match x with AStr s => if String.eqb s "primal" then Some EcPrimal else if String.eqb s "dual" then Some EcDual else None | _ => None end.
Definition bd_of (x : parg) : option bdk :=
  match x with AStr s => if String.eqb s "open" then Some BdOpen else if String.eqb s "toric" then Some BdToric else if String.eqb s "periodic" then Some BdPeriodic else None | _ => None end.
Definition backend_ok (x : parg) : bool := match x with AStr s => String.eqb s "networkx" || String.eqb s "rustworkx" | _ => false end.

(* SurfaceCode(distance, ec, boundaries, polarity, backend), 309-371: the parameters of the code that is built *)
Definition surface_call (distance ec bd backend : parg) : res (dims * ecx * bdk) :=
  bind (code_dims distance) (fun dims_ =>                                                (* 317-321 *)
  match ec_of ec, bd_of bd with
  | Some e, Some b =>                                                                    (* 326-331 *)
      match dims_ with
      | None => Err AttributeError                                                       (* 343: self.dims *)
      | Some t =>
          let B := code_bnds e b in
          let name x := EStr match x with BPrimal => "primal" | BDual => "dual" | BPeriodic => "periodic" end in
          bind (rhg_arguments t (ASeq Array [name (get AX B); name (get AY B); name (get AZ B)])) (fun '(D, _) =>   (* 343 *)
          if backend_ok backend then Ok (D, e, b) else Err ValueError)                   (* 364-370 *)
      end
  | _, _ => Err ValueError
  end).
