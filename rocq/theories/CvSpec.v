(* CvSpec.v: the notions in which C39, C40 and C50 are stated. *)
From Coq Require Import String.
From Verif Require Import Base Lattice GkpModel OpsModel EgraphModel CvModel.
Open Scope Z_scope.

(* the qubit p has index i *)
Definition node_at (c : cv) (i : nat) (p : point) : Prop := dget Nat.eqb (v_pts c) i = Some p.
(* the indices are 0 .. N-1 and name distinct nodes *)
Definition numbered (c : cv) : Prop :=
  (forall i, (exists p, node_at c i p) <-> (i < v_N c)%nat) /\ (forall i j p, node_at c i p -> node_at c j p -> i = j).
(* layer.states.get(s), as a list; empty if absent *)
Definition inds_of (c : cv) (s : string) : list nat := match dget String.eqb (v_states c) s with Some x => x_l x | None => [] end.
(* a layer as constructed: p-squeezed states at given indices in range, a swap-out probability in
   [0, 1] if any *)
Definition fresh_layer (c : cv) : Prop :=
  numbered c /\ (exists x, v_states c = [("p"%string, x)] /\ forall i, In i (x_l x) -> (i < v_N c)%nat) /\
  match v_pswap c with Some x => (0 <= x <= 1)%R | None => True end.
(* what the random generator guarantees *)
Definition draws_ok (N : nat) (d : draws) : Prop :=
  NoDup (d_p d) /\ (forall i, In i (d_p d) -> (i < N)%nat) /\ (forall k, (0 <= d_unif d k < 1)%R) /\ (forall k, d_bit d k = 0 \/ d_bit d k = 1) /\
  (forall l, NoDup l -> Permutation (d_list d l) l).

(* calls of the public methods *)
Inductive call :=
  | CPopulate (d : draws) | CApply (d : draws) | CSyndrome (d : draws) | CDecode
  | CHom (q : quad) (inds : idxs) (means : option vec) (propagate : bool) (d : draws) (z : vec).
(* the draws of a call that assigns states *)
Definition assigns (o : call) : option draws := match o with CPopulate d | CApply d => Some d | _ => None end.
Definition call_ok (N : nat) (o : call) : Prop := match assigns o with Some d => draws_ok N d | None => True end.
Definition run_call (c : cv) (o : call) : cv :=
  fst (match o with
       | CPopulate d => populate_states c d
       | CApply d => apply_noise c d
       | CSyndrome d => measure_syndrome c d
       | CDecode => inner_decoder c
       | CHom q inds m pr d z => measure_hom c q inds m pr d z
       end).
(* a call history, whether or not the calls succeed *)
Definition run_calls (c : cv) (os : list call) : cv := fold_left run_call os c.
(* the p-squeezed states of a trial: the given indices without a swap-out probability, otherwise all
   (probability 1) or the drawn ones *)
Definition trial_p (c : cv) (d : draws) : list nat :=
  match v_pswap c with
  | None => inds_of c "p"
  | Some x => if Req_EM_T x 0 then inds_of c "p" else if Req_EM_T x 1 then seq 0 (v_N c) else d_p d
  end.

(* the standard deviations of position and momentum of qubit i before entangling *)
Definition is_perfect (c : cv) (i : nat) : Prop := match v_perf c with Some l => In i l | None => False end.
Definition std_spec (c : cv) (P G : list nat) (sq sp : nat -> R) : Prop :=
  forall i, (i < v_N c)%nat ->
    (is_perfect c i -> sq i = 0%R /\ sp i = 0%R) /\
    (~ is_perfect c i -> In i P -> sq i = (1 / sqrt (2 * v_delta c))%R /\ sp i = sqrt (v_delta c / 2)) /\
    (~ is_perfect c i -> ~ In i P -> In i G -> sq i = sqrt (v_delta c / 2) /\ sp i = sqrt (v_delta c / 2)) /\
    (~ In i P -> ~ In i G -> sq i = 0%R /\ sp i = 0%R).

(* a layer on a code: the syndrome indices are in range and contain those of the syndrome coordinates *)
Definition code_layer (c : cv) (inds : list nat) (coords : list point) : Prop :=
  v_code c = Some (inds, coords) /\ (forall i, In i inds -> (i < v_N c)%nat) /\
  (forall p, In p coords -> exists i, In i inds /\ node_at c i p).
