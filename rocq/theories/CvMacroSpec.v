(* CvMacroSpec.v: the notions in which C41, C47, C51 and C52 are stated. *)
From Coq Require Import String.
From Verif Require Import Base Lattice GkpModel OpsModel EgraphModel CvModel CvSpec CvMacroModel CvMacroLists.
Open Scope nat_scope.

(* A macronode layer on the vertices V: micronodes 4k .. 4k+3 belong to vertex k.  mic i is the
   micronode with index i, nbi i the index of its neighbour, if it has one, and wt i the weight of the
   edge between them. *)
Record layout (w : cvm) (V : list point) (mic : nat -> point) (nbi : nat -> option nat) (wt : nat -> R) : Prop := {
  ly_pos : 0 < List.length V;
  ly_N : v_N (w_cv w) = 4 * List.length V;
  ly_num : numbered (w_cv w);
  ly_mic : forall i, i < 4 * List.length V -> node_at (w_cv w) i (mic i);
  ly_V : NoDup V;
  ly_red : forall v, In v V -> In v (w_rnodes w);
  ly_centre : forall k j, k < List.length V -> j < 4 -> centre (w_U w) (mic (4 * k + j)) = nth k V (0, 0, 0)%Z;
  ly_dict : forall k, k < List.length V -> dget peqb (w_dict w) (nth k V (0, 0, 0)%Z) = Some [mic (4 * k); mic (4 * k + 1); mic (4 * k + 2); mic (4 * k + 3)];
  ly_nbr : forall i, i < 4 * List.length V -> first_nbr (w_edges w) (mic i) = option_map mic (nbi i);
  ly_nbi : forall i i', i < 4 * List.length V -> nbi i = Some i' -> i' < 4 * List.length V;
  ly_adj : forall i i', i < 4 * List.length V -> i' < 4 * List.length V -> v_adj (w_cv w) i i' = match nbi i with Some i1 => if Nat.eqb i1 i' then wt i else 0%R | None => 0%R end;
  ly_order : v_order (w_cv w) = "two-step"%string;
  ly_bs : w_bs w = Some bs_network
}.

(* the place of micronode i in its macronode, the star being at place 0 *)
Definition place (P : list nat) (i : nat) : nat := first_pos i (blk P (i / 4)).
(* The processed outcomes: P are the indices of the p-squeezed micronodes, hp k the momentum outcome of
   the star of macronode k, hq k a the position outcome of its planet at place a = 1, 2, 3. *)
Section Values.
  Variables (P : list nat) (nbi : nat -> option nat) (hp : nat -> R) (hq : nat -> nat -> R).
  (* what the macronode of micronode i tells about the position of i relative to the star *)
  Definition zval (i : nat) : R :=
    match place P i with
    | 1 => hq (i / 4) 1 - hq (i / 4) 3
    | 2 => hq (i / 4) 2 - hq (i / 4) 3
    | 3 => hq (i / 4) 1 + hq (i / 4) 2
    | _ => 0
    end%R.
  Definition pz (k a : nat) : R := match nbi (pi P k a) with Some y => if memn y P then zval y else 0%R | None => 0%R end.
  Definition gbit (k a : nat) : Z := match nbi (pi P k a) with Some y => if memn y P then 0%Z else fst (GKP_binner (zval y)) | None => 0%Z end.
  Definition outcome (k : nat) : R := (2 * hp k - pz k 0 - pz k 1 - pz k 2 - pz k 3)%R.
  (* the error probability: peaks of variance var at the multiples n sqrt(pi), -10 <= n < 10; h was measured; the peaks of the wrong
     bit are those numbered 2 n + 1 - bit *)
  Definition wrong_bit (expf : R -> R) (var h : R) : R :=
    let weight n := expf (- (h - IZR n * sqrt PI) ^ 2 / var)%R in
    let all := sumR (map weight (py_range (-10) 10)) in
    let wrong := sumR (map (fun n => weight (2 * n + (1 - fst (GKP_binner h)))%Z) (py_range (-10) 10)) in
    if Req_EM_T all 0 then 0%R else (wrong / all)%R.
  (* of one GKP neighbour, the number of p-squeezed neighbours *)
  Definition perr_at (expf : R -> R) (delta : R) (k a : nat) : R := match nbi (pi P k a) with Some y => if memn y P then 0%R else wrong_bit expf (2 * delta) (zval y) | None => 0%R end.
  Definition np_at (k a : nat) : nat := match nbi (pi P k a) with Some y => if memn y P then 1 else 0 | None => 0 end.
  Definition red_prob (expf : R -> R) (delta : R) (k : nat) : R :=
    if Rlt_dec 0 delta
    then Rmax (Rmin (perr_at expf delta k 0 + perr_at expf delta k 1 + perr_at expf delta k 2 + perr_at expf delta k 3 +
                     wrong_bit expf (2 * (2 + INR (np_at k 0 + np_at k 1 + np_at k 2 + np_at k 3)) * delta) (outcome k)) (1 / 2)) 0
    else 0%R.
  Definition red_bit (k : nat) : Z := ((fst (GKP_binner (outcome k)) + (gbit k 0 + gbit k 1 + gbit k 2 + gbit k 3)) mod 2)%Z.
End Values.

(* the measurement noise *)
Definition sigma (c : cv) (i : nat) : R := match v_perf c with Some l => if memn i l then 0%R else sqrt (v_delta c / 2) | None => sqrt (v_delta c / 2) end.
Definition nu (c : cv) (P : list nat) (d : draws) (k a : nat) : R := (sigma c (pi P k a) * (if Nat.eqb a 0 then d_z d k else d_z2 d (3 * k + (a - 1))))%R.
(* the outcomes, given the positions q of the micronodes before entangling *)
Section Outcomes.
  Variables (c : cv) (P : list nat) (nbi : nat -> option nat) (wt q : nat -> R) (d : draws).
  Definition kick (i : nat) : R := match nbi i with Some y => (wt i * q y)%R | None => 0%R end.
  Definition hp_of (k : nat) : R := ((kick (pi P k 0) + kick (pi P k 1) + kick (pi P k 2) + kick (pi P k 3)) / 2 + nu c P d k 0)%R.
  Definition hq_of (k a : nat) : R :=
    (match a with
     | 1 => - q (pi P k 0) + q (pi P k 1) - q (pi P k 2) + q (pi P k 3)
     | 2 => - q (pi P k 0) - q (pi P k 1) + q (pi P k 2) + q (pi P k 3)
     | _ => q (pi P k 0) - q (pi P k 1) - q (pi P k 2) + q (pi P k 3)
     end / 2 + nu c P d k a)%R.
End Outcomes.
(* the positions: 0 or sqrt(pi) for GKP states, a draw from [0, 2 sqrt(pi)) for p-squeezed states *)
Definition positions_ok (n : nat) (P : list nat) (d : draws) (q : nat -> R) : Prop :=
  (forall i, i < n -> ~ In i P -> exists b, (b = 0%Z \/ exists k, b = d_bit d k) /\ q i = (IZR b * sqrt PI)%R) /\
  (forall i, In i P -> exists k, nth_error P k = Some i /\ q i = (d_unif d k * (2 * sqrt PI))%R).

(* the noise in what a macronode tells about the position of its micronode i *)
Section Noise.
  Variables (c : cv) (P : list nat) (nbi : nat -> option nat) (d : draws).
  Definition znoise (i : nat) : R :=
    match place P i with
    | 1 => nu c P d (i / 4) 1 - nu c P d (i / 4) 3
    | 2 => nu c P d (i / 4) 2 - nu c P d (i / 4) 3
    | 3 => nu c P d (i / 4) 1 + nu c P d (i / 4) 2
    | _ => 0
    end%R.
  Definition pnoise (k a : nat) : R := match nbi (pi P k a) with Some y => if memn y P then znoise y else 0%R | None => 0%R end.
  Definition gnoise (k a : nat) : Z := match nbi (pi P k a) with Some y => if memn y P then 0%Z else fst (GKP_binner (znoise y)) | None => 0%Z end.
  (* the error bit of macronode k: it is a function of the locations of p-squeezed states and the noise *)
  Definition noise_bit (k : nat) : Z :=
    (fst (GKP_binner (2 * nu c P d k 0 - pnoise k 0 - pnoise k 1 - pnoise k 2 - pnoise k 3)) + (gnoise k 0 + gnoise k 1 + gnoise k 2 + gnoise k 3))%Z.
End Noise.
