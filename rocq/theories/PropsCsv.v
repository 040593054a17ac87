(* PropsCsv.v: C44, the result file of run_ec_simulation, and C53, decoder names on the command line. *)
From Coq Require Import String Ascii DecimalString.
From Verif Require Import Base SimModel SimSpec SimCsv.
Open Scope Z_scope.

(* run_ec_simulation (at rank 0) when the code, the noise and the Monte Carlo run are without error *)
Definition run_sim (f : files) (fname : option string) (x : sim) : option (files * res unit) :=
  run_ec_simulation f fname (s_code x) (s_code_args x) (s_noise x) (s_noise_args x) (s_dec x) (s_dec_args x) (s_trials x) (s_clock x) (s_us x) (s_size x) (Ok tt) (Some (Ok (s_errors x))).

(* the columns of the header and of the row *)
Definition head_fields (x : sim) : list string :=
  ("code" :: map fst (s_code_args x) ++ "noise" :: map fst (s_noise_args x) ++ "decoder" :: map fst (s_dec_args x) ++
   ["errors"; "trials"; "current_time"; "simulation_time"; "mpi_size"])%string%list.
Definition row_fields (x : sim) : list string :=
  (s_code x :: map (fun kv => py_str (snd kv)) (s_code_args x) ++ s_noise x :: map (fun kv => py_str (snd kv)) (s_noise_args x) ++
   s_dec x :: map (fun kv => py_str (snd kv)) (s_dec_args x) ++
   [dec (s_errors x); dec (s_trials x); fmt_time (s_clock x); fmt_f (s_us x); dec (s_size x)])%list.

Lemma lookup_some k v d : In (k, v) d -> lookup k d <> None.
Proof.
  intros H. unfold lookup. destruct (find (fun kv => String.eqb (fst kv) k) d) eqn:E; [discriminate|].
  exfalso. apply (find_none _ _ E) in H. cbn [fst] in H. rewrite String.eqb_refl in H. discriminate.
Qed.

(* the file of the results: the argument fname, or the default file if it is missing or empty *)
Definition file_name (fname : option string) (name : string) : Prop :=
  fname = Some name /\ name <> ""%string \/ (fname = None \/ fname = Some ""%string) /\ name = "./flamingpy/.sims_data/sims_results.csv"%string.
Lemma file_name_ok fname name : file_name fname name <-> result_file fname = name.
Proof.
  unfold file_name. destruct fname as [[|a s]|]; cbn [result_file]; split.
  - intros [[E H]|[_ ->]]; [injection E as <-; congruence|reflexivity].
  - intros <-. right. auto.
  - intros [[E _]|[[E|E] _]]; [injection E as <-; reflexivity|discriminate E|discriminate E].
  - intros <-. left. split; [reflexivity|discriminate].
  - intros [[E _]|[_ ->]]; [discriminate E|reflexivity].
  - intros <-. right. auto.
Qed.

(* C44, restricted to printable arguments: the file gets exactly one line, preceded by the header if it did not exist.
   The fields of that line are the values, in the order of the columns of the header. *)
Theorem C44_one_row_partial : forall f fname x name, tame_sim x -> file_name fname name ->
  exists f' head row,
    run_sim f fname x = Some (f', Ok tt) /\
    f' name = Some (match f name with Some t => t | None => head ++ nl end ++ row ++ nl)%string /\
    (forall n, n <> name -> f' n = f n) /\
    has newline head = false /\ has newline row = false /\
    fields head = head_fields x /\ fields row = row_fields x /\
    List.length (fields head) = columns x /\ List.length (fields row) = columns x.
Proof.
  intros f fname x name (P1 & P2 & P3 & T1 & T2 & T3 & (wv & Hw)) Hname. apply file_name_ok in Hname. subst name. set (name := result_file fname).
  set (head := ("code," ++ keys_text (s_code_args x) ++ "noise," ++ keys_text (s_noise_args x) ++ "decoder," ++ keys_text (s_dec_args x) ++ "errors,trials,current_time,simulation_time,mpi_size")%string).
  set (last := (dec (s_errors x) ++ "," ++ dec (s_trials x) ++ "," ++ fmt_time (s_clock x) ++ "," ++ fmt_f (s_us x) ++ "," ++ dec (s_size x))%string).
  set (row := (s_code x ++ "," ++ values_text (s_code_args x) ++ s_noise x ++ "," ++ values_text (s_noise_args x) ++ s_dec x ++ "," ++ items_text (s_dec_args x) ++ last)%string).
  set (t0 := match f name with Some t => t | None => (head ++ nl)%string end).
  assert (Hhead : header (s_code_args x) (s_noise_args x) (s_dec_args x) = (head ++ nl)%string).
  { unfold header, head. fold (keys_text (s_code_args x)). fold (keys_text (s_noise_args x)). fold (keys_text (s_dec_args x)). rewrite !app_assoc_s. reflexivity. }
  assert (Hrec : exists f', record f name (s_code x) (s_code_args x) (s_noise x) (s_noise_args x) (s_dec x) (s_dec_args x) (s_errors x) (s_trials x) (s_clock x) (s_us x) (s_size x) = (f', Ok tt) /\
            f' name = Some (t0 ++ row ++ nl)%string /\ same_elsewhere name f f').
  { unfold record. rewrite Hhead.
    set (f0 := match f name with None => write f name (head ++ nl) | Some _ => f end).
    assert (A0 : adds f name t0 (f0, Ok tt)).
    { split; [reflexivity|]. cbn [fst]. unfold f0, t0. destruct (f name) as [t|] eqn:E; [split; [exact E|intros n _; reflexivity]|]. split; [apply write_new; exact E|apply write_other]. }
    pose proof (write_field_ok f name _ _ (VStr (s_code x)) A0 I) as A1. cbn [py_str] in A1.
    pose proof (values_ok f name (s_code_args x) (fun kv Hk => proj1 (proj2 (T1 kv Hk))) _ _ A1) as A2.
    pose proof (write_field_ok f name _ _ (VStr (s_noise x)) A2 I) as A3. cbn [py_str] in A3.
    pose proof (values_ok f name (s_noise_args x) (fun kv Hk => proj1 (proj2 (T2 kv Hk))) _ _ A3) as A4.
    pose proof (write_field_ok f name _ _ (VStr (s_dec x)) A4 I) as A5. cbn [py_str] in A5.
    pose proof (items_ok f name (s_dec_args x) (fun kv Hk => proj1 (proj2 (T3 kv Hk))) _ _ A5) as (B1 & B2 & B3).
    clear A1 A2 A3 A4 A5. cbv zeta. destruct (fold_left (write_item name) _ _) as [f6 r6]. cbn [fst snd] in B1, B2, B3. subst r6.
    eexists. split; [reflexivity|]. split.
    - erewrite write_at by exact B2. f_equal. unfold row, last. rewrite !app_assoc_s. reflexivity.
    - apply (same_trans _ _ f6); [exact B3|apply write_other]. }
  destruct Hrec as (f' & Hrec & Hf' & Hse).
  assert (Fh : fields head = head_fields x).
  { unfold head, head_fields.
    change ("code," ++ ?t)%string with ("code" ++ "," ++ t)%string.
    rewrite fields_cons by (vm_compute; auto). f_equal. rewrite fields_keys by (intros kv Hk; apply (T1 kv Hk)). f_equal.
    match goal with |- fields ("noise," ++ ?t)%string = _ => change ("noise," ++ t)%string with ("noise" ++ "," ++ t)%string end.
    rewrite fields_cons by (vm_compute; auto). f_equal. rewrite fields_keys by (intros kv Hk; apply (T2 kv Hk)). f_equal.
    match goal with |- fields ("decoder," ++ ?t)%string = _ => change ("decoder," ++ t)%string with ("decoder" ++ "," ++ t)%string end.
    rewrite fields_cons by (vm_compute; auto). f_equal. rewrite fields_keys by (intros kv Hk; apply (T3 kv Hk)). f_equal. }
  assert (Fl : fields last = [dec (s_errors x); dec (s_trials x); fmt_time (s_clock x); fmt_f (s_us x); dec (s_size x)]).
  { unfold last. rewrite !fields_cons by (apply dec_plain || apply fmt_time_plain || apply fmt_f_plain). rewrite fields_plain by apply dec_plain. reflexivity. }
  assert (Fr : fields row = row_fields x).
  { unfold row, row_fields. rewrite fields_cons by exact P1. f_equal. rewrite fields_values by (intros kv Hk; apply (T1 kv Hk)). f_equal.
    rewrite fields_cons by exact P2. f_equal. rewrite fields_values by (intros kv Hk; apply (T2 kv Hk)). f_equal.
    rewrite fields_cons by exact P3. f_equal. rewrite fields_items by (intros kv Hk; apply (T3 kv Hk)). f_equal. exact Fl. }
  exists f', head, row. split.
  { unfold run_sim, run_ec_simulation. destruct (lookup "weight_opts" (s_dec_args x)) eqn:El; [|exfalso; apply (lookup_some _ _ _ Hw); exact El]. rewrite <- Hrec. reflexivity. }
  split; [exact Hf'|]. split; [exact Hse|]. split.
  { unfold head. rewrite !has_app. rewrite !keys_no_nl; [reflexivity| | |]; intros kv Hk; [apply (T3 kv Hk)|apply (T2 kv Hk)|apply (T1 kv Hk)]. }
  split.
  { unfold row, last. rewrite !has_app. rewrite !values_no_nl, items_no_nl; try (intros kv Hk; first [apply (T1 kv Hk)|apply (T2 kv Hk)|apply (T3 kv Hk)]).
    assert (N : forall s, plain s -> has newline s = false) by (intros s (_ & _ & H); exact H).
    rewrite (N _ P1), (N _ P2), (N _ P3), !(N _ (dec_plain _)), (N _ (fmt_time_plain _)), (N _ (fmt_f_plain _)). reflexivity. }
  split; [exact Fh|]. split; [exact Fr|]. rewrite Fh, Fr. unfold head_fields, row_fields, columns. split; (cbn [List.length]; repeat (rewrite app_length; cbn [List.length]); rewrite !map_length; lia).
Qed.
Print Assumptions C44_one_row_partial.

(* ---------- histories ---------- *)
Fixpoint run_sims (f : files) (fname : option string) (l : list sim) : option (files * res unit) :=
  match l with
  | [] => Some (f, Ok tt)
  | x :: l' => match run_sim f fname x with Some (f', Ok _) => run_sims f' fname l' | r => r end
  end.

Lemma concat_lines_app l m : concat_lines (l ++ m) = (concat_lines l ++ concat_lines m)%string.
Proof. induction l as [|x l IH]; [reflexivity|]. cbn [app concat_lines fold_right]. fold (concat_lines (l ++ m)). fold (concat_lines l). rewrite IH. rewrite !app_assoc_s. reflexivity. Qed.

(* After any non-empty series of simulations into a new file, with printable arguments and the same number of
   arguments, the file is a table: a header and one line per simulation, all with the same number of fields. *)
Theorem C44_table_partial : forall fname n l f, f (result_file fname) = None -> l <> [] ->
  (forall x, In x l -> tame_sim x /\ columns x = n) ->
  exists f' lines s, run_sims f fname l = Some (f', Ok tt) /\ f' (result_file fname) = Some s /\ table n lines s /\ List.length lines = (1 + List.length l)%nat.
Proof.
  intros fname n l f Hf Hl Hx.
  assert (Hstep : forall l f lines s, f (result_file fname) = Some s -> table n lines s -> (forall x, In x l -> tame_sim x /\ columns x = n) ->
    exists f' lines' s', run_sims f fname l = Some (f', Ok tt) /\ f' (result_file fname) = Some s' /\ table n lines' s' /\ List.length lines' = (List.length lines + List.length l)%nat).
  { clear. induction l as [|x l IH]; intros f lines s Hs Ht Hx.
    - exists f, lines, s. split; [reflexivity|]. split; [exact Hs|]. split; [exact Ht|]. cbn. lia.
    - destruct (Hx x (or_introl eq_refl)) as [Htame Hc].
      destruct (C44_one_row_partial f fname x (result_file fname) Htame (proj2 (file_name_ok fname _) eq_refl)) as (f1 & head & row & R1 & R2 & _ & _ & R3 & _ & _ & _ & R4). rewrite Hs in R2.
      destruct (IH f1 (lines ++ [row]) _ R2) as (f' & lines' & s' & I1 & I2 & I3 & I4).
      + destruct Ht as [-> Ht]. split; [rewrite concat_lines_app; reflexivity|]. intros y Hy. apply in_app_iff in Hy. destruct Hy as [Hy|[<-|[]]]; [apply Ht; exact Hy|]. split; [exact R3|congruence].
      + intros y Hy. apply Hx. right. exact Hy.
      + exists f', lines', s'. cbn [run_sims]. rewrite R1. split; [exact I1|]. split; [exact I2|]. split; [exact I3|]. rewrite I4, app_length. cbn [List.length]. lia. }
  destruct l as [|x l]; [contradiction|]. destruct (Hx x (or_introl eq_refl)) as [Htame Hc].
  destruct (C44_one_row_partial f fname x (result_file fname) Htame (proj2 (file_name_ok fname _) eq_refl)) as (f1 & head & row & R1 & R2 & _ & R0 & R3 & _ & _ & R5 & R4). rewrite Hf in R2.
  destruct (Hstep l f1 [head; row] _ R2) as (f' & lines' & s' & I1 & I2 & I3 & I4).
  - split; [cbn [concat_lines fold_right]; rewrite !app_assoc_s; reflexivity|]. intros y [<-|[<-|[]]]; (split; [assumption|congruence]).
  - intros y Hy. apply Hx. right. exact Hy.
  - exists f', lines', s'. cbn [run_sims]. rewrite R1. split; [exact I1|]. split; [exact I2|]. split; [exact I3|]. rewrite I4. reflexivity.
Qed.
Print Assumptions C44_table_partial.

(* the example of the documentation: a quoted dictionary with commas in it *)
Definition demo_sim : sim := {| s_code := "SurfaceCode"; s_code_args := [("distance", VInt 3); ("ec", VStr "primal"); ("boundaries", VStr "open")]%string;
  s_noise := "CVMacroLayer"; s_noise_args := [("delta", VFloat "0.09"); ("p_swap", VFloat "0.25")]%string; s_dec := "MWPM";
  s_dec_args := [("weight_opts", VDict [(VStr "method", VStr "blueprint"); (VStr "prob_precomputed", VBool true)])]%string;
  s_errors := 12; s_trials := 100; s_clock := 45296; s_us := 2500007; s_size := 1 |}.
Example C44_nonvacuous : tame_sim demo_sim /\ columns demo_sim = 14%nat /\
  exists f', run_sim (fun _ => None) None demo_sim = Some (f', Ok tt) /\
    f' "./flamingpy/.sims_data/sims_results.csv"%string =
    Some ("code,distance,ec,boundaries,noise,delta,p_swap,decoder,weight_opts,errors,trials,current_time,simulation_time,mpi_size" ++ nl ++
          "SurfaceCode,3,primal,open,CVMacroLayer,0.09,0.25,MWPM,""{'method': 'blueprint', 'prob_precomputed': True}"",12,100,12:34:56,2.500007,1" ++ nl)%string.
Proof.
  split; [|split; [reflexivity|]].
  - unfold tame_sim. repeat split; try (vm_compute; reflexivity); try (intros; exact I).
    all: try (match goal with H : In _ _ |- _ => cbn in H; intuition; subst; vm_compute; auto end).
    eexists. left. reflexivity.
  - eexists. split; [reflexivity|]. vm_compute. reflexivity.
Qed.

(* ---------- what goes wrong with other arguments ---------- *)

(* A tuple of two or more elements, e.g. the documented distance=(3, 3, 3): the simulation is run and then lost: TypeError, a new
   file contains the header and the beginning of a row. *)
Theorem C44_tuple_refuted : forall f fname x k y z l, f (result_file fname) = None -> s_code_args x = [(k, VTuple (y :: z :: l))] -> lookup "weight_opts" (s_dec_args x) <> None ->
  exists f', run_sim f fname x = Some (f', Err TypeError) /\
    f' (result_file fname) = Some (header (s_code_args x) (s_noise_args x) (s_dec_args x) ++ s_code x ++ ",")%string.
Proof.
  intros f fname x k y z l Hf Hc Hw. unfold run_sim, run_ec_simulation. destruct (lookup "weight_opts" (s_dec_args x)); [|contradiction].
  set (name := result_file fname) in *. unfold record. rewrite Hf, Hc. cbn [fold_left write_field percent_s py_str snd].
  set (F := write (write f name (header [(k, VTuple (y :: z :: l))] (s_noise_args x) (s_dec_args x))) name (s_code x ++ ",")%string).
  assert (Hv : forall d : dict, fold_left (fun fr kv => write_field name fr (snd kv)) d (F, Err TypeError) = (F, Err TypeError)) by (induction d as [|kv d IH]; [reflexivity|exact IH]).
  assert (Hi : forall d : dict, fold_left (write_item name) d (F, Err TypeError) = (F, Err TypeError)) by (induction d as [|kv d IH]; [reflexivity|exact IH]).
  rewrite Hv. cbn [write_field]. rewrite Hi. exists F. split; [reflexivity|]. unfold F. apply write_at, write_new. exact Hf.
Qed.
Print Assumptions C44_tuple_refuted.

(* the documented call with a triple of distances; the next simulation is appended to the broken row *)
Definition tuple_sim : sim := {| s_code := "SurfaceCode"; s_code_args := [("distance", VTuple [VInt 3; VInt 3; VInt 3])]%string; s_noise := "IidNoise"; s_noise_args := [("error_probability", VFloat "0.1")]%string;
  s_dec := "MWPM"; s_dec_args := [("weight_opts", VNone)]%string; s_errors := 0; s_trials := 10; s_clock := 0; s_us := 0; s_size := 1 |}.
Definition int_sim : sim := {| s_code := "SurfaceCode"; s_code_args := [("distance", VInt 3)]%string; s_noise := "IidNoise"; s_noise_args := [("error_probability", VFloat "0.1")]%string;
  s_dec := "MWPM"; s_dec_args := [("weight_opts", VNone)]%string; s_errors := 0; s_trials := 10; s_clock := 0; s_us := 0; s_size := 1 |}.
Theorem C44_broken_row_refuted : exists f1 f2 head row,
  run_sim (fun _ => None) (Some "r.csv"%string) tuple_sim = Some (f1, Err TypeError) /\ tame_sim int_sim /\
  run_sim f1 (Some "r.csv"%string) int_sim = Some (f2, Ok tt) /\ f2 "r.csv"%string = Some (head ++ nl ++ row ++ nl)%string /\
  has newline head = false /\ has newline row = false /\ List.length (fields head) = 11%nat /\ List.length (fields row) = 12%nat.
Proof.
  eexists. eexists. exists "code,distance,noise,error_probability,decoder,weight_opts,errors,trials,current_time,simulation_time,mpi_size"%string.
  exists "SurfaceCode,SurfaceCode,3,IidNoise,0.1,MWPM,""None"",0,10,00:00:00,0.000000,1"%string.
  split; [reflexivity|]. split.
  - unfold tame_sim. repeat split; try (vm_compute; reflexivity); try (intros; exact I).
    all: try (match goal with H : In _ _ |- _ => cbn in H; intuition; subst; vm_compute; auto end).
    eexists. left. reflexivity.
  - split; [reflexivity|]. split; [vm_compute; reflexivity|]. repeat split; vm_compute; reflexivity.
Qed.
Print Assumptions C44_broken_row_refuted.

(* A list (or a dictionary other than weight_opts) with several elements adds columns to the row. *)
Definition list_sim : sim := {| s_code := "SurfaceCode"; s_code_args := [("distance", VList [VInt 3; VInt 3; VInt 3])]%string; s_noise := "IidNoise"; s_noise_args := [("error_probability", VFloat "0.1")]%string;
  s_dec := "MWPM"; s_dec_args := [("weight_opts", VNone)]%string; s_errors := 0; s_trials := 10; s_clock := 0; s_us := 0; s_size := 1 |}.
Theorem C44_list_refuted : exists f1 head row, run_sim (fun _ => None) (Some "r.csv"%string) list_sim = Some (f1, Ok tt) /\ f1 "r.csv"%string = Some (head ++ nl ++ row ++ nl)%string /\
  has newline head = false /\ has newline row = false /\ List.length (fields head) = 11%nat /\ List.length (fields row) = 13%nat.
Proof.
  eexists. exists "code,distance,noise,error_probability,decoder,weight_opts,errors,trials,current_time,simulation_time,mpi_size"%string.
  exists "SurfaceCode,[3, 3, 3],IidNoise,0.1,MWPM,""None"",0,10,00:00:00,0.000000,1"%string.
  split; [reflexivity|]. split; [vm_compute; reflexivity|]. repeat split; vm_compute; reflexivity.
Qed.
Print Assumptions C44_list_refuted.

(* A simulation that fails before its end (construction, decoder_args without "weight_opts", an exception in a trial) leaves every file as it was. *)
Theorem C44_failure_leaves_files : forall f fname a b c d e g t cl us sz setup mc f' ex,
  run_ec_simulation f fname a b c d e g t cl us sz setup mc = Some (f', Err ex) ->
  (setup <> Ok tt \/ lookup "weight_opts" g = None \/ exists ex', mc = Some (Err ex')) -> f' = f.
Proof.
  intros f fname a b c d e g t cl us sz setup mc f' ex H Hc. unfold run_ec_simulation in H. destruct setup as [[]|e1]; [|injection H as <- _; reflexivity].
  destruct (lookup "weight_opts" g); [|injection H as <- _; reflexivity]. destruct mc as [[er|e2]|]; [|injection H as <- _; reflexivity|discriminate].
  destruct Hc as [Hc|[Hc|(e3 & Hc)]]; [contradiction|discriminate|discriminate].
Qed.
Print Assumptions C44_failure_leaves_files.

(* ================= C53: decoder names ================= *)
Lemma lower_upper n : (65 <= n <= 90)%nat -> lower_char (ascii_of_nat n) = ascii_of_nat (n + 32).
Proof.
  intros H. unfold lower_char. rewrite nat_ascii_embedding by lia.
  replace (Nat.leb 65 n) with true by (symmetry; apply Nat.leb_le; lia). replace (Nat.leb n 90) with true by (symmetry; apply Nat.leb_le; lia). reflexivity.
Qed.
(* no upper-case letter *)
Fixpoint lower_word (s : string) : bool := match s with EmptyString => true | String a s' => negb (Nat.leb 65 (nat_of_ascii a) && Nat.leb (nat_of_ascii a) 90) && lower_word s' end.
Lemma any_case_lower w : lower_word w = true -> forall s, any_case w s <-> lower s = w.
Proof.
  intros Hw s. split.
  - intros H. induction H as [|a s t H IH|n s t Hn H IH]; [reflexivity| |].
    + cbn [lower_word] in Hw. apply andb_true_iff in Hw. destruct Hw as [Ha Hw]. cbn [lower]. rewrite (IH Hw). f_equal. unfold lower_char. apply negb_true_iff in Ha. rewrite Ha. reflexivity.
    + cbn [lower_word] in Hw. apply andb_true_iff in Hw. destruct Hw as [Ha Hw]. cbn [lower]. rewrite (IH Hw), (lower_upper n Hn). reflexivity.
  - revert w Hw. induction s as [|a s IH]; intros w Hw H; cbn [lower] in H; subst w; [constructor|]. cbn [lower_word] in Hw. apply andb_true_iff in Hw. destruct Hw as [_ Hw].
    specialize (IH (lower s) Hw eq_refl). unfold lower_char. destruct (Nat.leb 65 (nat_of_ascii a) && Nat.leb (nat_of_ascii a) 90)%bool eqn:E.
    + apply andb_true_iff in E. destruct E as [E1 E2]. apply Nat.leb_le in E1, E2. rewrite <- (ascii_nat_embedding a) at 2. apply ac_upper; [lia|exact IH].
    + apply ac_same. exact IH.
Qed.

(* The command line accepts exactly these spellings, in any mixture of upper and lower case, and passes on a name that correct() knows;
   everything else is refused before anything is computed. *)
Theorem C53_decoder_names : forall d,
  let uf := exists w, In w ["unionfind"; "uf"; "union-find"; "union find"]%string /\ any_case w d in
  let mw := exists w, In w ["mwpm"; "minimum weight perfect matching"]%string /\ any_case w d in
  (normal_decoder d = Ok "UF"%string <-> uf) /\ (normal_decoder d = Ok "MWPM"%string <-> mw) /\ (normal_decoder d = Err ValueError <-> ~ uf /\ ~ mw) /\ ~ (uf /\ mw).
Proof.
  intros d uf mw.
  assert (Lu : forall w, In w ["unionfind"; "uf"; "union-find"; "union find"]%string -> lower_word w = true).
  { apply Forall_forall. repeat constructor. }
  assert (Lm : forall w, In w ["mwpm"; "minimum weight perfect matching"]%string -> lower_word w = true).
  { apply Forall_forall. repeat constructor. }
  assert (Hu : uf <-> mem_str (lower d) ["unionfind"; "uf"; "union-find"; "union find"]%string = true).
  { unfold uf, mem_str. rewrite existsb_exists. split; intros (w & Hin & H); exists w; (split; [exact Hin|]).
    - apply (any_case_lower w (Lu w Hin)) in H. rewrite H. apply String.eqb_refl.
    - apply String.eqb_eq in H. apply (any_case_lower w (Lu w Hin)). exact H. }
  assert (Hm : mw <-> mem_str (lower d) ["mwpm"; "minimum weight perfect matching"]%string = true).
  { unfold mw, mem_str. rewrite existsb_exists. split; intros (w & Hin & H); exists w; (split; [exact Hin|]).
    - apply (any_case_lower w (Lm w Hin)) in H. rewrite H. apply String.eqb_refl.
    - apply String.eqb_eq in H. apply (any_case_lower w (Lm w Hin)). exact H. }
  assert (Hd : ~ (uf /\ mw)).
  { intros [(w & Hw & H1) (v & Hv & H2)].
    apply (any_case_lower w (Lu w Hw)) in H1. apply (any_case_lower v (Lm v Hv)) in H2.
    rewrite H1 in H2. clear - Hw Hv H2. subst v. cbn [In] in Hw, Hv. destruct Hw as [<-|[<-|[<-|[<-|[]]]]]; destruct Hv as [Hv|[Hv|[]]]; discriminate. }
  rewrite Hu, Hm in *. unfold normal_decoder. clear Hu Hm Lu Lm. clear uf mw.
  destruct (mem_str (lower d) ["unionfind"; "uf"; "union-find"; "union find"]%string), (mem_str (lower d) ["mwpm"; "minimum weight perfect matching"]%string); repeat split; intros; try discriminate; try congruence; intuition discriminate.
Qed.
Print Assumptions C53_decoder_names.
Example C53_nonvacuous : normal_decoder "Union-Find" = Ok "UF"%string /\ normal_decoder "mWpM" = Ok "MWPM"%string /\ normal_decoder "lemon" = Err ValueError.
Proof. repeat split; reflexivity. Qed.

(* the text of some argument values *)
Example C44_text_of_values :
  py_str (VTuple [VInt 3]) = "(3,)"%string /\ py_str (VTuple [VInt 3; VNone]) = "(3, None)"%string /\ py_str (VList [VStr "a\b"]) = "['a\\b']"%string /\
  py_str (VDict [(VStr "method", VStr "uniform")]) = "{'method': 'uniform'}"%string /\ py_str (VStr "a\b") = "a\b"%string.
Proof. repeat split. Qed.
