(* SimCsv.v: lemmas on strings, for C44. *)
From Coq Require Import String Ascii DecimalString.
From Coq Require Decimal.
From Verif Require Import Base SimModel SimSpec.
Open Scope Z_scope.

Lemma has_app c s t : has c (s ++ t)%string = has c s || has c t.
Proof. induction s as [|a s IH]; [reflexivity|]. cbn [has append]. rewrite IH. apply orb_assoc. Qed.
Lemma app_assoc_s (a b c : string) : ((a ++ b) ++ c = a ++ (b ++ c))%string.
Proof. induction a as [|x a IH]; [reflexivity|]. cbn [append]. rewrite IH. reflexivity. Qed.
Lemma app_nil_s (a : string) : (a ++ "" = a)%string.
Proof. induction a as [|x a IH]; [reflexivity|]. cbn [append]. rewrite IH. reflexivity. Qed.

Lemma plain_app s t : plain s -> plain t -> plain (s ++ t)%string.
Proof. intros (A1 & A2 & A3) (B1 & B2 & B3). unfold plain. rewrite !has_app, A1, A2, A3, B1, B2, B3. auto. Qed.

(* ---------- fields ---------- *)
Lemma fields_plain s : plain s -> fields s = [s].
Proof.
  intros (H1 & H2 & _). unfold fields. induction s as [|a s IH]; [reflexivity|]. cbn [has] in *. apply orb_false_iff in H1, H2. destruct H1 as [H1 H1'], H2 as [H2 H2'].
  cbn [csv_fields]. rewrite H2, H1, (IH H1' H2'). reflexivity.
Qed.
Lemma fields_cons s t : plain s -> fields (s ++ "," ++ t)%string = s :: fields t.
Proof.
  intros (H1 & H2 & _). unfold fields. induction s as [|a s IH]; [reflexivity|]. cbn [has] in *. apply orb_false_iff in H1, H2. destruct H1 as [H1 H1'], H2 as [H2 H2'].
  specialize (IH H1' H2'). cbn [append csv_fields] in *. rewrite H2, H1, IH. reflexivity.
Qed.
Lemma fields_quoted_in s t : quotable s -> csv_fields true (s ++ String quote ("," ++ t))%string = s :: fields t.
Proof.
  intros (H2 & _). induction s as [|a s IH]; [reflexivity|]. cbn [has] in *. apply orb_false_iff in H2. destruct H2 as [H2 H2'].
  specialize (IH H2'). cbn [append csv_fields] in *. rewrite H2, IH, andb_false_r. reflexivity.
Qed.
Lemma fields_quoted s t : quotable s -> fields (String quote s ++ String quote ("," ++ t))%string = s :: fields t.
Proof. intros H. unfold fields. cbn [append csv_fields]. apply fields_quoted_in. exact H. Qed.

(* ---------- numbers ---------- *)
Definition is_digit (a : ascii) : bool := (Nat.leb 48 (nat_of_ascii a) && Nat.leb (nat_of_ascii a) 57)%bool.
Lemma uint_plain u : plain (NilEmpty.string_of_uint u).
Proof. induction u; try (unfold plain; cbn; auto; fail); destruct IHu as (A & B & C); unfold plain; cbn [NilEmpty.string_of_uint has]; rewrite A, B, C; cbn; auto. Qed.
Lemma dec_plain z : plain (dec z).
Proof.
  assert (H0 : forall u, plain (NilZero.string_of_uint u)).
  { intros [ | u | u | u | u | u | u | u | u | u | u ]; unfold NilZero.string_of_uint; try apply uint_plain. unfold plain. cbn. auto. }
  unfold dec, NilZero.string_of_int. destruct (Z.to_int z) as [u|u]; [apply H0|].
  change (plain ("-" ++ NilZero.string_of_uint u)%string). apply plain_app; [unfold plain; cbn; auto|apply H0].
Qed.
Lemma digit_plain z : plain (String (digit z) "").
Proof.
  unfold digit. pose proof (Z.mod_pos_bound z 10 ltac:(lia)) as H. set (m := z mod 10) in *.
  assert (Hm : In m [0;1;2;3;4;5;6;7;8;9]) by (cbn [In]; lia). clearbody m. cbn [In] in Hm.
  repeat (destruct Hm as [<-|Hm]; [vm_compute; auto|]). destruct Hm.
Qed.
Lemma digits_plain n : forall z, plain (digits n z).
Proof. induction n as [|n IH]; intros z; [unfold plain; cbn; auto|]. cbn [digits]. apply plain_app; [apply IH|apply digit_plain]. Qed.
Lemma fmt_time_plain t : plain (fmt_time t).
Proof. unfold fmt_time. assert (H : plain ":") by (unfold plain; cbn; auto). apply plain_app; [apply digits_plain|]. apply plain_app; [exact H|]. apply plain_app; [apply digits_plain|]. apply plain_app; [exact H|apply digits_plain]. Qed.
Lemma fmt_f_plain us : plain (fmt_f us).
Proof. unfold fmt_f. apply plain_app; [apply dec_plain|]. apply plain_app; [unfold plain; cbn; auto|apply digits_plain]. Qed.

(* ---------- files ---------- *)
Definition same_elsewhere (name : string) (f g : files) : Prop := forall n, n <> name -> g n = f n.
Lemma write_at f name s t : f name = Some t -> write f name s name = Some (t ++ s)%string.
Proof. intros H. unfold write. rewrite String.eqb_refl, H. reflexivity. Qed.
Lemma write_new f name s : f name = None -> write f name s name = Some s.
Proof. intros H. unfold write. rewrite String.eqb_refl, H. reflexivity. Qed.
Lemma write_other f name s : same_elsewhere name f (write f name s).
Proof. intros n Hn. unfold write. destruct (String.eqb_spec n name); [contradiction|reflexivity]. Qed.
Lemma same_trans name f g h : same_elsewhere name f g -> same_elsewhere name g h -> same_elsewhere name f h.
Proof. intros A B n Hn. rewrite B, A by assumption. reflexivity. Qed.

(* `adds name t fr`: the file `name` holds t, no error so far, the other files are those of f *)
Definition adds (f : files) (name t : string) (fr : files * res unit) : Prop :=
  snd fr = Ok tt /\ fst fr name = Some t /\ same_elsewhere name f (fst fr).
Lemma percent_not_tuple v : not_tuple v -> percent_s v = Ok (py_str v).
Proof. destruct v; cbn; intros H; try reflexivity; destruct H. Qed.

Lemma write_field_ok f name t fr v : adds f name t fr -> not_tuple v -> adds f name (t ++ py_str v ++ ",")%string (write_field name fr v).
Proof.
  intros (A & B & C) Hv. destruct fr as [g r]. cbn [fst snd] in *. subst r. unfold write_field. rewrite percent_not_tuple by assumption.
  split; [reflexivity|]. cbn [fst snd]. split; [apply write_at; exact B|]. apply (same_trans _ _ g); [exact C|apply write_other].
Qed.
Lemma write_item_ok f name t fr kv : adds f name t fr -> not_tuple (snd kv) ->
  adds f name (t ++ (if String.eqb (fst kv) "weight_opts" then String quote (py_str (snd kv)) ++ String quote "," else py_str (snd kv) ++ ","))%string (write_item name fr kv).
Proof.
  intros Ha Hv. pose proof (write_field_ok f name t fr (snd kv) Ha Hv) as Hw. destruct Ha as (A & B & C). destruct fr as [g r]. cbn [fst snd] in *. subst r. unfold write_item.
  destruct (String.eqb (fst kv) "weight_opts"); [|exact Hw]. rewrite percent_not_tuple by assumption.
  split; [reflexivity|]. cbn [fst snd]. split; [apply write_at; exact B|]. apply (same_trans _ _ g); [exact C|apply write_other].
Qed.

(* the text written for a list of values *)
Definition values_text (d : dict) : string := fold_right (fun kv s => py_str (snd kv) ++ "," ++ s)%string ""%string d.
Definition items_text (d : dict) : string :=
  fold_right (fun kv s => (if String.eqb (fst kv) "weight_opts" then String quote (py_str (snd kv)) ++ String quote "," else py_str (snd kv) ++ ",") ++ s)%string ""%string d.
Lemma values_ok f name d : (forall kv, In kv d -> not_tuple (snd kv)) -> forall t fr, adds f name t fr ->
  adds f name (t ++ values_text d)%string (fold_left (fun fr kv => write_field name fr (snd kv)) d fr).
Proof.
  induction d as [|kv d IH]; intros Hd t fr Ha; cbn [fold_left values_text fold_right]; [rewrite app_nil_s; exact Ha|].
  fold (values_text d). replace (t ++ py_str (snd kv) ++ "," ++ values_text d)%string with ((t ++ (py_str (snd kv) ++ ",")) ++ values_text d)%string by (rewrite !app_assoc_s; reflexivity).
  apply IH; [intros; apply Hd; right; assumption|]. apply write_field_ok; [exact Ha|apply Hd; left; reflexivity].
Qed.
Lemma items_ok f name d : (forall kv, In kv d -> not_tuple (snd kv)) -> forall t fr, adds f name t fr ->
  adds f name (t ++ items_text d)%string (fold_left (write_item name) d fr).
Proof.
  induction d as [|kv d IH]; intros Hd t fr Ha; cbn [fold_left items_text fold_right]; [rewrite app_nil_s; exact Ha|].
  fold (items_text d). rewrite <- app_assoc_s. apply IH; [intros; apply Hd; right; assumption|]. apply write_item_ok; [exact Ha|apply Hd; left; reflexivity].
Qed.

Lemma fields_values d t : (forall kv, In kv d -> plain (py_str (snd kv))) -> fields (values_text d ++ t)%string = map (fun kv => py_str (snd kv)) d ++ fields t.
Proof.
  induction d as [|kv d IH]; intros Hd; [reflexivity|]. cbn [values_text fold_right map app]. fold (values_text d). rewrite !app_assoc_s.
  change ("," ++ (values_text d ++ t))%string with ("," ++ (values_text d ++ t))%string. rewrite fields_cons by (apply Hd; left; reflexivity).
  rewrite IH by (intros; apply Hd; right; assumption). reflexivity.
Qed.
Definition opt_ok (kv : string * pyval) : Prop := if String.eqb (fst kv) "weight_opts" then quotable (py_str (snd kv)) else plain (py_str (snd kv)).
Lemma fields_items d t : (forall kv, In kv d -> opt_ok kv) -> fields (items_text d ++ t)%string = map (fun kv => py_str (snd kv)) d ++ fields t.
Proof.
  induction d as [|kv d IH]; intros Hd; [reflexivity|]. cbn [items_text fold_right map app]. fold (items_text d). rewrite !app_assoc_s.
  pose proof (Hd kv (or_introl eq_refl)) as Hk. unfold opt_ok in Hk. destruct (String.eqb (fst kv) "weight_opts").
  - rewrite app_assoc_s. change (String quote "," ++ (items_text d ++ t))%string with (String quote ("," ++ (items_text d ++ t)))%string.
    rewrite fields_quoted by exact Hk. rewrite IH by (intros; apply Hd; right; assumption). reflexivity.
  - rewrite app_assoc_s, fields_cons by exact Hk. rewrite IH by (intros; apply Hd; right; assumption). reflexivity.
Qed.
Lemma values_no_nl d : (forall kv, In kv d -> plain (py_str (snd kv))) -> has newline (values_text d) = false.
Proof.
  induction d as [|kv d IH]; intros Hd; [reflexivity|]. cbn [values_text fold_right]. fold (values_text d). rewrite !has_app.
  destruct (Hd kv (or_introl eq_refl)) as (_ & _ & H). unfold newline. rewrite H. cbn [orb]. rewrite orb_false_l || idtac. apply IH. intros; apply Hd; right; assumption.
Qed.
Lemma items_no_nl d : (forall kv, In kv d -> opt_ok kv) -> has newline (items_text d) = false.
Proof.
  induction d as [|kv d IH]; intros Hd; [reflexivity|]. cbn [items_text fold_right]. fold (items_text d). rewrite has_app, IH, orb_false_r by (intros; apply Hd; right; assumption).
  pose proof (Hd kv (or_introl eq_refl)) as Hk. unfold opt_ok in Hk. destruct (String.eqb (fst kv) "weight_opts").
  - cbn [append has]. rewrite has_app. destruct Hk as (_ & H). unfold newline. rewrite H. reflexivity.
  - rewrite has_app. destruct Hk as (_ & _ & H). unfold newline. rewrite H. reflexivity.
Qed.

(* the text of the keys *)
Definition keys_text (d : dict) : string := fold_right (fun kv s => fst kv ++ "," ++ s)%string ""%string d.
Lemma fields_keys d t : (forall kv, In kv d -> plain (fst kv)) -> fields (keys_text d ++ t)%string = map fst d ++ fields t.
Proof.
  induction d as [|kv d IH]; intros Hd; [reflexivity|]. cbn [keys_text fold_right map app]. fold (keys_text d). rewrite !app_assoc_s.
  rewrite fields_cons by (apply Hd; left; reflexivity). rewrite IH by (intros; apply Hd; right; assumption). reflexivity.
Qed.
Lemma keys_no_nl d : (forall kv, In kv d -> plain (fst kv)) -> has newline (keys_text d) = false.
Proof.
  induction d as [|kv d IH]; intros Hd; [reflexivity|]. cbn [keys_text fold_right]. fold (keys_text d). rewrite !has_app.
  destruct (Hd kv (or_introl eq_refl)) as (_ & _ & H). unfold newline. rewrite H. cbn [orb]. apply IH. intros; apply Hd; right; assumption.
Qed.
