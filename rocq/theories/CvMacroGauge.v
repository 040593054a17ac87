(* CvMacroGauge.v: adding to every bit the sum of a function over the neighbours changes neither the
   syndrome nor the verdict. *)
From Verif Require Import Base Lattice RhgModel RhgSpec RhgProofs RhgDegree SurfaceModel SurfaceSpec SurfaceProofs SurfaceIncidence SurfaceGauge SurfaceTheorems PropsSurface PropsMacro.
Open Scope Z_scope.

Section Gauge.
  Variables (D : dims) (e : ecx) (b : bdk) (pol : option (point * point -> Z)) (c : scode).
  Hypothesis HD : dims_ge2 D.
  Hypothesis HC : is_surface_code D e b pol c.
  Lemma stab_syn st q : In st (sc_stabs c) -> In q st -> In q (sc_syn c).
  Proof.
    intros Hs Hq. pose proof (surface_code_facts D e b pol c (ge2_ok D (code_bnds e b) HD) HC) as CF. apply (cf_syn _ _ _ _ _ CF). pose proof (cf_stabs _ _ _ _ _ CF) as HF.
    induction HF as [|x st' l l' [_ H] _ IH]; [destruct Hs|]. destruct Hs as [->|Hs]; [apply H in Hq; apply Hq|auto].
  Qed.
  Definition same_verdict (f g : point -> bool) : Prop :=
    (forall st, In st (sc_stabs c) -> stab_parity f st = stab_parity g st) /\ (forall sanity, check_correction c f sanity = check_correction c g sanity).
  Lemma verdict_trans f g h : same_verdict f g -> same_verdict g h -> same_verdict f h.
  Proof. intros [A1 A2] [B1 B2]. split; [intros st Hs; rewrite A1, B1 by assumption; reflexivity|intros s; rewrite A2, B2; reflexivity]. Qed.
  Lemma verdict_ext f g : (forall q, In q (sc_syn c) -> f q = g q) -> same_verdict f g.
  Proof.
    intros H. split.
    - intros st Hs. unfold stab_parity. apply xsum_ext. intros q Hq. apply H. apply (stab_syn st); assumption.
    - intros s. rewrite !(check_correction_eq D e b pol c HD HC). f_equal. induction (logical_axes e b) as [|a l IH]; [reflexivity|]. cbn [forallb]. rewrite IH. f_equal. f_equal. unfold plane. apply xsum_ext. intros q Hq. rewrite H by assumption. reflexivity.
  Qed.
  Lemma verdict_flip v f : In v (node_list (sc_graph c)) -> same_verdict (fun q => if pmem q (nbrs (sc_graph c) v) then negb (f q) else f q) f.
  Proof.
    intros Hv. destruct (node_type (sc_graph c) v) as [t|] eqn:Et.
    - assert (Ht : t = sel e \/ Some t <> Some (sel e)) by (destruct t, (sel e); (left; reflexivity) || (right; discriminate)). destruct Ht as [->|Ht].
      + apply verdict_ext. intros q Hq. destruct (pmem q (nbrs (sc_graph c) v)) eqn:Em; [|reflexivity]. exfalso. apply pmem_In, nbrs_iff in Em.
        destruct (C05_qubits_checked_once_or_twice D e b pol c HD HC) as (_ & H2 & _). apply H2 in Hq. destruct Hq as [Hq1 Hq2].
        destruct HC as (_ & _ & _ & (vs & Hvs & EG) & _). rewrite EG in *. pose proof (ge2_ok D (code_bnds e b) HD) as HO.
        destruct (edge_sites D (code_bnds e b) pol vs HO Hvs v q Em) as (_ & _ & Hn). destruct (rhg_exact_lattice D (code_bnds e b) pol vs HO Hvs) as (_ & EN & T1 & T2 & _).
        apply EN in Hv, Hq1.
        assert (N : forall x t, primal_vertex D (code_bnds e b) x \/ dual_vertex D (code_bnds e b) x -> node_type (rhg_graph D (code_bnds e b) pol vs) x = Some t -> nodd x = match t with Primal => 2 | Dual => 1 end).
        { intros x t [Hx|Hx] E; [rewrite (T1 x Hx) in E|rewrite (T2 x Hx) in E]; injection E as <-; apply Hx. }
        apply Hn. rewrite (N v _ Hv Et), (N q _ Hq1 Hq2). reflexivity.
      + destruct (C12_gauge_invariance D e b pol c v f HD HC Hv) as [A B]; [rewrite Et; exact Ht|]. split; assumption.
    - destruct (C12_gauge_invariance D e b pol c v f HD HC Hv) as [A B]; [rewrite Et; discriminate|]. split; assumption.
  Qed.
  Lemma one_more sb u l N : NoDup N -> ~ In u l ->
    xsum (fun w => sb w && pmem w (u :: l)) N = xorb (if pmem u N then sb u else false) (xsum (fun w => sb w && pmem w l) N).
  Proof.
    intros HN Hu. induction N as [|w N IH]; [reflexivity|]. apply NoDup_cons_iff in HN. destruct HN as [Hw HN]. cbn [xsum]. rewrite (IH HN). cbn [pmem existsb].
    destruct (peqb w u) eqn:Ewu.
    - apply peqb_true in Ewu. subst w. rewrite peqb_refl. cbn [orb]. apply pmem_false in Hw, Hu. rewrite Hw, Hu. rewrite andb_true_r, andb_false_r. destruct (sb u), (xsum (fun w => sb w && pmem w l) N); reflexivity.
    - assert (E : peqb u w = false) by (apply peqb_false; apply peqb_false in Ewu; congruence). rewrite E. cbn [orb]. change (existsb (peqb w) l) with (pmem w l). change (existsb (peqb u) N) with (pmem u N).
      destruct (pmem u N), (sb u), (sb w), (pmem w l), (xsum (fun w => sb w && pmem w l) N); reflexivity.
  Qed.
  Lemma verdict_gauge sb eps : same_verdict (fun q => xorb (xsum sb (nbrs (sc_graph c) q)) (eps q)) eps.
  Proof.
    set (G := sc_graph c).
    assert (Hnd : forall q, NoDup (nbrs G q)) by (intros q; destruct HC as (_ & _ & _ & (vs & _ & EG) & _); unfold G; rewrite EG; apply G_nbrs_NoDup).
    assert (Hsym : forall p q, In q (nbrs G p) <-> In p (nbrs G q)). { intros p q. rewrite !nbrs_iff. unfold G. rewrite edge_attr_sym. reflexivity. }
    assert (Hin : forall q w, In w (nbrs G q) -> In w (node_list G)).
    { intros q w Hw. destruct HC as (_ & _ & _ & (vs & Hvs & EG) & _). unfold G in *. rewrite EG in *. apply nbrs_iff in Hw. eapply rhg_ends; [apply ge2_ok, HD|exact Hvs|]. rewrite edge_attr_sym. exact Hw. }
    assert (HL : forall L, NoDup L -> incl L (node_list G) -> same_verdict (fun q => xorb (xsum (fun w => sb w && pmem w L) (nbrs G q)) (eps q)) eps).
    { induction L as [|u L IH]; intros HN Hi.
      - apply verdict_ext. intros q _. rewrite (xsum_ext _ (fun _ => false)) by (intros; cbn; apply andb_false_r). rewrite xsum_false. destruct (eps q); reflexivity.
      - apply NoDup_cons_iff in HN. destruct HN as [Hu HN]. eapply verdict_trans; [|apply IH; [assumption|intros x Hx; apply Hi; right; assumption]].
        destruct (sb u) eqn:Eu.
        + eapply verdict_trans; [|apply (verdict_flip u); apply Hi; left; reflexivity]. apply verdict_ext. intros q _. rewrite one_more by auto. rewrite Eu. fold G.
          assert (E : pmem q (nbrs G u) = pmem u (nbrs G q)). { destruct (pmem u (nbrs G q)) eqn:E1; [apply pmem_In; apply Hsym; apply pmem_In; assumption|]. apply pmem_false. apply pmem_false in E1. rewrite <- Hsym. assumption. }
          rewrite E. destruct (pmem u (nbrs G q)), (xsum (fun w => sb w && pmem w L) (nbrs G q)), (eps q); reflexivity.
        + apply verdict_ext. intros q _. rewrite one_more by auto. rewrite Eu. destruct (pmem u (nbrs G q)), (xsum (fun w => sb w && pmem w L) (nbrs G q)); reflexivity. }
    eapply verdict_trans; [|apply (HL (nodup point_eq_dec (node_list G)) (NoDup_nodup _ _)); intros x Hx; apply nodup_In in Hx; assumption].
    apply verdict_ext. intros q _. f_equal. apply xsum_ext. intros w Hw. assert (E : pmem w (nodup point_eq_dec (node_list G)) = true) by (apply pmem_In, nodup_In, (Hin q), Hw). rewrite E. symmetry. apply andb_true_r.
  Qed.
End Gauge.
