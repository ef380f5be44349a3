(** HOOI: every execution of the graph computes the sequential sweep. *)

From Coq Require Import ZArith List Bool Arith Relations Lia.
From Verif Require Import Num Py Tensor TensorFacts TF Ops Types Loss Fact TFFacts LayoutFacts TrainLemmas BcuFacts Sched SchedFacts Graphs SchedLists.
Import ListNotations.

Section Hooi.
  Context {T : Type} {NM : Num T}.
  Variables (svdU : tensor T -> tensor T) (X : tensor T) (ranks : list Z).
  Notation N := (ndims X).
  Notation g := (hooi_graph svdU X ranks).
  Notation nd := (needed g (hooi_fetch X)).
  Notation dum := (mkT [] [] : tensor T).

  Definition ho_dom (n : hon) : Prop := match n with HY m | HSvd m | HUp m => m < N | _ => True end.
  Definition ho_src (n : hon) (v : var) : option hon :=
    match n, v with
    | HY m, VA i => if i <? m then Some (HUp i) else None
    | HCore, VA i | HFull, VA i => Some (HUp i)
    | _, _ => None end.
  Definition ho_wr (v : var) : option hon := match v with VA i => if i <? N then Some (HUp i) else None | _ => None end.
  Definition ho_rank (n : hon) : nat :=
    match n with
    | HY m => 10 * m + 11
    | HSvd m => 10 * m + 12
    | HUp m => 10 * m + 13
    | HCore => 10 * N + 11
    | HFull => 10 * N + 12
    | _ => 10 * N + 13 end.

  Lemma ho_prec_dom n d : ho_dom n -> prec g d n -> ho_dom d.
  Proof. intros Hn H. destruct n; crack; cbn in *; try lia; exact I. Qed.

  Lemma ho_needed n : nd n -> ho_dom n.
  Proof. apply needed_in; [|exact ho_prec_dom]. intros f H. unfold hooi_fetch in H. crack; cbn; try lia; exact I. Qed.

  Lemma ho_rank_lt d n : nd n -> prec g d n -> ho_rank d < ho_rank n.
  Proof. intros Hn H. apply ho_needed in Hn. destruct n; crack; cbn in *; lia. Qed.

  Lemma ho_up m : m < N -> nd (HUp m).
  Proof. intros H. apply needed_fetch. unfold hooi_fetch. apply in_or_app. left. apply in_map, in_seq. lia. Qed.

  Lemma y_up m : before g (HY m) (HUp m).
  Proof. eapply before_trans; [apply (before_data g _ (HSvd m))|apply before_data]; left; reflexivity. Qed.
  Lemma hup_next m : before g (HUp m) (HUp (S m)).
  Proof. eapply before_trans; [|apply y_up]. apply before_ctrl. left. reflexivity. Qed.
  Lemma hup_up i j : i <= j -> HUp i = HUp j \/ before g (HUp i) (HUp j).
  Proof. intros H. induction H as [|j H IH]; [auto|]. right. destruct IH as [->|IH]; [apply hup_next|]. eapply before_trans; [exact IH|apply hup_next]. Qed.

  Lemma ho_dom_needed n : ho_dom n -> nd n.
  Proof.
    intros H. destruct n; cbn in H.
    - eapply needed_before; [apply (ho_up m H)|]. apply y_up.
    - eapply needed_before; [apply (ho_up m H)|]. apply before_data. left. reflexivity.
    - apply ho_up, H.
    - apply needed_fetch, in_or_app. right. cbn. tauto.
    - apply needed_fetch, in_or_app. right. cbn. tauto.
    - apply needed_fetch, in_or_app. right. cbn. tauto.
    - apply needed_fetch, in_or_app. right. cbn. tauto.
    - apply needed_fetch, in_or_app. right. cbn. tauto.
  Qed.

  Lemma ho_resolved : resolved g (hooi_fetch X) ho_src ho_wr.
  Proof.
    split.
    - intros w v Hw W. apply ho_needed in Hw. destruct w; cbn in W; try discriminate. injection W as <-. cbn in *. destruct (Nat.ltb_spec m N); [reflexivity|lia].
    - intros w v H. destruct v; cbn in H; try discriminate. destruct (Nat.ltb_spec i N) as [Hi|]; [|discriminate]. injection H as <-. split; [apply ho_up, Hi|reflexivity].
    - intros n v l w Hn I Hs. apply ho_needed in Hn. destruct n; cbn in I; try contradiction.
      + destruct v as [j| | | | | | | | |]; try discriminate. cbn in Hs. destruct (Nat.ltb_spec j m) as [Hj|]; [|discriminate]. injection Hs as <-.
        split; [reflexivity|]. assert (l = previous HUp m) by (crack; reflexivity). subst l. destruct m as [|m]; [lia|]. exists (HUp m). split; [left; reflexivity|]. apply hup_up. lia.
      + crack. split; [reflexivity|]. eexists. split; [left; reflexivity|left; reflexivity].
      + crack. split; [reflexivity|]. eexists. split; [left; reflexivity|left; reflexivity].
    - intros n v l w Hn I Hs Hw W. apply ho_needed in Hn, Hw. right. destruct w; cbn in W; try discriminate. injection W as <-. cbn in Hw.
      destruct n; cbn in I; try contradiction; try discriminate Hs.
      cbn in Hs. destruct (Nat.ltb_spec m m0) as [|Hge]; [discriminate|]. destruct (hup_up m0 m Hge) as [<-|B]; [apply y_up|]. eapply before_trans; [apply y_up|exact B].
  Qed.

  Variable A : list (tensor T).
  Hypothesis HA : length A = N.
  Notation at_ val m := (swept dum A (fun i => val (HUp i)) N m).
  Notation sol := (solution g (hooi_fetch X) ho_src (cp_vars A)).

  Lemma ho_y_reads val m : map (fun r => seen ho_src (cp_vars A) val (HY m) (fst r)) (g_reads g (HY m)) = skip_ (at_ val m) (SkInt (Z.of_nat m)).
  Proof.
    cbn [g_reads hooi_graph]. rewrite skipping_map, map_map, swept_skip. apply map_ext. intros i. cbn [fst]. unfold seen. cbn. destruct (i <? m); reflexivity.
  Qed.
  Lemma ho_all_reads val n : n = HCore \/ n = HFull -> map (fun r => seen ho_src (cp_vars A) val n (fst r)) (g_reads g n) = at_ val N.
  Proof.
    intros [->| ->]; cbn [g_reads hooi_graph]; rewrite map_map; unfold swept; apply map_ext_in; intros i Hi; apply in_seq in Hi; cbn [fst]; unfold seen; cbn;
    destruct (Nat.ltb_spec i N); reflexivity || lia.
  Qed.

  Definition ho_result (val : hon -> tensor T) : hooi_out T :=
    mkHO (at_ val N) (val HCore) (val HFull) (mkM (unscl (val HLoss)) (unscl (val HObj)) (unscl (val HRel))).

  Lemma ho_kernel_y m rs : g_kernel g (HY m) [] rs = ttm X (firstn m rs ++ [dum] ++ skipn m rs) None true (SkInt (Z.of_nat m)).
  Proof. destruct rs as [|? [|? [|? ?]]]; reflexivity. Qed.
  Lemma ho_kernel_core rs : g_kernel g HCore [] rs = ttm X rs None true SkNone.
  Proof. destruct rs as [|? [|? [|? ?]]]; reflexivity. Qed.
  Lemma ho_kernel_full c rs : g_kernel g HFull [c] rs = tt_extract c rs.
  Proof. destruct rs as [|? [|? [|? ?]]]; reflexivity. Qed.

  Lemma ho_mode_eq val m : m < N ->
    (g_kernel g (HY m) [] (skip_ (at_ val m) (SkInt (Z.of_nat m))) = ttm X (at_ val m) None true (SkInt (Z.of_nat m))).
  Proof. intros Hm. rewrite ho_kernel_y. apply ttm_insert. rewrite swept_length. exact Hm. Qed.

  Lemma ho_sol_mode val m : sol val -> m < N -> hooi_mode svdU X ranks m (at_ val m) = Ok (at_ val (S m)).
  Proof.
    intros HS Hm. unfold hooi_mode.
    pose proof (HS (HY m) (ho_dom_needed (HY m) Hm)) as E1. rewrite ho_y_reads, ho_mode_eq in E1 by exact Hm. rewrite E1. cbn [bind].
    pose proof (HS (HSvd m) (ho_dom_needed (HSvd m) Hm)) as E2. cbn [g_kernel g_data g_reads hooi_graph map] in E2.
    destruct (unfold (val (HY m)) (Z.of_nat m)) as [u|]; [|discriminate]. cbn [bind] in *. injection E2 as E2. rewrite E2.
    pose proof (HS (HUp m) (ho_dom_needed (HUp m) Hm)) as E3. cbn [g_kernel g_data g_reads hooi_graph map] in E3.
    destruct (pynth ranks (Z.of_nat m)) as [r|]; [|discriminate]. cbn [bind] in *.
    destruct (pynth (shp X) (Z.of_nat m)) as [d|]; [|discriminate]. cbn [bind] in *.
    destruct (tf_columns (val (HSvd m)) r) as [c|]; [|discriminate]. cbn [bind] in *. rewrite E3. cbn [bind].
    rewrite <- swept_upd by exact Hm. reflexivity.
  Qed.

  Lemma ho_sol_step val : sol val -> hooi_step svdU X ranks A = Ok (ho_result val).
  Proof.
    intros HS. unfold hooi_step.
    pose proof (states_loop (hooi_mode svdU X ranks) (hooi_modes svdU X ranks) (fun m => at_ val m) (fun _ => eq_refl) (fun _ _ _ => eq_refl) N 0 (fun m Hm => ho_sol_mode val m HS (proj2 Hm))) as E.
    cbn beta in E. rewrite swept_0 in E by exact HA. rewrite E. cbn [bind Nat.add].
    pose proof (HS HCore (ho_dom_needed HCore I)) as E1. rewrite (ho_all_reads val HCore) in E1 by auto. cbn [g_data hooi_graph map] in E1. rewrite ho_kernel_core in E1. rewrite E1. cbn [bind].
    pose proof (HS HFull (ho_dom_needed HFull I)) as E2. rewrite (ho_all_reads val HFull) in E2 by auto. cbn [g_data hooi_graph map] in E2. rewrite ho_kernel_full in E2. rewrite E2. cbn [bind].
    rewrite (metrics_nodes X (val HFull) (val HLoss) (val HObj) (val HRel)); [reflexivity| | |].
    - exact (HS HLoss (ho_dom_needed HLoss I)).
    - exact (HS HObj (ho_dom_needed HObj I)).
    - exact (HS HRel (ho_dom_needed HRel I)).
  Qed.

  Lemma ho_step_sol out : hooi_step svdU X ranks A = Ok out -> exists val, sol val.
  Proof.
    unfold hooi_step. intros H. destruct (hooi_modes svdU X ranks (seq 0 N) A) as [A'|] eqn:Em; [|discriminate]. cbn [bind] in H.
    destruct (loop_states (hooi_mode svdU X ranks) (hooi_modes svdU X ranks) (fun _ => eq_refl) (fun _ _ _ => eq_refl) N 0 A A' Em) as (st & E0 & E1 & Hst). cbn [Nat.add] in E1, Hst.
    destruct (ttm X A' None true SkNone) as [c|] eqn:Ec; [|discriminate]. cbn [bind] in H.
    destruct (tt_extract c A') as [full|] eqn:Ef; [|discriminate]. cbn [bind] in H.
    destruct (metrics_of X full) as [mt|] eqn:Emt; [|discriminate]. destruct (nodes_metrics _ _ _ Emt) as (HL & HO & HR).
    pose (val n := match n with
                   | HY m => okd (ttm X (st m) None true (SkInt (Z.of_nat m)))
                   | HSvd m => svdU (okd (unfold (okd (ttm X (st m) None true (SkInt (Z.of_nat m)))) (Z.of_nat m)))
                   | HUp m => nth m (st (S m)) dum
                   | HCore => c | HFull => full
                   | HLoss => scl (m_loss mt) | HObj => scl (m_obj mt) | HRel => scl (m_rel mt) end).
    assert (Hmode : forall m, m < N -> ttm X (st m) None true (SkInt (Z.of_nat m)) = Ok (val (HY m)) /\
              (do u <- unfold (val (HY m)) (Z.of_nat m); Ok (svdU u)) = Ok (val (HSvd m)) /\
              exists v, (do r <- pynth ranks (Z.of_nat m); do d <- pynth (shp X) (Z.of_nat m); do cc <- tf_columns (val (HSvd m)) r; assign_chk d r cc) = Ok v /\ st (S m) = upd (st m) m v).
    { intros m Hm. pose proof (Hst m ltac:(lia)) as E. unfold hooi_mode in E. cbn [val].
      destruct (ttm X (st m) None true (SkInt (Z.of_nat m))) as [y|]; [|discriminate]. cbn [bind okd] in *. split; [reflexivity|].
      destruct (unfold y (Z.of_nat m)) as [u|]; [|discriminate]. cbn [bind okd] in *. split; [reflexivity|].
      destruct (pynth ranks (Z.of_nat m)) as [r|]; [|discriminate]. cbn [bind] in *.
      destruct (pynth (shp X) (Z.of_nat m)) as [d|]; [|discriminate]. cbn [bind] in *.
      destruct (tf_columns (svdU u) r) as [cc|]; [|discriminate]. cbn [bind] in *.
      destruct (assign_chk d r cc) as [v|]; [|discriminate]. cbn [bind] in E. injection E as E. exists v. auto. }
    assert (Hsw : forall m, m <= N -> st m = at_ val m).
    { apply (swept_states dum A N st HA E0). intros m Hm. destruct (Hmode m Hm) as (_ & _ & v & _ & Ev). exists v. exact Ev. }
    exists val. intros n Hn. apply ho_needed in Hn. destruct n; cbn in Hn.
    - rewrite ho_y_reads. cbn [g_data hooi_graph map]. rewrite ho_mode_eq by exact Hn. rewrite <- Hsw by lia. apply Hmode, Hn.
    - apply (Hmode m Hn).
    - destruct (Hmode m Hn) as (_ & _ & v & Ev & Es). cbn [g_kernel g_data g_reads hooi_graph map]. rewrite Ev. cbn [val]. rewrite Es, nth_upd, Nat.eqb_refl.
      rewrite (Hsw m) by lia. rewrite swept_length. destruct (Nat.ltb_spec m N); [reflexivity|lia].
    - rewrite ho_all_reads by auto. cbn [g_data hooi_graph map]. rewrite ho_kernel_core, <- Hsw, E1 by lia. exact Ec.
    - rewrite ho_all_reads by auto. cbn [g_data hooi_graph map]. rewrite ho_kernel_full, <- Hsw, E1 by lia. exact Ef.
    - exact HL.
    - exact HO.
    - exact HR.
  Qed.

  Lemma ho_exec (E : execution g (hooi_fetch X) (cp_vars A)) : finished g E ->
    exists out, hooi_step svdU X ranks A = Ok out /\ length (ho_A out) = N /\
      (forall v, final g E v (cp_vars (ho_A out) v)) /\
      (forall m, m < N -> fetched g E (HUp m) (nth m (ho_A out) dum)) /\
      e_val E HCore = Ok (ho_core out) /\ e_val E HFull = Ok (ho_full out) /\
      e_val E HLoss = Ok (scl (m_loss (ho_met out))) /\ e_val E HObj = Ok (scl (m_obj (ho_met out))) /\ e_val E HRel = Ok (scl (m_rel (ho_met out))).
  Proof.
    intros HF. destruct (finished_solution g (hooi_fetch X) ho_src ho_wr (cp_vars A) ho_resolved E dum HF) as (val & Hv & HS).
    exists (ho_result val). split; [apply ho_sol_step, HS|]. split; [apply swept_length|].
    split.
    { intros v. destruct v as [i| | | | | | | | |]; try (apply (final_old g (hooi_fetch X) E); intros w _ W; destruct w; discriminate W).
      destruct (Nat.lt_ge_cases i N) as [Hi|Hi].
      - cbn [cp_vars ho_result ho_A]. rewrite swept_all by exact Hi. destruct (Hv (HUp i) (ho_up i Hi)) as (R & Hx). eapply (final_new g (hooi_fetch X) E ho_src ho_wr ho_resolved (HUp i)); [exact R|reflexivity|exact Hx].
      - replace (cp_vars (ho_A (ho_result val)) (VA i)) with (cp_vars A (VA i)).
        + apply (final_old g (hooi_fetch X) E). intros w Hw W. apply ho_needed in Hw. destruct w; try discriminate W. injection W as ->. cbn in Hw. lia.
        + cbn. rewrite !nth_overflow; [reflexivity| |lia]. rewrite swept_length. lia. }
    split.
    { intros m Hm. cbn [ho_result ho_A]. rewrite swept_all by exact Hm. destruct (Hv (HUp m) (ho_up m Hm)) as (R & Hx). eapply (fetched_ok g (hooi_fetch X) E ho_src ho_wr ho_resolved); assumption. }
    cbn [ho_result ho_core ho_full ho_met m_loss m_obj m_rel].
    split; [apply Hv, ho_dom_needed; exact I|]. split; [apply Hv, ho_dom_needed; exact I|].
    pose proof (metrics_scl X (val HFull) _ _ _ (HS HLoss (ho_dom_needed HLoss I)) (HS HObj (ho_dom_needed HObj I)) (HS HRel (ho_dom_needed HRel I))) as (K1 & K2 & K3).
    rewrite <- K1, <- K2, <- K3. split; [|split]; apply Hv, ho_dom_needed; exact I.
  Qed.

  Lemma ho_no_failure out (E : execution g (hooi_fetch X) (cp_vars A)) n : hooi_step svdU X ranks A = Ok out -> e_ran E n -> is_ok (e_val E n).
  Proof.
    intros H R. destruct (ho_step_sol out H) as (val & HS). exists (val n). eapply (solution_unique g (hooi_fetch X) ho_src ho_wr (cp_vars A) ho_resolved); eauto.
  Qed.

  Lemma ho_exists out : hooi_step svdU X ranks A = Ok out -> exists E : execution g (hooi_fetch X) (cp_vars A), finished g E.
  Proof.
    intros H. destruct (ho_step_sol out H) as (val & HS). eapply (solution_exists g (hooi_fetch X) ho_src ho_wr (cp_vars A) ho_resolved val ho_rank HS). exact ho_rank_lt.
  Qed.
End Hooi.
