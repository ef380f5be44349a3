(** What NCP_BCU and NTUCKER_BCU do after a rejected step, and which model they publish. *)

From Coq Require Import ZArith List Bool Arith Lia Reals Lra.
From Verif Require Import Num Py Tensor TF TFFacts Ops Types Loss Fact Train Spec SpecR SpecTrain SpecTucker SpecBcu SpecCp SpecProx SpecRetry
  RSums BcuFacts TrainFacts TrainLemmas CpFacts AlsFacts AlsLemmas NcpFacts NcpLemmas NtFacts NtLemmas NonZero TensorFacts TuckerFacts TuckerRun TuckerLemmas MultiR SpecFacts Sums Matricize.
Import ListNotations.

Section Any.
  Context {T : Type} {NT : Num T}.

  Lemma not_accepted (os : list (sobs T)) k : k < length os -> ~ accepted os k -> nltb (m_obj (met os k)) (ref_best os k) = false.
  Proof. intros Hk H. destruct (nltb _ _) eqn:E; [exfalso; apply H; split; auto|reflexivity]. Qed.

  Lemma obs_at_nth (os : list (sobs T)) k : k < length os -> nth_error os k = Some (obs_at os k).
  Proof. intros H. apply nth_error_nth'. exact H. Qed.

  Lemma ncp_modes_A0 svals (mats : list (tensor T)) modes : forall s s', ncp_modes svals mats modes s = Ok s' -> n_A0 s' = n_A0 s.
  Proof.
    induction modes as [|m r IH]; intros s s' H; simpl in H; [congruence|]. mon H. apply IH in H. rewrite H.
    unfold ncp_mode in E. mon E. injection E as <-. reflexivity.
  Qed.
  Lemma ncp_run_A0 svals (X : tensor T) s s' o : ncp_run svals X s = Ok (s', o) -> n_A0 s' = n_A0 s.
  Proof. unfold ncp_run, ncp_step. intros H. mon H. injection H as <- <-. mon E. injection E as <- <- <-. cbn [n_A0]. eapply ncp_modes_A0, E1. Qed.

  Lemma nt_modes_A0 svals (mats : list (tensor T)) modes : forall s s', nt_modes svals mats modes s = Ok s' -> q_A0 s' = q_A0 s /\ q_g0 s' = q_g0 s.
  Proof.
    induction modes as [|m r IH]; intros s s' H; simpl in H; [injection H as <-; auto|]. mon H. apply IH in H. destruct H as [-> ->].
    unfold nt_mode in E. mon E. injection E as <-. auto.
  Qed.
  Lemma nt_run_A0 svals (X : tensor T) s s1 c s2 o : nt_pre svals X s = Ok (s1, c) -> nt_factors svals X s1 = Ok (s2, o) ->
    q_A0 s2 = q_A0 s /\ q_g0 s2 = q_g0 s.
  Proof.
    unfold nt_pre, nt_factors, nt_fact. intros H1 H2. mon H1. injection H1 as <- <-. unfold nt_core in E. mon E. injection E as <-.
    mon H2. injection H2 as <- <-. mon E. injection E as <- <- <-. match goal with G : nt_modes _ _ _ _ = Ok _ |- _ => apply nt_modes_A0 in G; exact G end.
  Qed.

  (** C72: the point from which the step after a rejection starts *)
  Lemma ncp_since pow svals (X : tensor T) rnd os st j : states (ncp_run svals X) (fun s => Ok (s, None)) ncp_accept (fun s => Ok (ncp_reject s)) (ncp_init pow X rnd) os st ->
    accepted os j -> forall k, j <= k -> S k < length os -> (forall i, j < i <= k -> ~ accepted os i) ->
    n_A0 (st (S k)) = ob_factors (obs_at os j) /\ n_A (st (S k)) = ob_factors (obs_at os k) /\ (j < k -> n_Am (st (S k)) = n_A0 (st (S k))).
  Proof.
    intros [_ H] Hj k Hk. induction k as [|k IH]; intros Hl Hr.
    - assert (j = 0) by lia. subst j. destruct (H 0 _ (obs_at_nth os 0 ltac:(lia))) as (s1 & c & s2 & E1 & E2 & E3).
      specialize (E3 Hl). destruct Hj as [_ Hj]. rewrite Hj in E3. apply ncp_run_obs in E2 as (_ & F & _).
      unfold ncp_accept in E3. mon E3. injection E3 as <-. cbn [n_A0 n_A]. rewrite F. repeat split. lia.
    - destruct (H (S k) _ (obs_at_nth os (S k) ltac:(lia))) as (s1 & c & s2 & E1 & E2 & E3). injection E1 as <- <-.
      specialize (E3 Hl). pose proof (ncp_run_A0 _ _ _ _ _ E2) as F0. apply ncp_run_obs in E2 as (_ & F & _).
      destruct (Nat.eq_dec j (S k)) as [->|Hne].
      + destruct Hj as [_ Hj]. rewrite Hj in E3. unfold ncp_accept in E3. mon E3. injection E3 as <-. cbn [n_A0 n_A]. rewrite F. repeat split. lia.
      + rewrite (not_accepted os (S k)) in E3 by (try lia; apply Hr; lia). injection E3 as <-. cbn [ncp_reject n_A0 n_A n_Am]. rewrite F, F0.
        destruct (IH ltac:(lia) ltac:(lia)) as (I1 & _ & _); [intros i Hi; apply Hr; lia|]. rewrite I1. auto.
  Qed.

  Lemma ncp_retry_point pow svals (X : tensor T) rnd os st j k : states (ncp_run svals X) (fun s => Ok (s, None)) ncp_accept (fun s => Ok (ncp_reject s)) (ncp_init pow X rnd) os st ->
    rejected_since os j k -> S k < length os ->
    n_Am (st (S k)) = ob_factors (obs_at os j) /\ n_A0 (st (S k)) = ob_factors (obs_at os j) /\ n_A (st (S k)) = ob_factors (obs_at os k).
  Proof.
    intros H (Ha & Hk & Hr) Hl. destruct (ncp_since pow svals X rnd os st j H Ha k ltac:(lia) Hl Hr) as (F1 & F2 & F3). rewrite F3, F1 by lia. auto.
  Qed.

  Lemma nt_since pow svals (X : tensor T) rnd os st j : states (nt_factors svals X) (nt_pre svals X) nt_accept (fun s => Ok (nt_reject s)) (nt_init pow X (fst rnd) (snd rnd)) os st ->
    accepted os j -> forall k, j <= k -> S k < length os -> (forall i, j < i <= k -> ~ accepted os i) ->
    q_A0 (st (S k)) = ob_factors (obs_at os j) /\ tt_extract (q_g0 (st (S k))) (q_A0 (st (S k))) = Ok (ob_full (obs_at os j)) /\
    q_A (st (S k)) = ob_factors (obs_at os k) /\ tt_extract (q_g (st (S k))) (q_A (st (S k))) = Ok (ob_full (obs_at os k)) /\
    (j < k -> q_Am (st (S k)) = q_A0 (st (S k)) /\ q_gm (st (S k)) = q_g0 (st (S k))).
  Proof.
    intros [_ H] Hj k Hk. induction k as [|k IH]; intros Hl Hr.
    - assert (j = 0) by lia. subst j. destruct (H 0 _ (obs_at_nth os 0 ltac:(lia))) as (s1 & c & s2 & E1 & E2 & E3).
      specialize (E3 Hl). destruct Hj as [_ Hj]. rewrite Hj in E3. apply nt_run_obs in E2 as (F & _ & Fg & Ff & _). rewrite <- Fg in Ff.
      unfold nt_accept in E3. mon E3. injection E3 as <-. cbn [q_A0 q_A q_g q_g0]. rewrite <- F in *. repeat split; auto; lia.
    - destruct (H (S k) _ (obs_at_nth os (S k) ltac:(lia))) as (s1 & c & s2 & E1 & E2 & E3).
      specialize (E3 Hl). destruct (nt_run_A0 _ _ _ _ _ _ _ E1 E2) as [F0 G0]. apply nt_run_obs in E2 as (F & _ & Fg & Ff & _). rewrite <- Fg in Ff.
      destruct (Nat.eq_dec j (S k)) as [->|Hne].
      + destruct Hj as [_ Hj]. rewrite Hj in E3. unfold nt_accept in E3. mon E3. injection E3 as <-. cbn [q_A0 q_A q_g q_g0]. rewrite <- F in *. repeat split; auto; lia.
      + rewrite (not_accepted os (S k)) in E3 by (try lia; apply Hr; lia). injection E3 as <-. cbn [nt_reject q_A0 q_A q_Am q_g q_g0 q_gm]. rewrite <- F in *. rewrite F0, G0.
        destruct (IH ltac:(lia) ltac:(lia)) as (I1 & I2 & _); [intros i Hi; apply Hr; lia|]. rewrite I1 in *. auto 10.
  Qed.

  Lemma nt_retry_point pow svals (X : tensor T) rnd os st j k : states (nt_factors svals X) (nt_pre svals X) nt_accept (fun s => Ok (nt_reject s)) (nt_init pow X (fst rnd) (snd rnd)) os st ->
    rejected_since os j k -> S k < length os ->
    q_Am (st (S k)) = ob_factors (obs_at os j) /\ tt_extract (q_gm (st (S k))) (q_Am (st (S k))) = Ok (ob_full (obs_at os j)) /\
    q_A (st (S k)) = ob_factors (obs_at os k) /\ tt_extract (q_g (st (S k))) (q_A (st (S k))) = Ok (ob_full (obs_at os k)).
  Proof.
    intros H (Ha & Hk & Hr) Hl. destruct (nt_since pow svals X rnd os st j H Ha k ltac:(lia) Hl Hr) as (F1 & F2 & F3 & F4 & F5).
    destruct F5 as [F5 F6]; [lia|]. rewrite F5, F6. auto.
  Qed.
  (** C73: the published factors are those of the last step *)
  Lemma ncp_pub_ok pow svals (X : tensor T) w o rnd steps o' h : ncp_train pow svals X w o rnd steps = (o', Ok h) ->
    exists args rank id os ob, o_built o = Some ((args, rank), id) /\
      bcu_run (ncp_run svals X) (fun s => Ok (s, None)) ncp_accept (fun s => Ok (ncp_reject s)) (ncp_init pow X rnd) os /\
      h = map entry os /\ stopped_by (fires (a_tol args) ref_best os) steps (length os) /\
      nth_error os (length os - 1) = Some ob /\ p_factors (o_pub o') = Some (ob_factors ob) /\ full_of_last_validation args steps os (o_pub o').
  Proof.
    intros H. apply train_ok in H as ([args rank] & id & p & p' & Hb & _ & _ & H & ->). unfold ncp_body in H.
    apply bcu_body_ok in H as (s0 & os & p1 & Hi & Hr & (Hh & Hst & (_ & _ & Hf & Hfull) & _) & -> & _). injection Hi as <-. pose proof (proj1 Hst) as Hn.
    exists args, rank, id, os, (obs_at os (length os - 1)). pose proof (obs_at_nth os (length os - 1) ltac:(lia)) as Ho.
    split; [exact Hb|]. split; [exact Hr|]. split; [exact Hh|]. split; [exact Hst|]. split; [exact Ho|]. split; [apply (Hf _ Ho)|].
    apply Hfull. destruct os; [simpl in Hn; lia|discriminate].
  Qed.
  Lemma nt_pub_ok pow svals (X : tensor T) w o rnd steps o' h : nt_train pow svals X w o rnd steps = (o', Ok h) ->
    exists args id os ob, o_built o = Some (args, id) /\
      bcu_run (nt_factors svals X) (nt_pre svals X) nt_accept (fun s => Ok (nt_reject s)) (nt_init pow X (fst rnd) (snd rnd)) os /\
      h = map entry os /\ stopped_by (fires (a_tol args) ref_best os) steps (length os) /\
      nth_error os (length os - 1) = Some ob /\ p_factors (o_pub o') = Some (ob_factors ob) /\ full_of_last_validation args steps os (o_pub o').
  Proof.
    intros H. apply train_ok in H as (args & id & p & p' & Hb & _ & _ & H & ->). unfold nt_body in H.
    apply bcu_body_ok in H as (s0 & os & p1 & Hi & Hr & (Hh & Hst & (_ & _ & Hf & Hfull) & _) & -> & _). injection Hi as <-. pose proof (proj1 Hst) as Hn.
    exists args, id, os, (obs_at os (length os - 1)). pose proof (obs_at_nth os (length os - 1) ltac:(lia)) as Ho.
    split; [exact Hb|]. split; [exact Hr|]. split; [exact Hh|]. split; [exact Hst|]. split; [exact Ho|]. split; [apply (Hf _ Ho)|].
    apply Hfull. destruct os; [simpl in Hn; lia|discriminate].
  Qed.

  Lemma ncp_publishes_last pow svals (X : tensor T) w o rnd steps o' h : ncp_train pow svals X w o rnd steps = (o', Ok h) ->
    exists os, bcu_run (ncp_run svals X) (fun s => Ok (s, None)) ncp_accept (fun s => Ok (ncp_reject s)) (ncp_init pow X rnd) os /\
      h = map entry os /\ os <> [] /\ p_factors (o_pub o') = Some (ob_factors (obs_at os (length os - 1))).
  Proof.
    intros H. apply train_ok in H as ([args rank] & id & p & p' & Hb & _ & _ & H & ->). unfold ncp_body in H.
    apply bcu_body_ok in H as (s0 & os & p1 & Hi & Hr & (Hh & [Hn Hs] & (_ & _ & Hf & _) & _) & -> & _). injection Hi as <-.
    exists os. split; [exact Hr|]. split; [exact Hh|]. split; [destruct os; [simpl in Hn; lia|discriminate]|].
    destruct (Hf _ (obs_at_nth os (length os - 1) ltac:(lia))) as [F _]. exact F.
  Qed.
  Lemma nt_publishes_last pow svals (X : tensor T) w o rnd steps o' h : nt_train pow svals X w o rnd steps = (o', Ok h) ->
    exists os, bcu_run (nt_factors svals X) (nt_pre svals X) nt_accept (fun s => Ok (nt_reject s)) (nt_init pow X (fst rnd) (snd rnd)) os /\
      h = map entry os /\ os <> [] /\ exists A g, p_factors (o_pub o') = Some A /\ p_aux (o_pub o') = Some g /\
        A = ob_factors (obs_at os (length os - 1)) /\ tt_extract g A = Ok (ob_full (obs_at os (length os - 1))).
  Proof.
    intros H. apply train_ok in H as (args & id & p & p' & Hb & _ & _ & H & ->). unfold nt_body in H.
    apply bcu_body_ok in H as (s0 & os & p1 & Hi & Hr & (Hh & [Hn Hs] & (_ & _ & Hf & _) & _) & -> & Hc). injection Hi as <-.
    exists os. split; [exact Hr|]. split; [exact Hh|]. split; [destruct os; [simpl in Hn; lia|discriminate]|].
    destruct Hc as (s & s1 & c & s2 & ob & Ho & Hpre & Hrun & Haux). destruct (Hf _ Ho) as [F _].
    rewrite (obs_at_nth os (length os - 1)) in Ho by lia. injection Ho as Ho. rewrite Ho.
    apply nt_pre_core in Hpre. apply nt_run_obs in Hrun as (E1 & E2 & E3 & E4 & _).
    exists (ob_factors ob), (q_g s1). split; [exact F|]. split; [exact (Haux E2 _ Hpre)|]. split; [reflexivity|]. rewrite E1. exact E4.
  Qed.
End Any.

Local Open Scope R_scope.

Lemma nth_firstn' {B} (l : list B) m : forall j d, (j < m)%nat -> nth j (firstn m l) d = nth j l d.
Proof. revert l. induction m as [|m IH]; intros l j d H; [lia|]. destruct l; [reflexivity|]. destruct j; [reflexivity|]. simpl. apply IH. lia. Qed.

Lemma best_when_accepted (os : list (sobs R)) : accepted os (length os - 1) -> best_step os (length os - 1).
Proof.
  intros H. destruct H as [Hl Ha]. split; [exact Hl|]. intros i Hi. cbn [nltb NumR] in *.
  destruct (Rlt_dec (m_obj (met os i)) (m_obj (met os (length os - 1)))) as [L|L]; [|reflexivity]. exfalso.
  destruct (Rlt_dec (m_obj (met os (length os - 1))) (ref_best os (length os - 1))) as [L2|]; [|discriminate Ha].
  destruct (Nat.eq_dec i (length os - 1)) as [->|]; [lra|].
  destruct (ref_best_min os (length os - 1) ltac:(lia)) as [G _]. specialize (G i ltac:(lia)). lra.
Qed.

(** ** the second step is not extrapolated *)
Lemma nonneg_of (A : list (tensor R)) : all_not_negative A -> forall M, In M A -> nonneg M.
Proof. intros H M HM. apply nnR_spec, H, HM. Qed.

Lemma ncp_obj svals (X : tensor R) r s s2 o : wf X -> ncp_wf X r s -> ncp_run svals X s = Ok (s2, o) ->
  m_obj (ob_met o) = / 2 * sqdist X (cp_tensor r (ones r) (n_A s2)).
Proof.
  intros HX HW H. unfold ncp_run in H. apply bind_ok in H as ([[s' full] m] & E & H). injection H as <- <-. cbn [ob_met].
  destruct (ncp_parts svals X r s s' full m HW E) as (_ & _ & _ & _ & _ & mats & _ & _ & Ef & Em).
  pose proof (metrics_shape _ _ _ Em) as Hs. destruct (metrics_R X _ _ HX Em) as (_ & M & _). rewrite M, (sqdist_comm _ _ Hs), Ef. reflexivity.
Qed.

Lemma ncp_weight0 (s s' : ncp_state R) X r : ncp_wf X r s -> n_t0 s = 1 -> ncp_accept s = Ok s' -> n_Am s' = n_A s'.
Proof.
  intros HW Ht E. destruct (ncp_accept_wf X r s HW) as (s'' & E' & W'). assert (s'' = s') by congruence. subst s''.
  destruct HW as ((LA & HA) & _ & (LA0 & HA0) & HL & HL0).
  destruct (ncp_accept_spec s s' (mkT [] []) (ndims X) E LA LA0 HL HL0) as (_ & _ & G).
  pose proof (ncp_accept_A _ _ E) as EA. destruct W' as (_ & (LAm & HAm) & _).
  apply (list_nth_ext _ _ (mkT [] [])); [congruence|]. intros k Hk. rewrite LAm in Hk. specialize (G k Hk). destruct G as [Gw Gm].
  destruct (HAm k Hk) as [W1 S1]. destruct (HA k Hk) as [W2 S2]. destruct (HA0 k Hk) as [_ S3]. unfold mat_at in *. rewrite EA.
  apply tensor_ext; auto; [congruence|]. intros i Hi. rewrite S1 in Hi. rewrite Gm; [|congruence|rewrite S2; exact Hi].
  replace (nth k (n_w s') 0) with 0; [ring|]. rewrite Gw, Ht. unfold Rdiv. rewrite Rminus_diag_eq, Rmult_0_l by reflexivity.
  rewrite Rmin_left; [reflexivity|apply sqrt_pos].
Qed.

Lemma ncp_second_step pow svals (X : tensor R) r rnd s1 o1 s1' s2 o2 : spectral svals -> wf X -> (0 < r)%nat -> cp_factors X r rnd ->
  ncp_run svals X (ncp_init pow X rnd) = Ok (s1, o1) -> ncp_accept s1 = Ok s1' -> ncp_run svals X s1' = Ok (s2, o2) ->
  m_obj (ob_met o1) < / 2 * sqlen X -> m_obj (ob_met o2) <= m_obj (ob_met o1).
Proof.
  intros HS HX Hr HR E1 Ea E2 HL. pose proof (ncp_init_wf pow X r rnd HR) as W0. pose proof (ncp_run_wf _ _ _ _ _ _ W0 E1) as W1.
  destruct (ncp_accept_wf X r s1 W1) as (s' & E & W1'). assert (s' = s1') by congruence. subst s'.
  assert (Ht : n_t0 s1 = 1). { apply ncp_run_t in E1. destruct E1 as [-> _]. reflexivity. }
  pose proof (ncp_weight0 s1 s1' X r W1 Ht Ea) as Eam. pose proof (ncp_accept_A _ _ Ea) as EA.
  pose proof (ncp_run_pos ltR00 svals X _ _ _ (proj1 (proj1 W0)) E1) as (Hp & _ & Hf).
  rewrite (ncp_obj svals X r _ _ _ HX W0 E1) in HL |- *. rewrite <- EA in HL |- *.
  unfold ncp_run in E2. apply bind_ok in E2 as ([[s3 full] m] & E2 & H). injection H as <- <-. cbn [ob_met].
  destruct (c50_better svals X r s1' s3 full m HS HX Hr W1' E2 Eam) as (_ & D1 & D2); [|lra|rewrite D2; lra].
  rewrite EA, <- Hf. apply nonneg_of, Hp.
Qed.

Lemma ncp_states_reach pow svals (X : tensor R) rnd os st : states (ncp_run svals X) (fun s => Ok (s, None)) ncp_accept (fun s => Ok (ncp_reject s)) (ncp_init pow X rnd) os st ->
  forall k, (k < length os)%nat -> reach (fun s => Ok (s, None)) (ncp_run svals X) ncp_accept (fun s => Ok (ncp_reject s)) (ncp_init pow X rnd) (st k).
Proof.
  intros [H0 H] k. induction k as [|k IH]; intros Hk; [rewrite H0; constructor|]. specialize (IH ltac:(lia)).
  destruct (H k _ (obs_at_nth os k ltac:(lia))) as (s1 & c & s2 & E1 & E2 & E3). specialize (E3 Hk).
  destruct (nltb _ _); [eapply reach_accept; eassumption|eapply reach_reject; eassumption].
Qed.

Lemma met_obs (os : list (sobs R)) k : (k < length os)%nat -> met os k = ob_met (obs_at os k).
Proof. intros H. unfold met, obs_at. rewrite (nth_map_lt ob_met os k obs0) by exact H. reflexivity. Qed.

Lemma ncp_restored_descends pow svals (X : tensor R) r rnd os st j k s2 full m : spectral svals -> wf X -> (0 < r)%nat -> cp_factors X r rnd ->
  states (ncp_run svals X) (fun s => Ok (s, None)) ncp_accept (fun s => Ok (ncp_reject s)) (ncp_init pow X rnd) os st ->
  rejected_since os j k -> (S k < length os)%nat -> ncp_step svals X (ncp_restored (st (S k))) = Ok (s2, full, m) ->
  m_obj (met os j) < / 2 * sqlen X -> m_obj m <= m_obj (met os j).
Proof.
  intros HS HX Hr HR Hst Hrej Hl E HL. destruct (ncp_retry_point pow svals X rnd os st j k Hst Hrej Hl) as (F1 & F2 & _).
  pose proof (ncp_reach_wf pow svals X r rnd _ HR (ncp_states_reach _ _ _ _ _ _ Hst (S k) Hl)) as W.
  destruct Hrej as (_ & Hjk & _). pose proof (ncp_reach_wf pow svals X r rnd _ HR (ncp_states_reach _ _ _ _ _ _ Hst j ltac:(lia))) as Wj.
  destruct (proj2 Hst j _ (obs_at_nth os j ltac:(lia))) as (s1 & c & sj & E1 & E2 & _). injection E1 as <- <-.
  pose proof (ncp_run_pos ltR00 svals X _ _ _ (proj1 (proj1 Wj)) E2) as (Hp & _ & Hf).
  rewrite met_obs in HL |- * by lia. rewrite (ncp_obj svals X r _ _ _ HX Wj E2), <- Hf in HL |- *.
  destruct (c50_better svals X r (ncp_restored (st (S k))) s2 full m HS HX Hr) as (_ & D1 & D2); [|exact E| | | |].
  - destruct W as (_ & WAm & WA0 & WL & WL0). unfold ncp_wf, ncp_restored. cbn [n_A n_Am n_A0 n_L n_L0]. auto.
  - cbn [ncp_restored n_Am n_A]. congruence.
  - cbn [ncp_restored n_A]. rewrite F2. apply nonneg_of, Hp.
  - cbn [ncp_restored n_A]. rewrite F2. lra.
  - cbn [ncp_restored n_A] in D1. rewrite F2 in D1. rewrite D2. lra.
Qed.

(** ** NTucker *)
Lemma nt_obj svals (X : tensor R) ranks s s1 c s2 o : wf X -> nonempty ranks -> nt_wf X ranks s -> nt_pre svals X s = Ok (s1, c) -> nt_factors svals X s1 = Ok (s2, o) ->
  m_obj (ob_met o) = / 2 * sqdist X (tucker_tensor (q_g s2) (q_A s2)) /\ nt_wf X ranks s2 /\ ob_full o = tucker_tensor (q_g s2) (q_A s2).
Proof.
  intros HX Hr HW Hp H. unfold nt_pre in Hp. apply bind_ok in Hp as (s' & E0 & E). injection E as <- <-.
  unfold nt_factors in H. apply bind_ok in H as ([[s3 full] m] & E & H). injection H as <- <-. cbn [ob_met ob_full].
  pose proof (nt_step_order svals X ranks s s' _ HW E0 E) as Ho. destruct (nt_core_wf svals X ranks HX s s' ltac:(lia) HW E0) as (W1 & _).
  destruct (nt_parts svals X ranks Hr s' s3 full m Ho W1 E) as (_ & W2 & _ & _ & Eg & _ & _ & mats & _ & _ & Ef & Em). rewrite <- Eg in Ef.
  pose proof (metrics_shape _ _ _ Em) as Hs. destruct (metrics_R X _ _ HX Em) as (_ & M & _). rewrite M, (sqdist_comm _ _ Hs), Ef. auto.
Qed.

Lemma nt_weight0 (s s' : nt_state R) X ranks : nt_wf X ranks s -> q_t0 s = 1 -> nt_accept s = Ok s' -> q_Am s' = q_A s' /\ q_gm s' = q_g s'.
Proof.
  intros HW Ht E. destruct (nt_accept_wf X ranks s HW) as (s'' & E' & W'). assert (s'' = s') by congruence. subst s''.
  destruct HW as ((LA & LR & HA) & _ & (LA0 & _ & HA0) & (Wg & Sg) & _ & (Wg0 & Sg0) & HL & HL0).
  destruct W' as (_ & (LAm & _ & HAm) & _ & _ & (Wgm & Sgm) & _).
  assert (Hw : forall k, (k < S (ndims X))%nat -> nth k (weights (q_t0 s) (q_t s) (q_L0 s) (q_L s)) 0 = 0).
  { intros k Hk. rewrite weights_nth by lia. rewrite Ht. unfold Rdiv at 1. rewrite Rminus_diag_eq, Rmult_0_l by reflexivity. rewrite Rmin_left; [reflexivity|apply sqrt_pos]. }
  unfold nt_accept in E. apply bind_ok in E as (Am & E1 & E). apply bind_ok in E as (gm & E2 & E). injection E as <-. cbn [q_Am q_A q_gm q_g] in *.
  set (ws := weights (q_t0 s) (q_t s) (q_L0 s) (q_L s)) in *.
  assert (Lw : length ws = S (ndims X)) by (unfold ws; rewrite weights_length; lia).
  split.
  - destruct (map3M_nth extrapolate _ _ _ _ 0 (mkT [] []) (mkT [] []) (mkT [] []) E1) as [Ll Hl]; [rewrite firstn_length; lia|lia|].
    apply (list_nth_ext _ _ (mkT [] [])); [congruence|]. intros k Hk. rewrite LAm in Hk. specialize (Hl k ltac:(rewrite firstn_length; lia)).
    destruct (HAm k Hk) as [W1 S1]. destruct (HA k Hk) as [W2 S2]. destruct (HA0 k Hk) as [_ S3]. unfold mat_at in *.
    apply extrapolate_spec in Hl; [|congruence]. destruct Hl as [_ Hl].
    apply tensor_ext; auto; [congruence|]. intros i Hi. rewrite Hl by (rewrite S2, <- S1; exact Hi).
    rewrite nth_firstn' by lia. rewrite Hw by lia. ring.
  - apply extrapolate_spec in E2; [|congruence]. destruct E2 as [_ E2]. apply tensor_ext; auto; [congruence|]. intros i Hi. rewrite E2 by (rewrite Sg, <- Sgm; exact Hi).
    rewrite LA, Hw by lia. ring.
Qed.

Lemma nt_second_step pow svals (X : tensor R) ranks rnd rndg s0 c0 s1 o1 s1' s2 c2 s3 o2 : spectral svals -> wf X -> nonempty ranks -> tucker_factors X ranks rnd -> core_like ranks rndg ->
  nt_pre svals X (nt_init pow X rnd rndg) = Ok (s0, c0) -> nt_factors svals X s0 = Ok (s1, o1) -> nt_accept s1 = Ok s1' ->
  nt_pre svals X s1' = Ok (s2, c2) -> nt_factors svals X s2 = Ok (s3, o2) ->
  m_obj (ob_met o1) < / 2 * sqlen X -> m_obj (ob_met o2) <= m_obj (ob_met o1).
Proof.
  intros HS HX Hr HR Hg E0 E1 Ea E2 E3 HL. pose proof (nt_init_wf pow X ranks rnd rndg HR Hg) as W0.
  destruct (nt_obj svals X ranks _ _ _ _ _ HX Hr W0 E0 E1) as (O1 & W1 & _).
  destruct (nt_accept_wf X ranks s1 W1) as (s' & E & W1'). assert (s' = s1') by congruence. subst s'.
  assert (Ht : q_t0 s1 = 1). { apply nt_core_t in E0. apply nt_run_t in E1. destruct E1 as [-> _]. destruct E0 as [-> _]. reflexivity. }
  destruct (nt_weight0 s1 s1' X ranks W1 Ht Ea) as [Eam Egm]. pose proof (nt_accept_A _ _ Ea) as EA.
  assert (Eg : q_g s1' = q_g s1). { unfold nt_accept in Ea. mon Ea. injection Ea as <-. reflexivity. }
  destruct (nt_pre_pos ltR00 svals X _ _ _ E0) as (_ & Hpg & EA0). pose proof (nt_run_obs _ _ _ _ _ E1) as (_ & _ & Eg1 & _).
  pose proof (nt_run_pos ltR00 svals X s0 s1 o1) as Hp. rewrite EA0 in Hp. specialize (Hp (proj1 (proj1 W0)) E1). destruct Hp as (Hp & _ & Hf).
  rewrite O1, <- EA, <- Eg in HL |- *. unfold nt_pre in E2. apply bind_ok in E2 as (s2' & E2 & H). injection H as <- <-.
  unfold nt_factors in E3. apply bind_ok in E3 as ([[s4 full] m] & E3 & H). injection H as <- <-. cbn [ob_met].
  destruct (c53_better svals X ranks s1' s2' s4 full m HS HX Hr W1' E2 E3 Eam Egm) as (_ & D1 & D2); [| |lra|rewrite D2; lra].
  - rewrite Eg, Eg1. apply nnR_spec, Hpg.
  - rewrite EA, <- Hf. apply nonneg_of, Hp.
Qed.

Lemma nt_states_reach pow svals (X : tensor R) rnd os st : states (nt_factors svals X) (nt_pre svals X) nt_accept (fun s => Ok (nt_reject s)) (nt_init pow X (fst rnd) (snd rnd)) os st ->
  forall k, (k < length os)%nat -> reach (nt_pre svals X) (nt_factors svals X) nt_accept (fun s => Ok (nt_reject s)) (nt_init pow X (fst rnd) (snd rnd)) (st k).
Proof.
  intros [H0 H] k. induction k as [|k IH]; intros Hk; [rewrite H0; constructor|]. specialize (IH ltac:(lia)).
  destruct (H k _ (obs_at_nth os k ltac:(lia))) as (s1 & c & s2 & E1 & E2 & E3). specialize (E3 Hk).
  destruct (nltb _ _); [eapply reach_accept; eassumption|eapply reach_reject; eassumption].
Qed.

Lemma nt_since_pos pow svals (X : tensor R) rnd os st j : states (nt_factors svals X) (nt_pre svals X) nt_accept (fun s => Ok (nt_reject s)) (nt_init pow X (fst rnd) (snd rnd)) os st ->
  accepted os j -> forall k, (j <= k)%nat -> (S k < length os)%nat -> (forall i, (j < i <= k)%nat -> ~ accepted os i) -> nonneg (q_g0 (st (S k))).
Proof.
  intros [_ H] Hj k Hk. induction k as [|k IH]; intros Hl Hr.
  - assert (j = 0)%nat by lia. subst j. destruct (H 0%nat _ (obs_at_nth os 0 ltac:(lia))) as (s1 & c & s2 & E1 & E2 & E3).
    specialize (E3 Hl). destruct Hj as [_ Hj]. rewrite Hj in E3. destruct (nt_pre_pos ltR00 svals X _ _ _ E1) as (_ & Hp & _). apply nt_run_obs in E2 as (_ & _ & Eg & _).
    unfold nt_accept in E3. mon E3. injection E3 as <-. cbn [q_g0]. rewrite Eg. apply nnR_spec, Hp.
  - destruct (H (S k) _ (obs_at_nth os (S k) ltac:(lia))) as (s1 & c & s2 & E1 & E2 & E3).
    specialize (E3 Hl). destruct (nt_run_A0 _ _ _ _ _ _ _ E1 E2) as [F0 G0]. destruct (nt_pre_pos ltR00 svals X _ _ _ E1) as (_ & Hp & _). apply nt_run_obs in E2 as (_ & _ & Eg & _).
    destruct (Nat.eq_dec j (S k)) as [->|Hne].
    + destruct Hj as [_ Hj]. rewrite Hj in E3. unfold nt_accept in E3. mon E3. injection E3 as <-. cbn [q_g0]. rewrite Eg. apply nnR_spec, Hp.
    + rewrite (not_accepted os (S k)) in E3 by (try lia; apply Hr; lia). injection E3 as <-. cbn [nt_reject q_g0]. rewrite G0.
      apply IH; [lia|lia|intros i Hi; apply Hr; lia].
Qed.

Lemma nt_restored_descends pow svals (X : tensor R) ranks rnd rndg os st j k s1 s2 full m : spectral svals -> wf X -> nonempty ranks -> tucker_factors X ranks rnd -> core_like ranks rndg ->
  states (nt_factors svals X) (nt_pre svals X) nt_accept (fun s => Ok (nt_reject s)) (nt_init pow X rnd rndg) os st ->
  rejected_since os j k -> (S k < length os)%nat -> nt_core svals X (nt_restored (st (S k))) = Ok s1 -> nt_fact svals X s1 = Ok (s2, full, m) ->
  m_obj (met os j) < / 2 * sqlen X -> m_obj m <= m_obj (met os j).
Proof.
  intros HS HX Hr HR Hg Hst Hrej Hl E1 E2 HL. pose (rr := (rnd, rndg)). change rnd with (fst rr) in Hst at 1. change rndg with (snd rr) in Hst.
  destruct Hrej as (Ha & Hjk & Hrej). destruct (nt_since pow svals X rr os st j Hst Ha k ltac:(lia) Hl Hrej) as (F1 & F2 & _ & _ & F5). destruct F5 as [F5 F6]; [lia|].
  pose proof (nt_since_pos pow svals X rr os st j Hst Ha k ltac:(lia) Hl Hrej) as Hpg.
  pose proof (nt_reach_any pow svals X ranks rnd rndg _ HX Hr HR Hg (nt_states_reach pow svals X rr os st Hst (S k) Hl)) as W.
  pose proof (nt_reach_any pow svals X ranks rnd rndg _ HX Hr HR Hg (nt_states_reach pow svals X rr os st Hst j ltac:(lia))) as Wj.
  destruct (proj2 Hst j _ (obs_at_nth os j ltac:(lia))) as (t1 & c & sj & P1 & P2 & _).
  destruct (nt_obj svals X ranks _ _ _ _ _ HX Hr Wj P1 P2) as (Oj & _ & Fj). rewrite met_obs in HL |- * by lia. rewrite Oj, <- Fj in HL |- *.
  assert (WR : nt_wf X ranks (nt_restored (st (S k)))).
  { destruct W as (W1 & W2 & W3 & W4 & W5 & W6 & W7 & W8). unfold nt_wf, nt_restored. cbn [q_A q_Am q_A0 q_g q_gm q_g0 q_L q_L0]. auto 10. }
  pose proof (nt_step_order svals X ranks _ s1 _ WR E1 E2) as Ho.
  assert (Ef : tucker_tensor (q_g0 (st (S k))) (q_A0 (st (S k))) = ob_full (obs_at os j)).
  { destruct W as (_ & _ & WA & _ & _ & Wg & _). rewrite (tt_extract_ok RLR) in F2; [congruence|apply Wg| | |].
    + rewrite (NtFacts.core_ndims X ranks _ WA _ Wg). lia.
    + rewrite (NtFacts.core_ndims X ranks _ WA _ Wg). apply (tf_len X ranks _ WA).
    + intros n Hn. rewrite (tf_len X ranks _ WA) in Hn. destruct (core_fits X ranks _ WA _ n Wg Hn) as (_ & G2 & G3). auto. }
  pose proof (nt_run_pos ltR00 svals X t1 sj) as Hp. destruct (nt_pre_pos ltR00 svals X _ _ _ P1) as (_ & _ & EA1). rewrite EA1 in Hp.
  specialize (Hp _ (proj1 (proj1 Wj)) P2). destruct Hp as (Hp & _ & _).
  destruct (c53_better svals X ranks (nt_restored (st (S k))) s1 s2 full m HS HX Hr WR E1 E2) as (_ & D1 & D2); [| | | | |].
  - exact F5.
  - exact F6.
  - exact Hpg.
  - cbn [nt_restored q_A]. rewrite F1. apply nonneg_of, Hp.
  - cbn [nt_restored q_A q_g]. rewrite Ef. lra.
  - cbn [nt_restored q_A q_g] in D1. rewrite Ef in D1. rewrite D2. lra.
Qed.
