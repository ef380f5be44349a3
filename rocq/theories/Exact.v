(** Exact factorizations are kept by the NCP_BCU and NTUCKER_BCU steps (C74). *)

From Coq Require Import ZArith List Bool Arith Lia Reals Lra Psatz.
From Verif Require Import Num Py Tensor TF TensorFacts TFFacts Sums Ops OpsLemmas Types Loss Fact Train Spec SpecR LayoutFacts SpecFacts MulFacts TtmFacts SkipFacts TtmLemmas Matricize
  KronFacts RSums MatR KronAlg NormFacts SpecTucker MultiR SvdFacts TuckerFacts TuckerRun TuckerLemmas SpecCp SpecBcu BcuFacts SpecTrain TrainLemmas CpFacts AlsFacts AlsLemmas
  SpecProx Prox NcpFacts NcpLemmas NtFacts NtLemmas DataFacts NonZero SpecRetry TrainFacts Retry.
Import ListNotations.
Local Open Scope R_scope.

(** a step that decreases f more than the distance moved cannot leave a zero of f *)
Lemma descends_fixed (f : tensor R -> R) L M M' : wf M -> wf M' -> shp M' = shp M -> nonneg M -> 0 < L -> (forall C, 0 <= f C) -> f M = 0 -> descends f L M M' -> M' = M.
Proof.
  intros W W' Hs Hn HL Hf H0 [D _]. specialize (D M W eq_refl Hn). specialize (Hf M').
  assert (Z : sqdist M M = 0) by (apply LossFacts.sqdist_zero; auto). rewrite H0, Z in D. pose proof (MultiR.sqdist_nonneg M M') as P.
  symmetry. apply MultiR.sqdist_zero; auto. nra.
Qed.

Lemma sqlen_pos (X : tensor R) : (exists i, valid (shp X) i /\ get X i <> 0) -> 0 < sqlen X.
Proof.
  intros (i & Hi & Hx). unfold sqlen. rewrite <- (isum_msum RLR).
  assert (P : 0 <= isum (shp X) (fun i => (get X i)²)) by (apply isumR_nonneg; intros; apply Rle_0_sqr).
  destruct (Req_dec (isum (shp X) (fun i => (get X i)²)) 0) as [Q|]; [|lra]. exfalso. apply Hx.
  apply Rsqr_0_uniq. apply (isumR_zero_inv _ _ (fun k _ => Rle_0_sqr _) Q i Hi).
Qed.

Lemma half_sqdist_nonneg X Y : 0 <= / 2 * sqdist X Y.
Proof. pose proof (MultiR.sqdist_nonneg X Y). lra. Qed.

Lemma mixed_extend n (A B : list (tensor R)) : length A = length B -> (n < length B)%nat -> mixed n A B = B -> mat_at A n = mat_at B n -> mixed (S n) A B = B.
Proof.
  intros L Hn H E. rewrite mixed_S by (auto; lia). rewrite H, E. apply replace_self.
Qed.

Lemma ncp_exact svals (X : tensor R) r s s2 full m : spectral svals -> wf X -> (0 < r)%nat -> ncp_wf X r s -> ncp_step svals X s = Ok (s2, full, m) ->
  n_Am s = n_A s -> (forall M, In M (n_A s) -> nonneg M) -> cp_tensor r (ones r) (n_A s) = X -> (exists i, valid (shp X) i /\ get X i <> 0) ->
  n_A s2 = n_A s /\ full = X /\ m_obj m = 0.
Proof.
  intros HS HX Hr HW E Eam Hnn EX Hnz.
  assert (Z : sqdist X X = 0) by (apply LossFacts.sqdist_zero; auto).
  assert (Hlt : sqdist X (cp_tensor r (ones r) (n_A s)) < sqlen X).
  { rewrite EX, Z. apply sqlen_pos, Hnz. }
  destruct (c50_better svals X r s s2 full m HS HX Hr HW E Eam Hnn Hlt) as (HL & H1 & H2).
  destruct (ncp_parts svals X r s s2 full m HW E) as (Hne & Ho & W2 & _ & _ & mats & E1 & HM & Ef & _).
  pose proof (proj1 (proj1 HW)) as LA. pose proof (proj1 (proj1 W2)) as LA'.
  assert (G : forall n, (n <= ndims X)%nat -> mixed n (n_A s2) (n_A s) = n_A s).
  { induction n as [|n IH]; intros Hn; [apply mixed_0|]. specialize (IH ltac:(lia)). apply mixed_extend; auto; [congruence|lia|].
    destruct (c50_step svals X r s s2 full m HS Hr HW E n ltac:(lia)) as (_ & D). rewrite IH in D. specialize (HL n ltac:(lia)).
    destruct (D ltac:(lra)) as [(P1 & P2 & _) D']. rewrite Eam in *. assert (Hin : In (mat_at (n_A s) n) (n_A s)) by (apply nth_In; lia).
    eapply descends_fixed; [apply (proj1 HW); lia|exact P1|exact P2|apply Hnn, Hin|exact HL| | |exact D'].
    - intros C. apply half_sqdist_nonneg.
    - unfold cp_error, mat_at. rewrite replace_self, EX, Z. lra. }
  specialize (G (ndims X) (Nat.le_refl _)). rewrite <- LA, mixed_all in G by congruence.
  split; [exact G|]. rewrite Ef, G, EX in *. split; [reflexivity|]. rewrite H2, Z. lra.
Qed.

Lemma nt_exact svals (X : tensor R) ranks s s1 s2 full m : spectral svals -> wf X -> nonempty ranks -> nt_wf X ranks s ->
  nt_core svals X s = Ok s1 -> nt_fact svals X s1 = Ok (s2, full, m) -> q_Am s = q_A s -> q_gm s = q_g s -> nonneg (q_g s) ->
  (forall M, In M (q_A s) -> nonneg M) -> tucker_tensor (q_g s) (q_A s) = X -> (exists i, valid (shp X) i /\ get X i <> 0) ->
  q_A s2 = q_A s /\ q_g s2 = q_g s /\ full = X /\ m_obj m = 0.
Proof.
  intros HS HX Hr HW E1 E2 Eam Egm Hg Hnn EX Hnz.
  assert (Z : sqdist X X = 0) by (apply LossFacts.sqdist_zero; auto).
  assert (Hlt : sqdist X (tucker_tensor (q_g s) (q_A s)) < sqlen X).
  { rewrite EX, Z. apply sqlen_pos, Hnz. }
  destruct (c53_better svals X ranks s s1 s2 full m HS HX Hr HW E1 E2 Eam Egm Hg Hnn Hlt) as (HL & H1 & H2).
  pose proof (nt_step_order svals X ranks s s1 _ HW E1 E2) as Ho.
  destruct (nt_core_wf svals X ranks HX s s1 ltac:(lia) HW E1) as (W1 & A1 & A2 & _).
  destruct (nt_parts svals X ranks Hr s1 s2 full m ltac:(lia) W1 E2) as (_ & W2 & _ & _ & Eg & _ & _ & mats & _ & _ & Ef & _).
  destruct (c53_step svals X ranks s s1 s2 full m HS HX Hr HW E1 E2) as [C F]. cbv zeta in C, F.
  pose proof (proj1 (proj1 HW)) as LA. pose proof (proj1 (proj1 W2)) as LA'.
  assert (G0 : q_g s2 = q_g s).
  { destruct C as [_ C]. specialize (HL (ndims X) (Nat.le_refl _)). destruct (C ltac:(lra)) as [(P1 & P2 & _) D]. rewrite Egm in *.
    eapply descends_fixed; [apply HW|exact P1|exact P2|exact Hg|exact HL| | |exact D].
    - intros B. apply half_sqdist_nonneg.
    - cbv beta. rewrite EX, Z. lra. }
  assert (G : forall n, (n <= ndims X)%nat -> mixed n (q_A s2) (q_A s) = q_A s).
  { induction n as [|n IH]; intros Hn; [apply mixed_0|]. specialize (IH ltac:(lia)). apply mixed_extend; auto; [congruence|lia|].
    destruct (F n ltac:(lia)) as (_ & D). rewrite IH, G0 in D. specialize (HL n ltac:(lia)).
    destruct (D ltac:(lra)) as [(P1 & P2 & _) D']. rewrite Eam in *. assert (Hin : In (mat_at (q_A s) n) (q_A s)) by (apply nth_In; lia).
    eapply descends_fixed; [apply (proj1 HW); lia|exact P1|exact P2|apply Hnn, Hin|exact HL| | |exact D'].
    - intros B. apply half_sqdist_nonneg.
    - unfold mat_at. rewrite replace_self, EX, Z. lra. }
  specialize (G (ndims X) (Nat.le_refl _)). rewrite <- LA, mixed_all in G by congruence.
  split; [exact G|]. split; [exact G0|]. rewrite Ef, <- Eg, G0, G, EX in *. split; [reflexivity|]. rewrite H2, Z. lra.
Qed.

(** ** runs from an exact start *)
Lemma ncp_accept_same (s s' : ncp_state R) X r : ncp_wf X r s -> n_A0 s = n_A s -> ncp_accept s = Ok s' -> n_Am s' = n_A s'.
Proof.
  intros HW H0 E. destruct (ncp_accept_wf X r s HW) as (s'' & E' & W'). assert (s'' = s') by congruence. subst s''.
  destruct HW as ((LA & HA) & _ & (LA0 & HA0) & HL & HL0).
  destruct (ncp_accept_spec s s' (mkT [] []) (ndims X) E LA LA0 HL HL0) as (_ & _ & G).
  pose proof (ncp_accept_A _ _ E) as EA. destruct W' as (_ & (LAm & HAm) & _).
  apply (list_nth_ext _ _ (mkT [] [])); [congruence|]. intros k Hk. rewrite LAm in Hk. specialize (G k Hk). destruct G as [_ Gm].
  destruct (HAm k Hk) as [W1 S1]. destruct (HA k Hk) as [W2 S2]. destruct (HA0 k Hk) as [_ S3]. unfold mat_at in *. rewrite EA.
  apply tensor_ext; auto; [congruence|]. intros i Hi. rewrite S1 in Hi. rewrite Gm; [|congruence|rewrite S2; exact Hi].
  rewrite H0. ring.
Qed.

Lemma nt_accept_same (s s' : nt_state R) X ranks : nt_wf X ranks s -> q_A0 s = q_A s -> q_g0 s = q_g s -> nt_accept s = Ok s' -> q_Am s' = q_A s' /\ q_gm s' = q_g s'.
Proof.
  intros HW H0 G0 E. destruct (nt_accept_wf X ranks s HW) as (s'' & E' & W'). assert (s'' = s') by congruence. subst s''.
  destruct HW as ((LA & LR & HA) & _ & (LA0 & _ & HA0) & (Wg & Sg) & _ & (Wg0 & Sg0) & HL & HL0).
  destruct W' as (_ & (LAm & _ & HAm) & _ & _ & (Wgm & Sgm) & _).
  unfold nt_accept in E. apply bind_ok in E as (Am & E1 & E). apply bind_ok in E as (gm & E2 & E). injection E as <-. cbn [q_Am q_A q_gm q_g] in *.
  set (ws := weights (q_t0 s) (q_t s) (q_L0 s) (q_L s)) in *.
  assert (Lw : length ws = S (ndims X)) by (unfold ws; rewrite weights_length; lia).
  split.
  - destruct (map3M_nth extrapolate _ _ _ _ 0 (mkT [] []) (mkT [] []) (mkT [] []) E1) as [Ll Hl]; [rewrite firstn_length; lia|lia|].
    apply (list_nth_ext _ _ (mkT [] [])); [congruence|]. intros k Hk. rewrite LAm in Hk. specialize (Hl k ltac:(rewrite firstn_length; lia)).
    destruct (HAm k Hk) as [W1 S1]. destruct (HA k Hk) as [W2 S2]. destruct (HA0 k Hk) as [_ S3]. unfold mat_at in *.
    apply extrapolate_spec in Hl; [|congruence]. destruct Hl as [_ Hl].
    apply tensor_ext; auto; [congruence|]. intros i Hi. rewrite Hl by (rewrite S2, <- S1; exact Hi). rewrite H0. ring.
  - apply extrapolate_spec in E2; [|congruence]. destruct E2 as [_ E2]. apply tensor_ext; auto; [congruence|]. intros i Hi. rewrite E2 by (rewrite Sg, <- Sgm; exact Hi).
    rewrite G0. ring.
Qed.

Lemma metrics_zero (X : tensor R) m : wf X -> metrics_of X X = Ok m -> m_loss m = 0 /\ m_rel m = 0.
Proof.
  intros HX H. destruct (metrics_R X X m HX H) as (M1 & _ & M3). rewrite M1, M3. assert (Z : sqdist X X = 0) by (apply LossFacts.sqdist_zero; auto).
  split; [|rewrite Z, sqrt_0; unfold Rdiv; apply Rmult_0_l]. rewrite <- !(isum_msum RLR).
  assert (Q : isum (shp X) (fun i => if Req_EM_T (get X i) 0 then 0 else (get X i - get X i)²) = 0).
  { apply (isum_zero RLR). intros i _. destruct (Req_EM_T (get X i) 0); [reflexivity|]. rewrite Rminus_diag_eq by reflexivity. apply Rsqr_0. }
  rewrite Q. unfold Rdiv. rewrite Rmult_0_l. apply sqrt_0.
Qed.

Section NcpRun.
  Variables (pow : R -> R -> R) (svals : tensor R -> list R) (X : tensor R) (r : nat) (rnd : list (tensor R)).
  Let s0 := ncp_init pow X rnd.
  Hypothesis HS : spectral svals.
  Hypothesis HX : wf X.
  Hypothesis Hr : (0 < r)%nat.
  Hypothesis HR : cp_factors X r rnd.
  Hypothesis Hnn : forall M, In M (n_A s0) -> nonneg M.
  Hypothesis EX : cp_tensor r (ones r) (n_A s0) = X.
  Hypothesis Hnz : exists i, valid (shp X) i /\ get X i <> 0.

  Lemma ncp_run_exact s s2 o : ncp_wf X r s -> n_A s = n_A s0 -> n_Am s = n_A s0 -> ncp_run svals X s = Ok (s2, o) ->
    n_A s2 = n_A s0 /\ ob_factors o = n_A s0 /\ ob_full o = X /\ m_obj (ob_met o) = 0 /\ entry o = (0, 0).
  Proof.
    intros HW H1 H2 E. unfold ncp_run in E. apply bind_ok in E as ([[s' full] m] & E & H). injection H as <- <-. cbn [ob_factors ob_full ob_met].
    destruct (ncp_exact svals X r s s' full m HS HX Hr HW E) as (F1 & F2 & F3); [congruence|rewrite H1; exact Hnn|rewrite H1; exact EX|exact Hnz|]. destruct (ncp_parts svals X r s s' full m HW E) as (_ & _ & _ & _ & _ & mats & _ & _ & _ & Em). rewrite F2 in Em. destruct (metrics_zero X m HX Em) as [M1 M2].
    unfold entry. cbn [ob_met]. rewrite F1, H1, M1, M2. auto.
  Qed.

  Lemma ncp_exact_reach s : reach (fun s => Ok (s, None)) (ncp_run svals X) ncp_accept (fun s => Ok (ncp_reject s)) s0 s ->
    n_A s = n_A s0 /\ n_Am s = n_A s0 /\ n_A0 s = n_A s0.
  Proof.
    intros H. induction H as [|s s1 c s2 o s3 H IH E1 E2 E3|s s1 c s2 o s3 H IH E1 E2 E3]; [auto| |];
      injection E1 as <- <-; pose proof (ncp_reach_wf pow svals X r rnd s HR H) as W; destruct IH as (I1 & I2 & I3);
      destruct (ncp_run_exact s s2 o W I1 I2 E2) as (F1 & _); pose proof (ncp_run_A0 _ _ _ _ _ E2) as F0; pose proof (ncp_run_wf _ _ _ _ _ _ W E2) as W2.
    - rewrite (ncp_accept_same s2 s3 X r W2 ltac:(congruence) E3), (ncp_accept_A _ _ E3). unfold ncp_accept in E3. mon E3. injection E3 as <-. cbn [n_A0]. auto.
    - injection E3 as <-. cbn [ncp_reject n_A n_Am n_A0]. rewrite F0. auto.
  Qed.

  Lemma ncp_exact_run os : bcu_run (ncp_run svals X) (fun s => Ok (s, None)) ncp_accept (fun s => Ok (ncp_reject s)) s0 os ->
    forall o, In o os -> ob_factors o = n_A s0 /\ ob_full o = X /\ m_obj (ob_met o) = 0 /\ entry o = (0, 0).
  Proof.
    intros (st & Hst) o Ho. apply In_nth_error in Ho as (k & Ho). assert (Hk : (k < length os)%nat) by (apply nth_error_Some; congruence).
    pose proof (ncp_states_reach pow svals X rnd os st Hst k Hk) as Hreach. destruct (ncp_exact_reach _ Hreach) as (I1 & I2 & _).
    pose proof (ncp_reach_wf pow svals X r rnd _ HR Hreach) as W. destruct (proj2 Hst k o Ho) as (s1 & c & s2 & E1 & E2 & _). injection E1 as <- <-.
    apply (ncp_run_exact _ _ _ W I1 I2 E2).
  Qed.

  Lemma ncp_exact_train w o steps args id o' h : o_built o = Some ((args, r), id) -> 0 < a_tol args -> ncp_train pow svals X w o rnd steps = (o', Ok h) ->
    h = [(0, 0)] /\ p_factors (o_pub o') = Some (n_A s0) /\ p_full (o_pub o') = Some X.
  Proof.
    intros Hb Ht E. apply ncp_pub_ok in E as (args' & r' & id' & os & ob & Hb' & Hrun & Hh & Hst & Ho & Hf & Hl).
    assert (args' = args) by congruence. subst args'. pose proof (ncp_exact_run os Hrun) as G.
    assert (L2 : length os = 1%nat).
    { destruct Hst as (H1 & _ & Hf' & _). destruct os as [|o1 [|o2 os']]; [cbn in H1; lia|reflexivity|]. exfalso. apply (Hf' 0%nat); [cbn; lia|]. left. apply nltb_R.
      destruct (G o1 (or_introl eq_refl)) as (_ & _ & _ & Ge). unfold entry in Ge. injection Ge as _ Ge. change (m_rel (met (o1 :: o2 :: os') 0)) with (m_rel (ob_met o1)). rewrite Ge. exact Ht. }
    destruct os as [|o1 [|o2 os]]; cbn in L2; try lia. injection Ho as <-. destruct (G o1 (or_introl eq_refl)) as (G1 & G2 & _ & G3).
    split; [rewrite Hh; cbn [map]; rewrite G3; reflexivity|]. split; [rewrite <- G1; exact Hf|].
    destruct Hl as (j & o2 & Hj & _ & _ & Hp). destruct j as [|j]; [injection Hj as <-; rewrite Hp, G2; reflexivity|destruct j; discriminate Hj].
  Qed.

  (** a run of three steps from an exact start: the second one is rejected *)
  Lemma ncp_exact_three : nonempty (shp X) -> (2 <= ndims X <= 25)%nat -> exists os st s2 full m,
    states (ncp_run svals X) (fun s => Ok (s, None)) ncp_accept (fun s => Ok (ncp_reject s)) s0 os st /\
    rejected_since os 0 1 /\ (2 < length os)%nat /\ ncp_step svals X (ncp_restored (st 2%nat)) = Ok (s2, full, m) /\ m_obj (met os 0) < / 2 * sqlen X.
  Proof.
    intros Hne Ho. pose proof (ncp_init_wf pow X r rnd HR) as W0. fold s0 in W0.
    destruct (ncp_run_total svals X r s0 HX Hne Ho W0) as (s1 & o1 & E1 & W1). destruct (ncp_accept_wf X r s1 W1) as (s1' & Ea & W1').
    destruct (ncp_run_exact s0 s1 o1 W0 eq_refl eq_refl E1) as (F1 & _ & _ & O1 & _). pose proof (ncp_run_A0 _ _ _ _ _ E1) as Z1.
    destruct (ncp_run_total svals X r s1' HX Hne Ho W1') as (s2 & o2 & E2 & W2).
    pose proof (ncp_accept_A _ _ Ea) as EA. pose proof (ncp_accept_same s1 s1' X r W1 ltac:(rewrite Z1, F1; reflexivity) Ea) as Em.
    destruct (ncp_run_exact s1' s2 o2 W1' ltac:(congruence) ltac:(congruence) E2) as (F2 & _ & _ & O2 & _).
    pose proof (ncp_reject_wf X r s2 W2) as W2'. destruct (ncp_run_total svals X r (ncp_reject s2) HX Hne Ho W2') as (s3 & o3 & E3 & _).
    assert (WR : ncp_wf X r (ncp_restored (ncp_reject s2))).
    { destruct W2' as (_ & WAm & WA0 & WL & WL0). unfold ncp_wf, ncp_restored. cbn [n_A n_Am n_A0 n_L n_L0]. auto. }
    destruct (ncp_run_total svals X r _ HX Hne Ho WR) as (s4 & o4 & E4 & _). unfold ncp_run in E4. apply bind_ok in E4 as ([[s5 full] m] & E4 & _).
    pose (os := [o1; o2; o3]).
    assert (R0 : m_obj (met os 0) = 0) by exact O1. assert (R1 : m_obj (met os 1) = 0) by exact O2.
    assert (B0 : nltb (m_obj (met os 0)) (ref_best os 0) = true). { cbn [ref_best]. rewrite R0. apply nltb_R. Rn. lra. }
    assert (B1 : nltb (m_obj (met os 1)) (ref_best os 1) = false). { cbn [ref_best] in *. rewrite B0, R0, R1. apply nltb_R_false. lra. }
    exists os, (fun k => match k with 0%nat => s0 | 1%nat => s1' | _ => ncp_reject s2 end), s5, full, m. repeat split.
    - intros k o Hk. destruct k as [|[|[|k]]]; [| | |destruct k; discriminate Hk]; cbn in Hk; injection Hk as <-; eexists _, _, _; (split; [reflexivity|]);
        (split; [eassumption|]); intros Hl; rewrite ?B0, ?B1; [exact Ea|reflexivity|cbn in Hl; lia].
    - cbn. lia.
    - exact B0.
    - lia.
    - cbn. lia.
    - intros i Hi. assert (i = 1%nat) by lia. subst i. intros [_ H]. congruence.
    - cbn. lia.
    - exact E4.
    - rewrite R0. pose proof (sqlen_pos X Hnz). lra.
  Qed.
End NcpRun.

Section NtRun.
  Variables (pow : R -> R -> R) (svals : tensor R -> list R) (X : tensor R) (ranks : list nat) (rnd : list (tensor R)) (rndg : tensor R).
  Let s0 := nt_init pow X rnd rndg.
  Hypothesis HS : spectral svals.
  Hypothesis HX : wf X.
  Hypothesis Hr : nonempty ranks.
  Hypothesis HR : tucker_factors X ranks rnd.
  Hypothesis HG : core_like ranks rndg.
  Hypothesis Hng : nonneg (q_g s0).
  Hypothesis Hnn : forall M, In M (q_A s0) -> nonneg M.
  Hypothesis EX : tucker_tensor (q_g s0) (q_A s0) = X.
  Hypothesis Hnz : exists i, valid (shp X) i /\ get X i <> 0.

  Lemma nt_run_exact s s1 c s2 o : nt_wf X ranks s -> q_A s = q_A s0 -> q_Am s = q_A s0 -> q_g s = q_g s0 -> q_gm s = q_g s0 ->
    nt_pre svals X s = Ok (s1, c) -> nt_factors svals X s1 = Ok (s2, o) ->
    q_A s2 = q_A s0 /\ q_g s2 = q_g s0 /\ ob_factors o = q_A s0 /\ ob_full o = X /\ m_obj (ob_met o) = 0 /\ entry o = (0, 0).
  Proof.
    intros HW H1 H2 H3 H4 E1 E. unfold nt_pre in E1. apply bind_ok in E1 as (s1' & E1 & H). injection H as <- <-.
    unfold nt_factors in E. apply bind_ok in E as ([[s' full] m] & E & H). injection H as <- <-. cbn [ob_factors ob_full ob_met].
    destruct (nt_exact svals X ranks s s1' s' full m HS HX Hr HW E1 E) as (F1 & F2 & F3 & F4); [congruence|congruence|rewrite H3; exact Hng|rewrite H1; exact Hnn|rewrite H1, H3; exact EX|exact Hnz|].
    pose proof (nt_step_order svals X ranks s s1' _ HW E1 E) as Ho. destruct (nt_core_wf svals X ranks HX s s1' ltac:(lia) HW E1) as (W1 & _).
    destruct (nt_parts svals X ranks Hr s1' s' full m Ho W1 E) as (_ & _ & _ & _ & _ & _ & _ & mats & _ & _ & _ & Em). rewrite F3 in Em. destruct (metrics_zero X m HX Em) as [M1 M2].
    unfold entry. cbn [ob_met]. rewrite F1, F2, H1, H3, M1, M2. auto 10.
  Qed.

  Lemma nt_exact_reach s : reach (nt_pre svals X) (nt_factors svals X) nt_accept (fun s => Ok (nt_reject s)) s0 s ->
    (q_A s = q_A s0 /\ q_Am s = q_A s0 /\ q_A0 s = q_A s0) /\ (q_g s = q_g s0 /\ q_gm s = q_g s0 /\ q_g0 s = q_g s0).
  Proof.
    intros H. induction H as [|s s1 c s2 o s3 H IH E1 E2 E3|s s1 c s2 o s3 H IH E1 E2 E3]; [auto 10| |];
      pose proof (nt_reach_any pow svals X ranks rnd rndg s HX Hr HR HG H) as W; destruct IH as ((I1 & I2 & I3) & (I4 & I5 & I6));
      destruct (nt_run_exact s s1 c s2 o W I1 I2 I4 I5 E1 E2) as (F1 & F2 & _); destruct (nt_run_A0 _ _ _ _ _ _ _ E1 E2) as [F0 G0];
      destruct (nt_obj svals X ranks _ _ _ _ _ HX Hr W E1 E2) as (_ & W2 & _).
    - destruct (nt_accept_same s2 s3 X ranks W2 ltac:(congruence) ltac:(congruence) E3) as [-> ->]. unfold nt_accept in E3. mon E3. injection E3 as <-. cbn [q_A q_A0 q_g q_g0]. auto 10.
    - injection E3 as <-. cbn [nt_reject q_A q_Am q_A0 q_g q_gm q_g0]. rewrite F0, G0. auto 10.
  Qed.

  Lemma nt_exact_run os : bcu_run (nt_factors svals X) (nt_pre svals X) nt_accept (fun s => Ok (nt_reject s)) s0 os ->
    forall o, In o os -> ob_factors o = q_A s0 /\ ob_full o = X /\ m_obj (ob_met o) = 0 /\ entry o = (0, 0).
  Proof.
    intros (st & Hst) o Ho. apply In_nth_error in Ho as (k & Ho). assert (Hk : (k < length os)%nat) by (apply nth_error_Some; congruence).
    pose proof (nt_states_reach pow svals X (rnd, rndg) os st Hst k Hk) as Hreach. destruct (nt_exact_reach _ Hreach) as ((I1 & I2 & _) & (I3 & I4 & _)).
    pose proof (nt_reach_any pow svals X ranks rnd rndg _ HX Hr HR HG Hreach) as W. destruct (proj2 Hst k o Ho) as (s1 & c & s2 & E1 & E2 & _).
    apply (nt_run_exact _ _ _ _ _ W I1 I2 I3 I4 E1 E2).
  Qed.

  Lemma nt_exact_train w o steps args id o' h : o_built o = Some (args, id) -> 0 < a_tol args -> nt_train pow svals X w o (rnd, rndg) steps = (o', Ok h) ->
    h = [(0, 0)] /\ p_factors (o_pub o') = Some (q_A s0) /\ p_full (o_pub o') = Some X.
  Proof.
    intros Hb Ht E. apply nt_pub_ok in E as (args' & id' & os & ob & Hb' & Hrun & Hh & Hst & Ho & Hf & Hl).
    assert (args' = args) by congruence. subst args'. pose proof (nt_exact_run os Hrun) as G.
    assert (L2 : length os = 1%nat).
    { destruct Hst as (H1 & _ & Hf' & _). destruct os as [|o1 [|o2 os']]; [cbn in H1; lia|reflexivity|]. exfalso. apply (Hf' 0%nat); [cbn; lia|]. left. apply nltb_R.
      destruct (G o1 (or_introl eq_refl)) as (_ & _ & _ & Ge). unfold entry in Ge. injection Ge as _ Ge. change (m_rel (met (o1 :: o2 :: os') 0)) with (m_rel (ob_met o1)). rewrite Ge. exact Ht. }
    destruct os as [|o1 [|o2 os]]; cbn in L2; try lia. injection Ho as <-. destruct (G o1 (or_introl eq_refl)) as (G1 & G2 & _ & G3).
    split; [rewrite Hh; cbn [map]; rewrite G3; reflexivity|]. split; [rewrite <- G1; exact Hf|].
    destruct Hl as (j & o2 & Hj & _ & _ & Hp). destruct j as [|j]; [injection Hj as <-; rewrite Hp, G2; reflexivity|destruct j; discriminate Hj].
  Qed.

  Lemma nt_exact_three : nonempty (shp X) -> (2 <= ndims X <= 13)%nat -> exists os st s1 s2 full m,
    states (nt_factors svals X) (nt_pre svals X) nt_accept (fun s => Ok (nt_reject s)) s0 os st /\
    rejected_since os 0 1 /\ (2 < length os)%nat /\ nt_core svals X (nt_restored (st 2%nat)) = Ok s1 /\ nt_fact svals X s1 = Ok (s2, full, m) /\
    m_obj (met os 0) < / 2 * sqlen X.
  Proof.
    intros Hne Ho. pose proof (nt_init_wf pow X ranks rnd rndg HR HG) as W0. fold s0 in W0.
    assert (Hstep : forall s, nt_wf X ranks s -> exists s1 c s2 o, nt_pre svals X s = Ok (s1, c) /\ nt_factors svals X s1 = Ok (s2, o) /\ nt_wf X ranks s2).
    { intros s W. destruct (nt_step_total svals X ranks s HX Hne Hr Ho W) as (t1 & t2 & fu & me & T1 & T2).
      exists t1, (Some (q_g t1)), t2, (mkObs (q_A t2) None fu me). unfold nt_pre. rewrite T1. unfold nt_factors. rewrite T2. cbn [bind]. split; [reflexivity|]. split; [reflexivity|].
      destruct (nt_core_wf svals X ranks HX s t1 ltac:(lia) W T1) as (V1 & _). apply (nt_parts svals X ranks Hr t1 t2 fu me Ho V1 T2). }
    destruct (Hstep s0 W0) as (p1 & c1 & s1 & o1 & P1 & E1 & W1). destruct (nt_accept_wf X ranks s1 W1) as (s1' & Ea & W1').
    destruct (nt_run_exact s0 p1 c1 s1 o1 W0 eq_refl eq_refl eq_refl eq_refl P1 E1) as (F1 & G1 & _ & _ & O1 & _). destruct (nt_run_A0 _ _ _ _ _ _ _ P1 E1) as [Z1 Y1].
    destruct (Hstep s1' W1') as (p2 & c2 & s2 & o2 & P2 & E2 & W2).
    destruct (nt_accept_same s1 s1' X ranks W1 ltac:(rewrite Z1, F1; reflexivity) ltac:(rewrite Y1, G1; reflexivity) Ea) as [Em Eg].
    assert (EA : q_A s1' = q_A s1 /\ q_g s1' = q_g s1). { unfold nt_accept in Ea. mon Ea. injection Ea as <-. auto. } destruct EA as [EA EG].
    destruct (nt_run_exact s1' p2 c2 s2 o2 W1' ltac:(congruence) ltac:(congruence) ltac:(congruence) ltac:(congruence) P2 E2) as (F2 & _ & _ & _ & O2 & _).
    pose proof (nt_reject_wf X ranks s2 W2) as W2'. destruct (Hstep _ W2') as (p3 & c3 & s3 & o3 & P3 & E3 & _).
    assert (WR : nt_wf X ranks (nt_restored (nt_reject s2))).
    { destruct W2' as (V1 & V2 & V3 & V4 & V5 & V6 & V7 & V8). unfold nt_wf, nt_restored. cbn [q_A q_Am q_A0 q_g q_gm q_g0 q_L q_L0]. auto 10. }
    destruct (nt_step_total svals X ranks _ HX Hne Hr Ho WR) as (s4 & s5 & full & m & E4 & E5).
    pose (os := [o1; o2; o3]).
    assert (R0 : m_obj (met os 0) = 0) by exact O1. assert (R1 : m_obj (met os 1) = 0) by exact O2.
    assert (B0 : nltb (m_obj (met os 0)) (ref_best os 0) = true). { cbn [ref_best]. rewrite R0. apply nltb_R. Rn. lra. }
    assert (B1 : nltb (m_obj (met os 1)) (ref_best os 1) = false). { cbn [ref_best] in *. rewrite B0, R0, R1. apply nltb_R_false. lra. }
    exists os, (fun k => match k with 0%nat => s0 | 1%nat => s1' | _ => nt_reject s2 end), s4, s5, full, m. repeat split.
    - intros k o Hk. destruct k as [|[|[|k]]]; [| | |destruct k; discriminate Hk]; cbn in Hk; injection Hk as <-; eexists _, _, _; (split; [eassumption|]);
        (split; [eassumption|]); intros Hl; rewrite ?B0, ?B1; [exact Ea|reflexivity|cbn in Hl; lia].
    - cbn. lia.
    - exact B0.
    - lia.
    - cbn. lia.
    - intros i Hi. assert (i = 1%nat) by lia. subst i. intros [_ H]. congruence.
    - cbn. lia.
    - exact E4.
    - exact E5.
    - rewrite R0. pose proof (sqlen_pos X Hnz). lra.
  Qed.
End NtRun.

(** ** an exact start: the 2x2 matrix of fours *)
Definition X4 : tensor R := mkT [2; 2]%nat [4; 4; 4; 4].
Definition G4 : tensor R := mkT [1; 1]%nat [1].
(** |X4| = 8; its square and cube roots *)
Definition root2 (x y : R) : R := 2 * sqrt 2.
Definition root3 (x y : R) : R := 2.
Lemma norm_Ad : tf_norm (mkT [2; 1]%nat [1; 1]) = sqrt 2.
Proof. unfold tf_norm. cbn. Rn. f_equal. lra. Qed.
Lemma relu_1 : @nrelu R NumR 1 = 1. Proof. rewrite nrelu_R. apply Rmax_left. lra. Qed.

Lemma ncp_init4 : n_A (ncp_init root2 X4 Ad) = [mkT [2; 1]%nat [2; 2]; mkT [2; 1]%nat [2; 2]].
Proof.
  unfold ncp_init, Ad. cbn [n_A map]. unfold norm_init, tf_map. cbn [shp dat map]. rewrite relu_1, norm_Ad. unfold root2. Rn.
  replace (1 / sqrt 2 * (2 * sqrt 2)) with 2; [reflexivity|]. field. apply Rgt_not_eq. apply sqrt_lt_R0. lra.
Qed.
Lemma nt_init4 : q_A (nt_init root3 X4 Ad G4) = [mkT [2; 1]%nat [sqrt 2; sqrt 2]; mkT [2; 1]%nat [sqrt 2; sqrt 2]] /\ q_g (nt_init root3 X4 Ad G4) = mkT [1; 1]%nat [2].
Proof.
  assert (P : 0 < sqrt 2) by (apply sqrt_lt_R0; lra). assert (Q : sqrt 2 * sqrt 2 = 2) by (apply sqrt_sqrt; lra).
  unfold nt_init, Ad, G4. cbn [q_A q_g map]. unfold norm_init, tf_map. cbn [shp dat map]. rewrite relu_1, norm_Ad. unfold root3. Rn. split.
  - replace (1 / sqrt 2 * 2) with (sqrt 2); [reflexivity|]. rewrite <- Q at 3. field. lra.
  - f_equal. f_equal. unfold tf_norm. cbn. Rn. match goal with |- context [sqrt ?x] => replace x with 1 by lra end. rewrite sqrt_1. lra.
Qed.
Lemma X4_nonzero : exists i, valid (shp X4) i /\ get X4 i <> 0.
Proof. exists [0; 0]%nat. split; [repeat constructor|]. unfold get. cbn. lra. Qed.
Lemma ncp4_exact : cp_tensor 1 (ones 1) (n_A (ncp_init root2 X4 Ad)) = X4.
Proof.
  rewrite ncp_init4. unfold cp_tensor, gen, X4, ones, mgen, mat_at, mget, get, nrows, bigsum. cbn. Rn. repeat (f_equal; try lra).
Qed.
Lemma nt4_exact : tucker_tensor (q_g (nt_init root3 X4 Ad G4)) (q_A (nt_init root3 X4 Ad G4)) = X4.
Proof.
  assert (Q : sqrt 2 * sqrt 2 = 2) by (apply sqrt_sqrt; lra).
  destruct nt_init4 as [-> ->]. unfold tucker_tensor, gen, X4, mgen, mat_at, mget, get, nrows, msum, bigsum. cbn. Rn. repeat (f_equal; try nra).
Qed.

(** ** CP_ALS and HOOI *)
Lemma cp_exact pinv (X : tensor R) r A o mu : penrose pinv -> wf X -> cp_factors X r A -> cp_step pinv X r A = Ok o ->
  (forall n q v, (n < ndims X)%nat -> (q < r)%nat -> column_max (als_solution pinv X r (mixed n (cp_A o) A) n) q v -> v <> 0) ->
  cp_tensor r mu A = X -> cp_full o = X.
Proof.
  intros HP HX HA E Hg EX. destruct (c44_step pinv X r A o mu HP HX HA E Hg) as [D _].
  destruct (step_sweep pinv X r A o HP HA E) as (_ & _ & _ & _ & _ & Ef & EM & _). pose proof (metrics_shape _ _ _ EM) as Hs.
  symmetry. apply MultiR.sqdist_zero; auto; [rewrite Ef; apply wf_gen|]. rewrite EX in D.
  assert (Z : sqdist X X = 0) by (apply LossFacts.sqdist_zero; auto). pose proof (MultiR.sqdist_nonneg X (cp_full o)). lra.
Qed.

Lemma hooi_exact svdU (X : tensor R) ranks A o : left_svd svdU -> wf X -> nonempty (shp X) -> nonempty ranks ->
  length ranks = ndims X -> factor_state X ranks A -> hooi_step svdU X (map Z.of_nat ranks) A = Ok o ->
  tucker_tensor (project X A) A = X -> ho_full o = X.
Proof.
  intros HS HX Hne Hrk Hl HA E EX. destruct (c57_step_any svdU X ranks A o HS HX Hne Hrk Hl HA E) as [D _].
  assert (Ho : (2 <= ndims X <= 13)%nat) by (apply (hooi_step_order svdU X (map Z.of_nat ranks) A o); auto; apply HA).
  destruct (hooi_step_ok svdU X ranks HS HX Hne Hrk Hl Ho A o HA E) as (H1 & H2 & H3 & _).
  symmetry. apply MultiR.sqdist_zero; auto; [rewrite H3, H2; apply (full_wf X)|rewrite H3, H2, (full_shape X _ _ H1); reflexivity|].
  rewrite EX in D. assert (Z : sqdist X X = 0) by (apply LossFacts.sqdist_zero; auto). pose proof (MultiR.sqdist_nonneg X (ho_full o)). lra.
Qed.
