(** Property theorems for what NCP_BCU and NTUCKER_BCU do after a rejected step (C72), which
    model they publish (C73), and exact factorizations (C74).  [st k] is the state in which
    step k+1 begins; the theorems over R take [svals] to return the singular values and
    [pinv], [svdU] to be a pseudoinverse and the left factor of a singular value
    decomposition. *)

From Coq Require Import ZArith List Bool Arith Reals Lia Lra.
From Verif Require Import Num Py Tensor TF Ops Types Loss Fact Train Spec SpecR SpecTrain SpecTucker SpecBcu SpecCp SpecProx SpecRetry
  RSums TrainWit AlsLemmas NcpLemmas NtLemmas SpectralExists Retry RetryWit Exact ExactEx.
Import ListNotations.

(** C72: full statement: after a rejected step the next one starts, without extrapolation,
    from the last accepted iterate, and its objective is at most the best accepted one.
    The point the gradient is taken at is the accepted one, but the other factors are
    still the rejected ones. *)
Theorem C72_ncp_retry_point_partial : forall (T : Type) (N : Num T) pow svals (X : tensor T) rnd os st j k,
  states (ncp_run svals X) (fun s => Ok (s, None)) ncp_accept (fun s => Ok (ncp_reject s)) (ncp_init pow X rnd) os st ->
  rejected_since os j k -> S k < length os ->
  n_Am (st (S k)) = ob_factors (obs_at os j) /\ n_A0 (st (S k)) = ob_factors (obs_at os j) /\
  n_A (st (S k)) = ob_factors (obs_at os k).
Proof. exact @ncp_retry_point. Qed.
Print Assumptions C72_ncp_retry_point_partial.

Theorem C72_nt_retry_point_partial : forall (T : Type) (N : Num T) pow svals (X : tensor T) rnd os st j k,
  states (nt_factors svals X) (nt_pre svals X) nt_accept (fun s => Ok (nt_reject s)) (nt_init pow X (fst rnd) (snd rnd)) os st ->
  rejected_since os j k -> S k < length os ->
  q_Am (st (S k)) = ob_factors (obs_at os j) /\ tt_extract (q_gm (st (S k))) (q_Am (st (S k))) = Ok (ob_full (obs_at os j)) /\
  q_A (st (S k)) = ob_factors (obs_at os k) /\ tt_extract (q_g (st (S k))) (q_A (st (S k))) = Ok (ob_full (obs_at os k)).
Proof. exact @nt_retry_point. Qed.
Print Assumptions C72_nt_retry_point_partial.

(** with the other factors restored as well the claim would hold *)
Theorem C72_ncp_restored_partial : forall pow svals (X : tensor R) r rnd os st j k s2 full m, spectral svals -> wf X -> 0 < r ->
  cp_factors X r rnd ->
  states (ncp_run svals X) (fun s => Ok (s, None)) ncp_accept (fun s => Ok (ncp_reject s)) (ncp_init pow X rnd) os st ->
  rejected_since os j k -> S k < length os -> ncp_step svals X (ncp_restored (st (S k))) = Ok (s2, full, m) ->
  (m_obj (met os j) < / 2 * sqlen X)%R -> (m_obj m <= m_obj (met os j))%R.
Proof. exact ncp_restored_descends. Qed.
Print Assumptions C72_ncp_restored_partial.

Theorem C72_nt_restored_partial : forall pow svals (X : tensor R) ranks rnd rndg os st j k s1 s2 full m, spectral svals -> wf X ->
  nonempty ranks -> tucker_factors X ranks rnd -> core_like ranks rndg ->
  states (nt_factors svals X) (nt_pre svals X) nt_accept (fun s => Ok (nt_reject s)) (nt_init pow X rnd rndg) os st ->
  rejected_since os j k -> S k < length os -> nt_core svals X (nt_restored (st (S k))) = Ok s1 ->
  nt_fact svals X s1 = Ok (s2, full, m) ->
  (m_obj (met os j) < / 2 * sqlen X)%R -> (m_obj m <= m_obj (met os j))%R.
Proof. exact nt_restored_descends. Qed.
Print Assumptions C72_nt_restored_partial.

(** the second step is never extrapolated and never worse than the first *)
Theorem C72_ncp_second_step_partial : forall pow svals (X : tensor R) r rnd s1 o1 s1' s2 o2, spectral svals -> wf X -> 0 < r ->
  cp_factors X r rnd -> ncp_run svals X (ncp_init pow X rnd) = Ok (s1, o1) -> ncp_accept s1 = Ok s1' ->
  ncp_run svals X s1' = Ok (s2, o2) ->
  (m_obj (ob_met o1) < / 2 * sqlen X)%R -> (m_obj (ob_met o2) <= m_obj (ob_met o1))%R.
Proof. exact ncp_second_step. Qed.
Print Assumptions C72_ncp_second_step_partial.

Theorem C72_nt_second_step_partial : forall pow svals (X : tensor R) ranks rnd rndg s0 c0 s1 o1 s1' s2 c2 s3 o2, spectral svals ->
  wf X -> nonempty ranks -> tucker_factors X ranks rnd -> core_like ranks rndg ->
  nt_pre svals X (nt_init pow X rnd rndg) = Ok (s0, c0) -> nt_factors svals X s0 = Ok (s1, o1) -> nt_accept s1 = Ok s1' ->
  nt_pre svals X s1' = Ok (s2, c2) -> nt_factors svals X s2 = Ok (s3, o2) ->
  (m_obj (ob_met o1) < / 2 * sqlen X)%R -> (m_obj (ob_met o2) <= m_obj (ob_met o1))%R.
Proof. exact nt_second_step. Qed.
Print Assumptions C72_nt_second_step_partial.

(** in binary32, with the exact closed form of the singular values of a 2x2 Gram matrix, the
    step after a rejected one is worse than the last accepted one *)
Theorem C72_ncp_retry_refuted : exists pow svals (X : tensor f32) rnd os st j k,
  states (N := NumF32) (ncp_run (N := NumF32) svals X) (fun s => Ok (s, None)) (ncp_accept (N := NumF32)) (fun s => Ok (ncp_reject s))
    (ncp_init (N := NumF32) pow X rnd) os st /\
  rejected_since (N := NumF32) os j k /\ S k < length os /\ @nltb f32 NumF32 (m_obj (met (N := NumF32) os j)) (m_obj (met (N := NumF32) os (S k))) = true.
Proof. exact c72_ncp_refuted. Qed.
Print Assumptions C72_ncp_retry_refuted.

Theorem C72_nt_retry_refuted : exists pow svals (X : tensor f32) rnd rndg os st j k,
  states (N := NumF32) (nt_factors (N := NumF32) svals X) (nt_pre (N := NumF32) svals X) (nt_accept (N := NumF32)) (fun s => Ok (nt_reject s))
    (nt_init (N := NumF32) pow X rnd rndg) os st /\
  rejected_since (N := NumF32) os j k /\ S k < length os /\ @nltb f32 NumF32 (m_obj (met (N := NumF32) os j)) (m_obj (met (N := NumF32) os (S k))) = true.
Proof. exact c72_nt_refuted. Qed.
Print Assumptions C72_nt_retry_refuted.

(** the hypotheses of C72 *)
Example ex_C72_ncp : rejected_since (N := NumF32) ncp_os 6 7 /\ S 7 < length ncp_os /\
  states (N := NumF32) (ncp_run (N := NumF32) svals2 XR) (fun s => Ok (s, None)) (ncp_accept (N := NumF32)) (fun s => Ok (ncp_reject s))
    (ncp_init (N := NumF32) pow_half XR AR) ncp_os ncp_st.
Proof. split; [exact ncp_rejected|]. split; [vm_compute; lia|exact ncp_states]. Qed.
Example ex_C72_nt : rejected_since (N := NumF32) nt_os 7 8 /\ S 8 < length nt_os /\
  states (N := NumF32) (nt_factors (N := NumF32) svals2 XT) (nt_pre (N := NumF32) svals2 XT) (nt_accept (N := NumF32)) (fun s => Ok (nt_reject s))
    (nt_init (N := NumF32) pow_third XT (fst (AT, GT)) (snd (AT, GT))) nt_os nt_st.
Proof. split; [exact nt_rejected|]. split; [vm_compute; lia|exact nt_states]. Qed.
Example ex_C72_ncp_restored : exists svals os st s2 full m, spectral svals /\ cp_factors X4 1 Ad /\
  states (ncp_run svals X4) (fun s => Ok (s, None)) ncp_accept (fun s => Ok (ncp_reject s)) (ncp_init root2 X4 Ad) os st /\
  rejected_since os 0 1 /\ 2 < length os /\ ncp_step svals X4 (ncp_restored (st 2)) = Ok (s2, full, m) /\
  (m_obj (met os 0) < / 2 * sqlen X4)%R.
Proof. exact ex_ncp_restored. Qed.
Example ex_C72_nt_restored : exists svals os st s1 s2 full m, spectral svals /\ tucker_factors X4 [1; 1] Ad /\ core_like [1; 1] G4 /\
  states (nt_factors svals X4) (nt_pre svals X4) nt_accept (fun s => Ok (nt_reject s)) (nt_init root3 X4 Ad G4) os st /\
  rejected_since os 0 1 /\ 2 < length os /\ nt_core svals X4 (nt_restored (st 2)) = Ok s1 /\ nt_fact svals X4 s1 = Ok (s2, full, m) /\
  (m_obj (met os 0) < / 2 * sqlen X4)%R.
Proof. exact ex_nt_restored. Qed.
(** diag(2, 1), which is not of rank one *)
Example ex_C72_ncp_second : exists svals s1 o1 s1' s2 o2, spectral svals /\ cp_factors Xd 1 Ad /\
  ncp_run svals Xd (ncp_init root1 Xd Ad) = Ok (s1, o1) /\ ncp_accept s1 = Ok s1' /\ ncp_run svals Xd s1' = Ok (s2, o2) /\
  (m_obj (ob_met o1) < / 2 * sqlen Xd)%R.
Proof. exact ex_ncp_second. Qed.
Example ex_C72_nt_second : exists svals s0 c0 s1 o1 s1' s2 c2 s3 o2, spectral svals /\ tucker_factors Xd [1; 1] Ad /\ core_like [1; 1] G4 /\
  nt_pre svals Xd (nt_init root1 Xd Ad G4) = Ok (s0, c0) /\ nt_factors svals Xd s0 = Ok (s1, o1) /\ nt_accept s1 = Ok s1' /\
  nt_pre svals Xd s1' = Ok (s2, c2) /\ nt_factors svals Xd s2 = Ok (s3, o2) /\ (m_obj (ob_met o1) < / 2 * sqlen Xd)%R.
Proof. exact ex_nt_second. Qed.

(** C73: full statement: the factors published by train are those of the step with the
    smallest objective.  They are those of the last step. *)
Theorem C73_ncp_publishes_last_partial : forall (T : Type) (N : Num T) pow svals (X : tensor T) w o rnd steps o' h,
  ncp_train pow svals X w o rnd steps = (o', Ok h) ->
  exists os, bcu_run (ncp_run svals X) (fun s => Ok (s, None)) ncp_accept (fun s => Ok (ncp_reject s)) (ncp_init pow X rnd) os /\
    h = map entry os /\ os <> [] /\ p_factors (o_pub o') = Some (ob_factors (obs_at os (length os - 1))).
Proof. exact @ncp_publishes_last. Qed.
Print Assumptions C73_ncp_publishes_last_partial.

Theorem C73_nt_publishes_last_partial : forall (T : Type) (N : Num T) pow svals (X : tensor T) w o rnd steps o' h,
  nt_train pow svals X w o rnd steps = (o', Ok h) ->
  exists os, bcu_run (nt_factors svals X) (nt_pre svals X) nt_accept (fun s => Ok (nt_reject s)) (nt_init pow X (fst rnd) (snd rnd)) os /\
    h = map entry os /\ os <> [] /\ exists A g, p_factors (o_pub o') = Some A /\ p_aux (o_pub o') = Some g /\
      A = ob_factors (obs_at os (length os - 1)) /\ tt_extract g A = Ok (ob_full (obs_at os (length os - 1))).
Proof. exact @nt_publishes_last. Qed.
Print Assumptions C73_nt_publishes_last_partial.

(** which is the best one if it was accepted *)
Theorem C73_last_accepted_partial : forall os : list (sobs R), accepted os (length os - 1) -> best_step os (length os - 1).
Proof. exact best_when_accepted. Qed.
Print Assumptions C73_last_accepted_partial.

Theorem C73_ncp_refuted : exists pow svals (X : tensor f32) w o rnd steps o' h os,
  ncp_train (N := NumF32) pow svals X w o rnd steps = (o', Ok h) /\
  bcu_run (N := NumF32) (ncp_run (N := NumF32) svals X) (fun s => Ok (s, None)) (ncp_accept (N := NumF32)) (fun s => Ok (ncp_reject s))
    (ncp_init (N := NumF32) pow X rnd) os /\
  h = map entry os /\ p_factors (o_pub o') = Some (ob_factors (obs_at (N := NumF32) os (length os - 1))) /\
  ~ (exists j, best_step (N := NumF32) os j /\ p_factors (o_pub o') = Some (ob_factors (obs_at (N := NumF32) os j))).
Proof. exact c73_ncp_refuted. Qed.
Print Assumptions C73_ncp_refuted.

Theorem C73_nt_refuted : exists pow svals (X : tensor f32) w o rnd steps o' h os,
  nt_train (N := NumF32) pow svals X w o rnd steps = (o', Ok h) /\
  bcu_run (N := NumF32) (nt_factors (N := NumF32) svals X) (nt_pre (N := NumF32) svals X) (nt_accept (N := NumF32)) (fun s => Ok (nt_reject s))
    (nt_init (N := NumF32) pow X (fst rnd) (snd rnd)) os /\
  h = map entry os /\ p_factors (o_pub o') = Some (ob_factors (obs_at (N := NumF32) os (length os - 1))) /\
  ~ (exists j, best_step (N := NumF32) os j /\ p_factors (o_pub o') = Some (ob_factors (obs_at (N := NumF32) os j))).
Proof. exact c73_nt_refuted. Qed.
Print Assumptions C73_nt_refuted.

(** runs to which the theorems apply: the refutations above; a last step that was accepted *)
Example ex_C73_accepted : exists os : list (sobs R), accepted os (length os - 1) /\ length os = 2.
Proof.
  exists [mkObs [] None (mkT [] []) (mkM 0 2 0)%R; mkObs [] None (mkT [] []) (mkM 0 1 0)%R]. split; [|reflexivity]. split; [cbn; lia|].
  cbn. destruct (Rlt_dec 2 (2 + 1)); [|lra]. cbn. destruct (Rlt_dec 1 2); [reflexivity|lra].
Qed.

(** C74: an exact factorization is kept.  NCP and NTucker: the factors themselves are, when
    they are non-negative and not extrapolated; CP and HOOI: the reconstruction. *)
Theorem C74_ncp_step : forall svals (X : tensor R) r s s2 full m, spectral svals -> wf X -> 0 < r -> ncp_wf X r s ->
  ncp_step svals X s = Ok (s2, full, m) -> n_Am s = n_A s -> (forall M, In M (n_A s) -> nonneg M) ->
  cp_tensor r (ones r) (n_A s) = X -> (exists i, valid (shp X) i /\ get X i <> 0%R) ->
  n_A s2 = n_A s /\ full = X /\ m_obj m = 0%R.
Proof. exact ncp_exact. Qed.
Print Assumptions C74_ncp_step.

Theorem C74_nt_step : forall svals (X : tensor R) ranks s s1 s2 full m, spectral svals -> wf X -> nonempty ranks -> nt_wf X ranks s ->
  nt_core svals X s = Ok s1 -> nt_fact svals X s1 = Ok (s2, full, m) -> q_Am s = q_A s -> q_gm s = q_g s -> nonneg (q_g s) ->
  (forall M, In M (q_A s) -> nonneg M) -> tucker_tensor (q_g s) (q_A s) = X -> (exists i, valid (shp X) i /\ get X i <> 0%R) ->
  q_A s2 = q_A s /\ q_g s2 = q_g s /\ full = X /\ m_obj m = 0%R.
Proof. exact nt_exact. Qed.
Print Assumptions C74_nt_step.

(** training from an exact start stops after one step with the start *)
Theorem C74_ncp_train : forall pow svals (X : tensor R) r rnd, spectral svals -> wf X -> 0 < r -> cp_factors X r rnd ->
  (forall M, In M (n_A (ncp_init pow X rnd)) -> nonneg M) -> cp_tensor r (ones r) (n_A (ncp_init pow X rnd)) = X ->
  (exists i, valid (shp X) i /\ get X i <> 0%R) ->
  forall w o steps args id o' h, o_built o = Some ((args, r), id) -> (0 < a_tol args)%R ->
  ncp_train pow svals X w o rnd steps = (o', Ok h) ->
  h = [(0, 0)%R] /\ p_factors (o_pub o') = Some (n_A (ncp_init pow X rnd)) /\ p_full (o_pub o') = Some X.
Proof. exact ncp_exact_train. Qed.
Print Assumptions C74_ncp_train.

Theorem C74_nt_train : forall pow svals (X : tensor R) ranks rnd rndg, spectral svals -> wf X -> nonempty ranks ->
  tucker_factors X ranks rnd -> core_like ranks rndg -> nonneg (q_g (nt_init pow X rnd rndg)) ->
  (forall M, In M (q_A (nt_init pow X rnd rndg)) -> nonneg M) ->
  tucker_tensor (q_g (nt_init pow X rnd rndg)) (q_A (nt_init pow X rnd rndg)) = X ->
  (exists i, valid (shp X) i /\ get X i <> 0%R) ->
  forall w o steps args id o' h, o_built o = Some (args, id) -> (0 < a_tol args)%R ->
  nt_train pow svals X w o (rnd, rndg) steps = (o', Ok h) ->
  h = [(0, 0)%R] /\ p_factors (o_pub o') = Some (q_A (nt_init pow X rnd rndg)) /\ p_full (o_pub o') = Some X.
Proof. exact nt_exact_train. Qed.
Print Assumptions C74_nt_train.

Theorem C74_cp_step : forall pinv (X : tensor R) r A o mu, penrose pinv -> wf X -> cp_factors X r A -> cp_step pinv X r A = Ok o ->
  (forall n q v, n < ndims X -> q < r -> column_max (als_solution pinv X r (mixed n (cp_A o) A) n) q v -> v <> 0%R) ->
  cp_tensor r mu A = X -> cp_full o = X.
Proof. exact cp_exact. Qed.
Print Assumptions C74_cp_step.

Theorem C74_hooi_step : forall svdU (X : tensor R) ranks A o, left_svd svdU -> wf X -> nonempty (shp X) -> nonempty ranks ->
  length ranks = ndims X -> factor_state X ranks A -> hooi_step svdU X (map Z.of_nat ranks) A = Ok o ->
  tucker_tensor (project X A) A = X -> ho_full o = X.
Proof. exact hooi_exact. Qed.
Print Assumptions C74_hooi_step.

(** the 2x2 matrix of fours *)
Example ex_C74_ncp : exists svals, spectral svals /\ wf X4 /\ cp_factors X4 1 Ad /\
  (forall M, In M (n_A (ncp_init root2 X4 Ad)) -> nonneg M) /\ cp_tensor 1 (ones 1) (n_A (ncp_init root2 X4 Ad)) = X4 /\
  (exists i, valid (shp X4) i /\ get X4 i <> 0%R) /\ forall args, a_vi args = 10%Z ->
  exists o' h, ncp_train root2 svals X4 (mkW [7] true) (mkObj (Some ((args, 1), 7)) pub0) Ad 5 = (o', Ok h).
Proof. exact ex_ncp4. Qed.
Example ex_C74_nt : exists svals, spectral svals /\ wf X4 /\ tucker_factors X4 [1; 1] Ad /\ core_like [1; 1] G4 /\
  nonneg (q_g (nt_init root3 X4 Ad G4)) /\ (forall M, In M (q_A (nt_init root3 X4 Ad G4)) -> nonneg M) /\
  tucker_tensor (q_g (nt_init root3 X4 Ad G4)) (q_A (nt_init root3 X4 Ad G4)) = X4 /\
  (exists i, valid (shp X4) i /\ get X4 i <> 0%R) /\ forall args, a_vi args = 10%Z ->
  exists o' h, nt_train root3 svals X4 (mkW [7] true) (mkObj (Some (args, 7)) pub0) (Ad, G4) 5 = (o', Ok h).
Proof. exact ex_nt4. Qed.
Example ex_C74_cp : exists pinv o, penrose pinv /\ wf X4 /\ cp_factors X4 1 Ad /\ cp_step pinv X4 1 Ad = Ok o /\
  (forall n q v, n < ndims X4 -> q < 1 -> column_max (als_solution pinv X4 1 (mixed n (cp_A o) Ad) n) q v -> v <> 0%R) /\
  cp_tensor 1 (mkT [1; 1] [4%R]) Ad = X4.
Proof. exact ex_cp4. Qed.
Example ex_C74_hooi : exists svdU o, left_svd svdU /\ factor_state X4 [1; 1] A4 /\
  hooi_step svdU X4 (map Z.of_nat [1; 1]) A4 = Ok o /\ tucker_tensor (project X4 A4) A4 = X4.
Proof. exact ex_hooi4. Qed.
