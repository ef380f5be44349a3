(** Property theorems for the starting points of NCP_BCU and NTUCKER_BCU (C81), over the real
    numbers.  [pow] takes roots; every random draw has a positive entry. *)

From Coq Require Import ZArith List Bool Arith Reals Lia Lra.
From Verif Require Import Num Py Tensor TF Ops Types Loss Fact Train Spec SpecR SpecTrain SpecTucker SpecBcu SpecCp SpecProx SpecInit
  InitFacts AlsLemmas Exact ExactEx InitEx ZeroWit.
Import ListNotations.
Local Open Scope R_scope.

(** C81: the factors are multiples of the clipped draws of norm |X|^(1/order), the extrapolated
    and the previous ones start equal to them, everything else at 1 *)
Theorem C81_ncp_init : forall pow (X : tensor R) r rnd, roots pow -> wf X -> cp_factors X r rnd ->
  (forall d, In d rnd -> has_positive d) -> let s := ncp_init pow X rnd in
  n_Am s = n_A s /\ n_A0 s = n_A s /\ n_t s = 1 /\ n_t0 s = 1 /\
  n_w s = repeat 1 (ndims X) /\ n_L s = repeat 1 (ndims X) /\ n_L0 s = repeat 1 (ndims X) /\ length (n_A s) = ndims X /\
  forall k, (k < ndims X)%nat -> scaled_draw (mat_at rnd k) (mat_at (n_A s) k) /\ norm (mat_at (n_A s) k) ^ ndims X = norm X.
Proof. exact c81_ncp_init. Qed.
Print Assumptions C81_ncp_init.

(** NTucker: factors and core of norm |X|^(1/(order+1)) *)
Theorem C81_nt_init : forall pow (X : tensor R) ranks rnd rndg, roots pow -> wf X -> tucker_factors X ranks rnd ->
  core_like ranks rndg -> (forall d, In d rnd -> has_positive d) -> has_positive rndg -> let s := nt_init pow X rnd rndg in
  q_Am s = q_A s /\ q_A0 s = q_A s /\ q_gm s = q_g s /\ q_g0 s = q_g s /\ q_t s = 1 /\ q_t0 s = 1 /\
  q_w s = repeat 1 (ndims X + 1) /\ q_L s = repeat 1 (ndims X + 1) /\ q_L0 s = repeat 1 (ndims X + 1) /\ length (q_A s) = ndims X /\
  scaled_draw rndg (q_g s) /\ norm (q_g s) ^ (ndims X + 1) = norm X /\
  forall k, (k < ndims X)%nat -> scaled_draw (mat_at rnd k) (mat_at (q_A s) k) /\ norm (mat_at (q_A s) k) ^ (ndims X + 1) = norm X.
Proof. exact c81_nt_init. Qed.
Print Assumptions C81_nt_init.

(** the model training starts from is not longer than X, hence at most 2 |X| away from it, and
    sqrt 2 |X| when X is non-negative *)
Theorem C81_ncp_model : forall pow (X : tensor R) r rnd, roots pow -> wf X -> cp_factors X r rnd ->
  (forall d, In d rnd -> has_positive d) -> (2 <= ndims X)%nat -> let M := cp_tensor r (ones r) (n_A (ncp_init pow X rnd)) in
  norm M <= norm X /\ sqdist X M <= 4 * sqlen X /\ (nonneg X -> sqdist X M <= 2 * sqlen X).
Proof. exact c81_ncp_model. Qed.
Print Assumptions C81_ncp_model.

Theorem C81_nt_model : forall pow (X : tensor R) ranks rnd rndg, roots pow -> wf X -> tucker_factors X ranks rnd ->
  core_like ranks rndg -> (forall d, In d rnd -> has_positive d) -> has_positive rndg ->
  let M := tucker_tensor (q_g (nt_init pow X rnd rndg)) (q_A (nt_init pow X rnd rndg)) in
  norm M <= norm X /\ sqdist X M <= 4 * sqlen X /\ (nonneg X -> sqdist X M <= 2 * sqlen X).
Proof. exact c81_nt_model. Qed.
Print Assumptions C81_nt_model.

(** so the objective of the first step is at most 2 |X|^2, or |X|^2 when X is non-negative *)
Theorem C81_ncp_first_step : forall pow (X : tensor R) r rnd, roots pow -> wf X -> cp_factors X r rnd ->
  (forall d, In d rnd -> has_positive d) -> forall svals s2 full m, spectral svals -> (0 < r)%nat ->
  ncp_step svals X (ncp_init pow X rnd) = Ok (s2, full, m) -> (forall n, (n < ndims X)%nat -> nth n (n_L s2) 0 <> 0) ->
  m_obj m <= 2 * sqlen X /\ (nonneg X -> m_obj m <= sqlen X).
Proof. exact c81_ncp_first. Qed.
Print Assumptions C81_ncp_first_step.

Theorem C81_nt_first_step : forall pow (X : tensor R) ranks rnd rndg, roots pow -> wf X -> tucker_factors X ranks rnd ->
  core_like ranks rndg -> (forall d, In d rnd -> has_positive d) -> has_positive rndg ->
  forall svals s1 s2 full m, spectral svals -> nonempty ranks -> nt_core svals X (nt_init pow X rnd rndg) = Ok s1 ->
  nt_fact svals X s1 = Ok (s2, full, m) -> (forall n, (n <= ndims X)%nat -> nth n (q_L s2) 0 <> 0) ->
  m_obj m <= 2 * sqlen X /\ (nonneg X -> m_obj m <= sqlen X).
Proof. exact c81_nt_first. Qed.
Print Assumptions C81_nt_first_step.

(** a draw of zeros becomes NaN, in binary32 *)
Theorem C81_ncp_zero_draw_nan : forall pow (X : tensor f32) rnd k s n, nth_error rnd k = Some (mkT s (repeat (@n0 f32 NumF32) n)) ->
  exists a, nth_error (n_A (ncp_init (N := NumF32) pow X rnd)) k = Some (mkT s (repeat a n)) /\ @neqb f32 NumF32 a a = false.
Proof. exact c81_ncp_zero. Qed.
Print Assumptions C81_ncp_zero_draw_nan.

Theorem C81_nt_zero_draw_nan : forall pow (X : tensor f32) rnd rndg k s n,
  nth_error (rndg :: rnd) k = Some (mkT s (repeat (@n0 f32 NumF32) n)) -> let st := nt_init (N := NumF32) pow X rnd rndg in
  exists a, nth_error (q_g st :: q_A st) k = Some (mkT s (repeat a n)) /\ @neqb f32 NumF32 a a = false.
Proof. exact c81_nt_zero. Qed.
Print Assumptions C81_nt_zero_draw_nan.

(** the 2x2 matrix of fours from all-one draws *)
Example ex_C81_ncp : exists pow svals s2 full m, spectral svals /\ roots pow /\ wf X4 /\ nonneg X4 /\ cp_factors X4 1 Ad /\
  (forall d, In d Ad -> has_positive d) /\ ncp_step svals X4 (ncp_init pow X4 Ad) = Ok (s2, full, m) /\
  (forall n, (n < ndims X4)%nat -> nth n (n_L s2) 0 <> 0).
Proof. exists rpow. exact ex81_ncp. Qed.
Example ex_C81_nt : exists pow svals s1 s2 full m, spectral svals /\ roots pow /\ wf X4 /\ nonneg X4 /\ nonempty [1; 1]%nat /\
  tucker_factors X4 [1; 1]%nat Ad /\ core_like [1; 1]%nat G4 /\ (forall d, In d Ad -> has_positive d) /\ has_positive G4 /\
  nt_core svals X4 (nt_init pow X4 Ad G4) = Ok s1 /\ nt_fact svals X4 s1 = Ok (s2, full, m) /\
  (forall n, (n <= ndims X4)%nat -> nth n (q_L s2) 0 <> 0).
Proof. exists rpow. exact ex81_nt. Qed.
