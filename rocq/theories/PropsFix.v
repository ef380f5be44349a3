(** Property theorems on the fixed points of CP_ALS and HOOI (C91), over the real numbers. *)

From Coq Require Import ZArith List Bool Arith Reals.
From Verif Require Import Num Py Tensor TF Ops Types Loss Fact Train Spec SpecR SpecTrain SpecTucker SpecBcu SpecCp SpecProx SpecFix FixFacts FixEx AlsLemmas.
Import ListNotations.
Local Open Scope R_scope.

(** being optimal in a mode is the same as satisfying its normal equations *)
Theorem C91_cp_normal : forall (X : tensor R) r lam A n, nonempty (shp X) -> (2 <= ndims X <= 26)%nat -> cp_factors X r A ->
  (n < ndims X)%nat -> (cp_best_mode X r lam A n <-> cp_normal_equations X r lam A n).
Proof. exact c91_normal. Qed.
Print Assumptions C91_cp_normal.

(** a step that returns the factors it started from: optimal in every mode *)
Theorem C91_cp_fixed : forall pinv (X : tensor R) r A o, penrose pinv -> cp_factors X r A -> cp_step pinv X r A = Ok o ->
  (forall n q v, (n < ndims X)%nat -> (q < r)%nat ->
     column_max (als_solution pinv X r (mixed n (cp_A o) A) n) q v -> v <> 0) ->
  cp_A o = A -> forall n, (n < ndims X)%nat ->
  cp_best_mode X r (weights r (cp_lam o)) A n /\ cp_normal_equations X r (weights r (cp_lam o)) A n.
Proof. exact c91_fixed. Qed.
Print Assumptions C91_cp_fixed.

(** conversely *)
Theorem C91_cp_stationary : forall pinv (X : tensor R) r A mu, penrose pinv -> wf X -> nonempty (shp X) -> (2 <= ndims X <= 25)%nat ->
  cp_factors X r A -> max_normalised X r A -> (forall q, (q < r)%nat -> 0 < mget mu q 0) ->
  (forall n, (n < ndims X)%nat -> invertible r (gram_but r A n) /\ cp_normal_equations X r mu A n) ->
  exists o, cp_step pinv X r A = Ok o /\ cp_A o = A /\ shp (cp_lam o) = [r] /\
    forall q, (q < r)%nat -> get (cp_lam o) [q] = mget mu q 0.
Proof. exact c91_stationary. Qed.
Print Assumptions C91_cp_stationary.

(** a step that changes a factor or a weight lowers the distance *)
Theorem C91_cp_strict : forall pinv (X : tensor R) r A mu o, penrose pinv -> cp_factors X r A -> cp_step pinv X r A = Ok o ->
  (forall n q v, (n < ndims X)%nat -> (q < r)%nat ->
     column_max (als_solution pinv X r (mixed n (cp_A o) A) n) q v -> v <> 0) ->
  max_normalised X r A -> (forall q, (q < r)%nat -> 0 < mget mu q 0) ->
  (forall n, (n < ndims X)%nat -> invertible r (gram_but r A n)) ->
  (cp_A o <> A \/ exists q, (q < r)%nat /\ get (cp_lam o) [q] <> mget mu q 0) ->
  sqdist X (cp_full o) < sqdist X (cp_tensor r mu A).
Proof. exact c91_strict. Qed.
Print Assumptions C91_cp_strict.

(** without invertibility: a step that does not lower the distance started from factors that
    are optimal in the first mode *)
Theorem C91_cp_no_progress : forall pinv (X : tensor R) r A mu o, penrose pinv -> cp_factors X r A -> cp_step pinv X r A = Ok o ->
  (forall n q v, (n < ndims X)%nat -> (q < r)%nat ->
     column_max (als_solution pinv X r (mixed n (cp_A o) A) n) q v -> v <> 0) ->
  sqdist X (cp_tensor r mu A) <= sqdist X (cp_full o) -> cp_best_mode X r mu A 0.
Proof. exact c91_no_progress. Qed.
Print Assumptions C91_cp_no_progress.

(** diag(2, 1) of rank 1: the first unit vectors with weight 2 *)
Example ex_C91_cp : exists pinv o, penrose pinv /\ wf Xd /\ cp_factors Xd 1 E1 /\ cp_step pinv Xd 1 E1 = Ok o /\ cp_A o = E1 /\
  get (cp_lam o) [0%nat] = 2 /\ max_normalised Xd 1 E1 /\ (forall q, (q < 1)%nat -> 0 < mget w2 q 0) /\
  (forall n, (n < ndims Xd)%nat -> invertible 1 (gram_but 1 E1 n) /\ cp_normal_equations Xd 1 w2 E1 n) /\
  (forall n q v, (n < ndims Xd)%nat -> (q < 1)%nat ->
     column_max (als_solution pinv Xd 1 (mixed n (cp_A o) E1) n) q v -> v <> 0) /\
  sqdist Xd (cp_full o) = 1.
Proof. exact ex91_cp. Qed.

(** the same for HOOI *)
Theorem C91_hooi_fixed : forall svdU (X : tensor R) ranks A o, left_svd svdU -> wf X -> nonempty (shp X) -> nonempty ranks ->
  length ranks = ndims X -> factor_state X ranks A -> hooi_step svdU X (map Z.of_nat ranks) A = Ok o -> ho_A o = A ->
  forall n, (n < ndims X)%nat -> tucker_best_mode X ranks (ho_core o) A n.
Proof. exact c91_hooi_fixed. Qed.
Print Assumptions C91_hooi_fixed.

Theorem C91_hooi_no_progress : forall svdU (X : tensor R) ranks A o, left_svd svdU -> wf X -> nonempty (shp X) -> nonempty ranks ->
  length ranks = ndims X -> factor_state X ranks A -> hooi_step svdU X (map Z.of_nat ranks) A = Ok o ->
  sqdist X (tucker_tensor (project X A) A) <= sqdist X (ho_full o) -> tucker_best_mode X ranks (project X A) A 0.
Proof. exact c91_hooi_no_progress. Qed.
Print Assumptions C91_hooi_no_progress.

(** diag(2, 1) with ranks 1, 1: the second unit vectors are a fixed point at distance 4 *)
Example ex_C91_hooi : exists svdU o, left_svd svdU /\ wf Xd /\ factor_state Xd [1; 1]%nat E2 /\
  hooi_step svdU Xd (map Z.of_nat [1; 1]%nat) E2 = Ok o /\ ho_A o = E2 /\
  sqdist Xd (ho_full o) = 4 /\ sqdist Xd (tucker_tensor (project Xd E2) E2) = 4.
Proof. exact ex91_hooi. Qed.
