(** Property theorems on the limit points of CP_ALS and HOOI runs (C92), over the real numbers. *)

From Coq Require Import ZArith List Bool Arith Reals.
From Verif Require Import Num Py Tensor TF Ops Types Loss Fact Train Spec SpecR SpecTrain SpecTucker SpecBcu SpecCp SpecProx SpecFix FixEx LimLemmas LimEx AlsLemmas.
Import ListNotations.
Local Open Scope R_scope.

(** a run can go on for ever *)
Theorem C92_cp_run : forall pinv (X : tensor R) r A0, penrose pinv -> wf X -> nonempty (shp X) -> (2 <= ndims X <= 25)%nat ->
  cp_factors X r A0 -> exists out, cp_iterates pinv X r A0 out.
Proof. exact cp_run_exists. Qed.
Print Assumptions C92_cp_run.

(** a limit point of the factors and weights: the distances converge, from above, to its distance,
    and it is optimal in the first and in the last mode *)
Theorem C92_cp_limit : forall pinv (X : tensor R) r A0 out phi A lam, penrose pinv -> wf X -> cp_factors X r A0 ->
  cp_iterates pinv X r A0 out ->
  (forall k n q v, (n < ndims X)%nat -> (q < r)%nat ->
     column_max (als_solution pinv X r (mixed n (cp_A (out k)) (cp_start A0 out k)) n) q v -> v <> 0) ->
  subsequence phi -> cp_factors X r A -> factors_cv (fun j => cp_A (out (phi j))) A ->
  (forall q, (q < r)%nat -> Un_cv (fun j => get (cp_lam (out (phi j))) [q]) (mget lam q 0)) ->
  Un_cv (fun k => sqdist X (cp_full (out k))) (sqdist X (cp_tensor r lam A)) /\
  (forall k, sqdist X (cp_tensor r lam A) <= sqdist X (cp_full (out k))) /\
  cp_best_mode X r lam A 0 /\ cp_best_mode X r lam A (ndims X - 1).
Proof. exact c92_cp_limit. Qed.
Print Assumptions C92_cp_limit.

(** the normalisation of the columns survives in the limit *)
Theorem C92_cp_normalised : forall pinv (X : tensor R) r A0 out phi A, penrose pinv -> cp_factors X r A0 ->
  cp_iterates pinv X r A0 out ->
  (forall k n q v, (n < ndims X)%nat -> (q < r)%nat ->
     column_max (als_solution pinv X r (mixed n (cp_A (out k)) (cp_start A0 out k)) n) q v -> 0 < v) ->
  subsequence phi -> cp_factors X r A -> factors_cv (fun j => cp_A (out (phi j))) A -> max_normalised X r A.
Proof. exact c92_cp_normalised. Qed.
Print Assumptions C92_cp_normalised.

(** with positive weights and invertible Gram products at the limit point: it is optimal in every
    mode, the steps taken from the subsequence converge to the same point, and it is a fixed point *)
Theorem C92_cp_stationary : forall pinv (X : tensor R) r A0 out phi A lam, penrose pinv -> wf X -> cp_factors X r A0 ->
  cp_iterates pinv X r A0 out ->
  (forall k n q v, (n < ndims X)%nat -> (q < r)%nat ->
     column_max (als_solution pinv X r (mixed n (cp_A (out k)) (cp_start A0 out k)) n) q v -> 0 < v) ->
  subsequence phi -> cp_factors X r A -> factors_cv (fun j => cp_A (out (phi j))) A ->
  (forall q, (q < r)%nat -> Un_cv (fun j => get (cp_lam (out (phi j))) [q]) (mget lam q 0)) ->
  (forall q, (q < r)%nat -> 0 < mget lam q 0) -> (forall n, (n < ndims X)%nat -> invertible r (gram_but r A n)) ->
  (forall n, (n < ndims X)%nat -> cp_best_mode X r lam A n /\ cp_normal_equations X r lam A n) /\
  factors_cv (fun j => cp_A (out (S (phi j)))) A /\
  exists o, cp_step pinv X r A = Ok o /\ cp_A o = A /\ shp (cp_lam o) = [r] /\
    forall q, (q < r)%nat -> get (cp_lam o) [q] = mget lam q 0.
Proof. exact c92_cp_stationary. Qed.
Print Assumptions C92_cp_stationary.

(** diag(2, 1) of rank 1 from the columns (1, 1): every step changes the factors, the limit is
    the pair of first unit vectors with weight 2 *)
Example ex_C92_cp : exists pinv out, penrose pinv /\ wf Xd /\ cp_factors Xd 1 (V 1 1) /\ cp_iterates pinv Xd 1 (V 1 1) out /\
  (forall k n q v, (n < ndims Xd)%nat -> (q < 1)%nat ->
     column_max (als_solution pinv Xd 1 (mixed n (cp_A (out k)) (cp_start (V 1 1) out k)) n) q v -> 0 < v) /\
  subsequence (fun j => j) /\ cp_factors Xd 1 E1 /\ factors_cv (fun j => cp_A (out j)) E1 /\
  (forall q, (q < 1)%nat -> Un_cv (fun j => get (cp_lam (out j)) [q]) (mget w2 q 0)) /\
  (forall q, (q < 1)%nat -> 0 < mget w2 q 0) /\ (forall n, (n < ndims Xd)%nat -> invertible 1 (gram_but 1 E1 n)) /\
  (forall k, cp_A (out k) <> cp_A (out (S k))) /\ sqdist Xd (cp_tensor 1 w2 E1) = 1.
Proof. exact ex92_cp. Qed.

Theorem C92_hooi_run : forall svdU (X : tensor R) ranks A0, left_svd svdU -> wf X -> nonempty (shp X) -> nonempty ranks ->
  length ranks = ndims X -> (2 <= ndims X <= 13)%nat ->
  (forall n, (n < ndims X)%nat -> (nth n ranks 0 <= Nat.min (nth n (shp X) 0) (rest n ranks))%nat) -> factor_state X ranks A0 ->
  exists out, hooi_iterates svdU X ranks A0 out.
Proof. exact hooi_run_exists. Qed.
Print Assumptions C92_hooi_run.

(** the factors of a HOOI run have a limit point *)
Theorem C92_hooi_exists : forall svdU (X : tensor R) ranks A0 out, left_svd svdU -> wf X -> nonempty (shp X) -> nonempty ranks ->
  length ranks = ndims X -> factor_state X ranks A0 -> hooi_iterates svdU X ranks A0 out ->
  exists phi A, subsequence phi /\ tucker_factors X ranks A /\ factors_cv (fun j => ho_A (out (phi j))) A.
Proof. exact c92_hooi_exists. Qed.
Print Assumptions C92_hooi_exists.

(** any limit point has orthonormal factors, its core is the limit of the cores, its distance is
    the limit of the distances, and it is optimal in the first and in the last mode *)
Theorem C92_hooi_limit : forall svdU (X : tensor R) ranks A0 out phi A, left_svd svdU -> wf X -> nonempty (shp X) -> nonempty ranks ->
  length ranks = ndims X -> factor_state X ranks A0 -> hooi_iterates svdU X ranks A0 out ->
  subsequence phi -> tucker_factors X ranks A -> factors_cv (fun j => ho_A (out (phi j))) A ->
  factor_state X ranks A /\ tensor_cv (fun j => ho_core (out (phi j))) (project X A) /\
  Un_cv (fun k => sqdist X (ho_full (out k))) (sqdist X (tucker_tensor (project X A) A)) /\
  (forall k, sqdist X (tucker_tensor (project X A) A) <= sqdist X (ho_full (out k))) /\
  tucker_best_mode X ranks (project X A) A 0 /\ tucker_best_mode X ranks (project X A) A (ndims X - 1).
Proof. exact c92_hooi_limit. Qed.
Print Assumptions C92_hooi_limit.

(** for matrices these are all the modes *)
Theorem C92_hooi_matrix : forall svdU (X : tensor R) ranks A0 out, left_svd svdU -> wf X -> nonempty (shp X) -> nonempty ranks ->
  ndims X = 2%nat -> length ranks = 2%nat -> factor_state X ranks A0 -> hooi_iterates svdU X ranks A0 out ->
  exists A, factor_state X ranks A /\
    Un_cv (fun k => sqdist X (ho_full (out k))) (sqdist X (tucker_tensor (project X A) A)) /\
    forall n, (n < 2)%nat -> tucker_best_mode X ranks (project X A) A n.
Proof. exact c92_hooi_matrix. Qed.
Print Assumptions C92_hooi_matrix.

Example ex_C92_hooi : exists svdU out, left_svd svdU /\ wf Xd /\ nonempty (shp Xd) /\ factor_state Xd [1; 1]%nat E2 /\
  hooi_iterates svdU Xd [1; 1]%nat E2 out /\
  subsequence (fun j => j) /\ tucker_factors Xd [1; 1]%nat E2 /\ factors_cv (fun j => ho_A (out j)) E2.
Proof. exact ex92_hooi. Qed.
