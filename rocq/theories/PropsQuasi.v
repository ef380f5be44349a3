(** Property theorems for the quality of HOSVD and HOOI (C75-C78), over the real numbers, with
    the oracle [svdU] of PropsTucker.v.  HOOI steps only run for orders 2 to 13 (C57). *)

From Coq Require Import ZArith List Bool Arith Reals Lia Lra.
From Verif Require Import Num Py Tensor TF Ops Types Loss Fact Train Spec SpecR SpecTrain SpecTucker SpecCp SpecBcu SpecProx MultiR TuckerRun TuckerLemmas QuasiOpt QuasiEx SvdExists.
Import ListNotations.
Local Open Scope R_scope.

(** C75: every step of HOOI is at least as good as HOSVD *)
Theorem C75_hooi_run : forall svdU (X : tensor R) ranks, left_svd svdU -> wf X -> nonempty (shp X) -> nonempty ranks ->
  length ranks = ndims X -> forall A0 os o, hooi_init svdU X (map Z.of_nat ranks) = Ok A0 ->
  hosvd svdU X (map Z.of_nat ranks) = Ok o -> als_run (hooi_run svdU X (map Z.of_nat ranks)) A0 os ->
  forall ob, In ob os -> sqdist X (ob_full ob) <= sqdist X (tu_full o).
Proof. exact hooi_run_hosvd. Qed.
Print Assumptions C75_hooi_run.

(** the two trained objects *)
Theorem C75_train : forall svdU (X : tensor R) ranks w1 o1 r1 n1 o1' h1 id1 w2 o2 r2 n2 o2' h2 args id2, left_svd svdU ->
  wf X -> nonempty (shp X) -> nonempty ranks -> length ranks = ndims X ->
  o_built o1 = Some (map Z.of_nat ranks, id1) -> o_built o2 = Some ((args, map Z.of_nat ranks), id2) ->
  hosvd_train svdU X w1 o1 r1 n1 = (o1', Ok h1) -> hooi_train svdU X w2 o2 r2 n2 = (o2', Ok h2) ->
  exists F1 F2, p_full (o_pub o1') = Some F1 /\ p_full (o_pub o2') = Some F2 /\ sqdist X F2 <= sqdist X F1.
Proof. exact c75_train. Qed.
Print Assumptions C75_train.

(** the start of HOOI is the result of HOSVD, in any arithmetic *)
Theorem C75_hooi_starts_at_hosvd : forall {T} {NT : Num T} svdU (X : tensor T) ranks A o, hooi_init svdU X ranks = Ok A ->
  hosvd svdU X ranks = Ok o -> tu_A o = A.
Proof. exact (@hooi_init_hosvd). Qed.
Print Assumptions C75_hooi_starts_at_hosvd.

(** the 2x2x2 diagonal tensor (3, 1) with ranks 1, 1, 1 *)
Example ex_C75 : exists svdU A0 o ob, left_svd svdU /\ wf X3 /\ nonempty (shp X3) /\ nonempty [1; 1; 1]%nat /\ sqlen X3 = 10 /\
  hooi_init svdU X3 (map Z.of_nat [1; 1; 1]%nat) = Ok A0 /\ hosvd svdU X3 (map Z.of_nat [1; 1; 1]%nat) = Ok o /\
  als_run (hooi_run svdU X3 (map Z.of_nat [1; 1; 1]%nat)) A0 [ob] /\ tu_full o <> X3.
Proof. exact ex75. Qed.
Example ex_C75_train : exists svdU, left_svd svdU /\
  (exists o' h, hosvd_train svdU X3 (mkW [7%nat] true) (mkObj (Some (map Z.of_nat [1; 1; 1]%nat, 7%nat)) pub0) tt 5 = (o', Ok h)) /\
  (exists o' h, hooi_train svdU X3 (mkW [7%nat] true)
     (mkObj (Some ((mkArgs (1/10) 1%Z false, map Z.of_nat [1; 1; 1]%nat), 7%nat)) pub0) tt 5 = (o', Ok h)).
Proof. exact ex75_train. Qed.

(** C76: no Tucker model of these ranks gets below what one mode alone has to discard *)
Theorem C76_lower_bound : forall (X : tensor R) ranks, forall g A n M U W s, nonempty (shp X) ->
  tucker_factors X ranks A -> core_like ranks g -> (n < ndims X)%nat -> unfold X (Z.of_nat n) = Ok M -> thin_svd M U s W ->
  discarded s (nth n ranks 0%nat) (Nat.min (nth n (shp X) 0%nat) (rest n (shp X))) <= sqdist X (tucker_tensor g A).
Proof. exact lower_bound. Qed.
Print Assumptions C76_lower_bound.

(** the squared error of HOSVD is at most order times the smallest possible *)
Theorem C76_hosvd_partial : forall svdU (X : tensor R) ranks rk o g B, left_svd svdU -> wf X -> nonempty (shp X) ->
  (0 < ndims X <= 13)%nat -> (ndims X <= length ranks)%nat -> hosvd svdU X (map Z.of_nat ranks) = Ok o ->
  tucker_factors X rk B -> core_like rk g -> (forall n, (n < ndims X)%nat -> (nth n rk 0 <= nth n ranks 0)%nat) ->
  sqdist X (tu_full o) <= INR (ndims X) * sqdist X (tucker_tensor g B).
Proof. exact hosvd_quasi. Qed.
Print Assumptions C76_hosvd_partial.

(** from order 14 on no factor does *)
Theorem C76_hosvd_order14_refuted : exists X : tensor R, wf X /\ nonempty (shp X) /\ ndims X = 14%nat /\
  forall svdU, left_svd svdU -> exists o g B, hosvd svdU X (map Z.of_nat (shp X)) = Ok o /\
    tucker_factors X (shp X) B /\ core_like (shp X) g /\ INR (ndims X) * sqdist X (tucker_tensor g B) < sqdist X (tu_full o).
Proof. exact quasi_order14. Qed.
Print Assumptions C76_hosvd_order14_refuted.

Theorem C76_hooi_run : forall svdU (X : tensor R) ranks, left_svd svdU -> wf X -> nonempty (shp X) -> nonempty ranks ->
  length ranks = ndims X -> forall A0 os rk g B, hooi_init svdU X (map Z.of_nat ranks) = Ok A0 ->
  als_run (hooi_run svdU X (map Z.of_nat ranks)) A0 os -> tucker_factors X rk B -> core_like rk g ->
  (forall n, (n < ndims X)%nat -> (nth n rk 0 <= nth n ranks 0)%nat) ->
  forall ob, In ob os -> sqdist X (ob_full ob) <= INR (ndims X) * sqdist X (tucker_tensor g B).
Proof. exact hooi_run_quasi. Qed.
Print Assumptions C76_hooi_run.

Theorem C76_hooi_train : forall svdU (X : tensor R) ranks rk g B w o r n o' h args id, left_svd svdU -> wf X ->
  nonempty (shp X) -> nonempty ranks -> length ranks = ndims X -> o_built o = Some ((args, map Z.of_nat ranks), id) ->
  hooi_train svdU X w o r n = (o', Ok h) -> tucker_factors X rk B -> core_like rk g ->
  (forall n, (n < ndims X)%nat -> (nth n rk 0 <= nth n ranks 0)%nat) ->
  exists F, p_full (o_pub o') = Some F /\ sqdist X F <= INR (ndims X) * sqdist X (tucker_tensor g B).
Proof. exact c76_hooi_train. Qed.
Print Assumptions C76_hooi_train.

(** keeping the 3 leaves an error of 1, so HOSVD and HOOI leave at most 3 *)
Example ex_C76 : tucker_factors X3 [1; 1; 1]%nat B3 /\ core_like [1; 1; 1]%nat (mkT [1; 1; 1]%nat [3]) /\
  sqdist X3 (tucker_tensor (mkT [1; 1; 1]%nat [3]) B3) = 1 /\
  exists svdU o M W s, left_svd svdU /\ hosvd svdU X3 (map Z.of_nat [1; 1; 1]%nat) = Ok o /\ sqdist X3 (tu_full o) <= 3 /\
    unfold X3 (Z.of_nat 1) = Ok M /\ thin_svd M (svdU M) s W.
Proof. exact ex76. Qed.

(** C77: the core is the best one for the factors *)
Theorem C77_hosvd_core_partial : forall svdU (X : tensor R) ranks o g, left_svd svdU -> wf X -> nonempty (shp X) ->
  (0 < ndims X <= 13)%nat -> (ndims X <= length ranks)%nat -> hosvd svdU X (map Z.of_nat ranks) = Ok o ->
  core_like (fitted (shp X) ranks) g -> sqdist X (tu_full o) <= sqdist X (tucker_tensor g (tu_A o)).
Proof. exact hosvd_core_opt. Qed.
Print Assumptions C77_hosvd_core_partial.

Theorem C77_hosvd_order14_refuted : exists X : tensor R, wf X /\ nonempty (shp X) /\ ndims X = 14%nat /\
  forall svdU, left_svd svdU -> exists o g, hosvd svdU X (map Z.of_nat (shp X)) = Ok o /\
    core_like (fitted (shp X) (shp X)) g /\ sqdist X (tucker_tensor g (tu_A o)) < sqdist X (tu_full o).
Proof. exact core_order14. Qed.
Print Assumptions C77_hosvd_order14_refuted.

Theorem C77_hooi_core : forall svdU (X : tensor R) ranks A o g, left_svd svdU -> wf X -> nonempty (shp X) -> nonempty ranks ->
  length ranks = ndims X -> factor_state X ranks A -> hooi_step svdU X (map Z.of_nat ranks) A = Ok o ->
  core_like ranks g -> sqdist X (ho_full o) <= sqdist X (tucker_tensor g (ho_A o)).
Proof. exact hooi_core_opt. Qed.
Print Assumptions C77_hooi_core.

(** the update of mode n: no other matrix for mode n and no other core does better with the
    factors of the other modes as they are then *)
Theorem C77_hooi_mode : forall svdU (X : tensor R) ranks A o, left_svd svdU -> wf X -> nonempty (shp X) -> nonempty ranks ->
  length ranks = ndims X -> factor_state X ranks A -> hooi_step svdU X (map Z.of_nat ranks) A = Ok o ->
  forall n g B, (n < ndims X)%nat -> core_like ranks g -> is_mat B (nth n (shp X) 0%nat) (nth n ranks 0%nat) ->
    sqdist X (tucker_tensor (project X (mixed (S n) (ho_A o) A)) (mixed (S n) (ho_A o) A)) <=
    sqdist X (tucker_tensor g (replace n B (mixed (S n) (ho_A o) A))).
Proof. exact hooi_step_best_any. Qed.
Print Assumptions C77_hooi_mode.

(** the result of the step, against any last factor and core *)
Theorem C77_hooi_last : forall svdU (X : tensor R) ranks A o, left_svd svdU -> wf X -> nonempty (shp X) -> nonempty ranks ->
  length ranks = ndims X -> factor_state X ranks A -> hooi_step svdU X (map Z.of_nat ranks) A = Ok o ->
  forall g B, core_like ranks g -> is_mat B (nth (ndims X - 1) (shp X) 0%nat) (nth (ndims X - 1) ranks 0%nat) ->
    sqdist X (ho_full o) <= sqdist X (tucker_tensor g (replace (ndims X - 1) B (ho_A o))).
Proof. exact hooi_last_best. Qed.
Print Assumptions C77_hooi_last.

Example ex_C77 : exists svdU o, left_svd svdU /\ factor_state X3 [1; 1; 1]%nat B3 /\
  hooi_step svdU X3 (map Z.of_nat [1; 1; 1]%nat) B3 = Ok o /\ sqdist X3 (tucker_tensor (project X3 B3) B3) = 1 /\
  core_like [1; 1; 1]%nat (mkT [1; 1; 1]%nat [5]) /\ is_mat (mkT [2; 1]%nat [0; 1]) 2 1.
Proof. exact ex77. Qed.

(** C78: a tensor with an exact Tucker model of at most these ranks is reproduced *)
Theorem C78_hosvd_partial : forall svdU (X : tensor R) ranks rk o g B, left_svd svdU -> wf X -> nonempty (shp X) ->
  (0 < ndims X <= 13)%nat -> (ndims X <= length ranks)%nat -> hosvd svdU X (map Z.of_nat ranks) = Ok o ->
  tucker_factors X rk B -> core_like rk g -> (forall n, (n < ndims X)%nat -> (nth n rk 0 <= nth n ranks 0)%nat) ->
  X = tucker_tensor g B -> tu_full o = X.
Proof. exact hosvd_recovers. Qed.
Print Assumptions C78_hosvd_partial.

Theorem C78_hosvd_train_partial : forall svdU (X : tensor R) ranks rk g B w o r n o' h id, left_svd svdU -> wf X ->
  nonempty (shp X) -> (0 < ndims X <= 13)%nat -> (ndims X <= length ranks)%nat ->
  o_built o = Some (map Z.of_nat ranks, id) -> hosvd_train svdU X w o r n = (o', Ok h) ->
  tucker_factors X rk B -> core_like rk g -> (forall n, (n < ndims X)%nat -> (nth n rk 0 <= nth n ranks 0)%nat) ->
  X = tucker_tensor g B -> p_full (o_pub o') = Some X.
Proof. exact hosvd_recovers_train. Qed.
Print Assumptions C78_hosvd_train_partial.

Theorem C78_hosvd_order14_refuted : exists (X : tensor R) g B, wf X /\ nonempty (shp X) /\ ndims X = 14%nat /\
  tucker_factors X (shp X) B /\ core_like (shp X) g /\ X = tucker_tensor g B /\
  forall svdU, left_svd svdU -> exists o, hosvd svdU X (map Z.of_nat (shp X)) = Ok o /\ tu_full o <> X.
Proof. exact recover_order14. Qed.
Print Assumptions C78_hosvd_order14_refuted.

Theorem C78_hooi_run : forall svdU (X : tensor R) ranks rk A0 os g B, left_svd svdU -> wf X -> nonempty (shp X) ->
  nonempty ranks -> length ranks = ndims X -> hooi_init svdU X (map Z.of_nat ranks) = Ok A0 ->
  als_run (hooi_run svdU X (map Z.of_nat ranks)) A0 os -> tucker_factors X rk B -> core_like rk g ->
  (forall n, (n < ndims X)%nat -> (nth n rk 0 <= nth n ranks 0)%nat) -> X = tucker_tensor g B ->
  forall ob, In ob os -> ob_full ob = X.
Proof. exact hooi_recovers. Qed.
Print Assumptions C78_hooi_run.

(** training ends after one step with error 0 *)
Theorem C78_hooi_train : forall svdU (X : tensor R) ranks rk g B w o r n o' h args id, left_svd svdU -> wf X ->
  nonempty (shp X) -> nonempty ranks -> length ranks = ndims X -> (exists i, valid (shp X) i /\ get X i <> 0) ->
  o_built o = Some ((args, map Z.of_nat ranks), id) -> 0 < a_tol args -> hooi_train svdU X w o r n = (o', Ok h) ->
  tucker_factors X rk B -> core_like rk g -> (forall n, (n < ndims X)%nat -> (nth n rk 0 <= nth n ranks 0)%nat) ->
  X = tucker_tensor g B -> h = [(0, 0)] /\ p_full (o_pub o') = Some X.
Proof. exact hooi_recovers_train. Qed.
Print Assumptions C78_hooi_train.

(** the 2x2x2 tensor of ones *)
Example ex_C78 : tucker_factors O3 [1; 1; 1]%nat C3 /\ core_like [1; 1; 1]%nat (mkT [1; 1; 1]%nat [1]) /\
  O3 = tucker_tensor (mkT [1; 1; 1]%nat [1]) C3 /\ (exists i, valid (shp O3) i /\ get O3 i <> 0) /\
  exists svdU, left_svd svdU /\ wf O3 /\ nonempty (shp O3) /\
  (exists o' h, hosvd_train svdU O3 (mkW [7%nat] true) (mkObj (Some (map Z.of_nat [1; 1; 1]%nat, 7%nat)) pub0) tt 5 = (o', Ok h)) /\
  (exists o' h, hooi_train svdU O3 (mkW [7%nat] true)
     (mkObj (Some ((mkArgs (1/10) 1%Z false, map Z.of_nat [1; 1; 1]%nat), 7%nat)) pub0) tt 5 = (o', Ok h)).
Proof. exact ex78. Qed.
