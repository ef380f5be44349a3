(** Property theorems for the order in which the modes are listed (C107). *)

From Coq Require Import ZArith List Bool Arith Reals.
From Verif Require Import Num Py Tensor TF Ops Fact Train Spec SpecR SpecTucker SpecTrain SpecSym SpecGauge SpecModes ModesFacts ModesWit.
Import ListNotations.
Local Open Scope R_scope.

(** C107: HOSVD of data with the modes in another order, with any two singular value
    decompositions: the same column space for every mode, the same model and the same loss *)
Theorem C107_hosvd : forall svdU svdU' (X Y : tensor R) p ranks, left_svd svdU -> left_svd svdU' -> wf X -> nonempty (shp X) ->
  mode_order p (ndims X) -> reordered p X Y -> (ndims X <= length ranks)%nat -> (0 < ndims X <= 13)%nat -> hosvd_gaps X ranks ->
  exists o o', hosvd svdU X (map Z.of_nat ranks) = Ok o /\ hosvd svdU' Y (map Z.of_nat (pick p ranks)) = Ok o' /\
    length (tu_A o) = ndims X /\ length (tu_A o') = ndims X /\
    (forall k, (k < ndims X)%nat -> same_span (fun i => i) (mat_at (tu_A o) (nth k p 0%nat)) (mat_at (tu_A o') k)) /\
    shp (tu_core o') = pick p (shp (tu_core o)) /\ sqlen (tu_core o') = sqlen (tu_core o) /\
    reordered p (tu_full o) (tu_full o') /\ tu_loss o' = tu_loss o.
Proof. exact hosvd_modes. Qed.
Print Assumptions C107_hosvd.

(** the data as tf.transpose lists it *)
Theorem C107_transpose : forall (X Y : tensor R) p, mode_order p (ndims X) -> tf_transpose X (map Z.of_nat p) = Ok Y -> reordered p X Y.
Proof. exact transpose_reordered. Qed.
Print Assumptions C107_transpose.

(** a step of HOOI updates the modes one after another, so the order matters: with the same
    symmetric data and the same two factors the error after one step is 4 or 1 *)
Theorem C107_hooi_refuted : exists svdU (X : tensor R) A o o', left_svd svdU /\ wf X /\ nonempty (shp X) /\ mode_order [1; 0]%nat (ndims X) /\ reordered [1; 0]%nat X X /\
  factor_state X [1; 1]%nat A /\ hooi_step svdU X (map Z.of_nat [1; 1]%nat) A = Ok o /\
  hooi_step svdU X (map Z.of_nat [1; 1]%nat) [mat_at A 1; mat_at A 0] = Ok o' /\ sqdist X (ho_full o) = 4 /\ sqdist X (ho_full o') = 1.
Proof. exact hooi_order. Qed.
Print Assumptions C107_hooi_refuted.

(** ** Examples *)
(** 2 x 3 data with singular values 2 and 1 and ranks 1, 1 *)
Example ex_C107 : wf X23 /\ nonempty (shp X23) /\ mode_order [1; 0]%nat (ndims X23) /\ reordered [1; 0]%nat X23 X32 /\ hosvd_gaps X23 [1; 1]%nat /\
  exists svdU, left_svd svdU.
Proof. exact ex107. Qed.
Example ex_C107_transpose : tf_transpose X23 (map Z.of_nat [1; 0]%nat) = Ok X32.
Proof. reflexivity. Qed.
