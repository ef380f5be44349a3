(** Vocabulary for the fixed points of the block coordinate updates, over the reals. *)

From Coq Require Import List Arith Reals.
From Verif Require Import Num Tensor Spec SpecR SpecProx.
Import ListNotations.
Local Open Scope R_scope.

(** M minimises f over the non-negative tensors of its shape *)
Definition minimises (f : tensor R -> R) (M : tensor R) : Prop :=
  nonneg M /\ forall C, wf C -> shp C = shp M -> nonneg C -> f M <= f C.

(** the first-order conditions for that: M and the gradient are non-negative and one of the
    two is zero at every entry *)
Definition kkt (f : tensor R -> R) (M : tensor R) : Prop :=
  nonneg M /\ forall idx, valid (shp M) idx ->
    exists g, partial_derivative f M idx g /\ 0 <= g /\ get M idx * g = 0.
