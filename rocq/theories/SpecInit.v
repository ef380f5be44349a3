(** Vocabulary for the starting points of NCP_BCU and NTUCKER_BCU (C81), over the reals. *)

From Coq Require Import ZArith List Bool Arith Reals.
From Verif Require Import Num Py Tensor Spec SpecR SpecTucker.
Import ListNotations.
Local Open Scope R_scope.

(** pow x (1/k) is the k-th root of x *)
Definition roots (pow : R -> R -> R) : Prop :=
  forall x k, 0 <= x -> (0 < k)%nat -> 0 <= pow x (1 / INR k) /\ (pow x (1 / INR k)) ^ k = x.

(** the Frobenius norm *)
Definition norm (X : tensor R) : R := sqrt (sqlen X).

Definition has_positive (t : tensor R) : Prop := exists i, valid (shp t) i /\ 0 < get t i.

(** every entry of M is c times the positive part of the same entry of the draw *)
Definition scaled_draw (draw M : tensor R) : Prop :=
  wf M /\ shp M = shp draw /\ exists c, 0 <= c /\ forall i, valid (shp M) i -> get M i = c * Rmax 0 (get draw i).
