(** Vocabulary for data whose modes are listed in another order (C107). *)

From Coq Require Import ZArith List Bool Arith Reals Permutation.
From Verif Require Import Num Py Tensor Spec.
Import ListNotations.

(** Y is X with the modes listed in the order p, as numpy.transpose(X, p): mode k of Y is mode
    p[k] of X *)
Definition reordered (p : list nat) (X Y : tensor R) : Prop :=
  wf Y /\ shp Y = pick p (shp X) /\ forall idx, valid (shp X) idx -> get Y (pick p idx) = get X idx.
Definition mode_order (p : list nat) (N : nat) : Prop := Permutation p (seq 0 N).
