(** The pseudo-inverse NumPy computes (C106): singular values at or below a threshold are
    treated as zero (np.linalg.pinv, rcond). *)

From Coq Require Import ZArith List Bool Arith Reals.
From Verif Require Import Num Py Tensor Fact Spec SpecR SpecCp SpecBcu.
Import ListNotations.
Local Open Scope R_scope.

(** [P] is the Moore-Penrose inverse of what is left of the symmetric matrix [M] when a
    part [M2], orthogonal to the rest and of size at most [t], is dropped *)
Definition cut_pinv (t : R) (M P : tensor R) : Prop :=
  exists M1 M2 : tensor R, let n := nrows M in
  is_mat M1 n n /\ is_mat M2 n n /\
  (forall i j, (i < n)%nat -> (j < n)%nat -> mget M i j = mget M1 i j + mget M2 i j) /\
  (forall i j, (i < n)%nat -> (j < n)%nat -> mget M1 i j = mget M1 j i /\ mget M2 i j = mget M2 j i) /\
  (forall i j, (i < n)%nat -> (j < n)%nat -> bigsum n (fun k => mget M1 i k * mget M2 k j) = 0) /\
  (forall x : nat -> R, bigsum n (fun i => bigsum n (fun j => x i * mget M2 i j * x j)) <= t * bigsum n (fun i => x i * x i)) /\
  is_pinv M1 P.
Definition symmetric (M : tensor R) : Prop := matrix M /\ nrows M = ncols M /\ forall i j, (i < nrows M)%nat -> (j < nrows M)%nat -> mget M i j = mget M j i.
(** the routine with threshold [tau M] *)
Definition cutoff (tau : tensor R -> R) (pinv : tensor R -> tensor R) : Prop :=
  forall M, symmetric M -> 0 <= tau M /\ cut_pinv (tau M) M (pinv M).

(** the length of factor [A] with its columns weighted by [w] *)
Definition wlen (A : tensor R) (w : nat -> R) : R :=
  sqrt (bigsum (nrows A) (fun i => bigsum (ncols A) (fun q => (mget A i q * w q)²))).
