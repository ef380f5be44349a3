(** Specification vocabulary over the real numbers. *)

From Coq Require Import List Reals.
From Verif Require Import Num Tensor Spec.
Local Open Scope R_scope.

(** |M x| <= sigma |x| for every vector x (sigma bounds the operator norm) *)
Definition stretches_at_most (M : tensor R) (sigma : R) : Prop :=
  forall x : nat -> R,
    bigsum (nrows M) (fun i => (bigsum (ncols M) (fun j => mget M i j * x j))²)
    <= sigma² * bigsum (ncols M) (fun j => (x j)²).

(** squared Euclidean distance of two tensors of one shape *)
Definition sqdist (A B : tensor R) : R :=
  msum (shp A) (fun i => (get A i - get B i)²).

(** number of entries *)
Definition entries (A : tensor R) : R := INR (nprod (shp A)).
