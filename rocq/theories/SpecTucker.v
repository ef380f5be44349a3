(** Vocabulary for the HOSVD, HOOI, CP and Tucker optimisation properties, over the reals. *)

From Coq Require Import ZArith List Bool Arith Reals.
From Verif Require Import Num Py Tensor Spec SpecR.
Import ListNotations.
Local Open Scope R_scope.

(** squared Frobenius norm *)
Definition sqlen (X : tensor R) : R := msum (shp X) (fun i => (get X i)²).

(** the columns of U are orthonormal *)
Definition orthonormal (U : tensor R) : Prop :=
  forall p q, (p < ncols U)%nat -> (q < ncols U)%nat ->
    bigsum (nrows U) (fun i => mget U i p * mget U i q) = if Nat.eqb p q then 1 else 0.

(** M = U diag(s) W^T, a reduced singular value decomposition: U and W have
    min(rows, columns) orthonormal columns and s is non-negative and descending *)
Definition thin_svd (M U : tensor R) (s : nat -> R) (W : tensor R) : Prop :=
  let k := Nat.min (nrows M) (ncols M) in
  is_mat U (nrows M) k /\ is_mat W (ncols M) k /\ orthonormal U /\ orthonormal W /\
  (forall p, (p < k)%nat -> 0 <= s p) /\
  (forall p q, (p <= q)%nat -> (q < k)%nat -> s q <= s p) /\
  forall i j, (i < nrows M)%nat -> (j < ncols M)%nat ->
    mget M i j = bigsum k (fun p => mget U i p * s p * mget W j p).

(** the function returns the left factor of a reduced singular value decomposition of
    every non-empty matrix *)
Definition left_svd (svdU : tensor R -> tensor R) : Prop :=
  forall M, matrix M -> nrows M <> 0%nat -> ncols M <> 0%nat -> exists s W, thin_svd M (svdU M) s W.

(** X x_1 U_1^T ... x_N U_N^T *)
Definition project (X : tensor R) (U : list (tensor R)) : tensor R :=
  mode_products X (combine (map mtrans U) (seq 0 (length U))).

(** one I_n x r_n matrix with orthonormal columns for every mode of X *)
Definition factor_state (X : tensor R) (ranks : list nat) (A : list (tensor R)) : Prop :=
  length A = ndims X /\
  forall k, (k < ndims X)%nat -> is_mat (mat_at A k) (nth k (shp X) 0%nat) (nth k ranks 0%nat) /\ orthonormal (mat_at A k).

(** product of the sizes other than the n-th *)
Definition rest (n : nat) (s : list nat) : nat := nprod (pick (others n (length s)) s).

(** the rank HOSVD can give mode n: no more columns than the unfolding has singular vectors *)
Definition fitted (s ranks : list nat) : list nat :=
  map (fun n => Nat.min (nth n ranks 0%nat) (Nat.min (nth n s 0%nat) (rest n s))) (seq 0 (length s)).

(** sum of the squares of s_p for r <= p < k *)
Definition discarded (s : nat -> R) (r k : nat) : R := bigsum k (fun p => if Nat.ltb p r then 0 else (s p)²).
