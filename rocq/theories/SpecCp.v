(** Vocabulary for the CP_ALS and NCP_BCU optimisation properties, over the reals. *)

From Coq Require Import ZArith List Bool Arith Reals.
From Verif Require Import Num Py Tensor Spec SpecR.
Import ListNotations.
Local Open Scope R_scope.

(** one I_k x r matrix for every mode of X *)
Definition cp_factors (X : tensor R) (r : nat) (A : list (tensor R)) : Prop :=
  length A = ndims X /\
  forall k, (k < ndims X)%nat -> is_mat (mat_at A k) (nth k (shp X) 0%nat) r.

(** prod_{k<>n} A_k[i_k, q] *)
Definition but (A : list (tensor R)) (n : nat) (idx : list nat) (q : nat) : R :=
  listprod (map (fun k => mget (mat_at A k) (nth k idx 0%nat) q) (others n (length A))).

(** the matricized tensor times Khatri-Rao product:
    entry (i, q) is the sum of X[idx] prod_{k<>n} A_k[i_k, q] over all idx with i_n = i *)
Definition mttkrp (X : tensor R) (r : nat) (A : list (tensor R)) (n : nat) : tensor R :=
  mgen (nth n (shp X) 0%nat) r (fun i q =>
    msum (replace n 1%nat (shp X)) (fun idx => get X (replace n i idx) * but A n idx q)).

(** the entrywise product of the Gram matrices A_k^T A_k, k <> n *)
Definition gram_but (r : nat) (A : list (tensor R)) (n : nat) : tensor R :=
  mgen r r (fun p q =>
    listprod (map (fun k => bigsum (nrows (mat_at A k)) (fun i => mget (mat_at A k) i p * mget (mat_at A k) i q))
                  (others n (length A)))).

(** an r x 1 column of ones *)
Definition ones (r : nat) : tensor R := mgen r 1 (fun _ _ => 1).

(** the squared distance of X to the Kruskal tensor whose mode-n factor is B *)
Definition cp_error (X : tensor R) (r : nat) (A : list (tensor R)) (n : nat) (B : tensor R) : R :=
  sqdist X (cp_tensor r (ones r) (replace n B A)).

(** B minimises the distance over all mode-n factors, the others being fixed *)
Definition least_squares (X : tensor R) (r : nat) (A : list (tensor R)) (n : nat) (B : tensor R) : Prop :=
  is_mat B (nth n (shp X) 0%nat) r /\
  forall C, is_mat C (nth n (shp X) 0%nat) r -> cp_error X r A n B <= cp_error X r A n C.

(** P is the Moore-Penrose inverse of M *)
Definition is_pinv (M P : tensor R) : Prop :=
  let m := nrows M in let n := ncols M in
  let MP i k := bigsum n (fun j => mget M i j * mget P j k) in
  let PM j l := bigsum m (fun i => mget P j i * mget M i l) in
  is_mat P n m /\
  (forall i j, (i < m)%nat -> (j < n)%nat -> bigsum m (fun k => MP i k * mget M k j) = mget M i j) /\
  (forall i j, (i < n)%nat -> (j < m)%nat -> bigsum n (fun k => PM i k * mget P k j) = mget P i j) /\
  (forall i k, (i < m)%nat -> (k < m)%nat -> MP i k = MP k i) /\
  (forall j l, (j < n)%nat -> (l < n)%nat -> PM j l = PM l j).
Definition penrose (pinv : tensor R -> tensor R) : Prop := forall M, matrix M -> is_pinv M (pinv M).

(** the solution of the mode-n normal equations: mttkrp times the Moore-Penrose inverse *)
Definition als_solution (pinv : tensor R -> tensor R) (X : tensor R) (r : nat) (A : list (tensor R)) (n : nat) : tensor R :=
  mgen (nth n (shp X) 0%nat) r (fun i q =>
    bigsum r (fun p => mget (mttkrp X r A n) i p * mget (pinv (gram_but r A n)) p q)).

(** v is the maximum of column q *)
Definition column_max (M : tensor R) (q : nat) (v : R) : Prop :=
  (exists i, (i < nrows M)%nat /\ mget M i q = v) /\ forall i, (i < nrows M)%nat -> mget M i q <= v.
