(** Vocabulary for exact recovery of pairwise interaction tensors, over the real numbers. *)

From Coq Require Import ZArith List Bool Arith Reals.
From Verif Require Import Num Py Tensor TF PitfOps Spec SpecPitf.
Import ListNotations.
Local Open Scope R_scope.

(** all columns have the same sum *)
Definition equal_sums (M : tensor R) : Prop :=
  forall j j', (j < ncols M)%nat -> (j' < ncols M)%nat -> col_sum M j = col_sum M j'.

(** squared Frobenius norm and distance *)
Definition sqfro (A : tensor R) : R := bigsum (nrows A) (fun i => bigsum (ncols A) (fun j => (mget A i j)²)).
Definition sqdiff (A B : tensor R) : R :=
  bigsum (nrows A) (fun i => bigsum (ncols A) (fun j => (mget A i j - mget B i j)²)).

(** n is the sum of the singular values of Z *)
Definition nuclear (Z : tensor R) (n : R) : Prop :=
  exists U s W, is_svd Z U s W /\ n = bigsum (length s) (fun k => nth k s 0).

(** Zc is Z minus its column means *)
Definition minus_means (Z Zc : tensor R) : Prop :=
  is_mat Zc (nrows Z) (ncols Z) /\
  forall i j, (i < nrows Z)%nat -> (j < ncols Z)%nat -> mget Zc i j = mget Z i j - col_sum Z j / INR (nrows Z).

(** the matrices searched in each mode of shrink, and what is charged for them: the sum of
    the singular values; in mode 'complicated' of Z minus its column means, plus
    |sum of Z| / sqrt(size) *)
Definition admissible (mode : shmode) (Z : tensor R) : Prop :=
  match mode with Normal => centred Z | Complicated => equal_sums Z end.
Definition penalty (mode : shmode) (Z : tensor R) (p : R) : Prop :=
  match mode with
  | Normal => nuclear Z p
  | Complicated => exists Zc n, minus_means Z Zc /\ nuclear Zc n /\ p = n + Rabs (total Z) / sqrt (INR (nrows Z * ncols Z))
  end.

(** svd returns a full singular value decomposition of every matrix *)
Definition full_svd (svd : tensor R -> tensor R * list R * tensor R) : Prop :=
  forall M r c U s W, is_mat M r c -> svd M = (U, s, W) -> is_svd M U s W.

(** the tensor of the pairwise interactions A (axes 0, 1), B (axes 1, 2), C (axes 2, 0) *)
Definition interaction (s0 s1 s2 : nat) (A B C : tensor R) (i j k : nat) : R :=
  mget A i j / sqrt (INR s2) + mget B j k / sqrt (INR s0) + mget C k i / sqrt (INR s1).
(** the matrices exact recovery looks for *)
Definition interaction_matrices (s0 s1 s2 : nat) (A B C : tensor R) : Prop :=
  is_mat A s0 s1 /\ is_mat B s1 s2 /\ is_mat C s2 s0 /\ equal_sums A /\ centred B /\ centred C.

(** a sample of m index triples: inside the shape; every index triple drawn *)
Definition sample_in (s0 s1 s2 m : nat) (spl : sample) : Prop :=
  (m <= length (sp_a spl))%nat /\ (m <= length (sp_b spl))%nat /\ (m <= length (sp_c spl))%nat /\
  forall i, (i < m)%nat -> (nth i (sp_a spl) 0 < s0)%nat /\ (nth i (sp_b spl) 0 < s1)%nat /\ (nth i (sp_c spl) 0 < s2)%nat.
Definition sample_covers (s0 s1 s2 m : nat) (spl : sample) : Prop :=
  forall a b c, (a < s0)%nat -> (b < s1)%nat -> (c < s2)%nat ->
  exists i, (i < m)%nat /\ nth i (sp_a spl) 0%nat = a /\ nth i (sp_b spl) 0%nat = b /\ nth i (sp_c spl) 0%nat = c.
(** no two samples agree on two axes *)
Definition sample_distinct (m : nat) (spl : sample) : Prop :=
  positions_distinct m (sp_a spl) (sp_b spl) /\ positions_distinct m (sp_b spl) (sp_c spl) /\ positions_distinct m (sp_c spl) (sp_a spl).
(** the interactions of A, B, C agree with t on the m samples *)
Definition matches (t : tensor R) (spl : sample) (m s0 s1 s2 : nat) (A B C : tensor R) : Prop :=
  forall l, (l < m)%nat ->
  interaction s0 s1 s2 A B C (nth l (sp_a spl) 0%nat) (nth l (sp_b spl) 0%nat) (nth l (sp_c spl) 0%nat) =
  get t [nth l (sp_a spl) 0%nat; nth l (sp_b spl) 0%nat; nth l (sp_c spl) 0%nat].
(** the cost of A, B, C at threshold tau *)
Definition recovery_cost (tau : R) (s0 s1 s2 : nat) (A B C : tensor R) (v : R) : Prop :=
  exists a b c, penalty Complicated A a /\ penalty Normal B b /\ penalty Normal C c /\
  v = tau / sqrt (INR s2) * a + tau / sqrt (INR s0) * b + tau / sqrt (INR s1) * c + /2 * (sqfro A + sqfro B + sqfro C).
(** the step size and the threshold exact_recovery works with, and the bound on the step size *)
Definition step_size (delt0 : R) (spn s0 s1 s2 : nat) : R := delt0 * INR spn / sqrt (INR (s0 * s1 * s2)).
Definition threshold (tao0 : R) (s0 s1 s2 : nat) : R := tao0 * sqrt (INR (s0 * s1 * s2)).
Definition small_step (d : R) (s0 s1 s2 : nat) : Prop := 0 < d /\ d * (1 / INR s0 + 1 / INR s1 + 1 / INR s2) < 2.
(** the degrees of freedom exact_recovery divides by *)
Definition freedom (rank : Z) (s0 s1 s2 : nat) : Z :=
  (rank * (Z.of_nat s0 + Z.of_nat s1 - rank) + rank * (Z.of_nat s1 + Z.of_nat s2 - rank) + rank * (Z.of_nat s2 + Z.of_nat s0 - rank))%Z.
(** M is a product of matrices with k columns *)
Definition rank_le (M : tensor R) (k : nat) : Prop :=
  exists U V, is_mat U (nrows M) k /\ is_mat V (ncols M) k /\
  forall i j, (i < nrows M)%nat -> (j < ncols M)%nat -> mget M i j = bigsum k (fun l => mget U i l * mget V j l).
