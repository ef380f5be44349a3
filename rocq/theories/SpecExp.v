(** Vocabulary for the experiment scripts (C111): what a line of their output says. *)

From Coq Require Import ZArith List Bool Arith Reals.
From Verif Require Import Num Py Tensor TF Types Spec SpecR SpecCp SpecProx SpecTucker SpecData.
Import ListNotations.
Local Open Scope R_scope.

(** the line about a model F of the data X: the root of the mean squared error over the non-zero
    entries of X, and the distance relative to the length of X *)
Definition line_about (X F : tensor R) (l : R * R) : Prop :=
  fst l = sqrt (msum (shp X) (fun i => if Req_EM_T (get X i) 0 then 0 else (get X i - get F i)²) /
                msum (shp X) (fun i => if Req_EM_T (get X i) 0 then 0 else 1)) /\
  snd l = sqrt (sqdist X F) / sqrt (sqlen X).

(** at least one and at most [steps] lines, each about a model of the given kind *)
Definition output_about (X : tensor R) (kind : tensor R -> Prop) (steps : Z) (h : list (R * R)) : Prop :=
  (1 <= Z.of_nat (length h) <= steps)%Z /\ forall l, In l h -> exists F, kind F /\ line_about X F l.

(** a sum of r rank-one tensors of the sizes of X *)
Definition cp_kind (X : tensor R) (r : nat) (F : tensor R) : Prop :=
  exists w A, cp_factors X r A /\ F = cp_tensor r w A.
(** the same with non-negative factors and unit weights *)
Definition ncp_kind (X : tensor R) (r : nat) (F : tensor R) : Prop :=
  exists A, cp_factors X r A /\ (forall M, In M A -> nonneg M) /\ F = cp_tensor r (ones r) A.
(** a Tucker model with orthonormal factors and the best core for them *)
Definition tucker_kind (X : tensor R) (ranks : list nat) (F : tensor R) : Prop :=
  exists A, factor_state X ranks A /\ F = tucker_tensor (project X A) A.
(** a Tucker model with non-negative core and factors *)
Definition ntucker_kind (X : tensor R) (ranks : list nat) (F : tensor R) : Prop :=
  exists g A, core_like ranks g /\ nonneg g /\ tucker_factors X ranks A /\ (forall M, In M A -> nonneg M) /\ F = tucker_tensor g A.
(** the model M of sizes N plus the positive part of m times the draw z *)
Definition with_noise (N : list nat) (M : tensor R) (m : R) (z : tensor R) : tensor R :=
  gen N (fun i => get M i + Rmax 0 (m * get z i)).
(** np.random.rand and np.random.randn return arrays of the shape they are asked for *)
Definition generator (rand : nat -> list nat -> tensor R) (randn : list nat -> tensor R) : Prop :=
  (forall k s, wf (rand k s) /\ shp (rand k s) = s) /\ forall s, wf (randn s) /\ shp (randn s) = s.
(** the Kruskal tensor of r columns it draws, after conversion to binary32 *)
Definition cp_model cast (rand : nat -> list nat -> tensor R) (N1 N2 N3 r : nat) : tensor R :=
  cp_tensor r (ones r) (map (tf_map (cast F32)) [positive_part (rand 0%nat [N1; r]); positive_part (rand 1%nat [N2; r]); positive_part (rand 2%nat [N3; r])]).
(** the Tucker tensor of ranks r, r, r *)
Definition tucker_model (rand : nat -> list nat -> tensor R) (N1 N2 N3 r : nat) : tensor R :=
  tucker_tensor (positive_part (rand 0%nat [r; r; r])) [positive_part (rand 1%nat [N1; r]); positive_part (rand 2%nat [N2; r]); positive_part (rand 3%nat [N3; r])].
