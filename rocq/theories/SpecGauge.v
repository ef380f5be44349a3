(** Vocabulary for results that do not depend on the choice of singular vectors (C102). *)

From Coq Require Import ZArith List Bool Arith Reals.
From Verif Require Import Num Py Tensor Ops Fact Train Spec SpecR SpecTucker SpecSym.
Import ListNotations.
Local Open Scope R_scope.

(** entry (i, j) of A A^T; the orthogonal projector onto the column space when the columns of A
    are orthonormal *)
Definition outer (A : tensor R) (i j : nat) : R := bigsum (ncols A) (fun p => mget A i p * mget A j p).

(** factor k of A' has the sizes and the column space of factor k of A with the rows relabelled *)
Definition same_span (sg : nat -> nat) (A A' : tensor R) : Prop :=
  nrows A' = nrows A /\ ncols A' = ncols A /\
  forall i j, (i < nrows A)%nat -> (j < nrows A)%nat -> outer A' i j = outer A (sg i) (sg j).
Definition same_spans (sg : nat -> nat -> nat) (A A' : list (tensor R)) : Prop :=
  length A' = length A /\ forall k, (k < length A)%nat -> same_span (sg k) (mat_at A k) (mat_at A' k).

(** the r leading singular values of M are positive and larger than the other ones, or r is
    the number of rows *)
Definition gap_at (M : tensor R) (r : nat) : Prop :=
  r = nrows M \/ exists U s W, thin_svd M U s W /\
    (forall p, (p < r)%nat -> 0 < s p) /\
    forall p q, (p < r)%nat -> (r <= q)%nat -> (q < Nat.min (nrows M) (ncols M))%nat -> s q < s p.

(** a gap after rank r_n in every unfolding of X *)
Definition hosvd_gaps (X : tensor R) (ranks : list nat) : Prop :=
  forall n M, (n < ndims X)%nat -> unfold X (Z.of_nat n) = Ok M -> gap_at M (Nat.min (nth n ranks 0%nat) (Nat.min (nrows M) (ncols M))).

Section Hooi.
  Variables (svdU : tensor R -> tensor R) (X : tensor R) (ranks : list nat).
  (** a gap after rank r_n in every unfolding the sweep over the given modes decomposes *)
  Fixpoint sweep_gaps (modes : list nat) (A : list (tensor R)) : Prop :=
    match modes with
    | [] => True
    | n :: rest =>
        (forall Y M, ttm X A None true (SkInt (Z.of_nat n)) = Ok Y -> unfold Y (Z.of_nat n) = Ok M -> gap_at M (nth n ranks 0%nat)) /\
        forall A1, hooi_mode svdU X (map Z.of_nat ranks) n A = Ok A1 -> sweep_gaps rest A1
    end.
  (** the factors after j steps *)
  Inductive after : nat -> list (tensor R) -> Prop :=
  | after_init A : hooi_init svdU X (map Z.of_nat ranks) = Ok A -> after 0 A
  | after_step j A o : after j A -> hooi_step svdU X (map Z.of_nat ranks) A = Ok o -> after (S j) (ho_A o).
  Definition hooi_gaps (steps : Z) : Prop :=
    hosvd_gaps X ranks /\ forall j A, (Z.of_nat j < steps)%Z -> after j A -> sweep_gaps (seq 0 (ndims X)) A.
End Hooi.

(** two published models with the same column spaces and core norms, the full tensor relabelled *)
Definition same_pub (sg : nat -> nat -> nat) (p p' : pub R) : Prop :=
  match p_factors p, p_factors p' with
  | Some A, Some A' => same_spans sg A A'
  | None, None => True
  | _, _ => False
  end /\
  match p_aux p, p_aux p' with
  | Some g, Some g' => shp g' = shp g /\ sqlen g' = sqlen g
  | None, None => True
  | _, _ => False
  end /\
  p_full p' = match p_full p with Some t => Some (relabel sg t) | None => None end /\
  p_finish p' = p_finish p.
Definition same_obj {A} (sg : nat -> nat -> nat) (o o' : fobj R A) : Prop :=
  o_built o' = o_built o /\ same_pub sg (o_pub o) (o_pub o').
