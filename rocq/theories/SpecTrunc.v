(** Vocabulary for HOSVD with different ranks (C112). *)

From Coq Require Import List Bool Arith Reals.
From Verif Require Import Num Tensor Spec SpecR.
Import ListNotations.
Local Open Scope R_scope.

(** the index lies in the corner of sizes s *)
Definition inside (s idx : list nat) : bool := forallb (fun p => Nat.ltb (fst p) (snd p)) (combine idx s).

(** g with the entries outside the corner replaced by 0 *)
Definition corner (s : list nat) (g : tensor R) : tensor R := gen (shp g) (fun i => if inside s i then get g i else 0).

(** sum of the squares of the entries outside the corner *)
Definition energy_outside (s : list nat) (g : tensor R) : R := msum (shp g) (fun i => if inside s i then 0 else (get g i)²).

(** the matrices A are made of the first columns of the matrices B, at most ranks of them *)
Definition first_columns (ranks : list nat) (A B : list (tensor R)) : Prop :=
  length A = length B /\
  forall n, (n < length B)%nat ->
    is_mat (mat_at A n) (nrows (mat_at B n)) (Nat.min (nth n ranks 0%nat) (ncols (mat_at B n))) /\
    forall i j, (i < nrows (mat_at A n))%nat -> (j < ncols (mat_at A n))%nat -> mget (mat_at A n) i j = mget (mat_at B n) i j.
