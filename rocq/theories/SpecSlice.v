(** Vocabulary for the slices of a core tensor, over the reals. *)

From Coq Require Import ZArith List Bool Arith Reals.
From Verif Require Import Num Py Tensor Spec SpecR SpecTucker.
Import ListNotations.
Local Open Scope R_scope.

(** inner product of the slices of G whose n-th index is a and b *)
Definition slice_dot (n a b : nat) (G : tensor R) : R :=
  msum (replace n 1%nat (shp G)) (fun i => get G (replace n a i) * get G (replace n b i)).

(** X x_1 U_1^T ... without mode n *)
Definition project_but (n : nat) (X : tensor R) (U : list (tensor R)) : tensor R :=
  mode_products X (map (fun k => (mtrans (mat_at U k), k)) (others n (length U))).
