(** Property theorems for the slices of Tucker cores (C89), over the real numbers, with the
    oracle [svdU] of PropsTucker.v. *)

From Coq Require Import ZArith List Bool Arith Reals Lia Lra.
From Verif Require Import Num Py Tensor TF Ops Types Loss Fact Train Spec SpecR SpecTrain SpecTucker SpecSlice SliceFacts SliceEx.
Import ListNotations.
Local Open Scope R_scope.

(** C89: no slice of HOSVD's core is longer than the singular value of its index *)
Theorem C89_hosvd_bound : forall svdU (X : tensor R) ranks o, left_svd svdU -> wf X -> nonempty (shp X) ->
  (0 < ndims X <= 13)%nat -> (ndims X <= length ranks)%nat -> hosvd svdU X (map Z.of_nat ranks) = Ok o ->
  forall n M W s, (n < ndims X)%nat -> unfold X (Z.of_nat n) = Ok M -> thin_svd M (svdU M) s W ->
  forall a, (a < nth n (fitted (shp X) ranks) 0)%nat -> slice_dot n a a (tu_core o) <= (s a)².
Proof. exact hosvd_slice_le. Qed.
Print Assumptions C89_hosvd_bound.

(** when the model is exact the slices are orthogonal and as long as the singular values *)
Theorem C89_hosvd_slices : forall svdU (X : tensor R) ranks o, left_svd svdU -> wf X -> nonempty (shp X) ->
  (0 < ndims X <= 13)%nat -> (ndims X <= length ranks)%nat -> hosvd svdU X (map Z.of_nat ranks) = Ok o ->
  forall n M W s, (n < ndims X)%nat -> unfold X (Z.of_nat n) = Ok M -> thin_svd M (svdU M) s W ->
  forall a b, tu_full o = X -> (a < nth n (fitted (shp X) ranks) 0)%nat -> (b < nth n (fitted (shp X) ranks) 0)%nat ->
    slice_dot n a b (tu_core o) = if Nat.eqb a b then (s a)² else 0.
Proof. exact hosvd_slices. Qed.
Print Assumptions C89_hosvd_slices.

(** in particular for the object trained with full ranks *)
Theorem C89_hosvd_train : forall svdU (X : tensor R) w o rnd steps o' h ranks id, left_svd svdU -> wf X ->
  nonempty (shp X) -> (0 < ndims X <= 13)%nat -> (ndims X <= length ranks)%nat ->
  o_built o = Some (map Z.of_nat ranks, id) -> hosvd_train svdU X w o rnd steps = (o', Ok h) ->
  (forall k, (k < ndims X)%nat -> (Nat.min (nth k (shp X) 0) (rest k (shp X)) <= nth k ranks 0)%nat) ->
  exists G, p_aux (o_pub o') = Some G /\
    forall n M s W, (n < ndims X)%nat -> unfold X (Z.of_nat n) = Ok M -> thin_svd M (svdU M) s W ->
    forall a b, (a < Nat.min (nth n (shp X) 0) (rest n (shp X)))%nat -> (b < Nat.min (nth n (shp X) 0) (rest n (shp X)))%nat ->
      slice_dot n a b G = if Nat.eqb a b then (s a)² else 0.
Proof. exact hosvd_slices_train. Qed.
Print Assumptions C89_hosvd_train.

(** with truncated ranks the slices need not be orthogonal *)
Theorem C89_truncated_refuted : exists (X : tensor R) ranks, wf X /\ nonempty (shp X) /\ ndims X = 3%nat /\
  forall svdU, left_svd svdU ->
    exists o, hosvd svdU X (map Z.of_nat ranks) = Ok o /\ slice_dot 0 0 1 (tu_core o) <> 0.
Proof. exact (ex_intro _ Xs (ex_intro _ [2; 2; 1]%nat truncated_core)). Qed.
Print Assumptions C89_truncated_refuted.

(** HOOI, any ranks: the slices along the last mode *)
Theorem C89_hooi_last_mode : forall svdU (X : tensor R) ranks A o, left_svd svdU -> wf X -> nonempty (shp X) -> nonempty ranks ->
  length ranks = ndims X -> factor_state X ranks A -> hooi_step svdU X (map Z.of_nat ranks) A = Ok o ->
  let n := (ndims X - 1)%nat in
  exists M W s, unfold (project_but n X (ho_A o)) (Z.of_nat n) = Ok M /\ thin_svd M (svdU M) s W /\
    (forall a b, (a < nth n ranks 0)%nat -> (b < nth n ranks 0)%nat ->
       slice_dot n a b (ho_core o) = if Nat.eqb a b then (s a)² else 0) /\
    sqdist X (ho_full o) = sqlen X - bigsum (nth n ranks 0%nat) (fun a => (s a)²).
Proof. exact hooi_slices. Qed.
Print Assumptions C89_hooi_last_mode.

Theorem C89_hooi_train : forall svdU (X : tensor R) w o rnd steps o' h args ranks id, left_svd svdU -> wf X ->
  nonempty (shp X) -> nonempty ranks -> length ranks = ndims X -> o_built o = Some ((args, map Z.of_nat ranks), id) ->
  hooi_train svdU X w o rnd steps = (o', Ok h) ->
  let n := (ndims X - 1)%nat in
  exists A G M W s, p_factors (o_pub o') = Some A /\ p_aux (o_pub o') = Some G /\
    unfold (project_but n X A) (Z.of_nat n) = Ok M /\ thin_svd M (svdU M) s W /\
    forall a b, (a < nth n ranks 0)%nat -> (b < nth n ranks 0)%nat ->
      slice_dot n a b G = if Nat.eqb a b then (s a)² else 0.
Proof. exact hooi_slices_train. Qed.
Print Assumptions C89_hooi_train.

(** a 2x2x2 tensor whose unfoldings have the singular values root 19 and root 7 *)
Example ex_C89 : exists svdU, left_svd svdU /\ wf Xs /\ nonempty (shp Xs) /\ sqlen Xs = 26 /\
  (exists o M s W, hosvd svdU Xs (map Z.of_nat [2; 2; 2]%nat) = Ok o /\ tu_full o = Xs /\ unfold Xs (Z.of_nat 1) = Ok M /\
     thin_svd M (svdU M) s W /\ fitted (shp Xs) [2; 2; 2]%nat = [2; 2; 2]%nat) /\
  (exists o' h, hosvd_train svdU Xs (mkW [7%nat] true) (mkObj (Some (map Z.of_nat [2; 2; 2]%nat, 7%nat)) pub0) tt 5 = (o', Ok h)) /\
  (exists A o, factor_state Xs [1; 1; 1]%nat A /\ hooi_step svdU Xs (map Z.of_nat [1; 1; 1]%nat) A = Ok o) /\
  (exists o' h, hooi_train svdU Xs (mkW [7%nat] true)
     (mkObj (Some ((mkArgs (1/10) 1%Z false, map Z.of_nat [1; 1; 1]%nat), 7%nat)) pub0) tt 5 = (o', Ok h)).
Proof. exact ex_slices. Qed.
