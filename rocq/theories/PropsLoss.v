(** Property theorems C30-C31: loss functions. *)

From Coq Require Import ZArith List Bool Arith Reals Lra SpecFloat.
From Verif Require Import Num Py Tensor TF Ops Loss Spec SpecR LossFacts RSums.
Import ListNotations.
Local Open Scope R_scope.

(** C30: l2 is half the sum of squared differences (operands are broadcast) *)
Theorem C30_l2 : forall A B : tensor R, shp A = shp B -> l2 A B = Ok (/ 2 * sqdist A B).
Proof. exact l2_same. Qed.
Print Assumptions C30_l2.

Theorem C30_l2_broadcast : forall A B : tensor R,
  (broadcastable (shp A) (shp B) ->
   l2 A B = Ok (/ 2 * msum (broadcast_shape (shp A) (shp B)) (fun i =>
     (get A (broadcast_index (shp A) i) - get B (broadcast_index (shp B) i))²))) /\
  (~ broadcastable (shp A) (shp B) -> l2 A B = Raise ValueError).
Proof. exact (fun A B => conj (l2_ok A B) (l2_err A B)). Qed.
Print Assumptions C30_l2_broadcast.

(** rmse is the square root of the mean squared difference *)
Theorem C30_rmse : forall A B : tensor R, shp A = shp B -> rmse A B = Ok (sqrt (sqdist A B / entries A)).
Proof. exact rmse_ok. Qed.
Print Assumptions C30_rmse.

Theorem C30_rmse_shapes : forall (T : Type) (N : Num T) (A B : tensor T),
  shp A <> shp B -> rmse A B = Raise TensorErr.
Proof. exact @rmse_shape. Qed.
Print Assumptions C30_rmse_shapes.

(** non-negative, symmetric, zero exactly at equality, triangle inequality, l2 = count*rmse^2/2 *)
Theorem C30_distances : forall A B C : tensor R,
  wf A -> wf B -> shp A = shp B -> shp B = shp C -> nonempty (shp A) ->
  exists ab ba bc ac l, rmse A B = Ok ab /\ rmse B A = Ok ba /\ rmse B C = Ok bc /\ rmse A C = Ok ac /\ l2 A B = Ok l /\
    0 <= ab /\ ab = ba /\ (ab = 0 <-> A = B) /\ ac <= ab + bc /\ 0 <= l /\ (l = 0 <-> A = B) /\ l2 B A = Ok l /\
    l = entries A * ab² / 2.
Proof. exact rmse_facts. Qed.
Print Assumptions C30_distances.

Definition exA : tensor R := mkT [2; 2]%nat [1; 2; 0; 4].
Definition exB : tensor R := mkT [2; 2]%nat [1; 0; 7; 2].

Example ex_C30 : wf exA /\ nonempty (shp exA) /\ shp exA = shp exB /\ sqdist exA exB = 57 /\ entries exA = 4 /\
  rmse exA (mkT [4]%nat [1; 2; 0; 4]) = Raise TensorErr.
Proof.
  split; [reflexivity|]. split; [repeat constructor; discriminate|]. split; [reflexivity|].
  split; [|split].
  - unfold sqdist, exA, exB. cbn. unfold Rsqr. lra.
  - unfold entries, exA. simpl. lra.
  - apply rmse_shape. discriminate.
Qed.

(** C31: the mean is taken over the non-zero entries of A *)
Theorem C31_rmse_ignore_zero : forall A B : tensor R, wf A -> shp A = shp B ->
  rmse_ignore_zero A B = Ok (sqrt (
    msum (shp A) (fun i => if Req_EM_T (get A i) 0 then 0 else (get A i - get B i)²) /
    msum (shp A) (fun i => if Req_EM_T (get A i) 0 then 0 else 1))).
Proof. exact rmse_iz_R. Qed.
Print Assumptions C31_rmse_ignore_zero.

(** B is not looked at where A is zero; any ring whose == is exact at zero *)
Theorem C31_ignores_zeros : forall (T : Type) (N : Num T), RingLaws T ->
  neqb (n0 : T) n0 = true -> (forall x : T, neqb x n0 = true -> x = n0) ->
  forall A B B' : tensor T, wf A -> shp A = shp B -> shp B' = shp B ->
  (forall i, valid (shp A) i -> get A i <> n0 -> get B i = get B' i) ->
  rmse_ignore_zero A B = rmse_ignore_zero A B'.
Proof. exact @rmse_iz_indep. Qed.
Print Assumptions C31_ignores_zeros.

Theorem C31_shapes : forall (T : Type) (N : Num T) (A B : tensor T),
  shp A <> shp B -> rmse_ignore_zero A B = Raise TensorErr.
Proof. exact @rmse_iz_shape. Qed.
Print Assumptions C31_shapes.

(** all-zero A: 0/0 *)
Theorem C31_all_zero : forall (T : Type) (N : Num T), RingLaws T ->
  neqb (n0 : T) n0 = true -> (forall x : T, neqb x n0 = true -> x = n0) ->
  forall A B : tensor T, wf A -> shp A = shp B ->
  (forall i, valid (shp A) i -> get A i = n0) ->
  rmse_ignore_zero A B = Ok (nsqrt (ndiv n0 n0)).
Proof. exact @rmse_iz_zero. Qed.
Print Assumptions C31_all_zero.

(** in binary32 the masking multiplies B by 0, so a NaN of B where A is zero still spreads *)
Theorem C31_binary32_nan : exists A B B' : tensor f32,
  shp A = shp B /\ shp B' = shp B /\
  (forall i, valid (shp A) i -> get (N := NumF32) A i <> S754_zero false -> get (N := NumF32) B i = get (N := NumF32) B' i) /\
  rmse_ignore_zero (N := NumF32) A B = Ok S754_nan /\ rmse_ignore_zero (N := NumF32) A B' = Ok (S754_zero false).
Proof. exact rmse_iz_nan. Qed.
Print Assumptions C31_binary32_nan.

(** and an all-zero A gives NaN *)
Example ex_C31_zero :
  rmse_ignore_zero (N := NumF32) (mkT [2]%nat [S754_zero false; S754_zero false]) (mkT [2]%nat [@n1 _ NumF32; @n1 _ NumF32])
  = Ok S754_nan.
Proof. vm_compute. reflexivity. Qed.

(** A = (1 2; 0 4), B = (1 0; 7 2): (0+4+4)/3 *)
Example ex_C31 : rmse_ignore_zero exA exB = Ok (sqrt (8 / 3)).
Proof.
  rewrite C31_rmse_ignore_zero by reflexivity. f_equal. f_equal. unfold exA, exB. cbn.
  repeat match goal with |- context[Req_EM_T ?a ?b] => destruct (Req_EM_T a b); try lra end.
  unfold Rsqr. lra.
Qed.
