(** Model of tensorD/loss.py. *)

From Coq Require Import ZArith List Bool Arith.
From Verif Require Import Num Py Tensor TF Ops.
Import ListNotations.

Section Loss.
  Context {T : Type} {N : Num T}.

  (** the literal 0.5 *)
  Definition nhalf : T := ndiv n1 (nofZ 2).

  (** loss.py:6-23  l2 *)
  Definition l2 (f h : tensor T) : res T :=
    do d <- tf_bin nsub f h;
    Ok (nmul nhalf (tf_sum (tf_map nsq d))).

  (** loss.py:26-55  rmse *)
  Definition rmse (A B : tensor T) : res T :=
    if negb (shape_eqb (shp A) (shp B)) then Raise TensorErr
    else
      do d <- tf_bin nsub A B;
      Ok (nsqrt (ndiv (tf_sum (tf_map nsq d)) (nofZ (Z.of_nat (prod (shp d)))))).

  (** loss.py:58-88  rmse_ignore_zero *)
  Definition rmse_ignore_zero (A B : tensor T) : res T :=
    if negb (shape_eqb (shp A) (shp B)) then Raise TensorErr
    else
      let mask := tf_map ne0 A in                       (* tf.cast(tf.not_equal(A, 0), B.dtype) *)
      do B' <- tf_bin nmul B mask;
      do d <- tf_bin nsub A B';
      Ok (nsqrt (ndiv (tf_sum (tf_map nsq d)) (tf_sum mask))).
End Loss.
