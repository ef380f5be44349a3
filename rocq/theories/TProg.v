(** Programs made of the tensor operations of ops.py, type.py and loss.py. *)

From Coq Require Import ZArith List Bool Arith.
From Verif Require Import Num Py Tensor TF Ops Types Loss.
Import ListNotations.

(** an expression over a list of input tensors; one constructor per operation of
    ops.py (unfold 43-75, fold 78-115, t2mat 118-164, vectorize 167-188, vec_to_tensor
    191-207, mul 210-262, ttm 265-357, inner 360-381, hadamard 384-402, kron 405-436,
    khatri 439-471), of type.py (DTensor +, -, *, [] 83-114, KTensor.extract 155-168,
    TTensor.extract 199-208) and loss.py (l2 6-23).  Not included: xcb and
    rmse_ignore_zero (they compare entries with 0), rmse and tf.norm (square roots),
    max_single_value_mul (SVD). *)
Inductive texpr :=
| XVar (i : nat)
| XUnfold (e : texpr) (mode : Z)
| XFold (e : texpr) (mode : Z) (shape : list nat)
| XT2mat (e : texpr) (r c : axarg)
| XVec (e : texpr)
| XVecTo (e : texpr) (shape : list Z)
| XMul (e f : texpr) (a b : axarg)
| XTtm (e : texpr) (l : list texpr) (axis : option (list Z)) (tr : bool) (skip : skiparg)
| XInner (e f : texpr)
| XHad (l : list texpr) (skip : skiparg)
| XKron (l : list texpr) (skip : skiparg) (rv : bool)
| XKhatri (l : list texpr) (skip : skiparg) (rv : bool)
| XAdd (e f : texpr)
| XSub (e f : texpr)
| XMulE (e f : texpr)
| XGet (e : texpr) (idx : list Z)
| XKt (l : list texpr) (lam : texpr)
| XTt (g : texpr) (l : list texpr)
| XL2 (e f : texpr).

Section Eval.
  Context {T : Type} {N : Num T}.

  (** the value; a scalar result is a tensor without axes; the first exception ends
      the evaluation *)
  Fixpoint teval (env : list (tensor T)) (e : texpr) : res (tensor T) :=
    let evals := fix evals (l : list texpr) : res (list (tensor T)) :=
      match l with
      | [] => Ok []
      | x :: r => do y <- teval env x; do ys <- evals r; Ok (y :: ys)
      end in
    match e with
    | XVar i => match nth_error env i with Some t => Ok t | None => Raise IndexError end
    | XUnfold e mode => do t <- teval env e; unfold t mode
    | XFold e mode s => do t <- teval env e; fold t mode s
    | XT2mat e r c => do t <- teval env e; t2mat t r c
    | XVec e => do t <- teval env e; vectorize t
    | XVecTo e s => do t <- teval env e; vec_to_tensor t s
    | XMul e f a b => do t <- teval env e; do s <- teval env f; mul t s a b
    | XTtm e l ax tr sk => do t <- teval env e; do ms <- evals l; ttm t ms ax tr sk
    | XInner e f => do t <- teval env e; do s <- teval env f; do v <- inner t s; Ok (mkT [] [v])
    | XHad l sk => do ms <- evals l; hadamard ms sk
    | XKron l sk rv => do ms <- evals l; kron ms sk rv
    | XKhatri l sk rv => do ms <- evals l; khatri ms sk rv
    | XAdd e f => do t <- teval env e; do s <- teval env f; tf_bin nadd t s
    | XSub e f => do t <- teval env e; do s <- teval env f; tf_bin nsub t s
    | XMulE e f => do t <- teval env e; do s <- teval env f; tf_bin nmul t s
    | XGet e idx => do t <- teval env e; tf_getitem t idx
    | XKt l lam => do ms <- evals l; do w <- teval env lam; kt_extract ms w
    | XTt g l => do t <- teval env g; do ms <- evals l; tt_extract t ms
    | XL2 e f => do t <- teval env e; do s <- teval env f; do v <- l2 t s; Ok (mkT [] [v])
    end.
  Definition tevals (env : list (tensor T)) : list texpr -> res (list (tensor T)) :=
    fix evals (l : list texpr) : res (list (tensor T)) :=
      match l with
      | [] => Ok []
      | x :: r => do y <- teval env x; do ys <- evals r; Ok (y :: ys)
      end.
End Eval.
