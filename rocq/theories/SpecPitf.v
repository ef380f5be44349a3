(** Vocabulary for the PITF properties, over the real numbers. *)

From Coq Require Import ZArith List Bool Arith Reals.
From Verif Require Import Num Py Tensor TF PitfOps Spec.
Import ListNotations.
Local Open Scope R_scope.

(** sum of column j; sum of all entries *)
Definition col_sum (M : tensor R) (j : nat) : R := bigsum (nrows M) (fun i => mget M i j).
Definition total (M : tensor R) : R := bigsum (ncols M) (col_sum M).

(** every column sums to zero *)
Definition centred (M : tensor R) : Prop := forall j, (j < ncols M)%nat -> col_sum M j = 0.

(** sum_ij A_ij B_ij and sum_k a_k b_k *)
Definition mdot (A B : tensor R) : R :=
  bigsum (nrows A) (fun i => bigsum (ncols A) (fun j => mget A i j * mget B i j)).
Definition vdot (n : nat) (a b : list R) : R := bigsum n (fun k => nth k a 0 * nth k b 0).

Definition kron_delta (i j : nat) : R := if Nat.eqb i j then 1 else 0.

(** Q is an n x n orthogonal matrix *)
Definition orthogonal (n : nat) (Q : tensor R) : Prop :=
  is_mat Q n n /\
  (forall i j, (i < n)%nat -> (j < n)%nat -> bigsum n (fun k => mget Q k i * mget Q k j) = kron_delta i j) /\
  (forall i j, (i < n)%nat -> (j < n)%nat -> bigsum n (fun k => mget Q i k * mget Q j k) = kron_delta i j).

(** s are non-negative numbers in descending order *)
Definition singular_values (s : list R) : Prop :=
  (forall x, In x s -> 0 <= x) /\
  (forall i j, (i <= j)%nat -> (j < length s)%nat -> nth j s 0 <= nth i s 0).

(** C = U diag(s) W with U, W orthogonal and s descending, non-negative: a full
    singular value decomposition (W is the transpose of V, as NumPy returns it) *)
Definition is_svd (C U : tensor R) (s : list R) (W : tensor R) : Prop :=
  exists r c, is_mat C r c /\ orthogonal r U /\ orthogonal c W /\ length s = Nat.min r c /\ singular_values s /\
    forall i j, (i < r)%nat -> (j < c)%nat ->
      mget C i j = bigsum (length s) (fun k => mget U i k * nth k s 0 * mget W k j).

(** sign(d) * max(|d| - tau, 0) *)
Definition soft_threshold (d tau : R) : R :=
  if Rlt_dec tau d then d - tau else if Rlt_dec d (- tau) then d + tau else 0.

(** the second-order cone, and squared distance of two points of R^n x R *)
Definition sqnorm (x : list R) : R := bigsum (length x) (fun k => nth k x 0 * nth k x 0).
Definition in_cone (x : list R) (t : R) : Prop := sqrt (sqnorm x) <= t.
Definition dist2 (n : nat) (x : list R) (t : R) (y : list R) (u : R) : R :=
  bigsum n (fun k => (nth k x 0 - nth k y 0)²) + (t - u)².

(** m samples of the coordinates (row, column): in range *)
Definition positions_in (m r c : nat) (rows cols : list nat) : Prop :=
  (m <= length rows)%nat /\ (m <= length cols)%nat /\
  forall i, (i < m)%nat -> (nth i rows 0 < r)%nat /\ (nth i cols 0 < c)%nat.
(** no position is sampled twice *)
Definition positions_distinct (m : nat) (rows cols : list nat) : Prop :=
  forall i j, (i < m)%nat -> (j < m)%nat -> nth i rows 0%nat = nth j rows 0%nat -> nth i cols 0%nat = nth j cols 0%nat -> i = j.

(** axis of the rows, of the columns, of the scale, for dim d *)
Definition axes_of (d : Z) (r c o : nat) : Prop :=
  (d = 0%Z /\ r = 0%nat /\ c = 1%nat /\ o = 2%nat) \/ (d = 1%Z /\ r = 1%nat /\ c = 2%nat /\ o = 0%nat) \/
  (d = 2%Z /\ r = 2%nat /\ c = 0%nat /\ o = 1%nat).


(** singular values after thresholding *)
Definition thresholded (tau : R) (s : list R) : list R := map (fun x => Rmax 0 (x - tau)) s.

Section Recurrence.
  Context {T : Type} {N : Num T}.
  (** the iteration y_{k+1} = y_k + delta (P T - P pair(shrink(y_k))), step k using the
      sample [spls k], with its error rate and loss; written with the operators of
      pitf_ops (the subject is the loop) *)
  Definition recurrence (shrink : tensor T -> T -> shmode -> res (tensor T)) (t : tensor T) (spls : nat -> sample) (spn : nat)
      (delt tao : T) (n : nat) (ys : nat -> list T) (its : nat -> iter T) : Prop :=
    ys 0%nat = repeat n0 spn /\ forall k, (k < n)%nat -> exists A1 A2 A3 X Y Z p e,
      let s := shp t in let it := its k in
      adjoint_operator (spls k) (ys k) s spn 0 = Ok A1 /\ adjoint_operator (spls k) (ys k) s spn 1 = Ok A2 /\
      adjoint_operator (spls k) (ys k) s spn 2 = Ok A3 /\
      shrink A1 tao Complicated = Ok X /\ shrink A2 tao Normal = Ok Y /\ shrink A3 tao Normal = Ok Z /\
      tf_bin ndiv X (scalar (nsqrt (nofnat (nth 2 s 0%nat)))) = Ok (it_X it) /\
      tf_bin ndiv Y (scalar (nsqrt (nofnat (nth 0 s 0%nat)))) = Ok (it_Y it) /\
      tf_bin ndiv Z (scalar (nsqrt (nofnat (nth 1 s 0%nat)))) = Ok (it_Z it) /\
      Pomega_tensor (spls k) t spn = Ok p /\ Pomega_Pair (spls k) (it_X it) (it_Y it) (it_Z it) s spn = Ok e /\
      ys (S k) = map (fun i => nadd (nth i (ys k) n0) (nmul delt (nsub (nth i p n0) (nth i e n0)))) (seq 0 spn) /\
      it_y it = ys (S k) /\
      it_erate it = ndiv (vnorm (vsub p e)) (vnorm p) /\
      it_loss it = nsqrt (ndiv (lsum (map nsq (vsub p e))) (nofnat spn)).
End Recurrence.
