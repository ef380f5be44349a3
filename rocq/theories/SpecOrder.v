(** Vocabulary for the starting point of the training algorithms (C103): the components of a
    model in another order, and starting factors that differ by scale only. *)

From Coq Require Import ZArith List Bool Arith Reals.
From Verif Require Import Num Py Tensor Fact Train Spec SpecScale SpecSym.
Import ListNotations.

(** p permutes the component numbers 0 .. r-1 *)
Definition reordering (r : nat) (p : nat -> nat) : Prop := relabelling [r] (fun _ => p).

Section S.
  Context {T : Type} {N : Num T}.

  (** column q is column (p q) of A *)
  Definition relabel_cols (p : nat -> nat) (A : tensor T) : tensor T :=
    mgen (nrows A) (ncols A) (fun i q => mget A i (p q)).
  (** the columns of the mode-k matrix in the order given by (pi k) *)
  Definition reorder (pi : nat -> nat -> nat) (A : list (tensor T)) : list (tensor T) :=
    map (fun k => relabel_cols (pi k) (mat_at A k)) (seq 0 (length A)).

  (** a model: columns of the factors and entries of the weights or core move, the full
      tensor stays *)
  Definition reorder_pub (pi ax : nat -> nat -> nat) (p : pub T) : pub T :=
    mkPub (match p_factors p with Some A => Some (reorder pi A) | None => None end)
          (match p_aux p with Some a => Some (relabel ax a) | None => None end)
          (p_full p) (p_finish p).
  Definition reorder_obj {A} (pi ax : nat -> nat -> nat) (o : fobj T A) : fobj T A :=
    mkObj (o_built o) (reorder_pub pi ax (o_pub o)).
End S.

(** NCP publishes its weights as a 1 x r row: only the second axis moves *)
Definition second_axis (p : nat -> nat) : nat -> nat -> nat :=
  fun k => match k with 0 => fun i => i | _ => p end.

Local Open Scope R_scope.

(** from mode 1 on, column q of B_k is column q of A_k times d k q > 0; nothing is said about
    B_0 but its shape *)
Definition rescaled_start (r : nat) (d : nat -> nat -> R) (A B : list (tensor R)) : Prop :=
  forall k i q, (1 <= k < length A)%nat -> (i < nrows (mat_at A k))%nat -> (q < r)%nat ->
    0 < d k q /\ mget (mat_at B k) i q = d k q * mget (mat_at A k) i q.

(** the mode-k matrix times c k *)
Definition scale_each (c : nat -> R) (A : list (tensor R)) : list (tensor R) :=
  map (fun k => scale (c k) (mat_at A k)) (seq 0 (length A)).
