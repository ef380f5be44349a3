(** Vocabulary for data with relabelled indices (C101): the slices of a tensor along each mode
    in another order. *)

From Coq Require Import ZArith List Bool Arith.
From Verif Require Import Num Py Tensor Fact Train Spec.
Import ListNotations.

(** sg k permutes the indices of mode k of a tensor of shape s *)
Definition relabelling (s : list nat) (sg : nat -> nat -> nat) : Prop :=
  forall k, k < length s ->
    (forall i, i < nth k s 0 -> sg k i < nth k s 0) /\
    (forall i j, i < nth k s 0 -> j < nth k s 0 -> sg k i = sg k j -> i = j).

Definition moved (sg : nat -> nat -> nat) (idx : list nat) : list nat :=
  map (fun k => sg k (nth k idx 0)) (seq 0 (length idx)).

Section S.
  Context {T : Type} {N : Num T}.
  Variable sg : nat -> nat -> nat.

  (** entry (i_0, i_1, ...) is the entry (sg 0 i_0, sg 1 i_1, ...) of X *)
  Definition relabel (X : tensor T) : tensor T := gen (shp X) (fun idx => get X (moved sg idx)).
  (** row i is row (sg k i) of A *)
  Definition relabel_rows (k : nat) (A : tensor T) : tensor T := mgen (nrows A) (ncols A) (fun i q => mget A (sg k i) q).
  Definition relabel_factors (A : list (tensor T)) : list (tensor T) :=
    map (fun k => relabel_rows k (mat_at A k)) (seq 0 (length A)).

  (** a model: rows of the factors and entries of the full tensor move, weights or core stay *)
  Definition relabel_pub (p : pub T) : pub T :=
    mkPub (match p_factors p with Some A => Some (relabel_factors A) | None => None end) (p_aux p)
          (match p_full p with Some t => Some (relabel t) | None => None end) (p_finish p).
  Definition relabel_obj {A} (o : fobj T A) : fobj T A := mkObj (o_built o) (relabel_pub (o_pub o)).
End S.
