(** Vocabulary for rotated data (C110): a change of the orthonormal basis of every mode. *)

From Coq Require Import ZArith List Bool Arith Reals.
From Verif Require Import Num Py Tensor Fact Train Spec SpecR SpecTucker SpecGauge.
Import ListNotations.
Local Open Scope R_scope.

(** one orthogonal matrix for every mode of a tensor of shape s *)
Definition rotation (s : list nat) (Q : list (tensor R)) : Prop :=
  length Q = length s /\
  forall k, (k < length s)%nat -> is_mat (mat_at Q k) (nth k s 0%nat) (nth k s 0%nat) /\ orthonormal (mat_at Q k).

(** entry (i_0, i_1, ...) is the sum over j of X_j Q_0[i_0, j_0] Q_1[i_1, j_1] ... *)
Definition rotated (Q : list (tensor R)) (X : tensor R) : tensor R := tucker_tensor X Q.

(** A' has the sizes of A and its column space is the one of A, turned by Q: the projectors
    satisfy A' A'^T = Q (A A^T) Q^T *)
Definition turned_span (Q A A' : tensor R) : Prop :=
  nrows A' = nrows A /\ ncols A' = ncols A /\
  forall i j, (i < nrows A)%nat -> (j < nrows A)%nat ->
    outer A' i j = bigsum (nrows A) (fun a => bigsum (nrows A) (fun b => mget Q i a * outer A a b * mget Q j b)).
Definition turned_spans (Q A A' : list (tensor R)) : Prop :=
  length A' = length A /\ forall k, (k < length A)%nat -> turned_span (mat_at Q k) (mat_at A k) (mat_at A' k).

(** two published models of which one is the other one turned *)
Definition turned_pub (Q : list (tensor R)) (p p' : pub R) : Prop :=
  match p_factors p, p_factors p' with
  | Some A, Some A' => turned_spans Q A A'
  | None, None => True
  | _, _ => False
  end /\
  match p_aux p, p_aux p' with
  | Some g, Some g' => shp g' = shp g /\ sqlen g' = sqlen g
  | None, None => True
  | _, _ => False
  end /\
  p_full p' = match p_full p with Some t => Some (rotated Q t) | None => None end /\
  p_finish p' = p_finish p.
Definition turned_obj {A} (Q : list (tensor R)) (o o' : fobj R A) : Prop :=
  o_built o' = o_built o /\ turned_pub Q (o_pub o) (o_pub o').

(** the same exception, or two histories with the same relative errors; the losses may differ *)
Definition same_errors (r r' : res (hist R)) : Prop :=
  match r, r' with
  | Ok h, Ok h' => map snd h' = map snd h
  | Raise e, Raise e' => e' = e
  | _, _ => False
  end.
