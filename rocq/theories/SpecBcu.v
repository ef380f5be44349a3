(** Vocabulary for the block-coordinate-update properties (NCP_BCU, NTUCKER_BCU). *)

From Coq Require Import ZArith List Bool Arith.
From Verif Require Import Num Py Tensor Fact Train SpecTrain.
Import ListNotations.

Section S.
  Context {T : Type} {N : Num T}.

  (** no entry compares below zero (a NaN does not) *)
  Definition not_negative (t : tensor T) : Prop := forall x, In x (dat t) -> nltb x n0 = false.
  Definition all_not_negative (l : list (tensor T)) : Prop := forall t, In t l -> not_negative t.

  Section Reach.
    Context {S : Type}.
    Variable pre : S -> res (S * option (tensor T)).
    Variable run : S -> res (S * sobs T).
    Variable accept reject : S -> res S.
    (** states at the beginning of a step, whichever updates were taken before *)
    Inductive reach (s0 : S) : S -> Prop :=
    | reach_start : reach s0 s0
    | reach_accept s s1 c s2 o s3 : reach s0 s -> pre s = Ok (s1, c) -> run s1 = Ok (s2, o) ->
        accept s2 = Ok s3 -> reach s0 s3
    | reach_reject s s1 c s2 o s3 : reach s0 s -> pre s = Ok (s1, c) -> run s1 = Ok (s2, o) ->
        reject s2 = Ok s3 -> reach s0 s3.
  End Reach.

  (** step k+1 is accepted: its objective is below the best accepted so far *)
  Definition accepted (os : list (sobs T)) (k : nat) : Prop :=
    k < length os /\ nltb (m_obj (met os k)) (ref_best os k) = true.

  (** the factors read while mode k is updated: modes before k are already new *)
  Definition mixed (k : nat) (new old : list (tensor T)) : list (tensor T) := firstn k new ++ skipn k old.
End S.
