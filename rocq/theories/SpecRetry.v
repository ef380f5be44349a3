(** Vocabulary for what happens after a rejected step (NCP_BCU, NTUCKER_BCU). *)

From Coq Require Import ZArith List Bool Arith.
From Verif Require Import Num Py Tensor Fact Train SpecTrain SpecBcu.
Import ListNotations.

Section S.
  Context {T : Type} {N : Num T} {S : Type}.
  Variable run : S -> res (S * sobs T).
  Variable pre : S -> res (S * option (tensor T)).
  Variable accept reject : S -> res S.

  (** st k is the state in which step k+1 of the run os begins *)
  Definition states (s0 : S) (os : list (sobs T)) (st : nat -> S) : Prop :=
    st 0 = s0 /\
    forall k o, nth_error os k = Some o -> exists s1 c s2,
      pre (st k) = Ok (s1, c) /\ run s1 = Ok (s2, o) /\
      (Datatypes.S k < length os ->
       (if nltb (m_obj (met os k)) (ref_best os k) then accept s2 else reject s2) = Ok (st (Datatypes.S k))).
End S.

Section S2.
  Context {T : Type} {N : Num T}.
  Definition obs0 : sobs T := mkObs [] None (mkT [] []) (mkM n0 n0 n0).
  (** what step k+1 returned *)
  Definition obs_at (os : list (sobs T)) (k : nat) : sobs T := nth k os obs0.

  (** step j+1 was accepted and the steps after it up to step k+1 were rejected *)
  Definition rejected_since (os : list (sobs T)) (j k : nat) : Prop :=
    accepted os j /\ j < k < length os /\ forall i, j < i <= k -> ~ accepted os i.

  (** the objective of step k+1 is the smallest of the run *)
  Definition best_step (os : list (sobs T)) (k : nat) : Prop :=
    k < length os /\ forall i, i < length os -> nltb (m_obj (met os i)) (m_obj (met os k)) = false.
End S2.

(** the states from which the step after a rejection would begin if the rejected factors
    were replaced by the last accepted ones as well *)
Definition ncp_restored {T} (s : ncp_state T) : ncp_state T :=
  mkNCP (n_A0 s) (n_Am s) (n_A0 s) (n_t s) (n_t0 s) (n_w s) (n_L s) (n_L0 s).
Definition nt_restored {T} (s : nt_state T) : nt_state T :=
  mkNT (q_A0 s) (q_Am s) (q_A0 s) (q_g0 s) (q_gm s) (q_g0 s) (q_t s) (q_t0 s) (q_w s) (q_L s) (q_L0 s).
