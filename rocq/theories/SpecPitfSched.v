(** Training of PITF as a succession of session runs, each executed by TensorFlow in any way
    its dependencies allow (pitf.py:128-147). *)

From Coq Require Import ZArith List Bool Arith.
From Verif Require Import Num Py Tensor TF PitfOps Sched SpecSched PitfGraph.
Import ListNotations.

Section Sessions.
  Context {T : Type} {N : Num T}.

  (** contents of the variables after k runs; run k draws the sample [spls k] and fetches
      either list, as pitf.py:136 decides *)
  Inductive pitf_session (shrink : tensor T -> T -> shmode -> res (tensor T)) (t : tensor T) (spls : nat -> sample) (spn : nat)
    (delt tao : T) : nat -> (pvar -> tensor T) -> Prop :=
  | pis_init : pitf_session shrink t spls spn delt tao 0 (pitf_vars (repeat n0 spn))
  | pis_step k mem fetch (E : execution (pitf_graph shrink t (spls (S k)) spn delt tao) fetch mem) mem' :
      pitf_session shrink t spls spn delt tao k mem -> fetch = pitf_fetch_all \/ fetch = pitf_fetch_up -> leaves E mem' ->
      pitf_session shrink t spls spn delt tao (S k) mem'.
End Sessions.
