(** Property theorems for the order of execution of PITF (C90), for any number type and any
    oracle for the decomposition inside shrink. *)

From Coq Require Import ZArith List Bool Arith Lia Reals.
From Verif Require Import Num Py Tensor TF PitfOps PitfFacts PitfMore SpecPitf Sched SpecSched PitfGraph SpecPitfSched SchedPitf.
Import ListNotations.

(** one run, for either list of fetches *)
Theorem C90_step : forall T (N : Num T) shrink (t : tensor T) spl spn delt tao fetch, fetch = pitf_fetch_all \/ fetch = pitf_fetch_up ->
  forall y, length y = spn ->
  forall E : execution (pitf_graph shrink t spl spn delt tao) fetch (pitf_vars y), finished _ E ->
  exists it, pitf_iter shrink t spl spn delt tao y = Ok it /\ length (it_y it) = spn /\
    final _ E Vy (pvec (it_y it)) /\ fetched _ E PUp (pvec (it_y it)) /\
    (exists e2, Pomega_Pair spl (it_X it) (it_Y it) (it_Z it) (shp t) spn = Ok e2 /\ e_val E PE2 = Ok (pvec e2)) /\
    (fetch = pitf_fetch_all -> e_val E PErate = Ok (pscl (it_erate it)) /\ e_val E PLoss = Ok (pscl (it_loss it))).
Proof. exact @pi_exec. Qed.
Print Assumptions C90_step.

Theorem C90_no_failure : forall T (N : Num T) shrink (t : tensor T) spl spn delt tao fetch, fetch = pitf_fetch_all \/ fetch = pitf_fetch_up ->
  forall y, length y = spn -> forall it (E : execution (pitf_graph shrink t spl spn delt tao) fetch (pitf_vars y)) n,
  pitf_iter shrink t spl spn delt tao y = Ok it -> e_ran E n -> is_ok (e_val E n).
Proof. exact @pi_no_failure. Qed.
Print Assumptions C90_no_failure.

Theorem C90_exists : forall T (N : Num T) shrink (t : tensor T) spl spn delt tao fetch, fetch = pitf_fetch_all \/ fetch = pitf_fetch_up ->
  forall y, length y = spn -> forall it, pitf_iter shrink t spl spn delt tao y = Ok it ->
  exists E : execution (pitf_graph shrink t spl spn delt tao) fetch (pitf_vars y), finished _ E.
Proof. exact @pi_exists. Qed.
Print Assumptions C90_exists.

(** whole trainings: the vector the runs leave is the one the sequential training publishes *)
Theorem C90_train : forall T (N : Num T) svd (t : tensor T) spls delt0 tao0 spn vi steps o mem, (0 < steps)%Z -> (vi <> 0 \/ steps <= 2)%Z ->
  pitf_session (shrink_tf svd) t spls spn (pitf_delt delt0 spn (shp t)) (pitf_tao tao0 (shp t)) (Z.to_nat steps) mem ->
  exists o' y, pitf_train svd t spls delt0 tao0 spn vi steps o = (o', Ok tt) /\ po_vec o' = Some y /\ mem Vy = pvec y.
Proof. exact @pitf_session_train. Qed.
Print Assumptions C90_train.

(** and whenever the sequential training completes, there are such runs *)
Theorem C90_train_exists : forall T (N : Num T) svd (t : tensor T) spls delt0 tao0 spn vi steps o o',
  pitf_train svd t spls delt0 tao0 spn vi steps o = (o', Ok tt) ->
  exists mem, pitf_session (shrink_tf svd) t spls spn (pitf_delt delt0 spn (shp t)) (pitf_tao tao0 (shp t)) (Z.to_nat steps) mem.
Proof. exact @pitf_train_session. Qed.
Print Assumptions C90_train_exists.

(** the two-step training of C63, on two different samples *)
Example ex_C90 : (exists mem, pitf_session (shrink_tf svd63) t63 spls63 1 (pitf_delt 1%R 1 (shp t63)) (pitf_tao 100%R (shp t63)) 2 mem) /\
  spls63 1 <> spls63 2.
Proof.
  split.
  - destruct run63 as [o' r] eqn:E. assert (r = Ok tt) as -> by (change r with (snd (o', r)); rewrite <- E; exact run63_ok).
    exact (C90_train_exists _ _ _ _ _ _ _ _ _ _ _ _ E).
  - discriminate.
Qed.
