(** Independent vocabulary for the training-loop properties: what a run of
    training steps is, when a stopping rule fires, which steps validate. *)

From Coq Require Import ZArith List Bool Arith Reals.
From Verif Require Import Num Py Tensor Fact Train Spec SpecR.
Import ListNotations.

Section S.
  Context {T : Type} {N : Num T}.

  (** metrics of step k+1 *)
  Definition met (os : list (sobs T)) (k : nat) : metrics T :=
    nth k (map ob_met os) (mkM n0 n0 n0).

  (** |obj - ref| / (ref + 1) < tol *)
  Definition small_change (tol ref obj : T) : Prop :=
    nltb (ndiv (nabs (nsub obj ref)) (nadd ref n1)) tol = true.

  (** reference objective used at step k+1 when it is never renewed: the first
      objective plus one *)
  Definition ref_first (os : list (sobs T)) (k : nat) : T := nadd (m_obj (met os 0)) n1.

  (** the best objective accepted before step k+1 *)
  Fixpoint ref_best (os : list (sobs T)) (k : nat) : T :=
    match k with
    | 0 => nadd (m_obj (met os 0)) n1
    | S j => if nltb (m_obj (met os j)) (ref_best os j) then m_obj (met os j) else ref_best os j
    end.

  (** the objective of the previous step *)
  Definition ref_prev (os : list (sobs T)) (k : nat) : T :=
    match k with 0 => nadd (m_obj (met os 0)) n1 | S j => m_obj (met os j) end.

  (** the rule fires at step k+1: residual below tol, or three small changes in a row *)
  Definition fires (tol : T) (ref : list (sobs T) -> nat -> T) (os : list (sobs T)) (k : nat) : Prop :=
    nltb (m_rel (met os k)) tol = true \/
    (2 <= k /\ forall j, k - 2 <= j <= k -> small_change tol (ref os j) (m_obj (met os j))).

  (** the full tensor is fetched at this step *)
  Definition validates (args : targs T) (steps step : Z) : Prop :=
    step = steps \/ a_verbose args = true \/ step = 1%Z \/
    (a_vi args <> (-1)%Z /\ a_vi args <> 0%Z /\ (a_vi args | step)%Z).

  (** entry of the history *)
  Definition entry (o : sobs T) : T * T := (m_loss (ob_met o), m_rel (ob_met o)).

  Section Runs.
    Context {S : Type}.
    Variable run : S -> res (S * sobs T).
    (** os is what successive training runs from s0 return *)
    Definition als_run (s0 : S) (os : list (sobs T)) : Prop :=
      exists st : nat -> S, st 0 = s0 /\
        forall k o, nth_error os k = Some o -> run (st k) = Ok (st (Datatypes.S k), o).

    Variable pre : S -> res (S * option (tensor T)).
    Variable accept reject : S -> res S.
    (** the same with a core run before and an update after every step: accept when the
        objective went below the best so far, reject otherwise *)
    Definition bcu_run (s0 : S) (os : list (sobs T)) : Prop :=
      exists st : nat -> S, st 0 = s0 /\
        forall k o, nth_error os k = Some o -> exists s1 c s2,
          pre (st k) = Ok (s1, c) /\ run s1 = Ok (s2, o) /\
          (Datatypes.S k < length os ->
           (if nltb (m_obj (met os k)) (ref_best os k) then accept s2 else reject s2)
           = Ok (st (Datatypes.S k))).
  End Runs.

  (** what a completed train shows about stopping: the number of steps made, none of
      the earlier ones fired, and the last one fired unless all steps were used *)
  Definition stopped_by (fire : nat -> Prop) (steps : Z) (n : nat) : Prop :=
    1 <= n /\ (Z.of_nat n <= steps)%Z /\
    (forall k, k + 1 < n -> ~ fire k) /\
    ((Z.of_nat n < steps)%Z -> fire (n - 1)).

  (** the public full tensor is the one of the last validating step *)
  Definition full_of_last_validation (args : targs T) (steps : Z) (os : list (sobs T)) (p : pub T) : Prop :=
    exists j o, nth_error os j = Some o /\ validates args steps (Z.of_nat (j + 1)) /\
      (forall i, j < i < length os -> ~ validates args steps (Z.of_nat (i + 1))) /\
      p_full p = Some (ob_full o).

  (** ** Histories of calls on one object in one default graph *)
  Section Calls.
    Context {A R : Type}.
    Variable build_chk : A -> res unit.
    Variable train : world -> fobj T A -> R -> Z -> fobj T A * res (hist T).

    Inductive call :=
    | Build (a : A) (id : nat)            (* build_model, creating placeholder id *)
    | Train (rnd : R) (steps : Z)
    | Predict (key : list Z)
    | Other (id : nat).                   (* another object is built in the same graph *)

    (** state after the call and, for train, its outcome *)
    Definition do_call (w : world) (o : fobj T A) (c : call) : world * fobj T A * list (res (hist T)) :=
      match c with
      | Build a id => (fst (obj_build build_chk w o a id), [])
      | Train rnd steps => let '(o', r) := train w o rnd steps in (w, o', [r])
      | Predict _ => (w, o, [])
      | Other id => (mkW (w_sums w ++ [id]) (w_path w), o, [])
      end.

    (** state after a history and the outcomes of its train calls, oldest first *)
    Fixpoint do_calls (w : world) (o : fobj T A) (cs : list call) : world * fobj T A * list (res (hist T)) :=
      match cs with
      | [] => (w, o, [])
      | c :: r => let '(w1, o1, l1) := do_call w o c in
                  let '(w2, o2, l2) := do_calls w1 o1 r in (w2, o2, l1 ++ l2)
      end.

    Definition object_after (w : world) (o : fobj T A) (cs : list call) : fobj T A := snd (fst (do_calls w o cs)).
    Definition outcomes (w : world) (o : fobj T A) (cs : list call) : list (res (hist T)) := snd (do_calls w o cs).
  End Calls.

  Definition fresh {A} : fobj T A := mkObj None pub0.

  (** the last outcome, if any, is a success *)
  Definition last_completed (l : list (res (hist T))) : Prop := exists l' h, l = l' ++ [Ok h].
  Definition some_completed (l : list (res (hist T))) : Prop := exists h, In (Ok h) l.
End S.

Arguments call A R : clear implicits.

(** the reported numbers are the RMSE over the non-zero entries of X, half the squared
    distance and the relative distance of X and the reconstruction *)
Definition measured (X full : tensor R) (m : metrics R) : Prop :=
  m_loss m = sqrt (msum (shp X) (fun i => if Req_EM_T (get X i) 0 then 0 else (get X i - get full i)²) /
                   msum (shp X) (fun i => if Req_EM_T (get X i) 0 then 0 else 1))%R /\
  m_obj m = (/ 2 * sqdist full X)%R /\
  m_rel m = (sqrt (sqdist full X) / sqrt (msum (shp X) (fun i => (get X i)²)))%R.
