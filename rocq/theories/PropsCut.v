(** Property C106. *)

From Coq Require Import ZArith Reals List Bool Arith Lia Lra.
From Verif Require Import Num Py Tensor TF Ops Types Loss Fact Train Spec SpecR SpecTucker SpecCp SpecBcu SpecCut MultiR AlsLemmas CutFacts CutWit.
Import ListNotations.
Local Open Scope R_scope.

(** C106: with a pseudo-inverse that drops singular values up to a threshold, a CP_ALS step
    increases the distance to the data by at most the square roots of the thresholds times
    the lengths of the weighted factors it replaces.  [w 0] are the weights before the step,
    [w (S n)] the column maxima of mode n. *)
Theorem C106_cp_step : forall pinv tau (X : tensor R) r A o mu w, cutoff tau pinv -> cp_factors X r A -> cp_step pinv X r A = Ok o ->
  (forall q, (q < r)%nat -> w 0%nat q = mget mu q 0) ->
  (forall n q, (n < ndims X)%nat -> (q < r)%nat -> column_max (als_solution pinv X r (mixed n (cp_A o) A) n) q (w (S n) q) /\ w (S n) q <> 0) ->
  sqrt (sqdist X (cp_full o)) <= sqrt (sqdist X (cp_tensor r mu A)) +
    bigsum (ndims X) (fun n => sqrt (tau (gram_but r (mixed n (cp_A o) A) n)) * wlen (mat_at A n) (w n)).
Proof. exact c106_step. Qed.
Print Assumptions C106_cp_step.

(** the exact pseudo-inverse is the threshold zero *)
Theorem C106_exact : forall pinv, penrose pinv -> cutoff (fun _ => 0) pinv.
Proof. exact c106_exact. Qed.
Print Assumptions C106_exact.

(** the step still succeeds *)
Theorem C106_total : forall pinv tau (X : tensor R) r A, cutoff tau pinv -> wf X -> nonempty (shp X) -> (2 <= ndims X <= 25)%nat -> cp_factors X r A ->
  exists o, cp_step pinv X r A = Ok o.
Proof. exact cut_step_total. Qed.
Print Assumptions C106_total.

(** but C44 does not survive: whatever the threshold, a step can leave an exact
    decomposition, all column maxima being non-zero *)
Theorem C106_monotone_refuted : forall t, 0 < t -> exists pinv (X : tensor R) r A o, cutoff (fun _ => t) pinv /\ wf X /\ cp_factors X r A /\ cp_step pinv X r A = Ok o /\
  (forall n q v, (n < ndims X)%nat -> (q < r)%nat -> column_max (als_solution pinv X r (mixed n (cp_A o) A) n) q v -> v <> 0) /\
  sqdist X (cp_tensor r (ones r) A) = 0 /\ sqdist X (cp_full o) = t.
Proof. exact c106_refuted. Qed.
Print Assumptions C106_monotone_refuted.

(** ** Examples *)
(** a routine that really drops something *)
Example ex_C106 : exists pinv M, cutoff (fun _ => 2) pinv /\ symmetric M /\ cut_pinv 2 M (pinv M) /\ ~ is_pinv M (pinv M).
Proof.
  destruct penrose_exists as (p0 & HP). assert (HC : cutoff (fun _ => 2) (pinvc p0 1)) by (apply c106_cutoff; [exact HP|lra|lra]).
  assert (HS : symmetric (G0 1)) by (split; [split; reflexivity|]; split; [reflexivity|]; cbn; intros i j Hi Hj; destruct i as [|[|i]]; [| |lia]; (destruct j as [|[|j]]; [| |lia]); reflexivity).
  exists (pinvc p0 1), (G0 1). split; [exact HC|]. split; [exact HS|]. split; [apply HC, HS|].
  unfold pinvc. destruct (Tdec (G0 1) (G0 1)) as [_|K]; [|congruence]. intros (_ & H & _). specialize (H 0%nat 1%nat ltac:(cbn; lia) ltac:(cbn; lia)). cbn in H. unfold mget, get in H. cbn in H. lra.
Qed.
Example ex_C106_step : exists pinv o, cutoff (fun _ => 2) pinv /\ cp_factors (Xc 1) 2 (Ac 1) /\ cp_step pinv (Xc 1) 2 (Ac 1) = Ok o.
Proof.
  destruct penrose_exists as (p0 & HP). assert (HC : cutoff (fun _ => 2) (pinvc p0 1)) by (apply c106_cutoff; [exact HP|lra|lra]).
  destruct (C106_total (pinvc p0 1) _ (Xc 1) 2 (Ac 1) HC) as (o & E); [reflexivity|repeat constructor; discriminate|cbn; lia|apply Ac_factors|].
  exists (pinvc p0 1), o. split; [exact HC|]. split; [apply Ac_factors|exact E].
Qed.
