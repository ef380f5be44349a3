(** Property theorems for CP_ALS (C44, C45), over the real numbers.  [pinv] is the
    Moore-Penrose inverse of every matrix (tf_pinv.py with no singular value in the
    cut-off range).  A step only succeeds for orders 2 to 25 and positive sizes, so the
    theorems about successful steps carry no bound on the order. *)

From Coq Require Import ZArith List Bool Arith Reals Lia Lra.
From Verif Require Import Num Py Tensor TF Ops Types Loss Fact Train Spec SpecR SpecTrain SpecTucker SpecBcu SpecCp RSums AlsLemmas ZeroWit.
Import ListNotations.
Local Open Scope R_scope.

(** C44: against the factors before the step with any weights [mu], hence in particular
    against the previous reconstruction *)
Theorem C44_cp_step : forall pinv (X : tensor R) r A o mu, penrose pinv -> wf X -> cp_factors X r A ->
  cp_step pinv X r A = Ok o ->
  (forall n q v, (n < ndims X)%nat -> (q < r)%nat ->
     column_max (als_solution pinv X r (mixed n (cp_A o) A) n) q v -> v <> 0) ->
  sqdist X (cp_full o) <= sqdist X (cp_tensor r mu A) /\ m_obj (cp_met o) = / 2 * sqdist X (cp_full o).
Proof. exact c44_step. Qed.
Print Assumptions C44_cp_step.

(** along a whole run: objectives, relative residuals *)
Theorem C44_cp_run : forall pinv (X : tensor R) r A0 os, penrose pinv -> wf X -> cp_factors X r A0 ->
  als_run (cp_run pinv X r) A0 os ->
  (forall k o n q v, nth_error os k = Some o -> (n < ndims X)%nat -> (q < r)%nat ->
     column_max (als_solution pinv X r
       (mixed n (ob_factors o) (match k with 0 => A0 | S j => nth j (map ob_factors os) [] end)) n) q v -> v <> 0) ->
  forall j k, (j <= k)%nat -> (k < length os)%nat ->
    m_obj (met os k) <= m_obj (met os j) /\ (sqlen X <> 0 -> m_rel (met os k) <= m_rel (met os j)).
Proof. exact c44_run. Qed.
Print Assumptions C44_cp_run.

(** the relative residuals train returns *)
Theorem C44_cp_train : forall pinv (X : tensor R) w o rnd steps o' h, penrose pinv -> wf X -> sqlen X <> 0 ->
  (exists args r id, o_built o = Some ((args, r), id) /\ cp_factors X r rnd) ->
  cp_train pinv X w o rnd steps = (o', Ok h) ->
  exists args r id os, o_built o = Some ((args, r), id) /\ als_run (cp_run pinv X r) rnd os /\ h = map entry os /\
  ((forall k ob n q v, nth_error os k = Some ob -> (n < ndims X)%nat -> (q < r)%nat ->
     column_max (als_solution pinv X r
       (mixed n (ob_factors ob) (match k with 0 => rnd | S j => nth j (map ob_factors os) [] end)) n) q v -> v <> 0) ->
   forall j k, (j <= k)%nat -> (k < length h)%nat -> snd (nth k h (0, 0)) <= snd (nth j h (0, 0))).
Proof. exact c44_train. Qed.
Print Assumptions C44_cp_train.

(** a zero column is divided by zero *)
Theorem C44_zero_column_nan : exists pinv (X : tensor f32) A o, cp_step (N := NumF32) pinv X 1 A = Ok o /\
  @neqb f32 NumF32 (m_obj (cp_met o)) (m_obj (cp_met o)) = false.
Proof. exact c44_zero. Qed.
Print Assumptions C44_zero_column_nan.

(** the steps above exist exactly for orders 2 to 25 *)
Theorem C44_cp_step_succeeds : forall pinv (X : tensor R) r A, penrose pinv -> wf X -> nonempty (shp X) ->
  (2 <= ndims X <= 25)%nat -> cp_factors X r A -> exists o, cp_step pinv X r A = Ok o.
Proof. exact cp_step_total. Qed.
Print Assumptions C44_cp_step_succeeds.

Theorem C44_cp_step_fails : forall pinv (X : tensor R) r A, length A = ndims X ->
  (ndims X < 2 \/ 25 < ndims X)%nat -> exists e, cp_step pinv X r A = Raise e.
Proof. exact cp_step_fails. Qed.
Print Assumptions C44_cp_step_fails.

Theorem C44_cp_train_succeeds : forall pinv (X : tensor R) r args id w o rnd steps, penrose pinv -> wf X ->
  nonempty (shp X) -> (2 <= ndims X <= 25)%nat -> o_built o = Some ((args, r), id) -> cp_factors X r rnd ->
  w_path w = true -> (forall i, In i (w_sums w) -> i = id) -> (0 < steps)%Z -> a_vi args <> 0%Z ->
  exists o' h, cp_train pinv X w o rnd steps = (o', Ok h).
Proof. exact cp_train_total. Qed.
Print Assumptions C44_cp_train_succeeds.

(** diag(2, 1) of rank 1 from the all-ones factors, at squared distance 3 *)
Example ex_C44 : exists pinv o, penrose pinv /\ wf Xd /\ cp_factors Xd 1 Ad /\ cp_step pinv Xd 1 Ad = Ok o /\
  (forall n q v, (n < ndims Xd)%nat -> (q < 1)%nat ->
     column_max (als_solution pinv Xd 1 (mixed n (cp_A o) Ad) n) q v -> v <> 0) /\
  sqdist Xd (cp_full o) <= 3.
Proof. exact ex_c44. Qed.

Example ex_C44_train : exists pinv, penrose pinv /\ sqlen Xd <> 0 /\ forall args, a_vi args = 10%Z ->
  exists o' h, cp_train pinv Xd (mkW [7%nat] true) (mkObj (Some ((args, 1%nat), 7%nat)) pub0) Ad 5 = (o', Ok h).
Proof.
  destruct penrose_exists as (pinv & HP). exists pinv. split; [exact HP|]. split; [unfold sqlen, Xd, get; cbn; unfold Rsqr; lra|].
  intros args Hv. eapply C44_cp_train_succeeds; [exact HP|reflexivity|repeat constructor; discriminate|cbn; lia|reflexivity|apply Ad_factors|reflexivity| |lia|lia].
  intros i [<-|[]]. reflexivity.
Qed.

(** C45 *)
Theorem C45_cp_step : forall pinv (X : tensor R) r A o, penrose pinv -> cp_factors X r A -> cp_step pinv X r A = Ok o ->
  cp_factors X r (cp_A o) /\
  (forall n, (n < ndims X)%nat ->
     let others_now := mixed n (cp_A o) A in let B := als_solution pinv X r others_now n in
     least_squares X r others_now n B /\
     forall q, (q < r)%nat -> exists v, column_max B q v /\
       (forall i, (i < nth n (shp X) 0)%nat -> mget (mat_at (cp_A o) n) i q = mget B i q / v) /\
       (0 < v -> column_max (mat_at (cp_A o) n) q 1) /\
       (n = (ndims X - 1)%nat -> get (cp_lam o) [q] = v)) /\
  shp (cp_lam o) = [r] /\
  cp_full o = cp_tensor r (mgen r 1 (fun q _ => get (cp_lam o) [q])) (cp_A o) /\
  ((forall q, (q < r)%nat -> get (cp_lam o) [q] <> 0) ->
   let B := als_solution pinv X r (cp_A o) (ndims X - 1) in
   least_squares X r (cp_A o) (ndims X - 1) B /\ cp_full o = cp_tensor r (ones r) (replace (ndims X - 1) B (cp_A o))).
Proof. exact c45_step. Qed.
Print Assumptions C45_cp_step.

(** what a completed train leaves on the object *)
Theorem C45_cp_train : forall pinv (X : tensor R) w o rnd steps o' h, penrose pinv ->
  (exists args r id, o_built o = Some ((args, r), id) /\ cp_factors X r rnd) ->
  cp_train pinv X w o rnd steps = (o', Ok h) ->
  exists r A lam, (exists args id, o_built o = Some ((args, r), id)) /\
    p_factors (o_pub o') = Some A /\ p_aux (o_pub o') = Some lam /\ cp_factors X r A /\ shp lam = [r] /\
    let B := als_solution pinv X r A (ndims X - 1) in
    (forall q, (q < r)%nat -> column_max B q (get lam [q])) /\
    ((forall q, (q < r)%nat -> get lam [q] <> 0) -> least_squares X r A (ndims X - 1) B /\
       cp_tensor r (mgen r 1 (fun q _ => get lam [q])) A = cp_tensor r (ones r) (replace (ndims X - 1) B A)).
Proof. exact c45_train. Qed.
Print Assumptions C45_cp_train.

(** the same data *)
Example ex_C45 : exists pinv o, penrose pinv /\ cp_factors Xd 1 Ad /\ cp_step pinv Xd 1 Ad = Ok o /\
  (forall q, (q < 1)%nat -> get (cp_lam o) [q] <> 0).
Proof.
  destruct ex_c44 as (pinv & o & HP & _ & HA & E & G & _). exists pinv, o. split; [exact HP|]. split; [exact HA|]. split; [exact E|].
  intros q Hq. destruct (C45_cp_step pinv Xd 1 Ad o HP HA E) as (_ & H & _). destruct (H 1%nat ltac:(cbn; lia)) as [_ H1].
  destruct (H1 q Hq) as (v & V & _ & _ & L). rewrite (L eq_refl). exact (G 1%nat q v ltac:(cbn; lia) Hq V).
Qed.
