(** Property theorems for the NCP_BCU updates (C50), over the real numbers.  [svals] returns
    singular values whose maximum is the spectral norm.  A step only succeeds for orders 2 to
    25 and positive sizes, so the theorems about successful steps carry no bound on the order. *)

From Coq Require Import ZArith List Bool Arith Reals Lia Lra.
From Verif Require Import Num Py Tensor TF Ops Types Loss Fact Train Spec SpecR SpecTrain SpecTucker SpecBcu SpecCp SpecProx RSums AlsLemmas NcpLemmas SpectralExists ZeroWit NonZero.
Import ListNotations.
Local Open Scope R_scope.

(** C50: when mode n is updated the earlier modes hold their new factors.  L is the spectral
    norm of the Gram matrix; unless it is zero the new factor is max(0, Am - grad/L) with the
    true gradient at the extrapolated factor Am, and the error does not increase from a
    non-negative Am (nor, up to the distance to Am, from any other non-negative point). *)
Theorem C50_ncp_step : forall svals (X : tensor R) r s s2 full m, spectral svals -> (0 < r)%nat ->
  ncp_wf X r s -> ncp_step svals X s = Ok (s2, full, m) ->
  forall n, (n < ndims X)%nat ->
    let A := mixed n (n_A s2) (n_A s) in let f B := / 2 * cp_error X r A n B in let L := nth n (n_L s2) 0 in
    spectral_norm (gram_but r A n) L /\
    (L <> 0 -> projected_step f L (mat_at (n_Am s) n) (mat_at (n_A s2) n) /\
               descends f L (mat_at (n_Am s) n) (mat_at (n_A s2) n)).
Proof. exact c50_step. Qed.
Print Assumptions C50_ncp_step.

(** in every state training can reach *)
Theorem C50_ncp_every_step : forall pow svals (X : tensor R) r rnd s s2 full m, spectral svals -> (0 < r)%nat ->
  cp_factors X r rnd ->
  reach (fun s => Ok (s, None)) (ncp_run svals X) ncp_accept (fun s => Ok (ncp_reject s)) (ncp_init pow X rnd) s ->
  ncp_step svals X s = Ok (s2, full, m) ->
  ncp_wf X r s /\ forall n, (n < ndims X)%nat ->
    let A := mixed n (n_A s2) (n_A s) in let f B := / 2 * cp_error X r A n B in let L := nth n (n_L s2) 0 in
    spectral_norm (gram_but r A n) L /\
    (L <> 0 -> projected_step f L (mat_at (n_Am s) n) (mat_at (n_A s2) n) /\
               descends f L (mat_at (n_Am s) n) (mat_at (n_A s2) n)).
Proof. exact c50_every. Qed.
Print Assumptions C50_ncp_every_step.

(** a whole step without extrapolation does not increase the error *)
Theorem C50_ncp_descends : forall svals (X : tensor R) r s s2 full m, spectral svals -> wf X -> (0 < r)%nat ->
  ncp_wf X r s -> ncp_step svals X s = Ok (s2, full, m) -> n_Am s = n_A s -> (forall M, In M (n_A s) -> nonneg M) ->
  (forall n, (n < ndims X)%nat -> nth n (n_L s2) 0 <> 0) ->
  sqdist X full <= sqdist X (cp_tensor r (ones r) (n_A s)) /\ m_obj m = / 2 * sqdist X full.
Proof. exact c50_whole. Qed.
Print Assumptions C50_ncp_descends.

(** from non-negative factors that already do better than the zero tensor no constant is zero,
    so the step descends *)
Theorem C50_ncp_better : forall svals (X : tensor R) r s s2 full m, spectral svals -> wf X -> (0 < r)%nat -> ncp_wf X r s ->
  ncp_step svals X s = Ok (s2, full, m) -> n_Am s = n_A s -> (forall M, In M (n_A s) -> nonneg M) ->
  sqdist X (cp_tensor r (ones r) (n_A s)) < sqlen X ->
  (forall n, (n < ndims X)%nat -> 0 < nth n (n_L s2) 0) /\
  sqdist X full <= sqdist X (cp_tensor r (ones r) (n_A s)) /\ m_obj m = / 2 * sqdist X full.
Proof. exact c50_better. Qed.
Print Assumptions C50_ncp_better.

(** with a zero constant the step divides by zero *)
Theorem C50_zero_constant_nan : exists svals (X : tensor f32) s s2 full m, n_Am s = n_A s /\
  (forall M x, In M (n_A s) -> In x (dat M) -> @nltb f32 NumF32 x (TrainWit.q 0) = false) /\
  ncp_step (N := NumF32) svals X s = Ok (s2, full, m) /\ @neqb f32 NumF32 (m_obj m) (m_obj m) = false.
Proof. exact c50_zero. Qed.
Print Assumptions C50_zero_constant_nan.

(** the steps above exist exactly for orders 2 to 25 *)
Theorem C50_ncp_step_succeeds : forall svals (X : tensor R) r s, wf X -> nonempty (shp X) ->
  (2 <= ndims X <= 25)%nat -> ncp_wf X r s -> exists s2 full m, ncp_step svals X s = Ok (s2, full, m).
Proof. exact ncp_step_total. Qed.
Print Assumptions C50_ncp_step_succeeds.

Theorem C50_ncp_step_fails : forall svals (X : tensor R) s, length (n_A s) = ndims X ->
  (ndims X < 2 \/ 25 < ndims X)%nat -> exists e, ncp_step svals X s = Raise e.
Proof. exact ncp_step_fails. Qed.
Print Assumptions C50_ncp_step_fails.

Theorem C50_ncp_train_succeeds : forall pow svals (X : tensor R) r args id w o rnd steps, wf X -> nonempty (shp X) ->
  (2 <= ndims X <= 25)%nat -> o_built o = Some ((args, r), id) -> cp_factors X r rnd -> w_path w = true ->
  (forall i, In i (w_sums w) -> i = id) -> (0 < steps)%Z -> a_vi args <> 0%Z ->
  exists o' h, ncp_train pow svals X w o rnd steps = (o', Ok h).
Proof. exact ncp_train_total. Qed.
Print Assumptions C50_ncp_train_succeeds.

(** diag(2, 1) of rank 1 from the all-ones factors, at squared distance 3 *)
Example ex_C50 : exists svals s2 full m, spectral svals /\ ncp_wf Xd 1 sd /\ ncp_step svals Xd sd = Ok (s2, full, m) /\
  n_Am sd = n_A sd /\ (forall M, In M (n_A sd) -> nonneg M) /\
  (forall n, (n < ndims Xd)%nat -> nth n (n_L s2) 0 <> 0) /\ sqdist Xd full <= 3.
Proof.
  destruct spectral_exists as (svals & HS). destruct (ex_c50 svals HS) as (s2 & full & m & E & HL). exists svals, s2, full, m.
  assert (Hn : forall M, In M (n_A sd) -> nonneg M) by (intros M [<-|[<-|[]]] x [<-|[<-|[]]]; lra).
  split; [exact HS|]. split; [apply sd_wf|]. split; [exact E|]. split; [reflexivity|]. split; [exact Hn|]. split; [exact HL|].
  eapply Rle_trans; [apply (C50_ncp_descends svals Xd 1 sd s2 full m HS eq_refl ltac:(lia) sd_wf E eq_refl Hn HL)|].
  right. unfold sqdist, Xd, get. cbn. unfold Rsqr. lra.
Qed.

Example ex_C50_train : forall pow, exists svals, spectral svals /\ forall args, a_vi args = 10%Z ->
  exists o' h, ncp_train pow svals Xd (mkW [7%nat] true) (mkObj (Some ((args, 1%nat), 7%nat)) pub0) Ad 5 = (o', Ok h).
Proof.
  intros pow. destruct spectral_exists as (svals & HP). exists svals. split; [exact HP|].
  intros args Hv. eapply C50_ncp_train_succeeds; [reflexivity|repeat constructor; discriminate|cbn; lia|reflexivity|apply Ad_factors|reflexivity| |lia|lia].
  intros i [<-|[]]. reflexivity.
Qed.

Example ex_C50_better : (forall M, In M (n_A sd) -> nonneg M) /\ sqdist Xd (cp_tensor 1 (ones 1) (n_A sd)) < sqlen Xd.
Proof.
  split; [intros M [<-|[<-|[]]] x [<-|[<-|[]]]; lra|].
  unfold sqdist, sqlen, sd, Xd, Ad, cp_tensor, ones, mat_at, mgen, mget, gen, get. cbn. unfold Rsqr. lra.
Qed.
