(** Property theorems for the NTUCKER_BCU updates (C53), over the real numbers.  [svals]
    returns singular values whose maximum is the spectral norm.  A training step is the core
    run followed by the factor run.  It only succeeds for orders 2 to 13 and positive sizes,
    so the theorems about successful steps carry no bound on the order. *)

From Coq Require Import ZArith List Bool Arith Reals Lia Lra.
From Verif Require Import Num Py Tensor TF Ops Types Loss Fact Train Spec SpecR SpecTrain SpecTucker SpecBcu SpecCp SpecProx RSums AlsLemmas NtLemmas Order14 SpectralExists ZeroWit NonZero.
Import ListNotations.
Local Open Scope R_scope.

(** C53: the core constant is the product of the spectral norms of the factors' Gram
    matrices, a factor's constant is the spectral norm of the Gram matrix of the slices of the
    core times the other factors.  Unless the constant is zero the update is
    max(0, point - grad/L) with the true gradient at the extrapolated point, and the error does
    not increase from a non-negative point.  When factor n is updated the core and the earlier
    factors hold their new values. *)
Theorem C53_nt_step : forall svals (X : tensor R) ranks s s1 s2 full m, spectral svals -> wf X -> nonempty ranks ->
  nt_wf X ranks s -> nt_core svals X s = Ok s1 -> nt_fact svals X s1 = Ok (s2, full, m) ->
  (let f C := / 2 * sqdist X (tucker_tensor C (q_A s)) in let L := nth (ndims X) (q_L s2) 0 in
   (exists sig, (forall k, (k < ndims X)%nat -> spectral_norm (gram_of (mat_at (q_A s) k)) (sig k)) /\
                L = bigprod (ndims X) sig) /\
   (L <> 0 -> projected_step f L (q_gm s) (q_g s2) /\ descends f L (q_gm s) (q_g s2))) /\
  forall n, (n < ndims X)%nat ->
    let A := mixed n (q_A s2) (q_A s) in
    let f B := / 2 * sqdist X (tucker_tensor (q_g s2) (replace n B A)) in let L := nth n (q_L s2) 0 in
    spectral_norm (slice_gram (core_times_others (q_g s2) A n) n) L /\
    (L <> 0 -> projected_step f L (mat_at (q_Am s) n) (mat_at (q_A s2) n) /\
               descends f L (mat_at (q_Am s) n) (mat_at (q_A s2) n)).
Proof. exact c53_step. Qed.
Print Assumptions C53_nt_step.

(** every state training can reach meets the hypothesis *)
Theorem C53_nt_reachable : forall pow svals (X : tensor R) ranks rnd rndg s, wf X -> nonempty ranks ->
  tucker_factors X ranks rnd -> core_like ranks rndg ->
  reach (nt_pre svals X) (nt_factors svals X) nt_accept (fun s => Ok (nt_reject s)) (nt_init pow X rnd rndg) s ->
  nt_wf X ranks s.
Proof. exact nt_reach_any. Qed.
Print Assumptions C53_nt_reachable.

(** a whole step without extrapolation does not increase the error *)
Theorem C53_nt_descends : forall svals (X : tensor R) ranks s s1 s2 full m, spectral svals -> wf X -> nonempty ranks ->
  nt_wf X ranks s -> nt_core svals X s = Ok s1 -> nt_fact svals X s1 = Ok (s2, full, m) ->
  q_Am s = q_A s -> q_gm s = q_g s -> nonneg (q_g s) -> (forall M, In M (q_A s) -> nonneg M) ->
  (forall n, (n <= ndims X)%nat -> nth n (q_L s2) 0 <> 0) ->
  sqdist X full <= sqdist X (tucker_tensor (q_g s) (q_A s)) /\ m_obj m = / 2 * sqdist X full.
Proof. exact c53_whole. Qed.
Print Assumptions C53_nt_descends.

(** from a non-negative core and factors that already do better than the zero tensor no
    constant is zero, so the step descends *)
Theorem C53_nt_better : forall svals (X : tensor R) ranks s s1 s2 full m, spectral svals -> wf X -> nonempty ranks -> nt_wf X ranks s ->
  nt_core svals X s = Ok s1 -> nt_fact svals X s1 = Ok (s2, full, m) -> q_Am s = q_A s -> q_gm s = q_g s ->
  nonneg (q_g s) -> (forall M, In M (q_A s) -> nonneg M) -> sqdist X (tucker_tensor (q_g s) (q_A s)) < sqlen X ->
  (forall n, (n <= ndims X)%nat -> 0 < nth n (q_L s2) 0) /\
  sqdist X full <= sqdist X (tucker_tensor (q_g s) (q_A s)) /\ m_obj m = / 2 * sqdist X full.
Proof. exact c53_better. Qed.
Print Assumptions C53_nt_better.

(** with a zero constant the step divides by zero *)
Theorem C53_zero_constant_nan : exists svals (X : tensor f32) s s1 s2 full m, q_Am s = q_A s /\ q_gm s = q_g s /\
  (forall M x, In M (q_g s :: q_A s) -> In x (dat M) -> @nltb f32 NumF32 x (TrainWit.q 0) = false) /\
  nt_core (N := NumF32) svals X s = Ok s1 /\ nt_fact (N := NumF32) svals X s1 = Ok (s2, full, m) /\
  @neqb f32 NumF32 (m_obj m) (m_obj m) = false.
Proof. exact c53_zero. Qed.
Print Assumptions C53_zero_constant_nan.

(** the steps above exist exactly for orders 2 to 13 *)
Theorem C53_nt_step_succeeds : forall svals (X : tensor R) ranks s, wf X -> nonempty (shp X) -> nonempty ranks ->
  (2 <= ndims X <= 13)%nat -> nt_wf X ranks s ->
  exists s1 s2 full m, nt_core svals X s = Ok s1 /\ nt_fact svals X s1 = Ok (s2, full, m).
Proof. exact nt_step_total. Qed.
Print Assumptions C53_nt_step_succeeds.

Theorem C53_nt_step_fails : forall svals (X : tensor R) ranks s, nt_wf X ranks s ->
  (ndims X < 2 \/ 13 < ndims X)%nat -> exists e, nt_fact svals X s = Raise e.
Proof. exact nt_fact_fails. Qed.
Print Assumptions C53_nt_step_fails.

(** the core run on its own would succeed at order 14 with a wrong gradient: from an exact
    model it moves away *)
Theorem C53_core_alone_order14 : exists (X : tensor R) ranks s, wf X /\ nonempty (shp X) /\ nonempty ranks /\
  nt_wf X ranks s /\ ndims X = 14%nat /\ q_gm s = q_g s /\ nonneg (q_g s) /\ (forall M, In M (q_A s) -> nonneg M) /\
  forall svals, spectral svals ->
    exists s1, nt_core svals X s = Ok s1 /\ q_A s1 = q_A s /\ nth (ndims X) (q_L s1) 0 <> 0 /\
    sqdist X (tucker_tensor (q_g s) (q_A s)) < sqdist X (tucker_tensor (q_g s1) (q_A s1)).
Proof. exact c53_order14. Qed.
Print Assumptions C53_core_alone_order14.

Theorem C53_nt_train_succeeds : forall pow svals (X : tensor R) ranks args id w o rnd rndg steps, wf X ->
  nonempty (shp X) -> nonempty ranks -> (2 <= ndims X <= 13)%nat -> o_built o = Some (args, id) ->
  tucker_factors X ranks rnd -> core_like ranks rndg -> w_path w = true -> (forall i, In i (w_sums w) -> i = id) ->
  (0 < steps)%Z -> a_vi args <> 0%Z -> exists o' h, nt_train pow svals X w o (rnd, rndg) steps = (o', Ok h).
Proof. exact nt_train_total. Qed.
Print Assumptions C53_nt_train_succeeds.

(** diag(2, 1) from the all-ones core and factors of rank (1, 1), at squared distance 3 *)
Example ex_C53 : exists svals s1 s2 full m, spectral svals /\ nt_wf Xd [1; 1]%nat td /\
  nt_core svals Xd td = Ok s1 /\ nt_fact svals Xd s1 = Ok (s2, full, m) /\
  q_Am td = q_A td /\ q_gm td = q_g td /\ nonneg (q_g td) /\ (forall M, In M (q_A td) -> nonneg M) /\
  (forall n, (n <= ndims Xd)%nat -> nth n (q_L s2) 0 <> 0) /\ sqdist Xd full <= 3.
Proof.
  destruct spectral_exists as (svals & HS). destruct (ex_c53 svals HS) as (s1 & s2 & full & m & E1 & E2 & HL). exists svals, s1, s2, full, m.
  assert (Hn : forall M, In M (q_A td) -> nonneg M) by (intros M [<-|[<-|[]]] x [<-|[<-|[]]]; lra).
  assert (Hg : nonneg (q_g td)) by (intros x [<-|[]]; lra).
  split; [exact HS|]. split; [apply td_wf|]. split; [exact E1|]. split; [exact E2|]. split; [reflexivity|]. split; [reflexivity|]. split; [exact Hg|]. split; [exact Hn|]. split; [exact HL|].
  eapply Rle_trans; [apply (C53_nt_descends svals Xd [1; 1]%nat td s1 s2 full m HS eq_refl ltac:(repeat constructor; discriminate) td_wf E1 E2 eq_refl eq_refl Hg Hn HL)|].
  right. unfold sqdist, Xd, get. cbn. unfold Rsqr. lra.
Qed.

Example ex_C53_train : forall pow, exists svals, spectral svals /\ forall args, a_vi args = 10%Z ->
  exists o' h, nt_train pow svals Xd (mkW [7%nat] true) (mkObj (Some (args, 7%nat)) pub0) (Ad, mkT [1; 1]%nat [1]) 5 = (o', Ok h).
Proof.
  intros pow. destruct spectral_exists as (svals & HP). exists svals. split; [exact HP|].
  intros args Hv. eapply (C53_nt_train_succeeds pow svals Xd [1; 1]%nat); [reflexivity|repeat constructor; discriminate|repeat constructor; discriminate|cbn; lia|reflexivity|apply Ad_tucker|split; reflexivity|reflexivity| |lia|lia].
  intros i [<-|[]]. reflexivity.
Qed.

Example ex_C53_better : nonneg (q_g td) /\ (forall M, In M (q_A td) -> nonneg M) /\ sqdist Xd (tucker_tensor (q_g td) (q_A td)) < sqlen Xd.
Proof.
  split; [intros x [<-|[]]; lra|]. split; [intros M [<-|[<-|[]]] x [<-|[<-|[]]]; lra|].
  unfold sqdist, sqlen, td, Xd, Ad, tucker_tensor, mat_at, mgen, mget, gen, get. cbn. unfold Rsqr. lra.
Qed.
