(** Property theorems for how many steps train makes (C87), over the real numbers.  h is the
    history train returns; the second component of an entry is the relative residual, and
    1/2 |X|^2 rel^2 is the objective. *)

From Coq Require Import ZArith List Bool Arith Reals Lia Lra.
From Verif Require Import Num Py Tensor Fact Train Spec SpecR SpecTrain SpecTucker SpecBcu SpecCp SpecProx RSums AlsLemmas NcpLemmas NtLemmas SvdExists TuckerLemmas
  SpectralExists ZeroWit TermFacts.
Import ListNotations.
Local Open Scope R_scope.

(** C87: l lists the steps whose residual is not below every earlier one; apart from them the
    number of steps is bounded by the first objective and the tolerance, whatever the budget *)
Theorem C87_ncp_length : forall pow svals (X : tensor R) w o rnd steps o' h args rank id l, wf X -> sqlen X <> 0 ->
  o_built o = Some ((args, rank), id) -> 0 < a_tol args ->
  ncp_train pow svals X w o rnd steps = (o', Ok h) ->
  (forall k, (k < length h)%nat -> (exists j, (j < k)%nat /\ snd (nth j h (0, 0)) <= snd (nth k h (0, 0))) -> In k l) ->
  INR (length h) <= 3 * (INR (length l) + / 2 * sqlen X * (snd (nth 0 h (0, 0)))² / a_tol args + 2).
Proof. exact c87_ncp. Qed.
Print Assumptions C87_ncp_length.

Theorem C87_ntucker_length : forall pow svals (X : tensor R) w o rnd steps o' h args id l, wf X -> sqlen X <> 0 ->
  o_built o = Some (args, id) -> 0 < a_tol args ->
  nt_train pow svals X w o rnd steps = (o', Ok h) ->
  (forall k, (k < length h)%nat -> (exists j, (j < k)%nat /\ snd (nth j h (0, 0)) <= snd (nth k h (0, 0))) -> In k l) ->
  INR (length h) <= 3 * (INR (length l) + / 2 * sqlen X * (snd (nth 0 h (0, 0)))² / a_tol args + 2).
Proof. exact c87_nt. Qed.
Print Assumptions C87_ntucker_length.

(** CP_ALS and HOOI keep the reference q + 1, q the first objective: with a tolerance of at
    most 1/(q+2) stalling never stops them, above (q+1)/(q+2) it stops them by step 3 *)
Theorem C87_cp_length : forall pinv (X : tensor R) w o rnd steps o' h args rank id, wf X -> sqlen X <> 0 ->
  o_built o = Some ((args, rank), id) -> cp_train pinv X w o rnd steps = (o', Ok h) ->
  (forall k, (k < length h)%nat -> snd (nth k h (0, 0)) <= snd (nth 0 h (0, 0))) ->
  let q := / 2 * sqlen X * (snd (nth 0 h (0, 0)))² in
  (a_tol args * (q + 2) <= 1 -> Z.of_nat (length h) = steps \/ snd (nth (length h - 1) h (0, 0)) < a_tol args) /\
  (q + 1 < a_tol args * (q + 2) -> (length h <= 3)%nat).
Proof. exact c87_cp. Qed.
Print Assumptions C87_cp_length.

Theorem C87_hooi_length : forall svdU (X : tensor R) w o rnd steps o' h args ranks id, left_svd svdU -> wf X -> nonempty (shp X) ->
  sqlen X <> 0 -> o_built o = Some ((args, map Z.of_nat ranks), id) -> nonempty ranks -> length ranks = ndims X ->
  hooi_train svdU X w o rnd steps = (o', Ok h) ->
  let q := / 2 * sqlen X * (snd (nth 0 h (0, 0)))² in
  (a_tol args * (q + 2) <= 1 -> Z.of_nat (length h) = steps \/ snd (nth (length h - 1) h (0, 0)) < a_tol args) /\
  (q + 1 < a_tol args * (q + 2) -> (length h <= 3)%nat).
Proof. exact c87_hooi. Qed.
Print Assumptions C87_hooi_length.

(** HOOI, with a bound on the tolerance that depends on X alone *)
Theorem C87_hooi_no_stall : forall svdU (X : tensor R) w o rnd steps o' h args ranks id, left_svd svdU -> wf X -> nonempty (shp X) ->
  sqlen X <> 0 -> o_built o = Some ((args, map Z.of_nat ranks), id) -> nonempty ranks -> length ranks = ndims X ->
  hooi_train svdU X w o rnd steps = (o', Ok h) -> a_tol args * (sqlen X + 4) <= 2 ->
  Z.of_nat (length h) = steps \/ snd (nth (length h - 1) h (0, 0)) < a_tol args.
Proof. exact c87_hooi_small. Qed.
Print Assumptions C87_hooi_no_stall.

(** diag(2, 1) of rank 1 from the all-ones factors *)
Example ex_C87_ncp : forall pow, exists svals, spectral svals /\ wf Xd /\ sqlen Xd <> 0 /\ forall args, a_vi args = 10%Z ->
  exists o' h, ncp_train pow svals Xd (mkW [7%nat] true) (mkObj (Some ((args, 1%nat), 7%nat)) pub0) Ad 500 = (o', Ok h) /\
  exists l, forall k, (k < length h)%nat -> (exists j, (j < k)%nat /\ snd (nth j h (0, 0)) <= snd (nth k h (0, 0))) -> In k l.
Proof.
  intros pow. destruct spectral_exists as (svals & HP). exists svals. split; [exact HP|]. split; [reflexivity|].
  split; [unfold sqlen, Xd, get; cbn; unfold Rsqr; lra|]. intros args Hv.
  destruct (ncp_train_total pow svals Xd 1 args 7%nat (mkW [7%nat] true) (mkObj (Some ((args, 1%nat), 7%nat)) pub0) Ad 500) as (o' & h & E);
    [reflexivity|repeat constructor; discriminate|cbn; lia|reflexivity|apply Ad_factors|reflexivity|intros i [<-|[]]; reflexivity|lia|lia|].
  exists o', h. split; [exact E|]. exists (seq 0 (length h)). intros k Hk _. apply in_seq. lia.
Qed.

Example ex_C87_nt : forall pow, exists svals, spectral svals /\ forall args, a_vi args = 10%Z ->
  exists o' h, nt_train pow svals Xd (mkW [7%nat] true) (mkObj (Some (args, 7%nat)) pub0) (Ad, mkT [1; 1]%nat [1]) 500 = (o', Ok h) /\
  exists l, forall k, (k < length h)%nat -> (exists j, (j < k)%nat /\ snd (nth j h (0, 0)) <= snd (nth k h (0, 0))) -> In k l.
Proof.
  intros pow. destruct spectral_exists as (svals & HP). exists svals. split; [exact HP|]. intros args Hv.
  destruct (nt_train_total pow svals Xd [1; 1]%nat args 7%nat (mkW [7%nat] true) (mkObj (Some (args, 7%nat)) pub0) Ad (mkT [1; 1]%nat [1]) 500) as (o' & h & E);
    [reflexivity|repeat constructor; discriminate|repeat constructor; discriminate|cbn; lia|reflexivity|apply Ad_tucker|split; reflexivity|reflexivity|intros i [<-|[]]; reflexivity|lia|lia|].
  exists o', h. split; [exact E|]. exists (seq 0 (length h)). intros k Hk _. apply in_seq. lia.
Qed.

(** |X|^2 = 5, tolerance 1/5 *)
Example ex_C87_hooi : exists svdU, left_svd svdU /\ wf Xd /\ nonempty (shp Xd) /\ sqlen Xd <> 0 /\ 1/5 * (sqlen Xd + 4) <= 2 /\
  exists o' h, hooi_train svdU Xd (mkW [7%nat] true) (mkObj (Some ((mkArgs (1/5) 1%Z false, map Z.of_nat [1; 1]%nat), 7%nat)) pub0) tt 500 = (o', Ok h).
Proof.
  destruct left_svd_exists as (svdU & HS). exists svdU. split; [exact HS|]. split; [reflexivity|]. split; [repeat constructor; discriminate|].
  split; [unfold sqlen, Xd, get; cbn; unfold Rsqr; lra|]. split; [unfold sqlen, Xd, get; cbn; unfold Rsqr; lra|].
  eapply (c54_hooi_total svdU Xd [1; 1]%nat); try reflexivity; auto.
  - repeat constructor; discriminate.
  - repeat constructor; discriminate.
  - cbn; lia.
  - intros n Hn. change (n < 2)%nat in Hn. destruct n as [|[|n]]; [vm_compute; lia..|lia].
  - cbn. intros i [<-|[]]. reflexivity.
  - discriminate.
Qed.
