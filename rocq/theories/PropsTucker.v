(** Property theorems for HOSVD and HOOI (C54-C58), over the real numbers.  [svdU] is the U of
    tf.svd(full_matrices=False): the left factor of some reduced singular value
    decomposition of every non-empty matrix.  Sizes are positive.  From order 14 on the
    einsum letters of ttm collide: a HOOI step always fails there, HOSVD either fails or
    returns wrong values. *)

From Coq Require Import ZArith List Bool Arith Reals Lia Lra.
From Verif Require Import Num Py Tensor TF Ops Types Loss Fact Train Spec SpecR SpecTrain SpecTucker LossFacts MultiR TuckerRun TuckerLemmas Order14 SvdExists.
Import ListNotations.
Local Open Scope R_scope.

(** C54 *)
Theorem C54_hosvd_factors : forall svdU (X : tensor R) ranks o, left_svd svdU -> wf X -> nonempty (shp X) ->
  (ndims X <= length ranks)%nat -> hosvd svdU X (map Z.of_nat ranks) = Ok o ->
  factor_state X (fitted (shp X) ranks) (tu_A o).
Proof. exact c54_hosvd_any. Qed.
Print Assumptions C54_hosvd_factors.

Theorem C54_hosvd_succeeds : forall svdU (X : tensor R) ranks, left_svd svdU -> wf X -> nonempty (shp X) ->
  (0 < ndims X <= 13)%nat -> (ndims X <= length ranks)%nat ->
  exists o, hosvd svdU X (map Z.of_nat ranks) = Ok o /\ factor_state X (fitted (shp X) ranks) (tu_A o).
Proof. exact c54_hosvd. Qed.
Print Assumptions C54_hosvd_succeeds.

Theorem C54_hosvd_train : forall svdU (X : tensor R) w o rnd steps o' h ranks id, left_svd svdU -> wf X ->
  nonempty (shp X) -> (ndims X <= length ranks)%nat -> o_built o = Some (map Z.of_nat ranks, id) ->
  hosvd_train svdU X w o rnd steps = (o', Ok h) ->
  exists A, p_factors (o_pub o') = Some A /\ factor_state X (fitted (shp X) ranks) A.
Proof. exact c54_hosvd_train. Qed.
Print Assumptions C54_hosvd_train.

Theorem C54_hooi_init_rejects : forall svdU (X : tensor R) (ranks : list Z), left_svd svdU -> wf X ->
  nonempty (shp X) -> length ranks = ndims X ->
  (exists n, (n < ndims X)%nat /\
     (nth n ranks 0 < 0 \/ Z.of_nat (Nat.min (nth n (shp X) 0%nat) (rest n (shp X))) < nth n ranks 0)%Z) ->
  hooi_init svdU X ranks = Raise ValueError.
Proof. exact c54_init_rejects. Qed.
Print Assumptions C54_hooi_init_rejects.

(** a step whose ranks do not fit the projected unfoldings *)
Theorem C54_hooi_step_rejects : forall svdU (X : tensor R) ranks A, left_svd svdU -> wf X -> nonempty (shp X) ->
  nonempty ranks -> length ranks = ndims X -> (2 <= ndims X <= 13)%nat -> factor_state X ranks A ->
  (exists n, (n < ndims X)%nat /\ (Nat.min (nth n (shp X) 0) (rest n ranks) < nth n ranks 0)%nat) ->
  hooi_step svdU X (map Z.of_nat ranks) A = Raise ValueError.
Proof. exact c54_step_rejects. Qed.
Print Assumptions C54_hooi_step_rejects.

Theorem C54_hooi_fits : forall svdU (X : tensor R) ranks, left_svd svdU -> wf X -> nonempty (shp X) ->
  nonempty ranks -> length ranks = ndims X -> (2 <= ndims X <= 13)%nat ->
  ((forall n, (n < ndims X)%nat -> (nth n ranks 0 <= Nat.min (nth n (shp X) 0) (rest n (shp X)))%nat) ->
   exists A, hooi_init svdU X (map Z.of_nat ranks) = Ok A /\ factor_state X ranks A) /\
  ((forall n, (n < ndims X)%nat -> (nth n ranks 0 <= Nat.min (nth n (shp X) 0) (rest n ranks))%nat) ->
   forall A, factor_state X ranks A ->
     exists o, hooi_step svdU X (map Z.of_nat ranks) A = Ok o /\ factor_state X ranks (ho_A o)).
Proof. exact c54_hooi. Qed.
Print Assumptions C54_hooi_fits.

Theorem C54_hooi_step : forall svdU (X : tensor R) ranks A o, left_svd svdU -> wf X -> nonempty (shp X) ->
  nonempty ranks -> length ranks = ndims X -> factor_state X ranks A ->
  hooi_step svdU X (map Z.of_nat ranks) A = Ok o -> factor_state X ranks (ho_A o).
Proof. exact c54_hooi_step. Qed.
Print Assumptions C54_hooi_step.

Theorem C54_hooi_train : forall svdU (X : tensor R) w o rnd steps o' h args ranks id, left_svd svdU -> wf X ->
  nonempty (shp X) -> nonempty ranks -> length ranks = ndims X ->
  o_built o = Some ((args, map Z.of_nat ranks), id) -> hooi_train svdU X w o rnd steps = (o', Ok h) ->
  exists A, p_factors (o_pub o') = Some A /\ factor_state X ranks A.
Proof. exact c54_hooi_train. Qed.
Print Assumptions C54_hooi_train.

Theorem C54_hooi_train_succeeds : forall svdU (X : tensor R) ranks args id w o rnd steps, left_svd svdU -> wf X ->
  nonempty (shp X) -> nonempty ranks -> length ranks = ndims X -> (2 <= ndims X <= 13)%nat ->
  (forall n, (n < ndims X)%nat ->
     (nth n ranks 0 <= Nat.min (nth n (shp X) 0) (Nat.min (rest n (shp X)) (rest n ranks)))%nat) ->
  o_built o = Some ((args, map Z.of_nat ranks), id) -> w_path w = true -> (forall i, In i (w_sums w) -> i = id) ->
  (0 < steps)%Z -> a_vi args <> 0%Z ->
  exists o' h, hooi_train svdU X w o rnd steps = (o', Ok h).
Proof. exact c54_hooi_total. Qed.
Print Assumptions C54_hooi_train_succeeds.

(** the hypothesis on the SVD can be met, and with it every hypothesis above: X is the
    2x2x2 diagonal tensor *)
Definition Xd : tensor R := mkT [2; 2; 2]%nat [3; 0; 0; 0; 0; 0; 0; 1].
Example ex_C54 : exists svdU, left_svd svdU /\ wf Xd /\ nonempty (shp Xd) /\ nonempty [1; 1; 1]%nat /\ sqlen Xd <> 0 /\
  (exists o, hosvd svdU Xd (map Z.of_nat [1; 9; 0]%nat) = Ok o /\ fitted (shp Xd) [1; 9; 0]%nat = [1; 2; 0]%nat) /\
  (exists o' h, hosvd_train svdU Xd (mkW [7%nat] true) (mkObj (Some (map Z.of_nat [2; 2; 2]%nat, 7%nat)) pub0) tt 5 = (o', Ok h)) /\
  (exists A o, factor_state Xd [1; 1; 1]%nat A /\ hooi_step svdU Xd (map Z.of_nat [1; 1; 1]%nat) A = Ok o) /\
  (exists A o, factor_state Xd (shp Xd) A /\ hooi_step svdU Xd (map Z.of_nat (shp Xd)) A = Ok o) /\
  (exists o' h, hooi_train svdU Xd (mkW [7%nat] true)
     (mkObj (Some ((mkArgs (1/10) 1%Z false, map Z.of_nat [1; 1; 1]%nat), 7%nat)) pub0) tt 5 = (o', Ok h)) /\
  hooi_init svdU Xd [1; 5; 1]%Z = Raise ValueError /\ hooi_init svdU Xd [1; -1; 1]%Z = Raise ValueError /\
  (exists A, factor_state Xd [2; 1; 1]%nat A /\ hooi_step svdU Xd (map Z.of_nat [2; 1; 1]%nat) A = Raise ValueError).
Proof.
  destruct left_svd_exists as (svdU & HS). exists svdU.
  assert (Hw : wf Xd) by reflexivity. assert (Hne : nonempty (shp Xd)) by (repeat constructor; discriminate).
  assert (Hn1 : nonempty [1; 1; 1]%nat) by (repeat constructor; discriminate).
  assert (Hn2 : nonempty [2; 1; 1]%nat) by (repeat constructor; discriminate).
  assert (Hc : forall (P : nat -> Prop), P 0%nat -> P 1%nat -> P 2%nat -> forall n, (n < ndims Xd)%nat -> P n).
  { intros P H0 H1 H2 n Hn. change (n < 3)%nat in Hn. do 3 (destruct n as [|n]; [assumption|]). lia. }
  split; [exact HS|]. split; [exact Hw|]. split; [exact Hne|]. split; [exact Hn1|].
  split. { unfold sqlen. cbn. unfold Rsqr. lra. }
  split. { destruct (c54_hosvd svdU Xd [1; 9; 0]%nat HS Hw Hne) as (o & E & _); [cbn; lia|cbn; lia|]. exists o. split; [exact E|reflexivity]. }
  split. { destruct (c54_hosvd svdU Xd [2; 2; 2]%nat HS Hw Hne) as (o & E & _); [cbn; lia|cbn; lia|].
    unfold hosvd_train, obj_train, hosvd_body. cbn [o_built w_path w_sums negb forallb Nat.eqb andb]. rewrite E. eauto. }
  split. { destruct (c54_hooi svdU Xd [1; 1; 1]%nat HS Hw Hne Hn1 eq_refl) as [G1 G2]; [cbn; lia|].
    destruct G1 as (A & _ & HA); [apply Hc; vm_compute; lia|]. destruct (G2 ltac:(apply Hc; vm_compute; lia) A HA) as (o & E & _). eauto. }
  split. { destruct (c54_hooi svdU Xd (shp Xd) HS Hw Hne Hne eq_refl) as [G1 G2]; [cbn; lia|].
    destruct G1 as (A & _ & HA); [apply Hc; vm_compute; lia|]. destruct (G2 ltac:(apply Hc; vm_compute; lia) A HA) as (o & E & _). eauto. }
  split. { eapply (c54_hooi_total svdU Xd [1; 1; 1]%nat); eauto; try reflexivity.
    - cbn; lia. - apply Hc; vm_compute; lia. - cbn. intros i [<-|[]]. reflexivity. - discriminate. }
  split. { apply c54_init_rejects; auto. exists 1%nat. split; [cbn; lia|]. right. vm_compute. reflexivity. }
  split. { apply c54_init_rejects; auto. exists 1%nat. split; [cbn; lia|]. left. vm_compute. reflexivity. }
  destruct (c54_hooi svdU Xd [2; 1; 1]%nat HS Hw Hne Hn2 eq_refl) as [G1 _]; [cbn; lia|].
  destruct G1 as (A & _ & HA); [apply Hc; vm_compute; lia|]. exists A. split; [exact HA|].
  apply c54_step_rejects; auto; [cbn; lia|]. exists 0%nat. split; [cbn; lia|]. vm_compute. lia.
Qed.

(** C55 *)
Theorem C55_hosvd_error_partial : forall svdU (X : tensor R) ranks o, left_svd svdU -> wf X -> nonempty (shp X) ->
  (0 < ndims X <= 13)%nat -> (ndims X <= length ranks)%nat -> hosvd svdU X (map Z.of_nat ranks) = Ok o ->
  tu_core o = project X (tu_A o) /\ tu_full o = tucker_tensor (tu_core o) (tu_A o) /\
  sqdist X (tu_full o) = sqlen X - sqlen (tu_core o).
Proof. exact c55_hosvd. Qed.
Print Assumptions C55_hosvd_error_partial.

Theorem C55_hooi_error : forall svdU (X : tensor R) ranks A o, left_svd svdU -> wf X -> nonempty (shp X) ->
  nonempty ranks -> length ranks = ndims X -> factor_state X ranks A ->
  hooi_step svdU X (map Z.of_nat ranks) A = Ok o ->
  ho_core o = project X (ho_A o) /\ ho_full o = tucker_tensor (ho_core o) (ho_A o) /\
  sqdist X (ho_full o) = sqlen X - sqlen (ho_core o).
Proof. exact c55_hooi_any. Qed.
Print Assumptions C55_hooi_error.

(** a tensor of order 14 that HOSVD, asked for full ranks, turns into the zero tensor *)
Theorem C55_hosvd_order14_refuted : exists X : tensor R, wf X /\ nonempty (shp X) /\ ndims X = 14%nat /\
  0 < sqlen X /\ forall svdU, left_svd svdU ->
    exists o, hosvd svdU X (map Z.of_nat (shp X)) = Ok o /\ factor_state X (shp X) (tu_A o) /\
      sqlen (tu_core o) = sqlen X /\ sqdist X (tu_full o) = sqlen X.
Proof. exact c55_order14. Qed.
Print Assumptions C55_hosvd_order14_refuted.

(** a tensor of order 14 that neither HOSVD nor HOOI can decompose *)
Theorem C55_order14_refuted : exists (X : tensor R) ranks, wf X /\ nonempty (shp X) /\ nonempty ranks /\
  length ranks = ndims X /\ ndims X = 14%nat /\
  forall svdU, left_svd svdU ->
    hosvd svdU X (map Z.of_nat ranks) = Raise ValueError /\
    hosvd svdU X (map Z.of_nat (shp X)) = Raise ValueError /\
    (exists A, hooi_init svdU X (map Z.of_nat ranks) = Ok A) /\
    forall A, factor_state X ranks A -> hooi_step svdU X (map Z.of_nat ranks) A = Raise ValueError.
Proof. exact order14. Qed.
Print Assumptions C55_order14_refuted.

(** C56 *)
Theorem C56_hosvd_exact_partial : forall svdU (X : tensor R) ranks o, left_svd svdU -> wf X -> nonempty (shp X) ->
  (0 < ndims X <= 13)%nat -> (ndims X <= length ranks)%nat ->
  (forall n, (n < ndims X)%nat -> (Nat.min (nth n (shp X) 0) (rest n (shp X)) <= nth n ranks 0)%nat) ->
  hosvd svdU X (map Z.of_nat ranks) = Ok o -> tu_full o = X.
Proof. exact c56_hosvd. Qed.
Print Assumptions C56_hosvd_exact_partial.

Theorem C56_hooi_exact : forall svdU (X : tensor R) A o, left_svd svdU -> wf X -> nonempty (shp X) ->
  factor_state X (shp X) A ->
  hooi_step svdU X (map Z.of_nat (shp X)) A = Ok o -> ho_full o = X.
Proof. exact c56_hooi_any. Qed.
Print Assumptions C56_hooi_exact.

(** C57 *)
Theorem C57_hooi_step : forall svdU (X : tensor R) ranks A o, left_svd svdU -> wf X -> nonempty (shp X) ->
  nonempty ranks -> length ranks = ndims X -> factor_state X ranks A ->
  hooi_step svdU X (map Z.of_nat ranks) A = Ok o ->
  sqdist X (ho_full o) <= sqdist X (tucker_tensor (project X A) A) /\ m_obj (ho_met o) = / 2 * sqdist X (ho_full o).
Proof. exact c57_step_any. Qed.
Print Assumptions C57_hooi_step.

(** along a whole run: objectives, relative residuals *)
Theorem C57_hooi_run : forall svdU (X : tensor R) ranks A0 os, left_svd svdU -> wf X -> nonempty (shp X) ->
  nonempty ranks -> length ranks = ndims X -> factor_state X ranks A0 ->
  als_run (hooi_run svdU X (map Z.of_nat ranks)) A0 os ->
  forall j k, (j <= k)%nat -> (k < length os)%nat ->
    m_obj (met os k) <= m_obj (met os j) /\ (sqlen X <> 0 -> m_rel (met os k) <= m_rel (met os j)).
Proof. exact hooi_run_mono_any. Qed.
Print Assumptions C57_hooi_run.

Theorem C57_hooi_train : forall svdU (X : tensor R) w o rnd steps o' h, left_svd svdU -> wf X -> nonempty (shp X) ->
  sqlen X <> 0 ->
  (exists args ranks id, o_built o = Some ((args, map Z.of_nat ranks), id) /\ nonempty ranks /\ length ranks = ndims X) ->
  hooi_train svdU X w o rnd steps = (o', Ok h) ->
  forall j k, (j <= k)%nat -> (k < length h)%nat -> snd (nth k h (0, 0)) <= snd (nth j h (0, 0)).
Proof. exact c57_train_any. Qed.
Print Assumptions C57_hooi_train.

(** a step at any other order fails *)
Theorem C57_hooi_step_fails : forall svdU (X : tensor R) ranks A, length A = ndims X ->
  (ndims X < 2 \/ 13 < ndims X)%nat -> exists e, hooi_step svdU X ranks A = Raise e.
Proof. exact c54_step_fails. Qed.
Print Assumptions C57_hooi_step_fails.

(** C58: s n are the singular values of the mode-n unfolding *)
Theorem C58_hosvd_bound_partial : forall svdU (X : tensor R) ranks o (s : nat -> nat -> R), left_svd svdU -> wf X ->
  nonempty (shp X) -> (0 < ndims X <= 13)%nat -> (ndims X <= length ranks)%nat ->
  hosvd svdU X (map Z.of_nat ranks) = Ok o ->
  (forall n, (n < ndims X)%nat -> exists M W, unfold X (Z.of_nat n) = Ok M /\ thin_svd M (svdU M) (s n) W) ->
  sqdist X (tu_full o) <=
  bigsum (ndims X) (fun n => discarded (s n) (nth n ranks 0%nat) (Nat.min (nth n (shp X) 0%nat) (rest n (shp X)))).
Proof. exact c58. Qed.
Print Assumptions C58_hosvd_bound_partial.

(** full ranks discard nothing, yet the error is positive *)
Theorem C58_hosvd_order14_refuted : exists X : tensor R, wf X /\ nonempty (shp X) /\ ndims X = 14%nat /\
  forall svdU (s : nat -> nat -> R), left_svd svdU ->
    exists o, hosvd svdU X (map Z.of_nat (shp X)) = Ok o /\
      bigsum (ndims X) (fun n => discarded (s n) (nth n (shp X) 0%nat) (Nat.min (nth n (shp X) 0%nat) (rest n (shp X)))) <
      sqdist X (tu_full o).
Proof. exact c58_order14. Qed.
Print Assumptions C58_hosvd_order14_refuted.
