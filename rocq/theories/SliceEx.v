(** Cases for PropsSlice.v: a tensor whose truncated HOSVD core is not all-orthogonal. *)

From Coq Require Import ZArith List Bool Arith Lia Permutation Reals Lra Psatz.
From Verif Require Import Num Py Tensor TF TensorFacts TFFacts Sums Ops Types Loss Fact Train Spec SpecR LayoutFacts SpecFacts MulFacts TtmFacts SkipFacts TtmLemmas Matricize
  KronFacts RSums MatR KronAlg LossFacts SpecTrain TrainLemmas BcuFacts SpecTucker SpecBcu SpecProx NtFacts AlsFacts MultiR SvdFacts TuckerFacts TuckerRun TuckerLemmas QuasiOpt SvdExists SpecSlice SliceFacts.
Import ListNotations.
Local Open Scope R_scope.

Definition Xs : tensor R := mkT [2; 2; 2]%nat [-4; 1; 1; 1; 1; 1; 1; 2].
Definition Ms : tensor R := mkT [2; 4]%nat [-4; 1; 1; 1; 1; 1; 1; 2].

Lemma Xs_unfold n : (n < 3)%nat -> unfold Xs (Z.of_nat n) = Ok Ms.
Proof. intros H. do 3 (destruct n as [|n]; [vm_compute; reflexivity|]). lia. Qed.

Lemma alg_svd u00 u01 u10 u11 s0 s1 a0 a1 a2 a3 b0 b1 b2 b3 :
  u00 * u00 + u10 * u10 = 1 -> u00 * u01 + u10 * u11 = 0 -> u01 * u01 + u11 * u11 = 1 ->
  a0 * a0 + a1 * a1 + a2 * a2 + a3 * a3 = 1 -> a0 * b0 + a1 * b1 + a2 * b2 + a3 * b3 = 0 -> b0 * b0 + b1 * b1 + b2 * b2 + b3 * b3 = 1 ->
  u00 * s0 * a0 + u01 * s1 * b0 = -4 -> u00 * s0 * a1 + u01 * s1 * b1 = 1 -> u00 * s0 * a2 + u01 * s1 * b2 = 1 -> u00 * s0 * a3 + u01 * s1 * b3 = 1 ->
  u10 * s0 * a0 + u11 * s1 * b0 = 1 -> u10 * s0 * a1 + u11 * s1 * b1 = 1 -> u10 * s0 * a2 + u11 * s1 * b2 = 1 -> u10 * s0 * a3 + u11 * s1 * b3 = 2 ->
  0 <= s1 -> s1 <= s0 -> u01 = 0 /\ u10 = 0 /\ u00 * u00 = 1 /\ u11 * u11 = 1.
Proof.
  intros A00 A01 A11 B00 B01 B11 R0 R1 R2 R3 Q0 Q1 Q2 Q3 P D.
  set (a := s0 * s0). set (b := s1 * s1). assert (Hab : b <= a) by (unfold a, b; nra).
  assert (K00 : u00 * u00 * a + u01 * u01 * b = 19).
  { transitivity (u00 * u00 * a * (a0 * a0 + a1 * a1 + a2 * a2 + a3 * a3) + 2 * (u00 * s0 * (u01 * s1)) * (a0 * b0 + a1 * b1 + a2 * b2 + a3 * b3) + u01 * u01 * b * (b0 * b0 + b1 * b1 + b2 * b2 + b3 * b3)).
    - rewrite B00, B01, B11. ring.
    - transitivity ((u00 * s0 * a0 + u01 * s1 * b0) * (u00 * s0 * a0 + u01 * s1 * b0) + (u00 * s0 * a1 + u01 * s1 * b1) * (u00 * s0 * a1 + u01 * s1 * b1) + (u00 * s0 * a2 + u01 * s1 * b2) * (u00 * s0 * a2 + u01 * s1 * b2) + (u00 * s0 * a3 + u01 * s1 * b3) * (u00 * s0 * a3 + u01 * s1 * b3)); [unfold a, b; ring|].
      rewrite R0, R1, R2, R3. lra. }
  assert (K11 : u10 * u10 * a + u11 * u11 * b = 7).
  { transitivity (u10 * u10 * a * (a0 * a0 + a1 * a1 + a2 * a2 + a3 * a3) + 2 * (u10 * s0 * (u11 * s1)) * (a0 * b0 + a1 * b1 + a2 * b2 + a3 * b3) + u11 * u11 * b * (b0 * b0 + b1 * b1 + b2 * b2 + b3 * b3)).
    - rewrite B00, B01, B11. ring.
    - transitivity ((u10 * s0 * a0 + u11 * s1 * b0) * (u10 * s0 * a0 + u11 * s1 * b0) + (u10 * s0 * a1 + u11 * s1 * b1) * (u10 * s0 * a1 + u11 * s1 * b1) + (u10 * s0 * a2 + u11 * s1 * b2) * (u10 * s0 * a2 + u11 * s1 * b2) + (u10 * s0 * a3 + u11 * s1 * b3) * (u10 * s0 * a3 + u11 * s1 * b3)); [unfold a, b; ring|].
      rewrite Q0, Q1, Q2, Q3. lra. }
  assert (K01 : u00 * u10 * a + u01 * u11 * b = 0).
  { transitivity (u00 * u10 * a * (a0 * a0 + a1 * a1 + a2 * a2 + a3 * a3) + (u00 * s0 * (u11 * s1) + u10 * s0 * (u01 * s1)) * (a0 * b0 + a1 * b1 + a2 * b2 + a3 * b3) + u01 * u11 * b * (b0 * b0 + b1 * b1 + b2 * b2 + b3 * b3)).
    - rewrite B00, B01, B11. ring.
    - transitivity ((u00 * s0 * a0 + u01 * s1 * b0) * (u10 * s0 * a0 + u11 * s1 * b0) + (u00 * s0 * a1 + u01 * s1 * b1) * (u10 * s0 * a1 + u11 * s1 * b1) + (u00 * s0 * a2 + u01 * s1 * b2) * (u10 * s0 * a2 + u11 * s1 * b2) + (u00 * s0 * a3 + u01 * s1 * b3) * (u10 * s0 * a3 + u11 * s1 * b3)); [unfold a, b; ring|].
      rewrite R0, R1, R2, R3, Q0, Q1, Q2, Q3. lra. }
  assert (E0 : 19 * u00 = a * u00).
  { rewrite <- K00. transitivity (u00 * a * (u00 * u00 + u10 * u10) + u01 * b * (u00 * u01 + u10 * u11) - u10 * (u00 * u10 * a + u01 * u11 * b)); [ring|]. rewrite A00, A01, K01. ring. }
  assert (E1 : 7 * u10 = a * u10).
  { rewrite <- K11. transitivity (u10 * a * (u00 * u00 + u10 * u10) + u11 * b * (u00 * u01 + u10 * u11) - u00 * (u00 * u10 * a + u01 * u11 * b)); [ring|]. rewrite A00, A01, K01. ring. }
  assert (E2 : 19 * u01 = b * u01).
  { rewrite <- K00. transitivity (u01 * b * (u01 * u01 + u11 * u11) + u00 * a * (u00 * u01 + u10 * u11) - u11 * (u00 * u10 * a + u01 * u11 * b)); [ring|]. rewrite A11, A01, K01. ring. }
  assert (T : a + b = 26).
  { transitivity (a * (u00 * u00 + u10 * u10) + b * (u01 * u01 + u11 * u11)); [rewrite A00, A11; ring|].
    transitivity ((u00 * u00 * a + u01 * u01 * b) + (u10 * u10 * a + u11 * u11 * b)); [ring|]. rewrite K00, K11. lra. }
  destruct (Req_dec u00 0) as [Z|Z].
  - exfalso. subst u00. assert (Hu : u10 <> 0) by (intros Zu; subst u10; lra).
    assert (a = 7) by (apply (Rmult_eq_reg_r u10); [lra|exact Hu]). lra.
  - assert (Ha : a = 19) by (apply (Rmult_eq_reg_r u00); [lra|exact Z]). rewrite Ha in *. assert (Hb : b = 7) by lra. rewrite Hb in *.
    assert (u10 = 0) by lra. assert (u01 = 0) by lra. subst. split; [reflexivity|]. split; [reflexivity|]. split; lra.
Qed.

(** its left singular vectors are the unit vectors up to sign *)
Lemma Ms_svd U W s : thin_svd Ms U s W -> exists e0 e1, U = mkT [2; 2]%nat [e0; 0; 0; e1] /\ e0 * e0 = 1 /\ e1 * e1 = 1.
Proof.
  intros Hs. destruct Hs as (HU & HW & OU & OW & Hp & Hd & HM). change (Nat.min (nrows Ms) (ncols Ms)) with 2%nat in *. change (nrows Ms) with 2%nat in *. change (ncols Ms) with 4%nat in *.
  destruct HU as [Uw Us]. destruct U as [su du]. cbn in Us. subst su. unfold wf in Uw. cbn in Uw.
  destruct du as [|u00 [|u01 [|u10 [|u11 [|? ?]]]]]; try discriminate.
  unfold orthonormal in OU, OW. change (nrows (mkT [2; 2]%nat [u00; u01; u10; u11])) with 2%nat in OU. change (ncols (mkT [2; 2]%nat [u00; u01; u10; u11])) with 2%nat in OU.
  destruct (matrix_is_mat _ _ _ HW) as (_ & Wr & Wc). rewrite Wr, Wc in OW.
  pose proof (OU 0 0 ltac:(lia) ltac:(lia))%nat as A00. pose proof (OU 0 1 ltac:(lia) ltac:(lia))%nat as A01. pose proof (OU 1 1 ltac:(lia) ltac:(lia))%nat as A11.
  pose proof (OW 0 0 ltac:(lia) ltac:(lia))%nat as B00. pose proof (OW 0 1 ltac:(lia) ltac:(lia))%nat as B01. pose proof (OW 1 1 ltac:(lia) ltac:(lia))%nat as B11.
  pose proof (fun j (Hj : (j < 4)%nat) => HM 0%nat j ltac:(lia) Hj) as R0. pose proof (fun j (Hj : (j < 4)%nat) => HM 1%nat j ltac:(lia) Hj) as R1.
  pose proof (R0 0 ltac:(lia))%nat as R00. pose proof (R0 1 ltac:(lia))%nat as R01. pose proof (R0 2 ltac:(lia))%nat as R02. pose proof (R0 3 ltac:(lia))%nat as R03.
  pose proof (R1 0 ltac:(lia))%nat as R10. pose proof (R1 1 ltac:(lia))%nat as R11. pose proof (R1 2 ltac:(lia))%nat as R12. pose proof (R1 3 ltac:(lia))%nat as R13.
  pose proof (Hp 0 ltac:(lia))%nat as P0. pose proof (Hp 1 ltac:(lia))%nat as P1. pose proof (Hd 0 1 ltac:(lia) ltac:(lia))%nat as D.
  clear R0 R1 OU OW HM Hp Hd HW Wr Wc.
  cbn [bigsum Nat.eqb] in *.
  change (mget Ms 0 0) with (-4) in R00. change (mget Ms 0 1) with 1 in R01. change (mget Ms 0 2) with 1 in R02. change (mget Ms 0 3) with 1 in R03.
  change (mget Ms 1 0) with 1 in R10. change (mget Ms 1 1) with 1 in R11. change (mget Ms 1 2) with 1 in R12. change (mget Ms 1 3) with 2 in R13.
  set (U := mkT [2; 2]%nat [u00; u01; u10; u11]) in *.
  change (mget U 0 0) with u00 in *. change (mget U 0 1) with u01 in *. change (mget U 1 0) with u10 in *. change (mget U 1 1) with u11 in *.
  Rn.
  destruct (alg_svd u00 u01 u10 u11 (s 0%nat) (s 1%nat) (mget W 0 0) (mget W 1 0) (mget W 2 0) (mget W 3 0) (mget W 0 1) (mget W 1 1) (mget W 2 1) (mget W 3 1)) as (-> & -> & E0 & E1); try lra.
  exists u00, u11. split; [reflexivity|]. split; assumption.
Qed.

Lemma truncated_core : wf Xs /\ nonempty (shp Xs) /\ ndims Xs = 3%nat /\ forall svdU, left_svd svdU ->
  exists o, hosvd svdU Xs (map Z.of_nat [2; 2; 1]%nat) = Ok o /\ slice_dot 0 0 1 (tu_core o) <> 0.
Proof.
  assert (Hne : nonempty (shp Xs)) by (repeat constructor; discriminate).
  split; [reflexivity|]. split; [exact Hne|]. split; [reflexivity|]. intros svdU HS.
  destruct (hosvd_ok svdU Xs [2; 2; 1]%nat HS eq_refl Hne ltac:(cbn; lia) ltac:(cbn; lia)) as (o & E & H1 & H2 & H3 & H4). exists o. split; [exact E|].
  destruct (HS Ms) as (s & W & Hs); [split; reflexivity|discriminate|discriminate|]. destruct (Ms_svd _ _ _ Hs) as (e0 & e1 & EU & Q0 & Q1).
  assert (HA : forall n, (n < 3)%nat -> mat_at (tu_A o) n = leading (svdU Ms) (nth n [2; 2; 1]%nat 0%nat)).
  { intros n Hn. destruct (H4 n Hn) as (M & HM & EM). rewrite (Xs_unfold n Hn) in HM. injection HM as <-. exact EM. }
  pose proof (lenA _ _ _ H1) as HL. change (ndims Xs) with 3%nat in HL. rewrite H2. destruct (tu_A o) as [|A0 [|A1 [|A2 [|? ?]]]]; try discriminate.
  pose proof (HA 0 ltac:(lia))%nat as F0. pose proof (HA 1 ltac:(lia))%nat as F1. pose proof (HA 2 ltac:(lia))%nat as F2. unfold mat_at in F0, F1, F2. cbn [nth] in F0, F1, F2.
  rewrite EU in F0, F1, F2. subst A0 A1 A2.
  assert (V : slice_dot 0 0 1 (project Xs [leading (mkT [2; 2]%nat [e0; 0; 0; e1]) 2; leading (mkT [2; 2]%nat [e0; 0; 0; e1]) 2; leading (mkT [2; 2]%nat [e0; 0; 0; e1]) 1])
    = -3 * (e0 * e1)).
  { unfold slice_dot, project, leading, mode_products, mode_product, mtrans, mgen, gen, Xs. cbn. unfold get, mget, get. cbn. Rn.
    transitivity (e0 * e1 * (-4 * (e0 * e0) * (e0 * e0) * 1 + (e1 * e1) * (e0 * e0))); [ring|]. rewrite Q0, Q1. ring. }
  rewrite V. intros K. assert (e0 * e1 = 0) by lra. apply Rmult_integral in H as [->| ->]; lra.
Qed.

(** the same tensor with its full ranks, and HOOI with ranks 1, 1, 1 *)
Lemma ex_slices : exists svdU, left_svd svdU /\ wf Xs /\ nonempty (shp Xs) /\ sqlen Xs = 26 /\
  (exists o M s W, hosvd svdU Xs (map Z.of_nat [2; 2; 2]%nat) = Ok o /\ tu_full o = Xs /\ unfold Xs (Z.of_nat 1) = Ok M /\ thin_svd M (svdU M) s W /\
     fitted (shp Xs) [2; 2; 2]%nat = [2; 2; 2]%nat) /\
  (exists o' h, hosvd_train svdU Xs (mkW [7%nat] true) (mkObj (Some (map Z.of_nat [2; 2; 2]%nat, 7%nat)) pub0) tt 5 = (o', Ok h)) /\
  (exists A o, factor_state Xs [1; 1; 1]%nat A /\ hooi_step svdU Xs (map Z.of_nat [1; 1; 1]%nat) A = Ok o) /\
  (exists o' h, hooi_train svdU Xs (mkW [7%nat] true)
     (mkObj (Some ((mkArgs (1/10) 1%Z false, map Z.of_nat [1; 1; 1]%nat), 7%nat)) pub0) tt 5 = (o', Ok h)).
Proof.
  destruct left_svd_exists as (svdU & HS). exists svdU.
  assert (Hne : nonempty (shp Xs)) by (repeat constructor; discriminate).
  assert (Hn1 : nonempty [1; 1; 1]%nat) by (repeat constructor; discriminate).
  assert (Hc : forall (P : nat -> Prop), P 0%nat -> P 1%nat -> P 2%nat -> forall n, (n < ndims Xs)%nat -> P n).
  { intros P H0 H1 H2 n Hn. change (n < 3)%nat in Hn. do 3 (destruct n as [|n]; [assumption|]). lia. }
  split; [exact HS|]. split; [reflexivity|]. split; [exact Hne|].
  split. { unfold sqlen, Xs, get. cbn. unfold Rsqr. Rn. lra. }
  destruct (c54_hosvd svdU Xs [2; 2; 2]%nat HS eq_refl Hne ltac:(cbn; lia) ltac:(cbn; lia)) as (o & E & _).
  split. { destruct (HS Ms) as (s & W & Hs); [split; reflexivity|discriminate|discriminate|]. exists o, Ms, s, W. split; [exact E|]. split.
    - apply (c56_hosvd svdU Xs [2; 2; 2]%nat o HS eq_refl Hne ltac:(cbn; lia) ltac:(cbn; lia)); [apply Hc; vm_compute; lia|exact E].
    - split; [apply (Xs_unfold 1); lia|]. split; [exact Hs|reflexivity]. }
  split. { unfold hosvd_train, obj_train, hosvd_body. cbn [o_built w_path w_sums negb forallb Nat.eqb andb]. rewrite E. eauto. }
  split. { destruct (c54_hooi svdU Xs [1; 1; 1]%nat HS eq_refl Hne Hn1 eq_refl) as [G1 G2]; [cbn; lia|].
    destruct G1 as (A & _ & HA); [apply Hc; vm_compute; lia|]. destruct (G2 ltac:(apply Hc; vm_compute; lia) A HA) as (q & Eq & _). eauto. }
  eapply (c54_hooi_total svdU Xs [1; 1; 1]%nat); eauto; try reflexivity.
  - cbn; lia. - apply Hc; vm_compute; lia. - cbn. intros i [<-|[]]. reflexivity. - discriminate.
Qed.
