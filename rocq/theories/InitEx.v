(** Cases to which the theorems of PropsInit.v apply, and a draw without positive entry. *)

From Coq Require Import ZArith List Bool Arith Lia Reals Lra Psatz.
From Verif Require Import Num Py Tensor TF TensorFacts TFFacts Sums Ops OpsLemmas Types Loss Fact Train Spec SpecR LayoutFacts SpecFacts MulFacts TtmFacts SkipFacts TtmLemmas Matricize
  KronFacts RSums MatR KronAlg NormFacts SpecTucker MultiR SvdFacts TuckerFacts TuckerRun TuckerLemmas SpecCp SpecBcu BcuFacts SpecTrain TrainLemmas CpFacts AlsFacts AlsLemmas
  SpecProx Prox NcpFacts NcpLemmas NtFacts NtLemmas DataFacts NonZero SpecRetry TrainFacts Retry Exact SpectralExists ExactEx SpecInit InitFacts.
Import ListNotations.
Local Open Scope R_scope.

Definition rpow (x y : R) : R := if Rle_dec x 0 then 0 else Rpower x y.
Lemma rpow_roots : roots rpow.
Proof.
  intros x k Hx Hk. unfold rpow. destruct (Rle_dec x 0) as [H|H].
  - split; [lra|]. rewrite pow_i by exact Hk. lra.
  - split; [unfold Rpower; left; apply exp_pos|]. rewrite <- Rpower_pow by (unfold Rpower; apply exp_pos). rewrite Rpower_mult.
    replace (1 / INR k * INR k) with 1; [apply Rpower_1; lra|]. field. apply not_0_INR. lia.
Qed.

Lemma norm_X4 : norm X4 = 8.
Proof. unfold norm, sqlen, X4, get. cbn. unfold Rsqr. Rn. match goal with |- sqrt ?x = _ => replace x with (8 * 8) by lra end. apply sqrt_square. lra. Qed.

Lemma Ad_positive d : In d Ad -> has_positive d.
Proof. intros [<-|[<-|[]]]; exists [0; 0]%nat; (split; [repeat constructor|unfold get; cbn; lra]). Qed.
Lemma G4_positive : has_positive G4.
Proof. exists [0; 0]%nat. split; [repeat constructor|unfold get; cbn; lra]. Qed.

Lemma sqrt2_half (p : R) : / sqrt 2 * p * (/ sqrt 2 * p) = p * p / 2.
Proof. transitivity ((/ sqrt 2 * / sqrt 2) * (p * p)); [ring|]. rewrite half. field. Qed.

Lemma ncp_start4 : cp_tensor 1 (ones 1) (n_A (ncp_init rpow X4 Ad)) = X4.
Proof.
  unfold ncp_init, Ad. cbn [n_A map]. unfold norm_init, tf_map. cbn [shp dat map]. rewrite relu_1, norm_Ad, exponent, (sqlen_norm X4 eq_refl), norm_X4.
  change (length (shp X4)) with 2%nat. change (ndims X4) with 2%nat. destruct (rpow_roots 8 2%nat ltac:(lra) ltac:(lia)) as [_ P]. set (p := rpow 8 (1 / INR 2)) in *.
  assert (Q : 1 / sqrt 2 * p * (1 / sqrt 2 * p) = 4) by (unfold Rdiv; rewrite !Rmult_1_l, sqrt2_half; cbn in P; lra).
  Rn. set (c := 1 / sqrt 2 * p) in *. unfold cp_tensor, gen, X4, ones, mgen, mat_at, mget, get, nrows, bigsum. cbn. Rn. repeat (f_equal; try lra).
Qed.
Lemma nt_start4 : tucker_tensor (q_g (nt_init rpow X4 Ad G4)) (q_A (nt_init rpow X4 Ad G4)) = X4.
Proof.
  unfold nt_init, Ad, G4. cbn [q_A q_g map]. unfold norm_init, tf_map. cbn [shp dat map]. rewrite relu_1, norm_Ad, norm_G4, exponent, (sqlen_norm X4 eq_refl), norm_X4.
  change (ndims X4 + 1)%nat with 3%nat. destruct (rpow_roots 8 3%nat ltac:(lra) ltac:(lia)) as [_ P]. set (p := rpow 8 (1 / INR 3)) in *.
  assert (Q : p * (1 / sqrt 2 * p * (1 / sqrt 2 * p)) = 4).
  { unfold Rdiv. rewrite !Rmult_1_l, sqrt2_half. transitivity ((p * (p * (p * 1))) / 2); [field|]. change (p * (p * (p * 1))) with (p ^ 3). rewrite P. field. }
  Rn. set (c := 1 / sqrt 2 * p) in *. replace (1 / 1 * p) with p by field. unfold tucker_tensor, gen, X4, mat_at, mget, get, nrows. cbn. Rn. repeat (f_equal; try lra).
Qed.

Lemma ex81_ncp : exists svals s2 full m, spectral svals /\ roots rpow /\ wf X4 /\ nonneg X4 /\ cp_factors X4 1 Ad /\ (forall d, In d Ad -> has_positive d) /\
  ncp_step svals X4 (ncp_init rpow X4 Ad) = Ok (s2, full, m) /\ (forall n, (n < ndims X4)%nat -> nth n (n_L s2) 0 <> 0).
Proof.
  destruct spectral_exists as (svals & HS). pose proof (ncp_init_wf rpow X4 1 Ad A4_factors) as W.
  destruct (ncp_step_total svals X4 1 _ X4_wf X4_ne ltac:(cbn; lia) W) as (s2 & full & m & E). exists svals, s2, full, m.
  split; [exact HS|]. split; [exact rpow_roots|]. split; [reflexivity|]. split; [intros x [<-|[<-|[<-|[<-|[]]]]]; lra|]. split; [exact A4_factors|]. split; [exact Ad_positive|]. split; [exact E|].
  destruct (c50_better svals X4 1 _ s2 full m HS X4_wf ltac:(lia) W E eq_refl) as [HL _].
  - apply (ncp_init_nonneg rpow X4 1 Ad rpow_roots X4_wf A4_factors Ad_positive).
  - rewrite ncp_start4. replace (sqdist X4 X4) with 0 by (symmetry; apply LossFacts.sqdist_zero; reflexivity). apply sqlen_pos, X4_nonzero.
  - intros n Hn. specialize (HL n Hn). lra.
Qed.
Lemma ex81_nt : exists svals s1 s2 full m, spectral svals /\ roots rpow /\ wf X4 /\ nonneg X4 /\ nonempty [1; 1]%nat /\ tucker_factors X4 [1; 1]%nat Ad /\ core_like [1; 1]%nat G4 /\
  (forall d, In d Ad -> has_positive d) /\ has_positive G4 /\
  nt_core svals X4 (nt_init rpow X4 Ad G4) = Ok s1 /\ nt_fact svals X4 s1 = Ok (s2, full, m) /\ (forall n, (n <= ndims X4)%nat -> nth n (q_L s2) 0 <> 0).
Proof.
  destruct spectral_exists as (svals & HS). pose proof (nt_init_wf rpow X4 [1; 1]%nat Ad G4 A4_tucker G4_core) as W.
  destruct (nt_step_total svals X4 [1; 1]%nat (nt_init rpow X4 Ad G4) X4_wf X4_ne r11_ne ltac:(cbn; lia) W) as (s1 & s2 & full & m & E1 & E2).
  exists svals, s1, s2, full, m.
  split; [exact HS|]. split; [exact rpow_roots|]. split; [reflexivity|]. split; [intros x [<-|[<-|[<-|[<-|[]]]]]; lra|]. split; [exact r11_ne|]. split; [exact A4_tucker|]. split; [exact G4_core|].
  split; [exact Ad_positive|]. split; [exact G4_positive|]. split; [exact E1|]. split; [exact E2|].
  destruct (c53_better svals X4 [1; 1]%nat _ s1 s2 full m HS X4_wf r11_ne W E1 E2 eq_refl eq_refl) as [HL _].
  - apply (nt_init_core_nonneg rpow X4 [1; 1]%nat Ad G4 rpow_roots X4_wf G4_core G4_positive).
  - apply (nt_init_nonneg rpow X4 [1; 1]%nat Ad G4 rpow_roots X4_wf A4_tucker Ad_positive).
  - rewrite nt_start4. replace (sqdist X4 X4) with 0 by (symmetry; apply LossFacts.sqdist_zero; reflexivity). apply sqlen_pos, X4_nonzero.
  - intros n Hn. specialize (HL n Hn). lra.
Qed.
