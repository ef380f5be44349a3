(** Cases to which the theorems of PropsRetry.v apply: the 2x2 matrix of fours, which the rank
    one start of all-one vectors factorizes exactly after scaling, and diag(2, 1), which no
    rank one start does. *)

From Coq Require Import ZArith List Bool Arith Lia Reals Lra Psatz.
From Verif Require Import Num Py Tensor TF TensorFacts TFFacts Sums Ops OpsLemmas Types Loss Fact Train Spec SpecR LayoutFacts SpecFacts MulFacts TtmFacts SkipFacts TtmLemmas Matricize
  KronFacts RSums MatR KronAlg NormFacts SpecTucker MultiR SvdFacts TuckerFacts TuckerRun TuckerLemmas SpecCp SpecBcu BcuFacts SpecTrain TrainLemmas CpFacts AlsFacts AlsLemmas
  SpecProx Prox NcpFacts NcpLemmas NtFacts NtLemmas DataFacts NonZero SpecRetry TrainFacts Retry Exact SpectralExists SvdExists.
Import ListNotations.
Local Open Scope R_scope.

Definition root1 (x y : R) : R := 1.
Lemma X4_wf : wf X4. Proof. reflexivity. Qed.
Lemma X4_ne : nonempty (shp X4). Proof. repeat constructor; discriminate. Qed.
Lemma Xd_ne : nonempty (shp Xd). Proof. repeat constructor; discriminate. Qed.
Lemma r11_ne : nonempty [1; 1]%nat. Proof. repeat constructor; discriminate. Qed.
Lemma A4_factors : cp_factors X4 1 Ad.
Proof. split; [reflexivity|]. intros k Hk. change (ndims X4) with 2%nat in Hk. destruct k as [|[|k]]; [split; reflexivity..|lia]. Qed.
Lemma A4_tucker : tucker_factors X4 [1; 1]%nat Ad.
Proof. split; [reflexivity|]. split; [reflexivity|]. intros k Hk. change (ndims X4) with 2%nat in Hk. destruct k as [|[|k]]; [split; reflexivity..|lia]. Qed.
Lemma G4_core : core_like [1; 1]%nat G4. Proof. split; reflexivity. Qed.
Lemma ncp4_nonneg M : In M (n_A (ncp_init root2 X4 Ad)) -> nonneg M.
Proof. rewrite ncp_init4. intros [<-|[<-|[]]] x [<-|[<-|[]]]; lra. Qed.
Lemma nt4_nonneg : nonneg (q_g (nt_init root3 X4 Ad G4)) /\ forall M, In M (q_A (nt_init root3 X4 Ad G4)) -> nonneg M.
Proof.
  destruct nt_init4 as [-> ->]. pose proof (sqrt_pos 2). split; [intros x [<-|[]]; lra|]. intros M [<-|[<-|[]]] x [<-|[<-|[]]]; lra.
Qed.

Lemma ex_ncp_restored : exists svals os st s2 full m, spectral svals /\ cp_factors X4 1 Ad /\
  states (ncp_run svals X4) (fun s => Ok (s, None)) ncp_accept (fun s => Ok (ncp_reject s)) (ncp_init root2 X4 Ad) os st /\
  rejected_since os 0 1 /\ (2 < length os)%nat /\ ncp_step svals X4 (ncp_restored (st 2%nat)) = Ok (s2, full, m) /\
  m_obj (met os 0) < / 2 * sqlen X4.
Proof.
  destruct spectral_exists as (svals & HS). exists svals.
  destruct (ncp_exact_three root2 svals X4 1 Ad HS X4_wf ltac:(lia) A4_factors ncp4_nonneg ncp4_exact X4_nonzero X4_ne ltac:(cbn; lia)) as (os & st & s2 & full & m & H).
  exists os, st, s2, full, m. split; [exact HS|]. split; [exact A4_factors|exact H].
Qed.
Lemma ex_nt_restored : exists svals os st s1 s2 full m, spectral svals /\ tucker_factors X4 [1; 1]%nat Ad /\ core_like [1; 1]%nat G4 /\
  states (nt_factors svals X4) (nt_pre svals X4) nt_accept (fun s => Ok (nt_reject s)) (nt_init root3 X4 Ad G4) os st /\
  rejected_since os 0 1 /\ (2 < length os)%nat /\ nt_core svals X4 (nt_restored (st 2%nat)) = Ok s1 /\ nt_fact svals X4 s1 = Ok (s2, full, m) /\
  m_obj (met os 0) < / 2 * sqlen X4.
Proof.
  destruct spectral_exists as (svals & HS). exists svals. destruct nt4_nonneg as [N1 N2].
  destruct (nt_exact_three root3 svals X4 [1; 1]%nat Ad G4 HS X4_wf r11_ne A4_tucker G4_core N1 N2 nt4_exact X4_nonzero X4_ne ltac:(cbn; lia)) as (os & st & s1 & s2 & full & m & H).
  exists os, st, s1, s2, full, m. split; [exact HS|]. split; [exact A4_tucker|]. split; [exact G4_core|exact H].
Qed.

Lemma norm_G4 : tf_norm (mkT [1; 1]%nat [1]) = 1.
Proof. unfold tf_norm. cbn. Rn. match goal with |- context [sqrt ?x] => replace x with 1 by lra end. apply sqrt_1. Qed.
Lemma ncp_init1 : n_A (ncp_init root1 Xd Ad) = [mkT [2; 1]%nat [/ sqrt 2; / sqrt 2]; mkT [2; 1]%nat [/ sqrt 2; / sqrt 2]].
Proof.
  unfold ncp_init, Ad. cbn [n_A map]. unfold norm_init, tf_map. cbn [shp dat map]. rewrite relu_1, norm_Ad. unfold root1. Rn.
  replace (1 / sqrt 2 * 1) with (/ sqrt 2) by lra. reflexivity.
Qed.
Lemma nt_init1 : q_A (nt_init root1 Xd Ad G4) = [mkT [2; 1]%nat [/ sqrt 2; / sqrt 2]; mkT [2; 1]%nat [/ sqrt 2; / sqrt 2]] /\ q_g (nt_init root1 Xd Ad G4) = mkT [1; 1]%nat [1].
Proof.
  unfold nt_init, Ad, G4. cbn [q_A q_g map]. unfold norm_init, tf_map. cbn [shp dat map]. rewrite relu_1, norm_Ad, norm_G4. unfold root1. Rn.
  replace (1 / sqrt 2 * 1) with (/ sqrt 2) by lra. replace (1 / 1 * 1) with 1 by lra. auto.
Qed.
Lemma half : / sqrt 2 * / sqrt 2 = / 2.
Proof. rewrite <- Rinv_mult. rewrite sqrt_sqrt by lra. reflexivity. Qed.
Lemma half_pos : 0 <= / sqrt 2.
Proof. left. apply Rinv_0_lt_compat, sqrt_lt_R0. lra. Qed.
Lemma ncp1_better : sqdist Xd (cp_tensor 1 (ones 1) (n_A (ncp_init root1 Xd Ad))) < sqlen Xd.
Proof.
  rewrite ncp_init1. unfold sqdist, sqlen, Xd, cp_tensor, ones, mat_at, mgen, mget, gen, get. cbn. unfold Rsqr. pose proof half. set (h := / sqrt 2) in *. nra.
Qed.
Lemma nt1_better : sqdist Xd (tucker_tensor (q_g (nt_init root1 Xd Ad G4)) (q_A (nt_init root1 Xd Ad G4))) < sqlen Xd.
Proof.
  destruct nt_init1 as [-> ->]. unfold sqdist, sqlen, Xd, tucker_tensor, mat_at, mgen, mget, gen, get. cbn. unfold Rsqr. pose proof half. set (h := / sqrt 2) in *. nra.
Qed.

Lemma ex_ncp_second : exists svals s1 o1 s1' s2 o2, spectral svals /\ cp_factors Xd 1 Ad /\
  ncp_run svals Xd (ncp_init root1 Xd Ad) = Ok (s1, o1) /\ ncp_accept s1 = Ok s1' /\ ncp_run svals Xd s1' = Ok (s2, o2) /\
  m_obj (ob_met o1) < / 2 * sqlen Xd.
Proof.
  destruct spectral_exists as (svals & HS). exists svals. pose proof (ncp_init_wf root1 Xd 1 Ad Ad_factors) as W0.
  destruct (ncp_run_total svals Xd 1 _ eq_refl Xd_ne ltac:(cbn; lia) W0) as (s1 & o1 & E1 & W1). destruct (ncp_accept_wf Xd 1 s1 W1) as (s1' & Ea & W1').
  destruct (ncp_run_total svals Xd 1 s1' eq_refl Xd_ne ltac:(cbn; lia) W1') as (s2 & o2 & E2 & W2).
  exists s1, o1, s1', s2, o2. repeat (split; [assumption || exact Ad_factors|]).
  unfold ncp_run in E1. apply bind_ok in E1 as ([[s3 full] m] & E1 & H). injection H as <- <-. cbn [ob_met].
  destruct (c50_better svals Xd 1 _ s3 full m HS eq_refl ltac:(lia) W0 E1 eq_refl) as (_ & D1 & D2); [|exact ncp1_better|].
  - rewrite ncp_init1. pose proof half_pos. intros M [<-|[<-|[]]] x [<-|[<-|[]]]; lra.
  - rewrite D2. pose proof ncp1_better. lra.
Qed.
Lemma ex_nt_second : exists svals s0 c0 s1 o1 s1' s2 c2 s3 o2, spectral svals /\ tucker_factors Xd [1; 1]%nat Ad /\ core_like [1; 1]%nat G4 /\
  nt_pre svals Xd (nt_init root1 Xd Ad G4) = Ok (s0, c0) /\ nt_factors svals Xd s0 = Ok (s1, o1) /\ nt_accept s1 = Ok s1' /\
  nt_pre svals Xd s1' = Ok (s2, c2) /\ nt_factors svals Xd s2 = Ok (s3, o2) /\ m_obj (ob_met o1) < / 2 * sqlen Xd.
Proof.
  destruct spectral_exists as (svals & HS). exists svals. pose proof (nt_init_wf root1 Xd [1; 1]%nat Ad G4 Ad_tucker G4_core) as W0.
  destruct (nt_step_total svals Xd [1; 1]%nat _ eq_refl Xd_ne r11_ne ltac:(cbn; lia) W0) as (t1 & t2 & fu & me & T1 & T2).
  destruct (nt_core_wf svals Xd [1; 1]%nat eq_refl _ t1 ltac:(cbn; lia) W0 T1) as (V1 & _).
  assert (V2 : nt_wf Xd [1; 1]%nat t2) by apply (nt_parts svals Xd [1; 1]%nat r11_ne t1 t2 fu me ltac:(cbn; lia) V1 T2).
  destruct (nt_accept_wf Xd [1; 1]%nat t2 V2) as (s1' & Ea & W1').
  destruct (nt_step_total svals Xd [1; 1]%nat _ eq_refl Xd_ne r11_ne ltac:(cbn; lia) W1') as (u1 & u2 & fu' & me' & U1 & U2).
  exists t1, (Some (q_g t1)), t2, (mkObs (q_A t2) None fu me), s1', u1, (Some (q_g u1)), u2, (mkObs (q_A u2) None fu' me').
  split; [exact HS|]. split; [exact Ad_tucker|]. split; [exact G4_core|]. unfold nt_pre, nt_factors. rewrite T1, T2, U1, U2. cbn [bind ob_met].
  repeat (split; [assumption || reflexivity|]).
  destruct (c53_better svals Xd [1; 1]%nat _ t1 t2 fu me HS eq_refl r11_ne W0 T1 T2 eq_refl eq_refl) as (_ & D1 & D2); [| |exact nt1_better|].
  - destruct nt_init1 as [_ ->]. intros x [<-|[]]; lra.
  - destruct nt_init1 as [-> _]. pose proof half_pos. intros M [<-|[<-|[]]] x [<-|[<-|[]]]; lra.
  - rewrite D2. pose proof nt1_better. lra.
Qed.

Lemma ex_ncp4 : exists svals, spectral svals /\ wf X4 /\ cp_factors X4 1 Ad /\
  (forall M, In M (n_A (ncp_init root2 X4 Ad)) -> nonneg M) /\ cp_tensor 1 (ones 1) (n_A (ncp_init root2 X4 Ad)) = X4 /\
  (exists i, valid (shp X4) i /\ get X4 i <> 0) /\ forall args, a_vi args = 10%Z ->
  exists o' h, ncp_train root2 svals X4 (mkW [7%nat] true) (mkObj (Some ((args, 1%nat), 7%nat)) pub0) Ad 5 = (o', Ok h).
Proof.
  destruct spectral_exists as (svals & HS). exists svals. split; [exact HS|]. split; [exact X4_wf|]. split; [exact A4_factors|].
  split; [exact ncp4_nonneg|]. split; [exact ncp4_exact|]. split; [exact X4_nonzero|]. intros args Ha.
  apply (ncp_train_total root2 svals X4 1 args 7); try reflexivity; [exact X4_ne|cbn; lia|exact A4_factors|cbn; intros i [<-|[]]; reflexivity|rewrite Ha; discriminate].
Qed.
Lemma ex_nt4 : exists svals, spectral svals /\ wf X4 /\ tucker_factors X4 [1; 1]%nat Ad /\ core_like [1; 1]%nat G4 /\
  nonneg (q_g (nt_init root3 X4 Ad G4)) /\ (forall M, In M (q_A (nt_init root3 X4 Ad G4)) -> nonneg M) /\
  tucker_tensor (q_g (nt_init root3 X4 Ad G4)) (q_A (nt_init root3 X4 Ad G4)) = X4 /\
  (exists i, valid (shp X4) i /\ get X4 i <> 0) /\ forall args, a_vi args = 10%Z ->
  exists o' h, nt_train root3 svals X4 (mkW [7%nat] true) (mkObj (Some (args, 7%nat)) pub0) (Ad, G4) 5 = (o', Ok h).
Proof.
  destruct spectral_exists as (svals & HS). exists svals. destruct nt4_nonneg as [N1 N2]. split; [exact HS|]. split; [exact X4_wf|]. split; [exact A4_tucker|].
  split; [exact G4_core|]. split; [exact N1|]. split; [exact N2|]. split; [exact nt4_exact|]. split; [exact X4_nonzero|]. intros args Ha.
  apply (nt_train_total root3 svals X4 [1; 1]%nat args 7); try reflexivity; [exact X4_ne|exact r11_ne|cbn; lia|exact A4_tucker|exact G4_core|cbn; intros i [<-|[]]; reflexivity|rewrite Ha; discriminate].
Qed.

Lemma sol_22' pinv (X a b : tensor R) : penrose pinv -> shp X = [2; 2]%nat -> is_mat a 2 1 -> is_mat b 2 1 ->
  let g := mget b 0 0 * mget b 0 0 + mget b 1 0 * mget b 1 0 in 0 < g ->
  mget (als_solution pinv X 1 [a; b] 0) 1 0 = (get X [1; 0]%nat * mget b 0 0 + get X [1; 1]%nat * mget b 1 0) * / g.
Proof.
  intros HP HX Ha Hb g Hg. destruct (matrix_is_mat _ _ _ Hb) as (_ & Eb & _).
  assert (EG : gram_but 1 [a; b] 0 = mgen 1 1 (fun _ _ => g)).
  { unfold gram_but, mgen. apply gen_ext. intros idx Hv. apply valid2_inv in Hv as (i & j & -> & Hi & Hj). assert (i = 0)%nat by lia. assert (j = 0)%nat by lia. subst i j.
    subst g. cbn [others length Nat.eqb map listprod fold_right nth]; unfold mat_at; cbn. rewrite Eb. cbn [bigsum]. Rn. ring. }
  unfold als_solution. rewrite HX. rewrite mget_mgen by (cbn; lia). cbn [bigsum]. rewrite (pinv_1 pinv _ g HP EG Hg).
  unfold mttkrp. rewrite HX. rewrite mget_mgen by (cbn; lia). unfold but, mat_at; cbn; Rn; ring.
Qed.

Lemma ex_cp4 : exists pinv o, penrose pinv /\ wf X4 /\ cp_factors X4 1 Ad /\ cp_step pinv X4 1 Ad = Ok o /\
  (forall n q v, (n < ndims X4)%nat -> (q < 1)%nat -> column_max (als_solution pinv X4 1 (mixed n (cp_A o) Ad) n) q v -> v <> 0) /\
  cp_tensor 1 (mkT [1; 1]%nat [4]) Ad = X4.
Proof.
  destruct penrose_exists as (pinv & HP).
  destruct (cp_step_total pinv X4 1 Ad HP) as (o & E); [reflexivity|exact X4_ne|cbn; lia|apply A4_factors|].
  exists pinv, o. split; [exact HP|]. split; [reflexivity|]. split; [apply A4_factors|]. split; [exact E|]. split.
  - intros n q v Hn Hq. change (ndims X4) with 2%nat in Hn. assert (q = 0)%nat by lia. subst q.
    assert (Hpos : forall M, (0 < nrows M)%nat -> 0 < mget M 0 0 -> column_max M 0 v -> v <> 0).
    { intros M HM H0 [_ H]. specialize (H 0%nat HM). lra. }
    destruct (c45_step pinv X4 1 Ad o HP A4_factors E) as (HF & HN & _).
    assert (ma : is_mat (mkT [2; 1]%nat [1; 1]) 2 1) by (split; reflexivity).
    assert (E0 : mget (als_solution pinv X4 1 Ad 0) 0 0 = 4).
    { unfold Ad. rewrite (sol_22 pinv X4 _ _ 0 HP eq_refl ltac:(lia) ma ma); unfold mget, get; cbn; lra. }
    assert (E1 : mget (als_solution pinv X4 1 Ad 0) 1 0 = 4).
    { unfold Ad. rewrite (sol_22' pinv X4 _ _ HP eq_refl ma ma); unfold mget, get; cbn; lra. }
    destruct n as [|[|n]]; [| |lia].
    + apply Hpos; [cbn; lia|]. rewrite mixed_0, E0. lra.
    + apply Hpos; [cbn; lia|]. destruct (HN 0%nat ltac:(cbn; lia)) as [_ H0]. destruct (H0 0%nat ltac:(lia)) as (u & HU & HD & _).
      rewrite mixed_0 in HU, HD. pose proof (HD 1%nat ltac:(cbn; lia)) as HD1. specialize (HD 0%nat ltac:(cbn; lia)). rewrite E0 in HD. rewrite E1 in HD1.
      assert (Hu : 4 <= u) by (rewrite <- E0; apply HU; cbn; lia).
      set (a := mat_at (cp_A o) 0) in *. assert (Ma : is_mat a 2 1) by (apply (proj2 HF 0%nat); cbn; lia).
      assert (Em : mixed 1 (cp_A o) Ad = [a; mkT [2; 1]%nat [1; 1]]).
      { unfold a, mat_at. destruct HF as [L _]. destruct (cp_A o) as [|x l]; [discriminate L|]. reflexivity. }
      rewrite Em. assert (Hp : 0 < mget a 0 0). { rewrite HD. apply Rdiv_lt_0_compat; lra. }
      assert (Hp1 : 0 < mget a 1 0). { rewrite HD1. apply Rdiv_lt_0_compat; lra. }
      rewrite (sol_22 pinv X4 a _ 1 HP eq_refl ltac:(lia) Ma ma); cbn [Nat.eqb].
      * unfold get at 1 2. cbn. apply Rmult_lt_0_compat; [lra|]. apply Rinv_0_lt_compat. nra.
      * nra.
  - unfold cp_tensor, gen, X4, mgen, mat_at, mget, get, nrows, bigsum. cbn. Rn. repeat (f_equal; try lra).
Qed.

Definition A4 : list (tensor R) := [mkT [2; 1]%nat [/ sqrt 2; / sqrt 2]; mkT [2; 1]%nat [/ sqrt 2; / sqrt 2]].
Lemma ex_hooi4 : exists svdU o, left_svd svdU /\ factor_state X4 [1; 1]%nat A4 /\
  hooi_step svdU X4 (map Z.of_nat [1; 1]%nat) A4 = Ok o /\ tucker_tensor (project X4 A4) A4 = X4.
Proof.
  destruct left_svd_exists as (svdU & HS). exists svdU. pose proof half as Hh.
  assert (HA : factor_state X4 [1; 1]%nat A4).
  { split; [reflexivity|]. change (ndims X4) with 2%nat.
    assert (Q : is_mat (mkT [2; 1]%nat [/ sqrt 2; / sqrt 2]) 2 1 /\ orthonormal (mkT [2; 1]%nat [/ sqrt 2; / sqrt 2])).
    { split; [split; reflexivity|]. intros i j Hi Hj. cbn in Hi, Hj. assert (i = 0)%nat by lia. assert (j = 0)%nat by lia. subst. cbn. unfold mget, get. cbn. Rn. lra. }
    intros k Hk. destruct k as [|[|k]]; [exact Q|exact Q|lia]. }
  destruct (c54_hooi svdU X4 [1; 1]%nat HS X4_wf X4_ne r11_ne eq_refl ltac:(cbn; lia)) as [_ G].
  destruct (G ltac:(intros n Hn; change (n < 2)%nat in Hn; destruct n as [|[|n]]; cbn; lia) A4 HA) as (o & E & _).
  exists o. split; [exact HS|]. split; [exact HA|]. split; [exact E|].
  unfold tucker_tensor, project, gen, X4, A4, mgen, mat_at, mget, get, nrows, msum, bigsum. cbn. Rn. set (h := / sqrt 2) in *.
  repeat (f_equal; try nra).
Qed.
