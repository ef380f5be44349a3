(** Cases to which the theorems of PropsLim.v apply. *)

From Coq Require Import ZArith List Bool Arith Lia Reals Lra Psatz.
From Verif Require Import Num Py Tensor TF TensorFacts TFFacts Sums Ops OpsLemmas Types Loss Fact Train Spec SpecR LayoutFacts SpecFacts MulFacts TtmFacts SkipFacts TtmLemmas Matricize
  KronFacts RSums MatR KronAlg NormFacts SpecTucker MultiR SvdFacts TuckerFacts TuckerRun TuckerLemmas SpecCp SpecBcu BcuFacts SpecTrain TrainLemmas CpFacts AlsFacts AlsLemmas
  SpecProx Prox NcpFacts NcpLemmas NtFacts NtLemmas SvdExists QuasiOpt SpecFix FixFacts FixEx LimFacts LimLemmas.
Import ListNotations.
Local Open Scope R_scope.

(** diag(2, 1) of rank 1: the columns (1, a) and (1, b) *)
Definition V (a b : R) : list (tensor R) := [mkT [2; 1]%nat [1; a]; mkT [2; 1]%nat [1; b]].
Definition col (a b : R) : tensor R := mkT [2; 1]%nat [a; b].

Lemma V_factors a b : cp_factors Xd 1 (V a b).
Proof. split; [reflexivity|]. apply two; split; reflexivity. Qed.

Lemma pinv1 pinv s : penrose pinv -> 0 < s -> mget (pinv (mkT [1; 1]%nat [s])) 0 0 = / s.
Proof.
  intros HP Hs. destruct (HP (mkT [1; 1]%nat [s])) as (_ & H & _); [split; reflexivity|].
  specialize (H 0%nat 0%nat ltac:(cbn; lia) ltac:(cbn; lia)).
  assert (E : mget (mkT [1; 1]%nat [s]) 0 0 = s) by reflexivity.
  change (ncols (mkT [1; 1]%nat [s])) with 1%nat in H. change (nrows (mkT [1; 1]%nat [s])) with 1%nat in H. cbn [bigsum] in H. rewrite E in H. revert H. Rn.
  set (p := mget _ 0 0). intros H. apply (Rmult_eq_reg_l (s * s)); [|nra]. replace (s * s * / s) with s by (field; lra). lra.
Qed.

Lemma sol_V pinv a b : penrose pinv ->
  als_solution pinv Xd 1 (V a b) 0 = col (2 / (1 + b * b)) (b / (1 + b * b)) /\
  als_solution pinv Xd 1 (V a b) 1 = col (2 / (1 + a * a)) (a / (1 + a * a)).
Proof.
  intros HP.
  assert (G0 : gram_but 1 (V a b) 0 = mkT [1; 1]%nat [1 + b * b]) by (unfold gram_but, mgen, gen, mget, get, mat_at, V; cbn; Rn; f_equal; f_equal; lra).
  assert (G1 : gram_but 1 (V a b) 1 = mkT [1; 1]%nat [1 + a * a]) by (unfold gram_but, mgen, gen, mget, get, mat_at, V; cbn; Rn; f_equal; f_equal; lra).
  assert (M0 : mttkrp Xd 1 (V a b) 0 = col 2 b) by (unfold mttkrp, but, mgen, gen, mget, get, mat_at, V, msum, bigsum, col; cbn; Rn; f_equal; repeat f_equal; lra).
  assert (M1 : mttkrp Xd 1 (V a b) 1 = col 2 a) by (unfold mttkrp, but, mgen, gen, mget, get, mat_at, V, msum, bigsum, col; cbn; Rn; f_equal; repeat f_equal; lra).
  unfold als_solution. rewrite G0, G1, M0, M1.
  pose proof (pinv1 pinv (1 + b * b) HP ltac:(nra)) as P0. pose proof (pinv1 pinv (1 + a * a) HP ltac:(nra)) as P1.
  split; unfold mgen, gen, col; cbn [map seq indices flat_map app nth shp Xd nrows bigsum]; rewrite ?P0, ?P1; unfold mget, get; cbn; Rn; f_equal; (f_equal; [unfold Rdiv; ring|f_equal; unfold Rdiv; ring]).
Qed.

Lemma cmax_col a b : b <= a -> cmax (col a b) 0 = a.
Proof.
  intros H. apply (column_max_unique (col a b) 0); [apply cmax_ok; discriminate|].
  split; [exists 0%nat; split; [cbn; lia|reflexivity]|]. apply two; unfold mget, get; cbn; lra.
Qed.
Lemma normed_col a b : b <= a -> 0 < a -> normed 1 (col a b) = col 1 (b / a).
Proof.
  intros H Ha. unfold normed, mgen, gen. cbn [nrows col shp indices map seq flat_map app nth]. rewrite cmax_col by auto. unfold col, mget, get. cbn. f_equal. f_equal. field. lra.
Qed.

(** one step from (1, b): the columns (1, b/2) and (1, b/4), the weight 2 / (1 + (b/2)^2) *)
Lemma V_step pinv a b o : penrose pinv -> 0 <= b <= 1 -> cp_step pinv Xd 1 (V a b) = Ok o ->
  cp_A o = V (b / 2) (b / 4) /\ get (cp_lam o) [0%nat] = 2 / (1 + b / 2 * (b / 2)) /\
  forall n q v, (n < ndims Xd)%nat -> (q < 1)%nat -> column_max (als_solution pinv Xd 1 (mixed n (cp_A o) (V a b)) n) q v -> 0 < v.
Proof.
  intros HP Hb E. destruct (step_sweep pinv Xd 1 (V a b) o HP (V_factors a b) E) as (_ & _ & HA & HF & HL & _). change (ndims Xd - 1)%nat with 1%nat in HL. cbv beta in HL.
  pose proof (HF 0%nat ltac:(cbn; lia)) as F0. pose proof (HF 1%nat ltac:(cbn; lia)) as F1. cbv beta in F0, F1.
  assert (D1 : 0 < 1 + b * b) by nra. assert (D2 : 0 < 1 + b / 2 * (b / 2)) by nra.
  assert (Q1 : b / (1 + b * b) <= 2 / (1 + b * b)) by (unfold Rdiv; apply Rmult_le_compat_r; [left; apply Rinv_0_lt_compat; auto|lra]).
  assert (Q2 : b / 2 / (1 + b / 2 * (b / 2)) <= 2 / (1 + b / 2 * (b / 2))) by (unfold Rdiv at 1 4; apply Rmult_le_compat_r; [left; apply Rinv_0_lt_compat; auto|lra]).
  assert (Q3 : 0 < 2 / (1 + b * b)) by (apply Rdiv_lt_0_compat; lra). assert (Q4 : 0 < 2 / (1 + b / 2 * (b / 2))) by (apply Rdiv_lt_0_compat; lra).
  rewrite mixed_0 in F0. rewrite (proj1 (sol_V pinv a b HP)), normed_col in F0 by auto.
  replace (b / (1 + b * b) / (2 / (1 + b * b))) with (b / 2) in F0 by (field; lra).
  assert (EM : mixed 1 (cp_A o) (V a b) = V (b / 2) b).
  { destruct o as [Ao lo fo mo]. cbn [cp_A] in *. destruct HA as [LA _]. destruct Ao as [|A1 [|A2 [|]]]; try discriminate LA. cbn in F0. subst A1. reflexivity. }
  rewrite EM in F1, HL. rewrite (proj2 (sol_V pinv (b / 2) b HP)) in F1, HL. rewrite normed_col in F1 by auto.
  replace (b / 2 / (1 + b / 2 * (b / 2)) / (2 / (1 + b / 2 * (b / 2)))) with (b / 4) in F1 by (field; lra).
  split; [|split].
  - destruct o as [Ao lo fo mo]. cbn [cp_A] in *. destruct HA as [LA _]. destruct Ao as [|A1 [|A2 [|]]]; try discriminate LA. cbn in F0, F1. subst. reflexivity.
  - rewrite HL. etransitivity; [|apply cmax_col; exact Q2]. reflexivity.
  - intros n q v Hn Hq. assert (q = 0)%nat by lia. subst q. assert (Hn2 : n = 0%nat \/ n = 1%nat) by (cbn in Hn; lia). destruct Hn2 as [-> | -> ].
    + rewrite mixed_0. rewrite (proj1 (sol_V pinv a b HP)). intros HM. pose proof (proj2 HM 0%nat ltac:(cbn; lia)) as Hle. unfold mget, get, col in Hle. cbn in Hle. lra.
    + rewrite EM. rewrite (proj2 (sol_V pinv (b / 2) b HP)). intros HM. pose proof (proj2 HM 0%nat ltac:(cbn; lia)) as Hle. unfold mget, get, col in Hle. cbn in Hle. lra.
Qed.

(** b / 4^k *)
Definition b4 (k : nat) : R := / 4 ^ k.
Lemma b4_bounds k : 0 <= b4 k <= 1.
Proof. unfold b4. assert (1 <= 4 ^ k) by (apply pow_R1_Rle; lra). split; [left; apply Rinv_0_lt_compat; lra|]. rewrite <- Rinv_1. apply Rinv_le_contravar; lra. Qed.
Lemma b4_cv : Un_cv b4 0.
Proof.
  apply cv_ext with (f := fun k => (/ 4) ^ k); [intros k; unfold b4; symmetry; rewrite pow_inv; reflexivity|].
  intros eps He. destruct (pow_lt_1_zero (/ 4) ltac:(rewrite Rabs_right; lra) eps He) as (K & HK). exists K. intros k Hk. unfold R_dist. rewrite Rminus_0_r. apply HK, Hk.
Qed.

Lemma ex92_cp : exists pinv out, penrose pinv /\ wf Xd /\ cp_factors Xd 1 (V 1 1) /\ cp_iterates pinv Xd 1 (V 1 1) out /\
  (forall k n q v, (n < ndims Xd)%nat -> (q < 1)%nat ->
     column_max (als_solution pinv Xd 1 (mixed n (cp_A (out k)) (cp_start (V 1 1) out k)) n) q v -> 0 < v) /\
  subsequence (fun j => j) /\ cp_factors Xd 1 E1 /\ factors_cv (fun j => cp_A (out j)) E1 /\
  (forall q, (q < 1)%nat -> Un_cv (fun j => get (cp_lam (out j)) [q]) (mget w2 q 0)) /\
  (forall q, (q < 1)%nat -> 0 < mget w2 q 0) /\ (forall n, (n < ndims Xd)%nat -> invertible 1 (gram_but 1 E1 n)) /\
  (forall k, cp_A (out k) <> cp_A (out (S k))) /\ sqdist Xd (cp_tensor 1 w2 E1) = 1.
Proof.
  destruct penrose_exists as (pinv & HP). destruct (cp_run_exists pinv Xd 1 (V 1 1) HP eq_refl Xd_ne ltac:(cbn; lia) (V_factors 1 1)) as (out & Hr).
  exists pinv, out.
  assert (HS : forall k, cp_A (out k) = V (b4 k / 2) (b4 k / 4) /\ get (cp_lam (out k)) [0%nat] = 2 / (1 + b4 k / 2 * (b4 k / 2)) /\
     forall n q v, (n < ndims Xd)%nat -> (q < 1)%nat -> column_max (als_solution pinv Xd 1 (mixed n (cp_A (out k)) (cp_start (V 1 1) out k)) n) q v -> 0 < v).
  { induction k as [|k (IH & _)].
    - replace (b4 0) with 1 by (unfold b4; cbn; lra). apply (V_step pinv 1 1 (out 0%nat) HP ltac:(lra) (proj1 Hr)).
    - cbn [cp_start]. replace (b4 (S k)) with (b4 k / 4). 2:{ unfold b4. cbn [pow]. assert (0 < 4 ^ k) by (apply pow_lt; lra). field. lra. }
      pose proof (b4_bounds k). rewrite IH. apply (V_step pinv (b4 k / 2) (b4 k / 4) (out (S k)) HP ltac:(lra)). rewrite <- IH. apply (proj2 Hr k). }
  split; [exact HP|]. split; [reflexivity|]. split; [apply V_factors|]. split; [exact Hr|]. split; [intros k; apply (HS k)|].
  split; [intros j k H; exact H|]. split; [apply E1_factors|].
  assert (CD : forall c, Un_cv (fun k => b4 k * c) 0). { intros c. apply cv_ext_l with (0 * c); [ring|]. apply (CV_mult b4 (fun _ => c)); [apply b4_cv|apply cv_const]. }
  split.
  { intros n i q Hn Hi Hq. change (length E1) with 2%nat in Hn.
    assert (Hn2 : n = 0%nat \/ n = 1%nat) by lia. destruct Hn2 as [-> | -> ]; cbn in Hi, Hq; assert (q = 0)%nat by lia; subst q;
      (assert (Hi2 : i = 0%nat \/ i = 1%nat) by lia); destruct Hi2 as [-> | -> ];
      (eapply cv_ext; [intros k; symmetry; rewrite (proj1 (HS k)); unfold mget, get, mat_at; cbn; reflexivity|]); try apply cv_const; apply CD. }
  split.
  { intros q Hq. assert (q = 0)%nat by lia. subst q. eapply cv_ext; [intros k; symmetry; apply (HS k)|]. change (mget w2 0 0) with 2.
    apply cv_ext_l with (2 / (1 + 0 * 0)); [field|]. apply (cv_div (fun _ => 2) (fun k => 1 + b4 k / 2 * (b4 k / 2))); [lra|apply cv_const|].
    apply (CV_plus (fun _ => 1) (fun k => b4 k / 2 * (b4 k / 2))); [apply cv_const|]. apply (CV_mult (fun k => b4 k / 2) (fun k => b4 k / 2)); apply CD. }
  split; [apply E1_pos|]. split; [apply E1_inv|]. split.
  - intros k. rewrite (proj1 (HS k)), (proj1 (HS (S k))). intros Q. injection Q as Q _. revert Q. unfold b4. cbn [pow]. assert (0 < 4 ^ k) by (apply pow_lt; lra).
    rewrite Rinv_mult by lra. assert (0 < / 4 ^ k) by (apply Rinv_0_lt_compat; auto). lra.
  - unfold sqdist, Xd, E1, cp_tensor, mat_at, mgen, gen, msum, bigsum, w2. cbn. unfold mget, get, Rsqr. cbn. lra.
Qed.

Lemma ex92_hooi : exists svdU out, left_svd svdU /\ wf Xd /\ nonempty (shp Xd) /\ factor_state Xd [1; 1]%nat E2 /\ hooi_iterates svdU Xd [1; 1]%nat E2 out /\
  subsequence (fun j => j) /\ tucker_factors Xd [1; 1]%nat E2 /\ factors_cv (fun j => ho_A (out j)) E2.
Proof.
  destruct ex91_hooi as (s & o & HS & HX & HE & Ho & HA & _). exists s, (fun _ => o). split; [exact HS|]. split; [exact HX|]. split; [apply Xd_ne|]. split; [exact HE|].
  split; [split; [exact Ho|]; intros _; rewrite HA; exact Ho|]. split; [intros j k H; exact H|]. split; [apply (state_tucker Xd _ _ HE eq_refl)|].
  intros n i q _ _ _. cbv beta. rewrite HA. apply cv_const.
Qed.
