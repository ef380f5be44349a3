(** Cases to which the theorems of PropsFix.v apply. *)

From Coq Require Import ZArith List Bool Arith Lia Reals Lra Psatz.
From Verif Require Import Num Py Tensor TF TensorFacts TFFacts Sums Ops OpsLemmas Types Loss Fact Train Spec SpecR LayoutFacts SpecFacts MulFacts TtmFacts SkipFacts TtmLemmas Matricize
  KronFacts RSums MatR KronAlg NormFacts SpecTucker MultiR SvdFacts TuckerFacts TuckerRun TuckerLemmas SpecCp SpecBcu BcuFacts SpecTrain TrainLemmas CpFacts AlsFacts AlsLemmas
  SpecProx Prox NcpFacts NcpLemmas NtFacts NtLemmas SvdExists QuasiOpt SpecFix FixFacts.
Import ListNotations.
Local Open Scope R_scope.

(** diag(2, 1) with both factors the first unit vector, or both the second *)
Definition E1 : list (tensor R) := [mkT [2; 1]%nat [1; 0]; mkT [2; 1]%nat [1; 0]].
Definition u2 : tensor R := mkT [2; 1]%nat [0; 1].
Definition E2 : list (tensor R) := [u2; u2].
Definition w2 : tensor R := mkT [1; 1]%nat [2].

Lemma two (P : nat -> Prop) : P 0%nat -> P 1%nat -> forall n, (n < 2)%nat -> P n.
Proof. intros H0 H1 n Hn. do 2 (destruct n as [|n]; [assumption|]). lia. Qed.
Lemma Xd_ne : nonempty (shp Xd). Proof. repeat constructor; discriminate. Qed.

Lemma E1_factors : cp_factors Xd 1 E1.
Proof. split; [reflexivity|]. apply two; split; reflexivity. Qed.
Lemma E1_max : max_normalised Xd 1 E1.
Proof.
  assert (Q : column_max (mkT [2; 1]%nat [1; 0]) 0 1).
  { split; [exists 0%nat; split; [cbn; lia|reflexivity]|]. apply two; unfold mget, get; cbn; lra. }
  intros n q Hn Hq. assert (q = 0)%nat by lia. subst q. revert n Hn. apply two; exact Q.
Qed.
Lemma E1_pos q : (q < 1)%nat -> 0 < mget w2 q 0.
Proof. intros H. assert (q = 0)%nat by lia. subst q. unfold mget, get. cbn. lra. Qed.
Lemma E1_inv n : (n < ndims Xd)%nat -> invertible 1 (gram_but 1 E1 n).
Proof.
  revert n. apply two; exists (fun _ _ => 1); intros p q Hp Hq; assert (p = 0)%nat by lia; assert (q = 0)%nat by lia; subst;
    unfold gram_but, mgen, mget, get, mat_at; cbn; Rn; lra.
Qed.
Lemma E1_normal n : (n < ndims Xd)%nat -> cp_normal_equations Xd 1 w2 E1 n.
Proof.
  revert n. apply two; intros i q Hi Hq; assert (q = 0)%nat by lia; subst q; revert i Hi; apply two;
    unfold gram_but, mttkrp, but, mgen, mget, get, mat_at, msum, bigsum; cbn; Rn; lra.
Qed.
Lemma ex91_cp : exists pinv o, penrose pinv /\ wf Xd /\ cp_factors Xd 1 E1 /\ cp_step pinv Xd 1 E1 = Ok o /\ cp_A o = E1 /\
  get (cp_lam o) [0%nat] = 2 /\ max_normalised Xd 1 E1 /\ (forall q, (q < 1)%nat -> 0 < mget w2 q 0) /\
  (forall n, (n < ndims Xd)%nat -> invertible 1 (gram_but 1 E1 n) /\ cp_normal_equations Xd 1 w2 E1 n) /\
  (forall n q v, (n < ndims Xd)%nat -> (q < 1)%nat -> column_max (als_solution pinv Xd 1 (mixed n (cp_A o) E1) n) q v -> v <> 0) /\
  sqdist Xd (cp_full o) = 1.
Proof.
  destruct penrose_exists as (pinv & HP). exists pinv.
  destruct (cp_stationary_fixed pinv Xd 1 HP E1 w2 eq_refl Xd_ne ltac:(cbn; lia) E1_factors E1_max E1_pos (fun n H => conj (E1_inv n H) (E1_normal n H))) as (o & E & HA & Hs & Hw).
  exists o. split; [exact HP|]. split; [reflexivity|]. split; [apply E1_factors|]. split; [exact E|]. split; [exact HA|].
  split; [apply (Hw 0%nat); lia|]. split; [apply E1_max|]. split; [apply E1_pos|]. split; [intros n H; exact (conj (E1_inv n H) (E1_normal n H))|].
  split.
  - intros n q v Hn Hq HM. rewrite HA, mixed_same in HM.
    destruct (step_parts pinv Xd 1 E1 o E1_factors E) as (Hne & Ho & mats & EM & _).
    destruct (mode_kept pinv Xd 1 mats HP Xd_ne ltac:(cbn; lia) EM E1 n w2 E1_factors Hn (E1_inv n Hn) (fun q Hq => E1_max n q Hn Hq) E1_pos (E1_normal n Hn)) as [_ K].
    pose proof (E1_pos q Hq) as P. rewrite <- (K q Hq) in P.
    assert (v = cmax (als_solution pinv Xd 1 E1 n) q).
    { apply (column_max_unique (als_solution pinv Xd 1 E1 n) q); [exact HM|]. apply cmax_ok. exact (nonempty_nth _ n Xd_ne Hn). }
    subst v. lra.
  - destruct (c45_step pinv Xd 1 E1 o HP E1_factors E) as (_ & _ & _ & Hf & _). rewrite Hf, HA.
    assert (G : get (cp_lam o) [0%nat] = 2) by (apply (Hw 0%nat); lia).
    unfold sqdist, Xd, E1, cp_tensor, mat_at, mgen, gen, msum, bigsum. cbn [map seq indices flat_map shp dat app]. cbn. rewrite G. unfold mget, get, Rsqr. cbn. lra.
Qed.

(** a left factor that keeps the second unit vector *)
Definition keep_u2 (svdU : tensor R -> tensor R) (M : tensor R) : tensor R :=
  if list_eq_dec Nat.eq_dec (shp M) [2; 1]%nat then if list_eq_dec Req_EM_T (dat M) [0; 1] then u2 else svdU M else svdU M.
Lemma keep_left svdU : left_svd svdU -> left_svd (keep_u2 svdU).
Proof.
  intros HS M HM H1 H2. unfold keep_u2. destruct (list_eq_dec Nat.eq_dec (shp M) [2; 1]%nat) as [Es|]; [|apply HS; auto].
  destruct (list_eq_dec Req_EM_T (dat M) [0; 1]) as [Ed|]; [|apply HS; auto].
  destruct M as [s d]. cbn [shp dat] in Es, Ed. subst. exists (fun _ => 1), (mkT [1; 1]%nat [1]).
  unfold thin_svd. cbn [nrows ncols Nat.min]. change (nrows (mkT [2; 1]%nat [0; 1])) with 2%nat. change (ncols (mkT [2; 1]%nat [0; 1])) with 1%nat. cbn [Nat.min].
  assert (O : forall U, (U = u2 \/ U = mkT [1; 1]%nat [1]) -> orthonormal U).
  { intros U [-> | -> ] i j Hi Hj; cbn in Hi, Hj; assert (i = 0)%nat by lia; assert (j = 0)%nat by lia; subst; unfold mget, get; cbn; Rn; lra. }
  split; [split; reflexivity|]. split; [split; reflexivity|]. split; [apply O; auto|]. split; [apply O; auto|].
  split; [intros; lra|]. split; [intros; lra|]. intros i j Hi Hj. assert (j = 0)%nat by lia. subst j. revert i Hi. apply two; unfold mget, get; cbn; Rn; lra.
Qed.

Lemma E2_state : factor_state Xd [1; 1]%nat E2.
Proof.
  assert (Q : is_mat u2 2 1 /\ orthonormal u2).
  { split; [split; reflexivity|]. intros i j Hi Hj. cbn in Hi, Hj. assert (i = 0)%nat by lia. assert (j = 0)%nat by lia. subst. unfold mget, get. cbn. Rn. lra. }
  split; [reflexivity|]. apply two; exact Q.
Qed.

Lemma ex91_mode svdU n : left_svd svdU -> (n < 2)%nat -> hooi_mode (keep_u2 svdU) Xd (map Z.of_nat [1; 1]%nat) n E2 = Ok E2.
Proof.
  intros HS Hn. destruct (hooi_mode_cases (keep_u2 svdU) Xd [1; 1]%nat (keep_left svdU HS) eq_refl Xd_ne ltac:(repeat constructor; discriminate) eq_refl ltac:(cbn; lia) E2 n E2_state Hn) as (M & HM & E).
  rewrite E. clear E.
  assert (EM : M = mkT [2; 1]%nat [0; 1]).
  { revert HM. destruct n as [|[|n]]; [| |lia]; intros HM; cbn in HM; injection HM as <-; unfold gen; cbn; Rn; f_equal; repeat f_equal; lra. }
  subst M. unfold keep_u2. cbn [shp dat]. destruct (list_eq_dec Nat.eq_dec [2; 1]%nat [2; 1]%nat) as [_|C]; [|exfalso; apply C; reflexivity].
  destruct (list_eq_dec Req_EM_T [0; 1] [0; 1]) as [_|C]; [|exfalso; apply C; reflexivity].
  destruct n as [|[|n]]; [reflexivity|reflexivity|lia].
Qed.

Lemma ex91_hooi : exists svdU o, left_svd svdU /\ wf Xd /\ factor_state Xd [1; 1]%nat E2 /\
  hooi_step svdU Xd (map Z.of_nat [1; 1]%nat) E2 = Ok o /\ ho_A o = E2 /\
  sqdist Xd (ho_full o) = 4 /\ sqdist Xd (tucker_tensor (project Xd E2) E2) = 4.
Proof.
  destruct left_svd_exists as (s & HS). exists (keep_u2 s).
  assert (E : hooi_modes (keep_u2 s) Xd (map Z.of_nat [1; 1]%nat) (seq 0 2) E2 = Ok E2).
  { cbn [seq hooi_modes]. rewrite ex91_mode by (auto; lia). cbn [bind]. rewrite ex91_mode by (auto; lia). reflexivity. }
  destruct (c54_hooi (keep_u2 s) Xd [1; 1]%nat (keep_left s HS) eq_refl Xd_ne ltac:(repeat constructor; discriminate) eq_refl ltac:(cbn; lia)) as [_ G2].
  destruct (G2 ltac:(apply (two (fun n => nth n [1; 1] 0 <= _)%nat); vm_compute; lia) E2 E2_state) as (o & Eo & Ho).
  assert (HA : ho_A o = E2).
  { pose proof Eo as E0. unfold hooi_step in E0. change (ndims Xd) with 2%nat in E0. rewrite E in E0. cbn [bind] in E0.
    apply bind_ok in E0 as (c & _ & E0). apply bind_ok in E0 as (f & _ & E0). apply bind_ok in E0 as (m & _ & E0). injection E0 as <-. reflexivity. }
  exists o. split; [apply keep_left, HS|]. split; [reflexivity|]. split; [apply E2_state|]. split; [exact Eo|]. split; [exact HA|].
  destruct (hooi_facts (keep_u2 s) Xd [1; 1]%nat (keep_left s HS) eq_refl Xd_ne ltac:(repeat constructor; discriminate) eq_refl E2 o E2_state Eo) as (_ & _ & _ & Ef).
  assert (Q : sqdist Xd (tucker_tensor (project Xd E2) E2) = 4).
  { unfold sqdist, tucker_tensor, project, gen, Xd, E2, u2, mgen, mat_at, mget, get, nrows, msum, bigsum. cbn. unfold Rsqr. Rn. lra. }
  rewrite Ef, HA. auto.
Qed.
