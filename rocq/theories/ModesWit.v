(** One step of HOOI depends on the order in which the modes are listed. *)

From Coq Require Import ZArith List Bool Arith Lia Reals Lra Psatz Permutation.
From Verif Require Import Num Py Tensor TF TensorFacts TFFacts Sums Ops OpsLemmas Types Loss Fact Train Spec SpecR LayoutFacts SpecFacts MulFacts TtmFacts SkipFacts TtmLemmas Matricize
  KronFacts RSums MatR KronAlg NormFacts SpecTucker MultiR SvdFacts TuckerFacts TuckerRun TuckerLemmas SpecTrain TrainLemmas AlsLemmas SvdExists QuasiOpt SpecFix FixFacts FixEx
  SpecScale SpecSym SymFacts SymTrain SymBcu SpecGauge GaugeAlg GaugeFacts GaugeRun GaugeEx SpecModes ModesFacts.
Import ListNotations.
Local Open Scope R_scope.

Definition u1 : tensor R := mkT [2; 1]%nat [1; 0].
Definition A12 : list (tensor R) := [u1; u2].
Definition A21 : list (tensor R) := [u2; u1].

Lemma u_ortho u : u = u1 \/ u = u2 -> is_mat u 2 1 /\ orthonormal u.
Proof.
  intros H. split; [destruct H as [-> | -> ]; split; reflexivity|]. intros i j Hi Hj.
  destruct H as [-> | -> ]; cbn in Hi, Hj; assert (i = 0)%nat by lia; assert (j = 0)%nat by lia; subst; unfold mget, get; cbn; Rn; lra.
Qed.
Lemma A12_state : factor_state Xd [1; 1]%nat A12.
Proof. split; [reflexivity|]. apply two; apply u_ortho; auto. Qed.
Lemma A21_state : factor_state Xd [1; 1]%nat A21.
Proof. split; [reflexivity|]. apply two; apply u_ortho; auto. Qed.

Section W.
  Variable svdU : tensor R -> tensor R.
  Hypothesis HS : left_svd svdU.
  Let rk := map Z.of_nat [1; 1]%nat.
  Lemma mode12 : hooi_mode (keep_u2 svdU) Xd rk 0 A12 = Ok E2.
  Proof.
    destruct (hooi_mode_cases (keep_u2 svdU) Xd [1; 1]%nat (keep_left svdU HS) eq_refl Xd_ne ltac:(repeat constructor; discriminate) eq_refl ltac:(cbn; lia) A12 0%nat A12_state ltac:(cbn; lia)) as (M & HM & E).
    fold rk in E. rewrite E. clear E.
    assert (EM : M = mkT [2; 1]%nat [0; 1]).
    { cbn in HM; injection HM as <-; unfold gen; cbn; Rn; f_equal; repeat f_equal; lra. }
    subst M. unfold keep_u2. cbn [shp dat]. destruct (list_eq_dec Nat.eq_dec [2; 1]%nat [2; 1]%nat) as [_|C]; [|exfalso; apply C; reflexivity].
    destruct (list_eq_dec Req_EM_T [0; 1] [0; 1]) as [_|C]; [|exfalso; apply C; reflexivity]. reflexivity.
  Qed.
  Lemma mode21 : exists A, hooi_mode (keep_u2 svdU) Xd rk 0 A21 = Ok A /\ axis A.
  Proof.
    destruct (hooi_mode_cases (keep_u2 svdU) Xd [1; 1]%nat (keep_left svdU HS) eq_refl Xd_ne ltac:(repeat constructor; discriminate) eq_refl ltac:(cbn; lia) A21 0%nat A21_state ltac:(cbn; lia)) as (M & HM & E).
    fold rk in E. rewrite E. clear E.
    assert (EM : M = mkT [2; 1]%nat [2; 0]).
    { cbn in HM; injection HM as <-; unfold gen; cbn; Rn; f_equal; apply (f_equal2 cons); [lra|]; apply (f_equal2 cons); [lra|reflexivity]. }
    destruct (column_gap M (keep_u2 svdU) 2 (keep_left svdU HS) ltac:(lra) EM) as [_ (d & Hd & Hl)].
    eexists. split; [reflexivity|]. cbn [nth]. rewrite Hl. exists d, 1. split; [exact Hd|]. split; [lra|]. reflexivity.
  Qed.
End W.

Lemma step_error svdU A A' o : left_svd svdU -> factor_state Xd [1; 1]%nat A -> hooi_modes svdU Xd (map Z.of_nat [1; 1]%nat) (seq 0 2) A = Ok A' ->
  hooi_step svdU Xd (map Z.of_nat [1; 1]%nat) A = Ok o -> sqdist Xd (ho_full o) = sqdist Xd (tucker_tensor (project Xd A') A').
Proof.
  intros HS HA E Eo.
  assert (EA : ho_A o = A').
  { pose proof Eo as E0. unfold hooi_step in E0. change (ndims Xd) with 2%nat in E0. rewrite E in E0. cbn [bind] in E0.
    apply bind_ok in E0 as (c & _ & E0). apply bind_ok in E0 as (f & _ & E0). apply bind_ok in E0 as (m & _ & E0). injection E0 as <-. reflexivity. }
  destruct (hooi_facts svdU Xd [1; 1]%nat HS eq_refl Xd_ne ltac:(repeat constructor; discriminate) eq_refl A o HA Eo) as (_ & _ & _ & Ef).
  rewrite Ef, EA. reflexivity.
Qed.

Lemma hooi_order : exists svdU (X : tensor R) A o o', left_svd svdU /\ wf X /\ nonempty (shp X) /\ mode_order [1; 0]%nat (ndims X) /\ reordered [1; 0]%nat X X /\
  factor_state X [1; 1]%nat A /\ hooi_step svdU X (map Z.of_nat [1; 1]%nat) A = Ok o /\
  hooi_step svdU X (map Z.of_nat [1; 1]%nat) [mat_at A 1; mat_at A 0] = Ok o' /\ sqdist X (ho_full o) = 4 /\ sqdist X (ho_full o') = 1.
Proof.
  destruct left_svd_exists as (s & HS). pose proof (keep_left s HS) as HK.
  destruct (c54_hooi (keep_u2 s) Xd [1; 1]%nat HK eq_refl Xd_ne ltac:(repeat constructor; discriminate) eq_refl ltac:(cbn; lia)) as [_ G2].
  specialize (G2 ltac:(apply (two (fun n => nth n [1; 1] 0 <= _)%nat); vm_compute; lia)).
  destruct (G2 A12 A12_state) as (o & Eo & _). destruct (G2 A21 A21_state) as (o' & Eo' & _).
  exists (keep_u2 s), Xd, A12, o, o'. split; [exact HK|]. split; [reflexivity|]. split; [exact Xd_ne|]. split; [apply perm_swap|].
  split; [apply transpose_reordered; [apply perm_swap|reflexivity]|]. split; [apply A12_state|]. split; [exact Eo|]. split; [exact Eo'|]. split.
  - rewrite (step_error (keep_u2 s) A12 E2 o HK A12_state); [|cbn [seq hooi_modes]; rewrite mode12 by exact HS; cbn [bind]; rewrite ex91_mode by (auto; lia); reflexivity|exact Eo].
    unfold sqdist, tucker_tensor, project, gen, Xd, E2, u2, mgen, mat_at, mget, get, nrows, msum, bigsum. cbn. unfold Rsqr. Rn. lra.
  - destruct (mode21 s HS) as (B & EB & HB).
    destruct (hooi_mode_cases (keep_u2 s) Xd [1; 1]%nat HK eq_refl Xd_ne ltac:(repeat constructor; discriminate) eq_refl ltac:(cbn; lia) B 1%nat (axis_state B HB) ltac:(cbn; lia)) as (M & _ & E).
    change (Nat.leb (nth 1 [1; 1]%nat 0%nat) (Nat.min (nth 1 (shp Xd) 0%nat) (rest 1 [1; 1]%nat))) with true in E. cbv iota in E.
    pose proof (proj2 (axis_mode (keep_u2 s) HK B 1%nat HB ltac:(lia)) _ E) as HC. set (C := upd B 1 _) in *.
    rewrite (step_error (keep_u2 s) A21 C o' HK A21_state); [|cbn [seq hooi_modes]; rewrite EB; cbn [bind]; rewrite E; reflexivity|exact Eo'].
    destruct HC as (a & b & Ha & Hb & ->).
    unfold sqdist, tucker_tensor, project, gen, Xd, mgen, mat_at, mget, get, nrows, msum, bigsum. cbn. unfold Rsqr. Rn.
    match goal with |- ?l = _ => replace l with ((2 - 2 * (a * a) * (b * b)) * (2 - 2 * (a * a) * (b * b)) + 1) by ring end. rewrite Ha, Hb. lra.
Qed.
