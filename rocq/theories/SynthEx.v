(** Cases to which the theorems of PropsSynth.v apply: 2x2x2 data. *)

From Coq Require Import ZArith List Bool Arith Lia Reals Lra Psatz.
From Verif Require Import Num Py Tensor TF TensorFacts TFFacts Sums Ops OpsLemmas Types Loss Fact Train Spec SpecR SpecFacts RSums SpecTucker TuckerLemmas SpecCp SpecBcu SpecTrain AlsFacts AlsLemmas
  SpecProx DataGen DataFacts SvdExists QuasiOpt QuasiEx SpecData DataRecover RankOne.
Import ListNotations.
Local Open Scope R_scope.

Definition rand3 (k : nat) : tensor R := mkT [2; 1]%nat [1/2; 1/4].
Definition randg3 : tensor R := mkT [1; 1; 1]%nat [1/2].
Definition randn3 : tensor R := mkT [2; 2; 2]%nat [1; -1; 0; 2; 0; 0; 1; -3].
Definition rnd3 : list (tensor R) := repeat (mkT [2; 1]%nat [1; 0]) 3.

Lemma draws3 : tucker_draws [2; 2; 2]%nat [1; 1; 1]%nat randg3 rand3 randn3.
Proof. split; [reflexivity|]. split; [reflexivity|]. split; [reflexivity|]. split; [|split; reflexivity]. intros k Hk. apply (three (fun k => is_mat (rand3 k) (nth k [2; 2; 2] 0) (nth k [1; 1; 1] 0))%nat); try (split; reflexivity). exact Hk. Qed.
Lemma draws3_cp : cp_draws [2; 2; 2]%nat 1 rand3 randn3.
Proof. split; [|split; reflexivity]. intros k Hk. apply (three (fun k => is_mat (rand3 k) (nth k [2; 2; 2] 0) 1)%nat); try (split; reflexivity). exact Hk. Qed.
Lemma ne222 : nonempty [2; 2; 2]%nat. Proof. repeat constructor; discriminate. Qed.

Lemma ex79 : exists svdU, left_svd svdU /\ nonempty [2; 2; 2]%nat /\ nonempty [1; 1; 1]%nat /\
  tucker_draws [2; 2; 2]%nat [1; 1; 1]%nat randg3 rand3 randn3 /\ cp_draws [2; 2; 2]%nat 1 rand3 randn3 /\ noise_energy (1/10) randn3 = 6/100 /\ noise_energy 0 randn3 = 0 /\
  forall mn, (exists X, synthetic_data_tucker [2; 2; 2]%nat randg3 rand3 randn3 mn = Ok X /\
    (exists o' h, hosvd_train svdU X (mkW [7%nat] true) (mkObj (Some (map Z.of_nat [1; 1; 1]%nat, 7%nat)) pub0) tt 5 = (o', Ok h)) /\
    (exists o' h, hooi_train svdU X (mkW [7%nat] true)
       (mkObj (Some ((mkArgs (1/10) 1%Z false, map Z.of_nat [1; 1; 1]%nat), 7%nat)) pub0) tt 5 = (o', Ok h))) /\
  (exists X, synthetic_data_cp (fun _ x => x) [2; 2; 2]%nat rand3 randn3 mn = Ok X /\
    (exists o' h, hosvd_train svdU X (mkW [7%nat] true) (mkObj (Some (map Z.of_nat [1; 1; 1]%nat, 7%nat)) pub0) tt 5 = (o', Ok h)) /\
    (exists o' h, hooi_train svdU X (mkW [7%nat] true)
       (mkObj (Some ((mkArgs (1/10) 1%Z false, map Z.of_nat [1; 1; 1]%nat), 7%nat)) pub0) tt 5 = (o', Ok h))).
Proof.
  destruct left_svd_exists as (svdU & HS). exists svdU. split; [exact HS|]. split; [apply ne222|]. split; [apply r111_ne|]. split; [apply draws3|]. split; [apply draws3_cp|].
  split.
  { unfold noise_energy, randn3, get. cbn. unfold Rsqr. Rn. rewrite !(Rmax_right 0 (1 / 10 * 1)), (Rmax_right 0 (1 / 10 * 2)), (Rmax_left 0 (1 / 10 * -1)), !(Rmax_left 0 (1 / 10 * 0)), (Rmax_left 0 (1 / 10 * -3)) by lra. lra. }
  split; [apply noise_energy_0|]. intros mn. split.
  - destruct (c65_tucker [2; 2; 2]%nat [1; 1; 1]%nat randg3 rand3 randn3 mn) as (X & E & Hs & _); try reflexivity; [discriminate|cbn; lia|apply draws3|].
    exists X. split; [exact E|]. apply train3; auto. rewrite (tucker_data [2; 2; 2]%nat [1; 1; 1]%nat randg3 rand3 randn3 mn X); [apply wf_gen|discriminate|cbn; lia|apply draws3|exact E].
  - destruct (c65_cp (fun _ x => x) (fun x Hx => Hx) [2; 2; 2]%nat 1%nat rand3 randn3 mn) as (X & E & Hs & _); try reflexivity; [discriminate|cbn; lia|apply draws3_cp|].
    exists X. split; [exact E|]. apply train3; auto. rewrite (cp_data (fun _ x => x) [2; 2; 2]%nat 1 rand3 randn3 mn X); [apply wf_gen|discriminate|apply draws3_cp|exact E].
Qed.

(** the rank-one tensor (2, 1) x (2, 1) x (2, 1) from the first unit vectors *)
Definition B80 : list (tensor R) := repeat (mkT [2; 1]%nat [2; 1]) 3.
Definition X80 : tensor R := cp_tensor 1 (ones 1) B80.
Lemma B80_factors : cp_factors X80 1 B80. Proof. split; [reflexivity|]. apply three; split; reflexivity. Qed.
Lemma rnd3_factors : cp_factors X80 1 rnd3. Proof. split; [reflexivity|]. apply three; split; reflexivity. Qed.

Lemma ex80 : exists pinv o, penrose pinv /\ cp_factors X80 1 rnd3 /\ cp_factors X80 1 B80 /\ X80 = cp_tensor 1 (ones 1) B80 /\
  (forall k, (k < ndims X80)%nat -> column_max (mat_at B80 k) 0 2 /\ 0 < 2) /\
  (forall k, (0 < k < ndims X80)%nat -> 0 < bigsum (nth k (shp X80) 0%nat) (fun i => mget (mat_at B80 k) i 0 * mget (mat_at rnd3 k) i 0)) /\
  cp_step pinv X80 1 rnd3 = Ok o /\
  (forall n v, (n < ndims X80)%nat -> column_max (als_solution pinv X80 1 (mixed n (cp_A o) rnd3) n) 0 v -> v <> 0) /\
  exists o' h, cp_train pinv X80 (mkW [7%nat] true) (mkObj (Some ((mkArgs (1/10) 1%Z false, 1%nat), 7%nat)) pub0) rnd3 5 = (o', Ok h).
Proof.
  destruct penrose_exists as (pinv & HP). assert (Hne : nonempty (shp X80)) by apply ne222.
  destruct (cp_step_total pinv X80 1 rnd3 HP (wf_gen _ _) Hne ltac:(cbn; lia) rnd3_factors) as (o & E).
  assert (Hmx : forall k, (k < ndims X80)%nat -> column_max (mat_at B80 k) 0 2 /\ 0 < 2).
  { assert (Q : column_max (mkT [2; 1]%nat [2; 1]) 0 2).
    { split; [exists 0%nat; split; [cbn; lia|reflexivity]|]. intros i Hi. cbn in Hi. destruct i as [|[|i]]; [| |lia]; unfold mget, get; cbn; lra. }
    apply three; (split; [exact Q|lra]). }
  assert (Hov : forall k, (0 < k < ndims X80)%nat -> 0 < bigsum (nth k (shp X80) 0%nat) (fun i => mget (mat_at B80 k) i 0 * mget (mat_at rnd3 k) i 0)).
  { intros k Hk. apply (three (fun k => 0 < bigsum (nth k (shp X80) 0%nat) (fun i => mget (mat_at B80 k) i 0 * mget (mat_at rnd3 k) i 0))); [| | |apply Hk]; cbn; unfold mget, get; cbn; Rn; lra. }
  exists pinv, o. split; [exact HP|]. split; [apply rnd3_factors|]. split; [apply B80_factors|]. split; [reflexivity|]. split; [exact Hmx|]. split; [exact Hov|]. split; [exact E|]. split.
  - intros n v Hn Hv. pose proof (one_cmax pinv X80 B80 HP B80_factors eq_refl rnd3 o rnd3_factors E (fun _ => 2) Hmx Hov n Hn) as C.
    pose proof (one_scale pinv X80 B80 HP B80_factors eq_refl rnd3 o rnd3_factors E (fun _ => 2) Hmx Hov n Hn) as Sc.
    pose proof (cmax_ok _ 0 (sol_pos pinv X80 1 rnd3 o rnd3_factors E n Hn)) as [(i & Hi & Ei) H1]. destruct Hv as [(j & Hj & Ej) H2].
    specialize (H2 i Hi). rewrite Ei, C in H2. apply Rgt_not_eq. nra.
  - eapply cp_train_total; [exact HP|apply wf_gen|exact Hne|cbn; lia|reflexivity|apply rnd3_factors|reflexivity| |lia|discriminate]. intros i [<-|[]]. reflexivity.
Qed.

Lemma ex80_synthetic : exists pinv X, penrose pinv /\ cp_draws [2; 2; 2]%nat 1 rand3 randn3 /\ synthetic_data_cp (fun _ x => x) [2; 2; 2]%nat rand3 randn3 0 = Ok X /\ cp_factors X 1 rnd3 /\
  (let D := map (tf_map (fun x => x)) (drawn 3 rand3) in
   (forall k, (k < 3)%nat -> exists i, (i < nth k [2; 2; 2]%nat 0)%nat /\ 0 < mget (mat_at D k) i 0) /\
   (forall k, (0 < k < 3)%nat -> 0 < bigsum (nth k [2; 2; 2]%nat 0%nat) (fun i => mget (mat_at D k) i 0 * mget (mat_at rnd3 k) i 0))) /\
  exists o' h, cp_train pinv X (mkW [7%nat] true) (mkObj (Some ((mkArgs (1/10) 1%Z false, 1%nat), 7%nat)) pub0) rnd3 5 = (o', Ok h).
Proof.
  destruct penrose_exists as (pinv & HP). destruct (c65_cp (fun _ x => x) (fun x Hx => Hx) [2; 2; 2]%nat 1%nat rand3 randn3 0) as (X & E & Hs & _); try reflexivity; [discriminate|cbn; lia|apply draws3_cp|].
  exists pinv, X. split; [exact HP|]. split; [apply draws3_cp|]. split; [exact E|].
  assert (HF : cp_factors X 1 rnd3). { unfold cp_factors, ndims. rewrite Hs. split; [reflexivity|]. apply three; split; reflexivity. }
  split; [exact HF|]. cbv zeta. split.
  - split.
    + apply three; exists 0%nat; (split; [cbn; lia|]); unfold mget, get; cbn; rewrite Rmax_right by lra; lra.
    + intros k Hk. apply (three (fun k => 0 < bigsum (nth k [2; 2; 2]%nat 0%nat) (fun i => mget (mat_at (map (tf_map (fun x => x)) (drawn 3 rand3)) k) i 0 * mget (mat_at rnd3 k) i 0))); [| | |apply Hk]; unfold mget, get; cbn; Rn; rewrite !Rmax_right by lra; lra.
  - eapply cp_train_total; [exact HP| |rewrite Hs; apply ne222|unfold ndims; rewrite Hs; cbn; lia|reflexivity|exact HF|reflexivity| |lia|discriminate].
    + rewrite (cp_data (fun _ x => x) [2; 2; 2]%nat 1 rand3 randn3 0 X); [apply wf_gen|discriminate|apply draws3_cp|exact E].
    + intros i [<-|[]]. reflexivity.
Qed.
