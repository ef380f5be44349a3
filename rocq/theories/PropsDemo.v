(** C113: what the demo scripts hold at their end *)

From Coq Require Import ZArith List Bool Arith Lia Reals.
From Verif Require Import Num Py Tensor TensorFacts TF Types Fact Train Spec SpecR SpecCp SpecProx SpecTucker DataGen SpecData Process Experiment SpecExp AlsLemmas Exact SvdExists ExpWit Demo DemoRun.
Import ListNotations.
Local Open Scope R_scope.

(** cp_demo: three 20 x 10 factors and ten weights; if no weight is zero, no other factor of the
    last mode comes closer to the data *)
Theorem C113_cp : forall rand randn, generator rand randn -> forall cast pinv A X,
  (forall x, 0 <= x -> 0 <= cast F32 x) -> penrose pinv ->
  X = with_noise [20; 20; 20]%nat (cp_model cast rand 20 20 20 10) (1 / 10) (randn [20; 20; 20]%nat) -> cp_factors X 10 A ->
  exists B lam, cp_demo cast pinv rand randn A = Ok (Some B, Some lam) /\
    cp_factors X 10 B /\ shp lam = [10]%nat /\
    ((forall q, (q < 10)%nat -> get lam [q] <> 0) -> forall C, is_mat C 20 10 ->
       sqdist X (cp_tensor 10 (mgen 10 1 (fun q _ => get lam [q])) B) <= sqdist X (cp_tensor 10 (ones 10) (replace 2 C B))).
Proof. exact (fun rand randn HG cast pinv A X HC HP EX HA => c113_cp 20 ne20 rand randn HG cast pinv 10 (1 / 10) (mkArgs (1 / 10000) 5 false) A 100 X HC HP eq_refl ltac:(discriminate) EX HA). Qed.
Print Assumptions C113_cp.

(** ncp_demo: three non-negative 20 x 10 factors and a row of ten ones *)
Theorem C113_ncp : forall rand randn, generator rand randn -> forall cast pow svals A X,
  (forall x, 0 <= x -> 0 <= cast F32 x) ->
  X = with_noise [20; 20; 20]%nat (cp_model cast rand 20 20 20 10) (1 / 10) (randn [20; 20; 20]%nat) -> cp_factors X 10 A ->
  exists B lam, ncp_demo cast pow svals rand randn A = Ok (Some B, Some lam) /\
    cp_factors X 10 B /\ (forall M, In M B -> nonneg M) /\ lam = mgen 1 10 (fun _ _ => 1).
Proof. exact (fun rand randn HG cast pow svals A X HC EX HA => c113_ncp 20 ne20 rand randn HG cast pow svals 10 (1 / 10) (mkArgs (1 / 10000) 10 false) A 1000 X HC eq_refl ltac:(discriminate) EX HA). Qed.
Print Assumptions C113_ncp.

(** tucker_demo: orthonormal 20 x 10 factors, their best core, and an error of at most three times
    the energy of the noise *)
Theorem C113_tucker : forall rand randn, generator rand randn -> forall svdU X, left_svd svdU ->
  X = with_noise [20; 20; 20]%nat (tucker_model rand 20 20 20 10) (4 / 100) (randn [20; 20; 20]%nat) ->
  exists B, tucker_demo svdU rand randn = Ok (Some B, Some (project X B)) /\
    factor_state X [10; 10; 10]%nat B /\
    sqdist X (tucker_tensor (project X B) B) <= 3 * noise_energy (4 / 100) (randn [20; 20; 20]%nat).
Proof. exact (fun rand randn HG svdU X HU EX => c113_tucker 20 ne20 rand randn HG svdU 10 (4 / 100) (mkArgs (1 / 10000) 5 false) 50 X HU ltac:(lia) ltac:(lia) eq_refl ltac:(discriminate) EX). Qed.
Print Assumptions C113_tucker.

(** ntucker_demo: non-negative 20 x 10 factors and a non-negative 10 x 10 x 10 core *)
Theorem C113_ntucker : forall rand randn, generator rand randn -> forall pow svals A g X,
  X = with_noise [20; 20; 20]%nat (tucker_model rand 20 20 20 10) (4 / 100) (randn [20; 20; 20]%nat) ->
  tucker_factors X [10; 10; 10]%nat A -> core_like [10; 10; 10]%nat g ->
  exists B core, ntucker_demo pow svals rand randn A g = Ok (Some B, Some core) /\
    tucker_factors X [10; 10; 10]%nat B /\ (forall M, In M B -> nonneg M) /\ core_like [10; 10; 10]%nat core /\ nonneg core.
Proof. exact (fun rand randn HG pow svals A g X EX HA Hg => c113_ntucker 20 ne20 rand randn HG pow svals 10 (4 / 100) (mkArgs (1 / 10000) 10 false) A g 2000 X ltac:(lia) eq_refl ltac:(discriminate) EX HA Hg). Qed.
Print Assumptions C113_ntucker.

(** draws, routines and a starting point to which all four apply *)
Example ex_C113 : generator rand1 randn1 /\ (exists svdU, left_svd svdU) /\ (exists pinv, penrose pinv) /\
  core_like [10; 10; 10]%nat (gen [10; 10; 10]%nat (fun _ => 1)) /\
  forall X, shp X = [20; 20; 20]%nat ->
    let A := [mgen 20 10 (fun i q => INR (i + q)); mgen 20 10 (fun i q => INR (i * q)); mgen 20 10 (fun _ _ => 1)] in
    cp_factors X 10 A /\ tucker_factors X [10; 10; 10]%nat A.
Proof.
  split; [exact gen1|]. split; [exact left_svd_exists|]. split; [exact penrose_exists|].
  split; [split; [apply wf_gen|reflexivity]|].
  intros X Es A. unfold cp_factors, tucker_factors, ndims. rewrite Es. cbn [length]. split; [split; [reflexivity|]|split; [reflexivity|split; [reflexivity|]]].
  all: intros k Hk; assert (k = 0 \/ k = 1 \/ k = 2)%nat as [->|[->| ->]] by lia; (split; [apply wf_gen|reflexivity]).
Qed.
