(** Property theorems for data in other units (C96): X against scale c X, every entry times the
    same positive number.  The algorithms are compared over the real numbers, the stopping rule
    in binary32. *)

From Coq Require Import ZArith List Bool Arith Reals Lia Lra.
From Verif Require Import Num Py Tensor Fact Train Spec SpecR SpecTrain SpecTucker SpecBcu SpecCp SpecProx SpecInit SpecScale RSums AlsLemmas NcpLemmas NtLemmas SvdExists TuckerLemmas
  SpectralExists ZeroWit InitEx ScaleFacts ScaleAls ScaleBcu ScaleNt ScaleEx ScaleWit.
Import ListNotations.
Local Open Scope R_scope.

(** C96: one step of CP_ALS from the same factors *)
Theorem C96_cp_step : forall c pinv, 0 < c -> forall X r A,
  cp_step pinv (scale c X) r A =
    rmap (fun o => mkCP (cp_A o) (scale c (cp_lam o)) (scale c (cp_full o)) (scale_metrics c (cp_met o))) (cp_step pinv X r A).
Proof. exact c96_cp_step. Qed.
Print Assumptions C96_cp_step.

(** the decompositions used on the two inputs have the same left singular vectors *)
Theorem C96_hosvd : forall c svdU svdU', 0 < c -> (forall M, svdU' (scale c M) = svdU M) -> forall X ranks,
  hosvd svdU' (scale c X) ranks = rmap (fun o => mkTu (tu_A o) (scale c (tu_core o)) (scale c (tu_full o)) (c * tu_loss o)) (hosvd svdU X ranks).
Proof. exact c96_hosvd. Qed.
Print Assumptions C96_hosvd.

Theorem C96_hooi_step : forall c svdU svdU', 0 < c -> (forall M, svdU' (scale c M) = svdU M) -> forall X ranks A,
  hooi_step svdU' (scale c X) ranks A =
    rmap (fun o => mkHO (ho_A o) (scale c (ho_core o)) (scale c (ho_full o)) (scale_metrics c (ho_met o))) (hooi_step svdU X ranks A).
Proof. exact c96_hooi_step. Qed.
Print Assumptions C96_hooi_step.

(** such a pair exists for every singular value decomposition *)
Theorem C96_same_vectors : forall c svdU, 0 < c -> left_svd svdU -> exists svdU', left_svd svdU' /\ forall M, svdU' (scale c M) = svdU M.
Proof. exact left_svd_scale. Qed.
Print Assumptions C96_same_vectors.

(** Training.  The full property, that train on scale c X makes the steps train on X makes, is
    refuted below: the stopping rule counts in absolute units.  What holds: the steps both runs
    make agree, and so does what they publish if they make equally many. *)
Theorem C96_cp_train_partial : forall c pinv X w (o : fobj R (targs R * nat)) rnd steps o1 h1 o2 h2, 0 < c ->
  cp_train pinv X w o rnd steps = (o1, Ok h1) -> cp_train pinv (scale c X) w o rnd steps = (o2, Ok h2) ->
  same_run c h1 h2 /\ (length h1 = length h2 -> o_pub o2 = scale_pub 1 c c (o_pub o1)).
Proof. exact c96_cp_train. Qed.
Print Assumptions C96_cp_train_partial.

Theorem C96_hooi_train_partial : forall c svdU svdU' X w (o : fobj R (targs R * list Z)) rnd steps o1 h1 o2 h2, 0 < c ->
  (forall M, svdU' (scale c M) = svdU M) ->
  hooi_train svdU X w o rnd steps = (o1, Ok h1) -> hooi_train svdU' (scale c X) w o rnd steps = (o2, Ok h2) ->
  same_run c h1 h2 /\ (length h1 = length h2 -> o_pub o2 = scale_pub 1 c c (o_pub o1)).
Proof. exact c96_hooi_train. Qed.
Print Assumptions C96_hooi_train_partial.

(** NCP takes an N-th root of c into each of its N factors *)
Theorem C96_ncp_train_partial : forall pow svals (X : tensor R) r rnd c, roots pow -> spectral svals -> nonempty (shp X) ->
  (2 <= ndims X <= 25)%nat -> (0 < r)%nat -> cp_factors X r rnd -> 0 < c ->
  forall w (o : fobj R (targs R * nat)) steps o1 h1 o2 h2,
  ncp_train pow svals X w o rnd steps = (o1, Ok h1) -> ncp_train pow svals (scale c X) w o rnd steps = (o2, Ok h2) ->
  same_run c h1 h2 /\ (length h1 = length h2 -> o_pub o2 = scale_pub (pow c (1 / INR (ndims X))) 1 c (o_pub o1)).
Proof. exact c96_ncp_train. Qed.
Print Assumptions C96_ncp_train_partial.

(** NTucker takes an (N+1)-th root of c into the core and each factor *)
Theorem C96_nt_train_partial : forall pow svals (X : tensor R) ranks rnd c, roots pow -> spectral svals -> wf X -> nonempty (shp X) ->
  (2 <= ndims X <= 13)%nat -> nonempty ranks -> tucker_factors X ranks (fst rnd) -> core_like ranks (snd rnd) -> 0 < c ->
  forall w (o : fobj R (targs R)) steps o1 h1 o2 h2,
  nt_train pow svals X w o rnd steps = (o1, Ok h1) -> nt_train pow svals (scale c X) w o rnd steps = (o2, Ok h2) ->
  same_run c h1 h2 /\ (length h1 = length h2 -> o_pub o2 = scale_pub (pow c (1 / INR (ndims X + 1))) (pow c (1 / INR (ndims X + 1))) c (o_pub o1)).
Proof. exact c96_nt_train. Qed.
Print Assumptions C96_nt_train_partial.

(** with the stopping rule switched off, the runs agree to the end: same errors, same number of
    steps, and the published models differ by the units *)
Theorem C96_cp_exact : forall c pinv X w (o : fobj R (targs R * nat)) ar id rnd steps, 0 < c -> o_built o = Some (ar, id) -> a_tol (fst ar) <= 0 ->
  snd (cp_train pinv (scale c X) w o rnd steps) = rmap (map (scale_entry c)) (snd (cp_train pinv X w o rnd steps)) /\
  forall o1 h1, cp_train pinv X w o rnd steps = (o1, Ok h1) -> o_pub (fst (cp_train pinv (scale c X) w o rnd steps)) = scale_pub 1 c c (o_pub o1).
Proof. exact c96_cp_exact. Qed.
Print Assumptions C96_cp_exact.

Theorem C96_hooi_exact : forall c svdU svdU' X w (o : fobj R (targs R * list Z)) ar id rnd steps, 0 < c -> (forall M, svdU' (scale c M) = svdU M) ->
  o_built o = Some (ar, id) -> a_tol (fst ar) <= 0 ->
  snd (hooi_train svdU' (scale c X) w o rnd steps) = rmap (map (scale_entry c)) (snd (hooi_train svdU X w o rnd steps)) /\
  forall o1 h1, hooi_train svdU X w o rnd steps = (o1, Ok h1) -> o_pub (fst (hooi_train svdU' (scale c X) w o rnd steps)) = scale_pub 1 c c (o_pub o1).
Proof. exact c96_hooi_exact. Qed.
Print Assumptions C96_hooi_exact.

Theorem C96_ncp_exact : forall pow svals (X : tensor R) r rnd c, roots pow -> spectral svals -> nonempty (shp X) ->
  (2 <= ndims X <= 25)%nat -> (0 < r)%nat -> cp_factors X r rnd -> 0 < c ->
  forall w (o : fobj R (targs R * nat)) ar id steps, o_built o = Some (ar, id) -> a_tol (fst ar) <= 0 ->
  snd (ncp_train pow svals (scale c X) w o rnd steps) = rmap (map (scale_entry c)) (snd (ncp_train pow svals X w o rnd steps)) /\
  forall o1 h1, ncp_train pow svals X w o rnd steps = (o1, Ok h1) ->
    o_pub (fst (ncp_train pow svals (scale c X) w o rnd steps)) = scale_pub (pow c (1 / INR (ndims X))) 1 c (o_pub o1).
Proof. exact c96_ncp_exact. Qed.
Print Assumptions C96_ncp_exact.

Theorem C96_nt_exact : forall pow svals (X : tensor R) ranks rnd c, roots pow -> spectral svals -> wf X -> nonempty (shp X) ->
  (2 <= ndims X <= 13)%nat -> nonempty ranks -> tucker_factors X ranks (fst rnd) -> core_like ranks (snd rnd) -> 0 < c ->
  forall w (o : fobj R (targs R)) ar id steps, o_built o = Some (ar, id) -> a_tol ar <= 0 ->
  snd (nt_train pow svals (scale c X) w o rnd steps) = rmap (map (scale_entry c)) (snd (nt_train pow svals X w o rnd steps)) /\
  forall o1 h1, nt_train pow svals X w o rnd steps = (o1, Ok h1) ->
    o_pub (fst (nt_train pow svals (scale c X) w o rnd steps)) = scale_pub (pow c (1 / INR (ndims X + 1))) (pow c (1 / INR (ndims X + 1))) c (o_pub o1).
Proof. exact c96_nt_exact. Qed.
Print Assumptions C96_nt_exact.

(** the same call on the same data in other units stops elsewhere; the power of two c changes no
    rounding *)
Theorem C96_cp_refuted : exists c pinv X w o rnd steps o1 h1 o2 h2,
  @nltb f32 NumF32 (@n0 f32 NumF32) c = true /\ cp_train (N := NumF32) pinv X w o rnd steps = (o1, Ok h1) /\
  cp_train (N := NumF32) pinv (times c X) w o rnd steps = (o2, Ok h2) /\ length h1 = 8%nat /\ length h2 = 3%nat.
Proof. exact c96_cp_refuted. Qed.
Print Assumptions C96_cp_refuted.

Theorem C96_hooi_refuted : exists c svdU X w o rnd steps o1 h1 o2 h2,
  @nltb f32 NumF32 (@n0 f32 NumF32) c = true /\ (forall M, svdU (times c M) = svdU M) /\
  hooi_train (N := NumF32) svdU X w o rnd steps = (o1, Ok h1) /\
  hooi_train (N := NumF32) svdU (times c X) w o rnd steps = (o2, Ok h2) /\ length h1 = 8%nat /\ length h2 = 3%nat.
Proof. exact c96_hooi_refuted. Qed.
Print Assumptions C96_hooi_refuted.

Theorem C96_ncp_refuted : exists c pow svals X w o rnd steps o1 h1 o2 h2,
  @nltb f32 NumF32 (@n0 f32 NumF32) c = true /\ ncp_train (N := NumF32) pow svals X w o rnd steps = (o1, Ok h1) /\
  ncp_train (N := NumF32) pow svals (times c X) w o rnd steps = (o2, Ok h2) /\ length h1 = 5%nat /\ length h2 = 4%nat.
Proof. exact c96_ncp_refuted. Qed.
Print Assumptions C96_ncp_refuted.

Theorem C96_nt_refuted : exists c pow svals X w o rnd steps o1 h1 o2 h2,
  @nltb f32 NumF32 (@n0 f32 NumF32) c = true /\ nt_train (N := NumF32) pow svals X w o rnd steps = (o1, Ok h1) /\
  nt_train (N := NumF32) pow svals (times c X) w o rnd steps = (o2, Ok h2) /\ length h1 = 5%nat /\ length h2 = 4%nat.
Proof. exact c96_nt_refuted. Qed.
Print Assumptions C96_nt_refuted.

(** diag(2, 1) and diag(6, 3), without stopping: every algorithm trains on both *)
Example ex_C96_scale : scale 3 Xd = mkT [2; 2]%nat [3 * 2; 3 * 0; 3 * 0; 3 * 1].
Proof. reflexivity. Qed.
Example ex_C96_cp : exists pinv, penrose pinv /\ exists o1 h1 o2 h2, let o := mkObj (Some ((mkArgs 0 10%Z false, 1%nat), 7%nat)) pub0 in
  cp_train pinv Xd (mkW [7%nat] true) o Ad 500 = (o1, Ok h1) /\ cp_train pinv (scale 3 Xd) (mkW [7%nat] true) o Ad 500 = (o2, Ok h2).
Proof.
  destruct penrose_exists as (pinv & HP). exists pinv. split; [exact HP|]. cbv zeta.
  set (o := mkObj _ _).
  destruct (cp_train_total pinv Xd 1 (mkArgs 0 10%Z false) 7%nat (mkW [7%nat] true) o Ad 500) as (o1 & h1 & E1);
    [exact HP|reflexivity|repeat constructor; discriminate|cbn; lia|reflexivity|apply Ad_factors|reflexivity|intros i [<-|[]]; reflexivity|lia|cbn; lia|].
  destruct (cp_train_total pinv (scale 3 Xd) 1 (mkArgs 0 10%Z false) 7%nat (mkW [7%nat] true) o Ad 500) as (o2 & h2 & E2);
    [exact HP|reflexivity|repeat constructor; discriminate|cbn; lia|reflexivity|apply Ad_factors|reflexivity|intros i [<-|[]]; reflexivity|lia|cbn; lia|].
  exists o1, h1, o2, h2. split; assumption.
Qed.
Example ex_C96_hooi : exists svdU svdU', left_svd svdU /\ (forall M, svdU' (scale 3 M) = svdU M) /\
  exists o1 h1, hooi_train svdU Xd (mkW [7%nat] true) (mkObj (Some ((mkArgs 0 1%Z false, map Z.of_nat [1; 1]%nat), 7%nat)) pub0) tt 500 = (o1, Ok h1).
Proof.
  destruct left_svd_exists as (svdU & HS). destruct (left_svd_scale 3 svdU ltac:(lra) HS) as (svdU' & _ & HU). exists svdU, svdU'. split; [exact HS|]. split; [exact HU|].
  eapply (c54_hooi_total svdU Xd [1; 1]%nat); try reflexivity; auto.
  - repeat constructor; discriminate.
  - repeat constructor; discriminate.
  - cbn; lia.
  - intros n Hn. change (n < 2)%nat in Hn. destruct n as [|[|n]]; [vm_compute; lia..|lia].
  - cbn. intros i [<-|[]]. reflexivity.
  - discriminate.
Qed.
Example ex_C96_ncp : exists pow svals, roots pow /\ spectral svals /\ nonempty (shp Xd) /\ cp_factors Xd 1 Ad /\
  exists o1 h1, ncp_train pow svals Xd (mkW [7%nat] true) (mkObj (Some ((mkArgs 0 10%Z false, 1%nat), 7%nat)) pub0) Ad 500 = (o1, Ok h1).
Proof.
  destruct spectral_exists as (svals & HP). exists rpow, svals. split; [exact rpow_roots|]. split; [exact HP|]. split; [repeat constructor; discriminate|].
  split; [apply Ad_factors|].
  eapply (ncp_train_total rpow svals Xd 1);
    [reflexivity|repeat constructor; discriminate|cbn; lia|reflexivity|apply Ad_factors|reflexivity|intros i [<-|[]]; reflexivity|lia|cbn; lia].
Qed.
Example ex_C96_nt : exists pow svals, roots pow /\ spectral svals /\ tucker_factors Xd [1; 1]%nat Ad /\ core_like [1; 1]%nat (mkT [1; 1]%nat [1]) /\
  exists o1 h1, nt_train pow svals Xd (mkW [7%nat] true) (mkObj (Some (mkArgs 0 10%Z false, 7%nat)) pub0) (Ad, mkT [1; 1]%nat [1]) 500 = (o1, Ok h1).
Proof.
  destruct spectral_exists as (svals & HP). exists rpow, svals. split; [exact rpow_roots|]. split; [exact HP|]. split; [apply Ad_tucker|]. split; [split; reflexivity|].
  eapply (nt_train_total rpow svals Xd [1; 1]%nat);
    [reflexivity|repeat constructor; discriminate|repeat constructor; discriminate|cbn; lia|reflexivity|apply Ad_tucker|split; reflexivity|reflexivity|intros i [<-|[]]; reflexivity|lia|cbn; lia].
Qed.
