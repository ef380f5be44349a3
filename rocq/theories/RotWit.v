(** Cases to which the theorems of PropsRot.v apply: diag(2, 1), its first mode turned by the
    angle with cosine 3/5 and sine 4/5. *)

From Coq Require Import ZArith List Bool Arith Lia Reals Lra Psatz.
From Verif Require Import Num Py Tensor TF TensorFacts TFFacts Sums Ops OpsLemmas Types Loss Fact Train Spec SpecR LayoutFacts SpecFacts RSums MatR KronAlg SpecTucker MultiR SvdFacts TuckerFacts TuckerRun
  TuckerLemmas SpecTrain TrainLemmas LossFacts AlsLemmas SvdExists QuasiOpt SpecFix FixEx SpecGauge GaugeFacts GaugeRun GaugeEx SpecRot RotFacts RotRun.
Import ListNotations.
Local Open Scope R_scope.

Definition turn35 : list (tensor R) := [mkT [2; 2]%nat [3/5; -(4/5); 4/5; 3/5]; I2].
Lemma turn35_ok : rotation (shp Xd) turn35.
Proof.
  split; [reflexivity|]. apply two; (split; [split; reflexivity|]); [|apply I2_ortho].
  intros i j Hi Hj. cbn in Hi, Hj. revert i j Hi Hj. apply two2; unfold mget, get; cbn; Rn; lra.
Qed.
Lemma Xd_turned : rotated turn35 Xd = mkT [2; 2]%nat [6/5; -(4/5); 8/5; 3/5].
Proof. unfold rotated, tucker_tensor, gen, mget, get. cbn. Rn. f_equal. repeat (apply (f_equal2 cons); [lra|]). reflexivity. Qed.
Definition Fd : tensor R := mkT [2; 2]%nat [2; 0; 0; 0].
Lemma Fd_turned : rotated turn35 Fd = mkT [2; 2]%nat [6/5; 0; 8/5; 0].
Proof. unfold rotated, tucker_tensor, gen, mget, get. cbn. Rn. f_equal. repeat (apply (f_equal2 cons); [lra|]). reflexivity. Qed.

Lemma Xd_hosvd svdU : left_svd svdU -> forall o, hosvd svdU Xd [1; 1]%Z = Ok o -> tu_full o = Fd.
Proof.
  intros HS o E. destruct (hosvd_ok svdU Xd [1; 1]%nat HS eq_refl Xd_ne ltac:(cbn; lia) ltac:(cbn; lia)) as (q & Eq & F1 & F2 & F3 & _).
  change (map Z.of_nat [1; 1]%nat) with [1; 1]%Z in Eq. rewrite E in Eq. injection Eq as <-.
  destruct (hooi_init_cases svdU Xd [1; 1]%nat HS Xd_ne eq_refl) as [G _]. destruct G as (A & EA & _); [apply two; vm_compute; lia|].
  pose proof (axis_init svdU HS A EA) as HA. rewrite <- (hooi_init_hosvd svdU Xd _ A o EA E) in HA. rewrite F3, F2.
  destruct HA as (a & b & Ha & Hb & ->). unfold tucker_tensor, project, gen, mget, get, Fd. cbn. Rn. f_equal.
  repeat (apply (f_equal2 cons); [nra|]). reflexivity.
Qed.
Lemma loss_of svdU X (o : tucker_out R) rk : wf X -> hosvd svdU X rk = Ok o -> shp X = shp (tu_full o) ->
  tu_loss o = sqrt (msum (shp X) (fun i => if Req_EM_T (get X i) 0 then 0 else (get X i - get (tu_full o) i)²) /
                    msum (shp X) (fun i => if Req_EM_T (get X i) 0 then 0 else 1)).
Proof.
  intros HX E ES. unfold hosvd in E. apply bind_ok in E as (A & _ & E). apply bind_ok in E as (g & _ & E). apply bind_ok in E as (f & _ & E).
  apply bind_ok in E as (l & EL & E). injection E as <-. cbn [tu_full tu_loss] in *. rewrite (rmse_iz_R X f HX ES) in EL. injection EL as <-. reflexivity.
Qed.
Lemma loss_turns : exists svdU svdU' X ranks Q o o', left_svd svdU /\ left_svd svdU' /\ wf X /\ nonempty (shp X) /\ rotation (shp X) Q /\
  length ranks = ndims X /\ hosvd_gaps X ranks /\ hosvd svdU X (map Z.of_nat ranks) = Ok o /\ hosvd svdU' (rotated Q X) (map Z.of_nat ranks) = Ok o' /\
  tu_loss o = sqrt (1 / 2) /\ tu_loss o' = sqrt (1 / 4).
Proof.
  destruct left_svd_exists as (s & HS).
  destruct (hosvd_rotated s s Xd [1; 1]%nat turn35 HS HS eq_refl Xd_ne turn35_ok ltac:(cbn; lia) ltac:(cbn; lia) Xd_gaps) as (o & o' & E & E' & _ & _ & _ & EF & _).
  exists s, s, Xd, [1; 1]%nat, turn35, o, o'. repeat (split; [solve [assumption|reflexivity|apply Xd_ne|apply turn35_ok|apply Xd_gaps]|]).
  pose proof (Xd_hosvd s HS o E) as F. rewrite F, Fd_turned in EF. split.
  - rewrite (loss_of s Xd o _ eq_refl E) by (rewrite F; reflexivity). rewrite F. f_equal. unfold Xd, Fd, msum, get, Rsqr. cbn.
    repeat (destruct (Req_EM_T _ _); try lra); Rn; lra.
  - rewrite (loss_of s (rotated turn35 Xd) o' _ (wf_gen _ _) E') by (rewrite EF, Xd_turned; reflexivity). rewrite EF, Xd_turned. f_equal. unfold msum, get, Rsqr. cbn.
    repeat (destruct (Req_EM_T _ _); try lra); Rn; lra.
Qed.
Lemma ex110_gaps : wf Xd /\ nonempty (shp Xd) /\ nonempty [1; 1]%nat /\ rotation (shp Xd) turn35 /\ rotated turn35 Xd = mkT [2; 2]%nat [6/5; -(4/5); 8/5; 3/5] /\
  hosvd_gaps Xd [1; 1]%nat /\ forall svdU, left_svd svdU -> forall steps, hooi_gaps svdU Xd [1; 1]%nat steps.
Proof.
  split; [reflexivity|]. split; [apply Xd_ne|]. split; [repeat constructor; discriminate|]. split; [apply turn35_ok|]. split; [apply Xd_turned|]. split; [apply Xd_gaps|apply Xd_hooi_gaps].
Qed.
Lemma ex110_train : exists svdU svdU', left_svd svdU /\ left_svd svdU' /\
  let o := mkObj (Some ((mkArgs (1/10) 1%Z false, map Z.of_nat [1; 1]%nat), 7%nat)) pub0 in
  turned_obj turn35 o o /\ exists q q' h h', hooi_train svdU Xd (mkW [7%nat] true) o tt 5 = (q, Ok h) /\
    hooi_train svdU' (rotated turn35 Xd) (mkW [7%nat] true) o tt 5 = (q', Ok h') /\ p_finish (o_pub q) = true /\ p_finish (o_pub q') = true.
Proof.
  destruct left_svd_exists as (s & HS). exists (choose I2 s), (choose J2 s). pose proof (choose_left I2 s (or_introl eq_refl) HS) as H1. pose proof (choose_left J2 s (or_intror eq_refl) HS) as H2.
  split; [exact H1|]. split; [exact H2|]. intros o.
  assert (HO : turned_obj turn35 o o) by (split; [reflexivity|]; repeat split). split; [exact HO|].
  assert (R1 : nonempty [1; 1]%nat) by (repeat constructor; discriminate).
  assert (G : exists q h, hooi_train (choose I2 s) Xd (mkW [7%nat] true) o tt 5 = (q, Ok h)).
  { eapply (c54_hooi_total (choose I2 s) Xd [1; 1]%nat); eauto; try reflexivity; try apply Xd_ne; try (cbn; lia).
    - apply two; vm_compute; lia. }
  destruct G as (q & h & E).
  pose proof (proj2 (hooi_train_turned (choose I2 s) (choose J2 s) Xd [1; 1]%nat turn35 H1 H2 eq_refl Xd_ne turn35_ok R1 eq_refl ltac:(cbn; lia) (mkW [7%nat] true) _ 7%nat 5 o o
    (Xd_hooi_gaps (choose I2 s) H1 5) eq_refl HO)) as K. rewrite E in K. cbn [snd] in K.
  destruct (hooi_train (choose J2 s) (rotated turn35 Xd) (mkW [7%nat] true) o tt 5) as [q' r'] eqn:E'. cbn [snd] in K. destruct r' as [h'|e']; [|contradiction].
  exists q, q', h, h'. split; [exact E|]. split; [reflexivity|].
  assert (F : forall U Y p k, hooi_train U Y (mkW [7%nat] true) o tt 5 = (p, Ok k) -> p_finish (o_pub p) = true).
  { intros U Y p k K1. unfold hooi_train, obj_train in K1. cbn [o_built o] in K1. destruct (negb _); [discriminate|]. destruct (hooi_body _ _ _ _ _ _ _) as [p1 [h1|]]; [|discriminate].
    injection K1 as <- _. reflexivity. }
  split; eapply F; [exact E|exact E'].
Qed.
