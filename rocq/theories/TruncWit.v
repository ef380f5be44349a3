(** diag(2, 1) with ranks 1, 1 and 2, 2, for PropsTrunc.v. *)

From Coq Require Import ZArith List Bool Arith Lia Reals Lra.
From Verif Require Import Num Py Tensor TensorFacts Sums Types Loss Fact Train Spec SpecR SpecFacts RSums SpecTucker TuckerFacts TuckerRun TuckerLemmas SpecTrain LossFacts AlsLemmas SvdExists QuasiOpt SpecFix FixEx SpecGauge GaugeFacts GaugeRun GaugeEx SpecRot RotFacts RotRun RotWit
  SpecTrunc TruncFacts.
Import ListNotations.
Local Open Scope R_scope.

Lemma ex112 : exists svdU o o', left_svd svdU /\ wf Xd /\ nonempty (shp Xd) /\ ndims Xd = 2%nat /\
  hosvd svdU Xd (map Z.of_nat [1; 1]%nat) = Ok o /\ hosvd svdU Xd (map Z.of_nat [2; 2]%nat) = Ok o' /\
  tu_full o = mkT [2; 2]%nat [2; 0; 0; 0] /\ tu_full o' = Xd /\ energy_outside (shp (tu_core o)) (tu_core o') = 1 /\
  (exists p1 h1, hosvd_train svdU Xd (mkW [7%nat] true) (mkObj (Some (map Z.of_nat [1; 1]%nat, 7%nat)) pub0) tt 5 = (p1, Ok h1)) /\
  (exists p1 h1, hosvd_train svdU Xd (mkW [7%nat] true) (mkObj (Some (map Z.of_nat [2; 2]%nat, 7%nat)) pub0) tt 5 = (p1, Ok h1)) /\
  (exists p2 h2, hooi_train svdU Xd (mkW [7%nat] true) (mkObj (Some ((mkArgs (1/10) 1%Z false, map Z.of_nat [2; 2]%nat), 7%nat)) pub0) tt 5 = (p2, Ok h2)).
Proof.
  destruct left_svd_exists as (s & HS). exists s.
  destruct (c112_hosvd s Xd [1; 1]%nat [2; 2]%nat HS eq_refl Xd_ne ltac:(cbn; lia) ltac:(cbn; lia) ltac:(cbn; lia)) as (o & o' & E & E' & _ & _ & _ & D).
  { intros [|[|n]] Hn; cbn in *; lia. }
  pose proof (Xd_hosvd s HS o E) as F1.
  assert (F2 : tu_full o' = Xd).
  { apply (c56_hosvd s Xd [2; 2]%nat o' HS eq_refl Xd_ne ltac:(cbn; lia) ltac:(cbn; lia)); [|exact E']. intros [|[|n]] Hn; cbn in Hn; try lia; vm_compute; lia. }
  exists o, o'. split; [exact HS|]. split; [reflexivity|]. split; [apply Xd_ne|]. split; [reflexivity|]. split; [exact E|]. split; [exact E'|]. split; [exact F1|]. split; [exact F2|].
  split.
  { rewrite F1, F2 in D. rewrite (proj2 (sqdist_zero Xd Xd eq_refl eq_refl eq_refl) eq_refl) in D. unfold sqdist, Xd, Fd, get, Rsqr in D. cbn in D. Rn. lra. }
  split; [|split].
  - unfold hosvd_train, obj_train. cbn -[hosvd_body map]. unfold hosvd_body. rewrite E. do 2 eexists. reflexivity.
  - unfold hosvd_train, obj_train. cbn -[hosvd_body map]. unfold hosvd_body. rewrite E'. do 2 eexists. reflexivity.
  - apply (c54_hooi_total s Xd [2; 2]%nat (mkArgs (1/10) 1%Z false) 7%nat); try reflexivity; [exact HS|apply Xd_ne|apply Forall_cons; [discriminate|apply Forall_cons; [discriminate|apply Forall_nil]]|cbn; lia| |intros i [<-|[]]; reflexivity|discriminate].
    intros n Hn. destruct n as [|[|n]]; cbn in Hn; try lia; vm_compute; lia.
Qed.
