(** Property theorems for rotated data (C110): HOSVD and HOOI when every mode gets another
    orthonormal basis, with any two singular value decompositions. *)

From Coq Require Import ZArith List Bool Arith Reals Lia Lra.
From Verif Require Import Num Py Tensor Fact Train Spec SpecR SpecTrain SpecTucker SpecGauge SpecRot RSums AlsLemmas SvdExists TuckerFacts TuckerRun FixEx GaugeEx RotFacts RotRun RotWit.
Import ListNotations.
Local Open Scope R_scope.

(** C110: HOSVD of turned data is the turned HOSVD, with the same distance to the data *)
Theorem C110_hosvd : forall svdU svdU' (X : tensor R) ranks Q, left_svd svdU -> left_svd svdU' -> wf X -> nonempty (shp X) -> rotation (shp X) Q ->
  (ndims X <= length ranks)%nat -> (0 < ndims X <= 13)%nat -> hosvd_gaps X ranks ->
  exists o o', hosvd svdU X (map Z.of_nat ranks) = Ok o /\ hosvd svdU' (rotated Q X) (map Z.of_nat ranks) = Ok o' /\
    turned_spans Q (tu_A o) (tu_A o') /\ shp (tu_core o') = shp (tu_core o) /\ sqlen (tu_core o') = sqlen (tu_core o) /\
    tu_full o' = rotated Q (tu_full o) /\ sqdist (rotated Q X) (tu_full o') = sqdist X (tu_full o).
Proof. exact hosvd_rotated. Qed.
Print Assumptions C110_hosvd.

(** HOSVD.train *)
Theorem C110_hosvd_train : forall svdU svdU' (X : tensor R) ranks Q, left_svd svdU -> left_svd svdU' -> wf X -> nonempty (shp X) -> rotation (shp X) Q ->
  (ndims X <= length ranks)%nat -> (0 < ndims X <= 13)%nat -> hosvd_gaps X ranks ->
  forall w id steps (o o' : fobj R (list Z)), o_built o = Some (map Z.of_nat ranks, id) -> turned_obj Q o o' ->
  turned_obj Q (fst (hosvd_train svdU X w o tt steps)) (fst (hosvd_train svdU' (rotated Q X) w o' tt steps)) /\
  snd (hosvd_train svdU' (rotated Q X) w o' tt steps) = snd (hosvd_train svdU X w o tt steps).
Proof.
  intros svdU svdU' X ranks Q H1 H2 H3 H4 H5 H6 H7 H8 w id steps o o' HB HO.
  exact (hosvd_train_turned svdU svdU' X ranks Q H1 H2 H3 H4 H5 w _ id steps o o' H6 H7 H8 HB eq_refl HO).
Qed.
Print Assumptions C110_hosvd_train.

(** one HOOI step from factors whose column spaces are turned *)
Theorem C110_hooi_step : forall svdU svdU' (X : tensor R) ranks Q, left_svd svdU -> left_svd svdU' -> wf X -> nonempty (shp X) -> rotation (shp X) Q ->
  nonempty ranks -> length ranks = ndims X -> (2 <= ndims X <= 13)%nat ->
  forall A A', factor_state X ranks A -> factor_state (rotated Q X) ranks A' -> turned_spans Q A A' -> sweep_gaps svdU X ranks (seq 0 (ndims X)) A ->
  (exists o o', hooi_step svdU X (map Z.of_nat ranks) A = Ok o /\ hooi_step svdU' (rotated Q X) (map Z.of_nat ranks) A' = Ok o' /\
     turned_spans Q (ho_A o) (ho_A o') /\ shp (ho_core o') = shp (ho_core o) /\ sqlen (ho_core o') = sqlen (ho_core o) /\
     ho_full o' = rotated Q (ho_full o) /\ m_obj (ho_met o') = m_obj (ho_met o) /\ m_rel (ho_met o') = m_rel (ho_met o)) \/
  (hooi_step svdU X (map Z.of_nat ranks) A = Raise ValueError /\ hooi_step svdU' (rotated Q X) (map Z.of_nat ranks) A' = Raise ValueError).
Proof. exact hooi_step_rotated. Qed.
Print Assumptions C110_hooi_step.

(** HOOI.train: as many steps with the same relative errors or the same exception, and everything
    the object publishes *)
Theorem C110_hooi_train : forall svdU svdU' (X : tensor R) ranks Q, left_svd svdU -> left_svd svdU' -> wf X -> nonempty (shp X) -> rotation (shp X) Q ->
  nonempty ranks -> length ranks = ndims X -> (2 <= ndims X <= 13)%nat ->
  forall w args id steps (o o' : fobj R (targs R * list Z)), hooi_gaps svdU X ranks steps -> o_built o = Some ((args, map Z.of_nat ranks), id) -> turned_obj Q o o' ->
  turned_obj Q (fst (hooi_train svdU X w o tt steps)) (fst (hooi_train svdU' (rotated Q X) w o' tt steps)) /\
  same_errors (snd (hooi_train svdU X w o tt steps)) (snd (hooi_train svdU' (rotated Q X) w o' tt steps)).
Proof. exact hooi_train_turned. Qed.
Print Assumptions C110_hooi_train.

(** the loss skips the zeros of the data, so turning the data changes it *)
Theorem C110_loss_refuted : exists svdU svdU' (X : tensor R) ranks Q o o', left_svd svdU /\ left_svd svdU' /\ wf X /\ nonempty (shp X) /\ rotation (shp X) Q /\
  length ranks = ndims X /\ hosvd_gaps X ranks /\ hosvd svdU X (map Z.of_nat ranks) = Ok o /\ hosvd svdU' (rotated Q X) (map Z.of_nat ranks) = Ok o' /\
  tu_loss o = sqrt (1 / 2) /\ tu_loss o' = sqrt (1 / 4).
Proof. exact loss_turns. Qed.
Print Assumptions C110_loss_refuted.

(** ** Examples *)
(** diag(2, 1) with ranks 1, 1 and its first mode turned *)
Example ex_C110_gaps : wf Xd /\ nonempty (shp Xd) /\ nonempty [1; 1]%nat /\ rotation (shp Xd) turn35 /\ rotated turn35 Xd = mkT [2; 2]%nat [6/5; -(4/5); 8/5; 3/5] /\
  hosvd_gaps Xd [1; 1]%nat /\ forall svdU, left_svd svdU -> forall steps, hooi_gaps svdU Xd [1; 1]%nat steps.
Proof. exact ex110_gaps. Qed.
Example ex_C110_train : exists svdU svdU', left_svd svdU /\ left_svd svdU' /\
  let o := mkObj (Some ((mkArgs (1/10) 1%Z false, map Z.of_nat [1; 1]%nat), 7%nat)) pub0 in
  turned_obj turn35 o o /\ exists q q' h h', hooi_train svdU Xd (mkW [7%nat] true) o tt 5 = (q, Ok h) /\
    hooi_train svdU' (rotated turn35 Xd) (mkW [7%nat] true) o tt 5 = (q', Ok h') /\ p_finish (o_pub q) = true /\ p_finish (o_pub q') = true.
Proof. exact ex110_train. Qed.
