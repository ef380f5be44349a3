(** Property theorems for the choice of singular vectors (C102): HOSVD and HOOI with another
    left factor of the singular value decompositions and with relabelled data. *)

From Coq Require Import ZArith List Bool Arith Reals Lia Lra.
From Verif Require Import Num Py Tensor Fact Train Spec SpecR SpecTrain SpecTucker SpecSym SpecGauge RSums AlsLemmas SvdExists TuckerFacts TuckerRun TuckerLemmas FixEx
  SpecScale SymFacts SymBcu GaugeFacts GaugeRun GaugeEx GaugeUnits.
Import ListNotations.
Local Open Scope R_scope.

(** C102: the leading left singular vectors of a matrix with a gap at the cut always span the
    same space *)
Theorem C102_leading : forall (M U V W W' : tensor R) s t r, matrix M -> thin_svd M U s W -> thin_svd M V t W' ->
  gap_at M (Nat.min r (Nat.min (nrows M) (ncols M))) -> same_span (fun i => i) (leading U r) (leading V r).
Proof.
  intros M U V W W' s t r HM HU HV HG. assert (EM : is_mat M (nth 0 (shp M) 0%nat) (ncols M)) by exact HM.
  refine (leading_same M (fun _ i => i) _ 0%nat M M U V W W' s t r _ EM EM _ HU HV HG); [intros k _; split; auto| |reflexivity].
  destruct HM as [_ E]. unfold ndims. rewrite E. cbn. lia.
Qed.
Print Assumptions C102_leading.

(** HOSVD of the same data with two singular value decompositions *)
Theorem C102_hosvd_choice : forall svdU svdU' (X : tensor R) ranks, left_svd svdU -> left_svd svdU' -> wf X -> nonempty (shp X) ->
  (ndims X <= length ranks)%nat -> (0 < ndims X <= 13)%nat -> hosvd_gaps X ranks ->
  exists o o', hosvd svdU X (map Z.of_nat ranks) = Ok o /\ hosvd svdU' X (map Z.of_nat ranks) = Ok o' /\
    same_spans (fun _ i => i) (tu_A o) (tu_A o') /\ shp (tu_core o') = shp (tu_core o) /\ sqlen (tu_core o') = sqlen (tu_core o) /\
    tu_full o' = tu_full o /\ tu_loss o' = tu_loss o.
Proof. exact hosvd_choice. Qed.
Print Assumptions C102_hosvd_choice.

(** HOSVD of relabelled data, with any two singular value decompositions *)
Theorem C102_hosvd : forall svdU svdU' (X : tensor R) ranks sg, left_svd svdU -> left_svd svdU' -> wf X -> nonempty (shp X) -> relabelling (shp X) sg ->
  (ndims X <= length ranks)%nat -> (0 < ndims X <= 13)%nat -> hosvd_gaps X ranks ->
  exists o o', hosvd svdU X (map Z.of_nat ranks) = Ok o /\ hosvd svdU' (relabel sg X) (map Z.of_nat ranks) = Ok o' /\
    same_spans sg (tu_A o) (tu_A o') /\ shp (tu_core o') = shp (tu_core o) /\ sqlen (tu_core o') = sqlen (tu_core o) /\
    tu_full o' = relabel sg (tu_full o) /\ tu_loss o' = tu_loss o.
Proof. exact hosvd_relabel. Qed.
Print Assumptions C102_hosvd.

(** without the gap the two models can differ *)
Theorem C102_gap_needed : exists svdU svdU' (X : tensor R) ranks o o', left_svd svdU /\ left_svd svdU' /\ wf X /\ nonempty (shp X) /\ length ranks = ndims X /\
  hosvd svdU X (map Z.of_nat ranks) = Ok o /\ hosvd svdU' X (map Z.of_nat ranks) = Ok o' /\ tu_full o <> tu_full o'.
Proof. exact no_gap. Qed.
Print Assumptions C102_gap_needed.

(** HOSVD.train *)
Theorem C102_hosvd_train : forall svdU svdU' (X : tensor R) ranks sg, left_svd svdU -> left_svd svdU' -> wf X -> nonempty (shp X) -> relabelling (shp X) sg ->
  (ndims X <= length ranks)%nat -> (0 < ndims X <= 13)%nat -> hosvd_gaps X ranks ->
  forall w id steps (o o' : fobj R (list Z)), o_built o = Some (map Z.of_nat ranks, id) -> same_obj sg o o' ->
  same_obj sg (fst (hosvd_train svdU X w o tt steps)) (fst (hosvd_train svdU' (relabel sg X) w o' tt steps)) /\
  snd (hosvd_train svdU' (relabel sg X) w o' tt steps) = snd (hosvd_train svdU X w o tt steps).
Proof.
  intros svdU svdU' X ranks sg H1 H2 H3 H4 H5 H6 H7 H8 w id steps o o' HB HO.
  exact (hosvd_train_relabel svdU svdU' X ranks sg H1 H2 H3 H4 H5 w _ id steps o o' H6 H7 H8 HB eq_refl HO).
Qed.
Print Assumptions C102_hosvd_train.

(** one HOOI step from factors with the same column spaces *)
Theorem C102_hooi_step : forall svdU svdU' (X : tensor R) ranks sg, left_svd svdU -> left_svd svdU' -> wf X -> nonempty (shp X) -> relabelling (shp X) sg ->
  nonempty ranks -> length ranks = ndims X -> (2 <= ndims X <= 13)%nat ->
  forall A A', factor_state X ranks A -> factor_state X ranks A' -> same_spans sg A A' -> sweep_gaps svdU X ranks (seq 0 (ndims X)) A ->
  (exists o o', hooi_step svdU X (map Z.of_nat ranks) A = Ok o /\ hooi_step svdU' (relabel sg X) (map Z.of_nat ranks) A' = Ok o' /\
     same_spans sg (ho_A o) (ho_A o') /\ shp (ho_core o') = shp (ho_core o) /\ sqlen (ho_core o') = sqlen (ho_core o) /\
     ho_full o' = relabel sg (ho_full o) /\ ho_met o' = ho_met o) \/
  (hooi_step svdU X (map Z.of_nat ranks) A = Raise ValueError /\ hooi_step svdU' (relabel sg X) (map Z.of_nat ranks) A' = Raise ValueError).
Proof. exact hooi_step_same. Qed.
Print Assumptions C102_hooi_step.

(** HOOI.train: the same history or exception, and everything the object publishes *)
Theorem C102_hooi_train : forall svdU svdU' (X : tensor R) ranks sg, left_svd svdU -> left_svd svdU' -> wf X -> nonempty (shp X) -> relabelling (shp X) sg ->
  nonempty ranks -> length ranks = ndims X -> (2 <= ndims X <= 13)%nat ->
  forall w args id steps (o o' : fobj R (targs R * list Z)), hooi_gaps svdU X ranks steps -> o_built o = Some ((args, map Z.of_nat ranks), id) -> same_obj sg o o' ->
  same_obj sg (fst (hooi_train svdU X w o tt steps)) (fst (hooi_train svdU' (relabel sg X) w o' tt steps)) /\
  snd (hooi_train svdU' (relabel sg X) w o' tt steps) = snd (hooi_train svdU X w o tt steps).
Proof. exact hooi_train_relabel. Qed.
Print Assumptions C102_hooi_train.

(** the same with the data also multiplied by a positive number (C96 without its assumption that
    both runs get the same singular vectors) *)
Theorem C102_hosvd_units : forall c svdU svdU' (X : tensor R) ranks sg, 0 < c -> left_svd svdU -> left_svd svdU' -> wf X -> nonempty (shp X) -> relabelling (shp X) sg ->
  (ndims X <= length ranks)%nat -> (0 < ndims X <= 13)%nat -> hosvd_gaps X ranks ->
  exists o o', hosvd svdU X (map Z.of_nat ranks) = Ok o /\ hosvd svdU' (scale c (relabel sg X)) (map Z.of_nat ranks) = Ok o' /\
    same_spans sg (tu_A o) (tu_A o') /\ shp (tu_core o') = shp (tu_core o) /\ sqlen (tu_core o') = c ^ 2 * sqlen (tu_core o) /\
    tu_full o' = scale c (relabel sg (tu_full o)) /\ tu_loss o' = c * tu_loss o.
Proof. exact hosvd_units. Qed.
Print Assumptions C102_hosvd_units.

Theorem C102_hooi_units : forall c svdU svdU' (X : tensor R) ranks sg, 0 < c -> left_svd svdU -> left_svd svdU' -> wf X -> nonempty (shp X) -> relabelling (shp X) sg ->
  nonempty ranks -> length ranks = ndims X -> (2 <= ndims X <= 13)%nat ->
  forall w args id steps (o o' : fobj R (targs R * list Z)) o1 h1 o2 h2, hooi_gaps svdU X ranks steps -> o_built o = Some ((args, map Z.of_nat ranks), id) -> same_obj sg o o' ->
  hooi_train svdU X w o tt steps = (o1, Ok h1) -> hooi_train svdU' (scale c (relabel sg X)) w o' tt steps = (o2, Ok h2) ->
  same_run c h1 h2 /\ (length h1 = length h2 -> exists p, same_pub sg (o_pub o1) p /\ o_pub o2 = scale_pub 1 c c p).
Proof. exact hooi_units. Qed.
Print Assumptions C102_hooi_units.

(** ** Examples *)
(** diag(2, 1) with ranks 1, 1 has a gap in both unfoldings and in every step of HOOI, whatever
    singular vectors are taken; the rows of the first mode change places *)
Example ex_C102_gaps : wf Xd /\ nonempty (shp Xd) /\ nonempty [1; 1]%nat /\ relabelling (shp Xd) flip /\ relabel flip Xd = mkT [2; 2]%nat [0; 1; 2; 0] /\
  hosvd_gaps Xd [1; 1]%nat /\ forall svdU, left_svd svdU -> forall steps, hooi_gaps svdU Xd [1; 1]%nat steps.
Proof. exact ex102_gaps. Qed.
Example ex_C102_train : exists svdU svdU', left_svd svdU /\ left_svd svdU' /\
  let o := mkObj (Some ((mkArgs (1/10) 1%Z false, map Z.of_nat [1; 1]%nat), 7%nat)) pub0 in
  same_obj flip o o /\ exists q q' h, hooi_train svdU Xd (mkW [7%nat] true) o tt 5 = (q, Ok h) /\
    hooi_train svdU' (relabel flip Xd) (mkW [7%nat] true) o tt 5 = (q', Ok h) /\ p_finish (o_pub q) = true /\ p_finish (o_pub q') = true.
Proof. exact ex102_train. Qed.
Example ex_C102_units : exists svdU svdU', left_svd svdU /\ left_svd svdU' /\
  let o := mkObj (Some ((mkArgs (1/10) 1%Z false, map Z.of_nat [1; 1]%nat), 7%nat)) pub0 in
  same_obj flip o o /\ exists q q' h h', hooi_train svdU Xd (mkW [7%nat] true) o tt 5 = (q, Ok h) /\
    hooi_train svdU' (scale 3 (relabel flip Xd)) (mkW [7%nat] true) o tt 5 = (q', Ok h').
Proof. exact ex102_units. Qed.
