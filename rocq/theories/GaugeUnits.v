(** HOSVD and HOOI on data in other units with another choice of singular vectors (C102). *)

From Coq Require Import ZArith List Bool Arith Lia Reals Lra.
From Verif Require Import Num Py Tensor TF TensorFacts TFFacts Sums Ops SpecFacts Fact Train Spec SpecR RSums SpecTucker SvdFacts TuckerFacts TuckerRun TuckerLemmas SpecTrain TrainLemmas AlsLemmas
  SpecScale ScaleFacts ScaleAls ScaleEx SpecSym SymFacts SymTrain SymBcu SpecGauge GaugeAlg GaugeFacts GaugeRun.
Import ListNotations.
Local Open Scope R_scope.

Lemma other_units c svdU' : 0 < c -> left_svd svdU' -> exists svd, left_svd svd /\ forall M, svdU' (scale c M) = svd M.
Proof.
  intros Hc HS. assert (Hi : 0 < / c) by (apply Rinv_0_lt_compat; exact Hc). destruct (left_svd_scale (/ c) svdU' Hi HS) as (svd & H1 & H2). exists svd. split; [exact H1|].
  intros M. rewrite <- H2. f_equal. apply scale_inv. lra.
Qed.

Lemma sqlen_scale c (X : tensor R) : sqlen (scale c X) = c ^ 2 * sqlen X.
Proof.
  unfold sqlen. cbn [scale shp]. rewrite <- !(isum_msum RLR). change (Rmult (c ^ 2)) with (nmul (c ^ 2)). rewrite <- (isum_mul_l RLR). apply isum_ext. intros i _.
  change (mkT (shp X) (map (Rmult c) (dat X))) with (scale c X). rewrite (sc_get c X (scale c X) i (tsc_scale c X)). unfold Rsqr. Rn. ring.
Qed.

Lemma hosvd_units c svdU svdU' (X : tensor R) ranks sg : 0 < c -> left_svd svdU -> left_svd svdU' -> wf X -> nonempty (shp X) -> relabelling (shp X) sg ->
  (ndims X <= length ranks)%nat -> (0 < ndims X <= 13)%nat -> hosvd_gaps X ranks ->
  exists o o', hosvd svdU X (map Z.of_nat ranks) = Ok o /\ hosvd svdU' (scale c (relabel sg X)) (map Z.of_nat ranks) = Ok o' /\
    same_spans sg (tu_A o) (tu_A o') /\ shp (tu_core o') = shp (tu_core o) /\ sqlen (tu_core o') = c ^ 2 * sqlen (tu_core o) /\
    tu_full o' = scale c (relabel sg (tu_full o)) /\ tu_loss o' = c * tu_loss o.
Proof.
  intros Hc HS HS' HX Hne Hsg Hlen Hord Hg. destruct (other_units c svdU' Hc HS') as (svd & K1 & K2).
  destruct (hosvd_relabel svdU svd X ranks sg HS K1 HX Hne Hsg Hlen Hord Hg) as (o & o' & E & E' & P1 & P2 & P3 & P4 & P5).
  pose proof (c96_hosvd c svd svdU' Hc K2 (relabel sg X) (map Z.of_nat ranks)) as Q. rewrite E' in Q. cbn [rmap] in Q.
  eexists o, _. split; [exact E|]. split; [exact Q|]. cbn [tu_A tu_core tu_full tu_loss]. split; [exact P1|]. split; [exact P2|]. rewrite sqlen_scale, P3, P4, P5. auto.
Qed.

Lemma hooi_units c svdU svdU' (X : tensor R) ranks sg : 0 < c -> left_svd svdU -> left_svd svdU' -> wf X -> nonempty (shp X) -> relabelling (shp X) sg ->
  nonempty ranks -> length ranks = ndims X -> (2 <= ndims X <= 13)%nat ->
  forall w args id steps (o o' : fobj R (targs R * list Z)) o1 h1 o2 h2, hooi_gaps svdU X ranks steps -> o_built o = Some ((args, map Z.of_nat ranks), id) -> same_obj sg o o' ->
  hooi_train svdU X w o tt steps = (o1, Ok h1) -> hooi_train svdU' (scale c (relabel sg X)) w o' tt steps = (o2, Ok h2) ->
  same_run c h1 h2 /\ (length h1 = length h2 -> exists p, same_pub sg (o_pub o1) p /\ o_pub o2 = scale_pub 1 c c p).
Proof.
  intros Hc HS HS' HX Hne Hsg Hrk Hlen Hord w args id steps o o' o1 h1 o2 h2 Hg HB HO E1 E2. destruct (other_units c svdU' Hc HS') as (svd & K1 & K2).
  destruct (hooi_train_relabel svdU svd X ranks sg HS K1 HX Hne Hsg Hrk Hlen Hord w args id steps o o' Hg HB HO) as [P1 P2]. rewrite E1 in P1, P2. cbn [fst snd] in P1, P2.
  destruct (hooi_train svd (relabel sg X) w o' tt steps) as [q r] eqn:E. cbn [fst snd] in P1, P2. subst r.
  destruct (c96_hooi_train c svd svdU' (relabel sg X) w o' tt steps q h1 o2 h2 Hc K2 E E2) as [Q1 Q2]. split; [exact Q1|]. intros HL. exists (o_pub q). split; [apply P1|apply Q2, HL].
Qed.
