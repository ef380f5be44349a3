(** C96: a singular value decomposition for the scaled data. *)

From Coq Require Import ZArith List Bool Arith Reals Lia Lra.
From Verif Require Import Num Py Tensor Fact Train Spec SpecFacts SpecR SpecTrain SpecTucker SpecScale ScaleFacts ScaleAls ScaleBcu RSums.
Import ListNotations.
Local Open Scope R_scope.

(** dividing by c first costs a singular value decomposition nothing: same left factor, singular values times c *)
Lemma left_svd_scale c svdU : 0 < c -> left_svd svdU ->
  exists svdU', left_svd svdU' /\ forall M, svdU' (scale c M) = svdU M.
Proof.
  intros Hc HS. exists (fun M => svdU (scale (/ c) M)). split.
  - intros M HM Hr Hn. destruct (HS (scale (/ c) M)) as (s & W & H1 & H2 & H3 & H4 & H5 & H6 & H7); try assumption.
    { destruct HM as [H1 H2]. split; [|exact H2]. unfold wf in *. cbn [scale shp dat]. rewrite map_length. exact H1. }
    exists (fun p => c * s p), W. split; [exact H1|]. split; [exact H2|]. split; [exact H3|]. split; [exact H4|]. split; [|split].
    + intros p Hp. apply Rmult_le_pos; [lra|]. apply H5. exact Hp.
    + intros p q Hpq Hq. apply Rmult_le_compat_l; [lra|]. apply H6; assumption.
    + intros i j Hi Hj. specialize (H7 i j Hi Hj). rewrite mget_scale in H7.
      assert (E : mget M i j = c * (/ c * mget M i j)) by (field; lra). rewrite E, H7, <- bigsum_scal. apply bigsum_ext. intros p _. ring.
  - intros M. rewrite scale_inv; [reflexivity|lra].
Qed.
