(** Property theorems for the way from a ratings file to the reported errors (C109),
    the scripts ex/ml_cp.py, ml_ncp.py, ml_ntucker.py and ml_tucker.py. *)

From Coq Require Import String Ascii ZArith List Bool Arith Reals Lia Lra.
From Verif Require Import Num Py Tensor Fact Train Spec SpecR SpecTrain SpecCp SpecTucker SpecFix Reader SpecReader Csv SpecCsv CsvFacts CsvLemmas SvdExists TuckerFacts TuckerRun TuckerLemmas
  AlsLemmas FixEx LimEx SpecRatings RatingFacts RatingWit.
Import ListNotations.
Open Scope list_scope.
Local Open Scope R_scope.

(** C109.  The property that training fits the listed ratings is refuted below; what holds: the
    file is read, and the numbers returned are the errors on the rows of the file. *)
Theorem C109_cp_partial : forall py_float path t s es, rating_file py_float path t s es ->
  exists X, read_text py_float path t (Some (map Z.of_nat s)) = Ok X /\ shp X = s /\
  forall pinv w o rnd steps o' h, cp_train pinv X w o rnd steps = (o', Ok h) ->
    exists args rank id os, o_built o = Some ((args, rank), id) /\ als_run (cp_run pinv X rank) rnd os /\ scores es args os (o_pub o') h.
Proof.
  intros py_float path t s es H. destruct (file_reads py_float path t s es H) as (X & E & SX & HF). exists X. split; [exact E|]. split; [exact SX|].
  intros. eapply scores_cp; eauto.
Qed.
Print Assumptions C109_cp_partial.

Theorem C109_hooi_partial : forall py_float path t s es, rating_file py_float path t s es ->
  exists X, read_text py_float path t (Some (map Z.of_nat s)) = Ok X /\ shp X = s /\
  forall svdU w o rnd steps o' h, hooi_train svdU X w o rnd steps = (o', Ok h) ->
    exists args ranks id A0 os, o_built o = Some ((args, ranks), id) /\ hooi_init svdU X ranks = Ok A0 /\ als_run (hooi_run svdU X ranks) A0 os /\ scores es args os (o_pub o') h.
Proof.
  intros py_float path t s es H. destruct (file_reads py_float path t s es H) as (X & E & SX & HF). exists X. split; [exact E|]. split; [exact SX|].
  intros. eapply scores_hooi; eauto.
Qed.
Print Assumptions C109_hooi_partial.

Theorem C109_ncp_partial : forall py_float path t s es, rating_file py_float path t s es ->
  exists X, read_text py_float path t (Some (map Z.of_nat s)) = Ok X /\ shp X = s /\
  forall pow svals w o rnd steps o' h, ncp_train pow svals X w o rnd steps = (o', Ok h) ->
    exists args rank id os, o_built o = Some ((args, rank), id) /\
      bcu_run (ncp_run svals X) (fun s => Ok (s, None)) ncp_accept (fun s => Ok (ncp_reject s)) (ncp_init pow X rnd) os /\ scores es args os (o_pub o') h.
Proof.
  intros py_float path t s es H. destruct (file_reads py_float path t s es H) as (X & E & SX & HF). exists X. split; [exact E|]. split; [exact SX|].
  intros. eapply scores_ncp; eauto.
Qed.
Print Assumptions C109_ncp_partial.

Theorem C109_ntucker_partial : forall py_float path t s es, rating_file py_float path t s es ->
  exists X, read_text py_float path t (Some (map Z.of_nat s)) = Ok X /\ shp X = s /\
  forall pow svals w o rnd steps o' h, nt_train pow svals X w o rnd steps = (o', Ok h) ->
    exists args id os, o_built o = Some (args, id) /\
      bcu_run (nt_factors svals X) (nt_pre svals X) nt_accept (fun s => Ok (nt_reject s)) (nt_init pow X (fst rnd) (snd rnd)) os /\ scores es args os (o_pub o') h.
Proof.
  intros py_float path t s es H. destruct (file_reads py_float path t s es H) as (X & E & SX & HF). exists X. split; [exact E|]. split; [exact SX|].
  intros. eapply scores_nt; eauto.
Qed.
Print Assumptions C109_ntucker_partial.

(** coordinates without a row are fitted as zeros: here a model of the same rank has no error
    on the file, but the error of every iterate of CP_ALS is at least 1/2 *)
Theorem C109_fit_refuted : exists pinv (es : ratings) (X : tensor R) A0, penrose pinv /\ file_of es X /\ cp_factors X 1 A0 /\
  (exists w A, cp_factors X 1 A /\ forall e, In e es -> miss (cp_tensor 1 w A) e = 0) /\
  (exists out, cp_iterates pinv X 1 A0 out) /\
  forall out, cp_iterates pinv X 1 A0 out -> forall k, 1 / 2 <= m_loss (cp_met (out k)).
Proof. destruct c109_unlisted as (pinv & H). exists pinv, es2, Xd, (V 1 1). exact H. Qed.
Print Assumptions C109_fit_refuted.

(** ** Example: two ratings, read and decomposed by HOOI with ranks (1, 1) *)
Example ex_C109 : exists svdU X o' h, left_svd svdU /\ rating_file float_of_int "u1.base.csv" text2 [2; 2]%nat es2 /\
  read_text float_of_int "u1.base.csv" text2 (Some [2; 2]%Z) = Ok X /\
  hooi_train svdU X (mkW [0%nat] true) (mkObj (Some ((mkArgs (1 / 10000) 1%Z false, [1; 1]%Z), 0%nat)) pub0) tt 100 = (o', Ok h).
Proof.
  destruct left_svd_exists as (svdU & HS). destruct (file_reads _ _ _ _ _ text2_file) as (X & E & SX & WX & _).
  destruct (c54_hooi_total svdU X [1; 1]%nat (mkArgs (1 / 10000) 1%Z false) 0%nat (mkW [0%nat] true) (mkObj (Some ((mkArgs (1 / 10000) 1%Z false, [1; 1]%Z), 0%nat)) pub0) tt 100 HS) as (o' & h & H); auto.
  - rewrite SX. repeat constructor; discriminate.
  - repeat constructor; discriminate.
  - unfold ndims. rewrite SX. reflexivity.
  - unfold ndims. rewrite SX. cbn. lia.
  - intros k Hk. unfold ndims in Hk. rewrite SX in Hk |- *. cbn in Hk. destruct k as [|[|k]]; [| |lia]; cbn; lia.
  - intros i [<-|[]]. reflexivity.
  - lia.
  - discriminate.
  - exists svdU, X, o', h. split; [exact HS|]. split; [exact text2_file|]. split; [exact E|exact H].
Qed.
