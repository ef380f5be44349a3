(** The tensor operations and training steps in exact arithmetic with undefined results. *)

From Coq Require Import ZArith List Bool Arith Lia Reals Lra.
From Verif Require Import Num Py Tensor TF TensorFacts TFFacts Sums Ops OpsLemmas Types Loss Fact Train TProg Spec SpecR SpecTucker SpecScale ParamFacts ScaleAls SpecDef.
Import ListNotations.
Local Open Scope R_scope.
#[local] Existing Instance NumX.

Definition dr (a : R) (b : xreal) : Prop := b = Some a.
Notation td := (trel dr).
Notation tds := (Forall2 td).

Lemma dr0 : dr n0 n0. Proof. reflexivity. Qed.
Lemma dr1 : dr n1 n1. Proof. reflexivity. Qed.
Lemma dr_add a b c d : dr a b -> dr c d -> dr (nadd a c) (nadd b d). Proof. intros -> ->. reflexivity. Qed.
Lemma dr_sub a b c d : dr a b -> dr c d -> dr (nsub a c) (nsub b d). Proof. intros -> ->. reflexivity. Qed.
Lemma dr_mul a b c d : dr a b -> dr c d -> dr (nmul a c) (nmul b d). Proof. intros -> ->. reflexivity. Qed.
Lemma dr_div a b c d : c <> 0 -> dr a b -> dr c d -> dr (ndiv a c) (ndiv b d).
Proof. intros Hc -> ->. unfold dr. cbn. destruct (Req_EM_T c 0); [contradiction|reflexivity]. Qed.
Lemma dr_sqrt a b : 0 <= a -> dr a b -> dr (nsqrt a) (nsqrt b).
Proof. intros Ha ->. unfold dr. cbn. destruct (Rlt_dec a 0); [lra|reflexivity]. Qed.
Lemma dr_abs a b : dr a b -> dr (nabs a) (nabs b). Proof. intros ->. reflexivity. Qed.
Lemma dr_ltb a b c d : dr a b -> dr c d -> nltb b d = nltb a c. Proof. intros -> ->. reflexivity. Qed.
Lemma dr_eqb a b c d : dr a b -> dr c d -> neqb b d = neqb a c. Proof. intros -> ->. reflexivity. Qed.
Lemma dr_ofZ z : dr (nofZ z) (nofZ z). Proof. reflexivity. Qed.
Lemma dr_half : dr nhalf nhalf.
Proof. apply dr_div; [cbn; lra|reflexivity|reflexivity]. Qed.
Lemma dr_relu a b : dr a b -> dr (nrelu a) (nrelu b).
Proof. intros H. unfold nrelu. rewrite (dr_ltb a b _ _ H dr0). destruct (nltb a n0); [reflexivity|exact H]. Qed.
Lemma dr_max a b c d : dr a b -> dr c d -> dr (nmax a c) (nmax b d).
Proof. intros H K. unfold nmax. rewrite (dr_ltb a b c d H K). destruct (nltb a c); assumption. Qed.
Lemma dr_min a b c d : dr a b -> dr c d -> dr (nmin a c) (nmin b d).
Proof. intros H K. unfold nmin. rewrite (dr_ltb c d a b K H). destruct (nltb c a); assumption. Qed.
Lemma dr_sq a b : dr a b -> dr (nsq a) (nsq b). Proof. intros H. apply dr_mul; exact H. Qed.
Lemma dr_ne0 a b : dr a b -> dr (ne0 a) (ne0 b).
Proof. intros H. unfold ne0. rewrite (dr_eqb a b _ _ H dr0). destruct (neqb a n0); reflexivity. Qed.
Lemma drs_map l : Forall2 dr l (map Some l). Proof. induction l; constructor; [reflexivity|assumption]. Qed.
Lemma drs_eq l m : Forall2 dr l m -> m = map Some l. Proof. induction 1; cbn; [reflexivity|]. unfold dr in H. rewrite H. f_equal. exact IHForall2. Qed.
Lemma dr_tfmax l m : Forall2 dr l m -> dr (tf_max l) (tf_max m).
Proof.
  intros H. destruct H as [|a b l m Hab H]; cbn [tf_max]; [reflexivity|]. revert a b Hab. induction H as [|a' b' l m Hab' H IH]; intros a b Hab; cbn [fold_left]; [exact Hab|].
  apply IH, dr_max; assumption.
Qed.

Lemma td_def t : td t (def t). Proof. split; [reflexivity|apply drs_map]. Qed.
Lemma td_eq t t' : td t t' -> t' = def t.
Proof. intros [H K]. destruct t, t'. cbn in *. subst. unfold def. cbn. f_equal. apply drs_eq, K. Qed.
Lemma tds_def l : tds l (map def l). Proof. induction l; constructor; [apply td_def|assumption]. Qed.
Lemma tds_eq l m : tds l m -> m = map def l. Proof. induction 1; cbn; [reflexivity|]. f_equal; [apply td_eq; assumption|assumption]. Qed.

(** ** the operations *)
Definition d_get := get_rel dr dr0.
Definition d_reshape := reshape_rel dr.
Definition d_matmul := matmul_rel dr dr0 dr_add dr_mul.
Definition d_unfold := unfold_rel dr dr0.
Definition d_khatri := khatri_rel dr dr0 dr1 dr_add dr_mul.
Definition d_hadamard := hadamard_rel dr dr0 dr_mul.
Definition d_ttm := ttm_rel dr dr0 dr1 dr_add dr_mul.
Definition d_kt := kt_extract_rel dr dr0 dr1 dr_add dr_mul.
Definition d_tt := tt_extract_rel dr dr0 dr1 dr_add dr_mul.
Definition d_dim := dim_rel dr.
Lemma d_sub A A' B B' : td A A' -> td B B' -> rrel td (tf_bin nsub A B) (tf_bin nsub A' B').
Proof. apply (bin_rel dr dr0), dr_sub. Qed.
Lemma d_add A A' B B' : td A A' -> td B B' -> rrel td (tf_bin nadd A B) (tf_bin nadd A' B').
Proof. apply (bin_rel dr dr0), dr_add. Qed.
Lemma d_mul A A' B B' : td A A' -> td B B' -> rrel td (tf_bin nmul A B) (tf_bin nmul A' B').
Proof. apply (bin_rel dr dr0), dr_mul. Qed.
Definition d_map := map_rel dr.
Lemma d_grams l m : tds l m -> rrel tds (grams l) (grams m).
Proof. intros H. unfold grams. apply (mapM_rel td); [|exact H]. intros a b K. apply d_matmul; exact K. Qed.
Lemma d_unfold_all t t' : td t t' -> rrel tds (unfold_all t) (unfold_all t').
Proof.
  intros H. unfold unfold_all, ndims. rewrite (proj1 H). apply (mapM_rel eq).
  - intros a b ->. apply d_unfold, H.
  - induction (zrange _); constructor; auto.
Qed.
Lemma d_norm t t' : td t t' -> dr (tf_norm t) (tf_norm t').
Proof.
  intros [_ H]. unfold tf_norm. apply dr_sqrt.
  - induction (dat t) as [|x l IH] in t', H |- *; [cbn; lra|]. inversion H as [|? ? ? ? H1 H2]; subst. change (0 <= x * x + lsum (map nsq l)).
    assert (0 <= lsum (map nsq l)) by (eapply (IH (mkT [] _)); exact H2). pose proof (Rle_0_sqr x) as Q. unfold Rsqr in Q. lra.
  - apply (lsum_rel dr dr0 dr_add). apply (Forall2_map' dr); [apply dr_sq|exact H].
Qed.

(** ** metrics *)
Lemma sum_sq_pos (l : list R) : 0 <= lsum (map nsq l) /\ (forall x, In x l -> x <> 0 -> 0 < lsum (map nsq l)).
Proof.
  induction l as [|y l [IH1 IH2]]; [split; [cbn; lra|intros x []]|]. change (lsum (map nsq (y :: l))) with (y * y + lsum (map nsq l)). pose proof (Rle_0_sqr y) as Q. unfold Rsqr in Q.
  split; [lra|]. intros x [->|Hx] H0; [|specialize (IH2 x Hx H0); lra]. assert (0 < x * x) by (destruct (Rtotal_order x 0) as [L|[L|L]]; [nra|contradiction|nra]). lra.
Qed.
Lemma mask_pos (l : list R) : 0 <= lsum (map ne0 l) /\ (forall x, In x l -> x <> 0 -> 0 < lsum (map ne0 l)).
Proof.
  induction l as [|y l [IH1 IH2]]; [split; [cbn; lra|intros x []]|]. change (lsum (map ne0 (y :: l))) with (ne0 y + lsum (map ne0 l)).
  assert (Q : 0 <= ne0 y) by (unfold ne0; cbn; destruct (Req_EM_T y 0); lra).
  split; [lra|]. intros x [->|Hx] H0; [|specialize (IH2 x Hx H0); lra]. unfold ne0 at 1. cbn [neqb NumR n0 n1]. destruct (Req_EM_T x 0); [contradiction|lra].
Qed.
Lemma norm_nz X : some_entry X -> tf_norm X <> 0.
Proof. intros (x & H1 & H2). unfold tf_norm. pose proof (proj2 (sum_sq_pos (dat X)) x H1 H2) as P. apply sqrt_lt_R0 in P. cbn [nsqrt NumR] in *. lra. Qed.
Lemma d_rmse X X' F F' : some_entry X -> td X X' -> td F F' -> rrel dr (rmse_ignore_zero X F) (rmse_ignore_zero X' F').
Proof.
  intros (x & H1 & H2) HX HF. unfold rmse_ignore_zero. rewrite (proj1 HX), (proj1 HF). destruct (negb _); [reflexivity|].
  assert (HM : td (tf_map ne0 X) (tf_map ne0 X')) by (apply d_map; [apply dr_ne0|exact HX]).
  apply (rrel_bind td); [apply d_mul; assumption|]. intros B B' HB. apply (rrel_bind td); [apply d_sub; assumption|]. intros D D' HD. cbn [rrel].
  pose proof (proj2 (mask_pos (dat X)) x H1 H2) as P.
  apply dr_sqrt.
  - apply Rmult_le_pos; [apply sum_sq_pos|]. left. apply Rinv_0_lt_compat. exact P.
  - apply dr_div; [unfold tf_sum; cbn [tf_map dat]; lra| |]; apply (tsum_rel dr dr0 dr_add); [|exact HM]. apply d_map; [apply dr_sq|exact HD].
Qed.
Definition dmet (m : metrics R) (m' : metrics xreal) : Prop := m' = def_metrics m.
Lemma d_metrics X X' F F' : some_entry X -> td X X' -> td F F' -> rrel dmet (metrics_of X F) (metrics_of X' F').
Proof.
  intros HN HX HF. unfold metrics_of. apply (rrel_bind dr); [apply d_rmse; assumption|]. intros l l' Hl. apply (rrel_bind td); [apply d_sub; assumption|]. intros D D' HD. cbn [rrel].
  pose proof (d_norm D D' HD) as E. unfold dmet, def_metrics. cbn [m_loss m_obj m_rel]. f_equal; [exact Hl| |].
  - apply dr_mul; [apply dr_half|apply dr_sq, E].
  - apply dr_div; [apply norm_nz, HN|exact E|apply d_norm, HX].
Qed.
