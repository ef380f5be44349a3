(** loss.py (C30, C31). *)

From Coq Require Import ZArith List Bool Arith Lia Reals Lra.
From Verif Require Import Num Py Tensor TF TensorFacts TFFacts Sums Ops Loss Spec SpecR SpecFacts RSums MulFacts TypeFacts.
Import ListNotations.

Section T.
  Context {T : Type} {N : Num T}.

  Lemma sum_gen s (f : list nat -> T) : tf_sum (gen s f) = isum s f.
  Proof. reflexivity. Qed.

  Lemma shape_eqb_refl s : shape_eqb s s = true.
  Proof. apply shape_eqb_spec. reflexivity. Qed.
  Lemma shape_eqb_neq s s' : s <> s' -> shape_eqb s s' = false.
  Proof. intros H. destruct (shape_eqb s s') eqn:E; auto. apply shape_eqb_spec in E. congruence. Qed.

  Lemma rmse_shape (A B : tensor T) : shp A <> shp B -> rmse A B = Raise TensorErr.
  Proof. intros H. unfold rmse. rewrite shape_eqb_neq by auto. reflexivity. Qed.
  Lemma rmse_iz_shape (A B : tensor T) : shp A <> shp B -> rmse_ignore_zero A B = Raise TensorErr.
  Proof. intros H. unfold rmse_ignore_zero. rewrite shape_eqb_neq by auto. reflexivity. Qed.

  Context (RL : RingLaws T).
  Let RLu : ring_theory n0 n1 nadd nmul nsub nopp (@eq T) := RL.
  Add Ring TRing : RLu.

  (** over any commutative ring whose == is exact at zero *)
  Context (H0 : neqb (n0 : T) n0 = true) (Heqb : forall x : T, neqb x n0 = true -> x = n0).

  Lemma rmse_iz_ok (A B : tensor T) : wf A -> shp A = shp B ->
    rmse_ignore_zero A B = Ok (nsqrt (ndiv
      (msum (shp A) (fun i => if neqb (get A i) n0 then n0 else nsq (nsub (get A i) (get B i))))
      (msum (shp A) (fun i => if neqb (get A i) n0 then n0 else n1)))).
  Proof.
    intros HA E. unfold rmse_ignore_zero. rewrite <- E, shape_eqb_refl. cbn [negb].
    assert (EM : tf_map ne0 A = gen (shp A) (fun i => ne0 (get A i))).
    { rewrite <- (gen_get A HA) at 1. apply tf_map_gen. }
    rewrite EM. rewrite bin_same by (rewrite shp_gen; auto). cbn [bind].
    rewrite bin_same by (rewrite shp_gen; auto). cbn [bind]. rewrite tf_map_gen, !sum_gen.
    rewrite !(isum_msum RL). f_equal. f_equal. f_equal.
    - apply msum_ext. intros i Hi. rewrite get_gen by (rewrite <- E; auto). rewrite get_gen by auto. unfold ne0.
      destruct (neqb (get A i) n0) eqn:Ez; [rewrite (Heqb _ Ez)|]; unfold nsq; ring.
  Qed.

  Lemma rmse_iz_zero (A B : tensor T) : wf A -> shp A = shp B -> (forall i, valid (shp A) i -> get A i = n0) ->
    rmse_ignore_zero A B = Ok (nsqrt (ndiv n0 n0)).
  Proof.
    intros HA E HZ. rewrite rmse_iz_ok by auto. rewrite <- !(isum_msum RL).
    rewrite !(isum_zero RL); auto; intros i Hi; rewrite HZ by auto; rewrite H0; reflexivity.
  Qed.

  Lemma rmse_iz_indep (A B B' : tensor T) : wf A -> shp A = shp B -> shp B' = shp B ->
    (forall i, valid (shp A) i -> get A i <> n0 -> get B i = get B' i) ->
    rmse_ignore_zero A B = rmse_ignore_zero A B'.
  Proof.
    intros HA E E' H. rewrite !rmse_iz_ok by congruence. f_equal. f_equal. f_equal.
    apply msum_ext. intros i Hi. destruct (neqb (get A i) n0) eqn:Ez; auto. rewrite H; auto.
    intros Hz. rewrite Hz, H0 in Ez. discriminate.
  Qed.
End T.

Local Open Scope R_scope.

Lemma neqbR_0 : neqb (n0 : R) n0 = true. Proof. apply neqb_R; reflexivity. Qed.
Lemma neqbR_eq (x : R) : neqb x n0 = true -> x = n0. Proof. apply neqb_R. Qed.

Lemma half_R : @nhalf R NumR = / 2.
Proof. unfold nhalf. Rn. lra. Qed.

Lemma l2_ok (A B : tensor R) : broadcastable (shp A) (shp B) ->
  l2 A B = Ok (/ 2 * msum (broadcast_shape (shp A) (shp B)) (fun i =>
    (get A (broadcast_index (shp A) i) - get B (broadcast_index (shp B) i))²)).
Proof.
  intros H. unfold l2. rewrite bin_broadcast by auto. cbn [bind]. rewrite tf_map_gen, sum_gen, half_R.
  rewrite (isum_msum RLR). reflexivity.
Qed.

Lemma l2_err (A B : tensor R) : ~ broadcastable (shp A) (shp B) -> l2 A B = Raise ValueError.
Proof. intros H. unfold l2. rewrite bin_broadcast_err by auto. reflexivity. Qed.

Lemma l2_same (A B : tensor R) : shp A = shp B -> l2 A B = Ok (/ 2 * sqdist A B).
Proof.
  intros E. unfold l2. rewrite bin_same by auto. cbn [bind]. rewrite tf_map_gen, sum_gen, half_R.
  rewrite (isum_msum RLR). reflexivity.
Qed.

Lemma prod_nprod s : prod s = nprod s. Proof. reflexivity. Qed.

Lemma rmse_ok (A B : tensor R) : shp A = shp B -> rmse A B = Ok (sqrt (sqdist A B / entries A)).
Proof.
  intros E. unfold rmse. rewrite <- E, shape_eqb_refl. cbn [negb]. rewrite bin_same by auto. cbn [bind].
  rewrite shp_gen, tf_map_gen, sum_gen, (isum_msum RLR). Rn.
  unfold sqdist, entries. rewrite INR_IZR_INZ. reflexivity.
Qed.

Lemma sqdist_isum A B : sqdist A B = isum (shp A) (fun i => (get A i - get B i)²).
Proof. unfold sqdist. rewrite <- (isum_msum RLR). reflexivity. Qed.

Lemma sqdist_nonneg A B : 0 <= sqdist A B.
Proof. rewrite sqdist_isum. apply isumR_nonneg. intros. apply Rle_0_sqr. Qed.

Lemma sqdist_sym A B : shp A = shp B -> sqdist A B = sqdist B A.
Proof.
  intros E. rewrite !sqdist_isum, <- E. apply isum_ext. intros i _. unfold Rsqr. ring.
Qed.

Lemma sqdist_zero A B : wf A -> wf B -> shp A = shp B -> (sqdist A B = 0 <-> A = B).
Proof.
  intros HA HB E. rewrite sqdist_isum. split.
  - intros H. apply tensor_ext; auto. intros i Hi.
    assert (G := isumR_zero_inv (shp A) (fun i => (get A i - get B i)²) (fun i _ => Rle_0_sqr _) H i Hi).
    apply Rsqr_0_uniq in G. lra.
  - intros <-. apply (isum_zero RLR). intros i _. Rn. unfold Rsqr. ring.
Qed.

(** Minkowski *)
Lemma isum_minkowski s (f g : list nat -> R) :
  sqrt (isum s (fun i => (f i + g i)²)) <= sqrt (isum s (fun i => (f i)²)) + sqrt (isum s (fun i => (g i)²)).
Proof.
  set (F := isum s (fun i => (f i)²)). set (G := isum s (fun i => (g i)²)).
  assert (HF : 0 <= F) by (apply isumR_nonneg; intros; apply Rle_0_sqr).
  assert (HG : 0 <= G) by (apply isumR_nonneg; intros; apply Rle_0_sqr).
  set (P := isum s (fun i => f i * g i)).
  assert (E : isum s (fun i => (f i + g i)²) = F + 2 * P + G).
  { unfold F, P, G. rewrite <- isumR_scale, <- !isumR_add. apply isum_ext. intros i _. unfold Rsqr. Rn. ring. }
  assert (C : P² <= F * G) by apply isumR_cauchy.
  assert (HP : P <= sqrt F * sqrt G).
  { rewrite <- sqrt_mult by auto. destruct (Rle_or_lt P 0) as [Hn|Hp].
    - apply Rle_trans with 0; auto. apply sqrt_pos.
    - rewrite <- (sqrt_Rsqr P) by lra. apply sqrt_le_1_alt. auto. }
  rewrite E. pose proof (sqrt_pos F). pose proof (sqrt_pos G).
  rewrite <- (sqrt_Rsqr (sqrt F + sqrt G)) by lra. apply sqrt_le_1_alt.
  rewrite Rsqr_plus, !Rsqr_sqrt by auto. lra.
Qed.

Lemma sqdist_triangle A B C : shp A = shp B -> shp B = shp C ->
  sqrt (sqdist A C) <= sqrt (sqdist A B) + sqrt (sqdist B C).
Proof.
  intros E1 E2. rewrite !sqdist_isum, <- E1.
  apply Rle_trans with (2 := isum_minkowski (shp A) (fun i => get A i - get B i) (fun i => get B i - get C i)).
  apply Req_le. f_equal. apply isum_ext. intros i _. f_equal. lra.
Qed.

Lemma entries_pos A : nonempty (shp A) -> 0 < entries A.
Proof.
  intros H. unfold entries. apply lt_0_INR. apply prod_pos.
  intros d Hd. pose proof (proj1 (Forall_forall _ _) H d Hd). simpl in *. lia.
Qed.

Lemma rmse_facts (A B C : tensor R) : wf A -> wf B -> shp A = shp B -> shp B = shp C -> nonempty (shp A) ->
  exists ab ba bc ac l, rmse A B = Ok ab /\ rmse B A = Ok ba /\ rmse B C = Ok bc /\ rmse A C = Ok ac /\ l2 A B = Ok l /\
    0 <= ab /\ ab = ba /\ (ab = 0 <-> A = B) /\ ac <= ab + bc /\ 0 <= l /\ (l = 0 <-> A = B) /\ l2 B A = Ok l /\
    l = entries A * ab² / 2.
Proof.
  intros HA HB E1 E2 Hne. pose proof (entries_pos A Hne) as He.
  assert (EA : entries B = entries A) by (unfold entries; rewrite E1; reflexivity).
  exists (sqrt (sqdist A B / entries A)), (sqrt (sqdist B A / entries A)), (sqrt (sqdist B C / entries A)),
         (sqrt (sqdist A C / entries A)), (/ 2 * sqdist A B).
  rewrite !rmse_ok, !l2_same, !EA by congruence. pose proof (sqdist_nonneg A B) as Hn.
  assert (Hi : 0 < / entries A) by (apply Rinv_0_lt_compat; auto).
  repeat (split; [reflexivity|]). split; [apply sqrt_pos|].
  rewrite (sqdist_sym B A) by auto. split; [reflexivity|].
  assert (Hz := sqdist_zero A B HA HB E1).
  split; [|split; [|split; [|split; [|split]]]].
  - rewrite <- Hz. split.
    + intros H. apply sqrt_eq_0 in H.
      * unfold Rdiv in H. apply Rmult_integral in H as [H|H]; lra.
      * unfold Rdiv. nra.
    + intros ->. unfold Rdiv. rewrite Rmult_0_l. apply sqrt_0.
  - rewrite !sqrt_div by (auto using sqdist_nonneg). rewrite <- Rdiv_plus_distr.
    unfold Rdiv. apply Rmult_le_compat_r; [|apply sqdist_triangle; auto].
    apply Rlt_le, Rinv_0_lt_compat, sqrt_lt_R0. auto.
  - lra.
  - rewrite <- Hz. lra.
  - reflexivity.
  - rewrite Rsqr_sqrt by (unfold Rdiv; nra). field. lra.
Qed.

Lemma rmse_iz_R (A B : tensor R) : wf A -> shp A = shp B ->
  rmse_ignore_zero A B = Ok (sqrt (
    msum (shp A) (fun i => if Req_EM_T (get A i) 0 then 0 else (get A i - get B i)²) /
    msum (shp A) (fun i => if Req_EM_T (get A i) 0 then 0 else 1))).
Proof.
  intros HA E. rewrite (rmse_iz_ok RLR neqbR_eq) by auto. Rn. f_equal. f_equal. f_equal.
  - apply msum_ext. intros i _. destruct (Req_EM_T (get A i) 0); reflexivity.
  - apply msum_ext. intros i _. destruct (Req_EM_T (get A i) 0); reflexivity.
Qed.

Lemma rmse_iz_nan : exists A B B' : tensor f32,
  shp A = shp B /\ shp B' = shp B /\
  (forall i, valid (shp A) i -> get (N := NumF32) A i <> SpecFloat.S754_zero false -> get (N := NumF32) B i = get (N := NumF32) B' i) /\
  rmse_ignore_zero (N := NumF32) A B = Ok SpecFloat.S754_nan /\
  rmse_ignore_zero (N := NumF32) A B' = Ok (SpecFloat.S754_zero false).
Proof.
  exists (mkT [2%nat] [SpecFloat.S754_zero false; @n1 _ NumF32]), (mkT [2%nat] [SpecFloat.S754_nan; @n1 _ NumF32]),
         (mkT [2%nat] [SpecFloat.S754_zero false; @n1 _ NumF32]).
  split; [reflexivity|]. split; [reflexivity|]. split; [|split; vm_compute; reflexivity].
  intros i Hi. inversion Hi as [|a d l s Ha Hr]; subst. inversion Hr; subst.
  destruct a as [|[|a]]; [intros H; exfalso; apply H; reflexivity|reflexivity|lia].
Qed.
