(** Limits of finite sums, products and maxima; continuity of the tensor models. *)

From Coq Require Import ZArith List Bool Arith Lia Reals Lra Psatz.
From Verif Require Import Num Py Tensor TF TensorFacts TFFacts Sums Ops Spec SpecR LayoutFacts SpecFacts TtmFacts RSums MatR KronAlg NormFacts SpecTucker MultiR SvdFacts TuckerFacts SpecCp SpecBcu SpecProx
  CpFacts AlsFacts NtFacts SpecFix.
Import ListNotations.
Local Open Scope R_scope.

Lemma cv_ext (f g : nat -> R) l : (forall k, f k = g k) -> Un_cv f l -> Un_cv g l.
Proof. intros E H eps He. destruct (H eps He) as (N & HN). exists N. intros n Hn. rewrite <- E. apply HN, Hn. Qed.
Lemma cv_ext_l (f : nat -> R) l l' : l = l' -> Un_cv f l -> Un_cv f l'.
Proof. intros ->. auto. Qed.
Lemma cv_const c : Un_cv (fun _ => c) c.
Proof. intros eps He. exists 0%nat. intros n _. rewrite R_dist_eq. exact He. Qed.
Lemma cv_bigsum n (f : nat -> nat -> R) l : (forall i, (i < n)%nat -> Un_cv (fun k => f k i) (l i)) -> Un_cv (fun k => bigsum n (f k)) (bigsum n l).
Proof.
  induction n as [|n IH]; intros H; cbn [bigsum]; [apply cv_const|]. Rn. apply (CV_plus (fun k => bigsum n (f k)) (fun k => f k n)); [apply IH; intros; apply H; lia|apply H; lia].
Qed.
Lemma cv_bigprod n (f : nat -> nat -> R) l : (forall i, (i < n)%nat -> Un_cv (fun k => f k i) (l i)) -> Un_cv (fun k => bigprod n (f k)) (bigprod n l).
Proof.
  induction n as [|n IH]; intros H; cbn [bigprod]; [apply cv_const|]. Rn. apply (CV_mult (fun k => bigprod n (f k)) (fun k => f k n)); [apply IH; intros; apply H; lia|apply H; lia].
Qed.
Lemma cv_msum s : forall (f : nat -> list nat -> R) l, (forall i, valid s i -> Un_cv (fun k => f k i) (l i)) -> Un_cv (fun k => msum s (f k)) (msum s l).
Proof.
  induction s as [|d s IH]; intros f l H; cbn [msum]; [apply H; constructor|].
  apply (cv_bigsum d (fun k i => msum s (fun idx => f k (i :: idx))) (fun i => msum s (fun idx => l (i :: idx)))). intros i Hi.
  apply (IH (fun k idx => f k (i :: idx)) (fun idx => l (i :: idx))). intros idx Hv. apply H. constructor; auto.
Qed.
Lemma cv_listprod {A} (L : list A) (f : nat -> A -> R) l : (forall a, In a L -> Un_cv (fun k => f k a) (l a)) -> Un_cv (fun k => listprod (map (f k) L)) (listprod (map l L)).
Proof.
  induction L as [|a L IH]; intros H; cbn [map listprod]; [apply cv_const|]. Rn.
  apply (CV_mult (fun k => f k a) (fun k => listprod (map (f k) L))); [apply H; left; auto|apply IH; intros; apply H; right; auto].
Qed.
Lemma cv_sqr f l : Un_cv f l -> Un_cv (fun k => (f k)²) (l²).
Proof. intros H. apply (CV_mult f f l l H H). Qed.
Lemma cv_inv f l : l <> 0 -> Un_cv f l -> Un_cv (fun k => / f k) (/ l).
Proof. intros Hl H. apply (continuity_seq Rinv f l); auto. apply (continuity_pt_inv (fun x => x)); auto. apply derivable_continuous_pt, derivable_pt_id. Qed.
Lemma cv_div f g l m : m <> 0 -> Un_cv f l -> Un_cv g m -> Un_cv (fun k => f k / g k) (l / m).
Proof. intros Hm H1 H2. apply (CV_mult f (fun k => / g k)); [exact H1|]. apply cv_inv; auto. Qed.
Lemma cv_le f g l m : (forall k, f k <= g k) -> Un_cv f l -> Un_cv g m -> l <= m.
Proof.
  intros H Hf Hg. apply Rnot_lt_le. intros Hlt. set (e := (l - m) / 2). assert (He : e > 0) by (unfold e; lra).
  destruct (Hf e He) as (N1 & H1). destruct (Hg e He) as (N2 & H2). specialize (H1 (N1 + N2)%nat ltac:(lia)). specialize (H2 (N1 + N2)%nat ltac:(lia)).
  specialize (H (N1 + N2)%nat). unfold R_dist in *. apply Rabs_def2 in H1, H2. unfold e in *. lra.
Qed.
Lemma cv_le_const c g m : (forall k, c <= g k) -> Un_cv g m -> c <= m.
Proof. intros H Hg. apply (cv_le (fun _ => c) g); auto. apply cv_const. Qed.
Lemma cv_squeeze f g l : (forall k, l <= f k <= g k) -> Un_cv g l -> Un_cv f l.
Proof.
  intros H Hg eps He. destruct (Hg eps He) as (N & HN). exists N. intros n Hn. specialize (HN n Hn). specialize (H n). unfold R_dist in *.
  rewrite Rabs_right in * by lra. lra.
Qed.
Lemma cv_sub_seq f l phi : (forall n, (n <= phi n)%nat) -> Un_cv f l -> Un_cv (fun k => f (phi k)) l.
Proof. intros H Hf eps He. destruct (Hf eps He) as (N & HN). exists N. intros n Hn. apply HN. specialize (H n). lia. Qed.
Lemma subsequence_ge phi : subsequence phi -> forall n, (n <= phi n)%nat.
Proof. intros H. induction n as [|n IH]; [lia|]. specialize (H n (S n) ltac:(lia)). lia. Qed.
(** a monotone sequence follows its subsequence *)
Lemma cv_mono f l phi : (forall j k, (j <= k)%nat -> f k <= f j) -> (forall n, (n <= phi n)%nat) -> Un_cv (fun k => f (phi k)) l -> (forall k, l <= f k) /\ Un_cv f l.
Proof.
  intros Hm Hp Hc.
  assert (L : forall k, l <= f k).
  { intros k. apply (cv_le (fun j => f (phi (k + j)%nat)) (fun _ => f k)); [intros j; apply Hm; specialize (Hp (k + j)%nat); lia| |apply cv_const].
    apply (cv_sub_seq (fun j => f (phi j)) l (fun j => k + j)%nat); [intros; lia|exact Hc]. }
  split; [exact L|]. intros eps He. destruct (Hc eps He) as (N & HN). exists (phi N). intros n Hn. specialize (HN N (Nat.le_refl N)).
  unfold R_dist in *. specialize (L n). pose proof (Hm (phi N) n Hn) as G. specialize (L). rewrite Rabs_right in * by (pose proof (cv_le_const l (fun _ => f n) (f n) (fun _ => L) (cv_const _)); lra). lra.
Qed.

(** finitely many limits at once *)
Lemma cv_unif n (f : nat -> nat -> R) l : (forall i, (i < n)%nat -> Un_cv (fun k => f k i) (l i)) ->
  forall eps, 0 < eps -> exists K, forall k i, (K <= k)%nat -> (i < n)%nat -> Rabs (f k i - l i) < eps.
Proof.
  induction n as [|n IH]; intros H eps He; [exists 0%nat; intros; lia|].
  destruct (IH (fun i Hi => H i ltac:(lia)) eps He) as (K1 & H1). destruct (H n ltac:(lia) eps He) as (K2 & H2). exists (K1 + K2)%nat. intros k i Hk Hi.
  destruct (Nat.eq_dec i n) as [->|Hne]; [apply H2; lia|apply H1; lia].
Qed.
Lemma cv_unif2 m n (f : nat -> nat -> nat -> R) l : (forall i j, (i < m)%nat -> (j < n)%nat -> Un_cv (fun k => f k i j) (l i j)) ->
  forall eps, 0 < eps -> exists K, forall k i j, (K <= k)%nat -> (i < m)%nat -> (j < n)%nat -> Rabs (f k i j - l i j) < eps.
Proof.
  induction m as [|m IH]; intros H eps He; [exists 0%nat; intros; lia|].
  destruct (IH (fun i j Hi Hj => H i j ltac:(lia) Hj) eps He) as (K1 & H1).
  destruct (cv_unif n (fun k j => f k m j) (l m) (fun j Hj => H m j ltac:(lia) Hj) eps He) as (K2 & H2). exists (K1 + K2)%nat. intros k i j Hk Hi Hj.
  destruct (Nat.eq_dec i m) as [->|Hne]; [apply H2; lia|apply H1; lia].
Qed.

(** maxima of finitely many *)
Definition is_max (n : nat) (a : nat -> R) (v : R) : Prop := (exists i, (i < n)%nat /\ a i = v) /\ forall i, (i < n)%nat -> a i <= v.
Lemma cv_max n (a : nat -> nat -> R) b v w : (forall i, (i < n)%nat -> Un_cv (fun k => a k i) (b i)) -> (forall k, is_max n (a k) (v k)) -> is_max n b w -> Un_cv v w.
Proof.
  intros H Hv [(j & Hj & Ej) Hw] eps He. destruct (cv_unif n a b H eps He) as (K & HK). exists K. intros k Hk. unfold R_dist.
  destruct (Hv k) as [(i & Hi & Ei) Hm]. pose proof (HK k i Hk Hi) as A1. pose proof (HK k j Hk Hj) as A2. apply Rabs_def2 in A1, A2.
  specialize (Hm j Hj). specialize (Hw i Hi). apply Rabs_def1; lra.
Qed.

(** ** tensors *)
Lemma cv_sqdist X Gs G : shp G = shp X -> tensor_cv Gs G -> Un_cv (fun k => sqdist X (Gs k)) (sqdist X G).
Proof.
  intros Hs H. unfold sqdist. apply (cv_msum (shp X) (fun k i => (get X i - get (Gs k) i)²) (fun i => (get X i - get G i)²)). intros i Hi.
  apply cv_sqr. apply (CV_minus (fun _ => get X i)); [apply cv_const|]. apply H. rewrite Hs. exact Hi.
Qed.

Section Cp.
  Variables (X : tensor R) (r : nat).

  Lemma cp_shape lam A : cp_factors X r A -> shp (cp_tensor r lam A) = shp X.
  Proof.
    intros HA. change (map nrows A = shp X). pose proof (proj1 HA) as L. apply nth_ext with (d := 0%nat) (d' := 0%nat); rewrite map_length; [exact L|].
    intros k Hk. rewrite (nth_map_lt nrows A k (mkT [] [])) by auto. apply (fac_mat X r A HA). lia.
  Qed.

  Lemma cv_entry As A n i q : cp_factors X r A -> factors_cv As A -> (n < ndims X)%nat -> (i < nth n (shp X) 0)%nat -> (q < r)%nat ->
    Un_cv (fun k => mget (mat_at (As k) n) i q) (mget (mat_at A n) i q).
  Proof.
    intros HA H Hn Hi Hq. destruct (fac_mat X r A HA n Hn) as (_ & E1 & E2). apply H; [rewrite (proj1 HA); auto|rewrite E1; auto|rewrite E2; auto].
  Qed.

  Lemma cv_cp As A lams lam : (forall k, cp_factors X r (As k)) -> cp_factors X r A -> factors_cv As A ->
    (forall q, (q < r)%nat -> Un_cv (fun k => mget (lams k) q 0) (mget lam q 0)) ->
    tensor_cv (fun k => cp_tensor r (lams k) (As k)) (cp_tensor r lam A).
  Proof.
    intros HAs HA H Hl idx Hv. rewrite cp_shape in Hv by auto.
    assert (E : forall lam A, cp_factors X r A -> get (cp_tensor r lam A) idx = bigsum r (fun q => mget lam q 0 * bigprod (ndims X) (fun k => mget (mat_at A k) (nth k idx 0%nat) q))).
    { intros l0 A0 HA0. pose proof (cp_shape l0 A0 HA0) as Es. unfold cp_tensor in *. rewrite shp_gen in Es. rewrite get_gen by (rewrite Es; auto). rewrite (proj1 HA0). reflexivity. }
    rewrite E by auto. eapply cv_ext; [intros k; symmetry; apply E; auto|].
    apply (cv_bigsum r (fun k q => mget (lams k) q 0 * bigprod (ndims X) (fun j => mget (mat_at (As k) j) (nth j idx 0%nat) q))
      (fun q => mget lam q 0 * bigprod (ndims X) (fun j => mget (mat_at A j) (nth j idx 0%nat) q))). intros q Hq.
    apply (CV_mult (fun k => mget (lams k) q 0)); [apply Hl; auto|].
    apply (cv_bigprod (ndims X) (fun k j => mget (mat_at (As k) j) (nth j idx 0%nat) q) (fun j => mget (mat_at A j) (nth j idx 0%nat) q)).
    intros j Hj. apply cv_entry; auto. apply valid_nth; auto.
  Qed.

  Lemma cv_cp_err As A lams lam : (forall k, cp_factors X r (As k)) -> cp_factors X r A -> factors_cv As A ->
    (forall q, (q < r)%nat -> Un_cv (fun k => mget (lams k) q 0) (mget lam q 0)) ->
    Un_cv (fun k => sqdist X (cp_tensor r (lams k) (As k))) (sqdist X (cp_tensor r lam A)).
  Proof. intros. apply (cv_sqdist X (fun k => cp_tensor r (lams k) (As k))); [apply cp_shape; auto|]. apply cv_cp; auto. Qed.

  Lemma cv_gram As A n p q : (forall k, cp_factors X r (As k)) -> cp_factors X r A -> factors_cv As A -> (p < r)%nat -> (q < r)%nat ->
    Un_cv (fun k => mget (gram_but r (As k) n) p q) (mget (gram_but r A n) p q).
  Proof.
    intros HAs HA H Hp Hq.
    assert (E : forall A, cp_factors X r A -> mget (gram_but r A n) p q =
      listprod (map (fun k => bigsum (nth k (shp X) 0%nat) (fun i => mget (mat_at A k) i p * mget (mat_at A k) i q)) (others n (ndims X)))).
    { intros A0 HA0. unfold gram_but. rewrite mget_mgen by auto. rewrite (proj1 HA0). f_equal. apply map_ext_in. intros k Hk. apply in_others in Hk.
      destruct (fac_mat X r A0 HA0 k ltac:(lia)) as (_ & E1 & _). rewrite E1. reflexivity. }
    rewrite E by auto. eapply cv_ext; [intros k; symmetry; apply E; auto|].
    apply (cv_listprod (others n (ndims X)) (fun k j => bigsum (nth j (shp X) 0%nat) (fun i => mget (mat_at (As k) j) i p * mget (mat_at (As k) j) i q))
      (fun j => bigsum (nth j (shp X) 0%nat) (fun i => mget (mat_at A j) i p * mget (mat_at A j) i q))).
    intros j Hj. apply in_others in Hj.
    apply (cv_bigsum (nth j (shp X) 0%nat) (fun k i => mget (mat_at (As k) j) i p * mget (mat_at (As k) j) i q)). intros i Hi.
    apply (CV_mult (fun k => mget (mat_at (As k) j) i p) (fun k => mget (mat_at (As k) j) i q)); apply cv_entry; auto; lia.
  Qed.
End Cp.

Lemma cv_replace As A n Bs B : factors_cv As A -> (forall k, length (As k) = length A) -> (n < length A)%nat ->
  (forall i q, (i < nrows B)%nat -> (q < ncols B)%nat -> Un_cv (fun k => mget (Bs k) i q) (mget B i q)) ->
  factors_cv (fun k => replace n (Bs k) (As k)) (replace n B A).
Proof.
  intros H HL Hn HB m i q Hm Hi Hq. rewrite replace_length in Hm. unfold mat_at in *. rewrite nth_replace in * by auto.
  destruct (Nat.eqb_spec m n) as [->|E].
  - eapply cv_ext; [|apply HB; eauto]. intros k. cbv beta. rewrite nth_replace, Nat.eqb_refl by (rewrite HL; auto). reflexivity.
  - eapply cv_ext; [|apply H; eauto]. intros k. cbv beta. rewrite nth_replace_ne by auto. reflexivity.
Qed.

Section Tucker.
  Lemma cv_mode_product Xs X Ms M n : (forall k, shp (Xs k) = shp X) -> (forall k, is_mat (Ms k) (nrows M) (ncols M)) ->
    tensor_cv Xs X -> (forall i j, (i < nrows M)%nat -> (j < ncols M)%nat -> Un_cv (fun k => mget (Ms k) i j) (mget M i j)) ->
    (n < ndims X)%nat -> ncols M = nth n (shp X) 0%nat ->
    tensor_cv (fun k => mode_product (Xs k) (Ms k) n) (mode_product X M n) /\ forall k, shp (mode_product (Xs k) (Ms k) n) = shp (mode_product X M n).
  Proof.
    intros HX HM H HMc Hn Hc.
    assert (E : forall k, shp (mode_product (Xs k) (Ms k) n) = shp (mode_product X M n)).
    { intros k. unfold mode_product. rewrite !shp_gen, HX. destruct (matrix_is_mat _ _ _ (HM k)) as (_ & -> & _). reflexivity. }
    split; [|exact E]. intros idx Hv. pose proof Hv as Hv0. unfold mode_product in Hv. rewrite shp_gen in Hv.
    eapply cv_ext with (f := fun k => bigsum (ncols M) (fun j => get (Xs k) (replace n j idx) * mget (Ms k) (nth n idx 0%nat) j)).
    { intros k. unfold mode_product. rewrite get_gen.
      - destruct (matrix_is_mat _ _ _ (HM k)) as (_ & _ & ->). reflexivity.
      - specialize (E k). unfold mode_product in E. rewrite !shp_gen in E. rewrite E. exact Hv. }
    unfold mode_product. rewrite get_gen by exact Hv.
    apply (cv_bigsum (ncols M) (fun k j => get (Xs k) (replace n j idx) * mget (Ms k) (nth n idx 0%nat) j)). intros j Hj.
    apply (CV_mult (fun k => get (Xs k) (replace n j idx))).
    - apply H. apply valid_replace with (d := nrows M); auto. rewrite <- Hc. exact Hj.
    - apply HMc; auto. pose proof (valid_nth _ _ n Hv) as V. rewrite replace_length in V. specialize (V Hn). rewrite nth_replace, Nat.eqb_refl in V by exact Hn. exact V.
  Qed.

  Lemma cv_mode_products (As : nat -> list (tensor R)) A ks : NoDup ks -> (forall j, In j ks -> (j < length A)%nat) -> factors_cv As A ->
    (forall k j, In j ks -> is_mat (mat_at (As k) j) (nrows (mat_at A j)) (ncols (mat_at A j))) ->
    forall Ys Y, (forall k, shp (Ys k) = shp Y) -> tensor_cv Ys Y -> (forall j, In j ks -> (j < ndims Y)%nat /\ nth j (shp Y) 0%nat = nrows (mat_at A j)) ->
    tensor_cv (fun k => mode_products (Ys k) (plt (As k) ks)) (mode_products Y (plt A ks)).
  Proof.
    induction ks as [|j ks IH]; intros ND Hlt Hcv Hm Ys Y HS HY HF; [exact HY|].
    inversion ND as [|? ? Hnin ND']; subst. unfold mode_products, plt. cbn [map fold_left fst snd].
    destruct (HF j (or_introl eq_refl)) as [Hj Ej].
    destruct (cv_mode_product Ys Y (fun k => mtrans (mat_at (As k) j)) (mtrans (mat_at A j)) j) as [C1 C2]; auto.
    - intros k. destruct (matrix_is_mat _ _ _ (Hm k j (or_introl eq_refl))) as (_ & E1 & E2). unfold mtrans at 1. rewrite E1, E2. apply is_mat_mgen.
    - intros a b Ha Hb. change (nrows (mtrans (mat_at A j))) with (ncols (mat_at A j)) in Ha. change (ncols (mtrans (mat_at A j))) with (nrows (mat_at A j)) in Hb.
      eapply cv_ext; [|eapply cv_ext_l; [|apply (Hcv j b a); auto; apply Hlt; left; auto]].
      + intros k. cbv beta. unfold mtrans. destruct (matrix_is_mat _ _ _ (Hm k j (or_introl eq_refl))) as (_ & E1 & E2). rewrite mget_mgen by (rewrite ?E1, ?E2; auto). reflexivity.
      + unfold mtrans. rewrite mget_mgen by auto. reflexivity.
    - apply (IH ND' (fun i Hi => Hlt i (or_intror Hi)) Hcv (fun k i Hi => Hm k i (or_intror Hi)) _ _ C2 C1).
      intros i Hi. destruct (HF i (or_intror Hi)) as [Hi1 Hi2]. unfold mode_product, ndims. rewrite shp_gen, replace_length. split; [exact Hi1|].
      rewrite nth_replace_ne; [exact Hi2|]. intros ->. contradiction.
  Qed.

  Variables (X : tensor R) (ranks : list nat).

  Lemma cv_project As A : (forall k, tucker_factors X ranks (As k)) -> tucker_factors X ranks A -> factors_cv As A ->
    tensor_cv (fun k => project X (As k)) (project X A).
  Proof.
    intros HAs HA H. rewrite project_plt. unfold tensor_cv. intros idx Hv.
    eapply cv_ext with (f := fun k => get (mode_products X (plt (As k) (seq 0 (length A)))) idx).
    { intros k. rewrite project_plt. rewrite (proj1 (HAs k)), (proj1 HA). reflexivity. }
    apply (cv_mode_products As A (seq 0 (length A))); auto.
    - apply seq_NoDup.
    - intros j Hj. apply in_seq in Hj. lia.
    - intros k j Hj. apply in_seq in Hj. rewrite (proj1 HA) in Hj. destruct (matrix_is_mat _ _ _ (proj2 (proj2 HA) j ltac:(lia))) as (_ & E1 & E2). rewrite E1, E2.
      apply (HAs k). lia.
    - intros i _. apply cv_const.
    - intros j Hj. apply in_seq in Hj. rewrite (proj1 HA) in Hj. split; [lia|]. destruct (matrix_is_mat _ _ _ (proj2 (proj2 HA) j ltac:(lia))) as (_ & E1 & _). auto.
  Qed.

  Lemma cv_tucker As A Gs G : (forall k, tucker_factors X ranks (As k)) -> tucker_factors X ranks A -> factors_cv As A ->
    (forall k, shp (Gs k) = ranks) -> shp G = ranks -> tensor_cv Gs G ->
    tensor_cv (fun k => tucker_tensor (Gs k) (As k)) (tucker_tensor G A).
  Proof.
    intros HAs HA H Hs Hs' HG idx Hv. rewrite (tk_shape X ranks A HA) in Hv.
    assert (E : forall A G, tucker_factors X ranks A -> shp G = ranks -> get (tucker_tensor G A) idx =
      msum ranks (fun j => get G j * bigprod (ndims X) (fun k => mget (mat_at A k) (nth k idx 0%nat) (nth k j 0%nat)))).
    { intros A0 G0 HA0 HG0. pose proof (tk_shape X ranks A0 HA0 G0) as Es. unfold tucker_tensor in *. rewrite shp_gen in Es. rewrite get_gen by (rewrite Es; auto).
      rewrite HG0, (proj1 HA0). reflexivity. }
    rewrite E by auto. eapply cv_ext; [intros k; symmetry; apply E; auto|].
    apply (cv_msum ranks (fun k j => get (Gs k) j * bigprod (ndims X) (fun m => mget (mat_at (As k) m) (nth m idx 0%nat) (nth m j 0%nat)))
      (fun j => get G j * bigprod (ndims X) (fun m => mget (mat_at A m) (nth m idx 0%nat) (nth m j 0%nat)))). intros j Hj.
    apply (CV_mult (fun k => get (Gs k) j)); [apply HG; rewrite Hs'; auto|].
    apply (cv_bigprod (ndims X) (fun k m => mget (mat_at (As k) m) (nth m idx 0%nat) (nth m j 0%nat))). intros m Hm.
    destruct (matrix_is_mat _ _ _ (proj2 (proj2 HA) m Hm)) as (_ & E1 & E2). apply H; [rewrite (proj1 HA); exact Hm| |].
    - rewrite E1. apply valid_nth; auto.
    - rewrite E2. apply valid_nth; auto. rewrite (proj1 (proj2 HA)). exact Hm.
  Qed.

  Lemma cv_tucker_err As A Gs G : (forall k, tucker_factors X ranks (As k)) -> tucker_factors X ranks A -> factors_cv As A ->
    (forall k, shp (Gs k) = ranks) -> shp G = ranks -> tensor_cv Gs G ->
    Un_cv (fun k => sqdist X (tucker_tensor (Gs k) (As k))) (sqdist X (tucker_tensor G A)).
  Proof. intros. apply (cv_sqdist X (fun k => tucker_tensor (Gs k) (As k))); [apply (tk_shape X ranks A); auto|]. apply cv_tucker; auto. Qed.
End Tucker.
