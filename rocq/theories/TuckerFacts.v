(** HOSVD and HOOI over the reals: sizes, energy, optimality of one sweep. *)

From Coq Require Import ZArith List Bool Arith Lia Permutation Reals Lra Psatz.
From Verif Require Import Num Py Tensor TF TensorFacts TFFacts Sums Ops Types Loss Fact Spec SpecR LayoutFacts SpecFacts MulFacts TtmFacts SkipFacts TtmLemmas Matricize
  KronFacts RSums MatR KronAlg LossFacts SpecTrain TrainLemmas BcuFacts SpecTucker MultiR SvdFacts.
Import ListNotations.
Local Open Scope R_scope.

(** ** projections onto orthonormal factors *)
Definition pl (A : list (tensor R)) (ks : list nat) := map (fun k => (mat_at A k, k)) ks.
Definition plt (A : list (tensor R)) (ks : list nat) := map (fun k => (mtrans (mat_at A k), k)) ks.

Lemma tl_pl A ks : MultiR.tl (pl A ks) = plt A ks.
Proof. unfold MultiR.tl, pl, plt. rewrite map_map. reflexivity. Qed.
Lemma snd_pl A ks : map snd (pl A ks) = ks.
Proof. unfold pl. rewrite map_map. apply map_id. Qed.
Lemma snd_plt A ks : map snd (plt A ks) = ks.
Proof. unfold plt. rewrite map_map. apply map_id. Qed.

Lemma project_plt X A : project X A = mode_products X (plt A (seq 0 (length A))).
Proof.
  unfold project. f_equal. rewrite (combine_nth_map (map mtrans A) (seq 0 (length A)) (mkT [] []) 0%nat).
  - rewrite map_length. unfold plt. apply map_ext_in. intros k Hk. apply in_seq in Hk.
    rewrite seq_nth by lia. unfold mat_at. rewrite nth_map_lt with (da := mkT [] []) by lia. reflexivity.
  - rewrite map_length, seq_length. reflexivity.
Qed.

Section Project.
  Variables (X : tensor R) (ranks : list nat).
  Hypothesis HX : wf X.

  Lemma fs_plt A k : factor_state X ranks A -> (k < ndims X)%nat -> pair_fits (shp X) (mtrans (mat_at A k), k).
  Proof.
    intros [_ H] Hk. destruct (H k Hk) as [Hm _]. split; [exact Hk|]. split; [apply matrix_mtrans|].
    change (ncols (fst (mtrans (mat_at A k), k))) with (nrows (mat_at A k)).
    destruct (matrix_is_mat _ _ _ Hm) as (_ & E & _). exact E.
  Qed.

  Lemma fs_plts A ks p : factor_state X ranks A -> (forall k, In k ks -> (k < ndims X)%nat) -> In p (plt A ks) -> pair_fits (shp X) p.
  Proof. intros HA Hk Hp. apply in_map_iff in Hp as (k & <- & Hi). apply fs_plt; auto. Qed.

  (** sizes after projecting some modes *)
  Lemma proj_shape A ks k : factor_state X ranks A -> NoDup ks -> (forall j, In j ks -> (j < ndims X)%nat) -> (k < ndims X)%nat ->
    nth k (shp (mode_products X (plt A ks))) 0%nat = if existsb (Nat.eqb k) ks then nth k ranks 0%nat else nth k (shp X) 0%nat.
  Proof.
    intros HA Hn Hks Hk. rewrite shp_mode_products. destruct (existsb (Nat.eqb k) ks) eqn:E.
    - apply existsb_In in E. rewrite (rshape_in _ _ (mtrans (mat_at A k)) k).
      + destruct HA as [_ H]. destruct (H k Hk) as [Hm _]. destruct (matrix_is_mat _ _ _ Hm) as (_ & _ & E'). exact E'.
      + rewrite snd_plt. exact Hn.
      + apply in_map_iff. exists k. auto.
      + exact Hk.
    - apply existsb_nIn in E. apply rshape_out. rewrite snd_plt. exact E.
  Qed.

  Lemma proj_ndims A ks : ndims (mode_products X (plt A ks)) = ndims X.
  Proof. unfold ndims. rewrite shp_mode_products. apply rshape_length. Qed.

  Variable A : list (tensor R).
  Hypothesis HA : factor_state X ranks A.
  Let N := ndims X.
  Let core := project X A.

  Lemma lenA : length A = N. Proof. apply HA. Qed.

  Lemma core_plt : core = mode_products X (plt A (seq 0 N)).
  Proof. unfold core. rewrite project_plt, lenA. reflexivity. Qed.
  Lemma core_wf : wf core.
  Proof. rewrite core_plt. apply wf_mode_products, HX. Qed.
  Lemma core_ndims : ndims core = N.
  Proof. rewrite core_plt. apply proj_ndims. Qed.
  Lemma core_shape k : (k < N)%nat -> nth k (shp core) 0%nat = nth k ranks 0%nat.
  Proof.
    intros Hk. rewrite core_plt, proj_shape; auto using seq_NoDup.
    - destruct (existsb (Nat.eqb k) (seq 0 N)) eqn:E; [reflexivity|]. apply existsb_nIn in E. exfalso. apply E. apply in_seq. lia.
    - intros j Hj. apply in_seq in Hj. unfold N in Hj. lia.
  Qed.

  Lemma A_fits k : (k < N)%nat -> matrix (mat_at A k) /\ nrows (mat_at A k) = nth k (shp X) 0%nat /\ ncols (mat_at A k) = nth k ranks 0%nat.
  Proof. intros Hk. destruct HA as [_ H]. destruct (H k Hk) as [Hm _]. apply (matrix_is_mat _ _ _ Hm). Qed.

  Lemma full_plt : tucker_tensor core A = mode_products core (pl A (seq 0 N)).
  Proof.
    rewrite <- (mode_products_tucker RLR core A).
    - f_equal. rewrite (combine_nth_map A (seq 0 (length A)) (mkT [] []) 0%nat) by (rewrite seq_length; auto).
      rewrite lenA. unfold pl. apply map_ext_in. intros k Hk. apply in_seq in Hk. rewrite seq_nth by lia. reflexivity.
    - apply core_wf.
    - rewrite lenA, core_ndims. reflexivity.
    - intros k Hk. rewrite lenA in Hk. destruct (A_fits k Hk) as (H1 & _ & H3). rewrite core_shape by auto. auto.
  Qed.

  Lemma full_shape : shp (tucker_tensor core A) = shp X.
  Proof.
    cbn [tucker_tensor]. unfold tucker_tensor. rewrite shp_gen. apply nth_ext with (d := 0%nat) (d' := 0%nat).
    - rewrite map_length. apply lenA.
    - intros k Hk. rewrite map_length, lenA in Hk. rewrite nth_map_lt with (da := mkT [] []) by (rewrite lenA; auto).
      apply (A_fits k Hk).
  Qed.

  Lemma full_wf : wf (tucker_tensor core A). Proof. apply wf_gen. Qed.

  Lemma pl_fits p : In p (pl A (seq 0 N)) -> pair_fits (shp core) p /\ orthonormal (fst p).
  Proof.
    intros Hp. apply in_map_iff in Hp as (k & <- & Hk). apply in_seq in Hk.
    assert (Hk' : (k < N)%nat) by lia. destruct (A_fits k Hk') as (H1 & _ & H3). split.
    - split; [|split]; cbn [fst snd]; auto.
      + fold (ndims core). rewrite core_ndims. auto.
      + rewrite core_shape; auto.
    - destruct HA as [_ H]. apply H. auto.
  Qed.

  Lemma dot_full : tdot X (tucker_tensor core A) = sqlen core.
  Proof.
    rewrite tdot_sym by (symmetry; apply full_shape). rewrite full_plt, tdot_mps.
    - rewrite tl_pl. replace (mode_products X (rev (plt A (seq 0 N)))) with core.
      + rewrite sqlen_tdot. reflexivity.
      + rewrite core_plt. apply (mode_products_perm RLR); auto.
        * apply Permutation_rev.
        * rewrite snd_plt. apply seq_NoDup.
        * intros p Hp. apply (fs_plts A (seq 0 N)); auto. intros k Hk. apply in_seq in Hk. unfold N in Hk. lia.
    - rewrite snd_pl. apply seq_NoDup.
    - intros p Hp. apply pl_fits; auto.
    - rewrite <- shp_mode_products, <- full_plt. symmetry. apply full_shape.
  Qed.

  Lemma len_full : sqlen (tucker_tensor core A) = sqlen core.
  Proof.
    rewrite !sqlen_tdot. rewrite full_plt, tdot_mps.
    - rewrite mps_ortho; [reflexivity|apply core_wf|rewrite snd_pl; apply seq_NoDup|apply pl_fits].
    - rewrite snd_pl. apply seq_NoDup.
    - intros p Hp. apply pl_fits; auto.
    - rewrite shp_mode_products. reflexivity.
  Qed.

  Lemma energy : sqdist X (tucker_tensor core A) = sqlen X - sqlen core.
  Proof. rewrite sqdist_expand by (symmetry; apply full_shape). rewrite dot_full, len_full. lra. Qed.

  (** the projection with mode n last *)
  Lemma core_last n : (n < N)%nat -> core = mode_product (mode_products X (plt A (others n N))) (mtrans (mat_at A n)) n.
  Proof.
    intros Hn. rewrite core_plt.
    rewrite (mode_products_perm RLR X (plt A (seq 0 N)) (plt A (others n N) ++ plt A [n])); auto.
    - unfold mode_products at 1. rewrite fold_left_app. reflexivity.
    - unfold plt. rewrite <- map_app. apply Permutation_map.
      rewrite <- (kolda_perm n N Hn). rewrite Permutation_app_comm. cbn [app]. apply perm_skip. symmetry. apply Permutation_rev.
    - rewrite snd_plt. apply seq_NoDup.
    - intros p Hp. apply (fs_plts A (seq 0 N)); auto. intros k Hk. apply in_seq in Hk. unfold N in Hk. lia.
  Qed.
End Project.

(** projecting more modes does not add energy *)
Lemma mp_shrinks (X U : tensor R) n : (n < ndims X)%nat -> matrix U -> nrows U = nth n (shp X) 0%nat -> orthonormal U ->
  sqdist X (mode_product (mode_product X (mtrans U) n) U n) = sqlen X - sqlen (mode_product X (mtrans U) n).
Proof.
  intros Hn HU Hr Ho. set (Y := mode_product X (mtrans U) n).
  assert (HsY : shp Y = replace n (ncols U) (shp X)) by reflexivity.
  assert (HnY : (n < ndims Y)%nat) by (unfold ndims; rewrite HsY, replace_length; exact Hn).
  assert (Hs : shp (mode_product Y U n) = shp X).
  { unfold mode_product at 1. rewrite shp_gen, HsY, replace_replace, Hr. apply replace_nth. }
  rewrite sqdist_expand by auto.
  assert (E1 : tdot X (mode_product Y U n) = sqlen Y).
  { rewrite tdot_sym by auto. rewrite tdot_mp; auto; [rewrite sqlen_tdot; reflexivity|].
    rewrite HsY, nth_replace_eq; auto. }
  assert (E2 : sqlen (mode_product Y U n) = sqlen Y).
  { rewrite !sqlen_tdot. rewrite tdot_mp; auto.
    - rewrite mp_ortho; auto; [apply wf_gen|]. rewrite HsY, nth_replace_eq; auto.
    - rewrite HsY, nth_replace_eq; auto. }
  rewrite E1, E2. lra.
Qed.

Lemma mp_shrinks_le (X U : tensor R) n : (n < ndims X)%nat -> matrix U -> nrows U = nth n (shp X) 0%nat -> orthonormal U ->
  sqlen (mode_product X (mtrans U) n) <= sqlen X.
Proof. intros Hn HU Hr Ho. pose proof (mp_shrinks X U n Hn HU Hr Ho). pose proof (sqdist_nonneg X (mode_product (mode_product X (mtrans U) n) U n)). lra. Qed.

(** ** orthonormal columns as functions *)
Lemma orthonormal_ortho (U : tensor R) : orthonormal U <-> ortho (nrows U) (ncols U) (mget U).
Proof.
  unfold orthonormal, ortho, meq, mm, tr, delta. split; intros H p q Hp Hq; specialize (H p q Hp Hq); rewrite (sumn_bigsum RLR) in *; exact H.
Qed.

Lemma ortho_cols m k r U : (r <= k)%nat -> ortho m k U -> ortho m r U.
Proof. intros Hr H p q Hp Hq. apply H; lia. Qed.

Lemma ortho_ext m k U U' : meq m k U U' -> ortho m k U -> ortho m k U'.
Proof.
  intros E H p q Hp Hq. rewrite <- (H p q Hp Hq). unfold mm, tr. apply sumnR_ext. intros i Hi. rewrite !E; auto.
Qed.

(** the r leading columns of a left singular factor *)
Definition leading (U : tensor R) (r : nat) : tensor R := mgen (nrows U) (Nat.min r (ncols U)) (fun i j => mget U i j).

Lemma leading_ok U r : matrix U -> orthonormal U -> orthonormal (leading U r).
Proof.
  intros HU H. apply orthonormal_ortho in H. apply orthonormal_ortho.
  change (nrows (leading U r)) with (nrows U). change (ncols (leading U r)) with (Nat.min r (ncols U)).
  apply ortho_ext with (U := mget U).
  - intros i j Hi Hj. unfold leading. rewrite mget_mgen; auto.
  - apply ortho_cols with (k := ncols U); [lia|exact H].
Qed.

Lemma columns_ok (U : tensor R) r : matrix U -> tf_columns U (Z.of_nat r) = Ok (leading U r).
Proof.
  intros [_ Hs]. unfold tf_columns. rewrite Hs. destruct (Z.ltb_spec (Z.of_nat r) 0); [lia|]. rewrite Nat2Z.id. reflexivity.
Qed.

Section Svd.
  Variables (M U W : tensor R) (s : nat -> R).
  Hypothesis HM : matrix M.
  Hypothesis H : thin_svd M U s W.
  Let m := nrows M. Let n := ncols M. Let k := Nat.min m n.

  Lemma svd_U : matrix U /\ nrows U = m /\ ncols U = k.
  Proof. destruct H as (HU & _). apply (matrix_is_mat _ _ _ HU). Qed.
  Lemma svd_HU : ortho m k (mget U).
  Proof. destruct svd_U as (_ & <- & <-). apply orthonormal_ortho. apply H. Qed.
  Lemma svd_HW : ortho n k (mget W).
  Proof. destruct H as (_ & HW & _ & Ho & _). destruct (matrix_is_mat _ _ _ HW) as (_ & E1 & E2). fold n in E1. fold m n k in E2. rewrite <- E1, <- E2. apply orthonormal_ortho. exact Ho. Qed.
  Lemma svd_HM : meq m n (mget M) (fun i j => sumn k (fun p => mget U i p * s p * mget W j p)).
  Proof. intros i j Hi Hj. rewrite (sumn_bigsum RLR). apply H; auto. Qed.

  Lemma svd_kyfan r V : (r <= k)%nat -> ortho m r V -> fro r n (mm m (tr V) (mget M)) <= fro r n (mm m (tr (mget U)) (mget M)).
  Proof.
    destruct H as (_ & _ & _ & _ & H5 & H6 & _).
    apply (ky_fan m n k (mget M) (mget U) (mget W) s svd_HU svd_HW svd_HM); auto.
  Qed.
  Lemma svd_tail r : (r <= k)%nat ->
    fro m n (mget M) - fro r n (mm m (tr (mget U)) (mget M)) = sumn (k - r) (fun p => (s (r + p)%nat)²).
  Proof.
    destruct H as (_ & _ & _ & _ & H5 & H6 & _).
    apply (tail_energy m n k (mget M) (mget U) (mget W) s svd_HU svd_HW svd_HM); auto.
  Qed.
End Svd.

(** energy of X x_n U^T through the unfolding *)
Lemma mp_energy (X U M : tensor R) n : (n < ndims X)%nat -> nth n (shp X) 0%nat <> 0%nat -> ncols U <> 0%nat ->
  nrows U = nth n (shp X) 0%nat -> unfold X (Z.of_nat n) = Ok M ->
  sqlen (mode_product X (mtrans U) n) = fro (ncols U) (rest n (shp X)) (mm (nth n (shp X) 0%nat) (tr (mget U)) (mget M)).
Proof.
  intros Hn H0 HU Hr HM. set (Y := mode_product X (mtrans U) n).
  assert (HsY : shp Y = replace n (ncols U) (shp X)) by reflexivity.
  assert (HnY : (n < ndims Y)%nat) by (unfold ndims; rewrite HsY, replace_length; exact Hn).
  assert (H0Y : nth n (shp Y) 0%nat <> 0%nat) by (rewrite HsY, nth_replace_eq; auto).
  destruct (unfold_ok Y n HnY H0Y) as (M' & HM' & _).
  rewrite (sqlen_unfold Y M' n HnY H0Y HM'). rewrite HsY, nth_replace_eq, rest_replace by exact Hn.
  apply fro_ext. intros i j Hi Hj.
  rewrite (mp_unfold X (mtrans U) M M' n Hn H0 HU Hr HM HM' i j); auto.
  apply mm_ext; auto. intros l Hl. unfold tr. apply mget_mtrans; auto. rewrite Hr. auto.
Qed.
