(** Real tensors: inner product, mode products and their adjoints, matricization. *)

From Coq Require Import ZArith List Bool Arith Lia Permutation Reals Lra Psatz.
From Verif Require Import Num Py Tensor TF TensorFacts TFFacts Sums Ops Spec SpecR LayoutFacts SpecFacts TtmFacts RSums MatR SpecTucker.
Import ListNotations.
Local Open Scope R_scope.

Definition tdot (X Y : tensor R) : R := isum (shp X) (fun i => get X i * get Y i).

Lemma sqlen_tdot X : sqlen X = tdot X X.
Proof. unfold sqlen, tdot. rewrite <- (isum_msum RLR). reflexivity. Qed.

Lemma sqlen_nonneg X : 0 <= sqlen X.
Proof. rewrite sqlen_tdot. apply isumR_nonneg. intros. apply Rle_0_sqr. Qed.

Lemma tdot_sym X Y : shp X = shp Y -> tdot X Y = tdot Y X.
Proof. intros E. unfold tdot. rewrite E. apply isum_ext. intros. apply Rmult_comm. Qed.

Lemma sqdist_expand X Y : shp X = shp Y -> sqdist X Y = sqlen X - 2 * tdot X Y + sqlen Y.
Proof.
  intros E. rewrite !sqlen_tdot. unfold sqdist, tdot. rewrite <- E, <- (isum_msum RLR).
  rewrite <- isumR_scale, <- isumR_sub, <- isumR_add. apply isum_ext. intros. unfold Rsqr. lra.
Qed.

Lemma sqdist_nonneg X Y : 0 <= sqdist X Y.
Proof. unfold sqdist. rewrite <- (isum_msum RLR). apply isumR_nonneg. intros. apply Rle_0_sqr. Qed.

Lemma sqdist_zero X Y : wf X -> wf Y -> shp X = shp Y -> sqdist X Y = 0 -> X = Y.
Proof.
  intros HX HY E H. apply tensor_ext; auto. intros idx Hv. unfold sqdist in H. rewrite <- (isum_msum RLR) in H.
  pose proof (isumR_zero_inv (shp X) _ (fun i _ => Rle_0_sqr _) H idx Hv) as Z. cbv beta in Z. apply Rsqr_0_uniq in Z. lra.
Qed.

(** sum over one axis first *)
Lemma isum_at (s : list nat) : forall n d (f : list nat -> R), (n < length s)%nat ->
  isum (replace n d s) f = isum (replace n 1%nat s) (fun idx => sumn d (fun k => f (replace n k idx))).
Proof.
  induction s as [|x s IH]; intros n d f H; [simpl in H; lia|].
  destruct n as [|n]; cbn [replace].
  - rewrite !(isum_cons RLR). rewrite (sumn_S RLR 0), sumn_0. Rn. rewrite Rplus_0_l. cbn [replace].
    transitivity (isum s (fun r => isum [d] (fun k => f (nth 0 k 0%nat :: r)))).
    + rewrite (isum_exchange RLR). rewrite (isum_cons RLR). apply sumn_ext. intros i Hi. rewrite (isum_nil RLR). reflexivity.
    + apply isum_ext. intros r Hr. rewrite (isum_cons RLR). apply sumn_ext. intros i Hi. rewrite (isum_nil RLR). reflexivity.
  - rewrite !(isum_cons RLR). apply sumn_ext. intros i Hi. simpl in H. rewrite IH by lia. apply isum_ext. intros r Hr.
    reflexivity.
Qed.

Lemma replace_replace {A} n (u v : A) l : replace n u (replace n v l) = replace n u l.
Proof. revert n. induction l as [|x l IH]; intros [|n]; simpl; auto. rewrite IH. reflexivity. Qed.
Lemma replace_nth n (l : list nat) : replace n (nth n l 0%nat) l = l.
Proof. revert n. induction l as [|x l IH]; intros [|n]; simpl; auto. rewrite IH. reflexivity. Qed.
Lemma nth_replace_eq n (v : nat) l : (n < length l)%nat -> nth n (replace n v l) 0%nat = v.
Proof. intros H. rewrite nth_replace by auto. rewrite Nat.eqb_refl. reflexivity. Qed.

Lemma valid_replace1 s n k d idx : (n < length s)%nat -> (k < d)%nat -> valid (replace n 1%nat s) idx ->
  valid (replace n d s) (replace n k idx).
Proof.
  intros Hn Hk Hv. apply (valid_replace (replace n d s) idx n k 1).
  - rewrite replace_length; auto.
  - rewrite replace_replace. auto.
  - rewrite nth_replace_eq; auto.
Qed.

Lemma get_mp (X M : tensor R) n idx : valid (replace n (nrows M) (shp X)) idx ->
  get (mode_product X M n) idx = sumn (ncols M) (fun k => get X (replace n k idx) * mget M (nth n idx 0%nat) k).
Proof. intros Hv. unfold mode_product. rewrite get_gen by auto. rewrite (sumn_bigsum RLR). reflexivity. Qed.

(** sums over a tensor along the fibres of mode n *)
Lemma tdot_at X Y n : (n < ndims X)%nat ->
  tdot X Y = isum (replace n 1%nat (shp X)) (fun idx => sumn (nth n (shp X) 0%nat) (fun k => get X (replace n k idx) * get Y (replace n k idx))).
Proof. intros H. unfold tdot. rewrite <- (replace_nth n (shp X)) at 1. apply isum_at. auto. Qed.

Lemma mtrans_rc (M : tensor R) : nrows (mtrans M) = ncols M /\ ncols (mtrans M) = nrows M.
Proof. split; reflexivity. Qed.
Lemma matrix_mtrans (M : tensor R) : matrix (mtrans M).
Proof. exact (is_mat_mgen _ _ _). Qed.
Lemma mget_mtrans (M : tensor R) i j : (i < ncols M)%nat -> (j < nrows M)%nat -> mget (mtrans M) i j = mget M j i.
Proof. intros. unfold mtrans. rewrite mget_mgen; auto. Qed.

(** <X x_n M, Y> = <X, Y x_n M^T> *)
Lemma tdot_mp (X Y M : tensor R) n : (n < ndims X)%nat -> ncols M = nth n (shp X) 0%nat ->
  shp Y = replace n (nrows M) (shp X) ->
  tdot (mode_product X M n) Y = tdot X (mode_product Y (mtrans M) n).
Proof.
  intros Hn Hc HY.
  rewrite (tdot_at (mode_product X M n) Y n) by (unfold ndims, mode_product; rewrite shp_gen, replace_length; exact Hn).
  rewrite (tdot_at X _ n Hn).
  change (shp (mode_product X M n)) with (replace n (nrows M) (shp X)). rewrite replace_replace, nth_replace_eq by exact Hn.
  apply isum_ext. intros idx Hv.
  transitivity (sumn (nrows M) (fun i => sumn (ncols M) (fun k => get X (replace n k idx) * mget M i k * get Y (replace n i idx)))).
  - apply sumn_ext. intros i Hi. rewrite get_mp by (apply valid_replace1; auto).
    rewrite <- sumnR_scale_r. apply sumn_ext. intros k Hk. rewrite replace_replace.
    rewrite nth_replace_eq; [reflexivity|]. rewrite (valid_length _ _ Hv), replace_length. exact Hn.
  - rewrite sumnR_ex, Hc. apply sumn_ext. intros k Hk. rewrite get_mp.
    + rewrite <- sumnR_scale. cbn [mtrans]. change (ncols (mtrans M)) with (nrows M). apply sumn_ext. intros i Hi.
      rewrite replace_replace, nth_replace_eq by (rewrite (valid_length _ _ Hv), replace_length; exact Hn).
      rewrite mget_mtrans by lia. lra.
    + change (nrows (mtrans M)) with (ncols M). rewrite HY, replace_replace. apply valid_replace1; auto. lia.
Qed.

(** two products in the same mode *)
Lemma mp_mp (X A B C : tensor R) n : (n < ndims X)%nat -> ncols B = nrows A -> nrows C = nrows B -> ncols C = ncols A ->
  (forall i j, (i < nrows B)%nat -> (j < ncols A)%nat -> sumn (ncols B) (fun k => mget B i k * mget A k j) = mget C i j) ->
  mode_product (mode_product X A n) B n = mode_product X C n.
Proof.
  intros Hn HBA HC1 HC2 H. apply tensor_ext; try apply wf_gen.
  - unfold mode_product. rewrite !shp_gen, replace_replace, HC1. reflexivity.
  - unfold mode_product at 1. rewrite !shp_gen. change (shp (mode_product X A n)) with (replace n (nrows A) (shp X)).
    rewrite replace_replace. intros idx Hv.
    assert (Hl : length idx = length (shp X)) by (rewrite (valid_length _ _ Hv), replace_length; reflexivity).
    rewrite get_mp by (change (shp (mode_product X A n)) with (replace n (nrows A) (shp X)); rewrite replace_replace; auto).
    rewrite get_mp by (rewrite HC1; auto).
    assert (Hi : (nth n idx 0 < nrows B)%nat).
    { pose proof (valid_nth _ _ n Hv) as G. rewrite replace_length, nth_replace_eq in G by exact Hn. apply G. exact Hn. }
    assert (Hv1 : forall k, (k < nrows A)%nat -> valid (replace n (nrows A) (shp X)) (replace n k idx)).
    { intros k Hk. apply (valid_replace (replace n (nrows A) (shp X)) idx n k (nrows B)).
      - rewrite replace_length; auto.
      - rewrite replace_replace; auto.
      - rewrite nth_replace_eq; auto. }
    transitivity (sumn (ncols B) (fun k => sumn (ncols A) (fun l => get X (replace n l idx) * (mget B (nth n idx 0%nat) k * mget A k l)))).
    + apply sumn_ext. intros k Hk. rewrite get_mp by (apply Hv1; lia). rewrite <- sumnR_scale_r. apply sumn_ext. intros l Hl'.
      rewrite replace_replace, nth_replace_eq by (rewrite Hl; exact Hn). lra.
    + rewrite sumnR_ex, HC2. apply sumn_ext. intros l Hl'. rewrite sumnR_scale, H by lia. reflexivity.
Qed.

(** product with a matrix that acts as the identity *)
Lemma mp_id (X A : tensor R) n : wf X -> (n < ndims X)%nat -> nrows A = nth n (shp X) 0%nat -> ncols A = nth n (shp X) 0%nat ->
  (forall i j, (i < nrows A)%nat -> (j < ncols A)%nat -> mget A i j = delta i j) -> mode_product X A n = X.
Proof.
  intros HX Hn Hr Hc H. apply tensor_ext; auto; [apply wf_gen| |].
  - unfold mode_product. rewrite shp_gen, Hr. apply replace_nth.
  - unfold mode_product at 1. rewrite shp_gen. rewrite Hr, replace_nth. intros idx Hv. rewrite get_mp by (rewrite Hr, replace_nth; auto).
    assert (Hi : (nth n idx 0 < nth n (shp X) 0)%nat) by (apply valid_nth; auto).
    transitivity (get X (replace n (nth n idx 0%nat) idx)); [|rewrite replace_nth; reflexivity].
    erewrite sumn_ext; [apply (sumnR_delta' (ncols A) (nth n idx 0%nat) (fun k => get X (replace n k idx))); lia|].
    cbv beta. intros k Hk. rewrite H by lia. rewrite delta_sym. reflexivity.
Qed.

(** X x_n U x_n U^T = X when U has orthonormal columns *)
Lemma mp_ortho (X U : tensor R) n : wf X -> (n < ndims X)%nat -> ncols U = nth n (shp X) 0%nat -> orthonormal U ->
  mode_product (mode_product X U n) (mtrans U) n = X.
Proof.
  intros HX Hn Hc HU.
  rewrite (mp_mp X U (mtrans U) (mgen (ncols U) (ncols U) delta) n); auto.
  - apply mp_id; auto. intros i j Hi Hj. change (nrows (mgen (ncols U) (ncols U) delta)) with (ncols U) in Hi.
    change (ncols (mgen (ncols U) (ncols U) delta)) with (ncols U) in Hj. rewrite mget_mgen; auto.
  - change (nrows (mtrans U)) with (ncols U). change (ncols (mtrans U)) with (nrows U). intros i j Hi Hj.
    rewrite mget_mgen by auto. unfold delta. rewrite <- (HU i j Hi Hj), <- (sumn_bigsum RLR). apply sumn_ext. intros k Hk.
    rewrite mget_mtrans by auto. reflexivity.
Qed.

(** *** lists of mode products *)
Definition tl (l : list (tensor R * nat)) : list (tensor R * nat) := map (fun p => (mtrans (fst p), snd p)) l.

Lemma tdot_mps l : forall X Y : tensor R, NoDup (map snd l) -> (forall p, In p l -> pair_fits (shp X) p) ->
  shp Y = rshape (shp X) l -> tdot (mode_products X l) Y = tdot X (mode_products Y (rev (tl l))).
Proof.
  induction l as [|p l IH]; intros X Y Hn Hf HY; [reflexivity|].
  cbn [map] in Hn. inversion Hn as [|? ? Hp Hn']; subst.
  destruct (Hf p (or_introl eq_refl)) as (P1 & P2 & P3).
  change (mode_products X (p :: l)) with (mode_products (mode_product X (fst p) (snd p)) l).
  rewrite IH; auto.
  - unfold tl. cbn [map rev]. unfold mode_products at 2. rewrite fold_left_app. cbn [fold_left]. cbn [fst snd].
    fold (mode_products Y (rev (map (fun p => (mtrans (fst p), snd p)) l))). apply tdot_mp; auto.
    rewrite shp_mode_products, HY. cbn [rshape fold_left].
    change (fold_left (fun s q => replace (snd q) (nrows (fst q)) s) l (replace (snd p) (nrows (fst p)) (shp X)))
      with (rshape (replace (snd p) (nrows (fst p)) (shp X)) l).
    assert (G : forall l s, NoDup (map snd l) -> (forall q, In q l -> snd q < length s /\ ncols (fst q) = nth (snd q) s 0)%nat ->
               rshape (rshape s l) (rev (tl l)) = s).
    { clear. induction l as [|q l IH]; intros s Hn Hq; [reflexivity|].
      cbn [map] in Hn. inversion Hn as [|? ? Hp Hn']; subst.
      unfold tl. cbn [map rev]. unfold rshape at 1. rewrite fold_left_app. cbn [fold_left fst snd].
      change (fold_left (fun s0 r0 => replace (snd r0) (nrows (fst r0)) s0) (rev (map (fun r1 => (mtrans (fst r1), snd r1)) l)) (rshape s (q :: l)))
        with (rshape (rshape (replace (snd q) (nrows (fst q)) s) l) (rev (tl l))).
      rewrite IH; auto.
      - change (nrows (mtrans (fst q))) with (ncols (fst q)). rewrite replace_replace.
        destruct (Hq q (or_introl eq_refl)) as [_ ->]. apply replace_nth.
      - intros r Hr. destruct (Hq r (or_intror Hr)) as [H1 H2]. rewrite replace_length. split; auto.
        rewrite nth_replace_ne; auto. intros E. apply Hp. rewrite <- E. apply in_map; auto. }
    apply G; auto. intros q Hq. destruct (Hf q (or_intror Hq)) as (Q1 & Q2 & Q3). rewrite replace_length. split; auto.
    rewrite nth_replace_ne; auto. intros E. apply Hp. rewrite <- E. apply in_map; auto.
  - intros q Hq. apply pair_fits_replace; [apply Hf; right; auto|]. intros E. apply Hp. rewrite <- E. apply in_map; auto.
Qed.

Lemma mps_ortho l : forall X : tensor R, wf X -> NoDup (map snd l) -> (forall p, In p l -> pair_fits (shp X) p /\ orthonormal (fst p)) ->
  mode_products (mode_products X l) (rev (tl l)) = X.
Proof.
  induction l as [|p l IH]; intros X HX Hn Hf; [reflexivity|].
  cbn [map] in Hn. inversion Hn as [|? ? Hp Hn']; subst.
  destruct (Hf p (or_introl eq_refl)) as ((P1 & P2 & P3) & P4).
  change (mode_products X (p :: l)) with (mode_products (mode_product X (fst p) (snd p)) l).
  unfold tl. cbn [map rev]. unfold mode_products at 1. rewrite fold_left_app. cbn [fold_left fst snd].
  change (mode_product (mode_products (mode_products (mode_product X (fst p) (snd p)) l) (rev (tl l))) (mtrans (fst p)) (snd p) = X).
  rewrite IH; auto.
  - apply mp_ortho; auto.
  - apply wf_gen.
  - intros q Hq. destruct (Hf q (or_intror Hq)) as [Q1 Q2]. split; auto. apply pair_fits_replace; auto.
    intros E. apply Hp. rewrite <- E. apply in_map; auto.
Qed.
