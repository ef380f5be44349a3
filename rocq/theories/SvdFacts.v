(** Matricization over the reals, Bessel's inequality and Ky Fan's principle. *)

From Coq Require Import ZArith List Bool Arith Lia Permutation Reals Lra Psatz.
From Verif Require Import Num Py Tensor TF TensorFacts TFFacts Sums Ops Spec SpecR LayoutFacts SpecFacts TtmFacts Matricize RSums MatR SpecTucker MultiR.
Import ListNotations.
Local Open Scope R_scope.

(** ** mode-n unfolding *)
Definition cax (n N : nat) : list nat := rev (others n N).

Lemma rest_prod n s : rest n s = prod (gather 0%nat (cax n (length s)) s).
Proof.
  unfold rest, cax, gather, pick. change nprod with prod. apply prod_perm, Permutation_map, Permutation_rev.
Qed.

Lemma unfold_mat (X M : tensor R) n : (n < ndims X)%nat -> nth n (shp X) 0%nat <> 0%nat -> unfold X (Z.of_nat n) = Ok M ->
  as_matrix X [n] (cax n (ndims X)) M /\ is_mat M (nth n (shp X) 0%nat) (rest n (shp X)).
Proof.
  intros Hn H0 H. destruct (unfold_ok X n Hn H0) as (M' & H' & HM). rewrite H in H'. injection H' as <-.
  split; [exact HM|]. destruct HM as [HM _]. rewrite rest_prod. unfold gather in HM at 1. cbn [map prod] in HM.
  rewrite Nat.mul_1_r in HM. exact HM.
Qed.

(** a sum over all entries, row by row of the unfolding *)
Lemma isum_unfold (s : list nat) n (g : nat -> nat -> R) : (n < length s)%nat ->
  isum s (fun idx => g (nth n idx 0%nat) (ravel (gather 0%nat (cax n (length s)) s) (gather 0%nat (cax n (length s)) idx)))
  = sumn (nth n s 0%nat) (fun i => sumn (rest n s) (fun j => g i j)).
Proof.
  intros Hn. set (c := cax n (length s)).
  pose (f := fun l : list nat => g (nth 0 l 0%nat) (ravel (gather 0%nat c s) (skipn 1 l))).
  transitivity (isum s (fun idx => f (gather 0%nat (n :: c) idx))); [reflexivity|].
  rewrite (isum_gather RLR (n :: c) s f) by (apply (kolda_perm n _ Hn)).
  unfold gather at 1. cbn [map]. rewrite (isum_cons RLR). apply sumn_ext. intros i Hi.
  rewrite rest_prod. fold c. rewrite sumn_isum. reflexivity.
Qed.

Lemma tdot_unfold (X Y M M' : tensor R) n : (n < ndims X)%nat -> nth n (shp X) 0%nat <> 0%nat -> shp Y = shp X ->
  unfold X (Z.of_nat n) = Ok M -> unfold Y (Z.of_nat n) = Ok M' ->
  tdot X Y = dot2 (nth n (shp X) 0%nat) (rest n (shp X)) (mget M) (mget M').
Proof.
  intros Hn H0 HY HM HM'. apply unfold_mat in HM as [[_ HM] _]; auto.
  apply unfold_mat in HM' as [[_ HM'] _]; [|unfold ndims; rewrite HY; auto|rewrite HY; auto].
  unfold dot2. rewrite <- (isum_unfold (shp X) n (fun i j => mget M i j * mget M' i j) Hn).
  unfold tdot. apply isum_ext. intros idx Hv. unfold ndims in HM, HM'. rewrite HY in HM'.
  assert (E : ravel (gather 0%nat [n] (shp X)) (gather 0%nat [n] idx) = nth n idx 0%nat).
  { unfold gather. cbn [map ravel prod]. lia. }
  specialize (HM idx Hv). specialize (HM' idx Hv). rewrite E in HM, HM'. rewrite HM, HM'. reflexivity.
Qed.

Lemma sqlen_unfold (X M : tensor R) n : (n < ndims X)%nat -> nth n (shp X) 0%nat <> 0%nat -> unfold X (Z.of_nat n) = Ok M ->
  sqlen X = fro (nth n (shp X) 0%nat) (rest n (shp X)) (mget M).
Proof. intros Hn H0 H. rewrite sqlen_tdot. apply tdot_unfold; auto. Qed.

Lemma gather_others n (s : list nat) v : gather 0%nat (cax n (length s)) (replace n v s) = gather 0%nat (cax n (length s)) s.
Proof.
  unfold gather. apply map_ext_in. intros k Hk. apply in_rev, in_others in Hk. apply nth_replace_ne. lia.
Qed.

Lemma rest_replace n s v : rest n (replace n v s) = rest n s.
Proof. rewrite !rest_prod, replace_length, gather_others. reflexivity. Qed.

Lemma mp_unfold (X A M M' : tensor R) n : (n < ndims X)%nat -> nth n (shp X) 0%nat <> 0%nat -> nrows A <> 0%nat ->
  ncols A = nth n (shp X) 0%nat ->
  unfold X (Z.of_nat n) = Ok M -> unfold (mode_product X A n) (Z.of_nat n) = Ok M' ->
  meq (nrows A) (rest n (shp X)) (mget M') (mm (nth n (shp X) 0%nat) (mget A) (mget M)).
Proof.
  intros Hn H0 HA Hc HM HM'. apply unfold_mat in HM as [[_ HM] _]; auto.
  set (Y := mode_product X A n) in *.
  assert (HsY : shp Y = replace n (nrows A) (shp X)) by reflexivity.
  assert (HnY : ndims Y = ndims X) by (unfold ndims; rewrite HsY; apply replace_length).
  apply unfold_mat in HM' as [[_ HM'] _]; [|lia|rewrite HsY, nth_replace_eq; auto].
  intros i j Hi Hj.
  destruct (as_matrix_surj Y [n] (cax n (ndims X)) i j) as (idx & Hv & Ei & Ej).
  { rewrite HnY. apply (kolda_perm n _ Hn). }
  { rewrite HsY. unfold gather. cbn [map prod]. rewrite nth_replace_eq by exact Hn. lia. }
  { rewrite HsY. unfold ndims. rewrite gather_others, <- rest_prod. exact Hj. }
  assert (Ei' : nth n idx 0%nat = i).
  { rewrite <- Ei. unfold gather. cbn [map ravel prod]. lia. }
  specialize (HM' idx Hv). rewrite HnY in HM'. rewrite Ei, Ej in HM'. rewrite HM'. unfold Y. rewrite get_mp by exact Hv.
  rewrite Ei', Hc. unfold mm. apply sumn_ext. intros k Hk. rewrite Rmult_comm. f_equal.
  assert (Hv' : valid (shp X) (replace n k idx)).
  { apply (valid_replace (shp X) idx n k (nrows A)); auto. }
  specialize (HM _ Hv').
  assert (Er : ravel (gather 0%nat [n] (shp X)) (gather 0%nat [n] (replace n k idx)) = k).
  { assert (Hl : (n < length idx)%nat) by (rewrite (valid_length _ _ Hv), HsY, replace_length; exact Hn).
    unfold gather. cbn [map ravel prod]. rewrite nth_replace_eq by exact Hl. lia. }
  rewrite Er in HM. rewrite <- HM. f_equal.
  rewrite <- Ej. rewrite HsY. unfold ndims. rewrite gather_others.
  replace (gather 0%nat (cax n (length (shp X))) (replace n k idx)) with (gather 0%nat (cax n (length (shp X))) idx); [reflexivity|].
  assert (Hl : length idx = length (shp X)) by (rewrite (valid_length _ _ Hv), HsY; apply replace_length).
  rewrite <- Hl. symmetry. apply gather_others.
Qed.

(** ** Bessel and Ky Fan *)

(** |V^T A|^2 <= |A|^2 for orthonormal columns V *)
Lemma bessel m r n V A : ortho m r V -> fro r n (mm m (tr V) A) <= fro m n A.
Proof.
  intros H. pose proof (fro_nonneg m n (fun i j => A i j - mm r V (mm m (tr V) A) i j)) as P.
  rewrite fro_sub in P. rewrite (fro_ortho m r n V (mm m (tr V) A) H) in P.
  rewrite (dot2_sym m n A), dot2_adj in P. fold (fro r n (mm m (tr V) A)) in P. lra.
Qed.

(** residual of the projection onto the columns of V *)
Lemma residual m r n V A : ortho m r V ->
  fro m n (fun i j => A i j - mm r V (mm m (tr V) A) i j) = fro m n A - fro r n (mm m (tr V) A).
Proof.
  intros H. rewrite fro_sub, (fro_ortho m r n V (mm m (tr V) A) H).
  rewrite (dot2_sym m n A), dot2_adj. fold (fro r n (mm m (tr V) A)). lra.
Qed.

Lemma sumn_split a b (f : nat -> R) : sumn (a + b) f = sumn a f + sumn b (fun i => f (a + i)%nat).
Proof.
  induction b as [|b IH]; [rewrite Nat.add_0_r, sumn_0; Rn; lra|].
  rewrite Nat.add_succ_r, !(sumn_S RLR), IH. Rn. lra.
Qed.

(** descending weights: capped coefficients with total at most r give at most the r first *)
Lemma rearrange k r (w c : nat -> R) : (r <= k)%nat ->
  (forall p, (p < k)%nat -> 0 <= w p) -> (forall p q, (p <= q)%nat -> (q < k)%nat -> w q <= w p) ->
  (forall p, (p < k)%nat -> 0 <= c p <= 1) -> sumn k c <= INR r ->
  sumn k (fun p => w p * c p) <= sumn r w.
Proof.
  intros Hr Hw Hd Hc Hs. replace k with (r + (k - r))%nat in * by lia. set (t := (k - r)%nat) in *.
  rewrite sumn_split in *.
  destruct t as [|t].
  { rewrite sumn_0. Rn. rewrite Rplus_0_r. apply sumnR_le. intros p Hp. specialize (Hw p ltac:(lia)). specialize (Hc p ltac:(lia)). nra. }
  set (b := w r).
  assert (H1 : sumn (S t) (fun i => w (r + i)%nat * c (r + i)%nat) <= b * sumn (S t) (fun i => c (r + i)%nat)).
  { rewrite <- sumnR_scale. apply sumnR_le. intros i Hi. pose proof (Hd r (r + i)%nat ltac:(lia) ltac:(lia)).
    specialize (Hc (r + i)%nat ltac:(lia)). unfold b. nra. }
  assert (H2 : b * (INR r - sumn r c) <= sumn r (fun p => w p - w p * c p)).
  { replace (b * (INR r - sumn r c)) with (sumn r (fun p => b * (1 - c p))).
    - apply sumnR_le. intros p Hp. pose proof (Hd p r ltac:(lia) ltac:(lia)). specialize (Hc p ltac:(lia)). unfold b. nra.
    - rewrite sumnR_scale. f_equal. rewrite sumnR_sub, sumnR_const. lra. }
  rewrite sumnR_sub in H2.
  assert (Hb : 0 <= b) by (apply Hw; lia).
  assert (H3 : b * sumn (S t) (fun i => c (r + i)%nat) <= b * (INR r - sumn r c)) by (apply Rmult_le_compat_l; lra).
  lra.
Qed.

(** M = U diag(s) W^T on m x n with k orthonormal columns in U and W *)
Section KyFan.
  Variables (m n k : nat) (M U W : mf) (s : nat -> R).
  Hypothesis HU : ortho m k U.
  Hypothesis HW : ortho n k W.
  Hypothesis HM : meq m n M (fun i j => sumn k (fun p => U i p * s p * W j p)).
  Hypothesis Hs : forall p, (p < k)%nat -> 0 <= s p.
  Hypothesis Hd : forall p q, (p <= q)%nat -> (q < k)%nat -> s q <= s p.

  (** |V^T M|^2 = sum_p s_p^2 |V^T u_p|^2 *)
  Lemma proj_energy r V : fro r n (mm m (tr V) M) = sumn k (fun p => (s p)² * fro r 1 (mm m (tr V) (fun i _ => U i p))).
  Proof.
    pose (B := fun q p => sumn m (fun i => V i q * U i p) * s p).
    assert (E : meq r n (mm m (tr V) M) (mm k B (tr W))).
    { intros q j Hq Hj. unfold mm, tr, B.
      transitivity (sumn m (fun i => sumn k (fun p => V i q * U i p * s p * W j p))).
      - apply sumnR_ext. intros i Hi. rewrite HM by auto. rewrite <- sumnR_scale. apply sumnR_ext. intros. lra.
      - rewrite sumnR_ex. apply sumnR_ext. intros p Hp. rewrite !sumnR_scale_r. reflexivity. }
    rewrite (fro_ext _ _ _ _ E). rewrite fro_tr.
    rewrite (fro_ext n r _ (mm k W (tr B))) by (intros i j _ _; rewrite tr_mm; reflexivity).
    rewrite (fro_ortho n k r W (tr B) HW). unfold fro, dot2, tr, B, mm. apply sumnR_ext. intros p Hp.
    rewrite <- sumnR_scale. apply sumnR_ext. intros q Hq. rewrite (sumn_S RLR 0), sumn_0. Rn. unfold Rsqr. ring.
  Qed.

  Lemma leading_energy r : (r <= k)%nat -> fro r n (mm m (tr U) M) = sumn r (fun p => (s p)²).
  Proof.
    intros Hr. rewrite proj_energy. rewrite <- (Nat.sub_add r k Hr), Nat.add_comm, sumn_split.
    assert (G : forall p, (p < k)%nat -> fro r 1 (mm m (tr U) (fun i _ => U i p)) = if Nat.ltb p r then 1 else 0).
    { intros p Hp. unfold fro, dot2.
      rewrite (sumnR_ext r _ (fun q => delta q p * delta q p)).
      - destruct (Nat.ltb_spec p r).
        + rewrite sumnR_delta by auto. unfold delta. rewrite Nat.eqb_refl. reflexivity.
        + apply sumnR_zero. intros q Hq. unfold delta. destruct (Nat.eqb_spec q p); [lia|lra].
      - intros q Hq. rewrite (sumn_S RLR 0), sumn_0. Rn. rewrite Rplus_0_l.
        change (mm m (tr U) (fun (i : nat) (_ : nat) => U i p) q 0%nat) with (mm m (tr U) U q p).
        rewrite (HU q p) by lia. reflexivity. }
    rewrite (sumnR_ext r _ (fun p => (s p)²)).
    - rewrite (sumnR_zero (k - r)); [lra|]. intros i Hi. rewrite G by lia. destruct (Nat.ltb_spec (r + i) r); [lia|]. lra.
    - intros p Hp. rewrite G by lia. destruct (Nat.ltb_spec p r); [|lia]. lra.
  Qed.

  (** Ky Fan: no r orthonormal directions capture more than the r leading ones *)
  Lemma ky_fan r V : (r <= k)%nat -> ortho m r V -> fro r n (mm m (tr V) M) <= fro r n (mm m (tr U) M).
  Proof.
    intros Hr HV. rewrite leading_energy, proj_energy by auto.
    apply rearrange; auto.
    - intros. apply Rle_0_sqr.
    - intros p q Hpq Hq. apply Rsqr_incr_1; auto. apply Hs. lia.
    - intros p Hp. split; [apply fro_nonneg|]. eapply Rle_trans; [apply bessel; exact HV|].
      unfold fro, dot2. rewrite (sumnR_ext m _ (fun i => U i p * U i p)) by (intros; rewrite (sumn_S RLR 0), sumn_0; Rn; lra).
      specialize (HU p p Hp Hp). unfold mm, tr, delta in HU. rewrite Nat.eqb_refl in HU. rewrite HU. lra.
    - apply Rle_trans with (fro k r (mm m (tr U) V)).
      + unfold fro, dot2, mm, tr. apply Req_le. apply sumnR_ext. intros p Hp. apply sumnR_ext. intros q Hq.
        rewrite (sumn_S RLR 0), sumn_0. Rn. rewrite Rplus_0_l. f_equal; apply sumnR_ext; intros; lra.
      + eapply Rle_trans; [apply bessel; exact HU|]. rewrite fro_tr. unfold fro, dot2, tr. apply Req_le.
        rewrite (sumnR_ext r _ (fun _ => 1)); [rewrite sumnR_const; lra|]. intros q Hq.
        specialize (HV q q Hq Hq). unfold mm, tr, delta in HV. rewrite Nat.eqb_refl in HV. exact HV.
  Qed.

  Lemma total_energy : fro m n M = sumn k (fun p => (s p)²).
  Proof.
    rewrite <- leading_energy by lia.
    pose proof (residual m k n U M HU) as E.
    assert (Z : fro m n (fun i j => M i j - mm k U (mm m (tr U) M) i j) = 0).
    { unfold fro, dot2. apply sumnR_zero. intros i Hi. apply sumnR_zero. intros j Hj.
      assert (E1 : mm k U (mm m (tr U) M) i j = M i j).
      { rewrite (HM i j Hi Hj). unfold mm at 1. apply sumnR_ext. intros p Hp.
        assert (E2 : mm m (tr U) M p j = s p * W j p).
        { unfold mm. rewrite (sumnR_ext m _ (fun a => sumn k (fun q => U a p * U a q * (s q * W j q)))).
          - rewrite sumnR_ex. rewrite (sumnR_ext k _ (fun q => (s q * W j q) * delta q p)).
            + apply (sumnR_delta' k p (fun q => s q * W j q) Hp).
            + intros q Hq. rewrite sumnR_scale_r. rewrite delta_sym. rewrite <- (HU p q Hp Hq). unfold mm, tr. lra.
          - intros a Ha. rewrite HM by auto. unfold tr. rewrite <- sumnR_scale. apply sumnR_ext. intros. lra. }
        rewrite E2. lra. }
      rewrite E1. lra. }
    lra.
  Qed.

  (** what the r leading directions miss *)
  Lemma tail_energy r : (r <= k)%nat -> fro m n M - fro r n (mm m (tr U) M) = sumn (k - r) (fun p => (s (r + p)%nat)²).
  Proof.
    intros Hr. rewrite total_energy, leading_energy by auto.
    replace k with (r + (k - r))%nat at 1 by lia. rewrite sumn_split. lra.
  Qed.
End KyFan.
