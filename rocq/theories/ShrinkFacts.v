(** shrink_np minimises: soft-thresholded singular values and mean (C84). *)

From Coq Require Import ZArith List Bool Arith Lia Reals Lra Psatz IndefiniteDescription.
From Verif Require Import Num Py Tensor TF TensorFacts TFFacts Sums Spec SpecR SpecFacts RSums MatR KronAlg SvdFacts MaxR Spectral
  PitfOps SpecPitf PitfFacts SpecRecover NucFacts SpecTucker SvdExists.
Import ListNotations.
Local Open Scope R_scope.

Lemma sqdiff_fro (A B : tensor R) r c : is_mat A r c -> sqdiff A B = fro r c (fun i j => mget A i j - mget B i j).
Proof.
  intros HA. destruct (is_mat_rc A r c HA) as (_ & _ & Er & Ec & _). unfold sqdiff. rewrite Er, Ec, bigsumR.
  apply sumnR_ext. intros i Hi. rewrite bigsumR. reflexivity.
Qed.
Lemma sqfro_fro (A : tensor R) r c : is_mat A r c -> sqfro A = fro r c (fun i j => mget A i j).
Proof.
  intros HA. destruct (is_mat_rc A r c HA) as (_ & _ & Er & Ec & _). unfold sqfro. rewrite Er, Ec, bigsumR.
  apply sumnR_ext. intros i Hi. rewrite bigsumR. reflexivity.
Qed.

Lemma is_mat_unique {T} (Z : tensor T) r c r' c' : is_mat Z r c -> is_mat Z r' c' -> r' = r /\ c' = c.
Proof. intros [_ H] [_ H']. rewrite H in H'. injection H' as -> ->. auto. Qed.

Lemma svd_mf (Z U W : tensor R) s r c : is_mat Z r c -> is_svd Z U s W ->
  let k := length s in
  ortho r k (mget U) /\ ortho c k (tr (mget W)) /\ (forall p, (p < k)%nat -> 0 <= nth p s 0) /\
  meq r c (mget Z) (lin k (mget U) (fun p => nth p s 0) (mget W)).
Proof.
  intros HZ (r' & c' & HZ' & HU & HW & Hl & [Hn _] & HE). destruct (is_mat_unique Z r c r' c' HZ HZ') as [-> ->]. cbv zeta.
  split; [|split; [|split]].
  - intros p q Hp Hq. destruct HU as (_ & H & _). unfold mm, tr. rewrite <- bigsumR. rewrite H by lia. reflexivity.
  - intros p q Hp Hq. destruct HW as (_ & _ & H). unfold mm, tr. rewrite <- bigsumR. rewrite H by lia. reflexivity.
  - intros p Hp. apply Hn, nth_In; auto.
  - intros i j Hi Hj. rewrite HE by auto. apply bigsumR.
Qed.

(** ** the sum of the singular values is a function of the matrix, defined everywhere *)
Lemma nuclear_unique (Z : tensor R) r c n n' : is_mat Z r c -> nuclear Z n -> nuclear Z n' -> n = n'.
Proof.
  intros HZ (U & s & W & HS & ->) (U' & s' & W' & HS' & ->). rewrite !bigsumR.
  destruct (svd_mf Z U W s r c HZ HS) as (H1 & H2 & H3 & H4). destruct (svd_mf Z U' W' s' r c HZ HS') as (H1' & H2' & H3' & H4').
  apply Rle_antisym.
  - apply (nuc_le r c _ (mget U) _ (mget W) _ (mget U') _ (mget W')); auto. intros i j Hi Hj. rewrite <- H4, <- H4' by auto. reflexivity.
  - apply (nuc_le r c _ (mget U') _ (mget W') _ (mget U) _ (mget W)); auto. intros i j Hi Hj. rewrite <- H4, <- H4' by auto. reflexivity.
Qed.

Lemma full_svd_mat (Z : tensor R) r c : is_mat Z r c -> exists U s W, is_svd Z U s W.
Proof.
  intros HZ. destruct (is_mat_rc Z r c HZ) as (_ & _ & Er & Ec & Es).
  assert (G : exists U W s, ortho r (Nat.min r c) U /\ ortho c (Nat.min r c) W /\
    (forall p, (p < Nat.min r c)%nat -> 0 <= s p) /\ (forall p q, (p <= q)%nat -> (q < Nat.min r c)%nat -> s q <= s p) /\
    forall i j, (i < r)%nat -> (j < c)%nat -> mget Z i j = sumn (Nat.min r c) (fun p => U i p * s p * W j p)).
  { destruct (le_ge_dec r c) as [H|H].
    - rewrite Nat.min_l by auto. apply (svd_wide r c (mget Z) H).
    - rewrite Nat.min_r by auto. destruct (svd_wide c r (fun i j => mget Z j i) H) as (U & W & s & H1 & H2 & H3 & H4 & H5).
      exists W, U, s. repeat (split; [auto|]). intros i j Hi Hj. rewrite (H5 j i) by auto. apply sumnR_ext. intros. ring. }
  destruct G as (U & W & s & H1 & H2 & H3 & H4 & H5). set (k := Nat.min r c) in *.
  destruct (complete r k U H1 (r - k)) as (U' & HU' & EU); [lia|]. replace (k + (r - k))%nat with r in HU' by lia.
  destruct (complete c k W H2 (c - k)) as (W' & HW' & EW); [lia|]. replace (k + (c - k))%nat with c in HW' by lia.
  assert (G : forall n Q, ortho n n Q -> orthogonal n (mgen n n Q) /\ orthogonal n (mgen n n (tr Q))).
  { intros n Q HQ. pose proof (ortho_square n Q HQ) as HQ'. split; (split; [apply is_mat_mgen|]); split; intros i j Hi Hj; rewrite bigsumR.
    - rewrite (sumnR_ext n _ (fun k => Q k i * Q k j)) by (intros; rewrite !mget_mgen by auto; reflexivity). exact (HQ i j Hi Hj).
    - rewrite (sumnR_ext n _ (fun k => Q i k * Q j k)) by (intros; rewrite !mget_mgen by auto; reflexivity). exact (HQ' i j Hi Hj).
    - rewrite (sumnR_ext n _ (fun k => Q i k * Q j k)) by (intros; rewrite !mget_mgen by auto; reflexivity). exact (HQ' i j Hi Hj).
    - rewrite (sumnR_ext n _ (fun k => Q k i * Q k j)) by (intros; rewrite !mget_mgen by auto; reflexivity). exact (HQ i j Hi Hj). }
  exists (mgen r r U'), (map s (seq 0 k)), (mgen c c (tr W')). exists r, c.
  split; [exact HZ|]. split; [exact (proj1 (G r U' HU'))|]. split; [exact (proj2 (G c W' HW'))|]. rewrite map_length, seq_length. split; [reflexivity|].
  split; [split|].
  - intros x Hx. apply in_map_iff in Hx. destruct Hx as (p & <- & Hp). apply in_seq in Hp. apply H3. lia.
  - intros i j Hij Hj. rewrite map_length, seq_length in Hj. rewrite !nth_map_seq by lia. apply H4; auto.
  - intros i j Hi Hj. rewrite H5 by auto. rewrite bigsumR. apply sumnR_ext. intros p Hp. rewrite nth_map_seq by auto.
    rewrite !mget_mgen by lia. unfold tr. rewrite EU, EW by auto. reflexivity.
Qed.

Lemma nuclear_exists (Z : tensor R) r c : is_mat Z r c -> exists n, nuclear Z n.
Proof. intros HZ. destruct (full_svd_mat Z r c HZ) as (U & s & W & HS). eexists. exists U, s, W. split; eauto. Qed.

Lemma minus_means_central (Z : tensor R) r c : is_mat Z r c -> exists Zc, centralization Z = Ok Zc /\ is_mat Zc r c /\ minus_means Z Zc /\
  forall Zc', minus_means Z Zc' -> Zc' = Zc.
Proof.
  intros HZ. destruct (c59 Z r c HZ) as (C & E & HC & He & _). exists C. destruct (is_mat_rc Z r c HZ) as (_ & _ & Er & Ec & _).
  split; [exact E|]. split; [exact HC|]. split.
  - split; rewrite Er, Ec; auto.
  - intros Zc' [H1 H2]. rewrite Er, Ec in *. apply (mat_ext _ _ r c); auto. intros i j Hi Hj. rewrite H2, He by auto. reflexivity.
Qed.

Lemma penalty_unique mode (Z : tensor R) r c p p' : is_mat Z r c -> penalty mode Z p -> penalty mode Z p' -> p = p'.
Proof.
  intros HZ. destruct mode; cbn [penalty].
  - apply (nuclear_unique Z r c); auto.
  - destruct (minus_means_central Z r c HZ) as (C & _ & HC & _ & Hu). intros (Z1 & n & H1 & H2 & ->) (Z2 & n' & H1' & H2' & ->).
    apply Hu in H1. apply Hu in H1'. subst. rewrite (nuclear_unique C r c n n'); auto.
Qed.
Lemma penalty_exists mode (Z : tensor R) r c : is_mat Z r c -> exists p, penalty mode Z p.
Proof.
  intros HZ. destruct mode; cbn [penalty]; [apply (nuclear_exists Z r c HZ)|].
  destruct (minus_means_central Z r c HZ) as (C & _ & HC & HM & _). destruct (nuclear_exists C r c HC) as (n & Hn). eexists. exists C, n. split; eauto.
Qed.

Lemma full_svd_exists : exists svd, full_svd svd.
Proof.
  destruct (functional_choice (fun (M : tensor R) (x : tensor R * list R * tensor R) =>
    forall r c, is_mat M r c -> is_svd M (fst (fst x)) (snd (fst x)) (snd x))) as (f & Hf).
  - intros M. destruct (list_eq_dec Nat.eq_dec (shp M) [nrows M; ncols M]) as [D|D].
    + destruct (Nat.eq_dec (length (dat M)) (prod (shp M))) as [D2|D2].
      * destruct (full_svd_mat M (nrows M) (ncols M)) as (U & s & W & HS); [split; auto|]. exists (U, s, W). intros; exact HS.
      * exists (M, [], M). intros r c [H _]. contradiction.
    + exists (M, [], M). intros r c H. destruct (is_mat_rc M r c H) as (_ & _ & E1 & E2 & E3). rewrite E1, E2 in D. contradiction.
  - exists f. intros M r c U s W HM E. specialize (Hf M r c HM). rewrite E in Hf. exact Hf.
Qed.

(** ** splitting off column means *)
Lemma fro_cols r c (A : mf) (b : nat -> R) : (forall j, (j < c)%nat -> sumn r (fun i => A i j) = 0) ->
  fro r c (fun i j => A i j + b j) = fro r c A + INR r * sumn c (fun j => (b j)²).
Proof.
  intros H. unfold fro, dot2. rewrite !(sumnR_ex r c). rewrite <- sumnR_scale, <- sumnR_add. apply sumnR_ext. intros j Hj.
  rewrite (sumnR_ext r _ (fun i => (A i j * A i j + A i j * (2 * b j)) + (b j)²)) by (intros; unfold Rsqr; ring).
  rewrite !sumnR_add, sumnR_const, sumnR_scale_r, H by auto. ring.
Qed.

(** centred Z: distance to M and to the centred M *)
Lemma centred_dist (Z M C : tensor R) r c : is_mat Z r c -> is_mat M r c -> centred Z -> centralization M = Ok C -> (0 < r)%nat ->
  fro r c (fun i j => mget Z i j - mget M i j) =
    fro r c (fun i j => mget Z i j - mget C i j) + INR r * sumn c (fun j => (col_sum M j / INR r)²).
Proof.
  intros HZ HM HcZ EC Hr. destruct (c59 M r c HM) as (C' & EC' & HC & He & HcC & _). rewrite EC in EC'. injection EC' as <-.
  rewrite (fro_ext r c _ (fun i j => (mget Z i j - mget C i j) + - (col_sum M j / INR r))).
  2:{ intros i j Hi Hj. rewrite He by auto. ring. }
  rewrite (fro_cols r c (fun i j => mget Z i j - mget C i j)).
  - do 2 f_equal. apply sumnR_ext. intros. unfold Rsqr. ring.
  - intros j Hj. rewrite sumnR_sub, <- (col_sum_R Z r c j HZ), <- (col_sum_R C r c j HC).
    rewrite HcZ, HcC; [ring| |]; [destruct (is_mat_rc C r c HC) as (_ & _ & _ & -> & _)|destruct (is_mat_rc Z r c HZ) as (_ & _ & _ & -> & _)]; auto.
Qed.

Lemma total_sum (M : tensor R) r c : is_mat M r c -> total M = sumn c (fun j => col_sum M j).
Proof. intros HM. unfold total. destruct (is_mat_rc M r c HM) as (_ & _ & _ & -> & _). apply bigsumR. Qed.

Lemma equal_sums_col (Z : tensor R) r c j : is_mat Z r c -> equal_sums Z -> (j < c)%nat -> col_sum Z j = total Z / INR c.
Proof.
  intros HZ He Hj. destruct (is_mat_rc Z r c HZ) as (_ & _ & _ & Ec & _). unfold equal_sums in He. rewrite Ec in He.
  rewrite (total_sum Z r c HZ), (sumnR_ext c _ (fun _ => col_sum Z j)) by (intros; apply He; auto). rewrite sumnR_const.
  field. apply not_0_INR. lia.
Qed.

Lemma sq_size r c : (0 < r)%nat -> (0 < c)%nat -> 0 < sqrt (INR (r * c)) /\ sqrt (INR (r * c)) * sqrt (INR (r * c)) = INR r * INR c.
Proof.
  intros Hr Hc. assert (0 < INR (r * c)) by (apply lt_0_INR; nia). split; [apply sqrt_lt_R0; auto|].
  rewrite sqrt_sqrt by lra. apply mult_INR.
Qed.

(** equal column sums: distance to M *)
Lemma equal_dist (Z M Zc C : tensor R) r c : is_mat Z r c -> is_mat M r c -> equal_sums Z -> (0 < r)%nat -> (0 < c)%nat ->
  centralization Z = Ok Zc -> centralization M = Ok C ->
  let q := sqrt (INR (r * c)) in
  fro r c (fun i j => mget Z i j - mget M i j) =
    fro r c (fun i j => mget Zc i j - mget C i j) + (total Z / q - total M / q)² +
    (INR r * sumn c (fun j => (col_sum M j / INR r)²) - (total M / q)²).
Proof.
  intros HZ HM HeZ Hr Hc EZ EC q. destruct (sq_size r c Hr Hc) as [Hq Hqq]. fold q in Hq, Hqq.
  destruct (c59 M r c HM) as (C' & EC' & HC & HeC & HcC & _). rewrite EC in EC'. injection EC' as <-.
  destruct (c59 Z r c HZ) as (Z' & EZ' & HZc & HeZc & HcZ & _). rewrite EZ in EZ'. injection EZ' as <-.
  assert (Ir : INR r <> 0) by (apply not_0_INR; lia). assert (Ic : INR c <> 0) by (apply not_0_INR; lia).
  rewrite (fro_ext r c _ (fun i j => (mget Zc i j - mget C i j) + (total Z / INR c / INR r - col_sum M j / INR r))).
  2:{ intros i j Hi Hj. rewrite HeC, HeZc by auto. rewrite (equal_sums_col Z r c j) by auto. ring. }
  rewrite (fro_cols r c (fun i j => mget Zc i j - mget C i j)).
  2:{ intros j Hj. rewrite sumnR_sub, <- (col_sum_R Zc r c j HZc), <- (col_sum_R C r c j HC).
      rewrite HcZ, HcC; [ring| |]; [destruct (is_mat_rc C r c HC) as (_ & _ & _ & -> & _)|destruct (is_mat_rc Zc r c HZc) as (_ & _ & _ & -> & _)]; auto. }
  rewrite Rplus_assoc. f_equal.
  rewrite (sumnR_ext c _ (fun j => ((total Z / INR c / INR r)² - (2 * (total Z / INR c / INR r) / INR r) * col_sum M j) + (col_sum M j / INR r)²)).
  2:{ intros j Hj. unfold Rsqr. field. auto. }
  rewrite sumnR_add, sumnR_sub, sumnR_const, sumnR_scale.
  change (sumn c (col_sum M)) with (sumn c (fun j => col_sum M j)). rewrite <- (total_sum M r c HM).
  set (K := sumn c _). unfold Rsqr. replace (total Z / q * (total Z / q)) with (total Z * total Z / (q * q)) by (field; lra).
  replace ((total Z / q - total M / q) * (total Z / q - total M / q)) with ((total Z - total M) * (total Z - total M) / (q * q)) by (field; lra).
  replace (total M / q * (total M / q)) with (total M * total M / (q * q)) by (field; lra).
  rewrite Hqq. field. auto.
Qed.

(** thresholding keeps the columns centred *)
Lemma lin_centred r c k U s W tau : ortho c k (tr W) -> (forall p, (p < k)%nat -> 0 <= s p) -> 0 <= tau ->
  (forall j, (j < c)%nat -> sumn r (fun i => lin k U s W i j) = 0) ->
  forall j, (j < c)%nat -> sumn r (fun i => lin k U (fun p => Rmax 0 (s p - tau)) W i j) = 0.
Proof.
  intros HW Hs Ht H.
  assert (E : forall d j, sumn r (fun i => lin k U d W i j) = sumn k (fun p => (sumn r (fun i => U i p) * d p) * W p j)).
  { intros d j. unfold lin. rewrite sumnR_ex. apply sumnR_ext. intros p Hp. rewrite <- !sumnR_scale_r. reflexivity. }
  assert (Hp0 : forall p, (p < k)%nat -> sumn r (fun i => U i p) * s p = 0).
  { intros p Hp. transitivity (sumn c (fun j => sumn r (fun i => lin k U s W i j) * W p j)).
    - rewrite (sumnR_ext c _ (fun j => sumn k (fun q => (sumn r (fun i => U i q) * s q) * (W q j * W p j)))).
      + rewrite sumnR_ex. rewrite (sumnR_ext k _ (fun q => (sumn r (fun i => U i q) * s q) * delta q p)).
        * rewrite sumnR_delta' by auto. reflexivity.
        * intros q Hq. rewrite sumnR_scale. f_equal. exact (HW q p Hq Hp).
      + intros j Hj. rewrite E, <- sumnR_scale_r. apply sumnR_ext. intros; ring.
    - apply sumnR_zero. intros j Hj. rewrite H by auto. ring. }
  intros j Hj. rewrite E. apply sumnR_zero. intros p Hp. specialize (Hp0 p Hp). specialize (Hs p Hp).
  apply Rmult_integral in Hp0. destruct Hp0 as [-> | Hz]; [ring|]. rewrite Hz. rewrite Rmax_left by lra. ring.
Qed.

(** ** the minimiser *)
Lemma shrink_normal svd (M : tensor R) tau r c : full_svd svd -> is_mat M r c -> 0 <= tau ->
  exists X C p, centralization M = Ok C /\ is_mat C r c /\ shrink_np svd M tau Normal = Ok X /\ is_mat X r c /\ centred X /\ nuclear X p /\
    (exists U s W, svd C = (U, s, W) /\ is_svd C U s W) /\
    forall Z n, is_mat Z r c -> nuclear Z n ->
      tau * p + /2 * fro r c (fun i j => mget X i j - mget C i j) + /2 * fro r c (fun i j => mget Z i j - mget X i j)
        <= tau * n + /2 * fro r c (fun i j => mget Z i j - mget C i j).
Proof.
  intros Hsvd HM Ht. destruct (c59 M r c HM) as (C & EC & HC & _ & HcC & _). destruct (svd C) as [[U s] W] eqn:ES.
  pose proof (Hsvd C r c U s W HC ES) as HS. destruct (c61_np svd M C U W s tau r c HM EC ES HS) as (X & EX & HX & _).
  assert (HXm : is_mat X r c).
  { destruct HS as (r1 & c1 & HC1 & HU1 & HW1 & _). destruct (is_mat_unique C r c r1 c1 HC HC1) as [-> ->].
    destruct HX as (r2 & c2 & HX2 & HU2 & HW2 & _). destruct (is_mat_unique U r r r2 r2 (proj1 HU1) (proj1 HU2)) as [-> _].
    destruct (is_mat_unique W c c c2 c2 (proj1 HW1) (proj1 HW2)) as [-> _]. exact HX2. }
  destruct (svd_mf C U W s r c HC HS) as (H1 & H2 & H3 & H4).
  assert (HXl : meq r c (mget X) (lin (length s) (mget U) (fun p => Rmax 0 (nth p s 0 - tau)) (mget W))).
  { destruct (svd_mf X U W _ r c HXm HX) as (_ & _ & _ & E). intros i j Hi Hj. rewrite E by auto. unfold lin.
    assert (El : length (thresholded tau s) = length s) by (unfold thresholded; apply map_length). rewrite El.
    apply sumnR_ext. intros p Hp. unfold thresholded. rewrite nth_map0 by auto. reflexivity. }
  exists X, C, (sumn (length s) (fun p => Rmax 0 (nth p s 0 - tau))).
  split; [exact EC|]. split; [exact HC|]. split; [exact EX|]. split; [exact HXm|]. split; [|split; [|split]].
  - intros j Hj. destruct (is_mat_rc X r c HXm) as (_ & _ & _ & Ec & _). rewrite Ec in Hj. rewrite (col_sum_R X r c j HXm).
    rewrite (sumnR_ext r _ (fun i => lin (length s) (mget U) (fun p => Rmax 0 (nth p s 0 - tau)) (mget W) i j)) by (intros; apply HXl; auto).
    apply (lin_centred r c (length s) (mget U) (fun p => nth p s 0) (mget W) tau); auto. intros j' Hj'.
    rewrite <- (sumnR_ext r (fun i => mget C i j')) by (intros; apply H4; auto). rewrite <- (col_sum_R C r c j' HC). apply HcC.
    destruct (is_mat_rc C r c HC) as (_ & _ & _ & -> & _). auto.
  - exists U, (thresholded tau s), W. split; [exact HX|]. rewrite bigsumR. unfold thresholded. rewrite map_length. apply sumnR_ext.
    intros p Hp. rewrite nth_map0 by auto. reflexivity.
  - exists U, s, W. auto.
  - intros Z n HZ (U' & s' & W' & HS' & ->). rewrite bigsumR. destruct (svd_mf Z U' W' s' r c HZ HS') as (H1' & H2' & H3' & H4').
    pose proof (shrink_min r c (length s) (mget U) (mget W) (fun p => nth p s 0) tau H1 H2 H3 Ht (length s') (mget U') (fun p => nth p s' 0) (mget W') (mget Z) H1' H2' H3' H4') as K.
    cbv zeta in K.
    rewrite (fro_ext r c (fun i j => mget X i j - mget C i j) (fun i j => lin (length s) (mget U) (fun p => Rmax 0 (nth p s 0 - tau)) (mget W) i j -
      lin (length s) (mget U) (fun p => nth p s 0) (mget W) i j)) by (intros i j Hi Hj; rewrite HXl, H4 by auto; reflexivity).
    rewrite (fro_ext r c (fun i j => mget Z i j - mget X i j) (fun i j => mget Z i j - lin (length s) (mget U) (fun p => Rmax 0 (nth p s 0 - tau)) (mget W) i j))
      by (intros i j Hi Hj; rewrite HXl by auto; reflexivity).
    rewrite (fro_ext r c (fun i j => mget Z i j - mget C i j) (fun i j => mget Z i j - lin (length s) (mget U) (fun p => nth p s 0) (mget W) i j))
      by (intros i j Hi Hj; rewrite H4 by auto; reflexivity).
    exact K.
Qed.

Theorem c84_min svd (M : tensor R) tau r c mode : full_svd svd -> is_mat M r c -> (0 < r)%nat -> (0 < c)%nat -> 0 <= tau ->
  exists X p, shrink_np svd M tau mode = Ok X /\ is_mat X r c /\ admissible mode X /\ penalty mode X p /\
    forall Z q, is_mat Z r c -> admissible mode Z -> penalty mode Z q ->
      (tau * p + /2 * sqdiff X M) + /2 * sqdiff Z X <= tau * q + /2 * sqdiff Z M.
Proof.
  intros Hsvd HM Hr Hc Ht. destruct (shrink_normal svd M tau r c Hsvd HM Ht) as (X & C & p & EC & HC & EX & HX & HcX & Hp & (U & s & W & ES & HS) & Hmin).
  destruct mode.
  - exists X, p. split; [exact EX|]. split; [exact HX|]. split; [exact HcX|]. split; [exact Hp|]. intros Z q HZ HcZ Hq. cbn [admissible penalty] in *.
    rewrite (sqdiff_fro X M r c HX), (sqdiff_fro Z X r c HZ), (sqdiff_fro Z M r c HZ).
    rewrite (centred_dist X M C r c), (centred_dist Z M C r c) by auto. specialize (Hmin Z q HZ Hq). lra.
  - destruct (c61_np_complicated svd M C U W s tau r c HM Ht EC ES HS) as (X' & Y & EX' & EY & HY & HYe). rewrite EX in EX'. injection EX' as <-.
    set (q0 := sqrt (INR (r * c))) in *. destruct (sq_size r c Hr Hc) as [Hq Hqq]. fold q0 in Hq, Hqq.
    set (d := total M / q0) in *. set (x := soft_threshold d tau) in *.
    assert (Ir : INR r <> 0) by (apply not_0_INR; lia). assert (Ic : INR c <> 0) by (apply not_0_INR; lia).
    destruct (is_mat_rc X r c HX) as (_ & _ & _ & EcX & _). destruct (is_mat_rc Y r c HY) as (_ & _ & ErY & EcY & _).
    assert (HcY : forall j, (j < c)%nat -> col_sum Y j = INR r * (x / q0)).
    { intros j Hj. rewrite (col_sum_R Y r c j HY). rewrite (sumnR_ext r _ (fun i => mget X i j + x / q0)) by (intros; apply HYe; auto).
      rewrite sumnR_add, sumnR_const, <- (col_sum_R X r c j HX), HcX by (rewrite EcX; auto). ring. }
    assert (HtY : total Y / q0 = x).
    { rewrite (total_sum Y r c HY). rewrite (sumnR_ext c _ (fun _ => INR r * (x / q0))) by (intros; apply HcY; auto). rewrite sumnR_const.
      transitivity (x * (INR r * INR c) / (q0 * q0)); [field; lra|]. rewrite Hqq. field. auto. }
    destruct (c59 Y r c HY) as (Yc & EYc & HYc & HYce & _).
    assert (EYX : Yc = X).
    { apply (mat_ext _ _ r c); auto. intros i j Hi Hj. rewrite HYce, HYe, HcY by auto. field. split; [lra|auto]. }
    subst Yc. exists Y, (p + Rabs x). split; [exact EY|]. split; [exact HY|]. split; [|split].
    + intros j j' Hj Hj'. rewrite EcY in Hj, Hj'. rewrite !HcY by auto. reflexivity.
    + exists X, p. split; [split; rewrite ErY, EcY; auto|]. split; [exact Hp|]. rewrite ErY, EcY. fold q0. rewrite <- HtY.
      unfold Rdiv. rewrite Rabs_mult, Rabs_inv, (Rabs_right q0) by lra. reflexivity.
    + intros Z q HZ HeZ (Zc & n & HZc & Hn & ->). cbn [admissible] in *. destruct (is_mat_rc Z r c HZ) as (_ & _ & ErZ & EcZ & _).
      destruct (minus_means_central Z r c HZ) as (Zc' & EZc & HZcm & _ & Hu). apply Hu in HZc. subst Zc'.
      assert (HeY : equal_sums Y). { intros j j' Hj Hj'. rewrite EcY in Hj, Hj'. rewrite !HcY by auto. reflexivity. }
      rewrite (sqdiff_fro Y M r c HY), (sqdiff_fro Z Y r c HZ), (sqdiff_fro Z M r c HZ).
      rewrite (equal_dist Y M X C r c) by auto. rewrite (equal_dist Z M Zc C r c) by auto. rewrite (equal_dist Z Y Zc X r c) by auto.
      cbv zeta. rewrite ErZ, EcZ. fold q0. rewrite HtY. fold d. set (z := total Z / q0).
      assert (EzY : INR r * sumn c (fun j => (col_sum Y j / INR r)²) - x² = 0).
      { rewrite (sumnR_ext c _ (fun _ => (x / q0)²)) by (intros; rewrite HcY by auto; unfold Rsqr; field; split; [lra|auto]).
        rewrite sumnR_const. unfold Rsqr. replace (INR r * (INR c * (x / q0 * (x / q0)))) with ((INR r * INR c) * x * x / (q0 * q0)) by (field; lra).
        rewrite Hqq. field. auto. }
      rewrite EzY. pose proof (Hmin Zc n HZcm Hn) as K. pose proof (soft_min d tau z Ht) as K2. cbv zeta in K2. fold (soft_threshold d tau) in K2. fold x in K2.
      replace (Rabs (total Z) / q0) with (Rabs z).
      2:{ unfold z, Rdiv. rewrite Rabs_mult, Rabs_inv, (Rabs_right q0) by lra. reflexivity. }
      lra.
Qed.

(** two results are no further apart than the inputs, measured along the inputs *)
Lemma sqdiff_sym (A B : tensor R) r c : is_mat A r c -> is_mat B r c -> sqdiff A B = sqdiff B A.
Proof.
  intros HA HB. rewrite (sqdiff_fro A B r c HA), (sqdiff_fro B A r c HB). unfold fro, dot2.
  apply sumnR_ext. intros i Hi. apply sumnR_ext. intros. ring.
Qed.
Lemma mdot_dot2 (A B : tensor R) r c : is_mat A r c -> mdot A B = dot2 r c (mget A) (mget B).
Proof.
  intros HA. destruct (is_mat_rc A r c HA) as (_ & _ & Er & Ec & _). unfold mdot. rewrite Er, Ec, bigsumR.
  apply sumnR_ext. intros i Hi. apply bigsumR.
Qed.

Theorem c84_firm svd (M1 M2 X1 X2 : tensor R) tau r c mode : full_svd svd -> is_mat M1 r c -> is_mat M2 r c -> (0 < r)%nat -> (0 < c)%nat -> 0 <= tau ->
  shrink_np svd M1 tau mode = Ok X1 -> shrink_np svd M2 tau mode = Ok X2 ->
  sqdiff X1 X2 <= dot2 r c (fun i j => mget M1 i j - mget M2 i j) (fun i j => mget X1 i j - mget X2 i j).
Proof.
  intros Hsvd H1 H2 Hr Hc Ht E1 E2.
  destruct (c84_min svd M1 tau r c mode Hsvd H1 Hr Hc Ht) as (Y1 & p1 & F1 & HX1 & A1 & P1 & K1). rewrite E1 in F1. injection F1 as <-.
  destruct (c84_min svd M2 tau r c mode Hsvd H2 Hr Hc Ht) as (Y2 & p2 & F2 & HX2 & A2 & P2 & K2). rewrite E2 in F2. injection F2 as <-.
  specialize (K1 X2 p2 HX2 A2 P2). specialize (K2 X1 p1 HX1 A1 P1).
  rewrite (sqdiff_sym X2 X1 r c) in K1 by auto.
  rewrite (sqdiff_fro X1 M1 r c), (sqdiff_fro X2 M1 r c), (sqdiff_fro X1 M2 r c), (sqdiff_fro X2 M2 r c) in * by auto.
  rewrite !fro_sub in *. rewrite dot2_sub_l, !dot2_sub_r.
  rewrite (dot2_sym r c (fun i j => mget X1 i j) (fun i j => mget M1 i j)), (dot2_sym r c (fun i j => mget X2 i j) (fun i j => mget M1 i j)),
    (dot2_sym r c (fun i j => mget X1 i j) (fun i j => mget M2 i j)), (dot2_sym r c (fun i j => mget X2 i j) (fun i j => mget M2 i j)) in *.
  change (fun i j => mget X1 i j) with (mget X1) in *. change (fun i j => mget X2 i j) with (mget X2) in *.
  change (fun i j => mget M1 i j) with (mget M1) in *. change (fun i j => mget M2 i j) with (mget M2) in *. lra.
Qed.

Theorem c84_nonexp svd (M1 M2 X1 X2 : tensor R) tau r c mode : full_svd svd -> is_mat M1 r c -> is_mat M2 r c ->
  (0 < r)%nat -> (0 < c)%nat -> 0 <= tau -> shrink_np svd M1 tau mode = Ok X1 -> shrink_np svd M2 tau mode = Ok X2 ->
  sqdiff X1 X2 <= sqdiff M1 M2.
Proof.
  intros Hsvd HM1 HM2 Hr Hc Ht E1 E2. pose proof (c84_firm svd M1 M2 X1 X2 tau r c mode Hsvd HM1 HM2 Hr Hc Ht E1 E2) as F.
  destruct (c84_min svd M1 tau r c mode Hsvd HM1 Hr Hc Ht) as (X & p & E & HX & _). rewrite E1 in E. injection E as <-.
  rewrite (sqdiff_fro X1 X2 r c HX) in *. rewrite (sqdiff_fro M1 M2 r c HM1).
  set (a := fun i j => mget M1 i j - mget M2 i j) in *. set (b := fun i j => mget X1 i j - mget X2 i j) in *.
  pose proof (fro_nonneg r c (fun i j => a i j - b i j)) as Q. rewrite fro_sub in Q. lra.
Qed.
