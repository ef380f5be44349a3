(** The starting points of NCP_BCU and NTUCKER_BCU (C81): norms of the scaled draws, and the
    norm of a Kruskal or Tucker tensor is at most the product of the norms of its parts. *)

From Coq Require Import ZArith List Bool Arith Lia Reals Lra Psatz.
From Verif Require Import Num Py Tensor TF TensorFacts TFFacts Sums Ops OpsLemmas Types Loss Fact Train Spec SpecR LayoutFacts SpecFacts MulFacts TtmFacts SkipFacts TtmLemmas Matricize
  KronFacts RSums MatR KronAlg NormFacts SpecTucker MultiR SvdFacts TuckerFacts TuckerRun TuckerLemmas SpecCp SpecBcu BcuFacts SpecTrain TrainLemmas CpFacts AlsFacts AlsLemmas
  SpecProx Prox NcpFacts NcpLemmas NtFacts NtLemmas DataFacts NonZero SpecRetry TrainFacts Retry Exact SpecInit.
Import ListNotations.
Local Open Scope R_scope.

(** ** sums of products *)
Lemma sum_prod_le r m (f : nat -> nat -> R) : (forall k p, 0 <= f k p) ->
  sumn r (fun p => bigprod (S m) (fun k => f k p)) <= bigprod (S m) (fun k => sumn r (f k)).
Proof.
  intros Hf. induction m as [|m IH].
  - right. cbn [bigprod]. Rn. rewrite Rmult_1_l. apply sumn_ext. intros p _. cbn [bigprod]. Rn. ring.
  - apply Rle_trans with (sumn r (fun p => bigprod (S m) (fun k => f k p) * sumn r (f (S m)))).
    + apply sumnR_le. intros p Hp. change (bigprod (S m) (fun k => f k p) * f (S m) p <= bigprod (S m) (fun k => f k p) * sumn r (f (S m))).
      apply Rmult_le_compat_l; [apply bigprod_nonneg; intros; apply Hf|]. apply (sumnR_diag_le r (f (S m)) p); [intros; apply Hf|exact Hp].
    + rewrite sumnR_scale_r. change (bigprod (S (S m)) (fun k => sumn r (f k))) with (bigprod (S m) (fun k => sumn r (f k)) * sumn r (f (S m))).
      apply Rmult_le_compat_r; [apply sumnR_nonneg; intros; apply Hf|exact IH].
Qed.

Lemma sqlen_mat (M : tensor R) a b : is_mat M a b -> sqlen M = sumn a (fun i => sumn b (fun j => (mget M i j)²)).
Proof.
  intros [_ Hs]. unfold sqlen. rewrite Hs, <- (isum_msum RLR), (isum_cons RLR). apply sumn_ext. intros i _. rewrite (isum_cons RLR). apply sumn_ext. intros j _. apply (isum_nil RLR).
Qed.

Section Bound.
  Variables (U : list (tensor R)) (dims rk : list nat).
  Hypothesis HU : forall k, (k < length U)%nat -> is_mat (mat_at U k) (nth k dims 0%nat) (nth k rk 0%nat).
  Hypothesis Hrk : length rk = length U.
  Let N := length U.
  Let a i k p := (mget (mat_at U k) (nth k i 0%nat) p)².

  Lemma rows_of k : (k < N)%nat -> nth k (map nrows U) 0%nat = nth k dims 0%nat.
  Proof. intros Hk. rewrite (nth_map_lt _ U k (mkT [] [])) by exact Hk. unfold nrows. destruct (HU k Hk) as [_ E]. unfold mat_at in E. rewrite E. reflexivity. Qed.

  (** the sum over all indices of the products of row norms *)
  Lemma rows_prod : isum (map nrows U) (fun i => bigprod N (fun k => sumn (nth k rk 0%nat) (a i k))) = bigprod N (fun k => sqlen (mat_at U k)).
  Proof.
    pose proof (isum_bigprod RLR (map nrows U) (fun k x => sumn (nth k rk 0%nat) (fun p => (mget (mat_at U k) x p)²))) as H. rewrite map_length in H. fold N in H.
    etransitivity; [exact H|]. apply bigprod_ext. intros k Hk. rewrite rows_of by exact Hk. rewrite (sqlen_mat _ _ _ (HU k Hk)), (sumn_bigsum RLR). reflexivity.
  Qed.
End Bound.

Lemma bigprod_sqr n (f : nat -> R) : (bigprod n f)² = bigprod n (fun k => (f k)²).
Proof. unfold Rsqr. symmetry. apply (bigprod_mul RLR). Qed.

(** |[[A]]| <= prod |A_k| from order 2 on *)
Lemma kruskal_norm (U : list (tensor R)) dims r : (2 <= length U)%nat -> (forall k, (k < length U)%nat -> is_mat (mat_at U k) (nth k dims 0%nat) r) ->
  sqlen (cp_tensor r (ones r) U) <= bigprod (length U) (fun k => sqlen (mat_at U k)).
Proof.
  intros HN HU. assert (HU' : forall k, (k < length U)%nat -> is_mat (mat_at U k) (nth k dims 0%nat) (nth k (repeat r (length U)) 0%nat)).
  { intros k Hk. replace (nth k (repeat r (length U)) 0%nat) with r; [auto|]. symmetry. apply (repeat_spec (length U)), nth_In. rewrite repeat_length. exact Hk. }
  rewrite <- (rows_prod U dims (repeat r (length U)) HU'). unfold sqlen at 1. rewrite <- (isum_msum RLR). unfold cp_tensor at 1. cbn [shp gen]. apply isumR_le. intros i Hi.
  unfold cp_tensor. rewrite get_gen by exact Hi. rewrite <- (sumn_bigsum RLR).
  destruct (length U) as [|[|m]] eqn:EN; try lia.
  set (f := fun k p => mget (mat_at U k) (nth k i 0%nat) p).
  apply Rle_trans with (sumn r (fun p => (bigprod (S m) (fun k => f k p))²) * sumn r (fun p => (f (S m) p)²)).
  - eapply Rle_trans; [|apply sumnR_cauchy]. right. f_equal. apply sumn_ext. intros p Hp. unfold ones. rewrite mget_mgen by lia. cbn [bigprod]. unfold f. Rn. ring.
  - change (bigprod (S (S m)) ?g) with (bigprod (S m) g * g (S m)). cbv beta.
    assert (E : forall k, (k < S (S m))%nat -> nth k (repeat r (S (S m))) 0%nat = r).
    { intros k Hk. apply (repeat_spec (S (S m))), nth_In. rewrite repeat_length. exact Hk. }
    rewrite (E (S m)) by lia. apply Rmult_le_compat_r; [apply sumnR_nonneg; intros; apply Rle_0_sqr|].
    eapply Rle_trans; [|eapply Rle_trans; [apply (sum_prod_le r m (fun k p => (f k p)²)); intros; apply Rle_0_sqr|]].
    + right. apply sumn_ext. intros p _. apply bigprod_sqr.
    + right. apply bigprod_ext. intros k Hk. rewrite E by lia. reflexivity.
Qed.

(** |[[G; A]]| <= |G| prod |A_k| *)
Lemma tucker_norm (G : tensor R) (U : list (tensor R)) dims : ndims G = length U ->
  (forall k, (k < length U)%nat -> is_mat (mat_at U k) (nth k dims 0%nat) (nth k (shp G) 0%nat)) ->
  sqlen (tucker_tensor G U) <= sqlen G * bigprod (length U) (fun k => sqlen (mat_at U k)).
Proof.
  intros HG HU. rewrite <- (rows_prod U dims (shp G) HU), <- isumR_scale. unfold sqlen at 1. rewrite <- (isum_msum RLR). unfold tucker_tensor at 1. cbn [shp gen]. apply isumR_le. intros i Hi.
  unfold tucker_tensor. rewrite get_gen by exact Hi. rewrite <- (isum_msum RLR). eapply Rle_trans; [apply isumR_cauchy|]. right. f_equal.
  - unfold sqlen. apply (isum_msum RLR).
  - unfold ndims in HG. rewrite <- HG. pose proof (isum_bigprod RLR (shp G) (fun k x => (mget (mat_at U k) (nth k i 0%nat) x)²)) as H.
    etransitivity; [|etransitivity; [exact H|]].
    + apply isum_ext. intros j _. apply bigprod_sqr.
    + apply bigprod_ext. intros k _. symmetry. apply (sumn_bigsum RLR).
Qed.

(** ** the scaled draws *)
Lemma sqlen_norm (X : tensor R) : wf X -> tf_norm X = norm X.
Proof. intros H. rewrite (tf_norm_R X H). reflexivity. Qed.
Lemma norm_sqr (X : tensor R) : (norm X)² = sqlen X.
Proof. apply Rsqr_sqrt, sqlen_nonneg. Qed.
Lemma norm_nonneg (X : tensor R) : 0 <= norm X.
Proof. apply sqrt_pos. Qed.

Lemma exponent k : @ndiv R NumR n1 (nofZ (Z.of_nat k)) = 1 / INR k.
Proof. Rn. rewrite INR_IZR_INZ. reflexivity. Qed.

Section Scaled.
  Variables (pow : R -> R -> R) (X : tensor R) (k : nat).
  Hypothesis HP : roots pow.
  Hypothesis HX : wf X.
  Hypothesis Hk : (0 < k)%nat.
  Let p := pow (norm X) (1 / INR k).

  Lemma root_p : 0 <= p /\ p ^ k = norm X.
  Proof. apply HP; [apply norm_nonneg|exact Hk]. Qed.

  Lemma relu_get (d : tensor R) i : wf d -> valid (shp d) i -> get (tf_map nrelu d) i = Rmax 0 (get d i).
  Proof. intros Hd Hi. rewrite get_map by auto. rewrite nrelu_R. apply Rmax_comm. Qed.

  Lemma relu_pos (d : tensor R) : wf d -> has_positive d -> 0 < sqlen (tf_map nrelu d).
  Proof.
    intros Hd (i & Hi & Hx). apply sqlen_pos. exists i. split; [exact Hi|]. rewrite relu_get by auto. rewrite Rmax_right by lra. lra.
  Qed.

  Lemma init_get (d : tensor R) i : wf d -> valid (shp d) i ->
    get (norm_init pow X k (tf_map nrelu d)) i = / norm (tf_map nrelu d) * p * Rmax 0 (get d i).
  Proof.
    intros Hd Hi. unfold norm_init. rewrite get_map; [|apply wf_map, Hd|exact Hi]. rewrite relu_get by auto.
    rewrite exponent, (sqlen_norm X HX), (sqlen_norm (tf_map nrelu d) (wf_map _ _ Hd)). fold p. Rn. unfold Rdiv. ring.
  Qed.

  Lemma init_scaled (d : tensor R) : wf d -> has_positive d -> scaled_draw d (norm_init pow X k (tf_map nrelu d)).
  Proof.
    intros Hd Hpos. split; [apply wf_map, wf_map, Hd|]. split; [reflexivity|]. exists (/ norm (tf_map nrelu d) * p). split.
    - pose proof (relu_pos d Hd Hpos) as H. apply Rmult_le_pos; [|apply root_p]. apply Rlt_le, Rinv_0_lt_compat, sqrt_lt_R0, H.
    - intros i Hi. apply init_get; auto.
  Qed.

  Lemma init_norm (d : tensor R) : wf d -> has_positive d -> norm (norm_init pow X k (tf_map nrelu d)) = p.
  Proof.
    intros Hd Hpos. pose proof (relu_pos d Hd Hpos) as H. set (q := / norm (tf_map nrelu d)).
    assert (E : sqlen (norm_init pow X k (tf_map nrelu d)) = p²).
    { transitivity ((q * p)² * sqlen (tf_map nrelu d)).
      - unfold sqlen. rewrite <- !(isum_msum RLR), <- isumR_scale. cbn [norm_init tf_map shp]. apply isum_ext. intros i Hi.
        rewrite init_get by auto. rewrite relu_get by auto. fold q. unfold Rsqr. ring.
      - rewrite <- norm_sqr. unfold q. unfold Rsqr. assert (norm (tf_map nrelu d) <> 0); [|field; auto]. apply Rgt_not_eq, sqrt_lt_R0, H. }
    unfold norm at 1. rewrite E. apply sqrt_Rsqr. apply root_p.
  Qed.

  Lemma init_nonneg (d : tensor R) : wf d -> has_positive d -> nonneg (norm_init pow X k (tf_map nrelu d)).
  Proof.
    intros Hd Hpos x Hx. destruct (init_scaled d Hd Hpos) as (W & _ & c & Hc & Hg).
    rewrite (dat_gen_get _ W) in Hx. apply in_map_iff in Hx as (i & <- & Hi). apply in_indices in Hi. rewrite Hg by exact Hi. apply Rmult_le_pos; [exact Hc|apply Rmax_l].
  Qed.
End Scaled.

Lemma nonneg_get (t : tensor R) i : wf t -> nonneg t -> valid (shp t) i -> 0 <= get t i.
Proof. intros W H Hi. apply H. rewrite (dat_gen_get _ W). apply in_map, in_indices, Hi. Qed.
Lemma nonneg_mget (t : tensor R) a b i j : is_mat t a b -> nonneg t -> (i < a)%nat -> (j < b)%nat -> 0 <= mget t i j.
Proof. intros [W Hs] H Hi Hj. apply (nonneg_get t [i; j] W H). rewrite Hs. repeat constructor; auto. Qed.

(** a model no longer than X is at most twice |X| away, and at most sqrt 2 |X| if both are non-negative *)
Lemma short_model (X M : tensor R) : shp M = shp X -> sqlen M <= sqlen X -> sqdist X M <= 4 * sqlen X.
Proof.
  intros Hs Hl. rewrite sqdist_expand by auto. assert (H : (tdot X M)² <= sqlen X * sqlen M) by (rewrite !sqlen_tdot; unfold tdot; rewrite Hs; apply isumR_cauchy). pose proof (sqlen_nonneg X). pose proof (sqlen_nonneg M).
  assert (- tdot X M <= sqlen X); [|lra]. apply Rsqr_incr_0_var; [|lra]. rewrite <- Rsqr_neg. unfold Rsqr in *. nra.
Qed.
Lemma short_nonneg (X M : tensor R) : shp M = shp X -> wf X -> wf M -> nonneg X -> nonneg M -> sqlen M <= sqlen X -> sqdist X M <= 2 * sqlen X.
Proof.
  intros Hs WX WM NX NM Hl. rewrite sqdist_expand by auto. assert (0 <= tdot X M); [|lra]. apply isumR_nonneg. intros i Hi.
  apply Rmult_le_pos; [apply nonneg_get; auto|apply nonneg_get; auto; rewrite Hs; auto].
Qed.

Lemma bigprod_const n (c : R) : bigprod n (fun _ => c) = c ^ n.
Proof. induction n as [|n IH]; [reflexivity|]. cbn [bigprod pow]. Rn. rewrite IH. ring. Qed.
Lemma sqr_pow (c : R) n : (c²) ^ n = (c ^ n)².
Proof. unfold Rsqr. apply Rpow_mult_distr. Qed.

Lemma rows_shape (X : tensor R) (A : list (tensor R)) (c : nat -> nat) : length A = ndims X ->
  (forall k, (k < ndims X)%nat -> is_mat (mat_at A k) (nth k (shp X) 0%nat) (c k)) -> map nrows A = shp X.
Proof.
  intros L H. apply nth_ext with (d := 0%nat) (d' := 0%nat); rewrite map_length; [exact L|]. intros k Hk.
  rewrite (nth_map_lt _ A k (mkT [] [])) by exact Hk. unfold nrows. destruct (H k ltac:(lia)) as [_ E]. unfold mat_at in E. rewrite E. reflexivity.
Qed.

(** ** NCP_BCU *)
Section Ncp.
  Variables (pow : R -> R -> R) (X : tensor R) (r : nat) (rnd : list (tensor R)).
  Hypothesis HP : roots pow.
  Hypothesis HX : wf X.
  Hypothesis Hr : cp_factors X r rnd.
  Hypothesis Hpos : forall d, In d rnd -> has_positive d.
  Let s := ncp_init pow X rnd.

  Lemma ncp_init_at k : (k < ndims X)%nat -> mat_at (n_A s) k = norm_init pow X (ndims X) (tf_map nrelu (mat_at rnd k)) /\ wf (mat_at rnd k) /\ has_positive (mat_at rnd k).
  Proof.
    intros Hk. destruct Hr as [HL H]. split; [|split; [apply H, Hk|apply Hpos, nth_In; rewrite HL; exact Hk]].
    unfold s, ncp_init, mat_at. cbn [n_A]. rewrite (nth_map_lt _ rnd k (mkT [] [])) by (rewrite HL; exact Hk). reflexivity.
  Qed.

  Lemma c81_ncp_init : n_Am s = n_A s /\ n_A0 s = n_A s /\ n_t s = 1 /\ n_t0 s = 1 /\
    n_w s = repeat 1 (ndims X) /\ n_L s = repeat 1 (ndims X) /\ n_L0 s = repeat 1 (ndims X) /\ length (n_A s) = ndims X /\
    forall k, (k < ndims X)%nat -> scaled_draw (mat_at rnd k) (mat_at (n_A s) k) /\ norm (mat_at (n_A s) k) ^ ndims X = norm X.
  Proof.
    do 7 (split; [reflexivity|]). split; [unfold s, ncp_init; cbn [n_A]; rewrite map_length; apply Hr|].
    intros k Hk. destruct (ncp_init_at k Hk) as (-> & W & P). split; [apply init_scaled; auto; lia|]. rewrite init_norm by (auto; lia). apply root_p; auto. lia.
  Qed.

  Lemma ncp_init_nonneg M : In M (n_A s) -> nonneg M.
  Proof.
    intros H. apply (In_nth _ _ (mkT [] [])) in H as (k & Hk & <-).
    assert (Hk' : (k < ndims X)%nat) by (destruct Hr as [HL _]; rewrite <- HL; unfold s, ncp_init in Hk; cbn [n_A] in Hk; rewrite map_length in Hk; exact Hk).
    destruct (ncp_init_at k Hk') as (E & W & P). unfold mat_at in E at 1. rewrite E. apply init_nonneg; auto. lia.
  Qed.

  Let M := cp_tensor r (ones r) (n_A s).
  Lemma ncp_init_factors : cp_factors X r (n_A s).
  Proof. apply ncp_init_wf, Hr. Qed.
  Lemma ncp_model_shape : shp M = shp X.
  Proof. unfold M. cbn [cp_tensor shp gen]. apply (rows_shape X (n_A s) (fun _ => r)); apply ncp_init_factors. Qed.

  Lemma ncp_model_nonneg : nonneg M.
  Proof.
    intros x Hx. unfold M, cp_tensor in Hx. cbn [dat gen] in Hx. apply in_map_iff in Hx as (i & <- & Hi). apply in_indices in Hi.
    rewrite <- (sumn_bigsum RLR). apply sumnR_nonneg. intros q Hq. unfold ones. rewrite mget_mgen by lia. Rn. rewrite Rmult_1_l. apply bigprod_nonneg. intros k Hk.
    destruct ncp_init_factors as [HL HA]. rewrite HL in Hk. apply (nonneg_mget _ _ _ _ _ (HA k Hk)); [apply ncp_init_nonneg, nth_In; rewrite HL; exact Hk| |exact Hq].
    change (map nrows (n_A s)) with (shp M) in Hi. rewrite ncp_model_shape in Hi. apply valid_nth with (n := k) in Hi; auto.
  Qed.

  Lemma c81_ncp_model : (2 <= ndims X)%nat -> norm M <= norm X /\ sqdist X M <= 4 * sqlen X /\ (nonneg X -> sqdist X M <= 2 * sqlen X).
  Proof.
    intros Ho. destruct ncp_init_factors as [HL HA].
    assert (K : sqlen M <= sqlen X).
    { eapply Rle_trans; [apply (kruskal_norm (n_A s) (shp X) r); [lia|intros k Hk; apply HA; lia]|]. right.
      destruct (root_p pow X (ndims X) HP ltac:(lia)) as [P1 P2]. set (p := pow (norm X) (1 / INR (ndims X))) in *.
      transitivity (bigprod (length (n_A s)) (fun _ => p²)).
      - apply bigprod_ext. intros k Hk. rewrite HL in Hk. destruct (ncp_init_at k Hk) as (-> & W & P). rewrite <- norm_sqr, init_norm by (auto; lia). reflexivity.
      - rewrite bigprod_const, HL, sqr_pow, P2. apply norm_sqr. }
    split; [apply sqrt_le_1_alt, K|]. split; [apply short_model; [apply ncp_model_shape|exact K]|].
    intros Hn. apply short_nonneg; auto; [apply ncp_model_shape|apply wf_gen|apply ncp_model_nonneg].
  Qed.

  Lemma c81_ncp_first svals s2 full m : spectral svals -> (0 < r)%nat -> ncp_step svals X s = Ok (s2, full, m) ->
    (forall n, (n < ndims X)%nat -> nth n (n_L s2) 0 <> 0) ->
    m_obj m <= 2 * sqlen X /\ (nonneg X -> m_obj m <= sqlen X).
  Proof.
    intros HS H0 E HL. pose proof (ncp_init_wf pow X r rnd Hr) as W. fold s in W.
    destruct (c50_whole svals X r s s2 full m HS HX H0 W E eq_refl ncp_init_nonneg HL) as [D ->].
    assert (Ho : (2 <= ndims X)%nat).
    { destruct (le_lt_dec 2 (ndims X)); auto. destruct (ncp_step_fails svals X s) as (e & F); [apply ncp_init_factors|lia|congruence]. }
    destruct (c81_ncp_model Ho) as (_ & B1 & B2). fold M in D. split; [lra|]. intros Hn. specialize (B2 Hn). lra.
  Qed.
End Ncp.

(** ** NTUCKER_BCU *)
Section Nt.
  Variables (pow : R -> R -> R) (X : tensor R) (ranks : list nat) (rnd : list (tensor R)) (rndg : tensor R).
  Hypothesis HP : roots pow.
  Hypothesis HX : wf X.
  Hypothesis Hr : tucker_factors X ranks rnd.
  Hypothesis Hg : core_like ranks rndg.
  Hypothesis Hpos : forall d, In d rnd -> has_positive d.
  Hypothesis Hgpos : has_positive rndg.
  Let s := nt_init pow X rnd rndg.
  Let k1 := (ndims X + 1)%nat.

  Lemma nt_init_at k : (k < ndims X)%nat -> mat_at (q_A s) k = norm_init pow X k1 (tf_map nrelu (mat_at rnd k)) /\ wf (mat_at rnd k) /\ has_positive (mat_at rnd k).
  Proof.
    intros Hk. destruct Hr as (HL & _ & H). split; [|split; [apply H, Hk|apply Hpos, nth_In; rewrite HL; exact Hk]].
    unfold s, nt_init, mat_at. cbn [q_A]. rewrite (nth_map_lt _ rnd k (mkT [] [])) by (rewrite HL; exact Hk). reflexivity.
  Qed.

  Lemma c81_nt_init : q_Am s = q_A s /\ q_A0 s = q_A s /\ q_gm s = q_g s /\ q_g0 s = q_g s /\ q_t s = 1 /\ q_t0 s = 1 /\
    q_w s = repeat 1 (ndims X + 1) /\ q_L s = repeat 1 (ndims X + 1) /\ q_L0 s = repeat 1 (ndims X + 1) /\ length (q_A s) = ndims X /\
    scaled_draw rndg (q_g s) /\ norm (q_g s) ^ (ndims X + 1) = norm X /\
    forall k, (k < ndims X)%nat -> scaled_draw (mat_at rnd k) (mat_at (q_A s) k) /\ norm (mat_at (q_A s) k) ^ (ndims X + 1) = norm X.
  Proof.
    do 9 (split; [reflexivity|]). split; [unfold s, nt_init; cbn [q_A]; rewrite map_length; apply Hr|].
    split; [apply init_scaled; auto; [lia|apply Hg]|]. split.
    { unfold s, nt_init. cbn [q_g]. rewrite init_norm; auto; [|lia|apply Hg]. apply root_p; auto. lia. }
    intros k Hk. destruct (nt_init_at k Hk) as (-> & W & P). unfold k1. split; [apply init_scaled; auto; lia|]. rewrite init_norm by (auto; lia). apply root_p; auto. lia.
  Qed.

  Lemma nt_init_nonneg M : In M (q_A s) -> nonneg M.
  Proof.
    intros H. apply (In_nth _ _ (mkT [] [])) in H as (k & Hk & <-).
    assert (Hk' : (k < ndims X)%nat) by (destruct Hr as [HL _]; rewrite <- HL; unfold s, nt_init in Hk; cbn [q_A] in Hk; rewrite map_length in Hk; exact Hk).
    destruct (nt_init_at k Hk') as (E & W & P). unfold mat_at in E at 1. rewrite E. apply init_nonneg; auto. unfold k1. lia.
  Qed.
  Lemma nt_init_core_nonneg : nonneg (q_g s).
  Proof. apply init_nonneg; auto; [lia|apply Hg]. Qed.

  Let M := tucker_tensor (q_g s) (q_A s).
  Lemma nt_init_factors : tucker_factors X ranks (q_A s) /\ core_like ranks (q_g s).
  Proof. destruct (nt_init_wf pow X ranks rnd rndg Hr Hg) as (H1 & _ & _ & H2 & _). auto. Qed.
  Lemma nt_model_shape : shp M = shp X.
  Proof. unfold M. cbn [tucker_tensor shp gen]. apply (rows_shape X (q_A s) (fun k => nth k ranks 0%nat)); apply nt_init_factors. Qed.

  Lemma nt_model_nonneg : nonneg M.
  Proof.
    intros x Hx. unfold M, tucker_tensor in Hx. cbn [dat gen] in Hx. apply in_map_iff in Hx as (i & <- & Hi). apply in_indices in Hi.
    destruct nt_init_factors as [(HL & HR & HA) [Wg Sg]].
    rewrite <- (isum_msum RLR). apply isumR_nonneg. intros j Hj. Rn. apply Rmult_le_pos; [apply nonneg_get; [exact Wg|apply nt_init_core_nonneg|exact Hj]|].
    apply bigprod_nonneg. intros k Hk. rewrite HL in Hk. apply (nonneg_mget _ _ _ _ _ (HA k Hk)); [apply nt_init_nonneg, nth_In; rewrite HL; exact Hk| |].
    - change (map nrows (q_A s)) with (shp M) in Hi. rewrite nt_model_shape in Hi. apply valid_nth with (n := k) in Hi; auto.
    - rewrite Sg in Hj. apply valid_nth with (n := k) in Hj; [exact Hj|]. rewrite HR. exact Hk.
  Qed.

  Lemma c81_nt_model : norm M <= norm X /\ sqdist X M <= 4 * sqlen X /\ (nonneg X -> sqdist X M <= 2 * sqlen X).
  Proof.
    destruct nt_init_factors as [(HL & HR & HA) [Wg Sg]].
    assert (K : sqlen M <= sqlen X).
    { eapply Rle_trans; [apply (tucker_norm (q_g s) (q_A s) (shp X)); [unfold ndims; rewrite Sg; congruence|intros k Hk; rewrite Sg; apply HA; lia]|]. right.
      destruct (root_p pow X k1 HP ltac:(unfold k1; lia)) as [P1 P2]. set (p := pow (norm X) (1 / INR k1)) in *.
      transitivity (p² * bigprod (length (q_A s)) (fun _ => p²)).
      - f_equal.
        + unfold s, nt_init. cbn [q_g]. rewrite <- norm_sqr, init_norm; auto; [lia|apply Hg].
        + apply bigprod_ext. intros k Hk. rewrite HL in Hk. destruct (nt_init_at k Hk) as (-> & W & P). rewrite <- norm_sqr, init_norm by (auto; unfold k1; lia). reflexivity.
      - rewrite bigprod_const, HL. change (p² * (p²) ^ ndims X) with ((p²) ^ S (ndims X)). replace (S (ndims X)) with k1 by (unfold k1; lia). rewrite sqr_pow, P2. apply norm_sqr. }
    split; [apply sqrt_le_1_alt, K|]. split; [apply short_model; [apply nt_model_shape|exact K]|].
    intros Hn. apply short_nonneg; auto; [apply nt_model_shape|apply wf_gen|apply nt_model_nonneg].
  Qed.

  Lemma c81_nt_first svals s1 s2 full m : spectral svals -> nonempty ranks -> nt_core svals X s = Ok s1 -> nt_fact svals X s1 = Ok (s2, full, m) ->
    (forall n, (n <= ndims X)%nat -> nth n (q_L s2) 0 <> 0) ->
    m_obj m <= 2 * sqlen X /\ (nonneg X -> m_obj m <= sqlen X).
  Proof.
    intros HS H0 E1 E2 HL. pose proof (nt_init_wf pow X ranks rnd rndg Hr Hg) as W. fold s in W.
    destruct (c53_whole svals X ranks s s1 s2 full m HS HX H0 W E1 E2 eq_refl eq_refl nt_init_core_nonneg nt_init_nonneg HL) as [D ->].
    destruct c81_nt_model as (_ & B1 & B2). fold M in D. split; [lra|]. intros Hn. specialize (B2 Hn). lra.
  Qed.
End Nt.
