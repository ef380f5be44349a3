(** The Lipschitz constants of NCP_BCU and NTUCKER_BCU do not vanish while the model is
    nearer to the data than the zero tensor is (C50, C53). *)

From Coq Require Import ZArith List Bool Arith Lia Reals Lra Psatz.
From Verif Require Import Num Py Tensor TF TensorFacts TFFacts Sums Ops OpsLemmas Types Loss Fact Train Spec SpecR LayoutFacts SpecFacts MulFacts TtmFacts SkipFacts TtmLemmas Matricize
  KronFacts RSums MatR KronAlg NormFacts SpecTucker MultiR SvdFacts TuckerFacts TuckerRun TuckerLemmas SpecCp SpecBcu BcuFacts SpecTrain TrainLemmas CpFacts AlsFacts AlsLemmas
  SpecProx Prox NcpFacts NcpLemmas NtFacts NtLemmas DataFacts.
Import ListNotations.
Local Open Scope R_scope.

Lemma spectral_norm_zero (M : tensor R) : spectral_norm M 0 -> forall i j, (i < nrows M)%nat -> (j < ncols M)%nat -> mget M i j = 0.
Proof.
  intros (_ & H & _) i j Hi Hj. specialize (H (fun k => delta k j)). rewrite <- !(sumn_bigsum RLR) in H.
  set (f := fun i => (bigsum (ncols M) (fun k => mget M i k * delta k j))²) in H.
  assert (Z : sumn (nrows M) f = 0).
  { apply Rle_antisym; [unfold Rsqr in H at 1; lra|]. apply sumnR_nonneg. intros. apply Rle_0_sqr. }
  pose proof (sumnR_zero_inv _ _ (fun k _ => Rle_0_sqr _) Z i Hi) as Q. unfold f in Q. apply Rsqr_0_uniq in Q. rewrite <- (sumn_bigsum RLR), sumnR_delta' in Q by auto. exact Q.
Qed.

Lemma sqdist_zero_model (X Y : tensor R) : (forall i, valid (shp X) i -> get Y i = 0) -> sqdist X Y = sqlen X.
Proof.
  intros H. unfold sqdist, sqlen. rewrite <- !(isum_msum RLR). apply isum_ext. intros i Hi. rewrite H by auto. f_equal. lra.
Qed.

Lemma listprod_zero (l : list nat) (f : nat -> R) : listprod (map f l) = 0 -> exists k, In k l /\ f k = 0.
Proof.
  induction l as [|k l IH]; cbn [map listprod]; Rn; intros H; [lra|]. apply Rmult_integral in H as [H|H]; [exists k; cbn; auto|].
  destruct (IH H) as (k' & H1 & H2). exists k'. cbn. auto.
Qed.

Lemma gram_but_zero (X : tensor R) r A n : cp_factors X r A -> (n < ndims X)%nat -> spectral_norm (gram_but r A n) 0 ->
  sqdist X (cp_tensor r (ones r) A) = sqlen X.
Proof.
  intros [LA HA] Hn HS. apply sqdist_zero_model. intros idx Hv. unfold cp_tensor.
  assert (Es : map nrows A = shp X).
  { apply nth_ext with (d := 0%nat) (d' := 0%nat); rewrite map_length; [exact LA|]. intros k Hk. rewrite (nth_map_lt nrows A k (mkT [] [])) by auto. fold (mat_at A k).
    specialize (HA k ltac:(lia)). unfold nrows. rewrite (proj2 HA). reflexivity. }
  rewrite get_gen by (rewrite Es; exact Hv). rewrite <- (sumn_bigsum RLR). apply sumnR_zero. intros p Hp. Rn.
  pose proof (spectral_norm_zero _ HS p p Hp Hp) as Z. unfold gram_but in Z. rewrite mget_mgen in Z by auto.
  apply listprod_zero in Z as (k & Hk & Z). apply in_others in Hk. rewrite <- (sumn_bigsum RLR) in Z.
  rewrite (KronAlg.bigprod_zero RLR (length A) _ k); [Rn; lra|lia|].
  assert (Hi : (nth k idx 0 < nrows (mat_at A k))%nat).
  { specialize (HA k ltac:(lia)). unfold nrows. rewrite (proj2 HA). cbn [nth]. apply valid_nth; auto. unfold ndims in LA. lia. }
  pose proof (sumnR_zero_inv _ _ (fun i _ => Rle_0_sqr _) Z (nth k idx 0%nat) Hi) as Q. cbv beta in Q. Rn. apply Rsqr_0_uniq. exact Q.
Qed.

(** C50 without a condition on the constants *)
Lemma ncp_L_nonzero svals (X : tensor R) r s s2 full m : spectral svals -> (0 < r)%nat -> ncp_wf X r s -> ncp_step svals X s = Ok (s2, full, m) ->
  n_Am s = n_A s -> (forall M, In M (n_A s) -> nonneg M) -> sqdist X (cp_tensor r (ones r) (n_A s)) < sqlen X ->
  forall n, (n < ndims X)%nat -> nth n (n_L s2) 0 <> 0.
Proof.
  intros HS Hr HW E Eam Hnn Hlt. set (N := ndims X).
  destruct (ncp_parts svals X r s s2 full m HW E) as (Hne & Ho & W2 & _).
  pose proof (proj1 (proj1 HW)) as LA. pose proof (proj1 (proj1 W2)) as LA'.
  assert (Fm : forall n, (n <= N)%nat -> cp_factors X r (mixed n (n_A s2) (n_A s))).
  { unfold N. intros n Hn. split; [unfold mixed; rewrite app_length, firstn_length, skipn_length; lia|]. intros k Hk.
    unfold mat_at. rewrite nth_mixed by lia. destruct (Nat.ltb k n); [apply (proj1 W2)|apply (proj1 HW)]; auto. }
  assert (G : forall n, (n <= N)%nat -> sqdist X (cp_tensor r (ones r) (mixed n (n_A s2) (n_A s))) < sqlen X /\ forall k, (k < n)%nat -> nth k (n_L s2) 0 <> 0).
  { induction n as [|n IH]; intros Hn; [rewrite mixed_0; split; [exact Hlt|intros; lia]|]. destruct (IH ltac:(lia)) as [I1 I2].
    destruct (c50_step svals X r s s2 full m HS Hr HW E n ltac:(unfold N in *; lia)) as (P & D).
    assert (Ln : nth n (n_L s2) 0 <> 0).
    { intros Z. rewrite Z in P. rewrite (gram_but_zero X r _ n (Fm n ltac:(lia)) Hn P) in I1. lra. }
    split.
    - destruct (D Ln) as [_ [_ D']]. rewrite Eam in D'. assert (Hin : In (mat_at (n_A s) n) (n_A s)) by (apply nth_In; rewrite LA; unfold N in *; lia).
      specialize (D' (Hnn _ Hin)). rewrite mixed_S by (rewrite ?LA, ?LA'; unfold N in *; auto; lia).
      eapply Rle_lt_trans; [|exact I1]. unfold cp_error in D'. rewrite <- (replace_self (mixed n (n_A s2) (n_A s)) n (mkT [] [])) at 2.
      replace (nth n (mixed n (n_A s2) (n_A s)) (mkT [] [])) with (mat_at (n_A s) n); [lra|].
      rewrite nth_mixed by (rewrite ?LA, ?LA'; unfold N in *; auto; lia). rewrite Nat.ltb_irrefl. reflexivity.
    - intros k Hk. destruct (Nat.eq_dec k n) as [->|]; [exact Ln|]. apply I2. lia. }
  intros n Hn. apply (proj2 (G N (Nat.le_refl _)) n Hn).
Qed.

Lemma c50_better svals (X : tensor R) r s s2 full m : spectral svals -> wf X -> (0 < r)%nat -> ncp_wf X r s -> ncp_step svals X s = Ok (s2, full, m) ->
  n_Am s = n_A s -> (forall M, In M (n_A s) -> nonneg M) -> sqdist X (cp_tensor r (ones r) (n_A s)) < sqlen X ->
  (forall n, (n < ndims X)%nat -> 0 < nth n (n_L s2) 0) /\
  sqdist X full <= sqdist X (cp_tensor r (ones r) (n_A s)) /\ m_obj m = / 2 * sqdist X full.
Proof.
  intros HS HX Hr HW E Ea Hnn Hlt. pose proof (ncp_L_nonzero svals X r s s2 full m HS Hr HW E Ea Hnn Hlt) as HL. split.
  - intros n Hn. destruct (c50_step svals X r s s2 full m HS Hr HW E n Hn) as [(P & _) _]. specialize (HL n Hn). lra.
  - apply (c50_whole svals X r s s2 full m); auto.
Qed.

(** NTUCKER_BCU *)
Lemma gram_zero_col (M : tensor R) : spectral_norm (gram_of M) 0 -> forall i p, (i < nrows M)%nat -> (p < ncols M)%nat -> mget M i p = 0.
Proof.
  intros HS i p Hi Hp. pose proof (spectral_norm_zero _ HS p p Hp Hp) as Z. unfold gram_of in Z. rewrite mget_mgen in Z by auto. rewrite <- (sumn_bigsum RLR) in Z.
  pose proof (sumnR_zero_inv _ _ (fun i _ => Rle_0_sqr _) Z i Hi) as Q. cbv beta in Q. apply Rsqr_0_uniq. exact Q.
Qed.

Lemma bigprod_zero_inv n (f : nat -> R) : bigprod n f = 0 -> exists k, (k < n)%nat /\ f k = 0.
Proof.
  induction n as [|n IH]; cbn [bigprod]; Rn; intros H; [lra|]. apply Rmult_integral in H as [H|H]; [|exists n; auto].
  destruct (IH H) as (k & H1 & H2). exists k. auto.
Qed.

Section Nt.
  Variables (X : tensor R) (ranks : list nat).
  Hypothesis HX : wf X.
  Hypothesis Hr : nonempty ranks.
  Hypothesis Ho : (1 <= ndims X <= 13)%nat.
  Let N := ndims X.

  Lemma tk_zero_factor G A k : tucker_factors X ranks A -> core_like ranks G -> (k < N)%nat -> spectral_norm (gram_of (mat_at A k)) 0 ->
    sqdist X (tucker_tensor G A) = sqlen X.
  Proof.
    intros HA [_ HG] Hk HS. apply sqdist_zero_model. intros idx Hv. unfold tucker_tensor. destruct HA as (LA & LR & HA).
    assert (Es : map nrows A = shp X).
    { apply nth_ext with (d := 0%nat) (d' := 0%nat); rewrite map_length; [exact LA|]. intros j Hj. rewrite (nth_map_lt nrows A j (mkT [] [])) by auto. fold (mat_at A j).
      specialize (HA j ltac:(lia)). unfold nrows. rewrite (proj2 HA). reflexivity. }
    rewrite get_gen by (rewrite Es; exact Hv). rewrite <- (isum_msum RLR). transitivity (isum (shp G) (fun _ => 0)).
    - apply isum_ext. intros j Hj. rewrite HG in Hj. Rn. rewrite (KronAlg.bigprod_zero RLR (length A) _ k); [Rn; lra|unfold N in *; lia|].
      specialize (HA k Hk). apply gram_zero_col; [exact HS| |]; unfold nrows, ncols; rewrite (proj2 HA); cbn [nth]; apply valid_nth; auto; unfold N, ndims in *; lia.
    - rewrite (isum_zero RLR); auto.
  Qed.

  Lemma tk_zero_slices G A n : tucker_factors X ranks A -> core_like ranks G -> (n < N)%nat -> spectral_norm (slice_gram (core_times_others G A n) n) 0 ->
    sqdist X (tucker_tensor G A) = sqlen X.
  Proof.
    intros HA HG Hn HS. destruct (cto_shape X ranks Ho G A n HA HG Hn) as [Sy Wy]. set (Y := core_times_others G A n) in *.
    assert (Hin : is_mat (mat_at A n) (nth n (shp X) 0%nat) (nth n ranks 0%nat)) by apply (proj2 (proj2 HA) n Hn).
    assert (Hrr : forall i, valid (replace n (nth n ranks 0%nat) (shp X)) i -> get Y i = 0).
    { intros i Hv. assert (Hp : (nth n i 0 < nth n (shp Y) 0)%nat).
      { rewrite Sy. pose proof (valid_nth _ _ n Hv) as V. rewrite nth_replace_eq in * by auto. apply V. rewrite replace_length. exact Hn. }
      pose proof (spectral_norm_zero _ HS (nth n i 0%nat) (nth n i 0%nat) Hp Hp) as Z. unfold slice_gram in Z. rewrite mget_mgen in Z by auto.
      rewrite <- (isum_msum RLR) in Z. rewrite Sy, replace_replace in Z.
      assert (Hv1 : valid (replace n 1%nat (shp X)) (replace n 0%nat i)).
      { apply (valid_replace _ i n 0%nat (nth n ranks 0%nat)); [rewrite replace_length; exact Hn|rewrite replace_replace; exact Hv|rewrite nth_replace_eq by auto; lia]. }
      pose proof (isumR_zero_inv _ _ (fun i _ => Rle_0_sqr _) Z (replace n 0%nat i) Hv1) as Q. cbv beta in Q.
      rewrite replace_replace, replace_self in Q. apply Rsqr_0_uniq. exact Q. }
    apply sqdist_zero_model. intros idx Hv. rewrite <- (replace_self A n (mkT [] [])) at 1. fold (mat_at A n).
    rewrite (tucker_last X ranks Ho G A n (mat_at A n)) by auto. fold Y.
    assert (Hm : valid (replace n (nrows (mat_at A n)) (shp Y)) idx).
    { rewrite Sy, replace_replace. unfold nrows. rewrite (proj2 Hin). cbn [nth]. rewrite replace_nth. exact Hv. }
    rewrite get_mp by exact Hm. apply sumnR_zero. intros q Hq. rewrite Hrr; [lra|].
    assert (Hc : ncols (mat_at A n) = nth n ranks 0%nat) by (unfold ncols; rewrite (proj2 Hin); reflexivity).
    apply (valid_replace _ idx n q (nth n (shp X) 0%nat)); [rewrite replace_length; exact Hn|rewrite replace_replace, replace_nth; exact Hv|rewrite nth_replace_eq by auto; lia].
  Qed.
End Nt.

Lemma nt_L_nonzero svals (X : tensor R) ranks s s1 s2 full m : spectral svals -> wf X -> nonempty ranks -> nt_wf X ranks s ->
  nt_core svals X s = Ok s1 -> nt_fact svals X s1 = Ok (s2, full, m) -> q_Am s = q_A s -> q_gm s = q_g s -> nonneg (q_g s) ->
  (forall M, In M (q_A s) -> nonneg M) -> sqdist X (tucker_tensor (q_g s) (q_A s)) < sqlen X ->
  forall n, (n <= ndims X)%nat -> nth n (q_L s2) 0 <> 0.
Proof.
  intros HS HX Hr HW E1 E2 Eam Egm Hg Hnn Hlt. set (N := ndims X).
  pose proof (nt_step_order svals X ranks s s1 _ HW E1 E2) as Ho.
  destruct (nt_core_wf svals X ranks HX s s1 ltac:(lia) HW E1) as (W1 & A1 & A2 & _).
  destruct (nt_parts svals X ranks Hr s1 s2 full m ltac:(lia) W1 E2) as (_ & W2 & _).
  destruct (c53_step svals X ranks s s1 s2 full m HS HX Hr HW E1 E2) as [C F]. cbv zeta in C, F.
  pose proof (proj1 (proj1 HW)) as LA. pose proof (proj1 (proj1 W2)) as LA'.
  assert (Fm : forall n, (n <= N)%nat -> tucker_factors X ranks (mixed n (q_A s2) (q_A s))).
  { unfold N. intros n Hn. split; [unfold mixed; rewrite app_length, firstn_length, skipn_length; lia|]. split; [apply (proj1 HW)|]. intros k Hk.
    unfold mat_at. rewrite nth_mixed by lia. destruct (Nat.ltb k n); [apply (proj1 W2)|apply (proj1 HW)]; auto. }
  assert (Gm : core_like ranks (q_g s2)) by apply W2.
  destruct C as ((sig & Hsig & EL) & C).
  assert (LN : nth N (q_L s2) 0 <> 0).
  { unfold N. rewrite EL. intros Z. apply bigprod_zero_inv in Z as (k & Hk & Z). specialize (Hsig k Hk). rewrite Z in Hsig.
    rewrite (tk_zero_factor X ranks ltac:(lia) (q_g s) (q_A s) k) in Hlt; auto; [lra|apply HW|apply HW]. }
  assert (Hlt' : sqdist X (tucker_tensor (q_g s2) (q_A s)) < sqlen X).
  { destruct (C LN) as [_ [_ D]]. rewrite Egm in D. specialize (D Hg). lra. }
  assert (G : forall n, (n <= N)%nat -> sqdist X (tucker_tensor (q_g s2) (mixed n (q_A s2) (q_A s))) < sqlen X /\ forall k, (k < n)%nat -> nth k (q_L s2) 0 <> 0).
  { induction n as [|n IH]; intros Hn; [rewrite mixed_0; split; [exact Hlt'|intros; lia]|]. destruct (IH ltac:(lia)) as [I1 I2].
    destruct (F n ltac:(unfold N in *; lia)) as (P & D).
    assert (Ln : nth n (q_L s2) 0 <> 0).
    { intros Z. rewrite Z in P. rewrite (tk_zero_slices X ranks ltac:(lia) (q_g s2) _ n (Fm n ltac:(lia)) Gm Hn P) in I1. lra. }
    split.
    - destruct (D Ln) as [_ [_ D']]. rewrite Eam in D'. assert (Hin : In (mat_at (q_A s) n) (q_A s)) by (apply nth_In; rewrite LA; unfold N in *; lia).
      specialize (D' (Hnn _ Hin)). rewrite mixed_S by (rewrite ?LA, ?LA'; unfold N in *; auto; lia).
      eapply Rle_lt_trans; [|exact I1]. rewrite <- (replace_self (mixed n (q_A s2) (q_A s)) n (mkT [] [])) at 2.
      replace (nth n (mixed n (q_A s2) (q_A s)) (mkT [] [])) with (mat_at (q_A s) n); [lra|].
      rewrite nth_mixed by (rewrite ?LA, ?LA'; unfold N in *; auto; lia). rewrite Nat.ltb_irrefl. reflexivity.
    - intros k Hk. destruct (Nat.eq_dec k n) as [->|]; [exact Ln|]. apply I2. lia. }
  intros n Hn. destruct (Nat.eq_dec n N) as [->|]; [exact LN|]. apply (proj2 (G N (Nat.le_refl _)) n). unfold N in *. lia.
Qed.

Lemma c53_better svals (X : tensor R) ranks s s1 s2 full m : spectral svals -> wf X -> nonempty ranks -> nt_wf X ranks s ->
  nt_core svals X s = Ok s1 -> nt_fact svals X s1 = Ok (s2, full, m) -> q_Am s = q_A s -> q_gm s = q_g s -> nonneg (q_g s) ->
  (forall M, In M (q_A s) -> nonneg M) -> sqdist X (tucker_tensor (q_g s) (q_A s)) < sqlen X ->
  (forall n, (n <= ndims X)%nat -> 0 < nth n (q_L s2) 0) /\
  sqdist X full <= sqdist X (tucker_tensor (q_g s) (q_A s)) /\ m_obj m = / 2 * sqdist X full.
Proof.
  intros HS HX Hr HW E1 E2 Ea Eg Hg HA Hlt. pose proof (nt_L_nonzero svals X ranks s s1 s2 full m HS HX Hr HW E1 E2 Ea Eg Hg HA Hlt) as HL. split.
  - intros n Hn. specialize (HL n Hn). destruct (c53_step svals X ranks s s1 s2 full m HS HX Hr HW E1 E2) as [C F]. cbv zeta in C, F.
    destruct (Nat.eq_dec n (ndims X)) as [->|].
    + destruct C as ((sig & Hsig & EL) & _). rewrite EL in *. pose proof (DataFacts.bigprod_nonneg (ndims X) sig (fun i Hi => proj1 (Hsig i Hi))). lra.
    + destruct (F n ltac:(lia)) as [(P & _) _]. lra.
  - apply (c53_whole svals X ranks s s1 s2 full m); auto.
Qed.
