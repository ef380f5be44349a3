(** The HOSVD and HOOI properties. *)

From Coq Require Import ZArith List Bool Arith Lia Permutation Reals Lra Psatz.
From Verif Require Import Num Py Tensor TF TensorFacts TFFacts Sums Ops Types Loss Fact Train Spec SpecR LayoutFacts SpecFacts MulFacts TtmFacts SkipFacts TtmOrder TtmLemmas Matricize
  KronFacts EinsumFacts RSums MatR KronAlg LossFacts SpecTrain TrainFacts TrainLemmas BcuFacts SpecTucker MultiR SvdFacts TuckerFacts TuckerRun.
Import ListNotations.
Local Open Scope R_scope.

Lemma sqdist_comm A B : shp A = shp B -> sqdist A B = sqdist B A.
Proof. intros E. unfold sqdist. rewrite E. apply msum_ext. intros. unfold Rsqr. Rn. ring. Qed.

(** ** C54 *)
Lemma c54_hosvd svdU (X : tensor R) ranks : left_svd svdU -> wf X -> nonempty (shp X) -> (0 < ndims X <= 13)%nat ->
  (ndims X <= length ranks)%nat ->
  exists o, hosvd svdU X (map Z.of_nat ranks) = Ok o /\ factor_state X (fitted (shp X) ranks) (tu_A o).
Proof.
  intros HS HX Hne Ho Hl. destruct (hosvd_ok svdU X ranks HS HX Hne Hl Ho) as (o & H1 & H2 & _). eauto.
Qed.

Lemma c54_hooi svdU (X : tensor R) ranks : left_svd svdU -> wf X -> nonempty (shp X) -> nonempty ranks ->
  length ranks = ndims X -> (2 <= ndims X <= 13)%nat ->
  ((forall n, (n < ndims X)%nat -> (nth n ranks 0 <= Nat.min (nth n (shp X) 0) (rest n (shp X)))%nat) ->
   exists A, hooi_init svdU X (map Z.of_nat ranks) = Ok A /\ factor_state X ranks A) /\
  ((forall n, (n < ndims X)%nat -> (nth n ranks 0 <= Nat.min (nth n (shp X) 0) (rest n ranks))%nat) ->
   forall A, factor_state X ranks A ->
     exists o, hooi_step svdU X (map Z.of_nat ranks) A = Ok o /\ factor_state X ranks (ho_A o)).
Proof.
  intros HS HX Hne Hrk Hl Ho. split.
  - apply hooi_init_cases; auto.
  - intros H A HA. destruct (hooi_step_cases svdU X ranks HS HX Hne Hrk Hl Ho A HA) as [G _].
    destruct (G H) as (o & E). exists o. split; [exact E|].
    apply (hooi_step_ok svdU X ranks HS HX Hne Hrk Hl Ho A o HA E).
Qed.

Lemma c54_step_rejects svdU (X : tensor R) ranks A : left_svd svdU -> wf X -> nonempty (shp X) -> nonempty ranks ->
  length ranks = ndims X -> (2 <= ndims X <= 13)%nat -> factor_state X ranks A ->
  (exists n, (n < ndims X)%nat /\ (Nat.min (nth n (shp X) 0) (rest n ranks) < nth n ranks 0)%nat) ->
  hooi_step svdU X (map Z.of_nat ranks) A = Raise ValueError.
Proof. intros HS HX Hne Hrk Hl Ho HA H. apply (hooi_step_cases svdU X ranks HS HX Hne Hrk Hl Ho A HA). exact H. Qed.

(** ranks that do not fit the unfoldings, negative ones included *)
Lemma c54_init_rejects svdU (X : tensor R) (ranks : list Z) : left_svd svdU -> wf X -> nonempty (shp X) ->
  length ranks = ndims X ->
  (exists n, (n < ndims X)%nat /\ (nth n ranks 0 < 0 \/ Z.of_nat (Nat.min (nth n (shp X) 0%nat) (rest n (shp X))) < nth n ranks 0)%Z) ->
  hooi_init svdU X ranks = Raise ValueError.
Proof.
  intros HS HX Hne Hl (n & Hn & Hbad). unfold hooi_init. set (f := fun n : Z => _).
  assert (G : forall m, (m < ndims X)%nat -> exists M, matrix (svdU M) /\ nrows (svdU M) = nth m (shp X) 0%nat /\
      ncols (svdU M) = Nat.min (nth m (shp X) 0%nat) (rest m (shp X)) /\
      f (Z.of_nat m) = (do v <- tf_columns (svdU M) (nth m ranks 0%Z); assign_chk (nth m (shp X) 0%nat) (nth m ranks 0%Z) v)).
  { intros m Hm. assert (H0 : nth m (shp X) 0%nat <> 0%nat) by (apply nonempty_nth; auto).
    destruct (unfold_ok X m Hm H0) as (M & HM & _). pose proof HM as HM2. apply unfold_mat in HM2 as [_ HM2]; auto.
    destruct (matrix_is_mat _ _ _ HM2) as (Hmm & Hr & Hc).
    destruct (HS M Hmm) as (s & W & Hs); [rewrite Hr; auto|rewrite Hc; apply rest_nonzero; auto|].
    destruct (svd_U _ _ _ _ Hs) as (U1 & U2 & U3). exists M. rewrite Hr in U2, U3. rewrite Hc in U3. repeat (split; auto).
    unfold f, hosvd_factor. rewrite (pynth_nat (shp X) m 0%nat) by exact Hm. cbn [bind].
    rewrite (pynth_nat ranks m 0%Z) by lia. cbn [bind]. rewrite HM. cbn [bind]. reflexivity. }
  assert (Gf : forall z, In z (zrange (ndims X)) -> f z = Raise ValueError \/ exists v, f z = Ok v).
  { intros z Hz. apply in_zrange in Hz. destruct (G (Z.to_nat z) ltac:(lia)) as (M & (U1 & U2) & _ & _ & E).
    rewrite Z2Nat.id in E by lia. rewrite E. unfold tf_columns. rewrite U2. cbn [bind]. unfold assign_chk.
    destruct (_ <? _)%Z; [auto|]. destruct (shape_eqb _ _); eauto. }
  assert (Hb : f (Z.of_nat n) = Raise ValueError).
  { destruct (G n Hn) as (M & (U1 & U2) & U3 & U4 & E). rewrite E. unfold tf_columns. rewrite U2. cbn [bind]. unfold assign_chk.
    destruct (Z.ltb_spec (nth n ranks 0%Z) 0) as [L|L]; [reflexivity|].
    destruct Hbad as [Hbad|Hbad]; [lia|]. rewrite shape_eqb_neq; [reflexivity|]. intros E2. injection E2 as _ E2.
    rewrite U4 in E2. lia. }
  assert (Hin : In (Z.of_nat n) (zrange (ndims X))) by (apply in_zrange; lia).
  clear -Gf Hb Hin. induction (zrange (ndims X)) as [|z l IH]; [contradiction|]. cbn [mapM].
  destruct (Gf z (or_introl eq_refl)) as [E|[v E]]; rewrite E; cbn [bind]; [reflexivity|].
  destruct Hin as [->|Hin]; [congruence|]. rewrite IH; auto. intros; apply Gf; right; auto.
Qed.

(** ** C55 *)
Lemma c55_hosvd svdU (X : tensor R) ranks o : left_svd svdU -> wf X -> nonempty (shp X) -> (0 < ndims X <= 13)%nat ->
  (ndims X <= length ranks)%nat -> hosvd svdU X (map Z.of_nat ranks) = Ok o ->
  tu_core o = project X (tu_A o) /\ tu_full o = tucker_tensor (tu_core o) (tu_A o) /\
  sqdist X (tu_full o) = sqlen X - sqlen (tu_core o).
Proof.
  intros HS HX Hne Ho Hl E. destruct (hosvd_ok svdU X ranks HS HX Hne Hl Ho) as (o' & E' & H1 & H2 & H3 & _).
  rewrite E in E'. injection E' as <-. split; [exact H2|]. split; [exact H3|]. rewrite H3, H2. apply (energy X (fitted (shp X) ranks)); auto.
Qed.

Lemma c55_hooi svdU (X : tensor R) ranks A o : left_svd svdU -> wf X -> nonempty (shp X) -> nonempty ranks ->
  length ranks = ndims X -> (2 <= ndims X <= 13)%nat -> factor_state X ranks A ->
  hooi_step svdU X (map Z.of_nat ranks) A = Ok o ->
  ho_core o = project X (ho_A o) /\ ho_full o = tucker_tensor (ho_core o) (ho_A o) /\
  sqdist X (ho_full o) = sqlen X - sqlen (ho_core o).
Proof.
  intros HS HX Hne Hrk Hl Ho HA E. destruct (hooi_step_ok svdU X ranks HS HX Hne Hrk Hl Ho A o HA E) as (H1 & H2 & H3 & _).
  split; [exact H2|]. split; [exact H3|]. rewrite H3, H2. apply (energy X ranks); auto.
Qed.

(** ** C58 *)
Lemma discarded_tail s r k : (r <= k)%nat -> discarded s r k = sumn (k - r) (fun p => (s (r + p)%nat)²).
Proof.
  intros H. unfold discarded. rewrite <- (sumn_bigsum RLR). replace k with (r + (k - r))%nat at 1 by lia. rewrite sumn_split.
  rewrite (sumnR_zero r); [|intros i Hi; destruct (Nat.ltb_spec i r); [reflexivity|lia]].
  Rn. rewrite Rplus_0_l. apply sumnR_ext. intros i Hi. destruct (Nat.ltb_spec (r + i) r); [lia|reflexivity].
Qed.

Lemma discarded_min s r k : discarded s (Nat.min r k) k = discarded s r k.
Proof.
  unfold discarded. apply bigsum_ext. intros p Hp.
  destruct (Nat.ltb_spec p (Nat.min r k)), (Nat.ltb_spec p r); try reflexivity; lia.
Qed.

Lemma mode_tail svdU (X M W : tensor R) s ranks n : wf X -> nonempty (shp X) -> (n < ndims X)%nat ->
  unfold X (Z.of_nat n) = Ok M -> thin_svd M (svdU M) s W ->
  sqlen X - sqlen (mode_product X (mtrans (leading (svdU M) (nth n ranks 0%nat))) n) =
  discarded s (nth n ranks 0%nat) (Nat.min (nth n (shp X) 0%nat) (rest n (shp X))).
Proof.
  intros HX Hne Hn HM Hs. assert (H0 : nth n (shp X) 0%nat <> 0%nat) by (apply nonempty_nth; auto).
  pose proof HM as HM2. apply unfold_mat in HM2 as [_ HM2]; auto. destruct (matrix_is_mat _ _ _ HM2) as (Hmm & Hr & Hc).
  destruct (svd_U _ _ _ _ Hs) as (U1 & U2 & U3). rewrite Hr in U2. rewrite Hr, Hc in U3.
  set (r := nth n ranks 0%nat) in *. set (v := leading (svdU M) r).
  assert (V2 : nrows v = nth n (shp X) 0%nat) by exact U2.
  assert (V3 : ncols v = Nat.min r (Nat.min (nth n (shp X) 0%nat) (rest n (shp X)))) by (unfold v; rewrite <- U3; reflexivity).
  assert (Hk : Nat.min (nth n (shp X) 0%nat) (rest n (shp X)) <> 0%nat) by (pose proof (rest_nonzero n (shp X) Hne); lia).
  destruct (Nat.eq_dec r 0) as [Hr0|Hr0].
  { assert (Z : sqlen (mode_product X (mtrans v) n) = 0).
    { unfold sqlen. change (shp (mode_product X (mtrans v) n)) with (replace n (ncols v) (shp X)). rewrite V3, Hr0.
      rewrite <- (isum_msum RLR). apply (isum_zero RLR). intros idx Hv. exfalso. pose proof (valid_nth _ _ n Hv) as G.
      rewrite replace_length, nth_replace_eq in G by exact Hn. specialize (G Hn). simpl in G. lia. }
    rewrite Z, Hr0, discarded_tail by lia. rewrite Nat.sub_0_r, (sqlen_unfold X M n Hn H0 HM).
    pose proof (svd_tail M (svdU M) W s Hs 0 ltac:(lia)) as E. rewrite Nat.sub_0_r, Hr, Hc in E.
    unfold fro, dot2 in E. rewrite sumn_0 in E. exact E. }
  rewrite (mp_energy X v M n); auto; [|lia].
  rewrite (sqlen_unfold X M n Hn H0 HM). rewrite <- discarded_min, V3.
  set (k := Nat.min (nth n (shp X) 0%nat) (rest n (shp X))) in *. rewrite discarded_tail by lia.
  pose proof (svd_tail M (svdU M) W s Hs (Nat.min r k)) as E. rewrite Hr, Hc in E. fold k in E.
  rewrite <- E by lia. f_equal. apply fro_ext. intros p j Hp Hj. apply mm_ext; auto. intros l Hl. unfold tr, v, leading.
  apply mget_mgen; [rewrite U2; auto|rewrite U3; auto].
Qed.

Lemma c58 svdU (X : tensor R) ranks o (s : nat -> nat -> R) : left_svd svdU -> wf X -> nonempty (shp X) -> (0 < ndims X <= 13)%nat ->
  (ndims X <= length ranks)%nat -> hosvd svdU X (map Z.of_nat ranks) = Ok o ->
  (forall n, (n < ndims X)%nat -> exists M W, unfold X (Z.of_nat n) = Ok M /\ thin_svd M (svdU M) (s n) W) ->
  sqdist X (tu_full o) <=
  bigsum (ndims X) (fun n => discarded (s n) (nth n ranks 0%nat) (Nat.min (nth n (shp X) 0%nat) (rest n (shp X)))).
Proof.
  intros HS HX Hne Ho Hl E Hs. destruct (hosvd_ok svdU X ranks HS HX Hne Hl Ho) as (o' & E' & H1 & H2 & H3 & H4).
  rewrite E in E'. injection E' as <-. rewrite H3, H2.
  eapply Rle_trans; [apply (hosvd_bound X _ _ HX H1)|]. rewrite <- (sumn_bigsum RLR). apply Req_le. apply sumn_ext. intros n Hn.
  destruct (H4 n Hn) as (M & HM & EM). destruct (Hs n Hn) as (M' & W & HM' & HsM). rewrite HM in HM'. injection HM' as <-.
  rewrite EM. apply (mode_tail svdU X M W); auto.
Qed.

(** ** C56 *)
Lemma c56_hosvd svdU (X : tensor R) ranks o : left_svd svdU -> wf X -> nonempty (shp X) -> (0 < ndims X <= 13)%nat ->
  (ndims X <= length ranks)%nat ->
  (forall n, (n < ndims X)%nat -> (Nat.min (nth n (shp X) 0) (rest n (shp X)) <= nth n ranks 0)%nat) ->
  hosvd svdU X (map Z.of_nat ranks) = Ok o -> tu_full o = X.
Proof.
  intros HS HX Hne Ho Hl Hrk E. destruct (hosvd_ok svdU X ranks HS HX Hne Hl Ho) as (o' & E' & H1 & H2 & H3 & H4).
  rewrite E in E'. injection E' as <-. symmetry. apply sqdist_zero; auto.
  - rewrite H3, H2. apply (full_wf X).
  - rewrite H3, H2. rewrite (full_shape X _ _ H1). reflexivity.
  - apply Rle_antisym; [|apply sqdist_nonneg]. rewrite H3, H2.
    eapply Rle_trans; [apply (hosvd_bound X _ _ HX H1)|]. apply Req_le. apply sumnR_zero. intros n Hn.
    destruct (H4 n Hn) as (M & HM & EM).
    assert (H0 : nth n (shp X) 0%nat <> 0%nat) by (apply nonempty_nth; auto).
    pose proof HM as HM2. apply unfold_mat in HM2 as [_ HM2]; auto. destruct (matrix_is_mat _ _ _ HM2) as (Hmm & Hr & Hc).
    destruct (HS M Hmm) as (s & W & Hs); [rewrite Hr; auto|rewrite Hc; apply rest_nonzero; auto|].
    pose proof (rest_nonzero n (shp X) Hne) as HJ. specialize (Hrk n Hn).
    rewrite EM, (mode_tail svdU X M W s); auto.
    rewrite <- discarded_min, Nat.min_r by auto. rewrite discarded_tail by lia. rewrite Nat.sub_diag. reflexivity.
Qed.

Lemma c56_hooi svdU (X : tensor R) A o : left_svd svdU -> wf X -> nonempty (shp X) -> (2 <= ndims X <= 13)%nat ->
  factor_state X (shp X) A -> hooi_step svdU X (map Z.of_nat (shp X)) A = Ok o -> ho_full o = X.
Proof.
  intros HS HX Hne Ho HA E. destruct (hooi_step_ok svdU X (shp X) HS HX Hne Hne eq_refl Ho A o HA E) as (H1 & H2 & H3 & _).
  symmetry. apply sqdist_zero; auto.
  - rewrite H3, H2. apply (full_wf X).
  - rewrite H3, H2. rewrite (full_shape X _ _ H1). reflexivity.
  - apply Rle_antisym; [|apply sqdist_nonneg]. rewrite H3, H2.
    eapply Rle_trans; [apply (hosvd_bound X _ _ HX H1)|]. apply Req_le. apply sumnR_zero. intros n Hn.
    destruct (A_fits X _ _ H1 n Hn) as (F1 & F2 & F3). assert (Fo : orthonormal (mat_at (ho_A o) n)) by (apply H1; auto).
    rewrite <- residual_energy by auto. set (U := mat_at (ho_A o) n) in *.
    apply orthonormal_ortho in Fo. rewrite F2, F3 in Fo. apply ortho_square in Fo.
    unfold sqlen. change (shp (mode_product X (residual_mat U) n)) with (replace n (nrows U) (shp X)).
    rewrite <- (isum_msum RLR). apply (isum_zero RLR). intros idx Hv. rewrite get_mp by exact Hv.
    rewrite sumnR_zero; [unfold Rsqr; Rn; lra|]. change (ncols (residual_mat U)) with (nrows U). intros k Hk.
    assert (Hi : (nth n idx 0 < nrows U)%nat).
    { pose proof (valid_nth _ _ n Hv) as G. rewrite replace_length, nth_replace_eq in G by exact Hn. apply G. exact Hn. }
    unfold residual_mat. rewrite mget_mgen by auto. rewrite F2 in Hi, Hk. specialize (Fo _ _ Hi Hk). unfold mm, tr in Fo.
    rewrite F3, Fo. lra.
Qed.

(** ** C57 *)
Lemma c57_step svdU (X : tensor R) ranks A o : left_svd svdU -> wf X -> nonempty (shp X) -> nonempty ranks ->
  length ranks = ndims X -> (2 <= ndims X <= 13)%nat -> factor_state X ranks A ->
  hooi_step svdU X (map Z.of_nat ranks) A = Ok o ->
  sqdist X (ho_full o) <= sqdist X (tucker_tensor (project X A) A) /\ m_obj (ho_met o) = / 2 * sqdist X (ho_full o).
Proof.
  intros HS HX Hne Hrk Hl Ho HA E. destruct (hooi_step_ok svdU X ranks HS HX Hne Hrk Hl Ho A o HA E) as (H1 & H2 & H3 & H4 & H5).
  split.
  - rewrite H3, H2. rewrite (energy X ranks HX A HA), (energy X ranks HX _ H1). rewrite <- H2. lra.
  - apply (metrics_R X _ _ HX) in H5. destruct H5 as (_ & -> & _). f_equal. apply sqdist_comm.
    rewrite H3, H2. apply (full_shape X ranks _ H1).
Qed.

Lemma hooi_run_mono svdU (X : tensor R) ranks A0 os : left_svd svdU -> wf X -> nonempty (shp X) -> nonempty ranks ->
  length ranks = ndims X -> (2 <= ndims X <= 13)%nat -> factor_state X ranks A0 ->
  als_run (hooi_run svdU X (map Z.of_nat ranks)) A0 os ->
  forall j k, (j <= k)%nat -> (k < length os)%nat ->
    m_obj (met os k) <= m_obj (met os j) /\
    (sqlen X <> 0 -> m_rel (met os k) <= m_rel (met os j)).
Proof.
  intros HS HX Hne Hrk Hl Ho HA (st & H0 & Hst).
  assert (Hget : forall k, (k < length os)%nat -> exists o, nth_error os k = Some o).
  { intros k Hk. destruct (nth_error os k) eqn:E; [eauto|]. apply nth_error_None in E. lia. }
  assert (Hrun : forall k o, nth_error os k = Some o -> factor_state X ranks (st k) -> factor_state X ranks (st (S k)) /\
     sqdist X (ob_full o) <= sqdist X (tucker_tensor (project X (st k)) (st k)) /\
     sqdist X (ob_full o) = sqdist X (tucker_tensor (project X (st (S k))) (st (S k))) /\ measured X (ob_full o) (ob_met o) /\ shp (ob_full o) = shp X).
  { intros k o Ek Hk. specialize (Hst k o Ek). unfold hooi_run in Hst.
    destruct (hooi_step svdU X (map Z.of_nat ranks) (st k)) as [q|] eqn:Eq; [|discriminate]. cbn [bind] in Hst. injection Hst as E1 E2.
    destruct (hooi_step_ok svdU X ranks HS HX Hne Hrk Hl Ho (st k) q Hk Eq) as (G1 & G2 & G3 & G4 & G5).
    destruct (c57_step svdU X ranks (st k) q HS HX Hne Hrk Hl Ho Hk Eq) as [C _].
    rewrite <- E1, <- E2. cbn [ob_full ob_met]. split; [exact G1|]. split; [exact C|]. split; [rewrite G3, G2; reflexivity|].
    split; [apply metrics_R; auto|]. rewrite G3, G2. apply (full_shape X ranks _ G1). }
  assert (HF : forall k, (k <= length os)%nat -> factor_state X ranks (st k)).
  { induction k as [|k IH]; intros Hk; [rewrite H0; auto|]. destruct (Hget k ltac:(lia)) as (o & Eo).
    apply (Hrun k o Eo). apply IH. lia. }
  assert (Hmet : forall k o, nth_error os k = Some o -> met os k = ob_met o).
  { intros k o Ek. unfold met. rewrite nth_map_lt with (da := o) by (apply nth_error_Some; congruence).
    rewrite (nth_error_nth os k o Ek). reflexivity. }
  assert (Hd : forall k o, nth_error os k = Some o -> forall j p, nth_error os j = Some p -> (j <= k)%nat ->
    sqdist X (ob_full o) <= sqdist X (ob_full p)).
  { induction k as [|k IH]; intros o Ek j p Ej Hjk.
    - assert (j = 0%nat) by lia. subst. replace p with o by congruence. apply Rle_refl.
    - destruct (Nat.eq_dec j (S k)) as [->|Hne']; [replace p with o by congruence; apply Rle_refl|].
      assert (Hk : (S k < length os)%nat) by (apply nth_error_Some; congruence).
      destruct (Hget k ltac:(lia)) as (q & Eq). specialize (IH q Eq j p Ej ltac:(lia)).
      destruct (Hrun (S k) o Ek (HF (S k) ltac:(lia))) as (_ & C & _). destruct (Hrun k q Eq (HF k ltac:(lia))) as (_ & _ & D & _). lra. }
  intros j k Hjk Hk. destruct (Hget k Hk) as (o & Eo). destruct (Hget j ltac:(lia)) as (p & Ep).
  specialize (Hd k o Eo j p Ep Hjk). rewrite (Hmet k o Eo), (Hmet j p Ep).
  destruct (Hrun k o Eo (HF k ltac:(lia))) as (_ & _ & _ & (_ & M1 & M2) & S1).
  destruct (Hrun j p Ep (HF j ltac:(lia))) as (_ & _ & _ & (_ & M3 & M4) & S2).
  rewrite M1, M2, M3, M4. rewrite (sqdist_comm (ob_full o) X S1), (sqdist_comm (ob_full p) X S2). split; [lra|].
  intros Hz. fold (sqlen X). pose proof (sqlen_nonneg X). assert (Hp : 0 < sqlen X) by lra.
  apply Rmult_le_compat_r; [apply Rlt_le, Rinv_0_lt_compat, sqrt_lt_R0; exact Hp|]. apply sqrt_le_1_alt. exact Hd.
Qed.

(** the relative residuals recorded by HOOI.train never increase *)
Lemma c57_train svdU (X : tensor R) w o rnd steps o' h : left_svd svdU -> wf X -> nonempty (shp X) ->
  (2 <= ndims X <= 13)%nat -> sqlen X <> 0 ->
  (exists args ranks id, o_built o = Some ((args, map Z.of_nat ranks), id) /\ nonempty ranks /\ length ranks = ndims X) ->
  hooi_train svdU X w o rnd steps = (o', Ok h) ->
  forall j k, (j <= k)%nat -> (k < length h)%nat -> snd (nth k h (0, 0)) <= snd (nth j h (0, 0)).
Proof.
  intros HS HX Hne Ho Hz (args & ranks & id & Hb & Hrk & Hl) H.
  apply hooi_history in H as (args' & ranks' & id' & A0 & os & Hb' & Hi & Hr & -> & _). rewrite Hb in Hb'. injection Hb' as <- <- <-.
  destruct (hooi_init_cases svdU X ranks HS Hne Hl) as [G1 G2].
  assert (HA : factor_state X ranks A0).
  { destruct (G1 ) as (A & E & HA).
    - intros n Hn. destruct (le_lt_dec (nth n ranks 0%nat) (Nat.min (nth n (shp X) 0%nat) (rest n (shp X)))) as [L|L]; auto.
      rewrite G2 in Hi by eauto. discriminate.
    - rewrite Hi in E. injection E as <-. exact HA. }
  intros j k Hjk Hk. rewrite map_length in Hk.
  destruct (hooi_run_mono svdU X ranks A0 os HS HX Hne Hrk Hl Ho HA Hr j k Hjk Hk) as [_ G]. specialize (G Hz).
  unfold met in G. assert (Hj : (j < length os)%nat) by lia.
  destruct (nth_error os k) as [ok|] eqn:Ek; [|apply nth_error_None in Ek; lia].
  destruct (nth_error os j) as [oj|] eqn:Ej; [|apply nth_error_None in Ej; lia].
  rewrite nth_map_lt with (da := ok) in G by auto. rewrite (nth_map_lt _ os j oj) in G by auto.
  rewrite (nth_map_lt _ os k ok) by auto. rewrite (nth_map_lt _ os j oj) by auto.
  exact G.
Qed.

(** ** C54 at any order *)
Lemma lookup_in {A} (d : A) l env : In l (map fst env) -> In (l, lookup d l env) env.
Proof.
  induction env as [|[x v] env IH]; cbn [map fst lookup]; intros H; [contradiction|].
  destruct (Z.eqb_spec l x) as [->|N]; [left; auto|]. right. apply IH. destruct H as [H|H]; [congruence|exact H].
Qed.

Lemma einsum_nonempty ins out (ops : list (tensor R)) Y : tf_einsum ins out ops = Ok Y ->
  (forall M, In M ops -> nonempty (shp M)) -> ndims Y = length out /\ nonempty (shp Y).
Proof.
  intros H Hops. pose proof (einsum_ok_inv _ _ _ _ H) as (_ & _ & _ & Hlen & Hrank & _ & _ & Hincl & _).
  assert (E : shp Y = map (fun l => lookup 0%nat l (einsum_dims ins ops)) out).
  { unfold tf_einsum in H. repeat (match type of H with (if ?b then _ else _) = _ => destruct b end; [discriminate|]).
    injection H as <-. reflexivity. }
  unfold ndims. rewrite E, map_length. split; [reflexivity|]. apply Forall_forall. intros d Hd.
  apply in_map_iff in Hd as (l & <- & Hl). apply Hincl in Hl. apply in_concat in Hl as (i & Hi & Hli).
  apply (In_nth _ _ []) in Hi as (k & Hk & <-).
  assert (Hp : In (nth k ins [], nth k ops (mkT [] [])) (combine ins ops)).
  { rewrite (combine_nth_map ins ops [] (mkT [] [])) by lia. apply in_map_iff. exists k. split; [reflexivity|]. apply in_seq. lia. }
  assert (Hin : In l (map fst (einsum_dims ins ops))).
  { pose proof (Hrank _ Hp) as Hr. cbn [fst snd] in Hr. apply (In_nth _ _ 0%Z) in Hli as (j & Hj & <-).
    apply in_map_iff. exists (nth j (nth k ins []) 0%Z, nth j (shp (nth k ops (mkT [] []))) 0%nat). split; [reflexivity|].
    unfold einsum_dims. apply in_concat. eexists. split; [apply in_map; exact Hp|]. cbn [fst snd].
    rewrite (combine_nth_map _ _ 0%Z 0%nat) by exact Hr. apply in_map_iff. exists j. split; [reflexivity|]. apply in_seq. lia. }
  apply (lookup_in 0%nat) in Hin. revert Hin. generalize (lookup 0%nat l (einsum_dims ins ops)). intros d Hin.
  unfold einsum_dims in Hin. apply in_concat in Hin as (c & Hc & Hd). apply in_map_iff in Hc as ([i0 M] & <- & Hc).
  cbn [fst snd] in Hd. apply in_combine_r in Hd, Hc. apply Hops in Hc. unfold nonempty in Hc. rewrite Forall_forall in Hc. auto.
Qed.

Lemma ttm_nonempty (X : tensor R) A tr s Y : nonempty (shp X) -> (forall M, In M A -> nonempty (shp M)) ->
  ttm X A None tr s = Ok Y -> ndims Y = ndims X /\ nonempty (shp Y).
Proof.
  intros HX HA H.
  assert (HI : forall M, In M (X :: skip_ A s) -> nonempty (shp M)).
  { intros M [<-|HM]; auto. apply HA. rewrite skip_without, (without_nth _ _ (mkT [] [])) in HM.
    apply in_map_iff in HM as (k & <- & Hk). apply nth_In. apply kept_lt in Hk. exact Hk. }
  assert (G : exists tops mops tgt, mapM (fun i => pychr (122 - Z.of_nat (ndims X) + 1 + i)) (zrange (ndims X)) = Ok tops /\
    length tgt = length tops /\ tf_einsum (tops :: mops) tgt (X :: skip_ A s) = Ok Y).
  { unfold ttm in H. destruct s as [|z|l]; cbv zeta iota in H;
    apply bind_ok in H as (tops & Ht & H); apply bind_ok in H as (mops & Hm & H); apply bind_ok in H as (tgt & Htg & H);
    apply set_targets_inv in Htg as [Ltg _]; eexists _, _, _; split; [exact Ht| |exact Ht| |exact Ht|]; split; eauto. }
  destruct G as (tops & mops & tgt & Ht & Hl & He). apply einsum_nonempty in He as [He1 He2]; auto. split; auto.
  rewrite He1, Hl. apply mapM_length in Ht. rewrite Ht. apply zrange_length.
Qed.

Lemma columns_orthonormal svdU (M v : tensor R) r : left_svd svdU -> matrix M -> nrows M <> 0%nat -> ncols M <> 0%nat ->
  tf_columns (svdU M) (Z.of_nat r) = Ok v -> matrix v /\ orthonormal v.
Proof.
  intros HS HM H1 H2 E. destruct (HS M HM H1 H2) as (s & W & Hs). destruct (svd_U _ _ _ _ Hs) as (U1 & _ & _).
  rewrite columns_ok in E by auto. injection E as <-. split; [|apply leading_ok; auto; apply Hs].
  split; [apply wf_gen|reflexivity].
Qed.

Lemma state_nonempty (X : tensor R) ranks A : nonempty (shp X) -> nonempty ranks -> length ranks = ndims X -> factor_state X ranks A ->
  forall M, In M A -> nonempty (shp M).
Proof.
  intros HX Hr Hl [HL HA] M HM. apply (In_nth _ _ (mkT [] [])) in HM as (k & Hk & <-). destruct (HA k) as [[_ Hs] _]; [lia|].
  unfold mat_at in Hs. rewrite Hs. repeat constructor; apply nonempty_nth; auto; unfold ndims in *; lia.
Qed.

Lemma c54_hooi_mode svdU (X : tensor R) ranks A n A' : left_svd svdU -> wf X -> nonempty (shp X) -> nonempty ranks ->
  length ranks = ndims X -> factor_state X ranks A -> (n < ndims X)%nat ->
  hooi_mode svdU X (map Z.of_nat ranks) n A = Ok A' -> factor_state X ranks A'.
Proof.
  intros HS HX Hne Hrk Hl HA Hn H. unfold hooi_mode in H.
  apply bind_ok in H as (Y & HY & H). apply bind_ok in H as (M & HM & H). apply bind_ok in H as (r & Hr & H).
  apply bind_ok in H as (d & Hd & H). apply bind_ok in H as (tmp & Ht & H). apply bind_ok in H as (v & Hv & H). injection H as <-.
  rewrite pynth_ranks in Hr by lia. injection Hr as <-. rewrite (pynth_nat (shp X) n 0%nat) in Hd by exact Hn. injection Hd as <-.
  apply ttm_nonempty in HY as [Y1 Y2]; auto; [|apply (state_nonempty X ranks); auto].
  assert (H0 : nth n (shp Y) 0%nat <> 0%nat) by (apply nonempty_nth; auto; unfold ndims in *; lia).
  apply unfold_mat in HM as [_ HM]; [|lia|auto]. destruct (matrix_is_mat _ _ _ HM) as (Hm & Hr & Hc).
  destruct (columns_orthonormal svdU M tmp (nth n ranks 0%nat) HS Hm) as [T1 T2]; [rewrite Hr; auto|rewrite Hc; apply rest_nonzero; auto|exact Ht|].
  unfold assign_chk in Hv. destruct (Z.ltb_spec (Z.of_nat (nth n ranks 0%nat)) 0); [lia|]. rewrite Nat2Z.id in Hv.
  destruct (shape_eqb (shp tmp) [nth n (shp X) 0%nat; nth n ranks 0%nat]) eqn:Es; [|discriminate]. injection Hv as <-.
  destruct HA as [HL HA]. split; [rewrite upd_length; exact HL|]. intros k Hk. unfold mat_at. rewrite nth_upd.
  destruct (Nat.eqb_spec k n) as [->|N].
  - destruct (Nat.ltb_spec n (length A)); [|lia]. split; [|exact T2]. split; [apply T1|].
    destruct (list_eq_dec Nat.eq_dec (shp tmp) [nth n (shp X) 0%nat; nth n ranks 0%nat]) as [E|E]; [exact E|].
    rewrite shape_eqb_neq in Es by exact E. discriminate.
  - apply HA. exact Hk.
Qed.

Lemma c54_hooi_modes svdU (X : tensor R) ranks modes : left_svd svdU -> wf X -> nonempty (shp X) -> nonempty ranks ->
  length ranks = ndims X -> forall A A', factor_state X ranks A -> (forall m, In m modes -> (m < ndims X)%nat) ->
  hooi_modes svdU X (map Z.of_nat ranks) modes A = Ok A' -> factor_state X ranks A'.
Proof.
  intros HS HX Hne Hrk Hl. induction modes as [|m modes IH]; intros A A' HA Hm E; cbn [hooi_modes] in E.
  - injection E as <-. exact HA.
  - apply bind_ok in E as (A1 & E1 & E). apply c54_hooi_mode in E1; auto; [|apply Hm; left; auto].
    apply IH in E; auto. intros; apply Hm; right; auto.
Qed.

Lemma c54_hooi_step svdU (X : tensor R) ranks A o : left_svd svdU -> wf X -> nonempty (shp X) -> nonempty ranks ->
  length ranks = ndims X -> factor_state X ranks A ->
  hooi_step svdU X (map Z.of_nat ranks) A = Ok o -> factor_state X ranks (ho_A o).
Proof.
  intros HS HX Hne Hrk Hl HA E. unfold hooi_step in E. apply bind_ok in E as (A1 & E1 & E). apply bind_ok in E as (g & E2 & E).
  apply bind_ok in E as (f & E3 & E). apply bind_ok in E as (m & E4 & E). injection E as <-. cbn [ho_A].
  apply c54_hooi_modes in E1; auto. intros k Hk. apply in_seq in Hk. lia.
Qed.

Lemma c54_hosvd_any svdU (X : tensor R) ranks o : left_svd svdU -> wf X -> nonempty (shp X) ->
  (ndims X <= length ranks)%nat -> hosvd svdU X (map Z.of_nat ranks) = Ok o ->
  factor_state X (fitted (shp X) ranks) (tu_A o).
Proof.
  intros HS HX Hne Hl E. destruct (hosvd_factors svdU X ranks HS Hne Hl) as (A & EA & HA & _).
  unfold hosvd in E. rewrite EA in E. cbn [bind] in E. apply bind_ok in E as (g & E2 & E).
  apply bind_ok in E as (f & E3 & E). apply bind_ok in E as (m & E4 & E). injection E as <-. exact HA.
Qed.

Lemma c54_hosvd_train svdU (X : tensor R) w o rnd steps o' h ranks id : left_svd svdU -> wf X -> nonempty (shp X) ->
  (ndims X <= length ranks)%nat -> o_built o = Some (map Z.of_nat ranks, id) ->
  hosvd_train svdU X w o rnd steps = (o', Ok h) ->
  exists A, p_factors (o_pub o') = Some A /\ factor_state X (fitted (shp X) ranks) A.
Proof.
  intros HS HX Hne Hl Hb H. apply train_ok in H as (rk & id' & p & p' & Hb' & _ & _ & H & ->). rewrite Hb in Hb'. injection Hb' as <- <-.
  unfold hosvd_body in H.
  destruct (hosvd svdU X (map Z.of_nat ranks)) as [tu|] eqn:E; [|discriminate]. destruct (forallb _ _); [|discriminate].
  injection H as <- <-. eexists. split; [reflexivity|]. apply (c54_hosvd_any svdU X ranks); auto.
Qed.

Lemma c54_hooi_train svdU (X : tensor R) w o rnd steps o' h args ranks id : left_svd svdU -> wf X -> nonempty (shp X) -> nonempty ranks ->
  length ranks = ndims X -> o_built o = Some ((args, map Z.of_nat ranks), id) ->
  hooi_train svdU X w o rnd steps = (o', Ok h) ->
  exists A, p_factors (o_pub o') = Some A /\ factor_state X ranks A.
Proof.
  intros HS HX Hne Hrk Hl Hb H. apply train_ok in H as ([args' rank'] & id' & p & p' & Hb' & _ & _ & H & ->).
  rewrite Hb in Hb'. injection Hb' as <- <- <-.
  bodies H. apply als_body_ok in H as (s0 & os & Hi & (st & H0 & Hr) & Hh & [Hn Hs] & (_ & _ & Hf & Hfull) & _). simpl in *.
  destruct (last_obs os Hn) as [ob Ho]. destruct (Hf _ Ho) as [F1 _]. exists (ob_factors ob). split; [exact F1|].
  assert (HA : factor_state X ranks (st 0%nat)).
  { rewrite H0. destruct (hooi_init_cases svdU X ranks HS Hne Hl) as [G1 G2]. destruct G1 as (A & E & HA).
    - intros n Hn'. destruct (le_lt_dec (nth n ranks 0%nat) (Nat.min (nth n (shp X) 0%nat) (rest n (shp X)))) as [L|L]; auto.
      rewrite G2 in Hi by eauto. discriminate.
    - rewrite Hi in E. injection E as <-. exact HA. }
  assert (HF : forall k o, nth_error os k = Some o -> factor_state X ranks (st k) -> factor_state X ranks (st (S k)) /\ ob_factors o = st (S k)).
  { intros k o1 Ek Hk. specialize (Hr k o1 Ek). unfold hooi_run in Hr.
    destruct (hooi_step svdU X (map Z.of_nat ranks) (st k)) as [q|] eqn:Eq; [|discriminate]. cbn [bind] in Hr. injection Hr as E1 E2.
    rewrite <- E1, <- E2. split; [|reflexivity]. apply (c54_hooi_step svdU X ranks (st k)); auto. }
  assert (HFk : forall k, (k <= length os)%nat -> factor_state X ranks (st k)).
  { induction k as [|k IH]; intros Hk; auto. destruct (nth_error os k) as [o1|] eqn:E1; [|apply nth_error_None in E1; lia].
    apply (HF k o1); auto. apply IH. lia. }
  destruct (HF _ _ Ho) as [G1 ->]; [apply HFk; lia|exact G1].
Qed.

(** ** order 14: the letter of the core's axis 12 is the letter of the tensor's axis 0 *)
Definition X14 : tensor R := mkT (2 :: repeat 1 13)%nat [1; 1].

Lemma shapes14 (A : list (tensor R)) : length A = 14%nat ->
  (forall k, (k < 14)%nat -> shp (mat_at A k) = [nth k (shp X14) 0%nat; nth k (repeat 1 14)%nat 0%nat]) ->
  exists ds, length ds = 14%nat /\ A = map (fun k => mkT [nth k (shp X14) 0%nat; nth k (repeat 1 14)%nat 0%nat] (nth k ds [])) (seq 0 14).
Proof.
  intros HL HA. exists (map dat A). split; [rewrite map_length; exact HL|].
  apply nth_ext with (d := mkT [] []) (d' := mkT [] []); [rewrite map_length, seq_length; exact HL|].
  intros k Hk. rewrite HL in Hk. rewrite nth_map_seq by auto. specialize (HA k Hk). unfold mat_at in HA.
  rewrite (nth_indep (map dat A) [] (dat (mkT (T := R) [] []))) by (rewrite map_length; lia). rewrite map_nth.
  rewrite <- HA. destruct (nth k A _). reflexivity.
Qed.

Lemma ttm14 (A : list (tensor R)) s : length A = 14%nat ->
  (forall k, (k < 14)%nat -> shp (mat_at A k) = [nth k (shp X14) 0%nat; nth k (repeat 1 14)%nat 0%nat]) ->
  s = SkNone \/ s = SkInt 0 -> ttm X14 A None true s = Raise ValueError.
Proof.
  intros HL HA Hs. destruct (shapes14 A HL HA) as (ds & Hd & ->).
  do 14 (destruct ds as [|? ds]; [discriminate|]). destruct ds; [|discriminate]. clear Hd HL HA.
  destruct Hs as [->| ->]; vm_compute; reflexivity.
Qed.

Lemma order14 : exists (X : tensor R) ranks, wf X /\ nonempty (shp X) /\ nonempty ranks /\ length ranks = ndims X /\ ndims X = 14%nat /\
  forall svdU, left_svd svdU ->
    hosvd svdU X (map Z.of_nat ranks) = Raise ValueError /\
    hosvd svdU X (map Z.of_nat (shp X)) = Raise ValueError /\
    (exists A, hooi_init svdU X (map Z.of_nat ranks) = Ok A) /\
    forall A, factor_state X ranks A -> hooi_step svdU X (map Z.of_nat ranks) A = Raise ValueError.
Proof.
  exists X14, (repeat 1%nat 14). split; [reflexivity|].
  assert (Hne : nonempty (shp X14)) by (repeat constructor; discriminate). split; [exact Hne|].
  assert (Hnr : nonempty (repeat 1%nat 14)) by (repeat constructor; discriminate). split; [exact Hnr|].
  split; [reflexivity|]. split; [reflexivity|]. intros svdU HS.
  assert (HH : forall ranks, ndims X14 = length ranks -> nth 0 (fitted (shp X14) ranks) 0%nat = 1%nat ->
    (forall k, (0 < k < 14)%nat -> nth k (fitted (shp X14) ranks) 0%nat = 1%nat) -> hosvd svdU X14 (map Z.of_nat ranks) = Raise ValueError).
  { intros ranks Hl H0 Hk. destruct (hosvd_factors svdU X14 ranks HS Hne) as (A & EA & [HL HA] & _); [lia|].
    unfold hosvd. rewrite EA. cbn [bind]. rewrite (ttm14 A SkNone); auto.
    intros k Hk'. destruct (HA k Hk') as [[_ E] _]. rewrite E. f_equal. f_equal.
    destruct k as [|k]; [exact H0|]. rewrite Hk by lia. symmetry. apply (@repeat_spec nat 14 1%nat). apply nth_In. exact Hk'. }
  split; [apply HH; [reflexivity|vm_compute; reflexivity|]; intros k Hk; do 14 (destruct k as [|k]; [try lia; vm_compute; reflexivity|]); lia|].
  split; [apply HH; [reflexivity|vm_compute; reflexivity|]; intros k Hk; do 14 (destruct k as [|k]; [try lia; vm_compute; reflexivity|]); lia|].
  split.
  - destruct (hooi_init_cases svdU X14 (repeat 1%nat 14) HS Hne eq_refl) as [G _]. destruct G as (A & E & _); [|eauto].
    intros k Hk. change (k < 14)%nat in Hk. do 14 (destruct k as [|k]; [vm_compute; lia|]). lia.
  - intros A [HL HA]. unfold hooi_step. change (seq 0 (ndims X14)) with (0 :: seq 1 13)%nat. cbn [hooi_modes].
    unfold hooi_mode. rewrite (ttm14 A (SkInt (Z.of_nat 0))); auto. intros k Hk. destruct (HA k Hk) as [[_ E] _]. exact E.
Qed.

(** ** training succeeds when every step does *)
Section Total.
  Context {S : Type} (run : S -> res (S * sobs R)) (args : targs R) (steps : Z) (P : S -> Prop).
  Hypothesis Hrun : forall s, P s -> exists s' o, run s = Ok (s', o) /\ P s'.
  Hypothesis Hval : forall step, exists v, validate args steps step = Ok v.

  Lemma als_loop_total fuel : forall step s obj0 nst h p, P s ->
    exists p' h', als_loop run true args steps fuel step s obj0 nst h p = (p', Ok h') /\ (length h <= length h')%nat.
  Proof.
    induction fuel as [|fuel IH]; intros step s obj0 nst h p Hs; cbn [als_loop].
    - eauto.
    - destruct (Hval step) as (v & ->). unfold run_v. rewrite andb_false_r. destruct (Hrun s Hs) as (s' & o & -> & Hs').
      destruct (stop_now _ _ _).
      + eexists _, _. split; [reflexivity|]. rewrite app_length. lia.
      + edestruct IH as (p' & h' & E & L); [exact Hs'|]. rewrite E. eexists _, _. split; [reflexivity|]. rewrite app_length in L. lia.
  Qed.
End Total.

Lemma c54_hooi_total svdU (X : tensor R) ranks args id w o rnd steps : left_svd svdU -> wf X -> nonempty (shp X) -> nonempty ranks ->
  length ranks = ndims X -> (2 <= ndims X <= 13)%nat ->
  (forall n, (n < ndims X)%nat -> (nth n ranks 0 <= Nat.min (nth n (shp X) 0) (Nat.min (rest n (shp X)) (rest n ranks)))%nat) ->
  o_built o = Some ((args, map Z.of_nat ranks), id) -> w_path w = true -> (forall i, In i (w_sums w) -> i = id) ->
  (0 < steps)%Z -> a_vi args <> 0%Z ->
  exists o' h, hooi_train svdU X w o rnd steps = (o', Ok h).
Proof.
  intros HS HX Hne Hrk Hl Ho Hfit Hb Hw Hid Hst Hint.
  unfold hooi_train, obj_train. rewrite Hb, Hw. cbn [negb].
  assert (E : forallb (Nat.eqb id) (w_sums w) = true). { apply forallb_forall. intros i Hi. apply Nat.eqb_eq. symmetry. auto. }
  rewrite E. unfold hooi_body, als_body. cbn [fst snd].
  destruct (hooi_init_cases svdU X ranks HS Hne Hl) as [G _]. destruct G as (A & EA & HA); [intros n Hn; specialize (Hfit n Hn); lia|].
  rewrite EA. destruct (Z.leb_spec steps 0); [lia|].
  edestruct (als_loop_total (hooi_run svdU X (map Z.of_nat ranks)) args steps (factor_state X ranks)) as (p' & h' & E1 & _).
  - intros s Hs. destruct (hooi_step_cases svdU X ranks HS HX Hne Hrk Hl Ho s Hs) as [G _].
    destruct G as (q & Eq); [intros n Hn; specialize (Hfit n Hn); lia|]. unfold hooi_run. rewrite Eq. cbn [bind]. eexists _, _. split; [reflexivity|].
    apply (hooi_step_ok svdU X ranks HS HX Hne Hrk Hl Ho s q Hs Eq).
  - intros step. unfold validate. destruct (_ || _)%bool; [eauto|]. destruct (Z.eqb_spec (a_vi args) 0); [contradiction|]. eauto.
  - exact HA.
  - rewrite E1. eauto.
Qed.

(** ** a HOOI step only succeeds for orders 2 to 13 *)
Lemma ttm_nil {T} {NT : Num T} (X : tensor T) ax tr Y : ttm X [] ax tr SkNone = Ok Y -> ax <> None.
Proof.
  intros H E. subst ax. unfold ttm in H. cbn [length skip_] in H. change (zrange 0) with (@nil Z) in H. cbv zeta iota in H. cbn [mapM] in H.
  apply bind_ok in H as (tops & _ & H). cbn [bind set_targets] in H. apply einsum_ok_inv in H as (_ & _ & H & _). apply (H []); [right; left; reflexivity|reflexivity].
Qed.

Lemma hooi_step_order {T} {NT : Num T} svdU (X : tensor T) ranks A o : length A = ndims X -> hooi_step svdU X ranks A = Ok o -> (2 <= ndims X <= 13)%nat.
Proof.
  intros HL H. unfold hooi_step in H. apply bind_ok in H as (A' & E & H). apply bind_ok in H as (g & E2 & _).
  destruct (ndims X) as [|N] eqn:EN.
  - destruct A; [|discriminate]. cbn in E. injection E as <-. apply ttm_nil in E2. contradiction.
  - cbn [seq hooi_modes] in E. apply bind_ok in E as (A1 & E & _). unfold hooi_mode in E. apply bind_ok in E as (Y & E & _).
    rewrite <- EN. apply (ttm_skip0_order X Y A true); [congruence|exact E].
Qed.

Lemma c54_step_fails svdU (X : tensor R) ranks A : length A = ndims X -> (ndims X < 2 \/ 13 < ndims X)%nat -> exists e, hooi_step svdU X ranks A = Raise e.
Proof. intros HL Ho. destruct (hooi_step svdU X ranks A) as [o|e] eqn:E; [|eauto]. apply hooi_step_order in E; [lia|exact HL]. Qed.

Lemma c55_hooi_any svdU (X : tensor R) ranks A o : left_svd svdU -> wf X -> nonempty (shp X) -> nonempty ranks ->
  length ranks = ndims X -> factor_state X ranks A ->
  hooi_step svdU X (map Z.of_nat ranks) A = Ok o ->
  ho_core o = project X (ho_A o) /\ ho_full o = tucker_tensor (ho_core o) (ho_A o) /\
  sqdist X (ho_full o) = sqlen X - sqlen (ho_core o).
Proof. intros HS HX Hne Hrk Hl HA E. apply (c55_hooi svdU X ranks A); auto. apply (hooi_step_order svdU X (map Z.of_nat ranks) A o); auto. apply HA. Qed.

Lemma c56_hooi_any svdU (X : tensor R) A o : left_svd svdU -> wf X -> nonempty (shp X) ->
  factor_state X (shp X) A -> hooi_step svdU X (map Z.of_nat (shp X)) A = Ok o -> ho_full o = X.
Proof. intros HS HX Hne HA E. apply (c56_hooi svdU X A); auto. apply (hooi_step_order svdU X (map Z.of_nat (shp X)) A o); auto. apply HA. Qed.

Lemma c57_step_any svdU (X : tensor R) ranks A o : left_svd svdU -> wf X -> nonempty (shp X) -> nonempty ranks ->
  length ranks = ndims X -> factor_state X ranks A ->
  hooi_step svdU X (map Z.of_nat ranks) A = Ok o ->
  sqdist X (ho_full o) <= sqdist X (tucker_tensor (project X A) A) /\ m_obj (ho_met o) = / 2 * sqdist X (ho_full o).
Proof. intros HS HX Hne Hrk Hl HA E. apply (c57_step svdU X ranks A); auto. apply (hooi_step_order svdU X (map Z.of_nat ranks) A o); auto. apply HA. Qed.

Lemma hooi_run_order svdU (X : tensor R) ranks A0 os k : length A0 = ndims X -> als_run (hooi_run svdU X ranks) A0 os -> (k < length os)%nat -> (2 <= ndims X <= 13)%nat.
Proof.
  intros HL (st & H0 & Hst) Hk. destruct os as [|o os]; [cbn in Hk; lia|]. specialize (Hst 0%nat o eq_refl). rewrite H0 in Hst. unfold hooi_run in Hst.
  destruct (hooi_step svdU X ranks A0) as [q|] eqn:Eq; [|discriminate]. apply (hooi_step_order svdU X ranks A0 q HL Eq).
Qed.

Lemma hooi_run_mono_any svdU (X : tensor R) ranks A0 os : left_svd svdU -> wf X -> nonempty (shp X) -> nonempty ranks ->
  length ranks = ndims X -> factor_state X ranks A0 ->
  als_run (hooi_run svdU X (map Z.of_nat ranks)) A0 os ->
  forall j k, (j <= k)%nat -> (k < length os)%nat ->
    m_obj (met os k) <= m_obj (met os j) /\
    (sqlen X <> 0 -> m_rel (met os k) <= m_rel (met os j)).
Proof.
  intros HS HX Hne Hrk Hl HA Hr j k Hjk Hk. apply (hooi_run_mono svdU X ranks A0 os); auto.
  apply (hooi_run_order svdU X (map Z.of_nat ranks) A0 os k); auto. apply HA.
Qed.

Lemma c57_train_any svdU (X : tensor R) w o rnd steps o' h : left_svd svdU -> wf X -> nonempty (shp X) -> sqlen X <> 0 ->
  (exists args ranks id, o_built o = Some ((args, map Z.of_nat ranks), id) /\ nonempty ranks /\ length ranks = ndims X) ->
  hooi_train svdU X w o rnd steps = (o', Ok h) ->
  forall j k, (j <= k)%nat -> (k < length h)%nat -> snd (nth k h (0, 0)) <= snd (nth j h (0, 0)).
Proof.
  intros HS HX Hne Hz (args & ranks & id & Hb & Hrk & Hl) H j k Hjk Hk.
  refine (c57_train svdU X w o rnd steps o' h HS HX Hne _ Hz (ex_intro _ args (ex_intro _ ranks (ex_intro _ id (conj Hb (conj Hrk Hl))))) H j k Hjk Hk).
  apply hooi_history in H as (args' & ranks' & id' & A0 & os & Hb' & Hi & Hr & -> & _). rewrite map_length in Hk.
  refine (hooi_run_order svdU X ranks' A0 os k _ Hr Hk). unfold hooi_init in Hi. apply mapM_length in Hi. rewrite zrange_length in Hi. exact Hi.
Qed.
