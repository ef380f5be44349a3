(** How good HOSVD and HOOI are: optimal cores, optimal mode updates, HOOI against HOSVD, and
    both against the best Tucker approximation of the same ranks (C75, C76, C77). *)

From Coq Require Import ZArith List Bool Arith Lia Reals Lra Psatz.
From Verif Require Import Num Py Tensor TF TensorFacts TFFacts Sums Ops OpsLemmas Types Loss Fact Train Spec SpecR LayoutFacts SpecFacts MulFacts TtmFacts SkipFacts TtmLemmas Matricize
  KronFacts RSums MatR KronAlg NormFacts SpecTucker MultiR SvdFacts TuckerFacts TuckerRun TuckerLemmas SpecCp SpecBcu BcuFacts SpecTrain TrainLemmas CpFacts AlsFacts AlsLemmas
  SpecProx Prox NcpFacts NcpLemmas NtFacts NtLemmas DataFacts TrainFacts SvdExists Order14 Exact.
Import ListNotations.
From Coq Require Import Permutation.
Local Open Scope R_scope.

(** every matrix factors through orthonormal columns *)
Lemma factor_span (B : tensor R) m r : is_mat B m r -> exists U V, is_mat U m (Nat.min m r) /\ orthonormal U /\ is_mat V (Nat.min m r) r /\
  forall i j, (i < m)%nat -> (j < r)%nat -> sumn (Nat.min m r) (fun k => mget U i k * mget V k j) = mget B i j.
Proof.
  intros HB. destruct (matrix_is_mat _ _ _ HB) as (H1 & H2 & H3). destruct (svd_exists B H1) as (U & s & W & HU). unfold thin_svd in HU. rewrite H2, H3 in HU.
  destruct HU as (U1 & U2 & U3 & U4 & _ & _ & E). exists U, (mgen (Nat.min m r) r (fun k j => s k * mget W j k)).
  split; [exact U1|]. split; [exact U3|]. split; [apply is_mat_mgen|]. intros i j Hi Hj. rewrite E by auto. rewrite <- (sumn_bigsum RLR). apply sumnR_ext.
  intros k Hk. rewrite mget_mgen by auto. Rn. ring.
Qed.

(** the best approximation with fibers in the span of U is the projection *)
Lemma mode_opt (X Z U : tensor R) n : (n < ndims X)%nat -> wf Z -> nrows U = nth n (shp X) 0%nat -> orthonormal U ->
  shp Z = replace n (ncols U) (shp X) ->
  sqlen X - sqlen (mode_product X (mtrans U) n) <= sqdist X (mode_product Z U n).
Proof.
  intros Hn WZ HU Ho HZ. set (P := mode_product X (mtrans U) n).
  assert (HP : shp P = shp Z) by (rewrite HZ; reflexivity).
  assert (HnZ : (n < ndims Z)%nat) by (unfold ndims; rewrite HZ, replace_length; exact Hn).
  assert (Hc : ncols U = nth n (shp Z) 0%nat) by (rewrite HZ, nth_replace_eq; auto).
  assert (Hs : shp (mode_product Z U n) = shp X).
  { unfold mode_product. rewrite shp_gen, HZ, replace_replace, HU. apply replace_nth. }
  rewrite sqdist_expand by auto.
  assert (E1 : tdot X (mode_product Z U n) = tdot P Z).
  { rewrite tdot_sym by auto. rewrite tdot_mp by auto. apply tdot_sym. auto. }
  assert (E2 : sqlen (mode_product Z U n) = sqlen Z).
  { rewrite !sqlen_tdot. rewrite tdot_mp by auto. rewrite mp_ortho; auto. }
  pose proof (MultiR.sqdist_nonneg P Z) as D. rewrite sqdist_expand in D by auto. rewrite E1, E2. lra.
Qed.

Lemma discarded_le s r c k : (c <= r)%nat -> discarded s r k <= discarded s c k.
Proof.
  intros H. unfold discarded. rewrite <- !(sumn_bigsum RLR). apply sumnR_le. intros p Hp.
  destruct (Nat.ltb_spec p r), (Nat.ltb_spec p c); try lia; try apply Rle_refl. apply Rle_0_sqr.
Qed.

(** orthonormal columns capture at most what the leading singular vectors do *)
Lemma eckart (X M U W V : tensor R) s n : nonempty (shp X) -> (n < ndims X)%nat -> unfold X (Z.of_nat n) = Ok M -> thin_svd M U s W ->
  matrix V -> nrows V = nth n (shp X) 0%nat -> orthonormal V ->
  discarded s (ncols V) (Nat.min (nth n (shp X) 0%nat) (rest n (shp X))) <= sqlen X - sqlen (mode_product X (mtrans V) n).
Proof.
  intros Hne Hn HM Hs HV Hr Ho. set (k := Nat.min _ _).
  assert (H0 : nth n (shp X) 0%nat <> 0%nat) by (apply nonempty_nth; auto).
  pose proof HM as HM2. apply unfold_mat in HM2 as [_ HM2]; auto. destruct (matrix_is_mat _ _ _ HM2) as (Hmm & Hrm & Hcm).
  destruct (le_lt_dec (ncols V) k) as [L|L].
  - rewrite discarded_tail by auto. pose proof (svd_tail M U W s Hs (ncols V)) as E. rewrite Hrm, Hcm in E. fold k in E. rewrite <- E by auto.
    rewrite (sqlen_unfold X M n Hn H0 HM). destruct (Nat.eq_dec (ncols V) 0) as [Z|Z].
    + assert (Q : sqlen (mode_product X (mtrans V) n) = 0).
      { unfold sqlen. change (shp (mode_product X (mtrans V) n)) with (replace n (ncols V) (shp X)). rewrite Z.
        rewrite <- (isum_msum RLR). apply (isum_zero RLR). intros idx Hv. exfalso. pose proof (valid_nth _ _ n Hv) as G.
        rewrite replace_length, nth_replace_eq in G by exact Hn. specialize (G Hn). lia. }
      rewrite Q, Z. unfold fro, dot2 at 2. rewrite sumn_0. Rn. lra.
    + rewrite (mp_energy X V M n) by auto.
      pose proof (svd_kyfan M U W s Hs (ncols V) (mget V)) as K. rewrite Hrm, Hcm in K. fold k in K.
      specialize (K L). rewrite <- Hr in K at 1. specialize (K (proj1 (orthonormal_ortho V) Ho)). lra.
  - pose proof (mp_shrinks_le X V n Hn HV Hr Ho). replace (discarded s (ncols V) k) with 0; [lra|]. symmetry.
    unfold discarded. rewrite <- (sumn_bigsum RLR). apply sumnR_zero. intros p Hp. destruct (Nat.ltb_spec p (ncols V)); [reflexivity|lia].
Qed.

Section Models.
  Variables (X : tensor R) (ranks : list nat).
  Hypothesis HX : wf X.
  Let N := ndims X.

  (** a Tucker model as a mode product with any of its factors *)
  Lemma tk_mode g A n : tucker_factors X ranks A -> core_like ranks g -> (n < N)%nat ->
    tucker_tensor g A = mode_product (mode_products g (pl A (others n N))) (mat_at A n) n.
  Proof.
    intros HA Hg Hn. rewrite (tk_pl X ranks _ HA g Hg). fold N.
    rewrite (mode_products_perm RLR g (pl A (seq 0 N)) (pl A (others n N) ++ pl A [n])).
    - unfold mode_products at 1. rewrite fold_left_app. reflexivity.
    - apply Hg.
    - unfold pl. rewrite <- map_app. apply Permutation_map.
      rewrite <- (kolda_perm n N Hn). rewrite Permutation_app_comm. cbn [app]. apply perm_skip. symmetry. apply Permutation_rev.
    - rewrite snd_pl. apply seq_NoDup.
    - intros p Hp. unfold pl in Hp. apply in_map_iff in Hp as (k & <- & Hk). apply in_seq in Hk. apply (core_fits X ranks _ HA g k Hg). unfold N in Hk. lia.
  Qed.

  Lemma tk_mode_shape g A n c : tucker_factors X ranks A -> core_like ranks g -> (n < N)%nat ->
    replace n c (shp (mode_products g (pl A (others n N)))) = replace n c (shp X).
  Proof.
    intros HA Hg Hn. rewrite <- (tk_shape X ranks A HA g), (tk_mode g A n HA Hg Hn). unfold mode_product. rewrite shp_gen, replace_replace. reflexivity.
  Qed.

  (** no Tucker model gets below what the leading singular vectors of any one mode miss *)
  Lemma lower_bound g A n M U W s : nonempty (shp X) -> tucker_factors X ranks A -> core_like ranks g -> (n < N)%nat ->
    unfold X (Z.of_nat n) = Ok M -> thin_svd M U s W ->
    discarded s (nth n ranks 0%nat) (Nat.min (nth n (shp X) 0%nat) (rest n (shp X))) <= sqdist X (tucker_tensor g A).
  Proof.
    intros Hne HA Hg Hn HM Hs. destruct HA as (L1 & L2 & L3). pose proof (L3 n Hn) as HB. pose proof (conj L1 (conj L2 L3) : tucker_factors X ranks A) as HA.
    destruct (factor_span _ _ _ HB) as (V & Q & V1 & V2 & Q1 & E). set (c := Nat.min (nth n (shp X) 0%nat) (nth n ranks 0%nat)) in *.
    destruct (matrix_is_mat _ _ _ V1) as (Vm & Vr & Vc). destruct (matrix_is_mat _ _ _ Q1) as (Qm & Qr & Qc). destruct (matrix_is_mat _ _ _ HB) as (Bm & Br & Bc).
    rewrite (tk_mode g A n HA Hg Hn). set (Zc := mode_products g (pl A (others n N))).
    assert (HZc : (n < ndims Zc)%nat). { pose proof (tk_mode_shape g A n 0%nat HA Hg Hn) as S. fold Zc in S. apply (f_equal (@length nat)) in S. rewrite !replace_length in S. unfold ndims. rewrite S. exact Hn. }
    rewrite <- (mp_mp Zc Q V (mat_at A n) n); auto; try congruence.
    - eapply Rle_trans; [|apply mode_opt; auto].
      + eapply Rle_trans; [|apply (eckart X M U W V s n); auto]. apply discarded_le. rewrite Vc. unfold c. lia.
      + apply wf_gen.
      + unfold mode_product at 1. rewrite shp_gen, Qr, Vc. apply tk_mode_shape; auto.
    - rewrite Vr, Qc. intros i j Hi Hj. rewrite Vc. apply E; auto.
  Qed.

  Lemma state_tucker A : factor_state X ranks A -> length ranks = ndims X -> tucker_factors X ranks A.
  Proof. intros [H1 H2] H. split; [auto|]. split; [auto|]. intros k Hk. apply H2, Hk. Qed.

  (** with orthonormal factors the projection is the best core *)
  Lemma core_opt g A : factor_state X ranks A -> length ranks = ndims X -> core_like ranks g ->
    sqdist X (tucker_tensor (project X A) A) <= sqdist X (tucker_tensor g A).
  Proof.
    intros HA Hl Hg. pose proof (state_tucker A HA Hl) as HT. rewrite (energy X ranks HX A HA).
    assert (HP : shp (project X A) = ranks) by (apply (proj_shape' X ranks A HT X eq_refl)).
    rewrite sqdist_expand by (symmetry; apply (tk_shape X ranks A HT)).
    rewrite (tk_adj X ranks A HT X g HX eq_refl Hg).
    assert (E : sqlen (tucker_tensor g A) = sqlen g).
    { rewrite !sqlen_tdot. rewrite (tk_pl X ranks A HT g Hg).
      assert (HF : forall p, In p (pl A (seq 0 (ndims X))) -> pair_fits (shp g) p /\ orthonormal (fst p)).
      { intros p Hp. unfold pl in Hp. apply in_map_iff in Hp as (k & <- & Hk). apply in_seq in Hk. split; [apply (core_fits X ranks A HT g k Hg); lia|apply HA; lia]. }
      rewrite tdot_mps.
      - rewrite mps_ortho; [reflexivity|apply Hg|rewrite snd_pl; apply seq_NoDup|exact HF].
      - rewrite snd_pl. apply seq_NoDup.
      - intros p Hp. apply HF, Hp.
      - rewrite shp_mode_products. reflexivity. }
    rewrite E. pose proof (MultiR.sqdist_nonneg (project X A) g) as D. rewrite sqdist_expand in D by (rewrite HP; symmetry; apply Hg).
    unfold tdot in D. rewrite HP in D. Rn. lra.
  Qed.
End Models.

(** ** HOSVD *)
Lemma hosvd_quasi svdU (X : tensor R) ranks rk o g B : left_svd svdU -> wf X -> nonempty (shp X) -> (0 < ndims X <= 13)%nat -> (ndims X <= length ranks)%nat ->
  hosvd svdU X (map Z.of_nat ranks) = Ok o -> tucker_factors X rk B -> core_like rk g -> (forall n, (n < ndims X)%nat -> (nth n rk 0 <= nth n ranks 0)%nat) ->
  sqdist X (tu_full o) <= INR (ndims X) * sqdist X (tucker_tensor g B).
Proof.
  intros HS HX Hne Ho Hl E HB Hg Hrk. destruct (hosvd_ok svdU X ranks HS HX Hne Hl Ho) as (o' & E' & H1 & H2 & H3 & H4).
  rewrite E in E'. injection E' as <-. rewrite H3, H2. eapply Rle_trans; [apply (hosvd_bound X _ _ HX H1)|].
  rewrite <- sumnR_const. apply sumnR_le. intros n Hn. destruct (H4 n Hn) as (M & HM & EM).
  assert (H0 : nth n (shp X) 0%nat <> 0%nat) by (apply nonempty_nth; auto).
  pose proof HM as HM2. apply unfold_mat in HM2 as [_ HM2]; auto. destruct (matrix_is_mat _ _ _ HM2) as (Hmm & Hr & Hc).
  destruct (HS M Hmm) as (s & W & Hs); [rewrite Hr; auto|rewrite Hc; apply rest_nonzero; auto|].
  rewrite EM, (mode_tail svdU X M W s) by auto. eapply Rle_trans; [apply discarded_le, (Hrk n Hn)|]. apply (lower_bound X rk g B n M (svdU M) W s); auto.
Qed.

Lemma hosvd_core_opt svdU (X : tensor R) ranks o g : left_svd svdU -> wf X -> nonempty (shp X) -> (0 < ndims X <= 13)%nat -> (ndims X <= length ranks)%nat ->
  hosvd svdU X (map Z.of_nat ranks) = Ok o -> core_like (fitted (shp X) ranks) g -> sqdist X (tu_full o) <= sqdist X (tucker_tensor g (tu_A o)).
Proof.
  intros HS HX Hne Ho Hl E Hg. destruct (hosvd_ok svdU X ranks HS HX Hne Hl Ho) as (o' & E' & H1 & H2 & H3 & H4).
  rewrite E in E'. injection E' as <-. rewrite H3, H2. apply (core_opt X (fitted (shp X) ranks) HX); auto.
  unfold fitted. rewrite map_length, seq_length. reflexivity.
Qed.

(** square orthonormal factors lose nothing *)
Lemma full_exact (X : tensor R) A : wf X -> factor_state X (shp X) A -> tucker_tensor (project X A) A = X.
Proof.
  intros HX HA. symmetry. apply MultiR.sqdist_zero; auto.
  - apply (full_wf X).
  - rewrite (full_shape X _ _ HA). reflexivity.
  - apply Rle_antisym; [|apply MultiR.sqdist_nonneg].
    eapply Rle_trans; [apply (hosvd_bound X _ _ HX HA)|]. apply Req_le. apply sumnR_zero. intros n Hn.
    destruct (A_fits X _ _ HA n Hn) as (F1 & F2 & F3). assert (Fo : orthonormal (mat_at A n)) by (apply HA; auto).
    rewrite <- residual_energy by auto. set (U := mat_at A n) in *.
    apply orthonormal_ortho in Fo. rewrite F2, F3 in Fo. apply ortho_square in Fo.
    unfold sqlen. change (shp (mode_product X (residual_mat U) n)) with (replace n (nrows U) (shp X)).
    rewrite <- (isum_msum RLR). apply (isum_zero RLR). intros idx Hv. rewrite get_mp by exact Hv.
    rewrite sumnR_zero; [unfold Rsqr; Rn; lra|]. change (ncols (residual_mat U)) with (nrows U). intros k Hk.
    assert (Hi : (nth n idx 0 < nrows U)%nat).
    { pose proof (valid_nth _ _ n Hv) as G. rewrite replace_length, nth_replace_eq in G by exact Hn. apply G. exact Hn. }
    unfold residual_mat. rewrite mget_mgen by auto. rewrite F2 in Hi, Hk. specialize (Fo _ _ Hi Hk). unfold mm, tr in Fo.
    rewrite F3, Fo. lra.
Qed.

(** at order 14 HOSVD may return something that no factor relates to the best approximation *)
Lemma quasi_order14 : exists X : tensor R, wf X /\ nonempty (shp X) /\ ndims X = 14%nat /\ forall svdU, left_svd svdU ->
  exists o g B, hosvd svdU X (map Z.of_nat (shp X)) = Ok o /\ tucker_factors X (shp X) B /\ core_like (shp X) g /\
    INR (ndims X) * sqdist X (tucker_tensor g B) < sqdist X (tu_full o).
Proof.
  destruct c55_order14 as (X & H1 & H2 & H3 & H4 & H). exists X. split; [exact H1|]. split; [exact H2|]. split; [exact H3|]. intros svdU HS.
  destruct (H svdU HS) as (o & E & HA & _ & D). exists o, (project X (tu_A o)), (tu_A o). split; [exact E|].
  pose proof (state_tucker X (shp X) _ HA eq_refl) as HT. split; [exact HT|]. split.
  - split; [apply wf_mode_products; exact H1|apply (proj_shape' X _ _ HT X eq_refl)].
  - rewrite (full_exact X _ H1 HA), D. assert (Z : sqdist X X = 0) by (apply LossFacts.sqdist_zero; auto). rewrite Z. lra.
Qed.

(** ** HOOI *)
Lemma mapM_impl {A B} (f g : A -> res B) l r : (forall x y, f x = Ok y -> g x = Ok y) -> mapM f l = Ok r -> mapM g l = Ok r.
Proof.
  intros H. revert r. induction l as [|x l IH]; intros r E; [exact E|]. cbn [mapM] in *. apply bind_ok in E as (y & Ey & E). apply bind_ok in E as (ys & Eys & E).
  rewrite (H _ _ Ey). cbn [bind]. rewrite (IH _ Eys). exact E.
Qed.

Lemma hooi_init_hosvd {T} {NT : Num T} svdU (X : tensor T) ranks A o : hooi_init svdU X ranks = Ok A -> hosvd svdU X ranks = Ok o -> tu_A o = A.
Proof.
  intros H1 H2. unfold hosvd in H2. apply bind_ok in H2 as (A' & E & H2).
  assert (E' : mapM (hosvd_factor svdU X ranks) (zrange (ndims X)) = Ok A).
  { refine (mapM_impl _ _ _ _ _ H1). intros n y Hy. apply bind_ok in Hy as (d & _ & Hy). apply bind_ok in Hy as (r & _ & Hy). apply bind_ok in Hy as (v & Ev & Hy).
    rewrite Ev. unfold assign_chk in Hy. destruct (r <? 0)%Z; [discriminate|]. destruct (shape_eqb _ _); [|discriminate]. exact Hy. }
  rewrite E' in E. injection E as <-. apply bind_ok in H2 as (g & _ & H2). apply bind_ok in H2 as (full & _ & H2). apply bind_ok in H2 as (l & _ & H2). injection H2 as <-. reflexivity.
Qed.

Lemma upd_here (A : list (tensor R)) n v : (n < length A)%nat -> mat_at (upd A n v) n = v.
Proof. intros H. unfold mat_at. rewrite nth_upd, Nat.eqb_refl. destruct (Nat.ltb_spec n (length A)); [reflexivity|lia]. Qed.

Section HooiBest.
  Variables (svdU : tensor R -> tensor R) (X : tensor R) (ranks : list nat).
  Hypothesis HS : left_svd svdU.
  Hypothesis HX : wf X.
  Hypothesis Hne : nonempty (shp X).
  Hypothesis Hrk : nonempty ranks.
  Hypothesis Hlen : length ranks = ndims X.
  Let N := ndims X.

  Lemma hooi_init_state A : hooi_init svdU X (map Z.of_nat ranks) = Ok A -> factor_state X ranks A.
  Proof.
    intros Hi. destruct (hooi_init_cases svdU X ranks HS Hne Hlen) as [G1 G2]. destruct G1 as (A' & E & HA).
    - intros n Hn. destruct (le_lt_dec (nth n ranks 0%nat) (Nat.min (nth n (shp X) 0%nat) (rest n (shp X)))) as [L|L]; auto.
      rewrite G2 in Hi by eauto. discriminate.
    - rewrite Hi in E. injection E as <-. exact HA.
  Qed.

  (** every step improves on the start *)
  Lemma hooi_run_start A0 os : factor_state X ranks A0 -> als_run (hooi_run svdU X (map Z.of_nat ranks)) A0 os ->
    forall k ob, nth_error os k = Some ob -> (2 <= ndims X <= 13)%nat /\ sqdist X (ob_full ob) <= sqdist X (tucker_tensor (project X A0) A0).
  Proof.
    intros HA Hr. assert (Ho : forall k ob, nth_error os k = Some ob -> (2 <= ndims X <= 13)%nat).
    { intros k ob E. apply (hooi_run_order svdU X (map Z.of_nat ranks) A0 os k); [apply HA|exact Hr|]. apply nth_error_Some. congruence. }
    destruct Hr as (st & H0 & Hst).
    assert (G : forall k, (k <= length os)%nat -> factor_state X ranks (st k) /\ sqdist X (tucker_tensor (project X (st k)) (st k)) <= sqdist X (tucker_tensor (project X A0) A0) /\
      forall j ob, k = S j -> nth_error os j = Some ob -> ob_full ob = tucker_tensor (project X (st k)) (st k)).
    { induction k as [|k IH]; intros Hk.
      - rewrite H0. split; [exact HA|]. split; [lra|]. discriminate.
      - destruct (IH ltac:(lia)) as (G1 & G2 & _). destruct (nth_error os k) as [ob|] eqn:E; [|apply nth_error_None in E; lia].
        pose proof (Ho _ _ E) as Hord. pose proof (Hst k ob E) as Er. unfold hooi_run in Er.
        destruct (hooi_step svdU X (map Z.of_nat ranks) (st k)) as [q|] eqn:Eq; [|discriminate]. cbn [bind] in Er. injection Er as E1 E2.
        destruct (hooi_step_ok svdU X ranks HS HX Hne Hrk Hlen Hord (st k) q G1 Eq) as (F1 & F2 & F3 & F4 & F5).
        destruct (c57_step svdU X ranks (st k) q HS HX Hne Hrk Hlen Hord G1 Eq) as [C _].
        rewrite <- E1. split; [exact F1|]. split; [rewrite <- F2, <- F3; lra|]. intros j ob' Ej Eo. injection Ej as <-. rewrite E in Eo. injection Eo as <-.
        rewrite <- E2, <- F2. exact F3. }
    intros k ob E. split; [apply (Ho k ob E)|]. assert (Hk : (S k <= length os)%nat) by (apply nth_error_Some; congruence).
    destruct (G (S k) Hk) as (_ & G2 & G3). rewrite (G3 k ob eq_refl E). exact G2.
  Qed.

  Lemma als_run_shape A0 os : factor_state X ranks A0 -> als_run (hooi_run svdU X (map Z.of_nat ranks)) A0 os ->
    forall k ob, nth_error os k = Some ob -> wf (ob_full ob) /\ shp (ob_full ob) = shp X.
  Proof.
    intros HA Hr. assert (Ho : forall k ob, nth_error os k = Some ob -> (2 <= ndims X <= 13)%nat).
    { intros k ob E. apply (hooi_run_order svdU X (map Z.of_nat ranks) A0 os k); [apply HA|exact Hr|]. apply nth_error_Some. congruence. }
    destruct Hr as (st & H0 & Hst).
    assert (G : forall k, (k <= length os)%nat -> factor_state X ranks (st k)).
    { induction k as [|k IH]; intros Hk; [rewrite H0; exact HA|]. destruct (nth_error os k) as [ob|] eqn:E; [|apply nth_error_None in E; lia].
      pose proof (Hst k ob E) as Er. unfold hooi_run in Er. destruct (hooi_step svdU X (map Z.of_nat ranks) (st k)) as [q|] eqn:Eq; [|discriminate]. cbn [bind] in Er. injection Er as E1 E2.
      rewrite <- E1. apply (hooi_step_ok svdU X ranks HS HX Hne Hrk Hlen (Ho k ob E) (st k) q (IH ltac:(lia)) Eq). }
    intros k ob E. pose proof (Hst k ob E) as Er. unfold hooi_run in Er. destruct (hooi_step svdU X (map Z.of_nat ranks) (st k)) as [q|] eqn:Eq; [|discriminate]. cbn [bind] in Er. injection Er as E1 E2.
    destruct (hooi_step_ok svdU X ranks HS HX Hne Hrk Hlen (Ho k ob E) (st k) q) as (F1 & F2 & F3 & _); auto.
    { apply G. assert (k < length os)%nat by (apply nth_error_Some; congruence). lia. }
    rewrite <- E2. cbn [ob_full]. rewrite F3, F2. split; [apply (full_wf X)|apply (full_shape X _ _ F1)].
  Qed.

  Lemma hooi_run_hosvd A0 os o : hooi_init svdU X (map Z.of_nat ranks) = Ok A0 -> hosvd svdU X (map Z.of_nat ranks) = Ok o ->
    als_run (hooi_run svdU X (map Z.of_nat ranks)) A0 os -> forall ob, In ob os -> sqdist X (ob_full ob) <= sqdist X (tu_full o).
  Proof.
    intros Hi Eo Hr ob Hin. apply In_nth_error in Hin as (k & Ek). destruct (hooi_run_start A0 os (hooi_init_state A0 Hi) Hr k ob Ek) as [Hord D].
    destruct (hosvd_ok svdU X ranks HS HX Hne ltac:(lia) ltac:(lia)) as (o' & E' & _ & H2 & H3 & _). rewrite Eo in E'. injection E' as <-.
    rewrite H3, H2, (hooi_init_hosvd svdU X _ A0 o Hi Eo). exact D.
  Qed.

  Lemma hooi_run_quasi A0 os rk g B : hooi_init svdU X (map Z.of_nat ranks) = Ok A0 -> als_run (hooi_run svdU X (map Z.of_nat ranks)) A0 os ->
    tucker_factors X rk B -> core_like rk g -> (forall n, (n < ndims X)%nat -> (nth n rk 0 <= nth n ranks 0)%nat) ->
    forall ob, In ob os -> sqdist X (ob_full ob) <= INR (ndims X) * sqdist X (tucker_tensor g B).
  Proof.
    intros Hi Hr HB Hg Hk ob Hin. pose proof Hin as Hin'. apply In_nth_error in Hin' as (k & Ek). destruct (hooi_run_start A0 os (hooi_init_state A0 Hi) Hr k ob Ek) as [Hord D].
    destruct (hosvd_ok svdU X ranks HS HX Hne ltac:(lia) ltac:(lia)) as (o & Eo & _).
    eapply Rle_trans; [apply (hooi_run_hosvd A0 os o Hi Eo Hr ob Hin)|]. apply (hosvd_quasi svdU X ranks rk o g B); auto; lia.
  Qed.

  (** ** optimal mode updates *)
  Lemma upd_upd {A} (l : list A) n u v : upd (upd l n u) n v = upd l n v.
  Proof.
    destruct l as [|d l']; [destruct n; reflexivity|]. apply (list_nth_ext _ _ d); [rewrite !upd_length; reflexivity|]. rewrite upd_length. intros j Hj.
    rewrite !nth_upd, upd_length. destruct (Nat.eqb j n); [|reflexivity]. destruct (Nat.ltb j (length (d :: l'))); reflexivity.
  Qed.

  Lemma upd_state A n V : factor_state X ranks A -> (n < N)%nat -> is_mat V (nth n (shp X) 0%nat) (nth n ranks 0%nat) -> orthonormal V -> factor_state X ranks (upd A n V).
  Proof.
    intros HA Hn HV Ho. pose proof (lenA X ranks A HA) as HL. split; [rewrite upd_length; exact HL|]. intros k Hk. destruct (Nat.eq_dec k n) as [->|Hkn].
    - rewrite upd_here by (rewrite HL; auto). auto.
    - rewrite upd_other by auto. apply HA. auto.
  Qed.

  Hypothesis Hord : (2 <= ndims X <= 13)%nat.

  Lemma mode_best_ortho A n A' V : factor_state X ranks A -> (n < N)%nat -> hooi_mode svdU X (map Z.of_nat ranks) n A = Ok A' ->
    is_mat V (nth n (shp X) 0%nat) (nth n ranks 0%nat) -> orthonormal V -> sqlen (project X (upd A n V)) <= sqlen (project X A').
  Proof.
    intros HA Hn E HV Ho. pose proof (upd_state A n V HA Hn HV Ho) as HU. apply (hooi_mode_ok svdU X ranks HS HX Hne Hrk Hlen Hord (upd A n V) n A' HU Hn).
    destruct (hooi_mode_cases svdU X ranks HS HX Hne Hrk Hlen Hord A n HA Hn) as (M & HM & EM).
    destruct (hooi_mode_cases svdU X ranks HS HX Hne Hrk Hlen Hord (upd A n V) n HU Hn) as (M' & HM' & EM').
    rewrite (plt_upd X ranks Hlen Hord) in HM'. rewrite HM in HM'. injection HM' as <-. rewrite EM', <- E, EM. destruct (Nat.leb _ _); [|reflexivity]. rewrite upd_upd. reflexivity.
  Qed.

  Lemma upd_tucker A n B : tucker_factors X ranks A -> (n < N)%nat -> is_mat B (nth n (shp X) 0%nat) (nth n ranks 0%nat) -> tucker_factors X ranks (upd A n B).
  Proof.
    intros (L1 & L2 & L3) Hn HB. split; [rewrite upd_length; auto|]. split; [auto|]. intros k Hk. destruct (Nat.eq_dec k n) as [->|Hkn].
    - rewrite upd_here by (rewrite L1; auto). auto.
    - rewrite upd_other by auto. apply L3. auto.
  Qed.

  Lemma pl_upd A n v : pl (upd A n v) (others n N) = pl A (others n N).
  Proof. unfold pl. apply map_ext_in. intros k Hk. apply in_others in Hk. rewrite upd_other by lia. reflexivity. Qed.

  (** a right factor moves into the core *)
  Lemma absorb A n g B V Q : tucker_factors X ranks A -> core_like ranks g -> (n < N)%nat ->
    is_mat B (nth n (shp X) 0%nat) (nth n ranks 0%nat) -> is_mat V (nth n (shp X) 0%nat) (nth n ranks 0%nat) -> is_mat Q (nth n ranks 0%nat) (nth n ranks 0%nat) ->
    (forall i j, (i < nth n (shp X) 0%nat)%nat -> (j < nth n ranks 0%nat)%nat -> sumn (nth n ranks 0%nat) (fun k => mget V i k * mget Q k j) = mget B i j) ->
    core_like ranks (mode_product g Q n) /\ tucker_tensor g (upd A n B) = tucker_tensor (mode_product g Q n) (upd A n V).
  Proof.
    intros HA Hg Hn HB HV HQ E. destruct (matrix_is_mat _ _ _ HB) as (B1 & B2 & B3). destruct (matrix_is_mat _ _ _ HV) as (V1 & V2 & V3). destruct (matrix_is_mat _ _ _ HQ) as (Q1 & Q2 & Q3).
    pose proof (upd_tucker A n B HA Hn HB) as HAB. pose proof (upd_tucker A n V HA Hn HV) as HAV.
    assert (HG : core_like ranks (mode_product g Q n)).
    { split; [apply wf_gen|]. unfold mode_product. rewrite shp_gen, (proj2 Hg), Q2. apply replace_nth. }
    split; [exact HG|]. rewrite (tk_mode X ranks g _ n HAB Hg Hn), (tk_mode X ranks _ _ n HAV HG Hn). fold N.
    rewrite !pl_upd. rewrite !upd_here by (rewrite (proj1 HA); exact Hn).
    assert (EQ : mode_products (mode_product g Q n) (pl A (others n N)) = mode_product (mode_products g (pl A (others n N))) Q n).
    { change (mode_product (mode_products g (pl A (others n N))) Q n) with (mode_products (mode_products g (pl A (others n N))) [(Q, n)]).
      change (mode_products (mode_product g Q n) (pl A (others n N))) with (mode_products g ((Q, n) :: pl A (others n N))).
      replace (mode_products (mode_products g (pl A (others n N))) [(Q, n)]) with (mode_products g (pl A (others n N) ++ [(Q, n)])) by (unfold mode_products; apply fold_left_app).
      apply (mode_products_perm RLR); [apply Hg|apply Permutation_cons_append|..].
      - cbn [map snd]. rewrite snd_pl. constructor; [intros Hin; apply in_others in Hin; lia|apply NoDup_filter, seq_NoDup].
      - intros p [<-|Hp].
        + split; [|split]; cbn [fst snd]; auto; rewrite (proj2 Hg); [rewrite Hlen; exact Hn|exact Q3].
        + unfold pl in Hp. apply in_map_iff in Hp as (k & <- & Hk). apply in_others in Hk. apply (core_fits X ranks A HA g k Hg). apply Hk. }
    rewrite EQ. symmetry. apply mp_mp; try congruence.
    - pose proof (tk_mode_shape X ranks g A n 0%nat HA Hg Hn) as S. apply (f_equal (@length nat)) in S. rewrite !replace_length in S. unfold ndims. fold N in S. rewrite S. exact Hn.
    - intros i j Hi Hj. rewrite V3. apply E; congruence.
  Qed.

  Lemma mode_best A n A' g B : factor_state X ranks A -> (n < N)%nat -> hooi_mode svdU X (map Z.of_nat ranks) n A = Ok A' ->
    core_like ranks g -> is_mat B (nth n (shp X) 0%nat) (nth n ranks 0%nat) ->
    sqdist X (tucker_tensor (project X A') A') <= sqdist X (tucker_tensor g (upd A n B)).
  Proof.
    intros HA Hn E Hg HB. pose proof (state_tucker X ranks A HA Hlen) as HT.
    destruct (hooi_mode_ok svdU X ranks HS HX Hne Hrk Hlen Hord A n A' HA Hn E) as [HA' _].
    assert (L : (nth n ranks 0 <= nth n (shp X) 0)%nat).
    { destruct (hooi_mode_cases svdU X ranks HS HX Hne Hrk Hlen Hord A n HA Hn) as (M & _ & EM). rewrite EM in E.
      destruct (Nat.leb_spec (nth n ranks 0%nat) (Nat.min (nth n (shp X) 0%nat) (rest n ranks))); [lia|discriminate]. }
    destruct (factor_span _ _ _ HB) as (V & Q & V1 & V2 & Q1 & EB). rewrite (Nat.min_r _ _ L) in *.
    destruct (absorb A n g B V Q HT Hg Hn HB V1 Q1 EB) as [HG ->]. pose proof (upd_state A n V HA Hn V1 V2) as HU.
    eapply Rle_trans; [|apply (core_opt X ranks HX _ _ HU Hlen HG)]. rewrite (energy X ranks HX A' HA'), (energy X ranks HX _ HU).
    pose proof (mode_best_ortho A n A' V HA Hn E V1 V2). lra.
  Qed.

  (** the states inside a step *)
  Lemma hooi_modes_mixed c : forall n A A', (n + c = N)%nat -> factor_state X ranks A -> hooi_modes svdU X (map Z.of_nat ranks) (seq n c) A = Ok A' ->
    factor_state X ranks A' /\ (forall j, (j < n)%nat -> mat_at A' j = mat_at A j) /\
    forall m, (n <= m < N)%nat -> factor_state X ranks (mixed m A' A) /\ hooi_mode svdU X (map Z.of_nat ranks) m (mixed m A' A) = Ok (mixed (S m) A' A).
  Proof.
    induction c as [|c IH]; intros n A A' Hc HA E; cbn [seq hooi_modes] in E.
    - injection E as <-. split; [exact HA|]. split; [auto|]. intros m Hm. lia.
    - apply bind_ok in E as (A1 & E1 & E). assert (Hn : (n < N)%nat) by lia.
      destruct (hooi_mode_ok svdU X ranks HS HX Hne Hrk Hlen Hord A n A1 HA Hn E1) as [HA1 _].
      destruct (hooi_mode_cases svdU X ranks HS HX Hne Hrk Hlen Hord A n HA Hn) as (M & _ & EM). rewrite EM in E1.
      destruct (Nat.leb_spec (nth n ranks 0%nat) (Nat.min (nth n (shp X) 0%nat) (rest n ranks))) as [L|L]; [|discriminate].
      set (v := leading (svdU M) (nth n ranks 0%nat)) in *. injection E1 as E1. 
      destruct (IH (S n) A1 A' ltac:(lia) HA1 E) as (H1 & H2 & H3).
      pose proof (lenA X ranks A HA) as LA. pose proof (lenA X ranks A' H1) as LA'. pose proof (lenA X ranks A1 HA1) as LA1. fold N in LA, LA', LA1.
      assert (Hlow : forall j, (j < n)%nat -> mat_at A' j = mat_at A j).
      { intros j Hj. rewrite (H2 j) by lia. rewrite <- E1. apply upd_other. lia. }
      assert (Hmix : forall m, (n < m <= N)%nat -> mixed m A' A1 = mixed m A' A).
      { intros m Hm. apply (list_nth_ext _ _ (mkT [] [])); [rewrite !mixed_length; lia|]. rewrite mixed_length by lia. intros j Hj.
        rewrite !nth_mixed by lia. destruct (Nat.ltb_spec j m) as [G|G]; [reflexivity|]. rewrite <- E1. apply (upd_other A n v j). lia. }
      assert (Hmn : mixed n A' A = A).
      { apply (list_nth_ext _ _ (mkT [] [])); [rewrite mixed_length; lia|]. rewrite mixed_length by lia. intros j Hj.
        rewrite nth_mixed by lia. destruct (Nat.ltb_spec j n) as [G|G]; [apply Hlow, G|reflexivity]. }
      assert (Hm1 : mixed (S n) A' A = A1).
      { rewrite <- Hmix by lia. apply (list_nth_ext _ _ (mkT [] [])); [rewrite mixed_length; lia|]. rewrite mixed_length by lia. intros j Hj.
        rewrite nth_mixed by lia. destruct (Nat.ltb_spec j (S n)) as [G|G]; [apply H2; lia|reflexivity]. }
      split; [exact H1|]. split; [exact Hlow|]. intros m Hm. destruct (Nat.eq_dec m n) as [->|D].
      + rewrite Hmn, Hm1. split; [exact HA|]. rewrite EM. fold v. rewrite E1. reflexivity.
      + rewrite <- !Hmix by lia. apply H3. lia.
  Qed.

  Lemma hooi_step_best A o : factor_state X ranks A -> hooi_step svdU X (map Z.of_nat ranks) A = Ok o ->
    forall n g B, (n < N)%nat -> core_like ranks g -> is_mat B (nth n (shp X) 0%nat) (nth n ranks 0%nat) ->
      let At := mixed (S n) (ho_A o) A in
      sqdist X (tucker_tensor (project X At) At) <= sqdist X (tucker_tensor g (replace n B At)).
  Proof.
    intros HA E n g B Hn Hg HB At. unfold hooi_step in E. apply bind_ok in E as (A' & E1 & E). apply bind_ok in E as (g' & E2 & E). apply bind_ok in E as (f & E3 & E). apply bind_ok in E as (m & E4 & E).
    injection E as <-. cbn [ho_A] in At. destruct (hooi_modes_mixed N 0%nat A A' eq_refl HA E1) as (H1 & _ & H2). destruct (H2 n ltac:(lia)) as [H3 H4].
    pose proof (lenA X ranks A HA) as LA. pose proof (lenA X ranks A' H1) as LA'. fold N in LA, LA'.
    replace (replace n B At) with (upd (mixed n A' A) n B).
    - apply (mode_best (mixed n A' A) n); auto.
    - unfold At. rewrite mixed_S by lia. rewrite replace_replace. apply upd_replace.
  Qed.
End HooiBest.

(** ** whole trainings *)
Lemma hooi_published svdU (X : tensor R) w o rnd steps o' h args ranks id : o_built o = Some ((args, ranks), id) -> hooi_train svdU X w o rnd steps = (o', Ok h) ->
  exists A0 os ob, hooi_init svdU X ranks = Ok A0 /\ als_run (hooi_run svdU X ranks) A0 os /\ In ob os /\ p_full (o_pub o') = Some (ob_full ob) /\ h = map entry os /\
    stopped_by (fires (a_tol args) ref_first os) steps (length os).
Proof.
  intros Hb H. apply train_ok in H as ([args' rank'] & id' & p & p' & Hb' & _ & _ & H & ->). rewrite Hb in Hb'. injection Hb' as <- <- <-.
  bodies H. apply als_body_ok in H as (s0 & os & Hi & Hr & Hh & Hs & (_ & _ & _ & Hfull) & _). cbn [fst snd] in *.
  assert (Hn : os <> []) by (intros ->; destruct Hs as [Hs _]; cbn in Hs; lia). destruct (Hfull Hn) as (j & ob & E & _ & _ & Ef).
  exists s0, os, ob. split; [exact Hi|]. split; [exact Hr|]. split; [apply nth_error_In in E; exact E|]. split; [exact Ef|]. split; [exact Hh|exact Hs].
Qed.

Lemma hosvd_published svdU (X : tensor R) w o rnd steps o' h ranks id : o_built o = Some (ranks, id) -> hosvd_train svdU X w o rnd steps = (o', Ok h) ->
  exists q, hosvd svdU X ranks = Ok q /\ p_full (o_pub o') = Some (tu_full q).
Proof.
  intros Hb H. apply train_ok in H as (rank' & id' & p & p' & Hb' & _ & _ & H & ->). rewrite Hb in Hb'. injection Hb' as <- <-.
  unfold hosvd_body in H. destruct (hosvd svdU X ranks) as [q|]; [|discriminate]. destruct (forallb _ _); [|discriminate]. injection H as <- <-. exists q. split; reflexivity.
Qed.

Lemma c75_train svdU (X : tensor R) ranks w1 o1 r1 n1 o1' h1 id1 w2 o2 r2 n2 o2' h2 args id2 : left_svd svdU -> wf X -> nonempty (shp X) -> nonempty ranks ->
  length ranks = ndims X -> o_built o1 = Some (map Z.of_nat ranks, id1) -> o_built o2 = Some ((args, map Z.of_nat ranks), id2) ->
  hosvd_train svdU X w1 o1 r1 n1 = (o1', Ok h1) -> hooi_train svdU X w2 o2 r2 n2 = (o2', Ok h2) ->
  exists F1 F2, p_full (o_pub o1') = Some F1 /\ p_full (o_pub o2') = Some F2 /\ sqdist X F2 <= sqdist X F1.
Proof.
  intros HS HX Hne Hrk Hl B1 B2 T1 T2. destruct (hosvd_published _ _ _ _ _ _ _ _ _ _ B1 T1) as (q & Eq & P1).
  destruct (hooi_published _ _ _ _ _ _ _ _ _ _ _ B2 T2) as (A0 & os & ob & Hi & Hr & Hin & P2 & _).
  exists (tu_full q), (ob_full ob). split; [exact P1|]. split; [exact P2|]. apply (hooi_run_hosvd svdU X ranks HS HX Hne Hrk Hl A0 os q Hi Eq Hr ob Hin).
Qed.

Lemma c76_hooi_train svdU (X : tensor R) ranks rk g B w o r n o' h args id : left_svd svdU -> wf X -> nonempty (shp X) -> nonempty ranks ->
  length ranks = ndims X -> o_built o = Some ((args, map Z.of_nat ranks), id) -> hooi_train svdU X w o r n = (o', Ok h) ->
  tucker_factors X rk B -> core_like rk g -> (forall n, (n < ndims X)%nat -> (nth n rk 0 <= nth n ranks 0)%nat) ->
  exists F, p_full (o_pub o') = Some F /\ sqdist X F <= INR (ndims X) * sqdist X (tucker_tensor g B).
Proof.
  intros HS HX Hne Hrk Hl B2 T2 HB Hg Hk.
  destruct (hooi_published _ _ _ _ _ _ _ _ _ _ _ B2 T2) as (A0 & os & ob & Hi & Hr & Hin & P2 & _).
  exists (ob_full ob). split; [exact P2|]. apply (hooi_run_quasi svdU X ranks HS HX Hne Hrk Hl A0 os rk g B Hi Hr HB Hg Hk ob Hin).
Qed.

Lemma hooi_step_best_any svdU (X : tensor R) ranks A o : left_svd svdU -> wf X -> nonempty (shp X) -> nonempty ranks -> length ranks = ndims X ->
  factor_state X ranks A -> hooi_step svdU X (map Z.of_nat ranks) A = Ok o ->
  forall n g B, (n < ndims X)%nat -> core_like ranks g -> is_mat B (nth n (shp X) 0%nat) (nth n ranks 0%nat) ->
    sqdist X (tucker_tensor (project X (mixed (S n) (ho_A o) A)) (mixed (S n) (ho_A o) A)) <= sqdist X (tucker_tensor g (replace n B (mixed (S n) (ho_A o) A))).
Proof.
  intros HS HX Hne Hrk Hl HA E. apply (hooi_step_best svdU X ranks HS HX Hne Hrk Hl); auto. apply (hooi_step_order svdU X (map Z.of_nat ranks) A o); auto. apply HA.
Qed.

(** the last update with its core is the model of the step *)
Lemma hooi_last_best svdU (X : tensor R) ranks A o : left_svd svdU -> wf X -> nonempty (shp X) -> nonempty ranks -> length ranks = ndims X ->
  factor_state X ranks A -> hooi_step svdU X (map Z.of_nat ranks) A = Ok o ->
  forall g B, core_like ranks g -> is_mat B (nth (ndims X - 1) (shp X) 0%nat) (nth (ndims X - 1) ranks 0%nat) ->
    sqdist X (ho_full o) <= sqdist X (tucker_tensor g (replace (ndims X - 1) B (ho_A o))).
Proof.
  intros HS HX Hne Hrk Hl HA E g B Hg HB. assert (Ho : (2 <= ndims X <= 13)%nat) by (apply (hooi_step_order svdU X (map Z.of_nat ranks) A o); auto; apply HA).
  destruct (hooi_step_ok svdU X ranks HS HX Hne Hrk Hl Ho A o HA E) as (H1 & H2 & H3 & _).
  pose proof (hooi_step_best_any svdU X ranks A o HS HX Hne Hrk Hl HA E (ndims X - 1)%nat g B ltac:(lia) Hg HB) as G.
  replace (S (ndims X - 1)) with (length A) in G by (rewrite (proj1 HA); lia). rewrite mixed_all in G by (rewrite (proj1 HA); apply H1). rewrite H3, H2. exact G.
Qed.

Lemma hooi_core_opt svdU (X : tensor R) ranks A o g : left_svd svdU -> wf X -> nonempty (shp X) -> nonempty ranks -> length ranks = ndims X ->
  factor_state X ranks A -> hooi_step svdU X (map Z.of_nat ranks) A = Ok o -> core_like ranks g -> sqdist X (ho_full o) <= sqdist X (tucker_tensor g (ho_A o)).
Proof.
  intros HS HX Hne Hrk Hl HA E Hg. assert (Ho : (2 <= ndims X <= 13)%nat) by (apply (hooi_step_order svdU X (map Z.of_nat ranks) A o); auto; apply HA).
  destruct (hooi_step_ok svdU X ranks HS HX Hne Hrk Hl Ho A o HA E) as (H1 & H2 & H3 & _). rewrite H3, H2. apply (core_opt X ranks HX); auto.
Qed.

(** ** tensors of low multilinear rank *)
Lemma quasi_zero (X F : tensor R) n : wf X -> wf F -> shp F = shp X -> sqdist X F <= INR n * sqdist X X -> F = X.
Proof.
  intros HX HF Hs D. assert (Z : sqdist X X = 0) by (apply LossFacts.sqdist_zero; auto). rewrite Z, Rmult_0_r in D.
  symmetry. apply MultiR.sqdist_zero; auto. apply Rle_antisym; [exact D|apply MultiR.sqdist_nonneg].
Qed.

Lemma hosvd_recovers svdU (X : tensor R) ranks rk o g B : left_svd svdU -> wf X -> nonempty (shp X) -> (0 < ndims X <= 13)%nat -> (ndims X <= length ranks)%nat ->
  hosvd svdU X (map Z.of_nat ranks) = Ok o -> tucker_factors X rk B -> core_like rk g -> (forall n, (n < ndims X)%nat -> (nth n rk 0 <= nth n ranks 0)%nat) ->
  X = tucker_tensor g B -> tu_full o = X.
Proof.
  intros HS HX Hne Ho Hl E HB Hg Hrk EX. pose proof (hosvd_quasi svdU X ranks rk o g B HS HX Hne Ho Hl E HB Hg Hrk) as D. rewrite <- EX in D.
  destruct (hosvd_ok svdU X ranks HS HX Hne Hl Ho) as (o' & E' & H1 & H2 & H3 & H4). rewrite E in E'. injection E' as <-.
  apply (quasi_zero X _ (ndims X)); auto; rewrite H3, H2; [apply (full_wf X)|apply (full_shape X _ _ H1)].
Qed.

Lemma hooi_recovers svdU (X : tensor R) ranks rk A0 os g B : left_svd svdU -> wf X -> nonempty (shp X) -> nonempty ranks -> length ranks = ndims X ->
  hooi_init svdU X (map Z.of_nat ranks) = Ok A0 -> als_run (hooi_run svdU X (map Z.of_nat ranks)) A0 os ->
  tucker_factors X rk B -> core_like rk g -> (forall n, (n < ndims X)%nat -> (nth n rk 0 <= nth n ranks 0)%nat) ->
  X = tucker_tensor g B -> forall ob, In ob os -> ob_full ob = X.
Proof.
  intros HS HX Hne Hrk Hl Hi Hr HB Hg Hk EX ob Hin. pose proof (hooi_run_quasi svdU X ranks HS HX Hne Hrk Hl A0 os rk g B Hi Hr HB Hg Hk ob Hin) as D. rewrite <- EX in D.
  pose proof (hooi_init_state svdU X ranks HS Hne Hl A0 Hi) as HA. apply In_nth_error in Hin as (k & Ek).
  destruct (hooi_run_start svdU X ranks HS HX Hne Hrk Hl A0 os HA Hr k ob Ek) as [Ho _].
  destruct (als_run_shape svdU X ranks HS HX Hne Hrk Hl A0 os HA Hr k ob Ek) as [W1 W2].
  apply (quasi_zero X _ (ndims X)); auto.
Qed.

Lemma hooi_recovers_train svdU (X : tensor R) ranks rk g B w o r n o' h args id : left_svd svdU -> wf X -> nonempty (shp X) -> nonempty ranks ->
  length ranks = ndims X -> (exists i, valid (shp X) i /\ get X i <> 0) -> o_built o = Some ((args, map Z.of_nat ranks), id) -> 0 < a_tol args -> hooi_train svdU X w o r n = (o', Ok h) ->
  tucker_factors X rk B -> core_like rk g -> (forall n, (n < ndims X)%nat -> (nth n rk 0 <= nth n ranks 0)%nat) ->
  X = tucker_tensor g B -> h = [(0, 0)] /\ p_full (o_pub o') = Some X.
Proof.
  intros HS HX Hne Hrk Hl _ B2 Ht T2 HB Hg Hk EX.
  destruct (hooi_published _ _ _ _ _ _ _ _ _ _ _ B2 T2) as (A0 & os & ob & Hi & Hr & Hin & P2 & Hh & Hst).
  assert (G : forall ob, In ob os -> ob_full ob = X /\ entry ob = (0, 0)).
  { intros q Hq. pose proof (hooi_recovers svdU X ranks rk A0 os g B HS HX Hne Hrk Hl Hi Hr HB Hg Hk EX q Hq) as F. split; [exact F|].
    apply In_nth_error in Hq as (k & Ek). destruct Hr as (st & _ & Hr). specialize (Hr k q Ek). apply hooi_run_obs in Hr as (lam & _ & _ & _ & Em).
    rewrite F in Em. destruct (metrics_zero X _ HX Em) as [M1 M2]. unfold entry. try rewrite M1. try rewrite M2. reflexivity. }
  assert (L2 : length os = 1%nat).
  { destruct Hst as (H1 & _ & Hf' & _). destruct os as [|o1 [|o2 os']]; [cbn in H1; lia|reflexivity|]. exfalso. apply (Hf' 0%nat); [cbn; lia|]. left. apply nltb_R.
    destruct (G o1 (or_introl eq_refl)) as (_ & Ge). unfold entry in Ge. injection Ge as _ Ge. change (m_rel (met (o1 :: o2 :: os') 0)) with (m_rel (ob_met o1)). rewrite Ge. exact Ht. }
  destruct os as [|o1 [|o2 os]]; cbn in L2; try lia. destruct Hin as [<-|[]]. destruct (G o1 (or_introl eq_refl)) as (G1 & G3).
  split; [rewrite Hh; cbn [map]; rewrite G3; reflexivity|]. rewrite P2, G1. reflexivity.
Qed.

Lemma hosvd_recovers_train svdU (X : tensor R) ranks rk g B w o r n o' h id : left_svd svdU -> wf X -> nonempty (shp X) -> (0 < ndims X <= 13)%nat ->
  (ndims X <= length ranks)%nat -> o_built o = Some (map Z.of_nat ranks, id) -> hosvd_train svdU X w o r n = (o', Ok h) ->
  tucker_factors X rk B -> core_like rk g -> (forall n, (n < ndims X)%nat -> (nth n rk 0 <= nth n ranks 0)%nat) ->
  X = tucker_tensor g B -> p_full (o_pub o') = Some X.
Proof.
  intros HS HX Hne Ho Hl B1 T1 HB Hg Hk EX. destruct (hosvd_published _ _ _ _ _ _ _ _ _ _ B1 T1) as (q & Eq & P1).
  rewrite P1. f_equal. apply (hosvd_recovers svdU X ranks rk q g B); auto.
Qed.

Lemma core_order14 : exists X : tensor R, wf X /\ nonempty (shp X) /\ ndims X = 14%nat /\ forall svdU, left_svd svdU ->
  exists o g, hosvd svdU X (map Z.of_nat (shp X)) = Ok o /\ core_like (fitted (shp X) (shp X)) g /\
    sqdist X (tucker_tensor g (tu_A o)) < sqdist X (tu_full o).
Proof.
  destruct c55_order14 as (X & H1 & H2 & H3 & H4 & H). exists X. split; [exact H1|]. split; [exact H2|]. split; [exact H3|]. intros svdU HS.
  destruct (H svdU HS) as (o & E & HA & _ & D). exists o, (project X (tu_A o)). split; [exact E|].
  pose proof (state_tucker X (shp X) _ HA eq_refl) as HT.
  pose proof (c54_hosvd_any svdU X (shp X) o HS H1 H2 (le_n _) E) as HF.
  assert (L : length (fitted (shp X) (shp X)) = ndims X) by (unfold fitted; rewrite map_length, seq_length; reflexivity).
  split; [split; [apply wf_mode_products; exact H1|apply (proj_shape' X _ _ (state_tucker X _ _ HF L) X eq_refl)]|].
  rewrite (full_exact X _ H1 HA), D. assert (Z : sqdist X X = 0) by (apply LossFacts.sqdist_zero; auto). rewrite Z. lra.
Qed.

Lemma recover_order14 : exists (X : tensor R) g B, wf X /\ nonempty (shp X) /\ ndims X = 14%nat /\
  tucker_factors X (shp X) B /\ core_like (shp X) g /\ X = tucker_tensor g B /\
  forall svdU, left_svd svdU -> exists o, hosvd svdU X (map Z.of_nat (shp X)) = Ok o /\ tu_full o <> X.
Proof.
  destruct c55_order14 as (X & H1 & H2 & H3 & H4 & H). destruct left_svd_exists as (svd0 & HS0). destruct (H svd0 HS0) as (o0 & _ & HA & _).
  pose proof (state_tucker X (shp X) _ HA eq_refl) as HT. exists X, (project X (tu_A o0)), (tu_A o0).
  split; [exact H1|]. split; [exact H2|]. split; [exact H3|]. split; [exact HT|].
  split; [split; [apply wf_mode_products; exact H1|apply (proj_shape' X _ _ HT X eq_refl)]|]. split; [symmetry; apply full_exact; auto|].
  intros svdU HS. destruct (H svdU HS) as (o & E & _ & _ & D). exists o. split; [exact E|]. intros F. rewrite F in D.
  assert (Z : sqdist X X = 0) by (apply LossFacts.sqdist_zero; auto). lra.
Qed.
