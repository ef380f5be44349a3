(** Runs of HOSVD and HOOI over the reals. *)

From Coq Require Import ZArith List Bool Arith Lia Permutation Reals Lra Psatz.
From Verif Require Import Num Py Tensor TF TensorFacts TFFacts Sums Ops Types Loss Fact Spec SpecR LayoutFacts SpecFacts MulFacts TtmFacts SkipFacts TtmLemmas Matricize
  KronFacts RSums MatR KronAlg LossFacts SpecTrain TrainLemmas BcuFacts SpecTucker MultiR SvdFacts TuckerFacts.
Import ListNotations.
Local Open Scope R_scope.

Lemma metrics_ok (X full : tensor R) : wf X -> shp full = shp X -> exists m, metrics_of X full = Ok m.
Proof.
  intros HX Hs. unfold metrics_of. rewrite (rmse_iz_R X full HX (eq_sym Hs)). cbn [bind].
  rewrite bin_same by auto. cbn [bind]. eauto.
Qed.

Lemma nonempty_nth s n : nonempty s -> (n < length s)%nat -> nth n s 0%nat <> 0%nat.
Proof. intros H Hn. unfold nonempty in H. rewrite Forall_forall in H. apply H, nth_In, Hn. Qed.

Lemma rest_nonzero n s : nonempty s -> rest n s <> 0%nat.
Proof.
  intros H E. unfold rest in E. change nprod with prod in E. apply prod_zero_in in E.
  unfold pick in E. apply in_map_iff in E as (k & Hk & Hin). apply in_others in Hin. apply (nonempty_nth s k H); auto. lia.
Qed.

Lemma pynth_ranks ranks n : (n < length ranks)%nat -> pynth (map Z.of_nat ranks) (Z.of_nat n) = Ok (Z.of_nat (nth n ranks 0%nat)).
Proof.
  intros H. rewrite (pynth_nat (map Z.of_nat ranks) n 0%Z) by (rewrite map_length; auto).
  rewrite nth_map_lt with (da := 0%nat) by auto. reflexivity.
Qed.

Section Hosvd.
  Variables (svdU : tensor R -> tensor R) (X : tensor R) (ranks : list nat).
  Hypothesis HS : left_svd svdU.
  Hypothesis HX : wf X.
  Hypothesis Hne : nonempty (shp X).
  Hypothesis Hlen : (ndims X <= length ranks)%nat.
  Let N := ndims X.
  Let I n := nth n (shp X) 0%nat.
  Let J n := rest n (shp X).

  Lemma factor_ok n : (n < N)%nat -> exists M s W, unfold X (Z.of_nat n) = Ok M /\ is_mat M (I n) (J n) /\ thin_svd M (svdU M) s W /\
    hosvd_factor svdU X (map Z.of_nat ranks) (Z.of_nat n) = Ok (leading (svdU M) (nth n ranks 0%nat)).
  Proof.
    intros Hn. assert (H0 : I n <> 0%nat) by (apply nonempty_nth; auto).
    destruct (unfold_ok X n Hn H0) as (M & HM & _). pose proof HM as HM2. apply unfold_mat in HM2 as [_ HM2]; auto.
    destruct (matrix_is_mat _ _ _ HM2) as (Hm & Hr & Hc).
    destruct (HS M Hm) as (s & W & Hs); [rewrite Hr; auto|rewrite Hc; apply rest_nonzero; auto|].
    exists M, s, W. split; [exact HM|]. split; [exact HM2|]. split; [exact Hs|].
    unfold hosvd_factor. rewrite HM. cbn [bind]. rewrite pynth_ranks by (unfold N in *; lia). cbn [bind].
    apply columns_ok. apply (svd_U _ _ _ _ Hs).
  Qed.

  Lemma nth_fitted n : (n < N)%nat -> nth n (fitted (shp X) ranks) 0%nat = Nat.min (nth n ranks 0%nat) (Nat.min (I n) (J n)).
  Proof. intros Hn. unfold fitted. rewrite nth_map_seq by exact Hn. reflexivity. Qed.

  Lemma factor_size M s W n : is_mat M (I n) (J n) -> thin_svd M (svdU M) s W -> (n < N)%nat ->
    is_mat (leading (svdU M) (nth n ranks 0%nat)) (I n) (nth n (fitted (shp X) ranks) 0%nat) /\
    orthonormal (leading (svdU M) (nth n ranks 0%nat)).
  Proof.
    intros HM Hs Hn. destruct (matrix_is_mat _ _ _ HM) as (Hm & Hr & Hc).
    destruct (svd_U _ _ _ _ Hs) as (U1 & U2 & U3). split.
    - unfold leading. rewrite U2, U3, Hr, Hc. rewrite nth_fitted by auto. apply is_mat_mgen.
    - apply leading_ok; auto. apply Hs.
  Qed.

  Lemma hosvd_factors : exists A, mapM (hosvd_factor svdU X (map Z.of_nat ranks)) (zrange N) = Ok A /\
    factor_state X (fitted (shp X) ranks) A /\
    forall n, (n < N)%nat -> exists M, unfold X (Z.of_nat n) = Ok M /\ mat_at A n = leading (svdU M) (nth n ranks 0%nat).
  Proof.
    pose (g := fun z => match hosvd_factor svdU X (map Z.of_nat ranks) z with Ok v => v | Raise _ => mkT [] [] end).
    assert (E : mapM (hosvd_factor svdU X (map Z.of_nat ranks)) (zrange N) = Ok (map g (zrange N))).
    { apply mapM_ok. intros z Hz. apply in_zrange in Hz. assert (Hn : (Z.to_nat z < N)%nat) by lia.
      destruct (factor_ok _ Hn) as (M & s & W & _ & _ & _ & E). rewrite Z2Nat.id in E by lia. unfold g. rewrite E. reflexivity. }
    exists (map g (zrange N)). split; [exact E|].
    assert (G : forall n, (n < N)%nat -> exists M s W, unfold X (Z.of_nat n) = Ok M /\ is_mat M (I n) (J n) /\ thin_svd M (svdU M) s W /\
                 mat_at (map g (zrange N)) n = leading (svdU M) (nth n ranks 0%nat)).
    { intros n Hn. destruct (factor_ok n Hn) as (M & s & W & H1 & H2 & H3 & H4). exists M, s, W. repeat (split; auto).
      unfold mat_at, zrange. rewrite map_map. rewrite nth_map_seq with (d := mkT [] []) by auto. unfold g. rewrite H4. reflexivity. }
    split.
    - split.
      + unfold zrange. rewrite !map_length, seq_length. reflexivity.
      + intros n Hn. destruct (G n Hn) as (M & s & W & H1 & H2 & H3 & H4). rewrite H4. apply (factor_size M s W); auto.
    - intros n Hn. destruct (G n Hn) as (M & s & W & H1 & H2 & H3 & H4). eauto.
  Qed.

  Hypothesis Hord : (0 < N <= 13)%nat.

  (** any list of orthonormal factors: core and full tensor as the code computes them *)
  Lemma core_run rk A : factor_state X rk A -> ttm X A None true SkNone = Ok (project X A) /\
    tt_extract (project X A) A = Ok (tucker_tensor (project X A) A).
  Proof.
    intros HA. pose proof (lenA X rk A HA) as HL. split.
    - rewrite (c11_default RLR); auto; unfold N in *; try lia.
      + intros ->. simpl in HL. lia.
      + intros k Hk. rewrite HL in Hk. destruct (A_fits X rk A HA k Hk) as (H1 & H2 & _). auto.
    - apply (tt_extract_ok RLR); try (rewrite ?(core_ndims X rk A HA); unfold N in *; auto; lia).
      + apply (core_wf X rk HX A HA).
      + intros k Hk. rewrite HL in Hk. destruct (A_fits X rk A HA k Hk) as (H1 & _ & H3). split; auto.
        rewrite (core_shape X rk A HA) by auto. exact H3.
  Qed.

  Lemma hosvd_ok : exists o, hosvd svdU X (map Z.of_nat ranks) = Ok o /\
    factor_state X (fitted (shp X) ranks) (tu_A o) /\
    tu_core o = project X (tu_A o) /\ tu_full o = tucker_tensor (tu_core o) (tu_A o) /\
    forall n, (n < N)%nat -> exists M, unfold X (Z.of_nat n) = Ok M /\ mat_at (tu_A o) n = leading (svdU M) (nth n ranks 0%nat).
  Proof.
    destruct hosvd_factors as (A & EA & HA & HU). destruct (core_run _ _ HA) as [E1 E2].
    unfold hosvd. fold N. rewrite EA. cbn [bind]. rewrite E1. cbn [bind]. rewrite E2. cbn [bind].
    rewrite (rmse_iz_R X) by (auto; rewrite (full_shape X _ A HA); reflexivity). cbn [bind].
    eexists. split; [reflexivity|]. cbn [tu_A tu_core tu_full]. auto.
  Qed.
End Hosvd.

(** ** HOSVD error bound *)
Definition residual_mat (U : tensor R) : tensor R :=
  mgen (nrows U) (nrows U) (fun i j => delta i j - sumn (ncols U) (fun p => mget U i p * mget U j p)).

Lemma residual_energy (X U : tensor R) n : (n < ndims X)%nat -> matrix U -> nrows U = nth n (shp X) 0%nat -> orthonormal U ->
  sqlen (mode_product X (residual_mat U) n) = sqlen X - sqlen (mode_product X (mtrans U) n).
Proof.
  intros Hn HU Hr Ho. rewrite <- (mp_shrinks X U n Hn HU Hr Ho).
  rewrite (mp_mp X (mtrans U) U (mgen (nrows U) (nrows U) (fun i j => sumn (ncols U) (fun p => mget U i p * mget U j p))) n); auto.
  2: { intros i j Hi Hj. change (ncols (mtrans U)) with (nrows U) in Hj. rewrite mget_mgen by auto. apply sumn_ext. intros k Hk.
       rewrite mget_mtrans by auto. reflexivity. }
  set (P := mgen _ _ _). unfold sqlen, sqdist.
  change (shp (mode_product X (residual_mat U) n)) with (replace n (nrows U) (shp X)). rewrite Hr, replace_nth.
  apply msum_ext. intros idx Hv. f_equal.
  rewrite !get_mp.
  2: { change (nrows P) with (nrows U). rewrite Hr, replace_nth. exact Hv. }
  2: { change (nrows (residual_mat U)) with (nrows U). rewrite Hr, replace_nth. exact Hv. }
  change (ncols P) with (nrows U). change (ncols (residual_mat U)) with (nrows U).
  assert (Hi : (nth n idx 0 < nrows U)%nat) by (rewrite Hr; apply valid_nth; auto).
  assert (E : get X idx = get X (replace n (nth n idx 0%nat) idx)) by (rewrite replace_nth; reflexivity). rewrite E. clear E.
  rewrite <- (sumnR_delta' (nrows U) (nth n idx 0%nat) (fun k => get X (replace n k idx)) Hi).
  rewrite <- sumnR_sub. apply sumnR_ext. intros k Hk. unfold P, residual_mat. rewrite !mget_mgen by auto.
  rewrite (delta_sym k). lra.
Qed.

Lemma mps_shrink A ks : forall D : tensor R, NoDup ks ->
  (forall k, In k ks -> (k < ndims D)%nat /\ matrix (mat_at A k) /\ nrows (mat_at A k) = nth k (shp D) 0%nat /\ orthonormal (mat_at A k)) ->
  sqlen (mode_products D (plt A ks)) <= sqlen D.
Proof.
  induction ks as [|k ks IH]; intros D Hn H; [apply Rle_refl|].
  inversion Hn as [|? ? Hk Hn']; subst. destruct (H k (or_introl eq_refl)) as (H1 & H2 & H3 & H4).
  change (mode_products D (plt A (k :: ks))) with (mode_products (mode_product D (mtrans (mat_at A k)) k) (plt A ks)).
  eapply Rle_trans; [apply IH; auto|apply mp_shrinks_le; auto].
  intros j Hj. destruct (H j (or_intror Hj)) as (G1 & G2 & G3 & G4).
  change (shp (mode_product D (mtrans (mat_at A k)) k)) with (replace k (ncols (mat_at A k)) (shp D)).
  unfold ndims. change (shp (mode_product D (mtrans (mat_at A k)) k)) with (replace k (ncols (mat_at A k)) (shp D)).
  rewrite replace_length. split; [exact G1|]. split; [exact G2|]. split; [|exact G4].
  rewrite nth_replace_ne; [exact G3|]. intros ->. contradiction.
Qed.

Section Bound.
  Variables (X : tensor R) (rk : list nat) (A : list (tensor R)).
  Hypothesis HX : wf X.
  Hypothesis HA : factor_state X rk A.
  Let N := ndims X.

  Lemma step_bound j : (j < N)%nat ->
    sqlen (mode_products X (plt A (seq 0 j))) - sqlen (mode_products X (plt A (seq 0 (S j)))) <=
    sqlen X - sqlen (mode_product X (mtrans (mat_at A j)) j).
  Proof.
    intros Hj. destruct (A_fits X rk A HA j Hj) as (F1 & F2 & F3).
    assert (Fo : orthonormal (mat_at A j)) by (apply HA; auto).
    set (Z := mode_products X (plt A (seq 0 j))).
    assert (EZ : mode_products X (plt A (seq 0 (S j))) = mode_product Z (mtrans (mat_at A j)) j).
    { unfold plt. rewrite seq_S, map_app. unfold mode_products at 1. rewrite fold_left_app. reflexivity. }
    assert (HjZ : (j < ndims Z)%nat) by (unfold Z; rewrite proj_ndims; auto).
    assert (HZ : nth j (shp Z) 0%nat = nth j (shp X) 0%nat).
    { unfold Z. rewrite shp_mode_products. apply rshape_out. rewrite snd_plt, in_seq. lia. }
    rewrite EZ. rewrite <- (residual_energy Z), <- (residual_energy X) by (auto; congruence).
    set (Q := residual_mat (mat_at A j)).
    assert (Hf : forall p, In p (plt A (seq 0 j) ++ [(Q, j)]) -> pair_fits (shp X) p).
    { intros p Hp. apply in_app_or in Hp as [Hp|[<-|[]]].
      - apply (fs_plts X rk A (seq 0 j)); auto. intros k Hk. apply in_seq in Hk. unfold N in Hj. lia.
      - split; [exact Hj|]. split; [apply (matrix_is_mat _ _ _ (is_mat_mgen _ _ _))|]. exact F2. }
    assert (E : mode_product Z Q j = mode_products (mode_product X Q j) (plt A (seq 0 j))).
    { change (mode_products (mode_product X Q j) (plt A (seq 0 j))) with (mode_products X ((Q, j) :: plt A (seq 0 j))).
      rewrite <- (mode_products_perm RLR X (plt A (seq 0 j) ++ [(Q, j)])); auto.
      - unfold mode_products at 1. rewrite fold_left_app. reflexivity.
      - apply Permutation_app_comm.
      - rewrite map_app, snd_plt. cbn [map snd app]. change [j] with [(0 + j)%nat]. rewrite <- (seq_S j 0). apply seq_NoDup. }
    rewrite E. apply mps_shrink; [apply seq_NoDup|].
    intros k Hk. apply in_seq in Hk. unfold N in Hj. destruct (A_fits X rk A HA k ltac:(lia)) as (K1 & K2 & K3).
    unfold ndims. change (shp (mode_product X Q j)) with (replace j (nrows (mat_at A j)) (shp X)). rewrite replace_length.
    split; [fold (ndims X); lia|]. split; [exact K1|]. split; [|apply HA; lia].
    rewrite nth_replace_ne by lia. exact K2.
  Qed.

  Lemma total_bound j : (j <= N)%nat ->
    sqlen X - sqlen (mode_products X (plt A (seq 0 j))) <= sumn j (fun n => sqlen X - sqlen (mode_product X (mtrans (mat_at A n)) n)).
  Proof.
    induction j as [|j IH]; intros Hj.
    - rewrite sumn_0. change (mode_products X (plt A (seq 0 0))) with X. Rn. lra.
    - rewrite (sumn_S RLR). pose proof (step_bound j ltac:(lia)). specialize (IH ltac:(lia)). Rn. lra.
  Qed.

  Lemma hosvd_bound : sqdist X (tucker_tensor (project X A) A) <=
    sumn N (fun n => sqlen X - sqlen (mode_product X (mtrans (mat_at A n)) n)).
  Proof. rewrite (energy X rk HX A HA). rewrite (core_plt X rk A HA). apply total_bound. lia. Qed.
End Bound.

(** ** HOOI *)
Section Hooi.
  Variables (svdU : tensor R -> tensor R) (X : tensor R) (ranks : list nat).
  Hypothesis HS : left_svd svdU.
  Hypothesis HX : wf X.
  Hypothesis Hne : nonempty (shp X).
  Hypothesis Hrk : nonempty ranks.
  Hypothesis Hlen : length ranks = ndims X.
  Hypothesis Hord : (2 <= ndims X <= 13)%nat.
  Let N := ndims X.
  Let I n := nth n (shp X) 0%nat.

  Lemma partial_shape A n : factor_state X ranks A -> (n < N)%nat ->
    let Y := mode_products X (plt A (others n N)) in
    ndims Y = N /\ nth n (shp Y) 0%nat = I n /\ rest n (shp Y) = rest n ranks.
  Proof.
    intros HA Hn Y. assert (HO : forall k, In k (others n N) -> (k < ndims X)%nat /\ k <> n).
    { intros k Hk. apply in_others in Hk. exact Hk. }
    assert (HD : NoDup (others n N)) by (apply NoDup_filter, seq_NoDup).
    split; [apply proj_ndims|]. split.
    - unfold Y. rewrite (proj_shape X ranks A) by (auto; intros j Hj; apply HO; auto).
      destruct (existsb (Nat.eqb n) (others n N)) eqn:E; [|reflexivity]. apply existsb_In, HO in E. lia.
    - unfold rest. fold (ndims Y). replace (ndims Y) with N by (symmetry; apply proj_ndims).
      rewrite Hlen. fold N. f_equal. unfold pick. apply map_ext_in. intros k Hk.
      unfold Y. rewrite (proj_shape X ranks A) by (auto; try (intros j Hj); apply HO; auto).
      rewrite (proj2 (existsb_In k (others n N)) Hk). reflexivity.
  Qed.

  Lemma partial_run A n : factor_state X ranks A -> (n < N)%nat ->
    ttm X A None true (SkInt (Z.of_nat n)) = Ok (mode_products X (plt A (others n N))).
  Proof.
    intros HA Hn. pose proof (lenA X ranks A HA) as HL.
    destruct (c11_skip RLR X A true (SkInt (Z.of_nat n)) HX) as (r & E & Er & _); try discriminate; try (unfold N in *; lia).
    - cbn [skipset]. rewrite kept_others, HL. intros E. pose proof (Permutation_length (kolda_perm n N Hn)) as P.
      fold N in E. rewrite E in P. rewrite seq_length in P. simpl in P. unfold N in P. lia.
    - cbn [skipset]. rewrite kept_others, HL. intros k Hk. apply in_others in Hk.
      destruct (A_fits X ranks A HA k) as (H1 & H2 & _); [lia|]. auto.
    - rewrite E, Er. f_equal. f_equal. cbn [skipset]. rewrite (without_nth _ _ (mkT [] [])), kept_others, HL. fold N.
      rewrite map_map. rewrite (combine_nth_map _ (others n N) (mkT [] []) 0%nat) by (rewrite map_length; auto).
      rewrite map_length. unfold plt. apply nth_ext with (d := (mkT [] [], 0%nat)) (d' := (mkT [] [], 0%nat)); rewrite ?map_length, ?seq_length; auto.
      intros q Hq. rewrite nth_map_seq by auto. rewrite !nth_map_lt with (da := 0%nat) by auto. reflexivity.
  Qed.

  (** a mode update succeeds exactly when the rank fits the projected unfolding *)
  Lemma hooi_mode_cases A n : factor_state X ranks A -> (n < N)%nat ->
    exists M, unfold (mode_products X (plt A (others n N))) (Z.of_nat n) = Ok M /\ hooi_mode svdU X (map Z.of_nat ranks) n A =
      if Nat.leb (nth n ranks 0%nat) (Nat.min (I n) (rest n ranks)) then Ok (upd A n (leading (svdU M) (nth n ranks 0%nat)))
      else Raise ValueError.
  Proof.
    intros HA Hn. destruct (partial_shape A n HA Hn) as (Y1 & Y2 & Y3). set (Y := mode_products X (plt A (others n N))) in *.
    assert (H0 : nth n (shp Y) 0%nat <> 0%nat) by (rewrite Y2; apply nonempty_nth; auto).
    destruct (unfold_ok Y n) as (M & HM & _); [lia|auto|]. exists M. split; [exact HM|].
    pose proof HM as HM2. apply unfold_mat in HM2 as [_ HM2]; [|lia|auto]. rewrite Y2, Y3 in HM2.
    destruct (matrix_is_mat _ _ _ HM2) as (Hm & Hr & Hc).
    destruct (HS M Hm) as (s & W & Hs); [rewrite Hr; apply nonempty_nth; auto|rewrite Hc; apply rest_nonzero; auto|].
    destruct (svd_U _ _ _ _ Hs) as (U1 & U2 & U3).
    unfold hooi_mode. rewrite (partial_run A n HA Hn). cbn [bind]. fold Y. rewrite HM. cbn [bind].
    rewrite pynth_ranks by (unfold N in *; lia). cbn [bind].
    rewrite (pynth_nat (shp X) n 0%nat) by exact Hn. cbn [bind]. rewrite columns_ok by auto. cbn [bind].
    unfold assign_chk. destruct (Z.ltb_spec (Z.of_nat (nth n ranks 0%nat)) 0); [lia|]. rewrite Nat2Z.id.
    change (shp (leading (svdU M) (nth n ranks 0%nat))) with [nrows (svdU M); Nat.min (nth n ranks 0%nat) (ncols (svdU M))].
    rewrite U2, U3, Hr, Hc. fold (I n).
    destruct (Nat.leb_spec (nth n ranks 0%nat) (Nat.min (I n) (rest n ranks))) as [L|L].
    - rewrite Nat.min_l by auto. rewrite shape_eqb_refl. reflexivity.
    - rewrite shape_eqb_neq; [reflexivity|]. intros E. injection E as E. lia.
  Qed.

  Lemma upd_other (A : list (tensor R)) n v k : k <> n -> mat_at (upd A n v) k = mat_at A k.
  Proof. intros H. unfold mat_at. rewrite nth_upd. destruct (Nat.eqb_spec k n); [contradiction|reflexivity]. Qed.
  Lemma upd_self (A : list (tensor R)) n v : (n < length A)%nat -> mat_at (upd A n v) n = v.
  Proof. intros H. unfold mat_at. rewrite nth_upd, Nat.eqb_refl. destruct (Nat.ltb_spec n (length A)); [reflexivity|lia]. Qed.

  Lemma plt_upd A n v : plt (upd A n v) (others n N) = plt A (others n N).
  Proof. unfold plt. apply map_ext_in. intros k Hk. apply in_others in Hk. rewrite upd_other by lia. reflexivity. Qed.

  Lemma hooi_mode_ok A n A' : factor_state X ranks A -> (n < N)%nat -> hooi_mode svdU X (map Z.of_nat ranks) n A = Ok A' ->
    factor_state X ranks A' /\ sqlen (project X A) <= sqlen (project X A').
  Proof.
    intros HA Hn E. destruct (hooi_mode_cases A n HA Hn) as (M & HM & E'). rewrite E' in E. clear E'.
    destruct (Nat.leb_spec (nth n ranks 0%nat) (Nat.min (I n) (rest n ranks))) as [L|L]; [|discriminate]. injection E as <-.
    destruct (partial_shape A n HA Hn) as (Y1 & Y2 & Y3). set (Y := mode_products X (plt A (others n N))) in *.
    assert (H0 : nth n (shp Y) 0%nat <> 0%nat) by (rewrite Y2; apply nonempty_nth; auto).
    pose proof HM as HM2. apply unfold_mat in HM2 as [_ HM2]; [|lia|auto]. rewrite Y2, Y3 in HM2.
    destruct (matrix_is_mat _ _ _ HM2) as (Hm & Hr & Hc).
    destruct (HS M Hm) as (s & W & Hs); [rewrite Hr; apply nonempty_nth; auto|rewrite Hc; apply rest_nonzero; auto|].
    destruct (svd_U _ _ _ _ Hs) as (U1 & U2 & U3).
    set (r := nth n ranks 0%nat) in *. set (v := leading (svdU M) r) in *.
    assert (Hv : is_mat v (I n) r).
    { unfold v, leading. rewrite U2, U3, Hr, Hc, Nat.min_l by auto. apply is_mat_mgen. }
    assert (Ho : orthonormal v) by (apply leading_ok; auto; apply Hs).
    pose proof (lenA X ranks A HA) as HL.
    assert (HA' : factor_state X ranks (upd A n v)).
    { split; [rewrite upd_length; exact HL|]. intros k Hk. destruct (Nat.eq_dec k n) as [->|Hkn].
      - rewrite upd_self by (rewrite HL; auto). auto.
      - rewrite upd_other by auto. apply HA. auto. }
    split; [exact HA'|].
    rewrite (core_last X ranks HX A HA n Hn), (core_last X ranks HX _ HA' n Hn).
    fold N. rewrite plt_upd. fold Y. rewrite upd_self by (rewrite HL; auto).
    destruct (matrix_is_mat _ _ _ Hv) as (V1 & V2 & V3). destruct (A_fits X ranks A HA n Hn) as (F1 & F2 & F3). fold (I n) in F2. fold r in F3.
    assert (Hr0 : r <> 0%nat) by (apply nonempty_nth; auto; unfold N in *; lia).
    rewrite (mp_energy Y (mat_at A n) M n), (mp_energy Y v M n); auto; try lia.
    rewrite F3, V3, Y2, Y3.
    eapply Rle_trans.
    - rewrite <- Hr, <- Hc. apply (svd_kyfan M (svdU M) W s Hs r (mget (mat_at A n))); [rewrite Hr, Hc; exact L|].
      rewrite Hr, <- F2, <- F3. apply orthonormal_ortho, HA, Hn.
    - apply Req_le. rewrite Hc, Hr. apply fro_ext. intros p j Hp Hj. apply mm_ext; auto. intros l Hl. unfold tr, v, leading.
      rewrite mget_mgen; auto; [rewrite U2, Hr; auto|rewrite U3, Hr, Hc; lia].
  Qed.

  Lemma hooi_modes_ok modes : forall A A', factor_state X ranks A -> (forall m, In m modes -> (m < N)%nat) ->
    hooi_modes svdU X (map Z.of_nat ranks) modes A = Ok A' -> factor_state X ranks A' /\ sqlen (project X A) <= sqlen (project X A').
  Proof.
    induction modes as [|m modes IH]; intros A A' HA Hm E; cbn [hooi_modes] in E.
    - injection E as <-. split; [auto|apply Rle_refl].
    - destruct (hooi_mode svdU X (map Z.of_nat ranks) m A) as [A1|] eqn:E1; [|discriminate]. cbn [bind] in E.
      apply hooi_mode_ok in E1 as [H1 H2]; auto; [|apply Hm; left; auto].
      apply IH in E as [H3 H4]; auto; [|intros; apply Hm; right; auto]. split; auto. lra.
  Qed.

  (** every mode update of the sweep succeeds, or the first rank that does not fit is rejected *)
  Lemma hooi_modes_cases modes : forall A, factor_state X ranks A -> (forall m, In m modes -> (m < N)%nat) ->
    ((forall m, In m modes -> (nth m ranks 0 <= Nat.min (I m) (rest m ranks))%nat) -> exists A', hooi_modes svdU X (map Z.of_nat ranks) modes A = Ok A') /\
    ((exists m, In m modes /\ (Nat.min (I m) (rest m ranks) < nth m ranks 0)%nat) -> hooi_modes svdU X (map Z.of_nat ranks) modes A = Raise ValueError).
  Proof.
    induction modes as [|m modes IH]; intros A HA Hm; cbn [hooi_modes].
    - split; [eauto|]. intros (m & [] & _).
    - destruct (hooi_mode_cases A m HA (Hm m (or_introl eq_refl))) as (M & HM & E). rewrite E.
      destruct (Nat.leb_spec (nth m ranks 0%nat) (Nat.min (I m) (rest m ranks))) as [L|L]; cbn [bind].
      + destruct (hooi_mode_ok A m _ HA (Hm m (or_introl eq_refl)) E) as [H1 _].
        destruct (IH (upd A m (leading (svdU M) (nth m ranks 0%nat)))) as [G1 G2]; auto.
        { intros; apply Hm; right; auto. }
        split.
        * intros H. apply G1. intros; apply H; right; auto.
        * intros (q & [<-|Hq] & Lq); [lia|]. apply G2. eauto.
      + split; [|reflexivity]. intros H. specialize (H m (or_introl eq_refl)). lia.
  Qed.

  Lemma hooi_step_ok A o : factor_state X ranks A -> hooi_step svdU X (map Z.of_nat ranks) A = Ok o ->
    factor_state X ranks (ho_A o) /\ ho_core o = project X (ho_A o) /\ ho_full o = tucker_tensor (ho_core o) (ho_A o) /\
    sqlen (project X A) <= sqlen (ho_core o) /\ metrics_of X (ho_full o) = Ok (ho_met o).
  Proof.
    intros HA E. unfold hooi_step in E.
    destruct (hooi_modes svdU X (map Z.of_nat ranks) (seq 0 (ndims X)) A) as [A'|] eqn:E1; [|discriminate]. cbn [bind] in E.
    apply hooi_modes_ok in E1 as [H1 H2]; auto; [|intros m Hm; apply in_seq in Hm; unfold N; lia].
    destruct (core_run X ranks HX ltac:(lia) ltac:(lia) ranks A' H1) as [C1 C2]. rewrite C1 in E. cbn [bind] in E. rewrite C2 in E. cbn [bind] in E.
    destruct (metrics_of X (tucker_tensor (project X A') A')) as [m|] eqn:Em; [|discriminate]. cbn [bind] in E. injection E as <-.
    cbn [ho_A ho_core ho_full ho_met]. auto.
  Qed.

  Lemma hooi_step_cases A : factor_state X ranks A ->
    ((forall m, (m < N)%nat -> (nth m ranks 0 <= Nat.min (I m) (rest m ranks))%nat) -> exists o, hooi_step svdU X (map Z.of_nat ranks) A = Ok o) /\
    ((exists m, (m < N)%nat /\ (Nat.min (I m) (rest m ranks) < nth m ranks 0)%nat) -> hooi_step svdU X (map Z.of_nat ranks) A = Raise ValueError).
  Proof.
    intros HA. destruct (hooi_modes_cases (seq 0 N) A HA) as [G1 G2]; [intros m Hm; apply in_seq in Hm; lia|].
    unfold hooi_step. fold N. split.
    - intros H. destruct G1 as (A' & E); [intros m Hm; apply in_seq in Hm; apply H; lia|]. rewrite E. cbn [bind].
      apply hooi_modes_ok in E as [H1 H2]; auto; [|intros m Hm; apply in_seq in Hm; lia].
      destruct (core_run X ranks HX ltac:(lia) ltac:(lia) ranks A' H1) as [C1 C2]. rewrite C1. cbn [bind]. rewrite C2. cbn [bind].
      destruct (metrics_ok X (tucker_tensor (project X A') A') HX (full_shape X ranks A' H1)) as (m & ->). cbn [bind]. eauto.
    - intros (m & Hm & L). rewrite G2; [reflexivity|]. exists m. split; auto. apply in_seq. lia.
  Qed.

  Lemma hooi_init_cases :
    ((forall n, (n < N)%nat -> (nth n ranks 0 <= Nat.min (I n) (rest n (shp X)))%nat) ->
     exists A, hooi_init svdU X (map Z.of_nat ranks) = Ok A /\ factor_state X ranks A) /\
    ((exists n, (n < N)%nat /\ (Nat.min (I n) (rest n (shp X)) < nth n ranks 0)%nat) -> hooi_init svdU X (map Z.of_nat ranks) = Raise ValueError).
  Proof.
    clear Hord.
    assert (G : forall n, (n < N)%nat -> exists M, matrix (svdU M) /\ orthonormal (svdU M) /\ nrows (svdU M) = I n /\ ncols (svdU M) = Nat.min (I n) (rest n (shp X)) /\
       (do d <- pynth (shp X) (Z.of_nat n); do r <- pynth (map Z.of_nat ranks) (Z.of_nat n);
        do v <- hosvd_factor svdU X (map Z.of_nat ranks) (Z.of_nat n); assign_chk d r v) =
       if Nat.leb (nth n ranks 0%nat) (Nat.min (I n) (rest n (shp X))) then Ok (leading (svdU M) (nth n ranks 0%nat)) else Raise ValueError).
    { intros n Hn. destruct (factor_ok svdU X ranks HS Hne ltac:(lia) n Hn) as (M & s & W & H1 & H2 & H3 & H4).
      exists M. destruct (svd_U _ _ _ _ H3) as (U1 & U2 & U3). destruct (matrix_is_mat _ _ _ H2) as (Hm & Hr & Hc).
      rewrite Hr in U2. rewrite Hr, Hc in U3.
      split; [exact U1|]. split; [apply H3|]. split; [exact U2|]. split; [exact U3|].
      rewrite (pynth_nat (shp X) n 0%nat) by exact Hn. cbn [bind]. rewrite pynth_ranks by (unfold N in *; lia). cbn [bind].
      rewrite H4. cbn [bind]. unfold assign_chk. destruct (Z.ltb_spec (Z.of_nat (nth n ranks 0%nat)) 0); [lia|]. rewrite Nat2Z.id.
      change (shp (leading (svdU M) (nth n ranks 0%nat))) with [nrows (svdU M); Nat.min (nth n ranks 0%nat) (ncols (svdU M))].
      rewrite U2, U3. fold (I n).
      destruct (Nat.leb_spec (nth n ranks 0%nat) (Nat.min (I n) (rest n (shp X)))) as [L|L].
      - rewrite Nat.min_l by auto. rewrite shape_eqb_refl. reflexivity.
      - rewrite shape_eqb_neq; [reflexivity|]. intros E. injection E as E. lia. }
    unfold hooi_init. set (f := fun n : Z => _).
    split.
    - intros H.
      assert (Gf : forall n, (n < N)%nat -> exists U, matrix U /\ orthonormal U /\ nrows U = I n /\ ncols U = Nat.min (I n) (rest n (shp X)) /\ f (Z.of_nat n) = Ok (leading U (nth n ranks 0%nat))).
      { intros n Hn. destruct (G n Hn) as (M & U1 & U2 & U3 & U4 & E). exists (svdU M). repeat (split; auto).
        rewrite (proj2 (Nat.leb_le _ _) (H n Hn)) in E. exact E. }
      pose (g := fun z => match f z with Ok v => v | Raise _ => mkT [] [] end).
      exists (map g (zrange N)). split.
      + apply mapM_ok. intros z Hz. apply in_zrange in Hz. destruct (Gf (Z.to_nat z) ltac:(unfold N; lia)) as (U & _ & _ & _ & _ & E).
        rewrite Z2Nat.id in E by lia. unfold g. rewrite E. reflexivity.
      + split.
        * unfold zrange. rewrite !map_length, seq_length. reflexivity.
        * intros n Hn. destruct (Gf n Hn) as (U & U1 & U2 & U3 & U4 & E).
          assert (Eg : mat_at (map g (zrange N)) n = leading U (nth n ranks 0%nat)).
          { unfold mat_at, zrange. rewrite map_map. rewrite nth_map_seq by auto. unfold g. rewrite E. reflexivity. }
          rewrite Eg. split; [|apply leading_ok; auto].
          unfold leading. rewrite U3, U4, Nat.min_l by (apply H; auto). apply is_mat_mgen.
    - intros (n & Hn & L).
      assert (Gf : forall z, In z (zrange N) -> f z = Raise ValueError \/ exists v, f z = Ok v).
      { intros z Hz. apply in_zrange in Hz. destruct (G (Z.to_nat z) ltac:(unfold N; lia)) as (M & _ & _ & _ & _ & E).
        rewrite Z2Nat.id in E by lia. unfold f. rewrite E. destruct (Nat.leb _ _); eauto. }
      assert (Hbad : f (Z.of_nat n) = Raise ValueError).
      { destruct (G n Hn) as (M & _ & _ & _ & _ & E). unfold f. rewrite E.
        destruct (Nat.leb_spec (nth n ranks 0%nat) (Nat.min (I n) (rest n (shp X)))); [lia|reflexivity]. }
      assert (Hin : In (Z.of_nat n) (zrange N)) by (apply in_zrange; lia).
      change (ndims X) with N. clear -Gf Hbad Hin. induction (zrange N) as [|z l IH]; [contradiction|]. cbn [mapM].
      destruct (Gf z (or_introl eq_refl)) as [E|[v E]]; rewrite E; cbn [bind]; [reflexivity|].
      destruct Hin as [->|Hin]; [congruence|]. rewrite IH; auto. intros; apply Gf; right; auto.
  Qed.
End Hooi.
