(** CP_ALS with one component on a rank-one tensor (C80). *)

From Coq Require Import ZArith List Bool Arith Lia Permutation Reals Lra Psatz.
From Verif Require Import Num Py Tensor TF TensorFacts TFFacts Sums Ops OpsLemmas Types Loss Fact Train Spec SpecR LayoutFacts SpecFacts MulFacts TtmFacts SkipFacts TtmLemmas Matricize
  KronFacts RSums MatR KronAlg NormFacts SpecTucker MultiR SvdFacts TuckerFacts TuckerRun TuckerLemmas SpecTypes TypeFacts SpecCp SpecBcu BcuFacts SpecTrain TrainLemmas CpFacts AlsFacts AlsLemmas
  SpecProx Prox NcpFacts NcpLemmas NtFacts NtLemmas DataGen DataFacts TrainFacts SvdExists Exact QuasiOpt SpecData DataRecover.
Import ListNotations.
Local Open Scope R_scope.

Lemma get_cp1 (U : list (tensor R)) idx : valid (map nrows U) idx ->
  get (cp_tensor 1 (ones 1) U) idx = bigprod (length U) (fun k => mget (mat_at U k) (nth k idx 0%nat) 0).
Proof. intros Hv. unfold cp_tensor. rewrite get_gen by exact Hv. cbn [bigsum]. unfold ones. rewrite mget_mgen by lia. Rn. ring. Qed.

Section One.
  Variables (pinv : tensor R -> tensor R) (X : tensor R) (B : list (tensor R)).
  Hypothesis HP : penrose pinv.
  Hypothesis HB : cp_factors X 1 B.
  Hypothesis HX : X = cp_tensor 1 (ones 1) B.
  Let N := ndims X.
  Let I n := nth n (shp X) 0%nat.
  Let b k i := mget (mat_at B k) i 0.

  Lemma one_shape : map nrows B = shp X.
  Proof. rewrite HX. reflexivity. Qed.

  Lemma one_get idx : valid (shp X) idx -> get X idx = bigprod N (fun k => b k (nth k idx 0%nat)).
  Proof.
    intros Hv. rewrite HX. unfold cp_tensor. rewrite get_gen by (rewrite one_shape; exact Hv). cbn [bigsum]. unfold ones. rewrite mget_mgen by lia.
    rewrite (proj1 HB). unfold N, b. Rn. ring.
  Qed.

  (** the product over the modes other than n *)
  Lemma others_bigprod n (f : nat -> R) : (n < N)%nat -> listprod (map f (others n N)) = bigprod N (fun k => if Nat.eqb k n then 1 else f k).
  Proof.
    intros Hn. rewrite (bigprod_split RLR n) by exact Hn. rewrite Nat.eqb_refl. Rn. rewrite Rmult_1_l, <- lprod_listprod.
    rewrite (lprod_perm RLR (map f (others n N)) (map f (rev (others n N)))) by (apply Permutation_map, Permutation_rev).
    f_equal. apply map_ext_in. intros k Hk. apply in_rev, in_others in Hk. destruct (Nat.eqb_spec k n); [lia|reflexivity].
  Qed.

  (** inner products of the factors *)
  Definition overlap (A : list (tensor R)) (k : nat) : R := bigsum (I k) (fun i => b k i * mget (mat_at A k) i 0).
  Definition sqcol (A : list (tensor R)) (k : nat) : R := bigsum (I k) (fun i => mget (mat_at A k) i 0 * mget (mat_at A k) i 0).
  Definition scale (A : list (tensor R)) (n : nat) : R :=
    bigprod N (fun k => if Nat.eqb k n then 1 else overlap A k) * mget (pinv (gram_but 1 A n)) 0 0.

  Lemma one_sol A n i : cp_factors X 1 A -> (n < N)%nat -> (i < I n)%nat -> mget (als_solution pinv X 1 A n) i 0 = scale A n * b n i.
  Proof.
    intros HA Hn Hi. unfold als_solution. rewrite mget_mgen by (auto; lia). cbn [bigsum]. unfold mttkrp. rewrite mget_mgen by (auto; lia).
    unfold scale. Rn. rewrite Rplus_0_l. rewrite (Rmult_comm _ (b n i)), <- Rmult_assoc. f_equal.
    assert (E : msum (replace n 1%nat (shp X)) (fun idx => get X (replace n i idx) * but A n idx 0) =
                isum (replace n 1%nat (shp X)) (fun idx => b n i * bigprod (length (replace n 1%nat (shp X)))
                  (fun k => if Nat.eqb k n then 1 else b k (nth k idx 0%nat) * mget (mat_at A k) (nth k idx 0%nat) 0))).
    { rewrite <- (isum_msum RLR). apply isum_ext. intros idx Hv. pose proof (valid_length _ _ Hv) as HL. rewrite replace_length in HL.
      assert (Hv' : valid (shp X) (replace n i idx)).
      { apply (valid_replace (shp X) idx n i 1); auto. }
      rewrite one_get by exact Hv'. unfold but. rewrite (proj1 HA). fold N. rewrite others_bigprod by exact Hn. rewrite replace_length. fold (ndims X). fold N.
      rewrite (bigprod_split RLR n (fun k => b k (nth k (replace n i idx) 0%nat))) by exact Hn. Rn. rewrite nth_replace, Nat.eqb_refl by (unfold N, ndims in *; lia).
      rewrite Rmult_assoc. f_equal.
      rewrite (lprod_perm RLR _ (map (fun k => b k (nth k (replace n i idx) 0%nat)) (others n N))) by (apply Permutation_map, Permutation_sym, Permutation_rev).
      rewrite lprod_listprod, others_bigprod by exact Hn. rewrite <- (bigprod_mul RLR). apply bigprod_ext. intros k Hk.
      destruct (Nat.eqb_spec k n) as [->|Ek]; [Rn; ring|]. rewrite nth_replace_ne by auto. reflexivity. }
    rewrite E. rewrite isumR_scale. f_equal.
    pose proof (isum_bigprod RLR (replace n 1%nat (shp X)) (fun k j => if Nat.eqb k n then 1 else b k j * mget (mat_at A k) j 0)) as P. cbv beta in P.
    etransitivity; [exact P|]. rewrite replace_length. fold (ndims X). fold N. apply bigprod_ext. intros k Hk.
    destruct (Nat.eqb_spec k n) as [->|Ek].
    - rewrite nth_replace, Nat.eqb_refl by exact Hn. cbn. Rn. ring.
    - rewrite nth_replace_ne by auto. reflexivity.
  Qed.

  Lemma split_at n (f : nat -> R) : (n < N)%nat -> bigprod N f = f n * bigprod N (fun k => if Nat.eqb k n then 1 else f k).
  Proof.
    intros Hn. rewrite (bigprod_split RLR n f) by exact Hn. Rn. f_equal. rewrite <- others_bigprod by exact Hn.
    rewrite (lprod_perm RLR _ (map f (others n N))) by (apply Permutation_map, Permutation_sym, Permutation_rev). apply lprod_listprod.
  Qed.

  Section Step.
    Variables (A : list (tensor R)) (o : cp_out R).
    Hypothesis HA : cp_factors X 1 A.
    Hypothesis Hstep : cp_step pinv X 1 A = Ok o.
    Let A' := cp_A o.
    Let M m := mixed m A' A.
    Let sol m := als_solution pinv X 1 (M m) m.

    Lemma one_mixed m : (m <= N)%nat -> cp_factors X 1 (M m).
    Proof. intros Hm. destruct (step_sweep pinv X 1 A o HP HA Hstep) as (_ & _ & HA' & _). apply mixed_factors; auto. Qed.

    Lemma one_new m i : (m < N)%nat -> (i < I m)%nat -> mget (mat_at A' m) i 0 = scale (M m) m * b m i / cmax (sol m) 0.
    Proof.
      intros Hm Hi. destruct (step_sweep pinv X 1 A o HP HA Hstep) as (_ & _ & _ & HF & _). unfold A'. rewrite HF by exact Hm.
      unfold normed. rewrite mget_mgen by (cbn; auto; lia). fold A'. fold (M m). fold (sol m). f_equal. exact (one_sol (M m) m i (one_mixed m ltac:(lia)) Hm Hi).
    Qed.

    Lemma one_step : (forall m, (m < N)%nat -> cmax (sol m) 0 <> 0) -> cp_full o = X.
    Proof.
      intros Hnz. destruct (step_sweep pinv X 1 A o HP HA Hstep) as (Hne & Ho & HA' & HF & HL & Hfull & _ & HLS & _). fold N in Ho. fold A' in HA', HF, Hfull, HLS.
      pose proof (proj1 HA') as LA'. pose proof (proj1 HA) as LA. fold N in LA, LA'.
      assert (Hsc : forall m, (m < N)%nat -> scale (M m) m <> 0).
      { intros m Hm E. apply (Hnz m Hm). destruct (cmax_ok (sol m) 0) as [(i & Hi & Ei) _]; [apply (sol_pos pinv X 1 A o HA Hstep m Hm)|].
        rewrite <- Ei. unfold sol. change (nrows (sol m)) with (I m) in Hi. rewrite (one_sol (M m) m i (one_mixed m ltac:(lia)) Hm Hi), E. ring. }
      set (d := fun k => cmax (sol k) 0 / scale (M k) k).
      assert (Hd : forall k i, (k < N)%nat -> (i < I k)%nat -> b k i = d k * mget (mat_at A' k) i 0).
      { intros k i Hk Hi. rewrite one_new by auto. unfold d. field. split; [apply Hnz, Hk|apply Hsc, Hk]. }
      set (n := (N - 1)%nat). assert (Hn : (n < N)%nat) by (unfold n; lia).
      set (c := bigprod N (fun k => if Nat.eqb k n then 1 else d k)).
      set (C := mgen (I n) 1 (fun i _ => b n i * c)).
      assert (HC : is_mat C (I n) 1) by apply is_mat_mgen.
      assert (Erep : forall D, replace n D (M n) = replace n D A').
      { intros D. apply (list_nth_ext _ _ (mkT [] [])); [rewrite !replace_length; unfold M; rewrite mixed_length; lia|]. intros k Hk. rewrite replace_length in Hk.
        unfold M in *. rewrite mixed_length in Hk by lia. rewrite !nth_replace by (rewrite ?mixed_length; lia). destruct (Nat.eqb_spec k n); [reflexivity|].
        rewrite nth_mixed by lia. destruct (Nat.ltb_spec k n); [reflexivity|lia]. }
      assert (EC : cp_tensor 1 (ones 1) (replace n C A') = X).
      { assert (Es : map nrows (replace n C A') = shp X).
        { apply nth_ext with (d := 0%nat) (d' := 0%nat); rewrite map_length, replace_length; [exact LA'|]. intros k Hk. rewrite (nth_map_lt nrows _ _ (mkT [] [])) by (rewrite replace_length; exact Hk).
          rewrite nth_replace by lia. destruct (Nat.eqb_spec k n) as [->|E]; [reflexivity|]. destruct (matrix_is_mat _ _ _ (proj2 HA' k ltac:(unfold N in *; lia))) as (_ & H2 & _). exact H2. }
        apply tensor_ext; [apply wf_gen|rewrite HX; apply wf_gen|exact Es|]. cbn [shp cp_tensor gen]. rewrite Es. intros idx Hv.
        etransitivity; [apply get_cp1; rewrite Es; exact Hv|]. rewrite one_get by exact Hv. rewrite replace_length, LA'.
        assert (Hi : forall k, (k < N)%nat -> (nth k idx 0 < I k)%nat) by (intros k Hk; apply (valid_nth _ _ k Hv Hk)).
        etransitivity; [apply (split_at n _ Hn)|]. etransitivity; [|symmetry; apply (split_at n _ Hn)]. cbv beta. unfold mat_at at 1. rewrite nth_replace, Nat.eqb_refl by lia. unfold C at 1. rewrite mget_mgen by (try apply Hi; auto; lia).
        rewrite Rmult_assoc. f_equal. unfold c. rewrite <- (bigprod_mul RLR). apply bigprod_ext. intros k Hk. destruct (Nat.eqb_spec k n) as [E|E]; [Rn; ring|].
        unfold mat_at at 1. rewrite nth_replace_ne by auto. Rn. symmetry. apply Hd; auto. }
      destruct (HLS n Hn) as [_ LS]. specialize (LS C HC). fold (M n) in LS. fold (sol n) in LS. unfold cp_error in LS. rewrite !Erep, EC in LS.
      assert (WX : wf X) by (rewrite HX; apply wf_gen).
      assert (Z : sqdist X X = 0) by (apply LossFacts.sqdist_zero; auto). rewrite Z in LS.
      assert (Efull : cp_full o = cp_tensor 1 (ones 1) (replace n (sol n) A')).
      { rewrite Hfull. change (als_solution pinv X 1 (mixed (ndims X - 1) A' A) (ndims X - 1)) with (sol n). transitivity (cp_tensor 1 (column 1 (cmax (sol n))) (replace n (mat_at A' n) A')); [f_equal; symmetry; apply replace_self|].
        apply (rescale X 1 A' n (sol n) (cmax (sol n)) (mat_at A' n) HA' Hn); [apply is_mat_mgen|apply HA'; exact Hn|].
        intros i q Hi Hq. assert (q = 0)%nat by lia. subst q. rewrite HF by exact Hn. fold (M n). fold (sol n). unfold normed. rewrite mget_mgen by (cbn; auto; lia). field. apply Hnz, Hn. }
      rewrite Efull. symmetry. apply MultiR.sqdist_zero; auto; [apply wf_gen| |apply Rle_antisym; [exact LS|apply MultiR.sqdist_nonneg]].
      cbn [shp cp_tensor gen]. symmetry. apply nth_ext with (d := 0%nat) (d' := 0%nat); rewrite map_length, replace_length; [exact LA'|]. intros k Hk. rewrite (nth_map_lt nrows _ _ (mkT [] [])) by (rewrite replace_length; exact Hk).
      rewrite nth_replace by lia. destruct (Nat.eqb_spec k n) as [->|E]; [reflexivity|]. destruct (matrix_is_mat _ _ _ (proj2 HA' k ltac:(unfold N in *; lia))) as (_ & H2 & _). exact H2.
    Qed.

    (** *** without a guard: positive maxima and overlaps *)
    Variable mx : nat -> R.
    Hypothesis Hmx : forall k, (k < N)%nat -> column_max (mat_at B k) 0 (mx k) /\ 0 < mx k.
    Hypothesis Hov : forall k, (0 < k < N)%nat -> 0 < overlap A k.

    Lemma b_rows k : (k < N)%nat -> nrows (mat_at B k) = I k.
    Proof. intros Hk. destruct (matrix_is_mat _ _ _ (proj2 HB k Hk)) as (_ & H2 & _). exact H2. Qed.

    Lemma sqcol_pos D k : overlap D k <> 0 -> 0 < sqcol D k.
    Proof.
      intros H. assert (P : 0 <= sqcol D k) by (unfold sqcol; rewrite <- (sumn_bigsum RLR); apply sumnR_nonneg; intros; apply Rle_0_sqr).
      destruct P as [|E]; [assumption|]. exfalso. apply H. unfold overlap. rewrite <- (sumn_bigsum RLR).
      transitivity (sumn (I k) (fun _ => (n0 : R))); [|apply (sumn_zero RLR); reflexivity]. apply sumn_ext. intros i Hi.
      assert (Z : (mget (mat_at D k) i 0)² = 0).
      { refine (sumnR_zero_inv (I k) (fun i => (mget (mat_at D k) i 0)²) _ _ i Hi); [intros; apply Rle_0_sqr|]. symmetry. rewrite (sumn_bigsum RLR). exact E. }
      apply Rsqr_0_uniq in Z. rewrite Z. Rn. ring.
    Qed.

    Lemma bigprod_pos n (f : nat -> R) : (forall k, (k < n)%nat -> 0 < f k) -> 0 < bigprod n f.
    Proof. induction n as [|n IH]; intros H; cbn [bigprod]; Rn; [lra|]. apply Rmult_lt_0_compat; [apply IH; auto|apply H; lia]. Qed.

    Lemma gram_one D n : cp_factors X 1 D -> (n < N)%nat -> gram_but 1 D n = mgen 1 1 (fun _ _ => bigprod N (fun k => if Nat.eqb k n then 1 else sqcol D k)).
    Proof.
      intros HD Hn. unfold gram_but. apply gen_ext. intros idx Hv. apply valid2_inv in Hv as (p & q & -> & Hp & Hq). assert (p = 0 /\ q = 0)%nat as [-> ->] by lia. cbn [nth].
      rewrite (proj1 HD). fold N. rewrite others_bigprod by exact Hn. apply bigprod_ext. intros k Hk. destruct (Nat.eqb_spec k n); [reflexivity|].
      unfold sqcol. destruct (matrix_is_mat _ _ _ (proj2 HD k Hk)) as (_ & -> & _). reflexivity.
    Qed.

    Lemma scale_val D n : cp_factors X 1 D -> (n < N)%nat -> (forall k, (k < N)%nat -> k <> n -> 0 < overlap D k) ->
      scale D n = bigprod N (fun k => if Nat.eqb k n then 1 else overlap D k / sqcol D k) /\ 0 < scale D n.
    Proof.
      intros HD Hn Ho. set (g := bigprod N (fun k => if Nat.eqb k n then 1 else sqcol D k)).
      assert (Hg : 0 < g). { apply bigprod_pos. intros k Hk. destruct (Nat.eqb_spec k n); [lra|]. apply sqcol_pos. specialize (Ho k Hk n0). lra. }
      assert (E : scale D n = bigprod N (fun k => if Nat.eqb k n then 1 else overlap D k / sqcol D k)).
      { unfold scale. rewrite (pinv_1 pinv _ g HP (gram_one D n HD Hn) Hg). apply (Rmult_eq_reg_r g); [|lra]. rewrite Rmult_assoc, Rinv_l, Rmult_1_r by lra.
        unfold g. rewrite <- (bigprod_mul RLR). apply bigprod_ext. intros k Hk. destruct (Nat.eqb_spec k n); [Rn; ring|]. Rn. field. apply Rgt_not_eq, sqcol_pos. specialize (Ho k Hk n0). lra. }
      split; [exact E|]. rewrite E. apply bigprod_pos. intros k Hk. destruct (Nat.eqb_spec k n); [lra|]. specialize (Ho k Hk n0). apply Rdiv_lt_0_compat; [exact Ho|]. apply sqcol_pos. lra.
    Qed.

    Lemma cmax_scaled (S0 : tensor R) n c : (n < N)%nat -> nrows S0 = I n -> (0 < I n)%nat -> 0 < c -> (forall i, (i < I n)%nat -> mget S0 i 0 = c * b n i) -> cmax S0 0 = c * mx n.
    Proof.
      intros Hn Hr Hpos Hc HS. destruct (cmax_ok S0 0) as [(i & Hi & Ei) Hle]; [lia|]. rewrite Hr in Hi, Hle. destruct (Hmx n Hn) as [[(j & Hj & Ej) Hm] Hp]. rewrite b_rows in Hj, Hm by exact Hn.
      apply Rle_antisym.
      - rewrite <- Ei, HS by exact Hi. apply Rmult_le_compat_l; [lra|]. apply Hm, Hi.
      - rewrite <- Ej. specialize (Hle j Hj). rewrite HS in Hle by exact Hj. exact Hle.
    Qed.

    Lemma overlap_new m k : (m <= N)%nat -> (k < m)%nat -> (forall i, (i < I k)%nat -> mget (mat_at A' k) i 0 = b k i / mx k) ->
      0 < overlap (M m) k /\ overlap (M m) k / sqcol (M m) k = mx k.
    Proof.
      intros Hm Hk HF. destruct (Hmx k ltac:(lia)) as [[(j & Hj & Ej) _] Hp]. rewrite b_rows in Hj by lia.
      destruct (step_sweep pinv X 1 A o HP HA Hstep) as (Hne & Ho & HA' & _). pose proof (proj1 HA') as LA'. pose proof (proj1 HA) as LA. fold A' N in LA'. fold N in LA.
      assert (EM : mat_at (M m) k = mat_at A' k). { unfold mat_at, M. rewrite nth_mixed by lia. destruct (Nat.ltb_spec k m); [reflexivity|lia]. }
      set (S2 := sumn (I k) (fun i => b k i * b k i)).
      assert (HS2 : 0 < S2).
      { apply Rlt_le_trans with (b k j * b k j); [unfold b; rewrite Ej; nra|]. apply (sumnR_diag_le (I k) (fun i => b k i * b k i)); auto. intros; apply Rle_0_sqr. }
      assert (E1 : overlap (M m) k = S2 / mx k).
      { unfold overlap, S2. rewrite EM, <- (sumn_bigsum RLR). unfold Rdiv. rewrite (Rmult_comm _ (/ mx k)), <- sumnR_scale. apply sumn_ext. intros i Hi. rewrite HF by exact Hi. Rn. field. lra. }
      assert (E2 : sqcol (M m) k = S2 / mx k / mx k).
      { unfold sqcol, S2. rewrite EM, <- (sumn_bigsum RLR). unfold Rdiv. rewrite Rmult_assoc, (Rmult_comm _ (/ mx k * / mx k)), <- sumnR_scale. apply sumn_ext. intros i Hi. rewrite HF by exact Hi. Rn. field. lra. }
      rewrite E1, E2. split; [apply Rdiv_lt_0_compat; lra|]. field. lra.
    Qed.

    Lemma one_positive m : (m <= N)%nat -> forall k i, (k < m)%nat -> (i < I k)%nat -> mget (mat_at A' k) i 0 = b k i / mx k.
    Proof.
      destruct (step_sweep pinv X 1 A o HP HA Hstep) as (Hne & Ho & HA' & _). pose proof (proj1 HA') as LA'. pose proof (proj1 HA) as LA. fold A' N in LA'. fold N in LA.
      induction m as [|m IH]; intros Hm k i Hk Hi; [lia|]. destruct (Nat.eq_dec k m) as [->|]; [|apply IH; lia].
      destruct (scale_val (M m) m (one_mixed m ltac:(lia)) ltac:(lia)) as [_ Hs].
      { intros k Hk' Hne'. destruct (Nat.lt_ge_cases k m) as [H|H]; [apply overlap_new; auto; [lia|intros; apply IH; auto; lia]|].
        assert (EM : mat_at (M m) k = mat_at A k). { unfold mat_at, M. rewrite nth_mixed by lia. destruct (Nat.ltb_spec k m); [lia|reflexivity]. }
        unfold overlap. rewrite EM. apply Hov. lia. }
      rewrite one_new by (auto; lia). rewrite (cmax_scaled (sol m) m (scale (M m) m)); [|lia|reflexivity|apply Nat.neq_0_lt_0, nonempty_nth; auto; lia|exact Hs|].
      - destruct (Hmx m ltac:(lia)) as [_ Hp]. field. lra.
      - intros j Hj. exact (one_sol (M m) m j (one_mixed m ltac:(lia)) ltac:(lia) Hj).
    Qed.

    Lemma one_scale m : (m < N)%nat -> 0 < scale (M m) m.
    Proof.
      intros Hm. destruct (step_sweep pinv X 1 A o HP HA Hstep) as (Hne & Ho & HA' & _). pose proof (proj1 HA') as LA'. pose proof (proj1 HA) as LA. fold A' N in LA'. fold N in LA.
      apply (scale_val (M m) m (one_mixed m ltac:(lia)) Hm).
      intros k Hk' Hne'. destruct (Nat.lt_ge_cases k m) as [H|H]; [apply overlap_new; auto; [lia|intros; apply (one_positive m); auto; lia]|].
      assert (EM : mat_at (M m) k = mat_at A k). { unfold mat_at, M. rewrite nth_mixed by lia. destruct (Nat.ltb_spec k m); [lia|reflexivity]. }
      unfold overlap. rewrite EM. apply Hov. lia.
    Qed.

    Lemma one_cmax m : (m < N)%nat -> cmax (sol m) 0 = scale (M m) m * mx m.
    Proof.
      intros Hm. destruct (step_sweep pinv X 1 A o HP HA Hstep) as (Hne & Ho & _).
      apply cmax_scaled; [exact Hm|reflexivity|apply Nat.neq_0_lt_0, nonempty_nth; auto|apply one_scale, Hm|]. intros j Hj. exact (one_sol (M m) m j (one_mixed m ltac:(lia)) Hm Hj).
    Qed.

    Lemma one_weight : get (cp_lam o) [0%nat] = bigprod N mx.
    Proof.
      destruct (step_sweep pinv X 1 A o HP HA Hstep) as (Hne & Ho & HA' & HF & HL & _). fold N in Ho, HL. pose proof (proj1 HA') as LA'. pose proof (proj1 HA) as LA. fold A' N in LA'. fold N in LA.
      rewrite HL. unfold lams, get. cbn [shp dat ravel]. change (nth _ (map ?f (seq 0 1)) _) with (f 0%nat). fold A'. fold (M (N - 1)). fold (sol (N - 1)).
      rewrite one_cmax by lia. assert (Hn : (N - 1 < N)%nat) by lia. destruct (scale_val (M (N - 1)) (N - 1) (one_mixed (N - 1) ltac:(lia)) Hn) as [-> _].
      { intros k Hk' Hne'. apply overlap_new; [lia|lia|]. intros; apply (one_positive N); auto; lia. }
      rewrite (split_at (N - 1) mx) by lia. rewrite Rmult_comm. f_equal. apply bigprod_ext. intros k Hk. destruct (Nat.eqb_spec k (N - 1)); [reflexivity|].
      apply overlap_new; [lia|lia|]. intros; apply (one_positive N); auto; lia.
    Qed.

    Lemma one_full : cp_full o = X.
    Proof. apply one_step. intros m Hm. rewrite one_cmax by exact Hm. destruct (Hmx m Hm) as [_ Hp]. pose proof (one_scale m Hm). apply Rgt_not_eq. nra. Qed.
  End Step.
End One.

Lemma c80_step pinv (X : tensor R) A B o : penrose pinv -> cp_factors X 1 A -> cp_factors X 1 B -> X = cp_tensor 1 (ones 1) B -> cp_step pinv X 1 A = Ok o ->
  (forall n v, (n < ndims X)%nat -> column_max (als_solution pinv X 1 (mixed n (cp_A o) A) n) 0 v -> v <> 0) -> cp_full o = X.
Proof.
  intros HP HA HB HX E Hg. apply (one_step pinv X B HP HB HX A o HA E). intros m Hm. apply (Hg m); [exact Hm|]. apply cmax_ok, (sol_pos pinv X 1 A o HA E m Hm).
Qed.

Lemma c80_positive pinv (X : tensor R) A B mx o : penrose pinv -> cp_factors X 1 A -> cp_factors X 1 B -> X = cp_tensor 1 (ones 1) B ->
  (forall k, (k < ndims X)%nat -> column_max (mat_at B k) 0 (mx k) /\ 0 < mx k) ->
  (forall k, (0 < k < ndims X)%nat -> 0 < bigsum (nth k (shp X) 0%nat) (fun i => mget (mat_at B k) i 0 * mget (mat_at A k) i 0)) ->
  cp_step pinv X 1 A = Ok o ->
  cp_full o = X /\ get (cp_lam o) [0%nat] = bigprod (ndims X) mx /\
  forall k i, (k < ndims X)%nat -> (i < nth k (shp X) 0)%nat -> mget (mat_at (cp_A o) k) i 0 = mget (mat_at B k) i 0 / mx k.
Proof.
  intros HP HA HB HX Hmx Hov E. split; [apply (one_full pinv X B HP HB HX A o HA E mx Hmx Hov)|]. split; [apply (one_weight pinv X B HP HB HX A o HA E mx Hmx Hov)|].
  intros k i Hk Hi. apply (one_positive pinv X B HP HB HX A o HA E mx Hmx Hov (ndims X)); auto.
Qed.

Lemma cp_step_metrics pinv (X : tensor R) A o : cp_step pinv X 1 A = Ok o -> metrics_of X (cp_full o) = Ok (cp_met o).
Proof. intros H. unfold cp_step in H. apply bind_ok in H as (mats & E1 & H). apply bind_ok in H as ([A' lam] & E2 & H). apply bind_ok in H as (full & E3 & H). apply bind_ok in H as (m & E4 & H). injection H as <-. exact E4. Qed.

Lemma c80_train pinv (X : tensor R) rnd B mx w o steps o' h args id : penrose pinv -> cp_factors X 1 rnd -> cp_factors X 1 B -> X = cp_tensor 1 (ones 1) B ->
  (forall k, (k < ndims X)%nat -> column_max (mat_at B k) 0 (mx k) /\ 0 < mx k) ->
  (forall k, (0 < k < ndims X)%nat -> 0 < bigsum (nth k (shp X) 0%nat) (fun i => mget (mat_at B k) i 0 * mget (mat_at rnd k) i 0)) ->
  o_built o = Some ((args, 1%nat), id) -> 0 < a_tol args -> cp_train pinv X w o rnd steps = (o', Ok h) ->
  h = [(0, 0)] /\ p_full (o_pub o') = Some X /\
  exists A lam, p_factors (o_pub o') = Some A /\ p_aux (o_pub o') = Some lam /\ get lam [0%nat] = bigprod (ndims X) mx /\
    forall k i, (k < ndims X)%nat -> (i < nth k (shp X) 0)%nat -> mget (mat_at A k) i 0 = mget (mat_at B k) i 0 / mx k.
Proof.
  intros HP HA HB HX Hmx Hov Hb Ht H. pose proof (cp_history _ _ _ _ _ _ _ _ H) as (args1 & r1 & id1 & os1 & Hb1 & Hr1 & Hh1 & Hst).
  apply train_ok in H as ([args' r'] & id' & p & p' & Hb' & _ & _ & H & ->). assert (Q : args' = args /\ r' = 1%nat /\ id' = id) by (split; [|split]; congruence). destruct Q as (-> & -> & ->).
  bodies H. apply als_body_ok in H as (s0 & os & Hi & (st & H0 & Hr) & Hh & Hs & (_ & _ & Hf & Hfull) & _). cbn [fst snd] in *. injection Hi as <-.
  destruct os as [|ob os]; [destruct Hs as [Hs _]; cbn in Hs; lia|]. pose proof (Hr 0%nat ob eq_refl) as E. rewrite H0 in E. unfold cp_run in E.
  destruct (cp_step pinv X 1 rnd) as [q|] eqn:Eq; [|discriminate]. cbn [bind] in E. injection E as _ <-.
  destruct (c80_positive pinv X rnd B mx q HP HA HB HX Hmx Hov Eq) as (F1 & F2 & F3). pose proof (cp_step_metrics _ _ _ _ Eq) as Em. rewrite F1 in Em.
  assert (WX : wf X) by (rewrite HX; apply wf_gen). destruct (metrics_zero X _ WX Em) as [M1 M2].
  destruct os as [|o2 os].
  2: { exfalso. destruct Hs as (_ & _ & Hs & _). apply (Hs 0%nat); [cbn; lia|]. left. apply nltb_R. unfold met. cbn. rewrite M2. exact Ht. }
  assert (Hne : [mkObs (cp_A q) (Some (cp_lam q)) (cp_full q) (cp_met q)] <> []) by discriminate.
  destruct (Hf _ eq_refl) as [G1 G2]. destruct (Hfull Hne) as (j & ob & Ej & _ & _ & Ef).
  assert (ob = mkObs (cp_A q) (Some (cp_lam q)) (cp_full q) (cp_met q)) by (apply nth_error_In in Ej; destruct Ej as [<-|[]]; reflexivity). subst ob. cbn [ob_full] in Ef.
  split; [rewrite Hh; cbn; unfold entry; cbn [ob_met]; rewrite M1, M2; reflexivity|]. split; [rewrite <- F1; exact Ef|].
  exists (cp_A q), (cp_lam q). split; [exact G1|]. split; [exact (G2 _ eq_refl)|]. split; [exact F2|exact F3].
Qed.

(** the noise-free rank-one data of synthetic_data_cp *)
Lemma c80_synthetic pinv (cast : dtype -> R -> R) N_list rand randn X rnd w o steps o' h args id : penrose pinv -> N_list <> [] ->
  cp_draws N_list 1 rand randn -> synthetic_data_cp cast N_list rand randn 0 = Ok X -> cp_factors X 1 rnd ->
  let D := map (tf_map (cast F32)) (drawn (length N_list) rand) in
  (forall k, (k < length N_list)%nat -> exists i, (i < nth k N_list 0)%nat /\ 0 < mget (mat_at D k) i 0) ->
  (forall k, (0 < k < length N_list)%nat -> 0 < bigsum (nth k N_list 0%nat) (fun i => mget (mat_at D k) i 0 * mget (mat_at rnd k) i 0)) ->
  o_built o = Some ((args, 1%nat), id) -> 0 < a_tol args -> cp_train pinv X w o rnd steps = (o', Ok h) ->
  h = [(0, 0)] /\ p_full (o_pub o') = Some X.
Proof.
  intros HP Hnn Hd E HA D Hpos Hov Hb Ht H. pose proof (cp_data cast N_list 1 rand randn 0 X Hnn Hd E) as HX0. fold D in HX0.
  assert (Es : shp X = N_list) by (rewrite HX0; reflexivity). pose proof (cp_draws_factors cast _ _ _ _ X Hd Es) as (L1 & L2 & HD). fold D in L1, HD.
  assert (En : ndims X = length N_list) by (unfold ndims; rewrite Es; reflexivity).
  assert (HB : cp_factors X 1 D).
  { split; [exact L1|]. intros k Hk. specialize (HD k Hk). rewrite (repeat_spec (length N_list) 1%nat (nth k (repeat 1%nat (length N_list)) 0%nat)) in HD by (apply nth_In; rewrite repeat_length; lia). exact HD. }
  assert (EX : X = cp_tensor 1 (ones 1) D).
  { apply (no_noise N_list _ randn); [apply wf_gen| |exact HX0]. cbn [shp cp_tensor gen]. unfold D. rewrite map_map. destruct Hd as (Hm & _). exact (drawn_shape N_list rand (fun _ => 1%nat) Hm). }
  assert (Hmx : forall k, (k < ndims X)%nat -> column_max (mat_at D k) 0 (cmax (mat_at D k) 0) /\ 0 < cmax (mat_at D k) 0).
  { intros k Hk. destruct (matrix_is_mat _ _ _ (proj2 HB k Hk)) as (_ & Hrow & _). rewrite Es in Hrow. destruct (Hpos k ltac:(lia)) as (i & Hi & Pi).
    assert (CM : column_max (mat_at D k) 0 (cmax (mat_at D k) 0)) by (apply cmax_ok; lia). split; [exact CM|]. destruct CM as [_ CM]. specialize (CM i ltac:(lia)). lra. }
  destruct (c80_train pinv X rnd D (fun k => cmax (mat_at D k) 0) w o steps o' h args id HP HA HB EX Hmx) as (R1 & R2 & _); auto.
  intros k Hk. rewrite Es. apply Hov. lia.
Qed.
