(** NTUCKER_BCU: the core and factor updates are projected gradient steps (C53). *)

From Coq Require Import ZArith List Bool Arith Lia Permutation Reals Lra Psatz.
From Verif Require Import Num Py Tensor TF TensorFacts TFFacts Sums Ops OpsLemmas Types Loss Fact Train Spec SpecR LayoutFacts SpecFacts MulFacts TtmFacts SkipFacts TtmLemmas Matricize
  KronFacts RSums MatR KronAlg NormFacts SpecTucker MultiR SvdFacts TuckerFacts TuckerRun TuckerLemmas SpecCp SpecBcu BcuFacts SpecTrain TrainLemmas CpFacts AlsFacts AlsLemmas
  SpecProx Prox NcpFacts.
Import ListNotations.
Local Open Scope R_scope.

(** inner products of mode-n slices, unfolded *)
Lemma slices_mm (Y Z Ym Zm : tensor R) n p q : (n < ndims Y)%nat -> nth n (shp Y) 0%nat <> 0%nat -> nth n (shp Z) 0%nat <> 0%nat ->
  replace n 1%nat (shp Z) = replace n 1%nat (shp Y) -> unfold Y (Z.of_nat n) = Ok Ym -> unfold Z (Z.of_nat n) = Ok Zm ->
  (p < nth n (shp Y) 0)%nat -> (q < nth n (shp Z) 0)%nat ->
  mm (rest n (shp Y)) (mget Ym) (tr (mget Zm)) p q = isum (replace n 1%nat (shp Y)) (fun idx => get Y (replace n p idx) * get Z (replace n q idx)).
Proof.
  intros Hn Hy Hz Hs EY EZ Hp Hq. assert (HnZ : (n < ndims Z)%nat).
  { unfold ndims in *. rewrite <- (replace_length n 1%nat (shp Z)), Hs, replace_length. exact Hn. }
  assert (HL : ndims Z = ndims Y). { unfold ndims. rewrite <- (replace_length n 1%nat (shp Z)), Hs, replace_length. reflexivity. }
  apply unfold_mat in EY as [[_ HY] _]; auto. apply unfold_mat in EZ as [[_ HZ] _]; auto. rewrite HL in HZ. set (c := cax n (ndims Y)) in *.
  set (s1 := replace n 1%nat (shp Y)).
  assert (Ls : length s1 = ndims Y) by (unfold s1; rewrite replace_length; reflexivity).
  assert (Gc : gather 0%nat c (shp Z) = gather 0%nat c (shp Y)).
  { pose proof (gather_others n (shp Y) 1%nat) as G1. pose proof (gather_others n (shp Z) 1%nat) as G2. change (length (shp Y)) with (ndims Y) in G1.
    change (length (shp Z)) with (ndims Z) in G2. rewrite HL, Hs in G2. unfold c. congruence. }
  symmetry. transitivity (isum s1 (fun idx => (fun (_ j : nat) => mget Ym p j * mget Zm q j) (nth n idx 0%nat)
       (ravel (gather 0%nat (cax n (length s1)) s1) (gather 0%nat (cax n (length s1)) idx)))).
  - apply isum_ext. intros idx Hv. cbv beta. rewrite Ls. fold c. unfold s1 at 1 2.
    change c with (cax n (length (shp Y))). rewrite gather_others. change (cax n (length (shp Y))) with c.
    assert (Lx : length idx = ndims Y) by (rewrite (valid_length _ _ Hv); auto).
    assert (Eg : forall i, gather 0%nat c (replace n i idx) = gather 0%nat c idx).
    { intros i. unfold gather. apply map_ext_in. intros k Hk. apply in_rev, in_others in Hk. apply nth_replace_ne. lia. }
    assert (E1 : forall i (W : tensor R), ravel (gather 0%nat [n] (shp W)) (gather 0%nat [n] (replace n i idx)) = i).
    { intros i W. unfold gather. cbn [map ravel prod]. rewrite nth_replace_eq by (rewrite Lx; auto). lia. }
    assert (Hv1 : valid (shp Y) (replace n p idx)). { rewrite <- (replace_nth n (shp Y)). apply valid_replace1; auto. }
    assert (Hv2 : valid (shp Z) (replace n q idx)). { rewrite <- (replace_nth n (shp Z)). apply valid_replace1; auto. rewrite Hs. exact Hv. }
    rewrite <- (HY _ Hv1), <- (HZ _ Hv2), !E1, !Eg, Gc. reflexivity.
  - rewrite (isum_unfold s1 n (fun _ j => mget Ym p j * mget Zm q j)) by (rewrite Ls; auto). unfold s1. rewrite rest_replace, nth_replace_eq by auto.
    unfold mm. rewrite (sumn_S RLR), sumn_0. Rn. unfold tr. lra.
Qed.

(** ** norms of mode products *)
Definition stretch2 (M : tensor R) (s : R) : Prop :=
  forall x : nat -> R, sumn (nrows M) (fun i => (sumn (ncols M) (fun j => mget M i j * x j))²) <= s * sumn (ncols M) (fun j => (x j)²).

Lemma mp_stretch (X M : tensor R) n s : (n < ndims X)%nat -> ncols M = nth n (shp X) 0%nat -> stretch2 M s ->
  sqlen (mode_product X M n) <= s * sqlen X.
Proof.
  intros Hn Hc H. rewrite !sqlen_tdot. rewrite (tdot_at X X n Hn).
  set (Y := mode_product X M n). assert (HsY : shp Y = replace n (nrows M) (shp X)) by reflexivity.
  rewrite (tdot_at Y Y n) by (unfold ndims; rewrite HsY, replace_length; exact Hn). rewrite HsY, replace_replace, nth_replace_eq by auto.
  rewrite <- isumR_scale. apply isumR_le. intros idx Hv. specialize (H (fun j => get X (replace n j idx))). rewrite Hc in H.
  eapply Rle_trans; [|eapply Rle_trans; [exact H|]].
  - right. apply sumnR_ext. intros k Hk.
    assert (Hvk : valid (replace n (nrows M) (shp X)) (replace n k idx)) by (apply valid_replace1; auto).
    unfold Y. rewrite !get_mp by auto. rewrite Hc. unfold Rsqr.
    assert (L : (n < length idx)%nat) by (rewrite (valid_length _ _ Hv), replace_length; exact Hn).
    rewrite nth_replace_eq by auto.
    rewrite (sumnR_ext (nth n (shp X) 0%nat) (fun k0 => get X (replace n k0 (replace n k idx)) * mget M k k0) (fun j => mget M k j * get X (replace n j idx))); [reflexivity|].
    intros j _. rewrite replace_replace. lra.
  - right. f_equal.
Qed.

Lemma stretch2_pos (M : tensor R) s : (0 < ncols M)%nat -> stretch2 M s -> 0 <= s.
Proof.
  intros Hc H. specialize (H (fun j => delta j 0)).
  assert (E : sumn (ncols M) (fun j => (delta j 0)²) = 1).
  { rewrite (sumnR_ext _ _ (fun j => delta j 0 * delta j 0)) by reflexivity. rewrite sumnR_delta by auto. reflexivity. }
  cbv beta in H. rewrite E in H. assert (0 <= sumn (nrows M) (fun i => (sumn (ncols M) (fun j => mget M i j * delta j 0))²)) by (apply sumnR_nonneg; intros; apply Rle_0_sqr). lra.
Qed.

Lemma mps_stretch sig l : forall X : tensor R, NoDup (map snd l) -> (forall p, In p l -> pair_fits (shp X) p /\ stretch2 (fst p) (sig p) /\ 0 <= sig p) ->
  sqlen (mode_products X l) <= listprod (map sig l) * sqlen X.
Proof.
  induction l as [|p l IH]; intros X Hn H; [cbn; Rn; lra|].
  cbn [map] in Hn. inversion Hn as [|? ? Hp Hn']; subst. destruct (H p (or_introl eq_refl)) as ((P1 & P2 & P3) & P4 & P5).
  change (mode_products X (p :: l)) with (mode_products (mode_product X (fst p) (snd p)) l).
  assert (K : 0 <= listprod (map sig l)).
  { clear - H. assert (G : forall p, In p l -> 0 <= sig p) by (intros q Hq; apply H; right; exact Hq). clear H.
    induction l as [|q l IH]; cbn; Rn; [lra|]. apply Rmult_le_pos; [apply G; left; auto|]. apply IH. intros p0 Hp0. apply G. right. exact Hp0. }
  eapply Rle_trans; [apply IH; auto|].
  - intros q Hq. destruct (H q (or_intror Hq)) as (Q1 & Q2 & Q3). split; [|auto]. apply pair_fits_replace; auto. intros E. apply Hp. rewrite <- E. apply in_map; auto.
  - cbn [map listprod]. Rn. pose proof (mp_stretch X (fst p) (snd p) (sig p) P1 P3 P4) as G.
    apply (Rmult_le_compat_l _ _ _ K) in G. lra.
Qed.

(** X x A then x A^T is X x A^T A *)
Lemma mp_gram (X M : tensor R) n : (n < ndims X)%nat -> mode_product (mode_product X M n) (mtrans M) n = mode_product X (gram_of M) n.
Proof.
  intros Hn. apply mp_mp; auto. intros i j Hi Hj. change (nrows (mtrans M)) with (ncols M) in Hi. change (ncols (mtrans M)) with (nrows M).
  unfold gram_of. rewrite mget_mgen by auto. rewrite <- (sumn_bigsum RLR). apply sumnR_ext. intros k Hk. rewrite mget_mtrans by auto. reflexivity.
Qed.

Definition gl (l : list (tensor R * nat)) : list (tensor R * nat) := map (fun p => (gram_of (fst p), snd p)) l.
Lemma gram_matrix M : matrix (gram_of M). Proof. split; [apply wf_gen|reflexivity]. Qed.

Lemma mps_gram l : forall X : tensor R, wf X -> NoDup (map snd l) -> (forall p, In p l -> pair_fits (shp X) p) ->
  mode_products (mode_products X l) (rev (tl l)) = mode_products X (gl l).
Proof.
  induction l as [|p l IH]; intros X HX Hn Hf; [reflexivity|].
  cbn [map] in Hn. inversion Hn as [|? ? Hp Hn']; subst. destruct (Hf p (or_introl eq_refl)) as (P1 & P2 & P3).
  assert (F : forall q, In q l -> pair_fits (shp (mode_product X (fst p) (snd p))) q).
  { intros q Hq. apply pair_fits_replace; [apply Hf; right; auto|]. intros E. apply Hp. rewrite <- E. apply in_map; auto. }
  change (mode_products X (p :: l)) with (mode_products (mode_product X (fst p) (snd p)) l).
  unfold tl. cbn [map rev]. unfold mode_products at 1. rewrite fold_left_app. cbn [fold_left fst snd].
  change (mode_product (mode_products (mode_products (mode_product X (fst p) (snd p)) l) (rev (tl l))) (mtrans (fst p)) (snd p) = mode_products X (gl (p :: l))).
  rewrite IH; auto; [|apply wf_gen]. set (Y := mode_product X (fst p) (snd p)) in *.
  transitivity (mode_products Y (gl l ++ [(mtrans (fst p), snd p)])).
  { unfold mode_products. rewrite fold_left_app. reflexivity. }
  rewrite (mode_products_perm RLR Y _ ((mtrans (fst p), snd p) :: gl l)).
  - unfold gl at 2. cbn [map]. fold (gl l). unfold mode_products. cbn [fold_left fst snd]. f_equal. apply mp_gram. exact P1.
  - apply wf_gen.
  - rewrite Permutation_app_comm. reflexivity.
  - rewrite map_app. cbn [map snd]. apply (Permutation_NoDup (l := snd p :: map snd (gl l))); [rewrite Permutation_app_comm; reflexivity|].
    unfold gl. rewrite map_map. cbn [snd]. constructor; auto.
  - intros q Hq. apply in_app_iff in Hq as [Hq|[<-|[]]].
    + unfold gl in Hq. apply in_map_iff in Hq as (q0 & <- & Hq0). destruct (F q0 Hq0) as (F1 & F2 & F3). split; [exact F1|]. split; [apply gram_matrix|exact F3].
    + split; [|split]; cbn [fst snd].
      * unfold Y. cbn [shp gen mode_product]. rewrite replace_length. exact P1.
      * apply matrix_mtrans.
      * unfold Y. cbn [shp gen mode_product]. rewrite nth_replace_eq by auto. reflexivity.
Qed.

(** ** the core *)
Lemma gram_quad (M : tensor R) s : (0 < ncols M)%nat -> spectral_norm (gram_of M) s -> stretch2 M s /\ 0 <= s.
Proof.
  intros Hc (H0 & H1 & _). split; [|exact H0]. intros x. pose proof (norm_bound_quad (gram_of M) s x H0 eq_refl H1) as Q.
  change (nrows (gram_of M)) with (ncols M) in Q. change (ncols (gram_of M)) with (ncols M) in Q. rewrite <- !(sumn_bigsum RLR) in Q.
  eapply Rle_trans; [|exact Q]. right.
  transitivity (sumn (ncols M) (fun p => x p * sumn (ncols M) (fun q => sumn (nrows M) (fun i => mget M i p * mget M i q) * x q))).
  - transitivity (sumn (nrows M) (fun i => sumn (ncols M) (fun p => mget M i p * x p * sumn (ncols M) (fun q => mget M i q * x q)))).
    { apply sumnR_ext. intros i _. unfold Rsqr. rewrite <- sumnR_scale_r. reflexivity. }
    rewrite sumnR_ex. apply sumnR_ext. intros p _.
    rewrite <- sumnR_scale. rewrite (sumnR_ext _ _ (fun i => sumn (ncols M) (fun q => x p * (mget M i p * mget M i q * x q)))).
    + rewrite sumnR_ex. apply sumnR_ext. intros q _. rewrite <- sumnR_scale_r, <- sumnR_scale. reflexivity.
    + intros i _. rewrite <- sumnR_scale. apply sumnR_ext. intros q _. lra.
  - apply sumnR_ext. intros p Hp. f_equal. rewrite <- (sumn_bigsum RLR). apply sumnR_ext. intros q Hq. unfold gram_of. rewrite mget_mgen by auto. rewrite <- (sumn_bigsum RLR). reflexivity.
Qed.

Section Core.
  Variables (X : tensor R) (ranks : list nat) (A : list (tensor R)).
  Hypothesis HX : wf X.
  Hypothesis HA : tucker_factors X ranks A.
  Let N := ndims X.

  Lemma tf_len : length A = N. Proof. apply HA. Qed.
  Lemma tf_mat k : (k < N)%nat -> matrix (mat_at A k) /\ nrows (mat_at A k) = nth k (shp X) 0%nat /\ ncols (mat_at A k) = nth k ranks 0%nat.
  Proof. intros Hk. destruct HA as (_ & _ & H). apply (matrix_is_mat _ _ _ (H k Hk)). Qed.

  Lemma core_ndims C : core_like ranks C -> ndims C = N.
  Proof. intros [_ E]. unfold ndims at 1. rewrite E. apply HA. Qed.
  Lemma core_fits C k : core_like ranks C -> (k < N)%nat -> pair_fits (shp C) (mat_at A k, k).
  Proof.
    intros HC Hk. pose proof (core_ndims C HC) as HN. destruct (tf_mat k Hk) as (H1 & _ & H3). split; [|split]; cbn [fst snd]; auto.
    - unfold ndims in HN. rewrite HN. exact Hk.
    - rewrite (proj2 HC). exact H3.
  Qed.
  Lemma tk_shape C : shp (tucker_tensor C A) = shp X.
  Proof.
    change (map nrows A = shp X). apply nth_ext with (d := 0%nat) (d' := 0%nat); rewrite map_length, tf_len; [reflexivity|].
    intros k Hk. rewrite (nth_map_lt nrows A k (mkT [] [])) by (rewrite tf_len; auto). apply (tf_mat k Hk).
  Qed.
  Lemma tk_pl C : core_like ranks C -> tucker_tensor C A = mode_products C (pl A (seq 0 N)).
  Proof.
    intros HC. pose proof (core_ndims C HC) as HN. rewrite <- (mode_products_tucker RLR C A).
    - f_equal. rewrite (combine_nth_map A _ (mkT [] []) 0%nat) by (rewrite seq_length; auto). unfold pl. rewrite tf_len. apply map_ext_in. intros k Hk. apply in_seq in Hk.
      rewrite seq_nth by lia. reflexivity.
    - apply HC.
    - rewrite HN. apply tf_len.
    - intros k Hk. rewrite tf_len in Hk. destruct (core_fits C k HC Hk) as (_ & H2 & H3). auto.
  Qed.
  Lemma proj_shape' (Y : tensor R) : shp Y = shp X -> shp (project Y A) = ranks.
  Proof.
    intros HY. rewrite project_plt, shp_mode_products, tf_len. apply nth_ext with (d := 0%nat) (d' := 0%nat).
    - rewrite rshape_length, HY. symmetry. apply HA.
    - rewrite rshape_length, HY. intros k Hk. rewrite (rshape_in (plt A (seq 0 N)) _ (mtrans (mat_at A k))).
      + apply (tf_mat k Hk).
      + rewrite snd_plt. apply seq_NoDup.
      + unfold plt. apply in_map_iff. exists k. split; [reflexivity|]. apply in_seq. unfold N, ndims. lia.
      + exact Hk.
  Qed.
  Lemma plt_fits (Y : tensor R) k : shp Y = shp X -> (k < N)%nat -> pair_fits (shp Y) (mtrans (mat_at A k), k).
  Proof. intros HY Hk. rewrite HY. split; [exact Hk|]. split; [apply matrix_mtrans|]. apply (tf_mat k Hk). Qed.

  (** <Y, C x A> = <Y x A^T, C> *)
  Lemma tk_adj (Y C : tensor R) : wf Y -> shp Y = shp X -> core_like ranks C -> tdot Y (tucker_tensor C A) = isum ranks (fun i => get (project Y A) i * get C i).
  Proof.
    intros WY HY HC. rewrite tdot_sym by (rewrite tk_shape; auto). rewrite tk_pl by auto. rewrite tdot_mps.
    - rewrite tl_pl. replace (mode_products Y (rev (plt A (seq 0 N)))) with (project Y A).
      + unfold tdot. rewrite (proj2 HC). apply isum_ext. intros. Rn. lra.
      + rewrite project_plt, tf_len. apply (mode_products_perm RLR); auto.
        * apply Permutation_rev.
        * rewrite snd_plt. apply seq_NoDup.
        * intros p Hp. unfold plt in Hp. apply in_map_iff in Hp as (k & <- & Hk). apply in_seq in Hk. apply plt_fits; auto. lia.
    - rewrite snd_pl. apply seq_NoDup.
    - intros p Hp. unfold pl in Hp. apply in_map_iff in Hp as (k & <- & Hk). apply in_seq in Hk. apply core_fits; auto. lia.
    - rewrite <- shp_mode_products, <- tk_pl by auto. rewrite tk_shape. exact HY.
  Qed.
  Lemma tk_gram C : core_like ranks C -> project (tucker_tensor C A) A = mode_products C (pl (map gram_of A) (seq 0 N)).
  Proof.
    intros HC. assert (E : mode_products C (pl (map gram_of A) (seq 0 N)) = mode_products C (gl (pl A (seq 0 N)))).
    { f_equal. unfold gl, pl. rewrite map_map. apply map_ext_in. intros k Hk. apply in_seq in Hk. cbn [fst snd]. f_equal.
      unfold mat_at. rewrite (nth_map_lt gram_of A k (mkT [] [])) by (rewrite tf_len; lia). reflexivity. }
    rewrite E. rewrite <- mps_gram.
    - rewrite <- tk_pl by auto. rewrite tl_pl, project_plt, tf_len. apply (mode_products_perm RLR).
      + apply wf_gen.
      + apply Permutation_rev.
      + rewrite snd_plt. apply seq_NoDup.
      + intros p Hp. unfold plt in Hp. apply in_map_iff in Hp as (k & <- & Hk). apply in_seq in Hk. apply plt_fits; [apply tk_shape|lia].
    - apply HC.
    - rewrite snd_pl. apply seq_NoDup.
    - intros p Hp. unfold pl in Hp. apply in_map_iff in Hp as (k & <- & Hk). apply in_seq in Hk. apply core_fits; auto. lia.
  Qed.

  Let f C := / 2 * sqdist X (tucker_tensor C A).
  Let G M idx := get (mode_products M (pl (map gram_of A) (seq 0 N))) idx - get (project X A) idx.
  Let q d := sqlen (tucker_tensor (gen ranks d) A).

  Lemma tk_linear C M idx : core_like ranks C -> core_like ranks M -> valid (shp X) idx ->
    get (tucker_tensor C A) idx = get (tucker_tensor M A) idx + get (tucker_tensor (gen ranks (fun i => get C i - get M i)) A) idx.
  Proof.
    intros [_ HC] [_ HM] Hv. rewrite <- (tk_shape C) in Hv. change (shp (tucker_tensor C A)) with (map nrows A) in Hv.
    unfold tucker_tensor. rewrite !get_gen by auto. rewrite <- !(isum_msum RLR). cbn [shp gen]. rewrite HC, HM. rewrite <- isumR_add.
    apply isum_ext. intros j Hj. rewrite get_gen by auto. Rn. lra.
  Qed.

  Lemma core_expand M C : core_like ranks M -> wf C -> shp C = shp M ->
    f C = f M + isum (shp M) (fun i => G M i * (get C i - get M i)) + / 2 * q (fun i => get C i - get M i).
  Proof.
    intros HM WC Hs. assert (HC : core_like ranks C) by (split; [auto|rewrite Hs; apply HM]).
    set (D := gen ranks (fun i => get C i - get M i)). assert (HD : core_like ranks D) by (split; [apply wf_gen|reflexivity]).
    pose proof (tk_adj X D HX eq_refl HD) as E1. pose proof (tk_adj (tucker_tensor M A) D (wf_gen _ _) (tk_shape M) HD) as E2. rewrite tk_gram in E2 by auto.
    assert (E3 : isum (shp M) (fun i => G M i * (get C i - get M i)) = tdot (tucker_tensor M A) (tucker_tensor D A) - tdot X (tucker_tensor D A)).
    { rewrite E1, E2, (proj2 HM), <- isumR_sub. apply isum_ext. intros i Hi. unfold G, D. rewrite get_gen by auto. Rn. lra. }
    rewrite E3. unfold q. fold D. rewrite sqlen_tdot. unfold f, tdot. rewrite !tk_shape. unfold sqdist. rewrite <- !(isum_msum RLR).
    rewrite (isum_ext (shp X) (fun i => (get X i - get (tucker_tensor C A) i)²)
      (fun i => (get X i - get (tucker_tensor M A) i)² + (2 * (get (tucker_tensor M A) i * get (tucker_tensor D A) i) - 2 * (get X i * get (tucker_tensor D A) i)) +
                get (tucker_tensor D A) i * get (tucker_tensor D A) i)).
    - rewrite !isumR_add, isumR_sub, !isumR_scale. Rn. lra.
    - intros i Hi. rewrite (tk_linear C M i HC HM Hi). fold D. unfold Rsqr. Rn. lra.
  Qed.

  Variable L : R.
  Hypothesis Hr : nonempty ranks.
  Hypothesis HL : exists sig, (forall k, (k < N)%nat -> spectral_norm (gram_of (mat_at A k)) (sig k)) /\ L = bigprod N sig.

  Lemma core_quad d : q d <= L * isum ranks (fun i => (d i)²).
  Proof.
    destruct HL as (sig & HS & ->). unfold q. set (D := gen ranks d). assert (HD : core_like ranks D) by (split; [apply wf_gen|reflexivity]).
    rewrite tk_pl by auto. eapply Rle_trans; [apply (mps_stretch (fun p => sig (snd p)))|].
    - rewrite snd_pl. apply seq_NoDup.
    - intros p Hp. unfold pl in Hp. apply in_map_iff in Hp as (k & <- & Hk). apply in_seq in Hk. cbn [fst snd].
      split; [apply core_fits; auto; lia|]. apply gram_quad; [|apply HS; lia]. destruct (tf_mat k ltac:(lia)) as (_ & _ & ->).
      pose proof (nonempty_nth ranks k Hr ltac:(destruct HA as (_ & HLr & _); unfold N in *; lia)). lia.
    - right. f_equal.
      + unfold pl. rewrite map_map. cbn [snd]. rewrite <- lprod_listprod, (lprod_seq RLR). reflexivity.
      + rewrite sqlen_tdot. unfold tdot. change (shp D) with ranks. apply isum_ext. intros i Hi. unfold D. rewrite get_gen by auto. reflexivity.
  Qed.

  Lemma core_step M M' : core_like ranks M -> core_like ranks M' -> (forall i, valid ranks i -> get M' i = Rmax 0 (get M i - G M i / L)) ->
    projected_step f L M M' /\ (0 < L -> descends f L M M').
  Proof.
    intros HM HM' Hget. destruct HM as [WM SM], HM' as [WM' SM'].
    assert (Hqe : forall d d', (forall i, valid (shp M) i -> d i = d' i) -> q d = q d').
    { intros d d' H. unfold q. rewrite SM in H. rewrite (gen_ext ranks d d' H). reflexivity. }
    assert (Hqs : forall t d, q (fun i => t * d i) = t² * q d).
    { intros t d. unfold q. rewrite !sqlen_tdot. unfold tdot. rewrite !tk_shape. rewrite <- isumR_scale. apply isum_ext. intros i Hi.
      assert (E : get (tucker_tensor (gen ranks (fun i => t * d i)) A) i = t * get (tucker_tensor (gen ranks d) A) i).
      { rewrite <- (tk_shape (gen ranks d)) in Hi. change (shp (tucker_tensor (gen ranks d) A)) with (map nrows A) in Hi. unfold tucker_tensor. rewrite !get_gen by auto.
        rewrite <- !(isum_msum RLR). cbn [shp gen]. rewrite <- isumR_scale. apply isum_ext. intros j Hj. rewrite !get_gen by auto. Rn. lra. }
      rewrite E. unfold Rsqr. lra. }
    assert (Hf := core_expand M).
    split.
    - apply (prox_projected f M (G M) q L); auto.
      + intros C HC HsC. apply Hf; auto. split; auto.
      + intros d. apply sqlen_nonneg.
      + rewrite SM'. auto.
      + rewrite SM. exact Hget.
    - intros Lp. apply (prox_descends f M (G M) q L); auto.
      + intros C HC HsC. apply Hf; auto. split; auto.
      + intros d. apply sqlen_nonneg.
      + intros d. rewrite SM. apply core_quad.
      + rewrite SM'. auto.
      + rewrite SM. exact Hget.
  Qed.
End Core.

Lemma without_nil {A} (l : list A) : without [] l = l.
Proof. apply without_none. intros z []. Qed.

(** ** the runs *)
Section Runs.
  Variables (svals : tensor R -> list R) (X : tensor R) (ranks : list nat).
  Hypothesis HX : wf X.
  Hypothesis Hord : (1 <= ndims X <= 13)%nat.
  Let N := ndims X.
  Let I n := nth n (shp X) 0%nat.

  Lemma tgrams_ok A : tucker_factors X ranks A -> grams A = Ok (map gram_of A).
  Proof.
    intros HA. unfold grams. apply mapM_ok. intros M HM. destruct (In_nth A M (mkT [] []) HM) as (k & Hk & <-). rewrite (tf_len X ranks A HA) in Hk.
    destruct (tf_mat X ranks A HA k Hk) as (H1 & H2 & H3). unfold mat_at in *.
    rewrite (matmul_ok true false _ _ (ncols (nth k A (mkT [] []))) (nrows (nth k A (mkT [] []))) (ncols (nth k A (mkT [] [])))) by (apply H1).
    f_equal. unfold gram_of, mgen. apply gen_ext. intros idx Hv. apply valid2_inv in Hv as (i & q & -> & Hi & Hq). cbn [nth]. apply (sumn_bigsum RLR).
  Qed.

  Definition nt_coreL (A : list (tensor R)) : R := bigprod N (fun k => tf_max (svals (gram_of (mat_at A k)))).
  Definition nt_newcore (A : list (tensor R)) (gm : tensor R) (L : R) : tensor R :=
    gen ranks (fun i => Rmax 0 (get gm i - (get (mode_products gm (pl (map gram_of A) (seq 0 N))) i - get (project X A) i) / L)).

  Lemma combine_pl (U : list (tensor R)) : length U = N -> combine U (seq 0 (length U)) = pl U (seq 0 N).
  Proof.
    intros HU. rewrite (combine_nth_map U _ (mkT [] []) 0%nat) by (rewrite seq_length; auto). unfold pl. rewrite HU. apply map_ext_in. intros k Hk. apply in_seq in Hk.
    rewrite seq_nth by lia. reflexivity.
  Qed.

  Lemma mps_gram_shape A C : tucker_factors X ranks A -> core_like ranks C -> shp (mode_products C (pl (map gram_of A) (seq 0 N))) = ranks.
  Proof. intros HA HC. unfold N. rewrite <- (tk_gram X ranks A HA C HC). apply (proj_shape' X ranks A HA), (tk_shape X ranks A HA). Qed.

  Lemma nt_core_run s : tucker_factors X ranks (q_A s) -> core_like ranks (q_gm s) -> length (q_L s) = S N ->
    let L := nt_coreL (q_A s) in
    nt_core svals X s = Ok (mkNT (q_A s) (q_Am s) (q_A0 s) (nt_newcore (q_A s) (q_gm s) L) (q_gm s) (q_g0 s) (q_t s) (q_t0 s) (q_w s)
      (replace N L (q_L s)) (replace N (nth N (q_L s) 0) (q_L0 s))).
  Proof.
    intros HA Hgm HLn L. unfold nt_core. rewrite (tgrams_ok _ HA). cbn [bind]. fold N.
    rewrite (pynth_nat (q_L s) N 0) by lia. cbn [bind].
    pose proof (tf_len X ranks (q_A s) HA) as LA.
    assert (HnA : map gram_of (q_A s) <> []). { intros E. apply (f_equal (@length _)) in E. rewrite map_length, LA in E. simpl in E. lia. }
    assert (EW : without (skipset SkNone) (map gram_of (q_A s)) = map gram_of (q_A s)) by apply without_nil.
    rewrite (max_single_ok RLR) by (rewrite EW; exact HnA). cbn [bind].
    assert (EL : listprod (map (fun m => tf_max (svals m)) (without (skipset SkNone) (map gram_of (q_A s)))) = L).
    { rewrite EW, map_map, <- lprod_listprod. rewrite (map_via_nth (fun x => tf_max (svals (gram_of x))) (q_A s) (mkT [] [])), (lprod_seq RLR), LA. reflexivity. }
    rewrite EL.
    rewrite (c11_default RLR (q_gm s) (map gram_of (q_A s)) false); [|apply Hgm| | exact HnA| |].
    2: { rewrite (core_ndims X ranks (q_A s) HA _ Hgm). exact (proj2 Hord). }
    2: { rewrite map_length, LA. rewrite (core_ndims X ranks (q_A s) HA _ Hgm). lia. }
    2: { intros k Hk. rewrite map_length, LA in Hk. unfold mat_at. rewrite (nth_map_lt gram_of (q_A s) k (mkT [] [])) by lia. split; [apply gram_matrix|].
         change (ncols (gram_of (nth k (q_A s) (mkT [] [])))) with (ncols (mat_at (q_A s) k)). rewrite (proj2 Hgm). apply (tf_mat X ranks (q_A s) HA k Hk). }
    cbn [bind]. rewrite (combine_pl (map gram_of (q_A s))) by (rewrite map_length; exact LA).
    rewrite (c11_default RLR X (q_A s) true); [|exact HX|lia| | rewrite LA; apply Nat.le_refl|].
    2: { intros E. rewrite E in HnA. apply HnA. reflexivity. }
    2: { intros k Hk. rewrite LA in Hk. destruct (tf_mat X ranks (q_A s) HA k Hk) as (H1 & H2 & _). auto. }
    cbn [bind]. change (mode_products X (combine (map mtrans (q_A s)) (seq 0 (length (q_A s))))) with (project X (q_A s)).
    rewrite bin_same by (rewrite (mps_gram_shape _ _ HA Hgm); symmetry; apply (proj_shape' X ranks _ HA); reflexivity). cbn [bind].
    rewrite (mps_gram_shape _ _ HA Hgm). rewrite tf_map_gen. rewrite bin_same by (apply Hgm). cbn [bind]. rewrite tf_map_gen. rewrite !upd_replace. rewrite (proj2 Hgm). f_equal. f_equal.
    unfold nt_newcore. apply gen_ext. intros idx Hv. rewrite nrelu_R, Rmax_comm. rewrite get_gen by auto. reflexivity.
  Qed.

  Hypothesis Hne : nonempty (shp X).
  Hypothesis Hr : nonempty ranks.

  Definition nt_L (g : tensor R) (A : list (tensor R)) (n : nat) : R := tf_max (svals (slice_gram (core_times_others g A n) n)).
  (** sum over the other modes of X times the core times the other factors *)
  Definition nt_XB (g : tensor R) (A : list (tensor R)) (n : nat) (i q : nat) : R :=
    isum (replace n 1%nat (shp X)) (fun idx => get X (replace n i idx) * get (core_times_others g A n) (replace n q idx)).
  Definition nt_new (g : tensor R) (A : list (tensor R)) (Am : tensor R) (L : R) (n : nat) : tensor R :=
    mgen (I n) (nth n ranks 0%nat) (fun i q =>
      Rmax 0 (mget Am i q - (sumn (nth n ranks 0%nat) (fun p => mget Am i p * mget (slice_gram (core_times_others g A n) n) p q) - nt_XB g A n i q) / L)).

  Lemma cto_shape g A n : tucker_factors X ranks A -> core_like ranks g -> (n < N)%nat ->
    shp (core_times_others g A n) = replace n (nth n ranks 0%nat) (shp X) /\ wf (core_times_others g A n).
  Proof.
    intros HA Hg Hn. pose proof (tf_len X ranks A HA) as LA. split; [|apply wf_mode_products, Hg].
    unfold core_times_others. rewrite shp_mode_products, LA. destruct Hg as [Wg Sg]. destruct HA as (HA1 & HA2 & HA3). unfold N in *.
    apply nth_ext with (d := 0%nat) (d' := 0%nat).
    - rewrite rshape_length, replace_length, Sg. exact HA2.
    - rewrite rshape_length, Sg, HA2. intros k Hk. destruct (Nat.eq_dec k n) as [->|E].
      + rewrite nth_replace_eq by exact Hn. rewrite rshape_out; [reflexivity|]. rewrite map_map. cbn [snd]. rewrite map_id. intros Hin. apply in_others in Hin. lia.
      + rewrite nth_replace_ne by auto. rewrite (rshape_in _ _ (mat_at A k)).
        * destruct (matrix_is_mat _ _ _ (HA3 k Hk)) as (_ & H & _). exact H.
        * rewrite map_map. cbn [snd]. rewrite map_id. apply NoDup_filter, seq_NoDup.
        * apply in_map_iff. exists k. split; [reflexivity|]. apply in_others. lia.
        * rewrite HA2. exact Hk.
  Qed.

  Lemma cto_run g A n : tucker_factors X ranks A -> core_like ranks g -> (2 <= N)%nat -> (n < N)%nat ->
    ttm g A None false (SkInt (Z.of_nat n)) = Ok (core_times_others g A n).
  Proof.
    intros HA Hg HN Hn. pose proof (tf_len X ranks A HA) as HL. pose proof (core_ndims X ranks A HA g Hg) as Hgn.
    destruct (c11_skip RLR g A false (SkInt (Z.of_nat n)) (proj1 Hg)) as (r & E & Er & _); try discriminate; try (rewrite ?Hgn, ?HL; unfold N in *; lia).
    - cbn [skipset]. rewrite kept_others, HL. intros E. pose proof (Permutation_length (kolda_perm n N Hn)) as P.
      fold N in E. rewrite E in P. rewrite seq_length in P. simpl in P. unfold N in P, HN. lia.
    - cbn [skipset]. rewrite kept_others, HL. intros k Hk. apply in_others in Hk.
      destruct (tf_mat X ranks A HA k) as (H1 & _ & H2); [lia|]. rewrite (proj2 Hg). auto.
    - rewrite E, Er. f_equal. unfold core_times_others. f_equal. cbn [skipset]. rewrite (without_nth _ _ (mkT [] [])), kept_others.
      rewrite (combine_nth_map _ (others n (length A)) (mkT [] []) 0%nat) by (rewrite map_length; auto).
      rewrite map_length. apply nth_ext with (d := (mkT [] [], 0%nat)) (d' := (mkT [] [], 0%nat)); rewrite ?map_length, ?seq_length; auto.
      intros q Hq. rewrite nth_map_seq by auto. rewrite !nth_map_lt with (da := 0%nat) by auto. reflexivity.
  Qed.

  Lemma replace_tucker A n B : tucker_factors X ranks A -> is_mat B (I n) (nth n ranks 0%nat) -> tucker_factors X ranks (replace n B A).
  Proof.
    intros (H1 & H2 & H3) HB. split; [rewrite replace_length; auto|]. split; [auto|]. intros k Hk. unfold mat_at.
    destruct (Nat.eq_dec k n) as [->|E]; [|rewrite nth_replace_ne by auto; apply H3, Hk].
    rewrite nth_replace, Nat.eqb_refl by (rewrite H1; exact Hk). exact HB.
  Qed.

  Lemma tucker_last g A n B : tucker_factors X ranks A -> core_like ranks g -> (n < N)%nat -> is_mat B (I n) (nth n ranks 0%nat) ->
    tucker_tensor g (replace n B A) = mode_product (core_times_others g A n) B n.
  Proof.
    intros HA Hg Hn HB. pose proof (replace_tucker A n B HA HB) as HA'. pose proof (tf_len X ranks A HA) as HL.
    rewrite (tk_pl X ranks _ HA' g Hg). fold N.
    rewrite (mode_products_perm RLR g (pl (replace n B A) (seq 0 N)) (pl (replace n B A) (others n N) ++ pl (replace n B A) [n])).
    - unfold mode_products at 1. rewrite fold_left_app. cbn [fold_left pl map fst snd]. unfold mat_at at 1. rewrite nth_replace, Nat.eqb_refl by (rewrite HL; auto).
      f_equal. unfold core_times_others, mode_products. rewrite HL. f_equal. unfold pl. apply map_ext_in. intros k Hk. apply in_others in Hk. unfold mat_at. rewrite nth_replace_ne by lia. reflexivity.
    - apply Hg.
    - unfold pl. rewrite <- map_app. apply Permutation_map.
      rewrite <- (kolda_perm n N Hn). rewrite Permutation_app_comm. cbn [app]. apply perm_skip. symmetry. apply Permutation_rev.
    - rewrite snd_pl. apply seq_NoDup.
    - intros p Hp. unfold pl in Hp. apply in_map_iff in Hp as (k & <- & Hk). apply in_seq in Hk. apply (core_fits X ranks _ HA' g k Hg). unfold N in Hk. lia.
  Qed.

  Lemma rank_pos A n : tucker_factors X ranks A -> (n < N)%nat -> nth n ranks 0%nat <> 0%nat.
  Proof. intros (_ & H & _) Hn. apply nonempty_nth; auto. rewrite H. exact Hn. Qed.
  Lemma dim_pos n : (n < N)%nat -> nth n (shp X) 0%nat <> 0%nat.
  Proof. intros Hn. apply nonempty_nth; auto. Qed.

  (** the unfolded core times the other factors *)
  Lemma cto_unfold g A n : tucker_factors X ranks A -> core_like ranks g -> (n < N)%nat -> exists B,
    unfold (core_times_others g A n) (Z.of_nat n) = Ok B /\ is_mat B (nth n ranks 0%nat) (rest n (shp X)) /\
    (forall p q, (p < nth n ranks 0)%nat -> (q < nth n ranks 0)%nat ->
       mm (rest n (shp X)) (mget B) (tr (mget B)) p q = mget (slice_gram (core_times_others g A n) n) p q) /\
    (forall Xm i q, unfold X (Z.of_nat n) = Ok Xm -> (i < I n)%nat -> (q < nth n ranks 0)%nat -> mm (rest n (shp X)) (mget Xm) (tr (mget B)) i q = nt_XB g A n i q).
  Proof.
    intros HA Hg Hn. destruct (cto_shape g A n HA Hg Hn) as [HS _]. set (Y := core_times_others g A n) in *.
    assert (HnY : (n < ndims Y)%nat) by (unfold ndims; rewrite HS, replace_length; exact Hn).
    assert (EY : nth n (shp Y) 0%nat = nth n ranks 0%nat) by (rewrite HS, nth_replace_eq; auto).
    pose proof (rank_pos A n HA Hn) as Hr0. pose proof (dim_pos n Hn) as Hd0.
    destruct (unfold_ok Y n HnY) as (B & EB & _); [rewrite EY; exact Hr0|]. exists B. split; [exact EB|].
    assert (ER : rest n (shp Y) = rest n (shp X)) by (rewrite HS; apply rest_replace).
    split; [|split].
    - destruct (unfold_mat Y B n HnY ltac:(rewrite EY; exact Hr0) EB) as [_ H]. rewrite EY, ER in H. exact H.
    - intros p q Hp Hq. rewrite <- ER. rewrite (slices_mm Y Y B B n p q); auto; try (rewrite EY; auto).
      unfold slice_gram. rewrite mget_mgen by (rewrite EY; auto). apply (isum_msum RLR).
    - intros Xm i q EX Hi Hq. rewrite (slices_mm X Y Xm B n i q); auto; try (rewrite EY; auto). rewrite HS. apply replace_replace.
  Qed.

  Variable mats : list (tensor R).
  Hypothesis Hmats : unfold_all X = Ok mats.

  Lemma nt_mode_run s n : nt_wf X ranks s -> (2 <= N)%nat -> (n < N)%nat ->
    let L := nt_L (q_g s) (q_A s) n in
    nt_mode svals mats n s = Ok (mkNT (replace n (nt_new (q_g s) (q_A s) (mat_at (q_Am s) n) L n) (q_A s)) (q_Am s) (q_A0 s) (q_g s) (q_gm s) (q_g0 s) (q_t s) (q_t0 s) (q_w s)
      (replace n L (q_L s)) (replace n (nth n (q_L s) 0) (q_L0 s))).
  Proof.
    intros (HA & HAm & HA0 & Hg & Hgm & Hg0 & HL & HL0) HN Hn L. unfold nt_mode. rewrite (cto_run (q_g s) (q_A s) n HA Hg HN Hn). cbn [bind].
    destruct (cto_unfold (q_g s) (q_A s) n HA Hg Hn) as (B & EB & HB & HV & HW). rewrite EB. cbn [bind].
    destruct (mats_nth X mats Hmats n Hn) as (Xm & EXm & EX). rewrite EXm. cbn [bind].
    pose proof (proj2 (unfold_mat X Xm n Hn (dim_pos n Hn) EX)) as HXm. fold (I n) in HXm.
    set (r := nth n ranks 0%nat) in *. set (J := rest n (shp X)) in *.
    rewrite (matmul_ok false true Xm B (I n) J r) by (try apply HXm; apply HB). cbn [bind].
    rewrite (matmul_ok false true B B r J r) by (apply HB). cbn [bind].
    set (Y := core_times_others (q_g s) (q_A s) n) in *.
    assert (EV : mgen r r (fun i j => sumn J (fun k => mget B i k * mget B j k)) = slice_gram Y n).
    { unfold slice_gram. destruct (cto_shape (q_g s) (q_A s) n HA Hg Hn) as [HS _]. fold Y in HS. rewrite HS, nth_replace_eq by auto. fold r. unfold mgen. apply gen_ext.
      intros idx Hv. apply valid2_inv in Hv as (p & q & -> & Hp & Hq). cbn [nth]. specialize (HV p q Hp Hq).
      unfold slice_gram in HV. rewrite HS, nth_replace_eq in HV by auto. fold r in HV. rewrite mget_mgen in HV by auto. exact HV. }
    match goal with |- context [tf_matmul false false _ ?v] => replace v with (slice_gram Y n) end.
    rewrite (pynth_nat (q_Am s) n (mkT [] [])) by (rewrite (proj1 HAm); exact Hn). cbn [bind]. fold (mat_at (q_Am s) n).
    destruct HAm as (_ & _ & HAm). specialize (HAm n Hn). fold (I n) r in HAm.
    assert (HVm : shp (slice_gram Y n) = [r; r]) by (rewrite <- EV; reflexivity).
    rewrite (matmul_ok false false (mat_at (q_Am s) n) (slice_gram Y n) (I n) r r) by (try apply HAm; exact HVm). cbn [bind].
    rewrite bin_same by reflexivity. cbn [bind]. rewrite (pynth_nat (q_L s) n 0) by lia. cbn [bind].
    unfold mgen at 1. cbn [shp]. rewrite tf_map_gen. cbn [shp gen mgen].
    rewrite bin_same by (apply HAm). cbn [bind]. rewrite tf_map_gen.
    rewrite !upd_replace.
    fold (nt_L (q_g s) (q_A s) n). fold L. f_equal. f_equal. f_equal.
    unfold nt_new. fold r. fold Y. destruct HAm as [_ HAs]. rewrite HAs. unfold mgen. apply gen_ext. intros idx Hv. apply valid2_inv in Hv as (i & q & -> & Hi & Hq).
    cbn [nth]. rewrite nrelu_R, Rmax_comm. f_equal. rewrite get_gen by (repeat constructor; auto). Rn. f_equal. f_equal. f_equal.
    + change (get (mgen (I n) r (fun i q => sumn r (fun p => mget (mat_at (q_Am s) n) i p * mget (slice_gram Y n) p q))) [i; q] = sumn r (fun p => mget (mat_at (q_Am s) n) i p * mget (slice_gram Y n) p q)).
      fold (mget (mgen (I n) r (fun i q => sumn r (fun p => mget (mat_at (q_Am s) n) i p * mget (slice_gram Y n) p q))) i q).
      rewrite mget_mgen by auto. reflexivity.
    + rewrite <- (HW Xm i q EX Hi Hq).
      change (mget (mgen (I n) r (fun i q => sumn J (fun p => mget Xm i p * mget B q p))) i q = mm J (mget Xm) (tr (mget B)) i q).
      rewrite mget_mgen by auto. reflexivity.
  Qed.

  Lemma nt_new_mat g A Am L n : is_mat (nt_new g A Am L n) (I n) (nth n ranks 0%nat). Proof. apply is_mat_mgen. Qed.

  (** a factor update is a projected gradient step *)
  Lemma nt_new_step g A Am L n : spectral svals -> tucker_factors X ranks A -> core_like ranks g -> (n < N)%nat -> is_mat Am (I n) (nth n ranks 0%nat) -> L = nt_L g A n ->
    let f B := / 2 * sqdist X (tucker_tensor g (replace n B A)) in
    spectral_norm (slice_gram (core_times_others g A n) n) L /\ projected_step f L Am (nt_new g A Am L n) /\ (L <> 0 -> descends f L Am (nt_new g A Am L n)).
  Proof.
    intros HS HA Hg Hn HAm EL f. destruct (mats_nth X mats Hmats n Hn) as (Xm & _ & EX).
    destruct (cto_unfold g A n HA Hg Hn) as (B & EB & HB & HV & HW).
    destruct (cto_shape g A n HA Hg Hn) as [HSY _]. set (Y := core_times_others g A n) in *. set (r := nth n ranks 0%nat) in *. set (J := rest n (shp X)) in *.
    assert (EY : nth n (shp Y) 0%nat = r) by (rewrite HSY, nth_replace_eq; auto).
    pose proof (rank_pos A n HA Hn) as Hr0. fold r in Hr0.
    assert (HSN : spectral_norm (slice_gram Y n) L).
    { subst L. apply HS; [apply is_mat_mgen|]. unfold slice_gram. cbn. rewrite EY. repeat constructor; auto. }
    assert (HQ : forall x : nat -> R, sumn r (fun p => x p * sumn r (fun q => mget (slice_gram Y n) p q * x q)) <= L * sumn r (fun p => (x p)²)).
    { intros x. destruct HSN as (H1 & H2 & _). pose proof (norm_bound_quad (slice_gram Y n) L x H1 eq_refl H2) as Q.
      change (nrows (slice_gram Y n)) with (nth n (shp Y) 0%nat) in Q. change (ncols (slice_gram Y n)) with (nth n (shp Y) 0%nat) in Q. rewrite EY in Q. rewrite <- !(sumn_bigsum RLR) in Q.
      eapply Rle_trans; [|exact Q]. right. apply sumnR_ext. intros p _. f_equal. apply (sumn_bigsum RLR). }
    assert (Hf : forall C, is_mat C (I n) r -> f C = / 2 * fro (I n) J (fun i j => mget Xm i j - mm r (mget C) (tr (tr (mget B))) i j)).
    { intros C HC. unfold f. rewrite (tucker_last g A n C HA Hg Hn HC). fold Y. destruct (matrix_is_mat _ _ _ HC) as (_ & HCr & HCc).
      set (Z := mode_product Y C n). assert (HZ : shp Z = shp X).
      { unfold Z. change (replace n (nrows C) (shp Y) = shp X). rewrite HSY, replace_replace, HCr. apply replace_nth. }
      assert (HnY : (n < ndims Y)%nat) by (unfold ndims; rewrite HSY, replace_length; exact Hn).
      destruct (unfold_ok Z n) as (Zm & EZ & _); [unfold ndims; rewrite HZ; exact Hn|rewrite HZ; apply dim_pos; exact Hn|].
      pose proof (mp_unfold Y C B Zm n HnY ltac:(rewrite EY; exact Hr0) ltac:(rewrite HCr; apply dim_pos; exact Hn) ltac:(rewrite EY; exact HCc) EB EZ) as HM.
      rewrite sqdist_expand by auto. rewrite (sqlen_unfold X Xm n Hn (dim_pos n Hn) EX).
      rewrite (sqlen_unfold Z Zm n) by (first [unfold ndims; rewrite HZ; exact Hn | rewrite HZ; apply dim_pos; exact Hn | exact EZ]).
      rewrite (tdot_unfold X Z Xm Zm n Hn (dim_pos n Hn) HZ EX EZ). rewrite HZ. fold (I n) J.
      rewrite HCr, EY in HM. replace (rest n (shp Y)) with J in HM by (rewrite HSY, rest_replace; reflexivity).
      f_equal. rewrite (fro_ext (I n) J (fun i j => mget Xm i j - mm r (mget C) (tr (tr (mget B))) i j) (fun i j => mget Xm i j - mget Zm i j)).
      - rewrite fro_sub. reflexivity.
      - intros i j Hi Hj. change (tr (tr (mget B))) with (mget B). rewrite (HM i j Hi Hj). reflexivity. }
    assert (Hnew : forall i q, (i < I n)%nat -> (q < r)%nat -> mget (nt_new g A Am L n) i q =
       Rmax 0 (mget Am i q - (sumn r (fun p => mget Am i p * mget (slice_gram Y n) p q) - nt_XB g A n i q) / L)).
    { intros i q Hi Hq. unfold nt_new. rewrite mget_mgen by auto. reflexivity. }
    assert (HV' : meq r r (mget (slice_gram Y n)) (mm J (tr (tr (mget B))) (tr (mget B)))) by (intros p q Hp Hq; symmetry; apply HV; auto).
    assert (HW' : meq (I n) r (nt_XB g A n) (mm J (mget Xm) (tr (mget B)))) by (intros i q Hi Hq; symmetry; apply HW; auto).
    split; [exact HSN|]. split.
    - exact (mat_projected (I n) J r (mget Xm) (tr (mget B)) _ _ L f Am _ HV' HW' HAm Hf (nt_new_mat g A Am L n) Hnew).
    - intros HL. apply (mat_descends (I n) J r (mget Xm) (tr (mget B)) _ _ L f Am _ HV' HW' HQ HAm Hf (nt_new_mat g A Am L n) Hnew).
      destruct HSN as (H1 & _). lra.
  Qed.
End Runs.
