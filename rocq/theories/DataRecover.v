(** HOSVD and HOOI on the synthetic data (C79): the data are an exact model plus clipped noise,
    so the quasi-optimality bounds of QuasiOpt.v apply with the noise as the competitor's error. *)

From Coq Require Import ZArith List Bool Arith Lia Reals Lra Psatz.
From Verif Require Import Num Py Tensor TF TensorFacts TFFacts Sums Ops OpsLemmas Types Loss Fact Train Spec SpecR LayoutFacts SpecFacts MulFacts TtmFacts SkipFacts TtmLemmas Matricize
  KronFacts RSums MatR KronAlg NormFacts SpecTucker MultiR SvdFacts TuckerFacts TuckerRun TuckerLemmas SpecTypes TypeFacts SpecCp SpecBcu BcuFacts SpecTrain TrainLemmas CpFacts AlsFacts AlsLemmas
  SpecProx Prox NcpFacts NcpLemmas NtFacts NtLemmas DataGen DataFacts TrainFacts SvdExists Exact QuasiOpt SpecData.
Import ListNotations.
Local Open Scope R_scope.

Lemma clip0_positive (t : tensor R) : wf t -> clip0 t = positive_part t.
Proof.
  intros H. unfold clip0, positive_part. apply tensor_ext; [apply wf_map; exact H|apply wf_gen|reflexivity|]. intros idx Hv. cbn [shp tf_map] in Hv.
  rewrite get_gen by exact Hv. rewrite get_map by auto. apply nmax_R.
Qed.

Section Kruskal.
  Variables (r : nat) (lam : tensor R).
  (** a Kruskal tensor is a Tucker tensor with a superdiagonal core *)
  Definition diagonal (n : nat) : tensor R :=
    gen (repeat r n) (fun j => if forallb (Nat.eqb (nth 0 j 0%nat)) j then mget lam (nth 0 j 0%nat) 0 else 0).

  Lemma forallb_repeat p j : forallb (Nat.eqb p) j = true -> j = repeat p (length j).
  Proof. induction j as [|q j IH]; intros H; [reflexivity|]. cbn in H. apply andb_prop in H as [H1 H2]. apply Nat.eqb_eq in H1. subst q. cbn. f_equal. auto. Qed.
  Lemma forallb_repeat' p n : forallb (Nat.eqb p) (repeat p n) = true.
  Proof. induction n as [|n IH]; cbn; auto. rewrite Nat.eqb_refl. exact IH. Qed.
  Lemma valid_repeat p n : (p < r)%nat -> valid (repeat r n) (repeat p n).
  Proof. intros H. induction n; cbn; constructor; auto. Qed.

  Lemma cp_as_tucker (U : list (tensor R)) : U <> [] -> cp_tensor r lam U = tucker_tensor (diagonal (length U)) U.
  Proof.
    intros HU. unfold cp_tensor, tucker_tensor. apply gen_ext. intros idx Hv. unfold diagonal at 1. cbn [shp gen].
    rewrite <- (isum_msum RLR), <- (sumn_bigsum RLR). destruct (length U) as [|n] eqn:EL; [destruct U; [contradiction|discriminate]|].
    cbn [repeat]. rewrite (isum_cons RLR). apply sumn_ext. intros p Hp. symmetry.
    rewrite (isumR_single (repeat r n) _ (repeat p n)).
    - unfold diagonal. rewrite get_gen by (apply (valid_repeat p (S n) Hp)). cbn [nth]. change (p :: repeat p n) with (repeat p (S n)) at 1.
      rewrite forallb_repeat'. Rn. f_equal. apply (bigprod_ext). intros k Hk. f_equal.
      refine (repeat_spec (S n) p (nth k (repeat p (S n)) 0%nat) (nth_In _ _ _)). rewrite repeat_length. exact Hk.
    - apply valid_repeat, Hp.
    - intros j Hj Hne. unfold diagonal. rewrite get_gen by (cbn [repeat]; constructor; auto). cbn [nth forallb]. rewrite Nat.eqb_refl. cbn [andb].
      destruct (forallb (Nat.eqb p) j) eqn:E; [|Rn; ring]. exfalso. apply Hne. apply forallb_repeat in E. rewrite E. f_equal.
      apply valid_length in Hj. rewrite repeat_length in Hj. exact Hj.
  Qed.

  Lemma diagonal_core n : core_like (repeat r n) (diagonal n).
  Proof. split; [apply wf_gen|reflexivity]. Qed.
End Kruskal.

(** ** the data are the model plus the clipped noise *)
Lemma noise_get mn (randn : tensor R) idx : wf randn -> valid (shp randn) idx -> get (noise_of mn randn) idx = Rmax 0 (mn * get randn idx).
Proof. intros H Hv. unfold noise_of. rewrite get_map by auto. apply nmax_R. Qed.

Lemma noisy (M randn t : tensor R) mn : wf randn -> shp randn = shp M -> tf_bin nadd M (noise_of mn randn) = Ok t ->
  t = gen (shp M) (fun idx => get M idx + Rmax 0 (mn * get randn idx)).
Proof.
  intros Hw Hs E. rewrite bin_same in E by (cbn; congruence). injection E as <-. apply gen_ext. intros idx Hv. Rn. f_equal. apply noise_get; [exact Hw|]. rewrite Hs. exact Hv.
Qed.

Lemma is_mat_positive (t : tensor R) a b : is_mat t a b -> is_mat (positive_part t) a b.
Proof. intros [H1 H2]. split; [apply wf_gen|exact H2]. Qed.

Lemma drawn_nth n rand k : (k < n)%nat -> mat_at (drawn n rand) k = positive_part (rand k).
Proof. intros H. unfold mat_at, drawn. rewrite nth_map_seq by exact H. reflexivity. Qed.
Lemma drawn_length n rand : length (drawn n rand) = n.
Proof. unfold drawn. rewrite map_length, seq_length. reflexivity. Qed.

Lemma drawn_shape N_list rand (c : nat -> nat) : (forall k, (k < length N_list)%nat -> is_mat (rand k) (nth k N_list 0%nat) (c k)) ->
  map nrows (drawn (length N_list) rand) = N_list.
Proof.
  intros H. unfold drawn. rewrite map_map. rewrite <- (map_seq_nth N_list) at 2. apply map_ext_in. intros k Hk. apply in_seq in Hk.
  unfold nrows. cbn [shp positive_part gen]. destruct (H k ltac:(lia)) as [_ ->]. reflexivity.
Qed.

Lemma tucker_data N_list rk (randg : tensor R) rand randn mn X : N_list <> [] -> (length N_list <= 13)%nat -> tucker_draws N_list rk randg rand randn ->
  synthetic_data_tucker N_list randg rand randn mn = Ok X ->
  X = gen N_list (fun idx => get (tucker_tensor (positive_part randg) (drawn (length N_list) rand)) idx + Rmax 0 (mn * get randn idx)).
Proof.
  intros Hne Hl (Hwg & Hsg & Hlr & Hm & Hwr & Hr) E. unfold synthetic_data_tucker in E.
  set (U := map (fun ii => mkArr NP F64 (clip0 (rand ii))) (seq 0 (length N_list))) in E.
  assert (HUl : length U = length N_list) by (unfold U; rewrite map_length, seq_length; reflexivity).
  assert (HUt : map a_t U = drawn (length N_list) rand).
  { unfold U, drawn. rewrite map_map. apply map_ext_in. intros k Hk. apply in_seq in Hk. cbn [a_t]. apply clip0_positive. apply (Hm k). lia. }
  rewrite (c28 RLR (mkArr NP F64 (clip0 randg)) U F64) in E.
  - cbn [bind snd a_t] in E. rewrite HUt, clip0_positive in E by exact Hwg.
    assert (Es : shp (tucker_tensor (positive_part randg) (drawn (length N_list) rand)) = N_list) by (cbn [shp tucker_tensor gen]; apply (drawn_shape _ _ (fun k => nth k rk 0%nat)); exact Hm).
    apply noisy in E; [|exact Hwr|congruence]. rewrite Es in E. exact E.
  - intros E'. apply Hne. apply length_zero_iff_nil. rewrite <- HUl, E'. reflexivity.
  - reflexivity.
  - intros a Ha. unfold U in Ha. apply in_map_iff in Ha. destruct Ha as (ii & <- & _). reflexivity.
  - left. intros a Ha. unfold U in Ha. apply in_map_iff in Ha. destruct Ha as (ii & <- & _). reflexivity.
  - apply wf_map. exact Hwg.
  - unfold ndims, clip0, tf_map. cbn [a_t shp]. rewrite Hsg, Hlr. auto.
  - unfold ndims, clip0, tf_map. cbn [a_t shp]. rewrite ?Hsg, ?Hlr, ?HUl. auto.
  - intros k Hk. rewrite HUl in Hk. rewrite HUt, drawn_nth by exact Hk. unfold ndims, clip0, tf_map. cbn [a_t shp]. rewrite Hsg.
    destruct (matrix_is_mat _ _ _ (is_mat_positive _ _ _ (Hm k Hk))) as (H1 & H2 & H3). split; [exact H1|exact H3].
Qed.

Lemma cp_data (cast : dtype -> R -> R) N_list r rand randn mn X : N_list <> [] -> cp_draws N_list r rand randn ->
  synthetic_data_cp cast N_list rand randn mn = Ok X ->
  X = gen N_list (fun idx => get (cp_tensor r (ones r) (map (tf_map (cast F32)) (drawn (length N_list) rand))) idx + Rmax 0 (mn * get randn idx)).
Proof.
  intros Hne (Hm & Hwr & Hr) E. unfold synthetic_data_cp in E.
  set (U := map (fun ii => mkArr NP F64 (clip0 (rand ii))) (seq 0 (length N_list))) in E.
  assert (HUl : length U = length N_list) by (unfold U; rewrite map_length, seq_length; reflexivity).
  assert (HUt : map (fun a => tf_map (cast F32) (a_t a)) U = map (tf_map (cast F32)) (drawn (length N_list) rand)).
  { unfold U, drawn. rewrite !map_map. apply map_ext_in. intros k Hk. apply in_seq in Hk. cbn [a_t]. f_equal. apply clip0_positive. apply (Hm k). lia. }
  destruct (c25_np cast RLR U None r) as (k & E1 & E2).
  - intros E'. apply Hne. apply length_zero_iff_nil. rewrite <- HUl, E'. reflexivity.
  - intros a Ha. unfold U in Ha. apply in_map_iff in Ha. destruct Ha as (ii & <- & _). reflexivity.
  - intros a Ha. unfold U in Ha. apply in_map_iff in Ha. destruct Ha as (ii & <- & Hii). apply in_seq in Hii. cbn [a_t].
    rewrite clip0_positive by (apply (Hm ii); lia). destruct (matrix_is_mat _ _ _ (is_mat_positive _ _ _ (Hm ii ltac:(lia)))) as (H1 & H2 & H3). split; [exact H1|exact H3].
  - reflexivity.
  - rewrite E1 in E. cbn [bind] in E. rewrite E2 in E. destruct (Nat.ltb 25 (length U)); [discriminate|]. cbn [bind snd] in E. rewrite HUt in E.
    assert (Es : shp (cp_tensor r (weights_column r None) (map (tf_map (cast F32)) (drawn (length N_list) rand))) = N_list).
    { cbn [shp cp_tensor gen]. rewrite map_map. rewrite <- (drawn_shape N_list rand (fun _ => r) Hm) at 2. reflexivity. }
    apply noisy in E; [|exact Hwr|congruence]. rewrite Es in E. exact E.
Qed.

(** the distance of the data to the model is the energy of the noise *)
Lemma noise_dist N_list (M randn X : tensor R) mn : shp randn = N_list -> X = gen N_list (fun idx => get M idx + Rmax 0 (mn * get randn idx)) ->
  sqdist X M = noise_energy mn randn.
Proof.
  intros Hs ->. unfold sqdist, noise_energy. cbn [shp gen]. rewrite Hs, <- !(isum_msum RLR). apply isum_ext. intros i Hi. rewrite get_gen by exact Hi. f_equal. ring.
Qed.

Lemma noise_energy_0 (randn : tensor R) : noise_energy 0 randn = 0.
Proof.
  unfold noise_energy. rewrite <- (isum_msum RLR). transitivity (isum (shp randn) (fun _ : list nat => (n0 : R))); [|apply (isum_zero RLR); reflexivity].
  apply isum_ext. intros i _. rewrite Rmult_0_l, Rmax_left by lra. apply Rsqr_0.
Qed.
Lemma no_noise N_list (M randn X : tensor R) : wf M -> shp M = N_list -> X = gen N_list (fun idx => get M idx + Rmax 0 (0 * get randn idx)) -> X = M.
Proof.
  intros H <- ->. apply tensor_ext; [apply wf_gen|exact H|reflexivity|]. intros idx Hv. cbn [shp gen] in Hv. rewrite get_gen by exact Hv. rewrite Rmult_0_l, Rmax_left by lra. ring.
Qed.

Section Data.
  Variables (N_list : list nat) (X : tensor R) (rk : list nat) (g : tensor R) (B : list (tensor R)) (randn : tensor R) (mn : R).
  Hypothesis HX : X = gen N_list (fun idx => get (tucker_tensor g B) idx + Rmax 0 (mn * get randn idx)).
  Hypothesis Hr : shp randn = N_list.
  Hypothesis HB : tucker_factors X rk B.
  Hypothesis Hg : core_like rk g.
  Hypothesis Hne : nonempty N_list.

  Lemma data_wf : wf X. Proof. rewrite HX. apply wf_gen. Qed.
  Lemma data_shp : shp X = N_list. Proof. rewrite HX. reflexivity. Qed.

  Lemma data_hosvd svdU ranks w o r n o' h id : left_svd svdU -> (0 < length N_list <= 13)%nat -> (length N_list <= length ranks)%nat ->
    (forall k, (k < length N_list)%nat -> (nth k rk 0 <= nth k ranks 0)%nat) ->
    o_built o = Some (map Z.of_nat ranks, id) -> hosvd_train svdU X w o r n = (o', Ok h) ->
    exists F, p_full (o_pub o') = Some F /\ sqdist X F <= INR (length N_list) * noise_energy mn randn /\ (mn = 0 -> F = X).
  Proof.
    intros HS Ho Hl Hk Hb E. pose proof data_wf as W. pose proof data_shp as Es. assert (En : ndims X = length N_list) by (unfold ndims; rewrite Es; reflexivity).
    destruct (hosvd_published _ _ _ _ _ _ _ _ _ _ Hb E) as (q & Eq & P1). exists (tu_full q). split; [exact P1|].
    assert (D : sqdist X (tu_full q) <= INR (length N_list) * noise_energy mn randn).
    { rewrite <- (noise_dist N_list _ randn X mn Hr HX), <- En. apply (hosvd_quasi svdU X ranks rk q g B); auto; rewrite ?Es, ?En; auto. }
    split; [exact D|]. intros Hmn. rewrite Hmn in D, HX. rewrite noise_energy_0 in D.
    apply (hosvd_recovers svdU X ranks rk q g B); auto; rewrite ?Es, ?En; auto. apply (no_noise N_list _ randn); auto.
    - apply wf_gen.
    - assert (Z : shp (tucker_tensor g B) = shp X); [|congruence]. cbn [shp tucker_tensor gen]. destruct HB as (L1 & _ & H).
      apply nth_ext with (d := 0%nat) (d' := 0%nat); [rewrite map_length; exact L1|]. rewrite map_length. intros k Hk'.
      rewrite (nth_map_lt nrows _ _ (mkT [] [])) by exact Hk'. destruct (matrix_is_mat _ _ _ (H k ltac:(lia))) as (_ & H2 & _). exact H2.
  Qed.

  Lemma data_hooi svdU ranks w o r n o' h args id : left_svd svdU -> nonempty ranks -> length ranks = length N_list ->
    (forall k, (k < length N_list)%nat -> (nth k rk 0 <= nth k ranks 0)%nat) ->
    o_built o = Some ((args, map Z.of_nat ranks), id) -> hooi_train svdU X w o r n = (o', Ok h) ->
    exists F, p_full (o_pub o') = Some F /\ sqdist X F <= INR (length N_list) * noise_energy mn randn /\ 
      (mn = 0 -> F = X /\ (0 < a_tol args -> (exists i, valid N_list i /\ get X i <> 0) -> h = [(0, 0)])).
  Proof.
    intros HS Hrk Hl Hk Hb E. pose proof data_wf as W. pose proof data_shp as Es. assert (En : ndims X = length N_list) by (unfold ndims; rewrite Es; reflexivity).
    assert (D : exists F, p_full (o_pub o') = Some F /\ sqdist X F <= INR (length N_list) * noise_energy mn randn).
    { rewrite <- (noise_dist N_list _ randn X mn Hr HX), <- En. apply (c76_hooi_train svdU X ranks rk g B w o r n o' h args id); auto; rewrite ?Es, ?En; auto. }
    destruct D as (F & P1 & D). exists F. split; [exact P1|]. split; [exact D|]. intros Hmn. rewrite Hmn in D, HX. rewrite noise_energy_0 in D.
    assert (EX : X = tucker_tensor g B).
    { apply (no_noise N_list _ randn); auto; [apply wf_gen|].
      assert (Z : shp (tucker_tensor g B) = shp X); [|congruence]. cbn [shp tucker_tensor gen]. destruct HB as (L1 & _ & H).
      apply nth_ext with (d := 0%nat) (d' := 0%nat); [rewrite map_length; exact L1|]. rewrite map_length. intros k Hk'.
      rewrite (nth_map_lt nrows _ _ (mkT [] [])) by exact Hk'. destruct (matrix_is_mat _ _ _ (H k ltac:(lia))) as (_ & H2 & _). exact H2. }
    split.
    - destruct (hooi_published _ _ _ _ _ _ _ _ _ _ _ Hb E) as (A0 & os & ob & Hi & Hrn & Hin & P2 & _). rewrite P1 in P2. injection P2 as ->.
      apply (hooi_recovers svdU X ranks rk A0 os g B); auto; rewrite ?Es, ?En; auto.
    - intros Ht Hnz. apply (hooi_recovers_train svdU X ranks rk g B w o r n o' h args id); auto; rewrite ?Es, ?En; auto.
  Qed.
End Data.

(** ** the two generators *)
Lemma tucker_draws_factors N_list rk randg rand randn X : tucker_draws N_list rk randg rand randn -> shp X = N_list ->
  tucker_factors X rk (drawn (length N_list) rand) /\ core_like rk (positive_part randg).
Proof.
  intros (Hwg & Hsg & Hlr & Hm & Hwr & Hr) Es. unfold tucker_factors, ndims. rewrite Es, drawn_length. split; [|split; [apply wf_gen|exact Hsg]].
  split; [reflexivity|]. split; [exact Hlr|]. intros k Hk. rewrite drawn_nth by exact Hk. apply is_mat_positive, Hm, Hk.
Qed.

Lemma is_mat_map f (t : tensor R) a b : is_mat t a b -> is_mat (tf_map f t) a b.
Proof. intros [H1 H2]. split; [apply wf_map; exact H1|exact H2]. Qed.

Lemma cp_draws_factors cast N_list r rand randn (X : tensor R) : cp_draws N_list r rand randn -> shp X = N_list ->
  tucker_factors X (repeat r (length N_list)) (map (tf_map (cast F32)) (drawn (length N_list) rand)).
Proof.
  intros (Hm & Hwr & Hr) Es. unfold tucker_factors, ndims. rewrite Es, map_length, drawn_length, repeat_length. split; [reflexivity|]. split; [reflexivity|].
  intros k Hk. unfold mat_at. rewrite (nth_map_lt (tf_map (cast F32)) _ _ (mkT [] [])) by (rewrite drawn_length; exact Hk). fold (mat_at (drawn (length N_list) rand) k).
  rewrite drawn_nth by exact Hk. rewrite (repeat_spec (length N_list) r (nth k (repeat r (length N_list)) 0%nat)) by (apply nth_In; rewrite repeat_length; exact Hk).
  apply is_mat_map, is_mat_positive, Hm, Hk.
Qed.

Lemma c79_hosvd_tucker svdU N_list rk randg rand randn mn X ranks w o r n o' h id : left_svd svdU -> nonempty N_list -> (0 < length N_list <= 13)%nat ->
  tucker_draws N_list rk randg rand randn -> synthetic_data_tucker N_list randg rand randn mn = Ok X ->
  (length N_list <= length ranks)%nat -> (forall k, (k < length N_list)%nat -> (nth k rk 0 <= nth k ranks 0)%nat) ->
  o_built o = Some (map Z.of_nat ranks, id) -> hosvd_train svdU X w o r n = (o', Ok h) ->
  exists F, p_full (o_pub o') = Some F /\ sqdist X F <= INR (length N_list) * noise_energy mn randn /\ (mn = 0 -> F = X).
Proof.
  intros HS Hne Ho Hd E Hl Hk Hb T. assert (Hnn : N_list <> []) by (intros ->; cbn in Ho; lia).
  pose proof (tucker_data N_list rk randg rand randn mn X Hnn (proj2 Ho) Hd E) as HX.
  assert (Es : shp X = N_list) by (rewrite HX; reflexivity). destruct (tucker_draws_factors _ _ _ _ _ X Hd Es) as [HB Hg].
  apply (data_hosvd N_list X rk _ _ randn mn HX (proj2 (proj2 (proj2 (proj2 (proj2 Hd))))) HB Hg Hne svdU ranks w o r n o' h id); auto.
Qed.

Lemma hooi_train_order svdU (X : tensor R) w o r n o' h args ranks id : o_built o = Some ((args, ranks), id) -> hooi_train svdU X w o r n = (o', Ok h) -> (2 <= ndims X <= 13)%nat.
Proof.
  intros Hb E. destruct (hooi_published _ _ _ _ _ _ _ _ _ _ _ Hb E) as (A0 & os & ob & Hi & Hr & Hin & _). unfold hooi_init in Hi. apply mapM_length in Hi. rewrite zrange_length in Hi.
  apply (hooi_run_order svdU X ranks A0 os 0); auto. destruct os; [destruct Hin|cbn; lia].
Qed.

Lemma bshape_rev_longer a : forall b c, bshape_rev a b = Some c -> (length b <= length c)%nat.
Proof.
  induction a as [|x a IH]; intros b c E; [injection E as <-; lia|]. destruct b as [|y b]; [injection E as <-; cbn; lia|]. cbn [bshape_rev] in E.
  destruct (bshape_rev a b) as [q|] eqn:Eq; [|discriminate]. apply IH in Eq. destruct (Nat.eqb x y); [injection E as <-; cbn; lia|].
  destruct (Nat.eqb x 1); [injection E as <-; cbn; lia|]. destruct (Nat.eqb y 1); [injection E as <-; cbn; lia|discriminate].
Qed.
Lemma bin_longer op (A B t : tensor R) : tf_bin op A B = Ok t -> (ndims B <= ndims t)%nat.
Proof.
  unfold tf_bin, bshape. destruct (bshape_rev (rev (shp A)) (rev (shp B))) as [c|] eqn:E; [|discriminate]. cbn [option_map]. intros H. injection H as <-.
  apply bshape_rev_longer in E. rewrite rev_length in E. unfold ndims. cbn [shp gen]. rewrite rev_length. exact E.
Qed.

Lemma c79_hooi_tucker svdU N_list rk randg rand randn mn X ranks w o r n o' h args id : left_svd svdU -> nonempty N_list -> N_list <> [] ->
  tucker_draws N_list rk randg rand randn -> synthetic_data_tucker N_list randg rand randn mn = Ok X -> nonempty ranks ->
  length ranks = length N_list -> (forall k, (k < length N_list)%nat -> (nth k rk 0 <= nth k ranks 0)%nat) ->
  o_built o = Some ((args, map Z.of_nat ranks), id) -> hooi_train svdU X w o r n = (o', Ok h) ->
  exists F, p_full (o_pub o') = Some F /\ sqdist X F <= INR (length N_list) * noise_energy mn randn /\
    (mn = 0 -> F = X /\ (0 < a_tol args -> (exists i, valid N_list i /\ get X i <> 0) -> h = [(0, 0)])).
Proof.
  intros HS Hne Hnn Hd E Hrk Hl Hk Hb T. pose proof (proj2 (proj2 (proj2 (proj2 (proj2 Hd))))) as Hr.
  assert (Ho : (length N_list <= 13)%nat).
  { pose proof (hooi_train_order _ _ _ _ _ _ _ _ _ _ _ Hb T) as Ho. unfold synthetic_data_tucker in E. apply bind_ok in E as (q & _ & E). apply bin_longer in E.
    unfold ndims in E at 1. cbn [noise_of tf_map shp] in E. rewrite Hr in E. lia. }
  pose proof (tucker_data N_list rk randg rand randn mn X Hnn Ho Hd E) as HX.
  assert (Es : shp X = N_list) by (rewrite HX; reflexivity). destruct (tucker_draws_factors _ _ _ _ _ X Hd Es) as [HB Hg].
  apply (data_hooi N_list X rk _ _ randn mn HX Hr HB Hg Hne svdU ranks w o r n o' h args id); auto.
Qed.

Lemma cp_data_tucker cast N_list r rand randn mn X : N_list <> [] -> cp_draws N_list r rand randn -> synthetic_data_cp cast N_list rand randn mn = Ok X ->
  X = gen N_list (fun idx => get (tucker_tensor (diagonal r (ones r) (length N_list)) (map (tf_map (cast F32)) (drawn (length N_list) rand))) idx + Rmax 0 (mn * get randn idx)).
Proof.
  intros Hnn Hd E. pose proof (cp_data cast N_list r rand randn mn X Hnn Hd E) as HX. rewrite cp_as_tucker in HX.
  - rewrite map_length, drawn_length in HX. exact HX.
  - intros H. apply (f_equal (@length _)) in H. rewrite map_length, drawn_length in H. apply Hnn, length_zero_iff_nil, H.
Qed.

Lemma c79_hosvd_cp cast svdU N_list c rand randn mn X ranks w o r n o' h id : left_svd svdU -> nonempty N_list -> (0 < length N_list <= 13)%nat ->
  cp_draws N_list c rand randn -> synthetic_data_cp cast N_list rand randn mn = Ok X ->
  (length N_list <= length ranks)%nat -> (forall k, (k < length N_list)%nat -> (c <= nth k ranks 0)%nat) ->
  o_built o = Some (map Z.of_nat ranks, id) -> hosvd_train svdU X w o r n = (o', Ok h) ->
  exists F, p_full (o_pub o') = Some F /\ sqdist X F <= INR (length N_list) * noise_energy mn randn /\ (mn = 0 -> F = X).
Proof.
  intros HS Hne Ho Hd E Hl Hk Hb T. assert (Hnn : N_list <> []) by (intros ->; cbn in Ho; lia).
  pose proof (cp_data_tucker cast N_list c rand randn mn X Hnn Hd E) as HX.
  assert (Es : shp X = N_list) by (rewrite HX; reflexivity). pose proof (cp_draws_factors cast _ _ _ _ X Hd Es) as HB.
  apply (data_hosvd N_list X _ _ _ randn mn HX (proj2 (proj2 Hd)) HB (diagonal_core c (ones c) _) Hne svdU ranks w o r n o' h id); auto.
  intros k Hk'. rewrite (repeat_spec (length N_list) c (nth k (repeat c (length N_list)) 0%nat)) by (apply nth_In; rewrite repeat_length; exact Hk'). auto.
Qed.

Lemma c79_hooi_cp cast svdU N_list c rand randn mn X ranks w o r n o' h args id : left_svd svdU -> nonempty N_list -> N_list <> [] ->
  cp_draws N_list c rand randn -> synthetic_data_cp cast N_list rand randn mn = Ok X -> nonempty ranks ->
  length ranks = length N_list -> (forall k, (k < length N_list)%nat -> (c <= nth k ranks 0)%nat) ->
  o_built o = Some ((args, map Z.of_nat ranks), id) -> hooi_train svdU X w o r n = (o', Ok h) ->
  exists F, p_full (o_pub o') = Some F /\ sqdist X F <= INR (length N_list) * noise_energy mn randn /\
    (mn = 0 -> F = X /\ (0 < a_tol args -> (exists i, valid N_list i /\ get X i <> 0) -> h = [(0, 0)])).
Proof.
  intros HS Hne Hnn Hd E Hrk Hl Hk Hb T. pose proof (cp_data_tucker cast N_list c rand randn mn X Hnn Hd E) as HX.
  assert (Es : shp X = N_list) by (rewrite HX; reflexivity). pose proof (cp_draws_factors cast _ _ _ _ X Hd Es) as HB.
  apply (data_hooi N_list X _ _ _ randn mn HX (proj2 (proj2 Hd)) HB (diagonal_core c (ones c) _) Hne svdU ranks w o r n o' h args id); auto.
  intros k Hk'. rewrite (repeat_spec (length N_list) c (nth k (repeat c (length N_list)) 0%nat)) by (apply nth_In; rewrite repeat_length; exact Hk'). auto.
Qed.
