(** The examples of the guides (docs/source) and docstrings (C100). *)

From Coq Require Import ZArith List Bool Arith Lia Permutation.
From Verif Require Import Num Py Tensor TF TensorFacts TFFacts Sums Spec SpecFacts Ops Types OpsLemmas SpecTypes PropsLayout PropsOps PropsTtm PropsTypes TestFacts.
Import ListNotations.

Section F.
  Context {T : Type} {N : Num T}.

  (** guide_basic_ops.rst:50-74 *)
  Lemma doc_star (A B : tensor T) : shp A = shp B ->
    snd (dcall_exec (dtensor_init A) (CMulE (OD (dtensor_init B)))) = hadamard [A; B] SkNone.
  Proof. intros H. cbn [dcall_exec snd operand_val d_T dtensor_init]. unfold hadamard. cbn [skip_ py_reduce reduceM]. destruct (tf_bin nmul A B); reflexivity. Qed.

  (** guide_basic_ops.rst:575-579: axis=range(N) is the default *)
  Lemma doc_ttm_range (X : tensor T) (l : list (tensor T)) tr : ttm X l (Some (zrange (length l))) tr SkNone = ttm X l None tr SkNone.
  Proof. reflexivity. Qed.

  (** guide_basic_ops.rst:519 *)
  Lemma doc_kolda (t : tensor T) : ndims t = 3 -> nth 1 (shp t) 0 <> 0 -> t2mat t (AInt 1) (AList [2; 0]%Z) = unfold t 1.
  Proof. intros H Hz. pose proof (C06_unfold_is_t2mat T N t 1 ltac:(lia) Hz) as E. rewrite H in E. exact E. Qed.

  Hypothesis RL : RingLaws T.

  (** guide_basic_ops.rst:603-612 *)
  Lemma doc_mul_00 (X Y : tensor T) I J K : shp X = I ++ J -> shp Y = I ++ K ->
    exists Z, mul X Y (AList (map Z.of_nat (seq 0 (length I)))) (AList (map Z.of_nat (seq 0 (length I)))) = Ok Z /\ wf Z /\ shp Z = J ++ K /\
      forall j k, valid J j -> valid K k -> get Z (j ++ k) = msum I (fun i => nmul (get X (i ++ j)) (get Y (i ++ k))).
  Proof.
    intros SX SY.

    assert (PS : forall l : list nat, pick (seq 0 (length l)) l = l).
    { intros l. apply nth_ext with (d := 0) (d' := 0); unfold pick; [rewrite map_length, seq_length; reflexivity|]. intros n Hn. rewrite map_length, seq_length in Hn.
      rewrite (nth_indep _ 0 (nth 0 l 0)) by (rewrite map_length, seq_length; exact Hn). rewrite (map_nth (fun a => nth a l 0)), seq_nth by exact Hn. reflexivity. }
    assert (PA : forall l : list nat, forall L, pick (seq 0 (length l)) (l ++ L) = l).
    { intros l L. rewrite <- (PS l) at 3. unfold pick. apply map_ext_in. intros a Ha. apply in_seq in Ha. apply app_nth1. lia. }
    assert (PB : forall l L : list nat, pick (seq (length l) (length L)) (l ++ L) = L).
    { intros l L. apply nth_ext with (d := 0) (d' := 0); unfold pick; [rewrite map_length, seq_length; reflexivity|]. intros n Hn. rewrite map_length, seq_length in Hn.
      rewrite (nth_indep _ 0 (nth 0 (l ++ L) 0)) by (rewrite map_length, seq_length; exact Hn). rewrite (map_nth (fun a => nth a (l ++ L) 0)), seq_nth by exact Hn.
      rewrite app_nth2 by lia. f_equal. lia. }
    assert (F : forall L : list nat, free_axes (seq 0 (length I)) (length (I ++ L)) = seq (length I) (length L)).
    { intros L. unfold free_axes. rewrite app_length, seq_app. cbn [Nat.add]. rewrite filter_app.
      assert (E0 : forall x, existsb (Nat.eqb x) (seq 0 (length I)) = (x <? length I)).
      { intros x. apply eq_true_iff_eq. rewrite existsb_exists, Nat.ltb_lt. split.
        - intros (y & Hy & E). apply in_seq in Hy. apply Nat.eqb_eq in E. lia.
        - intros H. exists x. split; [apply in_seq; lia|apply Nat.eqb_refl]. }
      assert (E1 : forall l, (forall x, In x l -> x < length I) -> filter (fun a => negb (existsb (Nat.eqb a) (seq 0 (length I)))) l = []).
      { induction l as [|x l IH]; intros H; [reflexivity|]. cbn [filter]. rewrite E0. rewrite (proj2 (Nat.ltb_lt _ _)) by (apply H; left; reflexivity).
        cbn [negb]. apply IH. intros; apply H; right; assumption. }
      assert (E2 : forall l, (forall x, In x l -> length I <= x) -> filter (fun a => negb (existsb (Nat.eqb a) (seq 0 (length I)))) l = l).
      { induction l as [|x l IH]; intros H; [reflexivity|]. cbn [filter]. rewrite E0. rewrite (proj2 (Nat.ltb_ge _ _)) by (apply H; left; reflexivity).
        cbn [negb]. f_equal. apply IH. intros; apply H; right; assumption. }
      rewrite E1 by (intros x Hx; apply in_seq in Hx; lia). rewrite E2 by (intros x Hx; apply in_seq in Hx; lia). reflexivity. }
    assert (M : forall L (i j : list nat), length i = length I -> length j = length L -> merge (length (I ++ L)) (seq 0 (length I)) i j = i ++ j).
    { intros L i j Hi Hj. destruct (C08_merge_spec (length (I ++ L)) (seq 0 (length I)) i j) as (M1 & M2 & M3).
      - apply seq_NoDup.
      - intros a Ha. apply in_seq in Ha. rewrite app_length. lia.
      - rewrite seq_length. exact Hi.
      - rewrite F, seq_length. exact Hj.
      - rewrite F in M3. set (m := merge _ _ _ _) in *. rewrite <- (PS m), M1, app_length, seq_app. unfold pick at 1. rewrite map_app. unfold pick in M2, M3. rewrite M2. cbn [Nat.add]. rewrite M3. reflexivity. }
    destruct (C08_mul_contraction T N RL X Y (seq 0 (length I)) (seq 0 (length I))) as (Zt & E & W & SZ & G).
    - apply seq_NoDup.
    - apply seq_NoDup.
    - intros x Hx. apply in_seq in Hx. unfold ndims. rewrite SX, app_length. lia.
    - intros x Hx. apply in_seq in Hx. unfold ndims. rewrite SY, app_length. lia.
    - rewrite SX, SY, !PA. reflexivity.
    - unfold ndims in SZ, G. rewrite SX, SY in SZ, G. rewrite !F, !PB in SZ. rewrite !F, !PB, !PA in G.
      exists Zt. split; [exact E|]. split; [exact W|]. split; [exact SZ|]. intros j k Hj Hk. rewrite (G j k Hj Hk).
      apply msum_ext. intros i Hi. rewrite !M; try reflexivity; apply valid_length in Hi; apply valid_length in Hj; apply valid_length in Hk; congruence.
  Qed.

  (** guide_basic_ops.rst:621-622 *)
  Lemma doc_mul_10 (A B : tensor T) m k n : is_mat A m k -> is_mat B k n -> mul A B (AInt 1) (AInt 0) = tf_matmul false false A B.
  Proof.
    intros HA HB. destruct (C09_mul_matrix_product_partial T N RL A B m k n HA HB) as (C & E & (m' & k' & n' & HA' & HB' & HC & G)).
    destruct HA as [WA SA], HB as [WB SB], HA' as [_ SA'], HB' as [_ SB']. rewrite SA in SA'. rewrite SB in SB'. injection SA' as <- <-. injection SB' as <-.
    rewrite E, (matmul_ok false false A B m k n) by assumption. f_equal. apply (mat_ext _ _ m n); [exact HC|split; [apply wf_gen|reflexivity]|].
    intros i j Hi Hj. rewrite G, mget_mgen by assumption. symmetry. apply sumn_bigsum, RL.
  Qed.
  Lemma doc_mul_01 (A B : tensor T) m k n : is_mat A k m -> is_mat B n k -> mul A B (AInt 0) (AInt 1) = tf_matmul true true A B.
  Proof.
    intros HA HB. destruct (C09_mul_01_is_transpose T N RL A B m k n HA HB) as (C & P & E & (m' & k' & n' & HB' & HA' & HP & G) & (r & c & HP' & HC & G')).
    destruct HA as [WA SA], HB as [WB SB], HA' as [_ SA'], HB' as [_ SB'], HP as [_ SP], HP' as [_ SP']. rewrite SA in SA'. rewrite SB in SB'. rewrite SP in SP'.
    injection SA' as <- <-. injection SB' as <-. injection SP' as <- <-.
    rewrite E, (matmul_ok true true A B m k n) by assumption. f_equal. apply (mat_ext _ _ m n); [exact HC|split; [apply wf_gen|reflexivity]|].
    intros i j Hi Hj. rewrite G', G, mget_mgen by assumption. rewrite sumn_bigsum by exact RL. apply bigsum_ext. intros l _. apply (Rmul_comm RL).
  Qed.

  (** ops.py:240-241 *)
  Lemma doc_mul_shapes (A B : tensor T) : shp A = [2; 3; 4; 5; 6] -> shp B = [1; 2; 3; 5; 7] ->
    (exists C, mul A B (AList [0; 1]%Z) (AList [1; 2]%Z) = Ok C /\ shp C = [4; 5; 6; 1; 5; 7]) /\
    (exists D, mul A B (AList [0; 1; 3]%Z) (AList [1; 2; 3]%Z) = Ok D /\ shp D = [4; 6; 1; 7]).
  Proof.
    intros SA SB. split.
    - destruct (C08_mul_contraction T N RL A B [0; 1] [1; 2]) as (C & E & _ & S' & _); unfold ndims; rewrite ?SA, ?SB; try reflexivity;
        try (repeat constructor; cbn; intuition discriminate); try (cbn; intros x [<-|[<-|[]]]; lia).
      exists C. split; [exact E|]. rewrite S'. unfold ndims. rewrite SA, SB. reflexivity.
    - destruct (C08_mul_contraction T N RL A B [0; 1; 3] [1; 2; 3]) as (C & E & _ & S' & _); unfold ndims; rewrite ?SA, ?SB; try reflexivity;
        try (repeat constructor; cbn; intuition discriminate); try (cbn; intros x [<-|[<-|[<-|[]]]]; lia).
      exists C. split; [exact E|]. rewrite S'. unfold ndims. rewrite SA, SB. reflexivity.
  Qed.

  (** guide_basic_ops.rst:199-216 *)
  Lemma doc_khatri_shapes (A B C D : tensor T) : is_mat A 3 4 -> is_mat B 2 4 -> is_mat C 4 4 -> is_mat D 5 4 ->
    (exists K, khatri [A; B; C; D] (SkList [2%Z]) false = Ok K /\ is_khatri [A; B; D] 4 K /\ shp K = [30; 4]) /\
    (exists K, khatri [A; B; C; D] SkNone true = Ok K /\ is_khatri [D; C; B; A] 4 K /\ shp K = [120; 4]).
  Proof.
    intros [WA SA] [WB SB] [WC SC] [WD SD].
    assert (H : forall M, In M [A; B; C; D] -> matrix M /\ ncols M = 4).
    { intros M [<-|[<-|[<-|[<-|[]]]]]; unfold matrix, is_mat, nrows, ncols; rewrite ?SA, ?SB, ?SC, ?SD; auto. }
    split.
    - destruct (C18_khatri T N RL [A; B; D] 4) as (K & E & HK); [discriminate|cbn; lia|intros M HM; apply H; cbn in *; tauto|].
      exists K. split; [exact E|]. split; [exact HK|]. destruct HK as [[_ SK] _]. rewrite SK. cbn [map]. unfold nrows. rewrite SA, SB, SD. reflexivity.
    - destruct (C18_khatri T N RL [D; C; B; A] 4) as (K & E & HK); [discriminate|cbn; lia|intros M HM; apply H; cbn in *; tauto|].
      exists K. split; [exact E|]. split; [exact HK|]. destruct HK as [[_ SK] _]. rewrite SK. cbn [map]. unfold nrows. rewrite SA, SB, SC, SD. reflexivity.
  Qed.

  (** ops.py:311-318 *)
  Lemma doc_ttm (X M1 M2 M3 Y : tensor T) : wf X -> shp X = [2; 4; 3] -> wf Y -> shp Y = [5; 6; 7] -> is_mat M1 5 2 -> is_mat M2 6 4 -> is_mat M3 7 3 ->
    (exists Z, ttm X [M1; M2; M3] None false SkNone = Ok Z /\ shp Z = [5; 6; 7] /\ ttm X [M2; M1; M3] (Some [1; 0; 2]%Z) false SkNone = Ok Z) /\
    (exists Z, ttm X [M1; M2; M3] None false (SkInt 1) = Ok Z /\ shp Z = [5; 4; 7]) /\
    (exists Z, ttm Y [M1; M2; M3] None true SkNone = Ok Z /\ shp Z = [2; 4; 3]).
  Proof.
    intros WX SX WY SY [W1 S1] [W2 S2] [W3 S3].
    assert (HX : forall k, k < 3 -> matrix (mat_at [M1; M2; M3] k) /\ ncols (mat_at [M1; M2; M3] k) = nth k (shp X) 0).
    { rewrite SX. intros [|[|[|k]]] Hk; [| | |lia]; unfold mat_at, matrix, is_mat, nrows, ncols; cbn [nth]; rewrite ?S1, ?S2, ?S3; auto. }
    assert (HY : forall k, k < 3 -> matrix (mat_at [M1; M2; M3] k) /\ nrows (mat_at [M1; M2; M3] k) = nth k (shp Y) 0).
    { rewrite SY. intros [|[|[|k]]] Hk; [| | |lia]; unfold mat_at, matrix, is_mat, nrows, ncols; cbn [nth]; rewrite ?S1, ?S2, ?S3; auto. }
    assert (NX : ndims X = 3) by (unfold ndims; rewrite SX; reflexivity). assert (NY : ndims Y = 3) by (unfold ndims; rewrite SY; reflexivity).
    split; [|split].
    - eexists. split; [apply (C11_ttm_default T N RL X [M1; M2; M3] false WX); [lia|discriminate|cbn; lia|exact HX]|]. split.
      + unfold mode_products, mode_product, nrows. cbn [combine seq length fold_left fst snd gen shp]. rewrite SX, S1, S2, S3. reflexivity.
      + change [1; 0; 2]%Z with (map Z.of_nat [1; 0; 2]). rewrite <- (C12_ttm_order T N RL X [M1; M2; M3] [0; 1; 2] [M2; M1; M3] [1; 0; 2] false WX); [| | | | |reflexivity|reflexivity| |].
        * apply (C11_ttm_default T N RL X [M1; M2; M3] false WX); [lia|discriminate|cbn; lia|exact HX].
        * repeat constructor; cbn; intuition discriminate.
        * discriminate.
        * lia.
        * cbn. intros a [<-|[<-|[<-|[]]]]; lia.
        * intros k Hk. cbn in Hk. replace (nth k [0; 1; 2] 0) with k by (destruct k as [|[|[|k]]]; [reflexivity..|lia]). apply HX, Hk.
        * cbn [combine]. apply perm_swap.
    - destruct (C11_ttm_skip T N RL X [M1; M2; M3] false (SkInt 1) WX) as (Z & E & EZ & _); [lia|discriminate|cbn; lia|discriminate| |].
      + intros k [<-|[<-|[]]]; apply HX; lia.
      + exists Z. split; [exact E|]. rewrite EZ. change (kept (skipset (SkInt 1)) (length [M1; M2; M3])) with [0; 2]. change (without (skipset (SkInt 1)) [M1; M2; M3]) with [M1; M3].
        unfold mode_products, mode_product, nrows. cbn [combine fold_left fst snd gen shp]. rewrite SX, S1, S3. reflexivity.
    - eexists. split; [apply (C11_ttm_default T N RL Y [M1; M2; M3] true WY); [lia|discriminate|cbn; lia|exact HY]|].
      unfold mode_products, mode_product, nrows. cbn [map combine seq length fold_left fst snd gen shp]. unfold mtrans, ncols, nrows. cbn [mgen gen shp nth]. rewrite SY, S1, S2, S3. reflexivity.
  Qed.
End F.

(** guide_data.rst:92-127 *)
Lemma doc_kt_fields {T} {N : Num T} (cast : dtype -> T -> T) (u v s : tensor T) r : shp s = [r] ->
  exists k, ktensor_init cast [mkArr NP F64 u; mkArr NP F64 v] (Some (mkArr NP F64 s)) = Ok k /\
    map a_dt (k_U k) = [F32; F32] /\ a_dt (k_lam k) = F64 /\ shp (a_t (k_lam k)) = [r; 1] /\ dat (a_t (k_lam k)) = dat s.
Proof.
  intros H. eexists. split; [reflexivity|]. cbn. unfold expand_if_vec. cbn [a_t]. rewrite H. repeat split.
Qed.

(** guide_data.rst:152-159: a float32 column of weights *)
Lemma doc_kt_N {T} {N : Num T} (cast : dtype -> T -> T) (RL : RingLaws T) (U : list (tensor T)) (lam : tensor T) R :
  U <> [] -> length U <= 25 -> (forall A, In A U -> matrix A /\ ncols A = R) -> is_mat lam R 1 ->
  exists k, ktensor_init cast (map (mkArr NP F64) U) (Some (mkArr TFT F32 lam)) = Ok k /\
    ktensor_extract k = Ok (F32, cp_tensor R lam (map (tf_map (cast F32)) U)).
Proof.
  intros H0 HL HU [WL SL]. destruct (C25_ktensor_extract_ndarray T N cast RL (map (mkArr NP F64) U) (Some (mkArr TFT F32 lam)) R) as (k & E & X).
  - destruct U; [congruence|discriminate].
  - intros a Ha. apply in_map_iff in Ha as (A & <- & _). reflexivity.
  - intros a Ha. apply in_map_iff in Ha as (A & <- & HA). apply HU, HA.
  - repeat split; auto.
  - exists k. split; [exact E|]. rewrite X, map_length. rewrite (proj2 (Nat.ltb_ge _ _) HL). rewrite map_map. cbn [a_t weights_column]. 
    do 3 f_equal. destruct lam as [sl dl]. cbn in SL |- *. congruence.
Qed.

(** guide_data.rst:184-221: a tf core with ndarray factors *)
Lemma doc_tt {T} {N : Num T} (RL : RingLaws T) (G : tensor T) (U : list (tensor T)) :
  U <> [] -> wf G -> ndims G <= 13 -> length U = ndims G ->
  (forall k, k < length U -> matrix (mat_at U k) /\ ncols (mat_at U k) = nth k (shp G) 0) ->
  exists t, ttensor_extract (mkArr TFT F64 G) (map (mkArr NP F64) U) = Ok (F64, t) /\ t = tucker_tensor G U /\ shp t = map nrows U.
Proof.
  intros H0 WG HG HL HU. exists (tucker_tensor G U). split; [|split; reflexivity].
  assert (E : map a_t (map (mkArr NP F64) U) = U) by (rewrite map_map; apply map_id).
  rewrite (C28_ttensor_extract T N RL _ _ F64); cbn [a_t]; rewrite ?E, ?map_length; auto.
  - destruct U; [congruence|discriminate].
  - intros a Ha. apply in_map_iff in Ha as (A & <- & _). reflexivity.
  - left. intros a Ha. apply in_map_iff in Ha as (A & <- & _). reflexivity.
Qed.

Lemma doc_kt_svd {T} {N : Num T} (cast : dtype -> T -> T) (u v s : tensor T) m n r : is_mat u m r -> is_mat v n r -> wf s -> shp s = [r] ->
  exists k, ktensor_init cast [mkArr NP F64 u; mkArr NP F64 v] (Some (mkArr NP F64 s)) = Ok k /\
    map a_dt (k_U k) = [F32; F32] /\ a_dt (k_lam k) = F64 /\ shp (a_t (k_lam k)) = [r; 1] /\ dat (a_t (k_lam k)) = dat s /\
    ktensor_extract k = Raise TypeError.
Proof.
  intros Hu Hv Hw Hs. destruct (t_kt_extract cast u v s m n r Hu Hv Hw Hs) as (k & E & X). destruct (doc_kt_fields cast u v s r Hs) as (k' & E' & F1 & F2 & F3 & F4).
  rewrite E in E'. injection E' as <-. exists k. repeat split; assumption.
Qed.

Lemma doc_mul_shape_witness : exists A B C : tensor Z, shp A = [2; 3; 4; 5; 6] /\ shp B = [1; 2; 3; 5; 7] /\
  mul A B (AList [0; 1]%Z) (AList [1; 2]%Z) = Ok C /\ shp C <> [4; 5; 6; 1; 4; 7].
Proof.
  set (A := mkT [2; 3; 4; 5; 6] (repeat 1%Z (nprod [2; 3; 4; 5; 6]))). set (B := mkT [1; 2; 3; 5; 7] (repeat 1%Z (nprod [1; 2; 3; 5; 7]))).
  destruct (doc_mul_shapes ringlaws_Z A B eq_refl eq_refl) as ((C & E & H) & _). exists A, B, C. repeat split; auto. rewrite H. discriminate.
Qed.
