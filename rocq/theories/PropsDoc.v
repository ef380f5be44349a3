(** Property theorem C100: the worked examples of the guides (docs/source/guide_basic_ops.rst,
    guide_data.rst) and of the docstrings in ops.py.  The printed arrays are copied from there;
    examples with random operands are proved for all operands of the shapes. *)

From Coq Require Import ZArith List Bool Arith.
From Verif Require Import Num Py Tensor TF Ops Types Spec DocFacts PropsLayout PropsOps PropsTypes TestFacts.
Import ListNotations.

Definition g_h1 : tensor Z := mkT [3; 3] [1; 4; 7; 2; 5; 8; 3; 6; 9]%Z.
Definition g_h2 : tensor Z := mkT [3; 3] [2; 3; 4; 2; 3; 4; 2; 3; 4]%Z.
Definition g_A : tensor Z := mkT [3; 4] [1; 2; 3; 4; 5; 6; 7; 8; 9; 10; 11; 12]%Z.
Definition g_B5 : tensor Z := mkT [2; 5] [1; 1; 1; 1; 1; 2; 2; 2; 2; 2]%Z.
Definition g_B4 : tensor Z := mkT [2; 4] [1; 1; 1; 1; 2; 2; 2; 2]%Z.
Definition g_AB : tensor Z := mkT [6; 20] [1; 1; 1; 1; 1; 2; 2; 2; 2; 2; 3; 3; 3; 3; 3; 4; 4; 4; 4; 4; 2; 2; 2; 2; 2; 4; 4; 4; 4; 4; 6; 6; 6; 6; 6; 8; 8; 8; 8; 8; 5; 5; 5; 5; 5; 6; 6; 6; 6; 6; 7; 7; 7; 7; 7; 8; 8; 8; 8; 8; 10; 10; 10; 10; 10; 12; 12; 12; 12; 12; 14; 14; 14; 14; 14; 16; 16; 16; 16; 16; 9; 9; 9; 9; 9; 10; 10; 10; 10; 10; 11; 11; 11; 11; 11; 12; 12; 12; 12; 12; 18; 18; 18; 18; 18; 20; 20; 20; 20; 20; 22; 22; 22; 22; 22; 24; 24; 24; 24; 24]%Z.
Definition g_BA : tensor Z := mkT [6; 20] [1; 2; 3; 4; 1; 2; 3; 4; 1; 2; 3; 4; 1; 2; 3; 4; 1; 2; 3; 4; 5; 6; 7; 8; 5; 6; 7; 8; 5; 6; 7; 8; 5; 6; 7; 8; 5; 6; 7; 8; 9; 10; 11; 12; 9; 10; 11; 12; 9; 10; 11; 12; 9; 10; 11; 12; 9; 10; 11; 12; 2; 4; 6; 8; 2; 4; 6; 8; 2; 4; 6; 8; 2; 4; 6; 8; 2; 4; 6; 8; 10; 12; 14; 16; 10; 12; 14; 16; 10; 12; 14; 16; 10; 12; 14; 16; 10; 12; 14; 16; 18; 20; 22; 24; 18; 20; 22; 24; 18; 20; 22; 24; 18; 20; 22; 24; 18; 20; 22; 24]%Z.
Definition g_kh : tensor Z := mkT [6; 4] [1; 2; 3; 4; 2; 4; 6; 8; 5; 6; 7; 8; 10; 12; 14; 16; 9; 10; 11; 12; 18; 20; 22; 24]%Z.
Definition g_X223 : tensor Z := mkT [2; 2; 3] [1; 2; 3; 4; 5; 6; 7; 8; 9; 10; 11; 12]%Z.
Definition g_Y223 : tensor Z := mkT [2; 2; 3] [-1; -2; -3; -4; -5; -6; -7; -8; -9; -10; -11; -12]%Z.
Definition g_X332 : tensor Z := mkT [3; 3; 2] [1; 10; 4; 13; 7; 16; 2; 11; 5; 14; 8; 17; 3; 12; 6; 15; 9; 18]%Z.
Definition g_X342 : tensor Z := mkT [3; 4; 2] [1; 13; 4; 16; 7; 19; 10; 22; 2; 14; 5; 17; 8; 20; 11; 23; 3; 15; 6; 18; 9; 21; 12; 24]%Z.
Definition arange (s : list nat) : tensor Z := mkT s (map Z.of_nat (seq 0 (nprod s))).

(** guide_basic_ops.rst:56-73, 112-118, 125-131, 153-172, 213-220, 246-253 *)
Theorem C100_guide_matrices :
  snd (dcall_exec (dtensor_init g_h1) (CMulE (OD (dtensor_init g_h2)))) = Ok (mkT [3; 3] [2; 12; 28; 4; 15; 32; 6; 18; 36]%Z) /\
  hadamard [g_h1; g_h2] SkNone = Ok (mkT [3; 3] [2; 12; 28; 4; 15; 32; 6; 18; 36]%Z) /\
  kron [g_A; g_B5] SkNone false = Ok g_AB /\ kron [g_A; g_B5] SkNone true = Ok g_BA /\
  snd (dcall_exec (dtensor_init g_A) (CKron (OD (dtensor_init g_B5)))) = Ok g_AB /\
  snd (dcall_exec (dtensor_init g_A) (CKron (OT g_B5))) = Ok g_AB /\
  khatri [g_A; g_B4] SkNone false = Ok g_kh /\
  snd (dcall_exec (dtensor_init g_A) (CKhatri (OT g_B4))) = Ok g_kh.
Proof. repeat split; vm_compute; reflexivity. Qed.
Print Assumptions C100_guide_matrices.

(** guide_basic_ops.rst:271-303, 357, 378-395, 430-462, 498-511, 532-545, 612-618 *)
Theorem C100_guide_tensors :
  (forall o, o = OD (dtensor_init g_Y223) \/ o = OT g_Y223 ->
     snd (dcall_exec (dtensor_init g_X223) (CAdd o)) = Ok (mkT [2; 2; 3] [0; 0; 0; 0; 0; 0; 0; 0; 0; 0; 0; 0]%Z) /\
     snd (dcall_exec (dtensor_init g_X223) (CSub o)) = Ok (mkT [2; 2; 3] [2; 4; 6; 8; 10; 12; 14; 16; 18; 20; 22; 24]%Z)) /\
  inner g_X332 (mkT [3; 3; 2] [1; 1; 1; 1; 1; 1; 1; 1; 1; 1; 1; 1; 1; 1; 1; 1; 1; 1]%Z) = Ok 171%Z /\
  vectorize g_X332 = Ok (mkT [18] [1; 10; 4; 13; 7; 16; 2; 11; 5; 14; 8; 17; 3; 12; 6; 15; 9; 18]%Z) /\
  (do v <- vectorize g_X332; vec_to_tensor v [3; 3; 2]%Z) = Ok g_X332 /\
  unfold g_X342 0 = Ok (mkT [3; 8] [1; 4; 7; 10; 13; 16; 19; 22; 2; 5; 8; 11; 14; 17; 20; 23; 3; 6; 9; 12; 15; 18; 21; 24]%Z) /\
  unfold g_X342 1 = Ok (mkT [4; 6] [1; 2; 3; 13; 14; 15; 4; 5; 6; 16; 17; 18; 7; 8; 9; 19; 20; 21; 10; 11; 12; 22; 23; 24]%Z) /\
  unfold g_X342 2 = Ok (mkT [2; 12] [1; 2; 3; 4; 5; 6; 7; 8; 9; 10; 11; 12; 13; 14; 15; 16; 17; 18; 19; 20; 21; 22; 23; 24]%Z) /\
  snd (dcall_exec (dtensor_init g_X342) (CUnfold 0)) = unfold g_X342 0 /\
  t2mat g_X342 (AList [1; 0]%Z) (AInt 2) = Ok (mkT [12; 2] [1; 13; 2; 14; 3; 15; 4; 16; 5; 17; 6; 18; 7; 19; 8; 20; 9; 21; 10; 22; 11; 23; 12; 24]%Z) /\
  snd (dcall_exec (dtensor_init g_X342) (CT2mat (AList [1; 0]%Z) (AInt 2))) = t2mat g_X342 (AList [1; 0]%Z) (AInt 2) /\
  (exists Y, ttm g_X342 [mkT [2; 3] [1; 3; 5; 2; 4; 6]%Z] (Some [0%Z]) false SkNone = Ok Y /\ shp Y = [2; 4; 2] /\
     map (fun p => get Y [fst p; snd p; 0]) [(0, 0); (0, 1); (0, 2); (0, 3); (1, 0); (1, 1); (1, 2); (1, 3)] = [22; 49; 76; 103; 28; 64; 100; 136]%Z /\
     map (fun p => get Y [fst p; snd p; 1]) [(0, 0); (0, 1); (0, 2); (0, 3); (1, 0); (1, 1); (1, 2); (1, 3)] = [130; 157; 184; 211; 172; 208; 244; 280]%Z).
Proof.
  split; [intros o [->| ->]; split; vm_compute; reflexivity|].
  repeat match goal with |- _ /\ _ => split; [vm_compute; reflexivity|] end.
  eexists. split; [vm_compute; reflexivity|]. repeat split; vm_compute; reflexivity.
Qed.
Print Assumptions C100_guide_tensors.

(** ops.py:34, 64-70, 100-109, 142-145, 183-186 *)
Theorem C100_docstrings :
  gen_perm 6 2 = Ok [2; 5; 4; 3; 1; 0]%Z /\
  unfold (arange [3; 4; 2]) 1 = Ok (mkT [4; 6] [0; 8; 16; 1; 9; 17; 2; 10; 18; 3; 11; 19; 4; 12; 20; 5; 13; 21; 6; 14; 22; 7; 15; 23]%Z) /\
  (do u <- unfold (arange [2; 3; 4]) 1; fold u 1 [2; 3; 4])
    = Ok (mkT [2; 3; 4] [0; 1; 2; 3; 4; 5; 6; 7; 8; 9; 10; 11; 12; 13; 14; 15; 16; 17; 18; 19; 20; 21; 22; 23]%Z) /\
  (exists m, t2mat (arange [2; 3; 4]) (AInt 1) (AInt (-1)) = Ok m /\ shp m = [3; 8]) /\
  (exists m, t2mat (arange [2; 3; 4]) (AList [0; 2]%Z) (AInt (-1)) = Ok m /\ shp m = [8; 3]) /\
  t2mat (arange [2; 3; 4]) (AInt 1) (AList [2; 0]%Z) = unfold (arange [2; 3; 4]) 1 /\
  vectorize (arange [3; 4; 2]) = Ok (arange [24]).
Proof. repeat match goal with |- _ /\ _ => split end; try (eexists; split; vm_compute; reflexivity); vm_compute; reflexivity. Qed.
Print Assumptions C100_docstrings.

(** guide_basic_ops.rst:58-70 and 81: A*B and the skip argument *)
Theorem C100_hadamard : forall (T : Type) (N : Num T) (A B C D : tensor T),
  (shp A = shp B -> snd (dcall_exec (dtensor_init A) (CMulE (OD (dtensor_init B)))) = hadamard [A; B] SkNone) /\
  hadamard [A; B; C; D] (SkList [1%Z]) = hadamard [A; C; D] SkNone.
Proof. exact (fun T N A B C D => conj (doc_star A B) eq_refl). Qed.
Print Assumptions C100_hadamard.

(** guide_basic_ops.rst:230, 237 *)
Theorem C100_khatri : forall (T : Type) (N : Num T), RingLaws T -> forall A B C D : tensor T,
  is_mat A 3 4 -> is_mat B 2 4 -> is_mat C 4 4 -> is_mat D 5 4 ->
  (exists K, khatri [A; B; C; D] (SkList [2%Z]) false = Ok K /\ is_khatri [A; B; D] 4 K /\ shp K = [30; 4]) /\
  (exists K, khatri [A; B; C; D] SkNone true = Ok K /\ is_khatri [D; C; B; A] 4 K /\ shp K = [120; 4]).
Proof. exact @doc_khatri_shapes. Qed.
Print Assumptions C100_khatri.

(** guide_basic_ops.rst:519: the Kolda unfolding as t2mat, for every order-3 tensor *)
Theorem C100_kolda : forall (T : Type) (N : Num T) (t : tensor T),
  ndims t = 3 -> nth 1 (shp t) 0 <> 0 -> t2mat t (AInt 1) (AList [2; 0]%Z) = unfold t 1.
Proof. exact @doc_kolda. Qed.
Print Assumptions C100_kolda.

(** guide_basic_ops.rst:638: axis=range(N) *)
Theorem C100_ttm_range : forall (T : Type) (N : Num T) (X : tensor T) (l : list (tensor T)) (tr : bool),
  ttm X l (Some (zrange (length l))) tr SkNone = ttm X l None tr SkNone.
Proof. exact @doc_ttm_range. Qed.
Print Assumptions C100_ttm_range.

(** ops.py:306-315 *)
Theorem C100_ttm : forall (T : Type) (N : Num T), RingLaws T -> forall X M1 M2 M3 Y : tensor T,
  wf X -> shp X = [2; 4; 3] -> wf Y -> shp Y = [5; 6; 7] -> is_mat M1 5 2 -> is_mat M2 6 4 -> is_mat M3 7 3 ->
  (exists Z, ttm X [M1; M2; M3] None false SkNone = Ok Z /\ shp Z = [5; 6; 7] /\ ttm X [M2; M1; M3] (Some [1; 0; 2]%Z) false SkNone = Ok Z) /\
  (exists Z, ttm X [M1; M2; M3] None false (SkInt 1) = Ok Z /\ shp Z = [5; 4; 7]) /\
  (exists Z, ttm Y [M1; M2; M3] None true SkNone = Ok Z /\ shp Z = [2; 4; 3]).
Proof. exact @doc_ttm. Qed.
Print Assumptions C100_ttm.

(** guide_basic_ops.rst:646-658: contraction along the first M modes *)
Theorem C100_contraction : forall (T : Type) (N : Num T), RingLaws T -> forall (X Y : tensor T) (I J K : list nat),
  shp X = I ++ J -> shp Y = I ++ K ->
  exists Z, mul X Y (AList (map Z.of_nat (seq 0 (length I)))) (AList (map Z.of_nat (seq 0 (length I)))) = Ok Z /\
    wf Z /\ shp Z = J ++ K /\
    forall j k, valid J j -> valid K k -> get Z (j ++ k) = msum I (fun i => nmul (get X (i ++ j)) (get Y (i ++ k))).
Proof. exact @doc_mul_00. Qed.
Print Assumptions C100_contraction.

(** guide_basic_ops.rst:669-679: the guide is right about mul(A, B, 0, 1), the docstring is not (C09) *)
Theorem C100_mul_matrices : forall (T : Type) (N : Num T), RingLaws T -> forall A B : tensor T,
  (forall m k n, is_mat A m k -> is_mat B k n ->
     mul A B (AInt 1) (AInt 0) = tf_matmul false false A B /\
     snd (dcall_exec (dtensor_init A) (CMul (OD (dtensor_init B)) (AInt 1) (AInt 0))) = tf_matmul false false A B) /\
  (forall m k n, is_mat A k m -> is_mat B n k -> mul A B (AInt 0) (AInt 1) = tf_matmul true true A B).
Proof. exact (fun T N RL A B => conj (fun m k n HA HB => conj (doc_mul_10 RL A B m k n HA HB) (doc_mul_10 RL A B m k n HA HB)) (doc_mul_01 RL A B)). Qed.
Print Assumptions C100_mul_matrices.

(** guide_data.rst:160-166 with float32 weights *)
Theorem C100_ktensor : forall (T : Type) (N : Num T) (cast : dtype -> T -> T), RingLaws T ->
  forall (U : list (tensor T)) (lam : tensor T) (R : nat),
  U <> [] -> length U <= 25 -> (forall A, In A U -> matrix A /\ ncols A = R) -> is_mat lam R 1 ->
  exists k, ktensor_init cast (map (mkArr NP F64) U) (Some (mkArr TFT F32 lam)) = Ok k /\
    ktensor_extract k = Ok (F32, cp_tensor R lam (map (tf_map (cast F32)) U)).
Proof. exact @doc_kt_N. Qed.
Print Assumptions C100_ktensor.

(** guide_data.rst:188-228 *)
Theorem C100_ttensor : forall (T : Type) (N : Num T), RingLaws T -> forall (G : tensor T) (U : list (tensor T)),
  U <> [] -> wf G -> ndims G <= 13 -> length U = ndims G ->
  (forall k, k < length U -> matrix (mat_at U k) /\ ncols (mat_at U k) = nth k (shp G) 0) ->
  exists t, ttensor_extract (mkArr TFT F64 G) (map (mkArr NP F64) U) = Ok (F64, t) /\ t = tucker_tensor G U /\ shp t = map nrows U.
Proof. exact @doc_tt. Qed.
Print Assumptions C100_ttensor.

(** What the documentation gets wrong. *)

(** guide_basic_ops.rst:134-140: kron(matrices, reverse=True) is X_N x ... x X_1, not X_1 x ... x X_N *)
Theorem C100_kron_reverse_refuted : exists X1 X2 : tensor Z, kron [X1; X2] SkNone true <> kron [X1; X2] SkNone false.
Proof. exists g_A, g_B5. vm_compute. discriminate. Qed.
Print Assumptions C100_kron_reverse_refuted.

(** ops.py:237: the shape is not 4x5x6x1x4x7 but 4x5x6x1x5x7; line 238 is right *)
Theorem C100_mul_shapes : forall (T : Type) (N : Num T), RingLaws T -> forall A B : tensor T,
  shp A = [2; 3; 4; 5; 6] -> shp B = [1; 2; 3; 5; 7] ->
  (exists C, mul A B (AList [0; 1]%Z) (AList [1; 2]%Z) = Ok C /\ shp C = [4; 5; 6; 1; 5; 7]) /\
  (exists D, mul A B (AList [0; 1; 3]%Z) (AList [1; 2; 3]%Z) = Ok D /\ shp D = [4; 6; 1; 7]).
Proof. exact @doc_mul_shapes. Qed.
Print Assumptions C100_mul_shapes.

Theorem C100_mul_shape_refuted : exists A B C : tensor Z, shp A = [2; 3; 4; 5; 6] /\ shp B = [1; 2; 3; 5; 7] /\
  mul A B (AList [0; 1]%Z) (AList [1; 2]%Z) = Ok C /\ shp C <> [4; 5; 6; 1; 4; 7].
Proof. exact doc_mul_shape_witness. Qed.
Print Assumptions C100_mul_shape_refuted.

(** guide_data.rst:104-132: U is printed as float64 and extract as the original array; U is
    float32 and extract raises *)
Theorem C100_ktensor_svd : forall (T : Type) (N : Num T) (cast : dtype -> T -> T) (u v s : tensor T) m n r,
  is_mat u m r -> is_mat v n r -> wf s -> shp s = [r] ->
  exists k, ktensor_init cast [mkArr NP F64 u; mkArr NP F64 v] (Some (mkArr NP F64 s)) = Ok k /\
    map a_dt (k_U k) = [F32; F32] /\ a_dt (k_lam k) = F64 /\ shp (a_t (k_lam k)) = [r; 1] /\ dat (a_t (k_lam k)) = dat s /\
    ktensor_extract k = Raise TypeError.
Proof. exact @doc_kt_svd. Qed.
Print Assumptions C100_ktensor_svd.

(** the hypotheses are met *)
Example ex_C100 :
  is_mat g_A 3 4 /\ is_mat g_B4 2 4 /\
  (exists K, khatri [g_A; g_B4; mkT [4; 4] (repeat 1%Z 16); mkT [5; 4] (repeat 2%Z 20)] (SkList [2%Z]) false = Ok K /\ shp K = [30; 4]) /\
  mul g_A (mkT [2; 3] [1; 0; 2; 0; 1; 0]%Z) (AInt 0) (AInt 1) = Ok (mkT [4; 2] [19; 5; 22; 6; 25; 7; 28; 8]%Z) /\
  mul (arange [2; 3; 1]) (arange [2; 3; 2]) (AList [0; 1]%Z) (AList [0; 1]%Z) = Ok (mkT [1; 2] [110; 125]%Z) /\
  (exists C, mul (arange [2; 3; 4; 5; 6]) (arange [1; 2; 3; 5; 7]) (AList [0; 1; 3]%Z) (AList [1; 2; 3]%Z) = Ok C /\ shp C = [4; 6; 1; 7]) /\
  ttensor_extract (mkArr TFT F64 (mkT [1; 2] [1; 2]%Z)) [mkArr NP F64 (mkT [2; 1] [1; 3]%Z); mkArr NP F64 (mkT [1; 2] [5; 7]%Z)]
    = Ok (F64, mkT [2; 1] [19; 57]%Z) /\
  (do k <- ktensor_init (fun _ z => z) (map (mkArr NP F64) [mkT [2; 1] [1; 3]%Z; mkT [2; 1] [5; 7]%Z]) (Some (mkArr TFT F32 (mkT [1; 1] [2%Z]))); ktensor_extract k)
    = Ok (F32, mkT [2; 2] [10; 14; 30; 42]%Z).
Proof. repeat match goal with |- _ /\ _ => split end; try (eexists; split; vm_compute; reflexivity); vm_compute; reflexivity. Qed.
