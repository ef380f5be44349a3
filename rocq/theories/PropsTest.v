(** Property theorems C99: the unit tests of tensorD/base/test, for every array of the
    tested ranks (any sizes) instead of one random draw.  Each theorem is one test
    method; [np_...] is the NumPy reference the test compares with (SpecTest.v). *)

From Coq Require Import ZArith List Bool Arith Reals.
From Verif Require Import Num Py Tensor TF Ops Types Spec SpecTest TestFacts.
Import ListNotations.

(** ops_test.py:25-37 *)
Theorem C99_test_gen_perm :
  gen_perm 4 2 = Ok [2; 3; 1; 0]%Z /\ gen_perm 1 0 = Ok [0%Z] /\ gen_perm 0 0 = Raise ValueError.
Proof. exact t_gen_perm. Qed.
Print Assumptions C99_test_gen_perm.

(** ops_test.py:39-64 *)
Theorem C99_test_unfold : forall (T : Type) (N : Num T) (t : tensor T), wf t ->
  (forall a b c, shp t = [a; b; c] -> b <> 0 -> unfold t 1 = Ok (np_reshape [b; c * a] (np_transpose_120 t))) /\
  (forall a b c d e f, shp t = [a; b; c; d; e; f] -> d <> 0 ->
     unfold t 3 = Ok (np_reshape [d; a * b * c * e * f] (np_transpose_354210 t))) /\
  (forall a b, shp t = [a; b] -> b <> 0 -> unfold t 1 = Ok (np_transpose_10 t)) /\
  (forall a, shp t = [a] -> a <> 0 -> unfold t 0 = Ok (np_reshape [a; 1] t)).
Proof.
  exact (fun T N t W => conj (fun a b c => t_unfold_3 t a b c W) (conj (fun a b c d e f => t_unfold_6 t a b c d e f W)
    (conj (fun a b => t_unfold_2 t a b W) (fun a => t_unfold_1 t a W)))).
Qed.
Print Assumptions C99_test_unfold.

(** ops_test.py:66-83 *)
Theorem C99_test_fold : forall (T : Type) (N : Num T) (t : tensor T), wf t ->
  (forall a b c, shp t = [a; b; c] -> c <> 0 ->
     fold (np_reshape [c; b * a] (np_transpose_210 t)) 2 [a; b; c] = Ok t) /\
  (forall a b, shp t = [a; b] -> a <> 0 -> fold t 1 [b; a] = Ok (np_transpose_10 t)) /\
  (forall a b c d e f g, shp t = [a; b; c; d; e; f; g] -> e <> 0 ->
     fold (np_reshape [e; a * b * c * d * f * g] (np_einsum_abcdefg_egfdcba t)) 4 [a; b; c; d; e; f; g] = Ok t).
Proof.
  exact (fun T N t W => conj (fun a b c => t_fold_3 t a b c W) (conj (fun a b => t_fold_2 t a b W)
    (fun a b c d e f g => t_fold_7 t a b c d e f g W))).
Qed.
Print Assumptions C99_test_fold.

(** ops_test.py:85-102 *)
Theorem C99_test_t2mat : forall (T : Type) (N : Num T) (t : tensor T), wf t ->
  (forall a b c d, shp t = [a; b; c; d] ->
     t2mat t (AList [1; 2]%Z) (AList [3; 0]%Z) = Ok (np_reshape [b * c; d * a] (np_transpose_1230 t))) /\
  (forall a b, shp t = [a; b] -> t2mat t (AInt 0) (AInt 1) = Ok t) /\
  (forall a, shp t = [a] -> t2mat t (AInt 0) (AInt (-1)) = Ok (np_reshape [a; 1] t)).
Proof.
  exact (fun T N t W => conj (fun a b c d => t_t2mat_4 t a b c d) (conj (fun a b => t_t2mat_2 t a b W)
    (fun a => t_t2mat_1 t a W))).
Qed.
Print Assumptions C99_test_t2mat.

(** ops_test.py:104-120 *)
Theorem C99_test_ttm : forall (T : Type) (N : Num T), RingLaws T ->
  (forall (X B C : tensor T) w x y z b c, wf X -> shp X = [w; x; y; z] -> is_mat B x b -> is_mat C y c ->
     ttm X [B; C] (Some [1; 2]%Z) true SkNone = Ok (np_einsum_ttm X B C)) /\
  (forall (A B : tensor T) m k n, is_mat A m k -> is_mat B k n ->
     ttm B [A] (Some [0%Z]) false SkNone = Ok (np_matmul A B)).
Proof. exact (fun T N RL => conj (t_ttm RL) (t_ttm_matrix RL)). Qed.
Print Assumptions C99_test_ttm.

(** ops_test.py:122-139 *)
Theorem C99_test_vectorize : forall (T : Type) (N : Num T) (t : tensor T), wf t ->
  vectorize t = Ok (np_reshape [nprod (shp t)] t) /\
  (forall a b c, shp t = [a; b; c] -> vec_to_tensor (np_reshape [a * b * c] t) (map Z.of_nat [a; b; c]) = Ok t).
Proof. exact (fun T N t W => conj (t_vectorize t W) (fun a b c => t_vec_to_tensor t a b c W)). Qed.
Print Assumptions C99_test_vectorize.

(** ops_test.py:141-178 *)
Theorem C99_test_mul : forall (T : Type) (N : Num T), RingLaws T -> forall A B : tensor T,
  (forall i j k l m, shp A = [i; j; k] -> shp B = [k; l; m] ->
     mul A B (AList [2%Z]) (AList [0%Z]) = Ok (np_einsum_mul A B)) /\
  (forall i j k m, shp A = [i; j; k] -> shp B = [k; j; m] ->
     mul A B (AList [2; 1]%Z) (AList [0; 1]%Z) = Ok (np_einsum_mul2 A B)).
Proof. exact (fun T N RL A B => conj (t_mul RL A B) (t_mul2 RL A B)). Qed.
Print Assumptions C99_test_mul.

(** ops_test.py:180-189 *)
Theorem C99_test_inner : forall (T : Type) (N : Num T), RingLaws T -> forall A B : tensor T,
  wf A -> wf B -> shp A = shp B ->
  inner A B = Ok (listsum (map (fun p => nmul (fst p) (snd p)) (combine (dat A) (dat B)))).
Proof. exact @t_inner. Qed.
Print Assumptions C99_test_inner.

(** ops_test.py:191-206 *)
Theorem C99_test_hadamard : forall (T : Type) (N : Num T), RingLaws T -> forall (A B C D : tensor T) m n,
  is_mat A m n -> is_mat B m n -> is_mat C m n -> is_mat D m n ->
  hadamard [A; B; C; D] SkNone = Ok (np_map2 nmul (np_map2 nmul (np_map2 nmul A B) C) D) /\
  hadamard [A; B; C; D] (SkInt 2) = Ok (np_map2 nmul (np_map2 nmul A B) D).
Proof. exact @t_hadamard. Qed.
Print Assumptions C99_test_hadamard.

(** ops_test.py:208-218 *)
Theorem C99_test_kron : forall (T : Type) (N : Num T), RingLaws T -> forall (A B : tensor T) m n p q,
  is_mat A m n -> is_mat B p q -> kron [A; B] SkNone false = Ok (np_kron A B).
Proof. exact @t_kron. Qed.
Print Assumptions C99_test_kron.

(** ops_test.py:220-231 *)
Theorem C99_test_khatri : forall (T : Type) (N : Num T), RingLaws T -> forall (A B C : tensor T) a b c z,
  is_mat A a z -> is_mat B b z -> is_mat C c z ->
  khatri [A; B; C] SkNone false = Ok (np_reshape [a * b * c; z] (np_einsum_khatri A B C)).
Proof. exact @t_khatri. Qed.
Print Assumptions C99_test_khatri.

(** ops_test.py:233-241; [svals] is the list of singular values both libraries compute *)
Theorem C99_test_max_single_value_mul : forall (svals : tensor R -> list R) (X : tensor R) (m : R),
  In m (svals X) -> (forall x, In x (svals X) -> (x <= m)%R) ->
  max_single_value_mul svals [X; X; X] SkNone = Ok (m * m * m)%R.
Proof. exact t_max_sv. Qed.
Print Assumptions C99_test_max_single_value_mul.

(** ops_test.py:243-259 *)
Theorem C99_test_xcb : forall (T : Type) (N : Num T), RingLaws T -> forall (X C B : tensor T) i j k r,
  (forall x : T, neqb x n0 = true -> x = n0) ->
  is_mat X i (k * j) -> is_mat C k r -> is_mat B j r -> i <> 0 -> r <> 0 ->
  exists H, khatri [C; B] SkNone false = Ok H /\ xcb X C B = Ok (np_matmul X H).
Proof. exact @t_xcb. Qed.
Print Assumptions C99_test_xcb.

(** dtensor_test.py:25-30 *)
Theorem C99_test_d_mul : forall (T : Type) (N : Num T), RingLaws T -> forall (A B C : tensor T) a b c d e f g h,
  shp A = [a; b; c; d] -> shp B = [b; c; e; f] -> shp C = [g; f; e; h] ->
  (do D <- snd (dcall_exec (dtensor_init A) (CMul (OD (dtensor_init B)) (AList [1; 2]%Z) (AList [0; 1]%Z)));
   snd (dcall_exec (dtensor_init D) (CMul (OD (dtensor_init C)) (AList [2; 3]%Z) (AList [2; 1]%Z))))
  = Ok (np_einsum_dmul A B C).
Proof. exact @t_dmul. Qed.
Print Assumptions C99_test_d_mul.

(** dtensor_test.py:32-36 *)
Theorem C99_test_d_dot : forall (T : Type) (N : Num T) (a : tensor T),
  (do u <- snd (dcall_exec (dtensor_init a) (CMulE (OD (dtensor_init a)))); snd (dcall_exec (dtensor_init u) (CMulE (OT a))))
  = Ok (np_map2 nmul (np_map2 nmul a a) a).
Proof. exact @t_d_dot. Qed.
Print Assumptions C99_test_d_dot.

(** dtensor_test.py:38-42; h is the test's 0.5 *)
Theorem C99_test_d_sub : forall (T : Type) (N : Num T) (a : tensor T) (h : T),
  (do u <- snd (dcall_exec (dtensor_init a) (CMulE (OT (mkT [] [h])))); snd (dcall_exec (dtensor_init a) (CSub (OD (dtensor_init u)))))
  = Ok (gen (shp a) (fun i => nsub (get a i) (nmul (get a i) h))).
Proof. exact @t_d_sub. Qed.
Print Assumptions C99_test_d_sub.

(** dtensor_test.py:44-48 *)
Theorem C99_test_d_add : forall (T : Type) (N : Num T), RingLaws T -> forall (a : tensor T) (h : T), nadd h h = n1 ->
  (do u <- snd (dcall_exec (dtensor_init a) (CMulE (OT (mkT [] [h]))));
   do v <- snd (dcall_exec (dtensor_init a) (CAdd (OD (dtensor_init u))));
   snd (dcall_exec (dtensor_init v) (CAdd (OT (gen (shp a) (fun i => nmul (get a i) h))))))
  = Ok (gen (shp a) (fun i => nmul (get a i) (nadd n1 n1))).
Proof. exact @t_d_add. Qed.
Print Assumptions C99_test_d_add.

(** dtensor_test.py:50-54 *)
Theorem C99_test_d_get_item : forall (T : Type) (N : Num T) (t : tensor T) a b c d,
  shp t = [a; b; c; d] -> a <> 0 -> b <> 0 ->
  (do u <- snd (dcall_exec (dtensor_init t) (CGetitem [0%Z])); tf_getitem u [0%Z])
  = Ok (gen [c; d] (fun i => get t (0 :: 0 :: i))).
Proof. exact @t_d_get_item. Qed.
Print Assumptions C99_test_d_get_item.

(** ttensor_test.py:13-30 *)
Theorem C99_test_ttensor_extract : forall (T : Type) (N : Num T), RingLaws T ->
  forall (dt : dtype) (G A B C : tensor T) x y z a b c,
  wf G -> shp G = [x; y; z] -> is_mat A a x -> is_mat B b y -> is_mat C c z ->
  ttensor_extract (mkArr TFT dt G) [mkArr TFT dt A; mkArr TFT dt B; mkArr TFT dt C] = Ok (dt, np_einsum_tucker G A B C).
Proof. exact @t_tucker. Qed.
Print Assumptions C99_test_ttensor_extract.

(** ktensor_test.py:23-33 *)
Theorem C99_test_ktensor_high_order : forall (T : Type) (N : Num T), RingLaws T ->
  forall (cast : dtype -> T -> T) (A B C D : tensor T) a b c d r,
  is_mat A a r -> is_mat B b r -> is_mat C c r -> is_mat D d r ->
  exists k t, ktensor_init cast [mkArr NP F64 A; mkArr NP F64 B; mkArr NP F64 C; mkArr NP F64 D] None = Ok k /\
    ktensor_extract k = Ok (F32, t) /\ shp t = [a; b; c; d].
Proof. exact @t_high_order. Qed.
Print Assumptions C99_test_ktensor_high_order.

(** ktensor_test.py:14-21: this test cannot pass.  The float64 factors of numpy's svd
    become float32, the float64 weights stay, and TF rejects the product. *)
Theorem C99_test_ktensor_extract_raises : forall (T : Type) (N : Num T) (cast : dtype -> T -> T) (u v s : tensor T) m n r,
  is_mat u m r -> is_mat v n r -> wf s -> shp s = [r] ->
  exists k, ktensor_init cast [mkArr NP F64 u; mkArr NP F64 v] (Some (mkArr NP F64 s)) = Ok k /\
    ktensor_extract k = Raise TypeError.
Proof. exact @t_kt_extract. Qed.
Print Assumptions C99_test_ktensor_extract_raises.

Theorem C99_test_ktensor_extract_refuted : exists (x u v s : tensor Z),
  is_mat u 2 2 /\ is_mat v 2 2 /\ wf s /\ shp s = [2] /\ x = cp_tensor 2 (mkT [2; 1] (dat s)) [u; v] /\
  (do k <- ktensor_init (fun _ z => z) [mkArr NP F64 u; mkArr NP F64 v] (Some (mkArr NP F64 s)); ktensor_extract k) <> Ok (F64, x) /\
  (do k <- ktensor_init (fun _ z => z) [mkArr NP F64 u; mkArr NP F64 v] (Some (mkArr NP F64 s)); ktensor_extract k) <> Ok (F32, x).
Proof. exact t_kt_refuted. Qed.
Print Assumptions C99_test_ktensor_extract_refuted.

(** the data of setUp (ops_test.py:17-23) and small operands *)
Definition tst_x : tensor Z := mkT [3; 4; 2] [1;13;4;16;7;19;10;22;2;14;5;17;8;20;11;23;3;15;6;18;9;21;12;24]%Z.
Definition tst_m : tensor Z := mkT [2; 3] [1; 2; 3; 4; 5; 6]%Z.
Definition tst_n : tensor Z := mkT [2; 2] [1; -1; 0; 2]%Z.
Definition tst_4 : tensor Z := mkT [1; 2; 2; 3] [1; 2; 3; 4; 5; 6; 7; 8; 9; 10; 11; 12]%Z.

Example ex_C99_layout : wf tst_x /\
  unfold tst_x 1 = Ok (mkT [4; 6] [1;2;3;13;14;15;4;5;6;16;17;18;7;8;9;19;20;21;10;11;12;22;23;24]%Z) /\
  np_reshape [4; 6] (np_transpose_120 tst_x) = mkT [4; 6] [1;2;3;13;14;15;4;5;6;16;17;18;7;8;9;19;20;21;10;11;12;22;23;24]%Z /\
  fold (mkT [2; 12] [1;2;3;4;5;6;7;8;9;10;11;12;13;14;15;16;17;18;19;20;21;22;23;24]%Z) 2 [3; 4; 2] = Ok tst_x /\
  np_reshape [2; 12] (np_transpose_210 tst_x) = mkT [2; 12] [1;2;3;4;5;6;7;8;9;10;11;12;13;14;15;16;17;18;19;20;21;22;23;24]%Z /\
  vectorize tst_x = Ok (mkT [24] (dat tst_x)) /\
  t2mat tst_4 (AList [1; 2]%Z) (AList [3; 0]%Z) = Ok (mkT [4; 3] [1; 2; 3; 4; 5; 6; 7; 8; 9; 10; 11; 12]%Z).
Proof. repeat split; vm_compute; reflexivity. Qed.

Example ex_C99_products : is_mat tst_m 2 3 /\ is_mat tst_n 2 2 /\
  ttm tst_m [tst_n] (Some [0%Z]) false SkNone = Ok (mkT [2; 3] [-3; -3; -3; 8; 10; 12]%Z) /\
  np_matmul tst_n tst_m = mkT [2; 3] [-3; -3; -3; 8; 10; 12]%Z /\
  kron [tst_n; tst_m] SkNone false = Ok (np_kron tst_n tst_m) /\
  np_kron tst_n tst_m = mkT [4; 6] [1; 2; 3; -1; -2; -3; 4; 5; 6; -4; -5; -6; 0; 0; 0; 2; 4; 6; 0; 0; 0; 8; 10; 12]%Z /\
  khatri [tst_n; tst_n; tst_n] SkNone false = Ok (mkT [8; 2] [1; -1; 0; 2; 0; 2; 0; -4; 0; 2; 0; -4; 0; -4; 0; 8]%Z) /\
  hadamard [tst_n; tst_n; tst_n; tst_n] (SkInt 2) = Ok (mkT [2; 2] [1; -1; 0; 8]%Z) /\
  inner tst_m tst_m = Ok 91%Z /\
  xcb (mkT [1; 4] [1; 2; 3; 4]%Z) tst_n tst_n = Ok (mkT [1; 2] [1; 7]%Z).
Proof. repeat split; vm_compute; reflexivity. Qed.

Example ex_C99_types :
  (do u <- snd (dcall_exec (dtensor_init tst_4) (CGetitem [0%Z])); tf_getitem u [0%Z]) = Ok (mkT [2; 3] [1; 2; 3; 4; 5; 6]%Z) /\
  (do u <- snd (dcall_exec (dtensor_init tst_m) (CMulE (OD (dtensor_init tst_m)))); snd (dcall_exec (dtensor_init u) (CMulE (OT tst_m))))
    = Ok (mkT [2; 3] [1; 8; 27; 64; 125; 216]%Z) /\
  (nadd (1 / 2) (1 / 2) = n1 :> R)%R /\
  ttensor_extract (mkArr TFT F64 (mkT [1; 2; 2] [1; 2; 3; 4]%Z)) [mkArr TFT F64 (mkT [2; 1] [1; 2]%Z); mkArr TFT F64 tst_n; mkArr TFT F64 tst_n]
    = Ok (F64, mkT [2; 2; 2] [0; -4; -2; 16; 0; -8; -4; 32]%Z).
Proof. repeat split; try (vm_compute; reflexivity). change (1 / 2 + 1 / 2 = 1)%R. field. Qed.

Example ex_C99_svals : max_single_value_mul (fun _ => [2; 3; 1]%R) [mkT [3; 3] [2; 0; 1; -1; 1; 0; -3; 3; 0]%R; mkT [3; 3] [2; 0; 1; -1; 1; 0; -3; 3; 0]%R; mkT [3; 3] [2; 0; 1; -1; 1; 0; -3; 3; 0]%R] SkNone = Ok (3 * 3 * 3)%R.
Proof. apply C99_test_max_single_value_mul; [right; left; reflexivity|]. intros x [<-|[<-|[<-|[]]]]; apply IZR_le; discriminate. Qed.
