(** Property theorems C23-C29: DTensor, KTensor, TTensor. *)

From Coq Require Import ZArith List Bool Arith.
From Verif Require Import Num Py Tensor TF Ops Types Spec SpecTypes TypeFacts Matricize.
Import ListNotations.

(** C23: what unfold returns after any history: the unfolding of the first mode
    that was ever unfolded successfully, the requested one only when there is none *)
Theorem C23_dtensor_unfold_exact : forall (T : Type) (N : Num T) (t : tensor T) (cs : list (dcall T)) (n : Z),
  snd (dcall_exec (dcalls (dtensor_init t) cs) (CUnfold n)) =
  unfold t (match first_unfold t cs with Some m => m | None => n end).
Proof. exact @c23_exact. Qed.
Print Assumptions C23_dtensor_unfold_exact.

(** full statement: the same without the hypothesis on the earlier modes; false, see below *)
Theorem C23_dtensor_unfold_partial : forall (T : Type) (N : Num T) (t : tensor T) (cs : list (dcall T)) (n : Z),
  (forall m u, In (CUnfold m) cs -> unfold t m = Ok u -> m = n) ->
  snd (dcall_exec (dcalls (dtensor_init t) cs) (CUnfold n)) = unfold t n.
Proof. exact @c23_partial. Qed.
Print Assumptions C23_dtensor_unfold_partial.

Theorem C23_dtensor_unfold_refuted : exists (t : tensor Z) (m n : Z) (u : tensor Z),
  wf t /\ unfold t n = Ok u /\
  snd (dcall_exec (dcalls (dtensor_init t) [CUnfold m]) (CUnfold n)) <> Ok u.
Proof. exact c23_refuted. Qed.
Print Assumptions C23_dtensor_unfold_refuted.

Definition ext : tensor Z := mkT [2; 3] [1; 2; 3; 4; 5; 6]%Z.
Definition exr : tensor Z := mkT [1; 3] [10; 20; 30]%Z.

Example ex_C23 :
  let hist := [CVectorize; CUnfold 9; CUnfold 1; CAdd (OT ext)] in
  snd (dcall_exec (dcalls (dtensor_init ext) hist) (CUnfold 1)) = Ok (mkT [3; 2] [1; 4; 2; 5; 3; 6]%Z)
  /\ (forall m u, In (CUnfold m) hist -> unfold ext m = Ok u -> m = 1%Z).
Proof.
  split; [vm_compute; reflexivity|].
  intros m u [H|[H|[H|[H|[]]]]]; try discriminate; injection H as <-; auto. vm_compute. discriminate.
Qed.

(** C24: no history of calls changes the wrapped tensor *)
Theorem C24_dtensor_unchanged : forall (T : Type) (N : Num T) (t : tensor T) (cs : list (dcall T)),
  d_T (dcalls (dtensor_init t) cs) = t.
Proof. exact @c24_state. Qed.
Print Assumptions C24_dtensor_unchanged.

(** after any histories of both operands each method is the ops function of the
    two original tensors; [mul] takes a DTensor only, a bare tf.Tensor is rejected *)
Theorem C24_dtensor_ops : forall (T : Type) (N : Num T) (t u : tensor T) (cs cs' : list (dcall T)) (a b : axarg),
  let d := dcalls (dtensor_init t) cs in
  let e := dcalls (dtensor_init u) cs' in
  snd (dcall_exec d (CMul (OD e) a b)) = mul t u a b /\
  snd (dcall_exec d (CMul (OT u) a b)) = Raise AttributeError /\
  snd (dcall_exec d (CT2mat a b)) = t2mat t a b /\
  snd (dcall_exec d CVectorize) = vectorize t /\
  (forall o, o = OD e \/ o = OT u -> snd (dcall_exec d (CKron o)) = kron [t; u] SkNone false /\
    snd (dcall_exec d (CKhatri o)) = khatri [t; u] SkNone false) /\
  (forall m mode s, snd (dcall_exec d (CFold m mode s)) = fold m mode s).
Proof. exact @c24_ops. Qed.
Print Assumptions C24_dtensor_ops.

(** +, -, * are entrywise with broadcasting; shapes that do not broadcast are rejected *)
Theorem C24_dtensor_arith : forall (T : Type) (N : Num T) (t u : tensor T) (cs cs' : list (dcall T)) (o : operand T),
  let d := dcalls (dtensor_init t) cs in
  o = OD (dcalls (dtensor_init u) cs') \/ o = OT u ->
  (broadcastable (shp t) (shp u) ->
    let at_t idx := get t (broadcast_index (shp t) idx) in
    let at_u idx := get u (broadcast_index (shp u) idx) in
    snd (dcall_exec d (CAdd o)) = Ok (gen (broadcast_shape (shp t) (shp u)) (fun i => nadd (at_t i) (at_u i))) /\
    snd (dcall_exec d (CSub o)) = Ok (gen (broadcast_shape (shp t) (shp u)) (fun i => nsub (at_t i) (at_u i))) /\
    snd (dcall_exec d (CMulE o)) = Ok (gen (broadcast_shape (shp t) (shp u)) (fun i => nmul (at_t i) (at_u i)))) /\
  (~ broadcastable (shp t) (shp u) ->
    snd (dcall_exec d (CAdd o)) = Raise ValueError /\ snd (dcall_exec d (CSub o)) = Raise ValueError /\
    snd (dcall_exec d (CMulE o)) = Raise ValueError).
Proof. exact @c24_arith. Qed.
Print Assumptions C24_dtensor_arith.

(** indexing picks the sub-tensor; negative indices count from the end *)
Theorem C24_dtensor_getitem : forall (T : Type) (N : Num T) (t : tensor T) (cs : list (dcall T)) (idx : list Z),
  let d := dcalls (dtensor_init t) cs in
  (length idx <= ndims t ->
   (forall k, k < length idx -> (- Z.of_nat (nth k (shp t) 0%nat) <= nth k idx 0 < Z.of_nat (nth k (shp t) 0%nat))%Z) ->
   snd (dcall_exec d (CGetitem idx)) =
     Ok (gen (skipn (length idx) (shp t)) (fun r =>
           get t (map (fun k => py_index (nth k (shp t) 0) (nth k idx 0%Z)) (seq 0 (length idx)) ++ r)))) /\
  ((ndims t < length idx \/ exists k, k < length idx /\ k < ndims t /\
      (nth k idx 0 < - Z.of_nat (nth k (shp t) 0%nat) \/ Z.of_nat (nth k (shp t) 0%nat) <= nth k idx 0)%Z) ->
   snd (dcall_exec d (CGetitem idx)) = Raise ValueError).
Proof. exact @c24_getitem. Qed.
Print Assumptions C24_dtensor_getitem.

Example ex_C24 :
  let d := dcalls (dtensor_init ext) [CUnfold 1; CVectorize] in
  broadcastable (shp ext) (shp exr) /\
  snd (dcall_exec d (CAdd (OT exr))) = Ok (mkT [2; 3] [11; 22; 33; 14; 25; 36]%Z) /\
  snd (dcall_exec d (CSub (OD (dtensor_init exr)))) = Ok (mkT [2; 3] [-9; -18; -27; -6; -15; -24]%Z) /\
  ~ broadcastable (shp ext) [2] /\
  snd (dcall_exec d (CMulE (OT (mkT [2] [1; 2]%Z)))) = Raise ValueError /\
  snd (dcall_exec d (CGetitem [-1]%Z)) = Ok (mkT [3] [4; 5; 6]%Z).
Proof.
  split; [|repeat split; try (vm_compute; reflexivity)].
  - intros [|[|[|k]]]; vm_compute; auto.
  - intros H. specialize (H 0). vm_compute in H. destruct H as [H|[H|H]]; discriminate.
Qed.

(** C25: extract of a KTensor with tf factors; [cp_tensor] is the weighted sum of
    rank-one tensors (Spec.v), the omitted weights are ones, 1-D and (R,1) weights
    agree.  Beyond 25 factors einsum has no letters left. *)
Theorem C25_ktensor_extract : forall (T : Type) (N : Num T) (cast : dtype -> T -> T), RingLaws T ->
  forall (U : list (arr T)) (lam : option (arr T)) (dt : dtype) (R : nat),
  U <> [] -> (forall a, In a U -> a_kind a = TFT /\ a_dt a = dt) ->
  (forall a, In a U -> matrix (a_t a) /\ ncols (a_t a) = R) -> weights_fit R dt lam ->
  exists k, ktensor_init cast U lam = Ok k /\
    ktensor_extract k = if 25 <? length U then Raise ValueError
                        else Ok (dt, cp_tensor R (weights_column R lam) (map a_t U)).
Proof. exact @c25_tf. Qed.
Print Assumptions C25_ktensor_extract.

(** the same for ndarray factors, which are converted to float32 *)
Theorem C25_ktensor_extract_ndarray : forall (T : Type) (N : Num T) (cast : dtype -> T -> T), RingLaws T ->
  forall (U : list (arr T)) (lam : option (arr T)) (R : nat),
  U <> [] -> (forall a, In a U -> a_kind a = NP) ->
  (forall a, In a U -> matrix (a_t a) /\ ncols (a_t a) = R) -> weights_fit R F32 lam ->
  exists k, ktensor_init cast U lam = Ok k /\
    ktensor_extract k = if 25 <? length U then Raise ValueError
      else Ok (F32, cp_tensor R (weights_column R lam) (map (fun a => tf_map (cast F32) (a_t a)) U)).
Proof. exact @c25_np. Qed.
Print Assumptions C25_ktensor_extract_ndarray.

Definition exK (kd : akind) (dt : dtype) : list (arr Z) :=
  [mkArr kd dt (mkT [2; 2] [1; 2; 3; 4]%Z); mkArr kd dt (mkT [3; 2] [1; 0; 2; 1; 0; 5]%Z)].

Example ex_C25 :
  (forall a, In a (exK TFT F32) -> matrix (a_t a) /\ ncols (a_t a) = 2)
  /\ weights_fit 2 F32 (Some (mkArr NP F32 (mkT [2] [10; 1]%Z)))
  /\ (do k <- ktensor_init (fun _ z => z) (exK TFT F32) (Some (mkArr NP F32 (mkT [2] [10; 1]%Z))); ktensor_extract k)
     = Ok (F32, mkT [2; 3] [10; 22; 10; 30; 64; 20]%Z)
  /\ (do k <- ktensor_init (fun _ z => z) (exK TFT F32) (Some (mkArr TFT F32 (mkT [2; 1] [10; 1]%Z))); ktensor_extract k)
     = Ok (F32, mkT [2; 3] [10; 22; 10; 30; 64; 20]%Z)
  /\ (do k <- ktensor_init (fun _ z => z) (exK NP F64) None; ktensor_extract k)
     = Ok (F32, mkT [2; 3] [1; 4; 10; 3; 10; 20]%Z).
Proof.
  split; [|split; [|repeat split; vm_compute; reflexivity]].
  - intros a [<-|[<-|[]]]; repeat split.
  - repeat split. left; reflexivity.
Qed.

(** C26: the exact dtype rule.  Factors keep their dtype (tf) or become float32
    (ndarray); extract type-checks iff the weights have that dtype, omitted
    weights counting as float32 (C25 gives the positive half). *)
Theorem C26_ktensor_dtype_mismatch : forall (T : Type) (N : Num T) (cast : dtype -> T -> T)
  (U : list (arr T)) (lam : option (arr T)) (dt : dtype),
  uniform U dt -> (forall a, In a U -> matrix (a_t a)) ->
  match lam with Some l => a_dt l <> k_dt U dt | None => k_dt U dt <> F32 end ->
  exists k, ktensor_init cast U lam = Ok k /\ ktensor_extract k = Raise TypeError.
Proof. exact @c26_bad. Qed.
Print Assumptions C26_ktensor_dtype_mismatch.

(** full statement: any common dtype; false, see below.  Guard: float32. *)
Theorem C26_ktensor_ndarray_partial : forall (T : Type) (N : Num T) (cast : dtype -> T -> T), RingLaws T ->
  forall (U : list (arr T)) (lam : option (arr T)) (R : nat),
  U <> [] -> (forall a, In a U -> a_kind a = NP) ->
  (forall a, In a U -> matrix (a_t a) /\ ncols (a_t a) = R) -> weights_fit R F32 lam ->
  exists k, ktensor_init cast U lam = Ok k /\
    ktensor_extract k = if 25 <? length U then Raise ValueError
      else Ok (F32, cp_tensor R (weights_column R lam) (map (fun a => tf_map (cast F32) (a_t a)) U)).
Proof. exact @c25_np. Qed.
Print Assumptions C26_ktensor_ndarray_partial.

Theorem C26_ktensor_float64_ndarray_refuted : forall cast : dtype -> Z -> Z,
  exists (U : list (arr Z)) (lam : arr Z) k,
  (forall a, In a U -> a_kind a = NP /\ a_dt a = F64 /\ matrix (a_t a)) /\ a_kind lam = NP /\ a_dt lam = F64 /\
  ktensor_init cast U (Some lam) = Ok k /\ ktensor_extract k = Raise TypeError.
Proof. exact c26_np_refuted. Qed.
Print Assumptions C26_ktensor_float64_ndarray_refuted.

Theorem C26_ktensor_float64_default_refuted : forall cast : dtype -> Z -> Z, exists (U : list (arr Z)) k,
  (forall a, In a U -> a_kind a = TFT /\ a_dt a = F64 /\ matrix (a_t a)) /\
  ktensor_init cast U None = Ok k /\ ktensor_extract k = Raise TypeError.
Proof. exact c26_tf_refuted. Qed.
Print Assumptions C26_ktensor_float64_default_refuted.

Example ex_C26 : uniform (exK TFT F64) F64 /\ k_dt (exK TFT F64) F64 = F64 /\ k_dt (exK NP F64) F64 = F32
  /\ (do k <- ktensor_init (fun _ z => z) (exK TFT F64) None; ktensor_extract k) = Raise TypeError.
Proof.
  repeat split; try discriminate; try (vm_compute; reflexivity).
  right. intros a [<-|[<-|[]]]; repeat split.
Qed.

(** C27: CP matricization, U_n diag(lam) (khatri of the others, reversed)^T *)
Theorem C27_cp_matricization : forall (T : Type) (N : Num T), RingLaws T ->
  forall (U : list (tensor T)) (lam X : tensor T) (R n : nat), kt_extract U lam = Ok X ->
  (forall M, In M U -> matrix M /\ ncols M = R) -> is_mat lam R 1 ->
  n < length U -> 2 <= length U -> nrows (mat_at U n) <> 0 ->
  exists M H, unfold X (Z.of_nat n) = Ok M /\ khatri U (SkInt (Z.of_nat n)) true = Ok H /\
    is_mat M (nrows (mat_at U n)) (nrows H) /\ is_mat H (nrows H) R /\
    forall i j, i < nrows (mat_at U n) -> j < nrows H ->
      mget M i j = bigsum R (fun r => nmul (nmul (mget (mat_at U n) i r) (mget lam r 0)) (mget H j r)).
Proof. exact @c27. Qed.
Print Assumptions C27_cp_matricization.

Example ex_C27 :
  let U := map a_t (exK TFT F32) in
  exists X, kt_extract U (mkT [2; 1] [10; 1]%Z) = Ok X /\
    unfold X 1 = Ok (mkT [3; 2] [10; 30; 22; 64; 10; 20]%Z) /\
    khatri U (SkInt 1) true = Ok (mkT [2; 2] [1; 2; 3; 4]%Z).
Proof. eexists. repeat split; vm_compute; reflexivity. Qed.

(** C28: Tucker reconstruction *)
Theorem C28_ttensor_extract : forall (T : Type) (N : Num T), RingLaws T ->
  forall (core : arr T) (U : list (arr T)) (dt : dtype),
  U <> [] -> a_dt core = dt -> (forall a, In a U -> a_dt a = dt) ->
  ((forall a, In a U -> a_kind a = NP) \/ (forall a, In a U -> a_kind a = TFT)) ->
  wf (a_t core) -> ndims (a_t core) <= 13 -> length U = ndims (a_t core) ->
  (forall k, k < length U -> matrix (mat_at (map a_t U) k) /\ ncols (mat_at (map a_t U) k) = nth k (shp (a_t core)) 0) ->
  ttensor_extract core U = Ok (dt, tucker_tensor (a_t core) (map a_t U)).
Proof. exact @c28. Qed.
Print Assumptions C28_ttensor_extract.

Example ex_C28 :
  ttensor_extract (mkArr NP F64 (mkT [2; 2] [1; 2; 0; 1]%Z)) (exK NP F64)
  = Ok (F64, mkT [2; 3] [1; 6; 20; 3; 16; 50]%Z).
Proof. vm_compute. reflexivity. Qed.

(** C29: Tucker matricization, U_n G_(n) (kron of the others, reversed)^T *)
Theorem C29_tucker_matricization : forall (T : Type) (N : Num T), RingLaws T ->
  forall (G : tensor T) (U : list (tensor T)) (X : tensor T) (n : nat), tt_extract G U = Ok X ->
  wf G -> 2 <= ndims G <= 13 -> length U = ndims G -> n < length U ->
  (forall k, k < length U -> matrix (mat_at U k) /\ ncols (mat_at U k) = nth k (shp G) 0) ->
  nrows (mat_at U n) <> 0 -> nth n (shp G) 0 <> 0 ->
  exists M W K P Kt, unfold X (Z.of_nat n) = Ok M /\ unfold G (Z.of_nat n) = Ok W /\
    kron U (SkInt (Z.of_nat n)) true = Ok K /\
    matprod (mat_at U n) W P /\ transposed K Kt /\ matprod P Kt M.
Proof. exact @c29. Qed.
Print Assumptions C29_tucker_matricization.

Example ex_C29 :
  let U := map a_t (exK TFT F32) in
  let G := mkT [2; 2] [1; 2; 0; 1]%Z in
  tt_extract G U = Ok (mkT [2; 3] [1; 6; 20; 3; 16; 50]%Z) /\
  unfold (mkT [2; 3] [1; 6; 20; 3; 16; 50]%Z) 1 = Ok (mkT [3; 2] [1; 3; 6; 16; 20; 50]%Z) /\
  unfold G 1 = Ok (mkT [2; 2] [1; 0; 2; 1]%Z) /\
  kron U (SkInt 1) true = Ok (mkT [2; 2] [1; 2; 3; 4]%Z).
Proof. vm_compute. repeat split; reflexivity. Qed.
