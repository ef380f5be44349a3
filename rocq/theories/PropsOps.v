(** Property theorems C08-C10, C14-C22: mul, inner, hadamard, kron, khatri, skip
    indices, max_single_value_mul, xcb. *)

From Coq Require Import ZArith List Bool Arith Permutation Reals.
From Verif Require Import Num Py Tensor TF Ops Spec SpecR MulFacts KronFacts OpsLemmas.
Import ListNotations.

(** C08: mul is tensor contraction.  [merge n ax k i] is the multi-index with
    coordinates k on the axes ax and i on the free ones. *)
Theorem C08_mul_contraction : forall (T : Type) (N : Num T), RingLaws T ->
  forall (A B : tensor T) (a b : list nat),
  NoDup a -> NoDup b -> (forall x, In x a -> x < ndims A) -> (forall x, In x b -> x < ndims B) ->
  pick a (shp A) = pick b (shp B) ->
  exists r, mul A B (AList (map Z.of_nat a)) (AList (map Z.of_nat b)) = Ok r /\ wf r /\
    shp r = pick (free_axes a (ndims A)) (shp A) ++ pick (free_axes b (ndims B)) (shp B) /\
    forall i j, valid (pick (free_axes a (ndims A)) (shp A)) i ->
                valid (pick (free_axes b (ndims B)) (shp B)) j ->
      get r (i ++ j) = msum (pick a (shp A)) (fun k =>
        nmul (get A (merge (ndims A) a k i)) (get B (merge (ndims B) b k j))).
Proof. exact @mul_ok. Qed.
Print Assumptions C08_mul_contraction.

(** what [merge] means: it is the only multi-index with these coordinates *)
Theorem C08_merge_spec : forall n ax k i, NoDup ax -> (forall a, In a ax -> a < n) ->
  length k = length ax -> length i = length (free_axes ax n) ->
  length (merge n ax k i) = n /\ pick ax (merge n ax k i) = k /\
  pick (free_axes ax n) (merge n ax k i) = i.
Proof. exact c08_merge. Qed.
Print Assumptions C08_merge_spec.

(** an int axis means the one-element list *)
Theorem C08_mul_int : forall (T : Type) (N : Num T) (A B : tensor T) (a b : Z),
  mul A B (AInt a) (AInt b) = mul A B (AList [a]) (AList [b]).
Proof. reflexivity. Qed.
Print Assumptions C08_mul_int.

(** different numbers of contracted elements are rejected *)
Theorem C08_mul_mismatch : forall (T : Type) (N : Num T) (A B : tensor T) (a b : list nat),
  NoDup a -> NoDup b -> (forall x, In x a -> x < ndims A) -> (forall x, In x b -> x < ndims B) ->
  nprod (pick a (shp A)) <> nprod (pick b (shp B)) ->
  mul A B (AList (map Z.of_nat a)) (AList (map Z.of_nat b)) = Raise ValueError.
Proof. exact @mul_err. Qed.
Print Assumptions C08_mul_mismatch.

Definition exA : tensor Z := mkT [2; 3; 2] (map Z.of_nat (seq 1 12)).
Definition exB : tensor Z := mkT [2; 2; 3] (map Z.of_nat (seq 3 12)).
Example ex_C08 : mul exA exB (AList [1%Z; 0%Z]) (AList [2%Z; 0%Z]) =
  Ok (mkT [2; 2] [314; 422; 356; 482]%Z)
  /\ pick [1; 0] (shp exA) = pick [2; 0] (shp exB).
Proof. split; vm_compute; reflexivity. Qed.

(** C69: contracted sizes that agree only in total are accepted (refuted). *)
Theorem C69_mul_sizes_refuted : exists (A B : tensor Z) r,
  wf A /\ wf B /\ pick [0; 1] (shp A) <> pick [0; 1] (shp B) /\
  mul A B (AList [0%Z; 1%Z]) (AList [0%Z; 1%Z]) = Ok r.
Proof. exact c69_refuted. Qed.
Print Assumptions C69_mul_sizes_refuted.

(** C09: mul(A,B,1,0) is the matrix product. *)
Theorem C09_mul_matrix_product_partial : forall (T : Type) (N : Num T), RingLaws T ->
  forall (A B : tensor T) m k n, is_mat A m k -> is_mat B k n ->
  exists C, mul A B (AInt 1) (AInt 0) = Ok C /\ matprod A B C.
Proof. exact @c09. Qed.
Print Assumptions C09_mul_matrix_product_partial.

(** mul(A,B,0,1) is the transpose of BA ... *)
Theorem C09_mul_01_is_transpose : forall (T : Type) (N : Num T), RingLaws T ->
  forall (A B : tensor T) m k n, is_mat A k m -> is_mat B n k ->
  exists C P, mul A B (AInt 0) (AInt 1) = Ok C /\ matprod B A P /\ transposed P C.
Proof. exact @c09_01. Qed.
Print Assumptions C09_mul_01_is_transpose.

(** ... and not BA, as documented. *)
Theorem C09_mul_01_documented_refuted : exists (A B P : tensor Z),
  matprod B A P /\ mul A B (AInt 0) (AInt 1) <> Ok P.
Proof. exact c09_refuted. Qed.
Print Assumptions C09_mul_01_documented_refuted.

Example ex_C09 : mul (mkT [2; 3] [1; 2; 3; 4; 5; 6]%Z) (mkT [3; 2] [1; 0; 2; 1; 0; 3]%Z) (AInt 1) (AInt 0)
  = Ok (mkT [2; 2] [5; 11; 14; 23]%Z).
Proof. vm_compute. reflexivity. Qed.

(** C10: a tuple axis always raises TypeError (so the documented tuple form never works). *)
Theorem C10_mul_tuple_raises : forall (T : Type) (N : Num T) (A B : tensor T) (a b : list nat),
  NoDup a -> (forall x, In x a -> x < ndims A) -> (forall x, In x b -> x < ndims B) ->
  mul A B (ATuple (map Z.of_nat a)) (AList (map Z.of_nat b)) = Raise TypeError /\
  mul A B (ATuple (map Z.of_nat a)) (ATuple (map Z.of_nat b)) = Raise TypeError /\
  mul A B (AList (map Z.of_nat a)) (ATuple (map Z.of_nat b)) = Raise TypeError.
Proof. exact @c10. Qed.
Print Assumptions C10_mul_tuple_raises.

Theorem C10_mul_tuple_refuted : exists (A B : tensor Z) (a b : list Z) r,
  mul A B (AList a) (AList b) = Ok r /\ mul A B (ATuple a) (ATuple b) <> Ok r.
Proof. exact c10_refuted. Qed.
Print Assumptions C10_mul_tuple_refuted.

(** C14: inner is the Frobenius inner product. *)
Theorem C14_inner : forall (T : Type) (N : Num T), RingLaws T ->
  forall A B : tensor T, wf A -> wf B -> shp A = shp B ->
  inner A B = Ok (msum (shp A) (fun i => nmul (get A i) (get B i))).
Proof. exact @c14. Qed.
Print Assumptions C14_inner.

Theorem C14_inner_symmetric : forall (T : Type) (N : Num T), RingLaws T ->
  forall A B : tensor T, wf A -> wf B -> shp A = shp B -> inner A B = inner B A.
Proof. exact @c14_sym. Qed.
Print Assumptions C14_inner_symmetric.

Theorem C14_inner_bilinear : forall (T : Type) (N : Num T), RingLaws T ->
  forall (A A' B C : tensor T) (x y u v : T),
  wf A -> wf A' -> wf B -> wf C -> shp A' = shp A -> shp B = shp A -> shp C = shp A ->
  (forall i, valid (shp A) i -> get C i = nadd (nmul x (get A i)) (nmul y (get A' i))) ->
  inner A B = Ok u -> inner A' B = Ok v ->
  inner C B = Ok (nadd (nmul x u) (nmul y v)).
Proof. exact @c14_bil. Qed.
Print Assumptions C14_inner_bilinear.

Theorem C14_inner_positive : forall (A : tensor R), wf A ->
  exists v, inner A A = Ok v /\ (0 <= v)%R /\
    (v = 0%R <-> forall i, valid (shp A) i -> get A i = 0%R).
Proof. exact c14_pos. Qed.
Print Assumptions C14_inner_positive.

Theorem C14_inner_shapes : forall (T : Type) (N : Num T) (A B : tensor T),
  shp A <> shp B -> inner A B = Raise ValueError.
Proof. exact @inner_err. Qed.
Print Assumptions C14_inner_shapes.

Example ex_C14 : inner exA exA = Ok 650%Z /\ inner exA exB = Raise ValueError.
Proof. split; vm_compute; reflexivity. Qed.

(** C15: hadamard is the entrywise product. *)
Theorem C15_hadamard : forall (T : Type) (N : Num T), RingLaws T ->
  forall (l : list (tensor T)) (s : list nat), l <> [] ->
  (forall M, In M l -> wf M /\ shp M = s) ->
  exists H, hadamard l SkNone = Ok H /\ wf H /\ shp H = s /\
    forall i, valid s i -> get H i = bigprod (length l) (fun k => get (mat_at l k) i).
Proof. exact @c15. Qed.
Print Assumptions C15_hadamard.

Theorem C15_hadamard_order : forall (T : Type) (N : Num T), RingLaws T ->
  forall (l l' : list (tensor T)) (s : list nat),
  (forall M, In M l -> wf M /\ shp M = s) -> Permutation l l' ->
  hadamard l SkNone = hadamard l' SkNone.
Proof. exact @c15_perm. Qed.
Print Assumptions C15_hadamard_order.

Theorem C15_hadamard_empty : forall (T : Type) (N : Num T) (l : list (tensor T)) (s : skiparg),
  without (skipset s) l = [] -> hadamard l s = Raise TypeError.
Proof. exact @c15_nil. Qed.
Print Assumptions C15_hadamard_empty.

Example ex_C15 : hadamard [mkT [2; 2] [1; 2; 3; 4]%Z; mkT [2; 2] [5; 6; 7; 8]%Z; mkT [2; 2] [2; 1; 0; -1]%Z] SkNone
  = Ok (mkT [2; 2] [10; 12; 0; -32]%Z) /\ hadamard [exA; exA] (SkList [0; 1]%Z) = Raise TypeError.
Proof. split; vm_compute; reflexivity. Qed.

(** C16: kron *)
Theorem C16_kron : forall (T : Type) (N : Num T), RingLaws T -> forall l : list (tensor T),
  l <> [] -> length l <= 13 -> (forall M, In M l -> matrix M) ->
  exists K, kron l SkNone false = Ok K /\ is_kron l K.
Proof. exact @kron_ok. Qed.
Print Assumptions C16_kron.

Theorem C16_kron_reverse : forall (T : Type) (N : Num T) (l : list (tensor T)),
  kron l SkNone true = kron (rev l) SkNone false.
Proof. reflexivity. Qed.
Print Assumptions C16_kron_reverse.

Theorem C16_kron_limits : forall (T : Type) (N : Num T) (l : list (tensor T)),
  l = [] \/ 13 < length l -> kron l SkNone false = Raise ValueError.
Proof. exact @c16_lim. Qed.
Print Assumptions C16_kron_limits.

Definition exM : tensor Z := mkT [2; 2] [1; 2; 3; 4]%Z.
Definition exN : tensor Z := mkT [1; 2] [5; -1]%Z.
Example ex_C16 : kron [exM; exN] SkNone false = Ok (mkT [2; 4] [5; -1; 10; -2; 15; -3; 20; -4]%Z)
  /\ kron (repeat exN 14) SkNone false = Raise ValueError /\ matrix exM /\ matrix exN.
Proof. repeat split; vm_compute; reflexivity. Qed.

(** C17: mixed product for lists of any length, identities, associativity *)
Theorem C17_kron_mixed : forall (T : Type) (N : Num T), RingLaws T ->
  forall (As Bs Cs : list (tensor T)) (KA KB KC : tensor T),
  length As = length Bs -> length As = length Cs ->
  (forall k, k < length As -> matprod (mat_at As k) (mat_at Bs k) (mat_at Cs k)) ->
  kron As SkNone false = Ok KA -> kron Bs SkNone false = Ok KB -> kron Cs SkNone false = Ok KC ->
  matprod KA KB KC.
Proof. exact @c17_mixed. Qed.
Print Assumptions C17_kron_mixed.

Theorem C17_kron_identity : forall (T : Type) (N : Num T), RingLaws T ->
  forall (l : list (tensor T)) (K : tensor T),
  (forall A, In A l -> is_identity (nrows A) A) -> kron l SkNone false = Ok K ->
  is_identity (nprod (map nrows l)) K.
Proof. exact @c17_id. Qed.
Print Assumptions C17_kron_identity.

Theorem C17_kron_associative : forall (T : Type) (N : Num T), RingLaws T ->
  forall (l1 l2 : list (tensor T)) (K1 K2 : tensor T),
  (forall M, In M (l1 ++ l2) -> matrix M) -> length (l1 ++ l2) <= 13 ->
  kron l1 SkNone false = Ok K1 -> kron l2 SkNone false = Ok K2 ->
  kron (l1 ++ l2) SkNone false = kron [K1; K2] SkNone false.
Proof. exact @c17_assoc. Qed.
Print Assumptions C17_kron_associative.

Example ex_C17 : kron [exM; exN; exM] SkNone false =
  (do K <- kron [exM; exN] SkNone false; kron [K; exM] SkNone false)
  /\ is_identity 2 (mkT [2; 2] [1; 0; 0; 1]%Z)
  /\ matprod exN exM (mkT [1; 2] [2; 6]%Z).
Proof. exact ex_c17. Qed.

(** C18: khatri *)
Theorem C18_khatri : forall (T : Type) (N : Num T), RingLaws T -> forall (l : list (tensor T)) (R : nat),
  l <> [] -> length l <= 25 -> (forall M, In M l -> matrix M /\ ncols M = R) ->
  exists K, khatri l SkNone false = Ok K /\ is_khatri l R K.
Proof. exact @khatri_ok. Qed.
Print Assumptions C18_khatri.

Theorem C18_khatri_reverse : forall (T : Type) (N : Num T) (l : list (tensor T)),
  khatri l SkNone true = khatri (rev l) SkNone false.
Proof. reflexivity. Qed.
Print Assumptions C18_khatri_reverse.

Theorem C18_khatri_limits : forall (T : Type) (N : Num T) (l : list (tensor T)),
  l = [] \/ 25 < length l -> khatri l SkNone false = Raise ValueError.
Proof. exact @c18_lim. Qed.
Print Assumptions C18_khatri_limits.

(** unequal column counts are rejected too *)
Theorem C18_khatri_columns : forall (T : Type) (N : Num T) (l : list (tensor T)) (A B : tensor T),
  (forall M, In M l -> matrix M) -> In A l -> In B l -> ncols A <> ncols B ->
  khatri l SkNone false = Raise ValueError.
Proof. exact @c18_cols. Qed.
Print Assumptions C18_khatri_columns.

Example ex_C18 : khatri [exM; exN] SkNone false = Ok (mkT [2; 2] [5; -2; 15; -4]%Z)
  /\ khatri [exM; mkT [2; 1] [1; 1]%Z] SkNone false = Raise ValueError.
Proof. split; vm_compute; reflexivity. Qed.

(** C19: Gram matrix of a Khatri-Rao product *)
Theorem C19_khatri_gram : forall (T : Type) (N : Num T), RingLaws T ->
  forall (l : list (tensor T)) (R : nat) (K : tensor T),
  l <> [] -> (forall M, In M l -> matrix M /\ ncols M = R) ->
  khatri l SkNone false = Ok K ->
  exists Gs H, mapM (fun M => tf_matmul true false M M) l = Ok Gs /\
    hadamard Gs SkNone = Ok H /\ tf_matmul true false K K = Ok H.
Proof. exact @c19. Qed.
Print Assumptions C19_khatri_gram.

Example ex_C19 : exists K H, khatri [exM; exN] SkNone false = Ok K /\
  tf_matmul true false K K = Ok H /\
  (do Gs <- mapM (fun M => tf_matmul true false M M) [exM; exN]; hadamard Gs SkNone) = Ok H /\
  H = mkT [2; 2] [250; -70; -70; 20]%Z.
Proof. eexists; eexists. repeat split; vm_compute; reflexivity. Qed.

(** C20: a skip index removes exactly the named positions *)
Theorem C20_skip : forall (T : Type) (N : Num T) (l : list (tensor T)) (s : skiparg) (rv : bool)
    (svals : tensor T -> list T) (X : tensor T) (tr : bool),
  hadamard l s = hadamard (without (skipset s) l) SkNone /\
  kron l s rv = kron (without (skipset s) l) SkNone rv /\
  khatri l s rv = khatri (without (skipset s) l) SkNone rv /\
  max_single_value_mul svals l s = max_single_value_mul svals (without (skipset s) l) SkNone /\
  (s <> SkNone -> length l <= ndims X ->
   ttm X l None tr s =
   ttm X (without (skipset s) l) (Some (map Z.of_nat (kept (skipset s) (length l)))) tr SkNone).
Proof. exact @c20. Qed.
Print Assumptions C20_skip.

(** what remains, and that positions outside 0..len-1 (negative ones included) remove nothing *)
Theorem C20_without_spec : forall (A : Type) (drop : list Z) (l : list A) (d : A),
  without drop l = map (fun k => nth k l d) (kept drop (length l)) /\
  (forall k, In k (kept drop (length l)) <-> k < length l /\ ~ In (Z.of_nat k) drop) /\
  ((forall z, In z drop -> (z < 0 \/ Z.of_nat (length l) <= z)%Z) -> without drop l = l).
Proof. exact @c20_without. Qed.
Print Assumptions C20_without_spec.

Example ex_C20 : kron [exM; exN; exM] (SkList [2; 0; -1; 7]%Z) false = Ok exN
  /\ khatri [exM; exN] (SkInt (-1)) false = khatri [exM; exN] SkNone false.
Proof. split; vm_compute; reflexivity. Qed.

(** C21: product of the largest SVD values *)
Theorem C21_max_single_value : forall (svals : tensor R -> list R) (l : list (tensor R)) (s : skiparg),
  (forall M, In M l -> svals M <> []) -> without (skipset s) l <> [] ->
  exists sig : tensor R -> R,
    (forall M, In M l -> In (sig M) (svals M) /\ forall x, In x (svals M) -> (x <= sig M)%R) /\
    max_single_value_mul svals l s = Ok (listprod (map sig (without (skipset s) l))).
Proof. exact c21. Qed.
Print Assumptions C21_max_single_value.

(** it is a Lipschitz bound: if each matrix stretches vectors by at most its largest SVD
    value then the Kronecker product stretches by at most the returned value, and its
    quadratic form is bounded by it *)
Theorem C21_lipschitz : forall (svals : tensor R -> list R) (l : list (tensor R)) (v : R) (K : tensor R),
  (forall M, In M l -> matrix M /\ nrows M = ncols M /\ (0 <= tf_max (svals M))%R /\
             stretches_at_most M (tf_max (svals M))) ->
  max_single_value_mul svals l SkNone = Ok v -> kron l SkNone false = Ok K ->
  stretches_at_most K v /\
  forall x : nat -> R, (quadform K x <= v * bigsum (ncols K) (fun j => x j * x j))%R.
Proof. exact c21_lip. Qed.
Print Assumptions C21_lipschitz.

Example ex_C21 : max_single_value_mul (fun M : tensor R => [1; 3; 2]%R) [mkT [1;1] [1%R]; mkT [1;1] [1%R]] SkNone = Ok 9%R.
Proof. exact ex_c21. Qed.
Example ex_C21_lip : let M := mkT [2; 2] [2; 0; 0; 3]%R in
  matrix M /\ stretches_at_most M 3%R.
Proof. exact ex_c21_lip. Qed.

(** C22: xcb is the mode-0 MTTKRP, zeros in X included *)
Theorem C22_xcb : forall (T : Type) (N : Num T), RingLaws T ->
  (forall x : T, neqb x n0 = true -> x = n0) ->
  forall (X C B : tensor T) I J K R, wf X -> shp X = [I; J; K] -> I <> 0 -> R <> 0 ->
  is_mat C K R -> is_mat B J R ->
  exists U H Y, unfold X 0 = Ok U /\ khatri [C; B] SkNone false = Ok H /\ xcb X C B = Ok Y /\
    matprod U H Y.
Proof. exact @c22. Qed.
Print Assumptions C22_xcb.

Example ex_C22 : xcb (mkT [1; 2; 2] [1; 0; 3; 4]%Z) exM (mkT [2; 2] [1; 1; 0; 2]%Z) =
  Ok (mkT [1; 2] [1; 46]%Z).
Proof. vm_compute. reflexivity. Qed.
