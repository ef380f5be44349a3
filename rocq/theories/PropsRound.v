(** C94, C95: rounding of the tensor operations in floating point. *)

From Coq Require Import ZArith Reals List Bool SpecFloat Lra Lia Permutation.
From Verif Require Import Num Py Tensor TF Ops Types Loss Sums Spec TProg FloatFacts RoundFacts SpecRound.
Import ListNotations.
Local Open Scope R_scope.

(** C94: one operation of a format makes a relative error of at most the unit roundoff, and
    for products, quotients and square roots an underflow of at most half the smallest number *)
Theorem C94_operations : forall prec emax, format prec emax ->
  let u := unit_roundoff prec in let eta := underflow_unit prec emax in
  forall x y, f_multiple prec emax x -> f_multiple prec emax y ->
  (let z := @nadd _ (NumFl prec emax) x y in f_multiple prec emax z /\ (f_finite z -> Rabs (f_val z - (f_val x + f_val y)) <= u * Rabs (f_val x + f_val y))) /\
  (let z := @nsub _ (NumFl prec emax) x y in f_multiple prec emax z /\ (f_finite z -> Rabs (f_val z - (f_val x - f_val y)) <= u * Rabs (f_val x - f_val y))) /\
  (let z := @nmul _ (NumFl prec emax) x y in f_multiple prec emax z /\ (f_finite z -> Rabs (f_val z - f_val x * f_val y) <= u * Rabs (f_val x * f_val y) + eta)) /\
  (f_finite x -> f_finite y -> let z := @ndiv _ (NumFl prec emax) x y in
     f_multiple prec emax z /\ (f_finite z -> f_val y <> 0 /\ Rabs (f_val z - f_val x / f_val y) <= u * Rabs (f_val x / f_val y) + eta)) /\
  (f_finite x -> let z := @nsqrt _ (NumFl prec emax) x in
     f_multiple prec emax z /\ (f_finite z -> 0 <= f_val x /\ Rabs (f_val z - sqrt (f_val x)) <= u * sqrt (f_val x) + eta)).
Proof. exact operations. Qed.
Print Assumptions C94_operations.

(** every program made of the tensor operations: it raises in floating point exactly when
    (and what) it raises over the reals; otherwise entry by entry the finite results are
    within the bound computed by running the program on absolute values, every operation
    enlarged by its own rounding *)
Theorem C94_program : forall prec emax, format prec emax -> forall env e, Forall (of_format prec emax) env ->
  match teval (N := NumFl prec emax) env e with
  | Raise x => teval (map (tmap f_val) env) e = Raise x
  | Ok Y => exists B C D,
      teval (map (tmap f_val) env) e = Ok B /\
      teval (N := NumAbs) (map (tmap abs_val) env) e = Ok C /\
      teval (N := NumInfl (unit_roundoff prec) (underflow_unit prec emax)) (map (tmap abs_val) env) e = Ok D /\
      shp Y = shp B /\ shp C = shp B /\ shp D = shp B /\
      length (dat Y) = length (dat B) /\ length (dat C) = length (dat B) /\ length (dat D) = length (dat B) /\
      forall k, (k < length (dat Y))%nat -> f_finite (nth k (dat Y) S754_nan) ->
        Rabs (f_val (nth k (dat Y) S754_nan) - nth k (dat B) 0) <= nth k (dat D) 0 - nth k (dat C) 0
  end.
Proof. exact program_error. Qed.
Print Assumptions C94_program.

(** the same with one power of 1 + u per entry, the exponent being the number of roundings on
    the way to the entry *)
Theorem C94_depth : forall prec emax, format prec emax -> forall env e Y,
  Forall (of_format prec emax) env -> teval (N := NumFl prec emax) env e = Ok Y ->
  exists B C E d,
    teval (map (tmap f_val) env) e = Ok B /\
    teval (N := NumAbs) (map (tmap abs_val) env) e = Ok C /\
    teval (N := NumInfl 0 (underflow_unit prec emax)) (map (tmap abs_val) env) e = Ok E /\
    teval (N := NumDepth) (map (tmap (fun _ => 0%nat)) env) e = Ok d /\
    (shp Y = shp B /\ shp C = shp B /\ shp E = shp B /\ shp d = shp B) /\
    (length (dat Y) = length (dat B) /\ length (dat C) = length (dat B) /\ length (dat E) = length (dat B) /\ length (dat d) = length (dat B)) /\
    forall k, (k < length (dat Y))%nat -> f_finite (nth k (dat Y) S754_nan) ->
      Rabs (f_val (nth k (dat Y) S754_nan) - nth k (dat B) 0) <=
      (1 + unit_roundoff prec) ^ nth k (dat d) 0%nat * nth k (dat E) 0 - nth k (dat C) 0.
Proof. exact program_bound. Qed.
Print Assumptions C94_depth.

(** the inner product of two tensors of n entries *)
Theorem C94_inner : forall prec emax, format prec emax -> forall A B v, wf A -> wf B -> shp A = shp B ->
  of_format prec emax A -> of_format prec emax B -> inner (N := NumFl prec emax) A B = Ok v -> f_finite v ->
  let u := unit_roundoff prec in let n := prod (shp A) in
  Rabs (f_val v - Rsum (map (fun i => get (tmap f_val A) i * get (tmap f_val B) i) (indices (shp A)))) <=
  ((1 + u) ^ (n + 1) - 1) * Rsum (map (fun i => Rabs (get (tmap f_val A) i * get (tmap f_val B) i)) (indices (shp A)))
  + INR n * (1 + u) ^ (n + 1) * underflow_unit prec emax.
Proof. exact inner_formula. Qed.
Print Assumptions C94_inner.

(** the tensor product contracting axes of sizes ds *)
Theorem C94_mul : forall prec emax, format prec emax -> forall A B0 a b ds Y,
  of_format prec emax A -> of_format prec emax B0 -> mapM (dim A) a = Ok ds -> mul (N := NumFl prec emax) A B0 (AList a) b = Ok Y ->
  exists B C E,
    mul (tmap f_val A) (tmap f_val B0) (AList a) b = Ok B /\
    mul (tmap abs_val A) (tmap abs_val B0) (AList a) b = Ok C /\
    mul (N := NumInfl 0 (underflow_unit prec emax)) (tmap abs_val A) (tmap abs_val B0) (AList a) b = Ok E /\
    shp Y = shp B /\ shp C = shp B /\ shp E = shp B /\
    forall k, (k < length (dat Y))%nat -> f_finite (nth k (dat Y) S754_nan) ->
      Rabs (f_val (nth k (dat Y) S754_nan) - nth k (dat B) 0) <=
      (1 + unit_roundoff prec) ^ (prod ds + 1) * nth k (dat E) 0 - nth k (dat C) 0.
Proof. exact mul_bound. Qed.
Print Assumptions C94_mul.

(** the tensor of a Kruskal form of rank r and order N: r + N + 2 roundings *)
Theorem C94_ktensor : forall prec emax, format prec emax -> forall U lam r Y, U <> [] -> (length U <= 25)%nat ->
  (forall M, In M U -> matrix M /\ ncols M = r) -> is_mat lam r 1 ->
  Forall (of_format prec emax) U -> of_format prec emax lam ->
  kt_extract (N := NumFl prec emax) U lam = Ok Y ->
  exists E, kt_extract (N := NumInfl 0 (underflow_unit prec emax)) (map (tmap abs_val) U) (tmap abs_val lam) = Ok E /\
    shp Y = map nrows U /\ shp E = map nrows U /\
    forall k, (k < length (dat Y))%nat -> f_finite (nth k (dat Y) S754_nan) ->
      Rabs (f_val (nth k (dat Y) S754_nan) - nth k (dat (cp_tensor r (tmap f_val lam) (map (tmap f_val) U))) 0) <=
      (1 + unit_roundoff prec) ^ (r + length U + 2) * nth k (dat E) 0 - nth k (dat (cp_tensor r (tmap abs_val lam) (map (tmap abs_val) U))) 0.
Proof. exact kt_formula. Qed.
Print Assumptions C94_ktensor.

(** a sum evaluated in any order and with any parentheses, as a parallel kernel may *)
Theorem C94_any_order : forall prec emax, format prec emax -> forall x t,
  Forall (f_multiple prec emax) x -> Permutation (leaves t) (seq 0 (length x)) ->
  let y := tree_sum (N := NumFl prec emax) x t in
  f_finite y -> Rabs (f_val y - Rsum (map f_val x)) <= ((1 + unit_roundoff prec) ^ (length x - 1) - 1) * Rsum (map abs_val x).
Proof. exact any_order. Qed.
Print Assumptions C94_any_order.

(** unfold, fold, t2mat, vectorize, vec_to_tensor and indexing do not round: they commute with
    every entrywise map that keeps 0, in particular from single to double precision and back *)
Theorem C94_moves : forall (A B : Type) (NA : Num A) (NB : Num B) (f : A -> B) env e, f n0 = n0 -> moves e ->
  teval (map (tmap f) env) e = res_map (tmap f) (teval env e).
Proof. exact @moves_hom. Qed.
Print Assumptions C94_moves.

(** the terms of programs are the methods of DTensor objects and the library functions *)
Theorem C94_terms : forall (T : Type) (N : Num T) env e f l A B ms,
  teval env e = Ok A -> teval env f = Ok B -> tevals env l = Ok ms ->
  let call c := snd (dcall_exec (dtensor_init A) c) in let other := OD (dtensor_init B) in
  (forall m, teval env (XUnfold e m) = call (CUnfold m)) /\ (forall m s, teval env (XFold e m s) = fold A m s) /\
  (forall r c, teval env (XT2mat e r c) = call (CT2mat r c)) /\ teval env (XVec e) = call CVectorize /\
  (forall s, teval env (XVecTo e s) = vec_to_tensor A s) /\ (forall a b, teval env (XMul e f a b) = call (CMul other a b)) /\
  (forall ax t sk, teval env (XTtm e l ax t sk) = ttm A ms ax t sk) /\ (forall v, inner A B = Ok v -> teval env (XInner e f) = Ok (mkT [] [v])) /\
  (forall sk, teval env (XHad l sk) = hadamard ms sk) /\ (forall sk rv, teval env (XKron l sk rv) = kron ms sk rv) /\
  (forall sk rv, teval env (XKhatri l sk rv) = khatri ms sk rv) /\ teval env (XAdd e f) = call (CAdd other) /\
  teval env (XSub e f) = call (CSub other) /\ teval env (XMulE e f) = call (CMulE other) /\
  (forall i, teval env (XGet e i) = call (CGetitem i)) /\ teval env (XKt l e) = kt_extract ms A /\ teval env (XTt e l) = tt_extract A ms /\
  (forall v, l2 A B = Ok v -> teval env (XL2 e f) = Ok (mkT [] [v])).
Proof. exact @terms_run. Qed.
Print Assumptions C94_terms.
Example ex_C94_terms : teval [mkT [2%nat] [5; 7]%Z; mkT [2%nat] [1; 4]%Z] (XSub (XVar 0) (XVar 1)) = Ok (mkT [2%nat] [4; 3]%Z).
Proof. reflexivity. Qed.

(** C95: on tensors of integers every program is exact in the entries for which no
    intermediate result exceeds 2^prec (2^24 in single precision) *)
Theorem C95_integers : forall prec emax, format prec emax -> forall env zenv e P, Forall2 (int_tensor prec emax) env zenv ->
  teval (N := NumChk (2 ^ prec)) (map (tmap (fun z => (z, true))) zenv) e = Ok P ->
  exists Y, teval (N := NumFl prec emax) env e = Ok Y /\ teval (N := NumZ) zenv e = Ok (tmap fst P) /\
    shp Y = shp P /\ length (dat Y) = length (dat P) /\
    forall k, (k < length (dat Y))%nat -> snd (nth k (dat P) (0%Z, false)) = true ->
      f_finite (nth k (dat Y) S754_nan) /\ f_val (nth k (dat Y) S754_nan) = IZR (fst (nth k (dat P) (0%Z, false))).
Proof. exact program_exact. Qed.
Print Assumptions C95_integers.

(** sums of integers do not depend on the order while the absolute values sum to at most 2^prec *)
Theorem C95_any_order : forall prec emax, format prec emax -> forall x z t,
  Forall2 (is_int prec emax) x z -> Permutation (leaves t) (seq 0 (length x)) -> (zsum (map Z.abs z) <= 2 ^ prec)%Z ->
  is_int prec emax (tree_sum (N := NumFl prec emax) x t) (zsum z).
Proof. exact tree_exact. Qed.
Print Assumptions C95_any_order.

(** the inner product of integer tensors *)
Theorem C95_inner : forall prec emax, format prec emax -> forall A B ZA ZB, wf A -> wf B -> shp A = shp B ->
  int_tensor prec emax A ZA -> int_tensor prec emax B ZB ->
  (zsum (map (fun i => Z.abs (get ZA i * get ZB i)) (indices (shp A))) <= 2 ^ prec)%Z ->
  exists v, inner (N := NumFl prec emax) A B = Ok v /\ is_int prec emax v (zsum (map (fun i => (get ZA i * get ZB i)%Z) (indices (shp A)))).
Proof. exact inner_exact. Qed.
Print Assumptions C95_inner.

(** the bound 2^24 is the best possible: the sum of 2^24 and 1 is not exact *)
Theorem C95_sharp : exists x y, is_int 24 128 x (2 ^ 24) /\ is_int 24 128 y 1 /\
  f_val (@nadd _ (NumFl 24 128) x y) = IZR (2 ^ 24) /\ f_val (@nadd _ (NumFl 24 128) x y) <> f_val x + f_val y.
Proof. exact beyond. Qed.
Print Assumptions C95_sharp.

(** *** examples *)
Definition fl (z : Z) : spec_float := @nofZ _ NumF32 z.
Definition fq (a b : Z) : spec_float := @ndiv _ NumF32 (fl a) (fl b).

Example ex_formats : format 24 128 /\ format 53 1024 /\ NumFl 24 128 = NumF32.
Proof. split; [split; lia|]. split; [split; lia|]. reflexivity. Qed.

(** a contraction with rounding errors: the entries are thirds and tenths *)
Example ex_C94_mul :
  let A := mkT [2; 2]%nat [fq 1 3; fq 1 10; fq 7 1; fq (-2) 3] in
  let B := mkT [2]%nat [fq 1 7; fq (-1) 3] in
  of_format 24 128 A /\ of_format 24 128 B /\ mapM (dim A) [0%Z] = Ok [2%nat] /\
  exists Y, mul (N := NumFl 24 128) A B (AList [0%Z]) (AList [0%Z]) = Ok Y /\ shp Y = [2%nat] /\
    Forall f_finite (dat Y) /\
    teval (N := NumDepth) (map (tmap (fun _ => 0%nat)) [A; B]) (XMul (XVar 0) (XVar 1) (AList [0%Z]) (AList [0%Z])) = Ok (mkT [2%nat] [3; 3]%nat).
Proof.
  cbn zeta. split; [repeat constructor; cbn; lia|]. split; [repeat constructor; cbn; lia|]. split; [reflexivity|].
  eexists. split; [vm_compute; reflexivity|]. split; [reflexivity|]. split; [repeat constructor|]. vm_compute. reflexivity.
Qed.

(** the error of an inner product is not 0 in general: 2^24 + 1 is rounded to 2^24 *)
Example ex_C94_inner :
  let A := mkT [2; 1]%nat [fl 1; fl 16777216] in let B := mkT [2; 1]%nat [fl 1; fl 1] in
  wf A /\ wf B /\ of_format 24 128 A /\ of_format 24 128 B /\
  inner (N := NumFl 24 128) A B = Ok (fl 16777216) /\ f_finite (fl 16777216) /\ f_val (fl 16777216) = 16777216%R.
Proof.
  cbn zeta. split; [reflexivity|]. split; [reflexivity|]. split; [repeat constructor; cbn; lia|]. split; [repeat constructor; cbn; lia|].
  split; [vm_compute; reflexivity|]. apply (ofZ_spec 24 128 ltac:(split; lia) 16777216 ltac:(cbn; lia)).
Qed.
Example ex_C94_ktensor :
  let U := [mkT [2; 2]%nat [fq 1 3; fq 1 10; fq 7 1; fq (-2) 3]; mkT [1; 2]%nat [fq 1 7; fq (-1) 3]] in let lam := mkT [2; 1]%nat [fq 1 1; fq 3 10] in
  (forall M, In M U -> matrix M /\ ncols M = 2%nat) /\ is_mat lam 2 1 /\ Forall (of_format 24 128) U /\ of_format 24 128 lam /\
  exists Y, kt_extract (N := NumFl 24 128) U lam = Ok Y /\ shp Y = [2; 1]%nat /\ Forall f_finite (dat Y).
Proof.
  cbn zeta. split; [intros M [<-|[<-|[]]]; repeat split|]. split; [repeat split|]. split; [repeat constructor; cbn; lia|]. split; [repeat constructor; cbn; lia|].
  eexists. split; [vm_compute; reflexivity|]. split; [reflexivity|repeat constructor].
Qed.

(** two orders of the same sum with different results, both within the bound *)
Example ex_C94_any_order :
  let x := [fl 16777216; fl 1; fl 1] in
  let t1 := Node (Node (Leaf 0) (Leaf 1)) (Leaf 2) in let t2 := Node (Leaf 0) (Node (Leaf 2) (Leaf 1)) in
  Forall (f_multiple 24 128) x /\ Permutation (leaves t1) (seq 0 3) /\ Permutation (leaves t2) (seq 0 3) /\
  tree_sum (N := NumFl 24 128) x t1 = fl 16777216 /\ tree_sum (N := NumFl 24 128) x t2 = fl 16777218 /\ fl 16777216 <> fl 16777218.
Proof.
  cbn zeta. split; [repeat constructor; cbn; lia|]. split; [apply Permutation_refl|]. split; [cbn; apply perm_skip, perm_swap|].
  split; [vm_compute; reflexivity|]. split; [vm_compute; reflexivity|]. vm_compute. discriminate.
Qed.

(** the program raises the same exception in both arithmetics *)
Example ex_C94_raise : let A := mkT [2]%nat [fl 1; fl 2] in let B := mkT [3]%nat [fl 1; fl 2; fl 3] in
  teval (N := NumFl 24 128) [A; B] (XInner (XVar 0) (XVar 1)) = Raise ValueError.
Proof. vm_compute. reflexivity. Qed.

Example ex_C94_moves : moves (XFold (XUnfold (XVar 0) 1) 1 [2; 3; 2]%nat).
Proof. repeat constructor. Qed.

(** Tucker and Kruskal tensors of small integers *)
Example ex_C95 :
  let e := XSub (XTt (XVar 0) [XVar 1; XVar 2]) (XKt [XVar 1; XVar 2] (XVar 3)) in
  let zenv := [mkT [2; 2]%nat [3; -1; 0; 5]; mkT [2; 2]%nat [1; 2; -3; 4]; mkT [1; 2]%nat [7; 100]; mkT [2; 1]%nat [1; -1]]%Z in
  let env := map (tmap fl) zenv in
  Forall2 (int_tensor 24 128) env zenv /\
  exists P, teval (N := NumChk (2 ^ 24)) (map (tmap (fun z => (z, true))) zenv) e = Ok P /\ Forall (fun p => snd p = true) (dat P) /\
    map fst (dat P) = [1114; 2658]%Z /\ shp P = [2; 1]%nat.
Proof.
  cbn zeta. split.
  - assert (G : forall z, (Z.abs z <= 2 ^ 24)%Z -> is_int 24 128 (fl z) z).
    { intros z Hz. apply (ofZ_spec 24 128 ltac:(split; lia) z Hz). }
    repeat (constructor; [split; [reflexivity|repeat (constructor; [apply G; cbn; lia|]); constructor]|]). constructor.
  - eexists. split; [vm_compute; reflexivity|]. split; [repeat constructor|]. split; reflexivity.
Qed.
Example ex_C95_inner :
  let A := mkT [3]%nat [fl 4000; fl (-2); fl 1] in let B := mkT [3]%nat [fl 4000; fl 3; fl 7] in
  inner (N := NumFl 24 128) A B = Ok (fl 16000001) /\
  (zsum (map (fun i => Z.abs (get (mkT [3%nat] [4000; -2; 1]%Z) i * get (mkT [3%nat] [4000; 3; 7]%Z) i)) (indices [3%nat])) <= 2 ^ 24)%Z.
Proof. cbn zeta. split; [vm_compute; reflexivity|]. vm_compute. discriminate. Qed.
