(** Property theorems for the decompositions on synthetic data (C79) and for CP_ALS on
    rank-one tensors (C80), over the real numbers.  [cast F32] is the conversion of the drawn
    numbers to float32; it may be any function. *)

From Coq Require Import ZArith List Bool Arith Reals Lia Lra.
From Verif Require Import Num Py Tensor TF Ops Types Loss Fact Train DataGen Spec SpecR SpecTrain SpecTucker SpecCp SpecBcu SpecProx SpecData QuasiEx DataRecover RankOne SynthEx.
Import ListNotations.
Local Open Scope R_scope.

(** C79: the data are the model of the drawn factors plus the clipped noise *)
Theorem C79_tucker_data : forall N_list rk (randg : tensor R) rand randn mn X, N_list <> [] -> (length N_list <= 13)%nat ->
  tucker_draws N_list rk randg rand randn -> synthetic_data_tucker N_list randg rand randn mn = Ok X ->
  X = gen N_list (fun idx => get (tucker_tensor (positive_part randg) (drawn (length N_list) rand)) idx + Rmax 0 (mn * get randn idx)).
Proof. exact tucker_data. Qed.
Print Assumptions C79_tucker_data.

Theorem C79_cp_data : forall (cast : dtype -> R -> R) N_list r rand randn mn X, N_list <> [] -> cp_draws N_list r rand randn ->
  synthetic_data_cp cast N_list rand randn mn = Ok X ->
  X = gen N_list (fun idx => get (cp_tensor r (ones r) (map (tf_map (cast F32)) (drawn (length N_list) rand))) idx + Rmax 0 (mn * get randn idx)).
Proof. exact cp_data. Qed.
Print Assumptions C79_cp_data.

(** the error of the trained model is at most order times the energy of the noise; without
    noise the data are reproduced *)
Theorem C79_hosvd_tucker : forall svdU N_list rk randg rand randn mn X ranks w o r n o' h id, left_svd svdU -> nonempty N_list ->
  (0 < length N_list <= 13)%nat -> tucker_draws N_list rk randg rand randn ->
  synthetic_data_tucker N_list randg rand randn mn = Ok X ->
  (length N_list <= length ranks)%nat -> (forall k, (k < length N_list)%nat -> (nth k rk 0 <= nth k ranks 0)%nat) ->
  o_built o = Some (map Z.of_nat ranks, id) -> hosvd_train svdU X w o r n = (o', Ok h) ->
  exists F, p_full (o_pub o') = Some F /\ sqdist X F <= INR (length N_list) * noise_energy mn randn /\ (mn = 0 -> F = X).
Proof. exact c79_hosvd_tucker. Qed.
Print Assumptions C79_hosvd_tucker.

Theorem C79_hosvd_cp : forall cast svdU N_list c rand randn mn X ranks w o r n o' h id, left_svd svdU -> nonempty N_list ->
  (0 < length N_list <= 13)%nat -> cp_draws N_list c rand randn -> synthetic_data_cp cast N_list rand randn mn = Ok X ->
  (length N_list <= length ranks)%nat -> (forall k, (k < length N_list)%nat -> (c <= nth k ranks 0)%nat) ->
  o_built o = Some (map Z.of_nat ranks, id) -> hosvd_train svdU X w o r n = (o', Ok h) ->
  exists F, p_full (o_pub o') = Some F /\ sqdist X F <= INR (length N_list) * noise_energy mn randn /\ (mn = 0 -> F = X).
Proof. exact c79_hosvd_cp. Qed.
Print Assumptions C79_hosvd_cp.

Theorem C79_hooi_tucker : forall svdU N_list rk randg rand randn mn X ranks w o r n o' h args id, left_svd svdU -> nonempty N_list ->
  N_list <> [] -> tucker_draws N_list rk randg rand randn -> synthetic_data_tucker N_list randg rand randn mn = Ok X ->
  nonempty ranks -> length ranks = length N_list -> (forall k, (k < length N_list)%nat -> (nth k rk 0 <= nth k ranks 0)%nat) ->
  o_built o = Some ((args, map Z.of_nat ranks), id) -> hooi_train svdU X w o r n = (o', Ok h) ->
  exists F, p_full (o_pub o') = Some F /\ sqdist X F <= INR (length N_list) * noise_energy mn randn /\
    (mn = 0 -> F = X /\ (0 < a_tol args -> (exists i, valid N_list i /\ get X i <> 0) -> h = [(0, 0)])).
Proof. exact c79_hooi_tucker. Qed.
Print Assumptions C79_hooi_tucker.

Theorem C79_hooi_cp : forall cast svdU N_list c rand randn mn X ranks w o r n o' h args id, left_svd svdU -> nonempty N_list ->
  N_list <> [] -> cp_draws N_list c rand randn -> synthetic_data_cp cast N_list rand randn mn = Ok X ->
  nonempty ranks -> length ranks = length N_list -> (forall k, (k < length N_list)%nat -> (c <= nth k ranks 0)%nat) ->
  o_built o = Some ((args, map Z.of_nat ranks), id) -> hooi_train svdU X w o r n = (o', Ok h) ->
  exists F, p_full (o_pub o') = Some F /\ sqdist X F <= INR (length N_list) * noise_energy mn randn /\
    (mn = 0 -> F = X /\ (0 < a_tol args -> (exists i, valid N_list i /\ get X i <> 0) -> h = [(0, 0)])).
Proof. exact c79_hooi_cp. Qed.
Print Assumptions C79_hooi_cp.

(** 2x2x2 data of rank 1; the noise has energy 0.06 *)
Example ex_C79 : exists svdU, left_svd svdU /\ nonempty [2; 2; 2]%nat /\ nonempty [1; 1; 1]%nat /\
  tucker_draws [2; 2; 2]%nat [1; 1; 1]%nat randg3 rand3 randn3 /\ cp_draws [2; 2; 2]%nat 1 rand3 randn3 /\ noise_energy (1/10) randn3 = 6/100 /\ noise_energy 0 randn3 = 0 /\
  forall mn, (exists X, synthetic_data_tucker [2; 2; 2]%nat randg3 rand3 randn3 mn = Ok X /\
    (exists o' h, hosvd_train svdU X (mkW [7%nat] true) (mkObj (Some (map Z.of_nat [1; 1; 1]%nat, 7%nat)) pub0) tt 5 = (o', Ok h)) /\
    (exists o' h, hooi_train svdU X (mkW [7%nat] true)
       (mkObj (Some ((mkArgs (1/10) 1%Z false, map Z.of_nat [1; 1; 1]%nat), 7%nat)) pub0) tt 5 = (o', Ok h))) /\
  (exists X, synthetic_data_cp (fun _ x => x) [2; 2; 2]%nat rand3 randn3 mn = Ok X /\
    (exists o' h, hosvd_train svdU X (mkW [7%nat] true) (mkObj (Some (map Z.of_nat [1; 1; 1]%nat, 7%nat)) pub0) tt 5 = (o', Ok h)) /\
    (exists o' h, hooi_train svdU X (mkW [7%nat] true)
       (mkObj (Some ((mkArgs (1/10) 1%Z false, map Z.of_nat [1; 1; 1]%nat), 7%nat)) pub0) tt 5 = (o', Ok h))).
Proof. exact ex79. Qed.

(** C80: one step of CP_ALS with one component reproduces a rank-one tensor, unless the
    maximum of some mode's solution is 0 *)
Theorem C80_cp_step : forall pinv (X : tensor R) A B o, penrose pinv -> cp_factors X 1 A -> cp_factors X 1 B ->
  X = cp_tensor 1 (ones 1) B -> cp_step pinv X 1 A = Ok o ->
  (forall n v, (n < ndims X)%nat -> column_max (als_solution pinv X 1 (mixed n (cp_A o) A) n) 0 v -> v <> 0) -> cp_full o = X.
Proof. exact c80_step. Qed.
Print Assumptions C80_cp_step.

(** when every factor has a positive entry and the initial ones of the modes from 1 on overlap
    with it, no maximum is 0 and the factors and the weight are the normalised ones *)
Theorem C80_cp_step_positive : forall pinv (X : tensor R) A B mx o, penrose pinv -> cp_factors X 1 A -> cp_factors X 1 B ->
  X = cp_tensor 1 (ones 1) B -> (forall k, (k < ndims X)%nat -> column_max (mat_at B k) 0 (mx k) /\ 0 < mx k) ->
  (forall k, (0 < k < ndims X)%nat -> 0 < bigsum (nth k (shp X) 0%nat) (fun i => mget (mat_at B k) i 0 * mget (mat_at A k) i 0)) ->
  cp_step pinv X 1 A = Ok o ->
  cp_full o = X /\ get (cp_lam o) [0%nat] = bigprod (ndims X) mx /\
  forall k i, (k < ndims X)%nat -> (i < nth k (shp X) 0)%nat -> mget (mat_at (cp_A o) k) i 0 = mget (mat_at B k) i 0 / mx k.
Proof. exact c80_positive. Qed.
Print Assumptions C80_cp_step_positive.

(** training ends after one step *)
Theorem C80_cp_train : forall pinv (X : tensor R) rnd B mx w o steps o' h args id, penrose pinv -> cp_factors X 1 rnd ->
  cp_factors X 1 B -> X = cp_tensor 1 (ones 1) B -> (forall k, (k < ndims X)%nat -> column_max (mat_at B k) 0 (mx k) /\ 0 < mx k) ->
  (forall k, (0 < k < ndims X)%nat -> 0 < bigsum (nth k (shp X) 0%nat) (fun i => mget (mat_at B k) i 0 * mget (mat_at rnd k) i 0)) ->
  o_built o = Some ((args, 1%nat), id) -> 0 < a_tol args -> cp_train pinv X w o rnd steps = (o', Ok h) ->
  h = [(0, 0)] /\ p_full (o_pub o') = Some X /\
  exists A lam, p_factors (o_pub o') = Some A /\ p_aux (o_pub o') = Some lam /\ get lam [0%nat] = bigprod (ndims X) mx /\
    forall k i, (k < ndims X)%nat -> (i < nth k (shp X) 0)%nat -> mget (mat_at A k) i 0 = mget (mat_at B k) i 0 / mx k.
Proof. exact c80_train. Qed.
Print Assumptions C80_cp_train.

Theorem C80_cp_synthetic : forall pinv (cast : dtype -> R -> R) N_list rand randn X rnd w o steps o' h args id, penrose pinv ->
  N_list <> [] -> cp_draws N_list 1 rand randn -> synthetic_data_cp cast N_list rand randn 0 = Ok X -> cp_factors X 1 rnd ->
  let D := map (tf_map (cast F32)) (drawn (length N_list) rand) in
  (forall k, (k < length N_list)%nat -> exists i, (i < nth k N_list 0)%nat /\ 0 < mget (mat_at D k) i 0) ->
  (forall k, (0 < k < length N_list)%nat -> 0 < bigsum (nth k N_list 0%nat) (fun i => mget (mat_at D k) i 0 * mget (mat_at rnd k) i 0)) ->
  o_built o = Some ((args, 1%nat), id) -> 0 < a_tol args -> cp_train pinv X w o rnd steps = (o', Ok h) ->
  h = [(0, 0)] /\ p_full (o_pub o') = Some X.
Proof. exact c80_synthetic. Qed.
Print Assumptions C80_cp_synthetic.

(** (2, 1) x (2, 1) x (2, 1) from first unit vectors *)
Example ex_C80 : exists pinv o, penrose pinv /\ cp_factors X80 1 rnd3 /\ cp_factors X80 1 B80 /\ X80 = cp_tensor 1 (ones 1) B80 /\
  (forall k, (k < ndims X80)%nat -> column_max (mat_at B80 k) 0 2 /\ 0 < 2) /\
  (forall k, (0 < k < ndims X80)%nat -> 0 < bigsum (nth k (shp X80) 0%nat) (fun i => mget (mat_at B80 k) i 0 * mget (mat_at rnd3 k) i 0)) /\
  cp_step pinv X80 1 rnd3 = Ok o /\
  (forall n v, (n < ndims X80)%nat -> column_max (als_solution pinv X80 1 (mixed n (cp_A o) rnd3) n) 0 v -> v <> 0) /\
  exists o' h, cp_train pinv X80 (mkW [7%nat] true) (mkObj (Some ((mkArgs (1/10) 1%Z false, 1%nat), 7%nat)) pub0) rnd3 5 = (o', Ok h).
Proof. exact ex80. Qed.
Example ex_C80_synthetic : exists pinv X, penrose pinv /\ cp_draws [2; 2; 2]%nat 1 rand3 randn3 /\ synthetic_data_cp (fun _ x => x) [2; 2; 2]%nat rand3 randn3 0 = Ok X /\ cp_factors X 1 rnd3 /\
  (let D := map (tf_map (fun x => x)) (drawn 3 rand3) in
   (forall k, (k < 3)%nat -> exists i, (i < nth k [2; 2; 2]%nat 0)%nat /\ 0 < mget (mat_at D k) i 0) /\
   (forall k, (0 < k < 3)%nat -> 0 < bigsum (nth k [2; 2; 2]%nat 0%nat) (fun i => mget (mat_at D k) i 0 * mget (mat_at rnd3 k) i 0))) /\
  exists o' h, cp_train pinv X (mkW [7%nat] true) (mkObj (Some ((mkArgs (1/10) 1%Z false, 1%nat), 7%nat)) pub0) rnd3 5 = (o', Ok h).
Proof. exact ex80_synthetic. Qed.
