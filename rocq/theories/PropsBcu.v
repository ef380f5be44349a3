(** Property theorems for NCP_BCU and NTUCKER_BCU training (C47, C48, C51, C52). *)

From Coq Require Import ZArith List Bool Arith Reals Lia.
From Verif Require Import Num Py Tensor TF Ops Types Loss Fact Train Spec SpecR SpecTrain SpecBcu BcuFacts RSums TrainWit.
Import ListNotations.
#[local] Existing Instance NumF32.

(** C47.  The hypothesis on < holds of the reals and of binary32 (ex_C47). *)
Theorem C47_ncp_factors : forall (T : Type) (N : Num T), nltb (n0 : T) n0 = false ->
  forall pow svals (X : tensor T) bc w cs A,
  (forall rnd steps, In (Train rnd steps) cs -> length rnd = ndims X) ->
  p_factors (o_pub (object_after bc (ncp_train pow svals X) w fresh cs)) = Some A -> all_not_negative A.
Proof. exact @ncp_pos. Qed.
Print Assumptions C47_ncp_factors.

Theorem C47_ncp_factors_every_step : forall (T : Type) (N : Num T), nltb (n0 : T) n0 = false ->
  forall pow svals (X : tensor T) rnd s s2 o, length rnd = ndims X ->
  reach (fun s => Ok (s, None)) (ncp_run svals X) ncp_accept (fun s => Ok (ncp_reject s)) (ncp_init pow X rnd) s ->
  ncp_run svals X s = Ok (s2, o) -> all_not_negative (ob_factors o).
Proof. exact @c47_step. Qed.
Print Assumptions C47_ncp_factors_every_step.

Theorem C47_ncp_reconstruction : forall pow svals (X : tensor R) bc w cs t,
  (forall rnd steps, In (Train rnd steps) cs -> length rnd = ndims X) ->
  p_full (o_pub (object_after bc (ncp_train pow svals X) w fresh cs)) = Some t -> forall x, In x (dat t) -> (0 <= x)%R.
Proof. exact ncp_full_pos. Qed.
Print Assumptions C47_ncp_reconstruction.

Theorem C47_ncp_reconstruction_every_step : forall pow svals (X : tensor R) rnd s s2 o, length rnd = ndims X ->
  reach (fun s => Ok (s, None)) (ncp_run svals X) ncp_accept (fun s => Ok (ncp_reject s)) (ncp_init pow X rnd) s ->
  ncp_run svals X s = Ok (s2, o) -> forall x, In x (dat (ob_full o)) -> (0 <= x)%R.
Proof. exact c47_full. Qed.
Print Assumptions C47_ncp_reconstruction_every_step.

(** data with a negative entry and a negative draw; a binary32 training that completes, with
    a positive and a zero factor entry; and a completed first step over the reals *)
Example ex_C47 : nltb (n0 : R) n0 = false /\ nltb (n0 : f32) n0 = false /\
  (let X := mkT [2; 2] [q 2; q (-3); q 0; q 1] in
   let cs := [Build (args39, 1) 7; Train [mkT [2; 1] [q 1; q (-1)]; mkT [2; 1] [q 1; q 1]] 3] in
   exists A, p_factors (o_pub (object_after (fun _ => Ok tt) (ncp_train pow1 svals1 X) (mkW [] true) fresh cs)) = Some A /\
   exists a b, In a (concat (map dat A)) /\ In b (concat (map dat A)) /\ nltb n0 a = true /\ neqb b n0 = true) /\
  (let X := mkT [2; 2] [2; -3; 0; 1]%R in
   exists s2 o, ncp_run (fun _ => [2%R]) X (ncp_init (fun a b => a) X [mkT [2; 1] [1; 1]%R; mkT [2; 1] [1; 1]%R]) = Ok (s2, o)).
Proof.
  split; [exact ltR00|]. split; [reflexivity|]. split.
  - eexists. split; [vm_compute; reflexivity|].
    vm_compute.
    eexists _, _. split; [right; left; reflexivity|]. split; [left; reflexivity|]. split; vm_compute; reflexivity.
  - apply is_ok_pair. vm_compute. reflexivity.
Qed.

(** C48, exact arithmetic: after every run of a step t >= t0 >= 1, and after accepting it
    the same holds and every weight is in [0, 1) *)
Theorem C48_ncp_weights : forall pow svals (X : tensor R) rnd s s2 o s3,
  reach (fun s => Ok (s, None)) (ncp_run svals X) ncp_accept (fun s => Ok (ncp_reject s)) (ncp_init pow X rnd) s ->
  ncp_run svals X s = Ok (s2, o) ->
  (1 <= n_t0 s2 /\ n_t0 s2 <= n_t s2)%R /\
  (ncp_accept s2 = Ok s3 -> (1 <= n_t0 s3 /\ n_t0 s3 <= n_t s3 /\ forall w, In w (n_w s3) -> 0 <= w < 1)%R).
Proof. exact c48_ncp. Qed.
Print Assumptions C48_ncp_weights.

Theorem C48_ntucker_weights : forall pow svals (X : tensor R) rnd s s1 c s2 o s3,
  reach (nt_pre svals X) (nt_factors svals X) nt_accept (fun s => Ok (nt_reject s)) (nt_init pow X (fst rnd) (snd rnd)) s ->
  nt_pre svals X s = Ok (s1, c) -> nt_factors svals X s1 = Ok (s2, o) ->
  (1 <= q_t0 s2 /\ q_t0 s2 <= q_t s2)%R /\
  (nt_accept s2 = Ok s3 -> (1 <= q_t0 s3 /\ q_t0 s3 <= q_t s3 /\ forall w, In w (q_w s3) -> 0 <= w < 1)%R).
Proof. exact c48_nt. Qed.
Print Assumptions C48_ntucker_weights.

(** the accepted point: t0 takes t, A0 takes A, and Am = A + w (A - A0) with
    w = min ((t0 - 1) / t, sqrt (L0 / L)) *)
Theorem C48_ncp_extrapolation : forall (s s3 : ncp_state R) (d : tensor R) n, ncp_accept s = Ok s3 ->
  length (n_A s) = n -> length (n_A0 s) = n -> length (n_L s) = n -> length (n_L0 s) = n ->
  n_A0 s3 = n_A s /\ n_t0 s3 = n_t s /\
  forall k, k < n ->
    (nth k (n_w s3) 0 = Rmin ((n_t0 s - 1) / n_t s) (sqrt (nth k (n_L0 s) 0 / nth k (n_L s) 0)))%R /\
    (shp (nth k (n_A s) d) = shp (nth k (n_A0 s) d) -> forall i, valid (shp (nth k (n_A s) d)) i ->
     get (nth k (n_Am s3) d) i =
       (get (nth k (n_A s) d) i + nth k (n_w s3) 0 * (get (nth k (n_A s) d) i - get (nth k (n_A0 s) d) i))%R).
Proof. exact ncp_accept_spec. Qed.
Print Assumptions C48_ncp_extrapolation.

(** the core is extrapolated with the last of the weights *)
Theorem C48_nt_extrapolation : forall (s s3 : nt_state R) (d : tensor R) n, nt_accept s = Ok s3 ->
  length (q_A s) = n -> length (q_A0 s) = n -> length (q_L s) = S n -> length (q_L0 s) = S n ->
  q_A0 s3 = q_A s /\ q_g0 s3 = q_g s /\ q_t0 s3 = q_t s /\
  (forall k, k <= n ->
    (nth k (q_w s3) 0 = Rmin ((q_t0 s - 1) / q_t s) (sqrt (nth k (q_L0 s) 0 / nth k (q_L s) 0)))%R) /\
  (forall k, k < n -> shp (nth k (q_A s) d) = shp (nth k (q_A0 s) d) -> forall i, valid (shp (nth k (q_A s) d)) i ->
     get (nth k (q_Am s3) d) i =
       (get (nth k (q_A s) d) i + nth k (q_w s3) 0 * (get (nth k (q_A s) d) i - get (nth k (q_A0 s) d) i))%R) /\
  (shp (q_g s) = shp (q_g0 s) -> forall i, valid (shp (q_g s)) i ->
     get (q_gm s3) i = (get (q_g s) i + nth n (q_w s3) 0 * (get (q_g s) i - get (q_g0 s) i))%R).
Proof. exact nt_accept_spec. Qed.
Print Assumptions C48_nt_extrapolation.

(** of two accepted steps of a run the later has the smaller objective, and the first step
    is always accepted *)
Theorem C48_accepted_decrease : forall (os : list (sobs R)),
  (os <> [] -> accepted os 0) /\
  forall j k, j < k -> accepted os j -> accepted os k -> (m_obj (met os k) < m_obj (met os j))%R.
Proof. exact c48_decrease. Qed.
Print Assumptions C48_accepted_decrease.

(** two steps over the reals, the first one accepted, for both algorithms *)
Example ex_C48 :
  (let X := mkT [2; 2] [2; -3; 0; 1]%R in let sv := fun _ : tensor R => [2%R] in
   exists s s2 o, reach (fun s => Ok (s, None)) (ncp_run sv X) ncp_accept (fun s => Ok (ncp_reject s))
       (ncp_init (fun a b => a) X [mkT [2; 1] [1; 1]%R; mkT [2; 1] [1; 1]%R]) s /\
     ncp_run sv X s = Ok (s2, o) /\ exists s3, ncp_accept s2 = Ok s3) /\
  (let X := mkT [2; 2] [2; -3; 0; 1]%R in let sv := fun _ : tensor R => [2%R] in
   exists s s1 c s2 o, reach (nt_pre sv X) (nt_factors sv X) nt_accept (fun s => Ok (nt_reject s))
       (nt_init (fun a b => a) X [mkT [2; 1] [1; 1]%R; mkT [2; 1] [1; 1]%R] (mkT [1; 1] [1%R])) s /\
     nt_pre sv X s = Ok (s1, c) /\ nt_factors sv X s1 = Ok (s2, o) /\ exists s3, nt_accept s2 = Ok s3).
Proof. split; [exact ex48_ncp|exact ex48_nt]. Qed.

(** C51 *)
Theorem C51_ntucker_not_negative : forall (T : Type) (N : Num T), nltb (n0 : T) n0 = false ->
  forall pow svals (X : tensor T) bc w cs,
  (forall rnd steps, In (Train rnd steps) cs -> length (fst rnd) = ndims X) ->
  let p := o_pub (object_after bc (nt_train pow svals X) w fresh cs) in
  (forall A, p_factors p = Some A -> all_not_negative A) /\ (forall g, p_aux p = Some g -> not_negative g).
Proof. exact @nt_pos. Qed.
Print Assumptions C51_ntucker_not_negative.

Theorem C51_ntucker_every_step : forall (T : Type) (N : Num T), nltb (n0 : T) n0 = false ->
  forall pow svals (X : tensor T) rnd s s1 c s2 o, length (fst rnd) = ndims X ->
  reach (nt_pre svals X) (nt_factors svals X) nt_accept (fun s => Ok (nt_reject s)) (nt_init pow X (fst rnd) (snd rnd)) s ->
  nt_pre svals X s = Ok (s1, c) -> nt_factors svals X s1 = Ok (s2, o) ->
  all_not_negative (ob_factors o) /\ exists g, c = Some g /\ not_negative g.
Proof. exact @c51_step. Qed.
Print Assumptions C51_ntucker_every_step.

(** in exact arithmetic the reconstruction is non-negative as well *)
Theorem C51_ntucker_reconstruction : forall pow svals (X : tensor R) bc w cs t,
  (forall rnd steps, In (Train rnd steps) cs -> length (fst rnd) = ndims X) ->
  p_full (o_pub (object_after bc (nt_train pow svals X) w fresh cs)) = Some t -> forall x, In x (dat t) -> (0 <= x)%R.
Proof. exact nt_full_pos. Qed.
Print Assumptions C51_ntucker_reconstruction.

Example ex_C51 :
  let X := mkT [2; 2] [q 2; q (-3); q 0; q 1] in
  let cs := [Build args39 7; Train ([mkT [2; 1] [q 1; q (-1)]; mkT [2; 1] [q 1; q 1]], mkT [1; 1] [q 1]) 3] in
  exists A g, p_factors (o_pub (object_after (fun _ => Ok tt) (nt_train pow1 svals1 X) (mkW [] true) fresh cs)) = Some A /\
    p_aux (o_pub (object_after (fun _ => Ok tt) (nt_train pow1 svals1 X) (mkW [] true) fresh cs)) = Some g.
Proof. eexists _, _. split; vm_compute; reflexivity. Qed.

(** C52: in every step L0 takes the old L of every mode and of the core; the new constant of
    mode k is the largest singular value of B B^T, B the mode-k unfolding of the core times
    the current factors except factor k; the core's is the product over the factor Grams *)
Theorem C52_ntucker_lipschitz : forall (T : Type) (N : Num T) pow svals (X : tensor T) rnd s s1 c s2 o,
  length (fst rnd) = ndims X ->
  reach (nt_pre svals X) (nt_factors svals X) nt_accept (fun s => Ok (nt_reject s)) (nt_init pow X (fst rnd) (snd rnd)) s ->
  nt_pre svals X s = Ok (s1, c) -> nt_factors svals X s1 = Ok (s2, o) ->
  q_L0 s2 = q_L s /\ length (q_L s2) = ndims X + 1 /\
  (forall k, k < ndims X -> exists Y B Bsq,
     ttm (q_g s2) (mixed k (q_A s2) (q_A s)) None false (SkInt (Z.of_nat k)) = Ok Y /\
     unfold Y (Z.of_nat k) = Ok B /\ tf_matmul false true B B = Ok Bsq /\ nth k (q_L s2) n0 = tf_max (svals Bsq)) /\
  (exists AtA, mapM (fun a => tf_matmul true false a a) (q_A s) = Ok AtA /\
     max_single_value_mul svals AtA SkNone = Ok (nth (ndims X) (q_L s2) n0)).
Proof. exact @c52. Qed.
Print Assumptions C52_ntucker_lipschitz.

(** a binary32 step in which all three constants change *)
Example ex_C52 :
  let s0 := nt_init pow1 X39 A39 (mkT [1; 1] [q 1]) in
  exists s1 c s2 o, nt_pre svals1 X39 s0 = Ok (s1, c) /\ nt_factors svals1 X39 s1 = Ok (s2, o) /\
    length (q_L s2) = 3 /\ forall k, k < 3 -> neqb (nth k (q_L s2) n0) (nth k (q_L0 s2) n0) = false.
Proof.
  eexists _, _, _, _. split; [vm_compute; reflexivity|]. split; [vm_compute; reflexivity|]. split; [reflexivity|].
  intros [|[|[|k]]] Hk; try (vm_compute; reflexivity). exfalso; lia.
Qed.
