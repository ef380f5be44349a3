(** Property theorems C36-C43, C67, C68: the training drivers. *)

From Coq Require Import ZArith List Bool Arith Lia Reals SpecFloat.
From Verif Require Import Num Py Tensor TF Ops Types Loss Fact Train Spec SpecTypes SpecTrain TrainFacts TrainLemmas TrainWit.
Import ListNotations.

(** C36: the history is the metrics of the steps made; nothing fired before the last step,
    and the last step fired unless all steps were used *)
Theorem C36_cp_history : forall (T : Type) (N : Num T) pinv (X : tensor T) w o rnd steps o' h,
  cp_train pinv X w o rnd steps = (o', Ok h) ->
  exists args rank id os, o_built o = Some ((args, rank), id) /\ als_run (cp_run pinv X rank) rnd os /\ h = map entry os /\
    stopped_by (fires (a_tol args) ref_first os) steps (length os).
Proof. exact @cp_history. Qed.
Print Assumptions C36_cp_history.

Theorem C36_hooi_history : forall (T : Type) (N : Num T) svdU (X : tensor T) w o rnd steps o' h,
  hooi_train svdU X w o rnd steps = (o', Ok h) ->
  exists args ranks id A0 os, o_built o = Some ((args, ranks), id) /\ hooi_init svdU X ranks = Ok A0 /\
    als_run (hooi_run svdU X ranks) A0 os /\ h = map entry os /\
    stopped_by (fires (a_tol args) ref_first os) steps (length os).
Proof. exact @hooi_history. Qed.
Print Assumptions C36_hooi_history.

Theorem C36_ncp_history : forall (T : Type) (N : Num T) svals pow (X : tensor T) w o rnd steps o' h,
  ncp_train pow svals X w o rnd steps = (o', Ok h) ->
  exists args rank id os, o_built o = Some ((args, rank), id) /\
    bcu_run (ncp_run svals X) (fun s => Ok (s, None)) ncp_accept (fun s => Ok (ncp_reject s)) (ncp_init pow X rnd) os /\
    h = map entry os /\ stopped_by (fires (a_tol args) ref_best os) steps (length os).
Proof. exact @ncp_history. Qed.
Print Assumptions C36_ncp_history.

Theorem C36_ntucker_history : forall (T : Type) (N : Num T) svals pow (X : tensor T) w o rnd steps o' h,
  nt_train pow svals X w o rnd steps = (o', Ok h) ->
  exists args id os, o_built o = Some (args, id) /\
    bcu_run (nt_factors svals X) (nt_pre svals X) nt_accept (fun s => Ok (nt_reject s)) (nt_init pow X (fst rnd) (snd rnd)) os /\
    h = map entry os /\ stopped_by (fires (a_tol args) ref_best os) steps (length os).
Proof. exact @nt_history. Qed.
Print Assumptions C36_ntucker_history.

(** the metrics of a step compare X with the reconstruction from the step's factors *)
Theorem C36_measured : forall X : tensor R, wf X ->
  (forall pinv rank A A' ob, cp_run pinv X rank A = Ok (A', ob) ->
     exists lam, ob_factors ob = A' /\ ob_aux ob = Some lam /\
       kt_extract A' (mkT (shp lam ++ [1]) (dat lam)) = Ok (ob_full ob) /\ measured X (ob_full ob) (ob_met ob)) /\
  (forall svdU ranks A A' ob, hooi_run svdU X ranks A = Ok (A', ob) ->
     exists g, ob_factors ob = A' /\ ob_aux ob = Some g /\
       tt_extract g A' = Ok (ob_full ob) /\ measured X (ob_full ob) (ob_met ob)) /\
  (forall svals s s' ob, ncp_run svals X s = Ok (s', ob) ->
     exists ones, ob_factors ob = n_A s' /\ ncp_ones (n_A s') = Ok ones /\
       kt_extract (n_A s') ones = Ok (ob_full ob) /\ measured X (ob_full ob) (ob_met ob)) /\
  (forall svals s s' ob, nt_factors svals X s = Ok (s', ob) ->
     ob_factors ob = q_A s' /\ q_g s' = q_g s /\
       tt_extract (q_g s) (q_A s') = Ok (ob_full ob) /\ measured X (ob_full ob) (ob_met ob)).
Proof. exact steps_measured. Qed.
Print Assumptions C36_measured.

(** a run that uses all steps, and one that stops at step 3 of 5 *)
Example ex_C36 :
  (exists o' h, cp_train (N := NumF32) pinv1 XI w1 (mk_obj (args38, 1)) A_e1 5 = (o', Ok h) /\ length h = 5) /\
  (exists o' h, cp_train (N := NumF32) pinv1 X39 w1 (mk_obj (args39, 1)) A39 5 = (o', Ok h) /\ length h = 3) /\
  (exists o' h, ncp_train (N := NumF32) pow1 svals1 X39 w1 (mk_obj (args39, 1)) A39 5 = (o', Ok h) /\ length h = 3) /\
  (exists o' h, nt_train (N := NumF32) pow1 svals1 X39 w1 (mk_obj args39) (A39, mkT [1; 1] [q 1]) 5 = (o', Ok h) /\ length h = 3) /\
  (exists o' h, hooi_train (N := NumF32) svdU_id X39 w1 (mk_obj args_hooi) tt 2 = (o', Ok h) /\ length h = 2).
Proof. repeat split; eexists; eexists; (split; [vm_compute; reflexivity|reflexivity]). Qed.

(** C37: NCP and NTucker stop at the first step where the rule relative to the best
    accepted objective fires, or after the last step *)
Theorem C37_ncp_stopping : forall (T : Type) (N : Num T) svals pow (X : tensor T) w o rnd steps o' h,
  ncp_train pow svals X w o rnd steps = (o', Ok h) ->
  exists args rank id os, o_built o = Some ((args, rank), id) /\
    bcu_run (ncp_run svals X) (fun s => Ok (s, None)) ncp_accept (fun s => Ok (ncp_reject s)) (ncp_init pow X rnd) os /\
    h = map entry os /\ stopped_by (fires (a_tol args) ref_best os) steps (length os).
Proof. exact @ncp_history. Qed.
Print Assumptions C37_ncp_stopping.

Theorem C37_ntucker_stopping : forall (T : Type) (N : Num T) svals pow (X : tensor T) w o rnd steps o' h,
  nt_train pow svals X w o rnd steps = (o', Ok h) ->
  exists args id os, o_built o = Some (args, id) /\
    bcu_run (nt_factors svals X) (nt_pre svals X) nt_accept (fun s => Ok (nt_reject s)) (nt_init pow X (fst rnd) (snd rnd)) os /\
    h = map entry os /\ stopped_by (fires (a_tol args) ref_best os) steps (length os).
Proof. exact @nt_history. Qed.
Print Assumptions C37_ntucker_stopping.

(** the best accepted objective is the smallest so far *)
Theorem C37_best_is_minimum : forall (os : list (sobs R)) k, 0 < k ->
  (forall j, j < k -> (ref_best os k <= m_obj (met os j))%R) /\
  (exists j, j < k /\ ref_best os k = m_obj (met os j)).
Proof. exact ref_best_min. Qed.
Print Assumptions C37_best_is_minimum.

(** C38: full statement: stopped_by (fires tol ref_prev os).  CP and HOOI compare with the
    first objective plus one at every step instead. *)
Theorem C38_cp_stopping_partial : forall (T : Type) (N : Num T) pinv (X : tensor T) w o rnd steps o' h,
  cp_train pinv X w o rnd steps = (o', Ok h) ->
  exists args rank id os, o_built o = Some ((args, rank), id) /\ als_run (cp_run pinv X rank) rnd os /\ h = map entry os /\
    stopped_by (fires (a_tol args) ref_first os) steps (length os).
Proof. exact @cp_history. Qed.
Print Assumptions C38_cp_stopping_partial.

Theorem C38_hooi_stopping_partial : forall (T : Type) (N : Num T) svdU (X : tensor T) w o rnd steps o' h,
  hooi_train svdU X w o rnd steps = (o', Ok h) ->
  exists args ranks id A0 os, o_built o = Some ((args, ranks), id) /\ hooi_init svdU X ranks = Ok A0 /\
    als_run (hooi_run svdU X ranks) A0 os /\ h = map entry os /\
    stopped_by (fires (a_tol args) ref_first os) steps (length os).
Proof. exact @hooi_history. Qed.
Print Assumptions C38_hooi_stopping_partial.

(** a converged CP run that goes on although the rule against the previous step fired *)
Theorem C38_stopping_refuted : exists pinv X w o rnd steps o' h args rank id os,
  cp_train (N := NumF32) pinv X w o rnd steps = (o', Ok h) /\ o_built o = Some ((args, rank), id) /\
  als_run (cp_run (N := NumF32) pinv X rank) rnd os /\ h = map entry os /\
  exists k, k + 1 < length h /\ fires (N := NumF32) (a_tol args) (ref_prev (N := NumF32)) os k.
Proof. exact c38_refuted. Qed.
Print Assumptions C38_stopping_refuted.

(** C39: full statement: without the guard that the last step validates *)
Theorem C39_cp_full_partial : forall (T : Type) (N : Num T) pinv (X : tensor T) w o rnd steps o' h args rank id,
  o_built o = Some ((args, rank), id) -> validates args steps (Z.of_nat (length h)) ->
  cp_train pinv X w o rnd steps = (o', Ok h) -> exists A lam full,
    p_factors (o_pub o') = Some A /\ p_aux (o_pub o') = Some lam /\ p_full (o_pub o') = Some full /\
    kt_extract A (mkT (shp lam ++ [1]) (dat lam)) = Ok full.
Proof. exact @cp_full_ok. Qed.
Print Assumptions C39_cp_full_partial.

Theorem C39_hooi_full_partial : forall (T : Type) (N : Num T) svdU (X : tensor T) w o rnd steps o' h args ranks id,
  o_built o = Some ((args, ranks), id) -> validates args steps (Z.of_nat (length h)) ->
  hooi_train svdU X w o rnd steps = (o', Ok h) -> exists A g full,
    p_factors (o_pub o') = Some A /\ p_aux (o_pub o') = Some g /\ p_full (o_pub o') = Some full /\
    tt_extract g A = Ok full.
Proof. exact @hooi_full_ok. Qed.
Print Assumptions C39_hooi_full_partial.

Theorem C39_ncp_full_partial : forall (T : Type) (N : Num T) svals pow (X : tensor T) w o rnd steps o' h args rank id,
  o_built o = Some ((args, rank), id) -> validates args steps (Z.of_nat (length h)) ->
  ncp_train pow svals X w o rnd steps = (o', Ok h) -> exists A ones full,
    p_factors (o_pub o') = Some A /\ p_full (o_pub o') = Some full /\ ncp_ones A = Ok ones /\
    kt_extract A ones = Ok full.
Proof. exact @ncp_full_ok. Qed.
Print Assumptions C39_ncp_full_partial.

Theorem C39_ntucker_full_partial : forall (T : Type) (N : Num T) svals pow (X : tensor T) w o rnd steps o' h args id,
  o_built o = Some (args, id) -> validates args steps (Z.of_nat (length h)) ->
  nt_train pow svals X w o rnd steps = (o', Ok h) -> exists A g full,
    p_factors (o_pub o') = Some A /\ p_aux (o_pub o') = Some g /\ p_full (o_pub o') = Some full /\
    tt_extract g A = Ok full.
Proof. exact @nt_full_ok. Qed.
Print Assumptions C39_ntucker_full_partial.

Theorem C39_hosvd_full : forall (T : Type) (N : Num T) svdU (X : tensor T) w o rnd steps o' h,
  hosvd_train svdU X w o rnd steps = (o', Ok h) -> exists A g full,
    p_factors (o_pub o') = Some A /\ p_aux (o_pub o') = Some g /\ p_full (o_pub o') = Some full /\
    tt_extract g A = Ok full.
Proof. exact @hosvd_full_ok. Qed.
Print Assumptions C39_hosvd_full.

(** in general: factors of the last step, full tensor of the last validating step *)
Theorem C39_cp_exact_partial : forall (T : Type) (N : Num T) pinv (X : tensor T) w o rnd steps o' h,
  cp_train pinv X w o rnd steps = (o', Ok h) ->
  exists args rank id os ob, o_built o = Some ((args, rank), id) /\ als_run (cp_run pinv X rank) rnd os /\ h = map entry os /\
    nth_error os (length os - 1) = Some ob /\ p_factors (o_pub o') = Some (ob_factors ob) /\ p_aux (o_pub o') = ob_aux ob /\
    full_of_last_validation args steps os (o_pub o').
Proof. exact @cp_pub_ok. Qed.
Print Assumptions C39_cp_exact_partial.

Theorem C39_cp_full_refuted : exists pinv X w o rnd steps o' h A lam full full',
  cp_train (N := NumF32) pinv X w o rnd steps = (o', Ok h) /\
  p_factors (o_pub o') = Some A /\ p_aux (o_pub o') = Some lam /\ p_full (o_pub o') = Some full /\
  kt_extract (N := NumF32) A (mkT (shp lam ++ [1]) (dat lam)) = Ok full' /\ full' <> full.
Proof. exact c39_cp_refuted. Qed.
Print Assumptions C39_cp_full_refuted.

Theorem C39_ncp_full_refuted : exists pow svals X w o rnd steps o' h A ones full full',
  ncp_train (N := NumF32) pow svals X w o rnd steps = (o', Ok h) /\
  p_factors (o_pub o') = Some A /\ p_full (o_pub o') = Some full /\ ncp_ones (N := NumF32) A = Ok ones /\
  kt_extract (N := NumF32) A ones = Ok full' /\ full' <> full.
Proof. exact c39_ncp_refuted. Qed.
Print Assumptions C39_ncp_full_refuted.

Theorem C39_ntucker_full_refuted : exists pow svals X w o rnd steps o' h A g full full',
  nt_train (N := NumF32) pow svals X w o rnd steps = (o', Ok h) /\
  p_factors (o_pub o') = Some A /\ p_aux (o_pub o') = Some g /\ p_full (o_pub o') = Some full /\
  tt_extract (N := NumF32) g A = Ok full' /\ full' <> full.
Proof. exact c39_nt_refuted. Qed.
Print Assumptions C39_ntucker_full_refuted.

(** the guard holds when all steps are used, with verbose, or with interval 1 *)
Example ex_C39 : forall args : targs R, 
  validates args 9 9 /\ (a_verbose args = true -> validates args 9 4) /\ (a_vi args = 1%Z -> validates args 9 4) /\
  (a_vi args = 3%Z -> a_verbose args = false -> validates args 9 6 /\ ~ validates args 9 4).
Proof.
  intros args. unfold validates. split; [auto|]. split; [auto|]. split.
  - intros ->. right; right; right. split; [discriminate|]. split; [discriminate|]. apply Z.divide_1_l.
  - intros -> V. split.
    + right; right; right. split; [discriminate|]. split; [discriminate|]. exists 2%Z. reflexivity.
    + intros [H|[H|[H|(_ & _ & [k H])]]]; try discriminate; [congruence|lia].
Qed.

(** C40: train_finish is the success of the latest train call, for every history *)
Theorem C40_train_finish : forall (T : Type) (N : Num T) pinv svdU svals pow (X : tensor T) w,
  (forall bc cs, p_finish (o_pub (object_after bc (cp_train pinv X) w fresh cs)) = true
             <-> last_completed (outcomes bc (cp_train pinv X) w fresh cs)) /\
  (forall bc cs, p_finish (o_pub (object_after bc (ncp_train pow svals X) w fresh cs)) = true
             <-> last_completed (outcomes bc (ncp_train pow svals X) w fresh cs)) /\
  (forall bc cs, p_finish (o_pub (object_after bc (nt_train pow svals X) w fresh cs)) = true
             <-> last_completed (outcomes bc (nt_train pow svals X) w fresh cs)) /\
  (forall bc cs, p_finish (o_pub (object_after bc (hosvd_train svdU X) w fresh cs)) = true
             <-> last_completed (outcomes bc (hosvd_train svdU X) w fresh cs)).
Proof. exact @finish_all. Qed.
Print Assumptions C40_train_finish.

(** full statement for HOOI: last_completed; HOOI.train does not reset the flag, so it
    says that some train call completed *)
Theorem C40_hooi_train_finish_partial : forall (T : Type) (N : Num T) svdU (X : tensor T) w bc cs,
  p_finish (o_pub (object_after bc (hooi_train svdU X) w fresh cs)) = true
  <-> some_completed (outcomes bc (hooi_train svdU X) w fresh cs).
Proof. exact @finish_hooi. Qed.
Print Assumptions C40_hooi_train_finish_partial.

Theorem C40_hooi_train_finish_refuted : exists svdU X bc w cs,
  p_finish (o_pub (object_after bc (hooi_train (N := NumF32) svdU X) w (fresh (T := f32)) cs)) = true /\
  ~ last_completed (outcomes bc (hooi_train (N := NumF32) svdU X) w fresh cs).
Proof. exact c40_hooi_refuted. Qed.
Print Assumptions C40_hooi_train_finish_refuted.

Example ex_C40 : let cs := [Build (args38, 1) 7; Train A_e1 0%Z; Train A_e1 2%Z; Predict [0; 0]%Z] in
  let cs' := cs ++ [Train A_e1 (-1)%Z] in
  p_finish (o_pub (object_after (fun _ => Ok tt) (cp_train (N := NumF32) pinv1 XI) (mkW [] true) fresh cs)) = true /\
  p_finish (o_pub (object_after (fun _ => Ok tt) (cp_train (N := NumF32) pinv1 XI) (mkW [] true) fresh cs')) = false.
Proof. split; vm_compute; reflexivity. Qed.

(** C41: bad arguments raise and leave train_finish unset (False; in HOOI: unchanged) *)
Theorem C41_cp : forall (T : Type) (N : Num T) pinv (X : tensor T) w o rnd steps,
  ((steps <= 0)%Z -> exists e, snd (cp_train pinv X w o rnd steps) = Raise e) /\
  (forall args rank id h, o_built o = Some ((args, rank), id) -> a_vi args = 0%Z -> a_verbose args = false -> (2 < steps)%Z ->
     snd (cp_train pinv X w o rnd steps) = Ok h -> length h = 1) /\
  (o_built o = None -> snd (cp_train pinv X w o rnd steps) = Raise TypeError) /\
  (forall e, snd (cp_train pinv X w o rnd steps) = Raise e -> p_finish (o_pub (fst (cp_train pinv X w o rnd steps))) = false).
Proof. exact @cp_bad_args. Qed.
Print Assumptions C41_cp.

Theorem C41_hooi : forall (T : Type) (N : Num T) svdU (X : tensor T) w o rnd steps,
  ((steps <= 0)%Z -> exists e, snd (hooi_train svdU X w o rnd steps) = Raise e) /\
  (forall args ranks id h, o_built o = Some ((args, ranks), id) -> a_vi args = 0%Z -> a_verbose args = false -> (2 < steps)%Z ->
     snd (hooi_train svdU X w o rnd steps) = Ok h -> length h = 1) /\
  (o_built o = None -> snd (hooi_train svdU X w o rnd steps) = Raise AttributeError) /\
  (forall e, snd (hooi_train svdU X w o rnd steps) = Raise e ->
     p_finish (o_pub (fst (hooi_train svdU X w o rnd steps))) = p_finish (o_pub o)).
Proof. exact @hooi_bad_args. Qed.
Print Assumptions C41_hooi.

Theorem C41_ncp : forall (T : Type) (N : Num T) svals pow (X : tensor T) w o rnd steps,
  ((steps <= 0)%Z -> exists e, snd (ncp_train pow svals X w o rnd steps) = Raise e) /\
  (forall args rank id h, o_built o = Some ((args, rank), id) -> a_vi args = 0%Z -> a_verbose args = false -> (2 < steps)%Z ->
     snd (ncp_train pow svals X w o rnd steps) = Ok h -> length h = 1) /\
  (o_built o = None -> snd (ncp_train pow svals X w o rnd steps) = Raise AttributeError) /\
  (forall e, snd (ncp_train pow svals X w o rnd steps) = Raise e ->
     p_finish (o_pub (fst (ncp_train pow svals X w o rnd steps))) = false).
Proof. exact @ncp_bad_args. Qed.
Print Assumptions C41_ncp.

Theorem C41_ntucker : forall (T : Type) (N : Num T) svals pow (X : tensor T) w o rnd steps,
  ((steps <= 0)%Z -> exists e, snd (nt_train pow svals X w o rnd steps) = Raise e) /\
  (forall args id h, o_built o = Some (args, id) -> a_vi args = 0%Z -> a_verbose args = false -> (2 < steps)%Z ->
     snd (nt_train pow svals X w o rnd steps) = Ok h -> length h = 1) /\
  (o_built o = None -> snd (nt_train pow svals X w o rnd steps) = Raise AttributeError) /\
  (forall e, snd (nt_train pow svals X w o rnd steps) = Raise e ->
     p_finish (o_pub (fst (nt_train pow svals X w o rnd steps))) = false).
Proof. exact @nt_bad_args. Qed.
Print Assumptions C41_ntucker.

(** interval 0: fails at step 2 of 3, works with 2 steps or verbose *)
Example ex_C41 : let a vb := (mkArgs (frac 1 10) 0%Z vb, 1) in
  snd (cp_train (N := NumF32) pinv1 XI w1 (mk_obj (a false)) A_e1 3) = Raise ZeroDivisionError /\
  (exists h, snd (cp_train (N := NumF32) pinv1 XI w1 (mk_obj (a false)) A_e1 2) = Ok h) /\
  (exists h, snd (cp_train (N := NumF32) pinv1 XI w1 (mk_obj (a true)) A_e1 3) = Ok h) /\
  snd (cp_train (N := NumF32) pinv1 XI w1 (mk_obj (a true)) A_e1 0) = Raise UnboundLocalError /\
  snd (cp_train (N := NumF32) pinv1 XI w1 fresh A_e1 3) = Raise TypeError.
Proof. repeat split; try (eexists; vm_compute; reflexivity); vm_compute; reflexivity. Qed.

(** C42, HOOI and HOSVD: predict(i,j,...) is the entry of full; negative indices wrap *)
Theorem C42_predict_partial : forall (T : Type) (N : Num T) (p : pub T) t key,
  p_full p = Some t -> wf t -> length key = ndims t -> 1 <= ndims t ->
  (forall k, k < ndims t -> (- Z.of_nat (nth k (shp t) 0%nat) <= nth k key 0 < Z.of_nat (nth k (shp t) 0%nat))%Z) ->
  predict_plain p key = Ok (get t (map (fun k => py_index (nth k (shp t) 0) (nth k key 0%Z)) (seq 0 (ndims t)))).
Proof. exact @predict_plain_ok. Qed.
Print Assumptions C42_predict_partial.

(** an index out of range, a wrong number of indices *)
Theorem C42_predict_out_of_range_partial : forall (T : Type) (N : Num T) (p : pub T) t key k,
  p_full p = Some t -> wf t -> length key = ndims t -> k < ndims t ->
  ~ (- Z.of_nat (nth k (shp t) 0%nat) <= nth k key 0 < Z.of_nat (nth k (shp t) 0%nat))%Z -> predict_plain p key = Raise IndexError.
Proof. exact @predict_plain_out. Qed.
Print Assumptions C42_predict_out_of_range_partial.

Theorem C42_predict_arity_partial : forall (T : Type) (N : Num T) (p : pub T) t key, p_full p = Some t ->
  length key <> ndims t -> length key <> 1 -> (key = [] -> length (dat t) <> 1) -> predict_plain p key = Raise ValueError.
Proof. exact @predict_plain_arity. Qed.
Print Assumptions C42_predict_arity_partial.

(** one index reads the entry at that position in row-major order, whatever the order *)
Theorem C42_predict_flat_partial : forall (T : Type) (N : Num T) (p : pub T) t, p_full p = Some t -> wf t ->
  (forall idx, valid (shp t) idx -> predict_plain p [Z.of_nat (rowmajor (shp t) idx)] = Ok (get t idx)) /\
  (forall z, ~ (- Z.of_nat (nprod (shp t)) <= z < Z.of_nat (nprod (shp t)))%Z -> predict_plain p [z] = Raise IndexError).
Proof. exact @predict_plain_flat. Qed.
Print Assumptions C42_predict_flat_partial.

(** CP, NCP and NTucker test [not self._full_tensor]: a full tensor with two or more entries
    raises ValueError, only a one-entry tensor can be read, as in HOOI and HOSVD *)
Theorem C42_predict_checked_partial : forall (T : Type) (N : Num T) (p : pub T) t key, p_full p = Some t ->
  (2 <= length (dat t) -> predict_checked p key = Raise ValueError) /\
  (forall x, dat t = [x] -> predict_checked p key = if neqb x n0 then Raise TensorErr else predict_plain p key).
Proof. exact (fun T N p t key H => conj (predict_checked_many p t key H) (fun x => predict_checked_one p t x key H)). Qed.
Print Assumptions C42_predict_checked_partial.

Theorem C42_predict_untrained_partial : forall (T : Type) (N : Num T) (p : pub T) key, p_full p = None ->
  predict_checked p key = Raise TensorErr /\ predict_plain p key = Raise AttributeError.
Proof. exact @predict_none. Qed.
Print Assumptions C42_predict_untrained_partial.

Theorem C42_predict_refuted : exists pinv X w o rnd steps o' h t,
  cp_train (N := NumF32) pinv X w o rnd steps = (o', Ok h) /\ p_full (o_pub o') = Some t /\ shp t = [2; 2] /\
  predict_checked (N := NumF32) (o_pub o') [0; 0]%Z = Raise ValueError.
Proof. exact c42_refuted. Qed.
Print Assumptions C42_predict_refuted.

Example ex_C42 : let p := mkPub None None (Some (mkT [2; 3] [1; 2; 3; 4; 5; 6]%Z)) true in
  predict_plain p [1; 2]%Z = Ok 6%Z /\ predict_plain p [-2; -1]%Z = Ok 3%Z /\ predict_plain p [2; 0]%Z = Raise IndexError /\
  predict_plain p [4]%Z = Ok 5%Z /\ predict_plain p [1; 1; 1]%Z = Raise ValueError /\
  predict_checked p [1; 2]%Z = Raise ValueError.
Proof. repeat split. Qed.

(** C43: after any trains and predicts, train behaves as on the freshly built object *)
Theorem C43_train_independent : forall (T : Type) (N : Num T) pinv svdU svals pow (X : tensor T) w,
  (forall bc o cs rnd steps, (forall c, In c cs -> keeps c) ->
    let o' := object_after bc (cp_train pinv X) w o cs in
    snd (cp_train pinv X w o' rnd steps) = snd (cp_train pinv X w o rnd steps) /\
    forall h, snd (cp_train pinv X w o rnd steps) = Ok h ->
      o_pub (fst (cp_train pinv X w o' rnd steps)) = o_pub (fst (cp_train pinv X w o rnd steps))) /\
  (forall bc o cs rnd steps, (forall c, In c cs -> keeps c) ->
    let o' := object_after bc (hooi_train svdU X) w o cs in
    snd (hooi_train svdU X w o' rnd steps) = snd (hooi_train svdU X w o rnd steps) /\
    forall h, snd (hooi_train svdU X w o rnd steps) = Ok h ->
      o_pub (fst (hooi_train svdU X w o' rnd steps)) = o_pub (fst (hooi_train svdU X w o rnd steps))) /\
  (forall bc o cs rnd steps, (forall c, In c cs -> keeps c) ->
    let o' := object_after bc (ncp_train pow svals X) w o cs in
    snd (ncp_train pow svals X w o' rnd steps) = snd (ncp_train pow svals X w o rnd steps) /\
    forall h, snd (ncp_train pow svals X w o rnd steps) = Ok h ->
      o_pub (fst (ncp_train pow svals X w o' rnd steps)) = o_pub (fst (ncp_train pow svals X w o rnd steps))) /\
  (forall bc o cs rnd steps, (forall c, In c cs -> keeps c) ->
    let o' := object_after bc (nt_train pow svals X) w o cs in
    snd (nt_train pow svals X w o' rnd steps) = snd (nt_train pow svals X w o rnd steps) /\
    forall h, snd (nt_train pow svals X w o rnd steps) = Ok h ->
      o_pub (fst (nt_train pow svals X w o' rnd steps)) = o_pub (fst (nt_train pow svals X w o rnd steps))) /\
  (forall bc o cs rnd steps, (forall c, In c cs -> keeps c) ->
    let o' := object_after bc (hosvd_train svdU X) w o cs in
    snd (hosvd_train svdU X w o' rnd steps) = snd (hosvd_train svdU X w o rnd steps) /\
    forall h, snd (hosvd_train svdU X w o rnd steps) = Ok h ->
      o_pub (fst (hosvd_train svdU X w o' rnd steps)) = o_pub (fst (hosvd_train svdU X w o rnd steps))).
Proof. exact @indep_all. Qed.
Print Assumptions C43_train_independent.

Example ex_C43 : let o := mk_obj (args39, 1) in let cs := [Train A_e1 4%Z; Predict [0]%Z; Train A39 0%Z] in
  (forall c, In c cs -> keeps c) /\
  (exists h, snd (cp_train (N := NumF32) pinv1 X39 w1 o A39 5) = Ok h) /\
  o_pub (object_after (fun _ => Ok tt) (cp_train (N := NumF32) pinv1 X39) w1 o cs) <> o_pub o.
Proof.
  cbv zeta. split; [intros c [<-|[<-|[<-|[]]]]; exact I|]. split; [eexists; vm_compute; reflexivity|].
  vm_compute. discriminate.
Qed.

(** C67: full statement: every model in the graph trains as if it were alone.  Guard: no
    other model was built in the graph (and the Environment has a summary_path). *)
Theorem C67_alone_partial : forall (T : Type) (N : Num T) pinv svdU svals pow (X : tensor T) w rnd steps id,
  w_path w = true -> (forall id', In id' (w_sums w) -> id' = id) ->
  (forall o a, o_built o = Some (a, id) ->
    snd (cp_train pinv X w o rnd steps) = snd (cp_body pinv X a rnd true steps (o_pub o))) /\
  (forall rnd o a, o_built o = Some (a, id) ->
    snd (hooi_train svdU X w o rnd steps) = snd (hooi_body svdU X a rnd true steps (o_pub o))) /\
  (forall o a, o_built o = Some (a, id) ->
    snd (ncp_train pow svals X w o rnd steps) = snd (ncp_body pow svals X a rnd true steps (o_pub o))) /\
  (forall rnd o a, o_built o = Some (a, id) ->
    snd (nt_train pow svals X w o rnd steps) = snd (nt_body pow svals X a rnd true steps (o_pub o))) /\
  (forall rnd o a, o_built o = Some (a, id) ->
    snd (hosvd_train svdU X w o rnd steps) = snd (hosvd_body svdU X a rnd true steps (o_pub o))).
Proof. exact @alone_all. Qed.
Print Assumptions C67_alone_partial.

(** with another model's summaries in the graph no train call completes *)
Theorem C67_shared_graph_refuted : forall (T : Type) (N : Num T) pinv svdU svals pow (X : tensor T) w steps id id',
  In id' (w_sums w) -> id' <> id ->
  (forall rnd o a, o_built o = Some (a, id) -> exists e, snd (cp_train pinv X w o rnd steps) = Raise e) /\
  (forall rnd o a, o_built o = Some (a, id) -> exists e, snd (hooi_train svdU X w o rnd steps) = Raise e) /\
  (forall rnd o a, o_built o = Some (a, id) -> exists e, snd (ncp_train pow svals X w o rnd steps) = Raise e) /\
  (forall rnd o a, o_built o = Some (a, id) -> exists e, snd (nt_train pow svals X w o rnd steps) = Raise e) /\
  (forall rnd o a, o_built o = Some (a, id) -> exists e, snd (hosvd_train svdU X w o rnd steps) = Raise e).
Proof. exact @foreign_all. Qed.
Print Assumptions C67_shared_graph_refuted.

Theorem C67_two_models_refuted : exists pinv X w (o1 o2 : fobj f32 (targs f32 * nat)) a rnd steps o1' o2' h,
  fst (obj_build (fun _ => Ok tt) (mkW [] true) fresh a 1) = (mkW [1] true, o1) /\
  snd (cp_train (N := NumF32) pinv X (mkW [1] true) o1 rnd steps) = Ok h /\
  fst (obj_build (fun _ => Ok tt) (mkW [1] true) fresh a 2) = (w, o2) /\
  cp_train (N := NumF32) pinv X w o1 rnd steps = (o1', Raise InvalidArgument) /\
  cp_train (N := NumF32) pinv X w o2 rnd steps = (o2', Raise InvalidArgument).
Proof. exact c67_refuted. Qed.
Print Assumptions C67_two_models_refuted.

(** C68: full statement: trains without raising.  With Environment() defaults every train of
    a built model raises TypeError; see C67_alone_partial for w_path = true. *)
Theorem C68_default_environment_refuted : forall (T : Type) (N : Num T) pinv svdU svals pow (X : tensor T) w steps,
  w_path w = false ->
  (forall rnd o a id, o_built o = Some (a, id) -> snd (cp_train pinv X w o rnd steps) = Raise TypeError) /\
  (forall rnd o a id, o_built o = Some (a, id) -> snd (hooi_train svdU X w o rnd steps) = Raise TypeError) /\
  (forall rnd o a id, o_built o = Some (a, id) -> snd (ncp_train pow svals X w o rnd steps) = Raise TypeError) /\
  (forall rnd o a id, o_built o = Some (a, id) -> snd (nt_train pow svals X w o rnd steps) = Raise TypeError) /\
  (forall rnd o a id, o_built o = Some (a, id) -> snd (hosvd_train svdU X w o rnd steps) = Raise TypeError).
Proof. exact @nopath_all. Qed.
Print Assumptions C68_default_environment_refuted.

(** the same model trains with a summary_path and not without *)
Example ex_C68 : (exists h, snd (cp_train (N := NumF32) pinv1 XI (mkW [7] true) (mk_obj (args38, 1)) A_e1 5) = Ok h) /\
  snd (cp_train (N := NumF32) pinv1 XI (mkW [7] false) (mk_obj (args38, 1)) A_e1 5) = Raise TypeError.
Proof. split; [eexists; vm_compute; reflexivity|reflexivity]. Qed.
