(** Property theorems for the order of execution (C46, C49, C71), for any number type.  The
    sequential functions are those of Fact.v; a node that has run in an execution of a step
    the sequential function can do has not failed, and every such step has an execution that
    comes to its end. *)

From Coq Require Import ZArith List Bool Arith Lia SpecFloat.
From Verif Require Import Num Py Tensor TF Ops Types Loss Fact Train SpecTrain SpecBcu Sched Graphs SpecSched SchedCp SchedHooi SchedNcp SchedNt SchedBcu SchedLemmas TrainWit.
Import ListNotations.

(** ** C46: CP_ALS *)

Theorem C46_cp_step : forall T (N : Num T) pinv (X : tensor T) rank A, 0 < ndims X -> length A = ndims X -> matrices A ->
  forall E : execution (cp_graph pinv X rank) (cp_fetch X) (cp_vars A), finished _ E ->
  exists out, cp_step pinv X rank A = Ok out /\ length (cp_A out) = ndims X /\
    (forall v, final _ E v (cp_vars (cp_A out) v)) /\
    (forall m, m < ndims X -> fetched _ E (CUp m) (nth m (cp_A out) (mkT [] []))) /\
    e_val E (CLam (ndims X - 1)) = Ok (cp_lam out) /\ e_val E CFull = Ok (cp_full out) /\
    e_val E CLoss = Ok (scl (m_loss (cp_met out))) /\ e_val E CObj = Ok (scl (m_obj (cp_met out))) /\
    e_val E CRel = Ok (scl (m_rel (cp_met out))).
Proof. exact @cp_exec. Qed.
Print Assumptions C46_cp_step.

Theorem C46_cp_no_failure : forall T (N : Num T) pinv (X : tensor T) rank A, 0 < ndims X -> length A = ndims X ->
  forall out (E : execution (cp_graph pinv X rank) (cp_fetch X) (cp_vars A)) n,
  cp_step pinv X rank A = Ok out -> e_ran E n -> is_ok (e_val E n).
Proof. exact @cp_no_failure. Qed.
Print Assumptions C46_cp_no_failure.

Theorem C46_cp_exists : forall T (N : Num T) pinv (X : tensor T) rank A, 0 < ndims X -> length A = ndims X ->
  forall out, cp_step pinv X rank A = Ok out ->
  exists E : execution (cp_graph pinv X rank) (cp_fetch X) (cp_vars A), finished _ E.
Proof. exact @cp_exists. Qed.
Print Assumptions C46_cp_exists.

(** over any number of runs *)
Theorem C46_cp_session : forall T (N : Num T) pinv (X : tensor T) rank rnd mem, 0 < ndims X -> length rnd = ndims X -> matrices rnd ->
  cp_session pinv X rank rnd mem ->
  exists A, als_reach (fun A => do o <- cp_step pinv X rank A; Ok (cp_A o)) rnd A /\ (forall v, mem v = cp_vars A v) /\
    length A = ndims X /\ matrices A.
Proof. exact @cp_session_reach. Qed.
Print Assumptions C46_cp_session.

(** diag(2, 1) from the all-ones factors, binary32 *)
Example ex_C46 : 0 < ndims X39 /\ length A39 = ndims X39 /\ matrices A39 /\
  exists E : execution (cp_graph (N := NumF32) pinv1 X39 1) (cp_fetch X39) (cp_vars A39), finished _ E.
Proof.
  split; [cbn; lia|]. split; [reflexivity|]. split; [intros M [<-|[<-|[]]]; eexists _, _; reflexivity|].
  eapply C46_cp_exists; [cbn; lia|reflexivity|vm_compute; reflexivity].
Qed.

(** ** C71: HOOI *)

Theorem C71_hooi_step : forall T (N : Num T) svdU (X : tensor T) ranks A, length A = ndims X ->
  forall E : execution (hooi_graph svdU X ranks) (hooi_fetch X) (cp_vars A), finished _ E ->
  exists out, hooi_step svdU X ranks A = Ok out /\ length (ho_A out) = ndims X /\
    (forall v, final _ E v (cp_vars (ho_A out) v)) /\
    (forall m, m < ndims X -> fetched _ E (HUp m) (nth m (ho_A out) (mkT [] []))) /\
    e_val E HCore = Ok (ho_core out) /\ e_val E HFull = Ok (ho_full out) /\
    e_val E HLoss = Ok (scl (m_loss (ho_met out))) /\ e_val E HObj = Ok (scl (m_obj (ho_met out))) /\
    e_val E HRel = Ok (scl (m_rel (ho_met out))).
Proof. exact @ho_exec. Qed.
Print Assumptions C71_hooi_step.

Theorem C71_hooi_no_failure : forall T (N : Num T) svdU (X : tensor T) ranks A, length A = ndims X ->
  forall out (E : execution (hooi_graph svdU X ranks) (hooi_fetch X) (cp_vars A)) n,
  hooi_step svdU X ranks A = Ok out -> e_ran E n -> is_ok (e_val E n).
Proof. exact @ho_no_failure. Qed.
Print Assumptions C71_hooi_no_failure.

Theorem C71_hooi_exists : forall T (N : Num T) svdU (X : tensor T) ranks A, length A = ndims X ->
  forall out, hooi_step svdU X ranks A = Ok out ->
  exists E : execution (hooi_graph svdU X ranks) (hooi_fetch X) (cp_vars A), finished _ E.
Proof. exact @ho_exists. Qed.
Print Assumptions C71_hooi_exists.

Theorem C71_hooi_session : forall T (N : Num T) svdU (X : tensor T) ranks A0 mem, length A0 = ndims X ->
  hooi_session svdU X ranks A0 mem ->
  exists A, als_reach (fun A => do o <- hooi_step svdU X ranks A; Ok (ho_A o)) A0 A /\ (forall v, mem v = cp_vars A v) /\
    length A = ndims X.
Proof. exact @hooi_session_reach. Qed.
Print Assumptions C71_hooi_session.

Example ex_C71 : length A39 = ndims X39 /\
  exists E : execution (hooi_graph (N := NumF32) svdU_id X39 [1; 1]%Z) (hooi_fetch X39) (cp_vars A39), finished _ E.
Proof. split; [reflexivity|]. eapply C71_hooi_exists; [reflexivity|vm_compute; reflexivity]. Qed.

(** ** C49: NCP_BCU *)

Theorem C49_ncp_step : forall T (N : Num T) svals (X : tensor T) s, ncp_sized (ndims X) s -> matrices (n_A s) ->
  forall E : execution (ncp_graph svals X) (ncp_fetch X) (ncp_vars s), finished _ E ->
  exists s' full mt, ncp_step svals X s = Ok (s', full, mt) /\
    (forall v, final _ E v (ncp_vars s' v)) /\
    (forall m, m < ndims X -> fetched _ E (NA m) (nth m (n_A s') (mkT [] []))) /\
    e_val E NFull = Ok full /\
    e_val E NLoss = Ok (scl (m_loss mt)) /\ e_val E NObj = Ok (scl (m_obj mt)) /\ e_val E NRel = Ok (scl (m_rel mt)).
Proof. exact @ncp_exec. Qed.
Print Assumptions C49_ncp_step.

Theorem C49_ncp_no_failure : forall T (N : Num T) svals (X : tensor T) s, ncp_sized (ndims X) s -> matrices (n_A s) ->
  forall out (E : execution (ncp_graph svals X) (ncp_fetch X) (ncp_vars s)) n,
  ncp_step svals X s = Ok out -> e_ran E n -> is_ok (e_val E n).
Proof. exact @ncp_no_failure. Qed.
Print Assumptions C49_ncp_no_failure.

Theorem C49_ncp_exists : forall T (N : Num T) svals (X : tensor T) s, ncp_sized (ndims X) s -> matrices (n_A s) ->
  forall out, ncp_step svals X s = Ok out ->
  exists E : execution (ncp_graph svals X) (ncp_fetch X) (ncp_vars s), finished _ E.
Proof. exact @ncp_exists. Qed.
Print Assumptions C49_ncp_exists.

(** the update group of an accepted step *)
Theorem C49_ncp_accept : forall T (N : Num T) k (s : ncp_state T), 0 < k -> ncp_sized k s ->
  (forall E : execution (accept_graph k) (accept_fetch k) (ncp_vars s), finished _ E ->
   exists s', ncp_accept s = Ok s' /\ forall v, final _ E v (ncp_vars s' v)) /\
  (forall s', ncp_accept s = Ok s' ->
   (forall (E : execution (accept_graph k) (accept_fetch k) (ncp_vars s)) n, e_ran E n -> is_ok (e_val E n)) /\
   exists E : execution (accept_graph k) (accept_fetch k) (ncp_vars s), finished _ E).
Proof. exact @ncp_accept_all. Qed.
Print Assumptions C49_ncp_accept.

(** and of a rejected one *)
Theorem C49_ncp_reject : forall T (N : Num T) k (s : ncp_state T), ncp_sized k s ->
  (forall E : execution reject_graph (reject_fetch k) (ncp_vars s), finished _ E ->
   forall v, final _ E v (ncp_vars (ncp_reject s) v)) /\
  (forall (E : execution reject_graph (reject_fetch k) (ncp_vars s)) n, e_ran E n -> is_ok (e_val E n)) /\
  exists E : execution reject_graph (reject_fetch k) (ncp_vars s), finished _ E.
Proof. exact @ncp_reject_all. Qed.
Print Assumptions C49_ncp_reject.

(** initialisation *)
Theorem C49_ncp_init : forall T (N : Num T) pow (X : tensor T) rnd, length rnd = ndims X ->
  (forall E : execution (init_graph pow X (ndims X)) (init_fetch (ndims X)) (ncp_drawn X rnd), finished _ E ->
   forall v, final _ E v (ncp_vars (ncp_init pow X rnd) v)) /\
  (forall (E : execution (init_graph pow X (ndims X)) (init_fetch (ndims X)) (ncp_drawn X rnd)) n, e_ran E n -> is_ok (e_val E n)) /\
  exists E : execution (init_graph pow X (ndims X)) (init_fetch (ndims X)) (ncp_drawn X rnd), finished _ E.
Proof. exact @ncp_init_all. Qed.
Print Assumptions C49_ncp_init.

(** over any number of runs the variables hold a state the sequential training can reach *)
Theorem C49_ncp_session : forall T (N : Num T) pow svals (X : tensor T) rnd mem, 0 < ndims X -> length rnd = ndims X -> matrices rnd ->
  ncp_session pow svals X rnd mem ->
  exists s, reach (fun s => Ok (s, None)) (ncp_run svals X) ncp_accept (fun s => Ok (ncp_reject s)) (ncp_init pow X rnd) s /\
    (forall v, mem v = ncp_vars s v) /\ ncp_sized (ndims X) s /\ matrices (n_A s).
Proof. exact @ncp_session_reach. Qed.
Print Assumptions C49_ncp_session.

Definition s39 : ncp_state f32 := ncp_init (N := NumF32) pow1 X39 A39.

Example ex_C49_ncp : ncp_sized (ndims X39) s39 /\ matrices (n_A s39) /\
  (exists E : execution (ncp_graph (N := NumF32) svals1 X39) (ncp_fetch X39) (ncp_vars (N := NumF32) s39), finished _ E) /\
  exists s', @ncp_accept f32 NumF32 s39 = Ok s'.
Proof.
  assert (HS : ncp_sized (ndims X39) s39) by (repeat split; reflexivity).
  assert (HM : matrices (n_A s39)) by (intros M [<-|[<-|[]]]; eexists _, _; reflexivity).
  split; [exact HS|]. split; [exact HM|]. split.
  - eapply C49_ncp_exists; [exact HS|exact HM|vm_compute; reflexivity].
  - eexists. vm_compute. reflexivity.
Qed.

(** ** C49: NTUCKER_BCU.  The scratch variables Bsq and Grad_g may hold anything before a run. *)

Theorem C49_nt_core : forall T (N : Num T) svals (X : tensor T) s mem, nt_sized (ndims X) s -> nt_mem s mem ->
  (forall E : execution (nt_core_graph svals X) nt_core_fetch mem, finished _ E ->
   exists s', nt_core svals X s = Ok s' /\
     (forall v, v <> VBsq -> v <> VGrad -> final _ E v (nt_vars s' v)) /\ fetched _ E GUp (q_g s')) /\
  (forall s', nt_core svals X s = Ok s' ->
   (forall (E : execution (nt_core_graph svals X) nt_core_fetch mem) n, e_ran E n -> is_ok (e_val E n)) /\
   exists E : execution (nt_core_graph svals X) nt_core_fetch mem, finished _ E).
Proof. exact @nt_core_all. Qed.
Print Assumptions C49_nt_core.

Theorem C49_nt_fact : forall T (N : Num T) svals (X : tensor T) s mem, nt_sized (ndims X) s -> nt_mem s mem ->
  (forall E : execution (nt_fact_graph svals X) (nt_fact_fetch X) mem, finished _ E ->
   exists s' full mt, nt_fact svals X s = Ok (s', full, mt) /\
     (forall v, v <> VBsq -> v <> VGrad -> final _ E v (nt_vars s' v)) /\
     (forall m, m < ndims X -> fetched _ E (FA m) (nth m (q_A s') (mkT [] []))) /\
     e_val E FFull = Ok full /\
     e_val E FLoss = Ok (scl (m_loss mt)) /\ e_val E FObj = Ok (scl (m_obj mt)) /\ e_val E FRel = Ok (scl (m_rel mt))) /\
  (forall out, nt_fact svals X s = Ok out ->
   (forall (E : execution (nt_fact_graph svals X) (nt_fact_fetch X) mem) n, e_ran E n -> is_ok (e_val E n)) /\
   exists E : execution (nt_fact_graph svals X) (nt_fact_fetch X) mem, finished _ E).
Proof. exact @nt_fact_all. Qed.
Print Assumptions C49_nt_fact.

Theorem C49_nt_accept : forall T (N : Num T) k (s : nt_state T) mem, 0 < k -> nt_sized k s -> nt_mem s mem ->
  (forall E : execution (accept_graph k) (accept_fetch (k + 1)) mem, finished _ E ->
   exists s', nt_accept s = Ok s' /\ forall v, v <> VBsq -> v <> VGrad -> final _ E v (nt_vars s' v)) /\
  (forall s', nt_accept s = Ok s' ->
   (forall (E : execution (accept_graph k) (accept_fetch (k + 1)) mem) n, e_ran E n -> is_ok (e_val E n)) /\
   exists E : execution (accept_graph k) (accept_fetch (k + 1)) mem, finished _ E).
Proof. exact @nt_accept_all. Qed.
Print Assumptions C49_nt_accept.

Theorem C49_nt_reject : forall T (N : Num T) k (s : nt_state T) mem, nt_sized k s -> nt_mem s mem ->
  (forall E : execution reject_graph (reject_fetch (k + 1)) mem, finished _ E ->
   forall v, v <> VBsq -> v <> VGrad -> final _ E v (nt_vars (nt_reject s) v)) /\
  (forall (E : execution reject_graph (reject_fetch (k + 1)) mem) n, e_ran E n -> is_ok (e_val E n)) /\
  exists E : execution reject_graph (reject_fetch (k + 1)) mem, finished _ E.
Proof. exact @nt_reject_all. Qed.
Print Assumptions C49_nt_reject.

Theorem C49_nt_init : forall T (N : Num T) pow (X : tensor T) rnd rndg mem, length rnd = ndims X -> nt_mem (nt_drawn_state X rnd rndg) mem ->
  (forall E : execution (init_graph pow X (ndims X + 1)) (init_fetch (ndims X + 1)) mem, finished _ E ->
   forall v, v <> VBsq -> v <> VGrad -> final _ E v (nt_vars (nt_init pow X rnd rndg) v)) /\
  (forall (E : execution (init_graph pow X (ndims X + 1)) (init_fetch (ndims X + 1)) mem) n, e_ran E n -> is_ok (e_val E n)) /\
  exists E : execution (init_graph pow X (ndims X + 1)) (init_fetch (ndims X + 1)) mem, finished _ E.
Proof. exact @nt_init_all. Qed.
Print Assumptions C49_nt_init.

Theorem C49_nt_session : forall T (N : Num T) pow svals (X : tensor T) rnd rndg mem, 0 < ndims X -> length rnd = ndims X ->
  nt_session pow svals X rnd rndg mem ->
  exists s, reach (nt_pre svals X) (nt_factors svals X) nt_accept (fun s => Ok (nt_reject s)) (nt_init pow X rnd rndg) s /\
    nt_mem s mem /\ nt_sized (ndims X) s.
Proof. exact @nt_session_reach. Qed.
Print Assumptions C49_nt_session.

Definition t39 : nt_state f32 := nt_init (N := NumF32) pow1 X39 A39 (mkT [1; 1] [q 1]).

Example ex_C49_nt : nt_sized (ndims X39) t39 /\ nt_mem (N := NumF32) t39 (nt_vars (N := NumF32) t39) /\
  (exists s', nt_core (N := NumF32) svals1 X39 t39 = Ok s') /\ (exists out, nt_fact (N := NumF32) svals1 X39 t39 = Ok out) /\
  exists s', @nt_accept f32 NumF32 t39 = Ok s'.
Proof.
  split; [repeat split; reflexivity|]. split; [intros v _ _; reflexivity|]. split; [|split]; eexists; vm_compute; reflexivity.
Qed.
