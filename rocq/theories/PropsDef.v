(** Properties C104, C105. *)

From Coq Require Import ZArith Reals List Bool Arith Lia Lra.
From Verif Require Import Num Py Tensor TF Ops Types Loss Fact Train TProg Spec SpecR SpecTucker SpecCp SpecBcu SpecProx SpecTrain SpecInit SpecScale SpecDef NormFacts MultiR AlsLemmas NcpFacts NcpLemmas NtFacts NtLemmas SpectralExists NonZero SpecRetry TrainFacts Retry Exact ExactEx InitFacts InitEx DefFacts DefSteps DefTrain DefBcu DefAls DefCp TensorFacts.
Import ListNotations.
Local Open Scope R_scope.
#[local] Existing Instance NumX.

(** C104: a program of tensor operations never has an undefined entry *)
Theorem C104_ops : forall env e, teval (map def env) e = rmap def (teval env e).
Proof. exact c104_ops. Qed.
Print Assumptions C104_ops.

(** HOSVD and HOOI on data with a non-zero entry compute exactly what the real-number theorems say *)
Theorem C104_hosvd : forall svdU svdX X ranks, same_routine svdU svdX -> some_entry X ->
  hosvd svdX (def X) ranks = rmap (fun o => mkTu (map def (tu_A o)) (def (tu_core o)) (def (tu_full o)) (Some (tu_loss o))) (hosvd svdU X ranks).
Proof. exact c104_hosvd. Qed.
Print Assumptions C104_hosvd.
Theorem C104_hosvd_train : forall svdU svdX X w (o : fobj R (list Z)) rnd steps, same_routine svdU svdX -> some_entry X ->
  hosvd_train svdX (def X) w (def_obj (fun a => a) o) rnd steps = def_outcome (fun a => a) (hosvd_train svdU X w o rnd steps).
Proof. exact c104_hosvd_train. Qed.
Print Assumptions C104_hosvd_train.
Theorem C104_hooi_step : forall svdU svdX X ranks A, same_routine svdU svdX -> some_entry X ->
  hooi_step svdX (def X) ranks (map def A) = rmap def_hooi (hooi_step svdU X ranks A).
Proof. exact c104_hooi_step. Qed.
Print Assumptions C104_hooi_step.
Theorem C104_hooi_train : forall svdU svdX X w (o : fobj R (targs R * list Z)) rnd steps, same_routine svdU svdX -> some_entry X ->
  hooi_train svdX (def X) w (def_obj (fun a => (def_args (fst a), snd a)) o) rnd steps = def_outcome (fun a => (def_args (fst a), snd a)) (hooi_train svdU X w o rnd steps).
Proof. exact c104_hooi_train. Qed.
Print Assumptions C104_hooi_train.

(** CP_ALS: as long as no column maximum is zero *)
Theorem C104_cp_step : forall pinv pinvX (X : tensor R) r A o, penrose pinv -> same_routine pinv pinvX -> some_entry X -> cp_factors X r A -> cp_step pinv X r A = Ok o ->
  (forall n q v, (n < ndims X)%nat -> (q < r)%nat -> column_max (als_solution pinv X r (mixed n (cp_A o) A) n) q v -> v <> 0) ->
  cp_step pinvX (def X) r (map def A) = Ok (def_cp o).
Proof. exact c104_cp_step. Qed.
Print Assumptions C104_cp_step.
Theorem C104_cp_train : forall pinv pinvX X w (o : fobj R (targs R * nat)) args r id rnd steps, penrose pinv -> same_routine pinv pinvX -> some_entry X ->
  o_built o = Some ((args, r), id) -> cp_factors X r rnd ->
  (forall k A, (Z.of_nat k < steps)%Z -> als_after (fun A => do o <- cp_step pinv X r A; Ok (cp_A o)) rnd k A -> clean_sweep pinv X r A) ->
  cp_train pinvX (def X) w (def_obj (fun a => (def_args (fst a), snd a)) o) (map def rnd) steps = def_outcome (fun a => (def_args (fst a), snd a)) (cp_train pinv X w o rnd steps).
Proof. exact c104_cp_train. Qed.
Print Assumptions C104_cp_train.

(** NCP_BCU and NTUCKER_BCU: as long as the step sizes are positive *)
Theorem C104_ncp_step : forall svals svalsX X, same_values svals svalsX -> some_entry X -> forall s s2 full m,
  ncp_step svals X s = Ok (s2, full, m) -> pos (n_L s2) -> ncp_step svalsX (def X) (def_ncp s) = Ok (def_ncp s2, def full, def_metrics m).
Proof. exact c104_ncp_step. Qed.
Print Assumptions C104_ncp_step.
Theorem C104_ncp_train : forall pow powX svals svalsX X rnd w (o : fobj R (targs R * nat)) steps, same_pow pow powX -> same_values svals svalsX -> some_entry X -> (0 < ndims X)%nat -> Forall has_positive rnd ->
  (forall k s, (Z.of_nat k < steps)%Z -> bcu_after (fun s => Ok (s, None)) (ncp_run svals X) ncp_accept (fun s => Ok (ncp_reject s)) (ncp_init pow X rnd) k s -> clean_ncp svals X s) ->
  ncp_train powX svalsX (def X) w (def_obj (fun a => (def_args (fst a), snd a)) o) (map def rnd) steps =
  def_outcome (fun a => (def_args (fst a), snd a)) (ncp_train pow svals X w o rnd steps).
Proof. exact c104_ncp_train. Qed.
Print Assumptions C104_ncp_train.
Theorem C104_nt_step : forall svals svalsX X, same_values svals svalsX -> some_entry X -> forall s s1 s2 full m,
  nt_core svals X s = Ok s1 -> nt_fact svals X s1 = Ok (s2, full, m) -> pos (q_L s2) ->
  nt_core svalsX (def X) (def_nt s) = Ok (def_nt s1) /\ nt_fact svalsX (def X) (def_nt s1) = Ok (def_nt s2, def full, def_metrics m).
Proof. exact c104_nt_step. Qed.
Print Assumptions C104_nt_step.
Theorem C104_nt_train : forall pow powX svals svalsX X rnd rndg w (o : fobj R (targs R)) steps, same_pow pow powX -> same_values svals svalsX -> some_entry X -> Forall has_positive rnd -> has_positive rndg ->
  (forall k s, (Z.of_nat k < steps)%Z -> bcu_after (nt_pre svals X) (nt_factors svals X) nt_accept (fun s => Ok (nt_reject s)) (nt_init pow X rnd rndg) k s -> clean_nt svals X s) ->
  nt_train powX svalsX (def X) w (def_obj def_args o) (map def rnd, def rndg) steps = def_outcome def_args (nt_train pow svals X w o (rnd, rndg) steps).
Proof. exact c104_nt_train. Qed.
Print Assumptions C104_nt_train.

(** without a non-zero entry the error of every model is undefined *)
Theorem C104_zero_data : forall (X : tensor R) F m, (forall x, In x (dat X) -> x = 0) -> metrics_of (def X) F = Ok m -> m_loss m = None /\ m_rel m = None.
Proof. exact c104_zero_data. Qed.
Print Assumptions C104_zero_data.

(** ** Examples *)
Definition undef (t : tensor xreal) : tensor R := mkT (shp t) (map (fun x => match x with Some v => v | None => 0 end) (dat t)).
Lemma undef_def t : undef (def t) = t.
Proof. unfold undef, def. destruct t as [s l]. cbn. f_equal. rewrite map_map. apply map_id. Qed.
Example ex_C104_routines : forall f g h, same_routine f (fun M => def (f (undef M))) /\ same_values g (fun M => map Some (g (undef M))) /\ same_pow h (x2 (fun x y => Some (h x y))).
Proof. intros f g h. split; [|split]; intros M; [rewrite undef_def; reflexivity|rewrite undef_def; reflexivity|intros y; reflexivity]. Qed.
Example ex_C104_data : some_entry Xd /\ some_entry X4.
Proof. split; [exists 2|exists 4]; (split; [left; reflexivity|lra]). Qed.
Example ex_C104_div : ndiv (Some 1) (Some 0) = None /\ ndiv (Some 6) (Some 2) = Some (6 / 2) /\ nsqrt (Some (-1)) = None.
Proof. cbn. destruct (Req_EM_T 0 0); [|lra]. destruct (Req_EM_T 2 0); [lra|]. destruct (Rlt_dec (-1) 0); [|lra]. auto. Qed.
Example ex_C104_cp : exists pinv, penrose pinv /\ cp_factors Xd 1 Ad /\
  forall k A, (Z.of_nat k < 1)%Z -> als_after (fun A => do o <- cp_step pinv Xd 1 A; Ok (cp_A o)) Ad k A -> clean_sweep pinv Xd 1 A.
Proof.
  destruct penrose_exists as (pinv & HP). exists pinv. split; [exact HP|]. split; [apply Ad_factors|]. intros k A Hk H. destruct k as [|k]; [|lia]. inversion H; subst.
  destruct (cp_step_total pinv Xd 1 Ad HP eq_refl ltac:(repeat constructor; discriminate) ltac:(cbn; lia) Ad_factors) as (o & E). exists o. split; [exact E|]. apply ex_c44_guard; assumption.
Qed.
Lemma pos_of_nth l : (forall n, (n < length l)%nat -> 0 < nth n l 0) -> pos l.
Proof. intros H. apply Forall_forall. intros x Hx. apply (In_nth _ _ 0) in Hx as (n & Hn & <-). apply H, Hn. Qed.
Example ex_C104_ncp : exists svals, spectral svals /\ Forall has_positive Ad /\
  forall k s, (Z.of_nat k < 1)%Z -> bcu_after (fun s => Ok (s, None)) (ncp_run svals X4) ncp_accept (fun s => Ok (ncp_reject s)) (ncp_init rpow X4 Ad) k s -> clean_ncp svals X4 s.
Proof.
  destruct spectral_exists as (svals & HS). exists svals. split; [exact HS|]. split; [apply Forall_forall, Ad_positive|]. intros k s Hk H. destruct k as [|k]; [|lia]. inversion H; subst.
  pose proof (ncp_init_wf rpow X4 1 Ad A4_factors) as W. destruct (ncp_step_total svals X4 1 _ X4_wf X4_ne ltac:(cbn; lia) W) as (s2 & full & m & E). exists s2, full, m. split; [exact E|].
  destruct (c50_better svals X4 1 _ s2 full m HS X4_wf ltac:(lia) W E eq_refl) as [HL _].
  - apply (ncp_init_nonneg rpow X4 1 Ad rpow_roots X4_wf A4_factors Ad_positive).
  - rewrite ncp_start4. replace (sqdist X4 X4) with 0 by (symmetry; apply LossFacts.sqdist_zero; reflexivity). apply sqlen_pos, X4_nonzero.
  - apply pos_of_nth. intros n Hn. apply HL. destruct (ncp_parts svals X4 1 _ s2 full m W E) as (_ & _ & (_ & _ & _ & L2 & _) & _). rewrite L2 in Hn. exact Hn.
Qed.
Example ex_C104_nt : exists svals, spectral svals /\ Forall has_positive Ad /\ has_positive G4 /\
  forall k s, (Z.of_nat k < 1)%Z -> bcu_after (nt_pre svals X4) (nt_factors svals X4) nt_accept (fun s => Ok (nt_reject s)) (nt_init rpow X4 Ad G4) k s -> clean_nt svals X4 s.
Proof.
  destruct spectral_exists as (svals & HS). exists svals. split; [exact HS|]. split; [apply Forall_forall, Ad_positive|]. split; [exact G4_positive|]. intros k s Hk H. destruct k as [|k]; [|lia]. inversion H; subst.
  pose proof (nt_init_wf rpow X4 [1; 1]%nat Ad G4 A4_tucker G4_core) as W.
  destruct (nt_step_total svals X4 [1; 1]%nat (nt_init rpow X4 Ad G4) X4_wf X4_ne r11_ne ltac:(cbn; lia) W) as (s1 & s2 & full & m & E1 & E2). exists s1, s2, full, m. split; [exact E1|]. split; [exact E2|].
  destruct (c53_better svals X4 [1; 1]%nat _ s1 s2 full m HS X4_wf r11_ne W E1 E2 eq_refl eq_refl) as [HL _].
  - apply (nt_init_core_nonneg rpow X4 [1; 1]%nat Ad G4 rpow_roots X4_wf G4_core G4_positive).
  - apply (nt_init_nonneg rpow X4 [1; 1]%nat Ad G4 rpow_roots X4_wf A4_tucker Ad_positive).
  - rewrite nt_start4. replace (sqdist X4 X4) with 0 by (symmetry; apply LossFacts.sqdist_zero; reflexivity). apply sqlen_pos, X4_nonzero.
  - destruct (nt_fact_L _ _ _ _ _ _ E2) as (L1 & _). destruct (nt_core_L _ _ _ _ E1) as (_ & L & EL & _). apply pos_of_nth. intros n Hn. apply HL. rewrite L1, EL, upd_len in Hn. cbn in Hn |- *. lia.
Qed.
Example ex_C104_zero : exists m, metrics_of (def (mkT [2]%nat [0; 0])) (def (mkT [2]%nat [1; 2])) = Ok m.
Proof. eexists. reflexivity. Qed.

(** C105: a zero column maximum makes the whole column undefined *)
Theorem C105_mode : forall pinv pinvX (X : tensor R) r A mats n q, penrose pinv -> same_routine pinv pinvX -> nonempty (shp X) -> (2 <= ndims X <= 26)%nat ->
  unfold_all X = Ok mats -> cp_factors X r A -> (n < ndims X)%nat -> (q < r)%nat -> column_max (als_solution pinv X r A n) q 0 ->
  exists A' lam, cp_mode pinvX (map def mats) r n (map def A) = Ok (A', lam) /\ forall i, (i < nth n (shp X) 0)%nat -> mget (nth n A' (mkT [] [])) i q = None.
Proof. exact c105_mode. Qed.
Print Assumptions C105_mode.
Theorem C105_step : forall pinv pinvX (X : tensor R) r A o q, penrose pinv -> same_routine pinv pinvX -> (2 <= ndims X <= 26)%nat -> cp_factors X r A -> (q < r)%nat ->
  column_max (als_solution pinv X r A 0) q 0 -> cp_step pinvX (def X) r (map def A) = Ok o ->
  forall i, (i < nth 0 (shp X) 0)%nat -> mget (nth 0 (cp_A o) (mkT [] [])) i q = None.
Proof. exact c105_step. Qed.
Print Assumptions C105_step.

(** rank one: it happens for data without positive entries whose slice i0 of mode n is zero *)
Theorem C105_max : forall pinv (X : tensor R) A n i0, penrose pinv -> nonempty (shp X) -> cp_factors X 1 A -> (n < ndims X)%nat ->
  (forall k i, (k < ndims X)%nat -> k <> n -> (i < nth k (shp X) 0)%nat -> 0 < mget (mat_at A k) i 0) ->
  (forall idx, valid (shp X) idx -> get X idx <= 0) -> (i0 < nth n (shp X) 0)%nat -> (forall idx, valid (shp X) idx -> nth n idx 0%nat = i0 -> get X idx = 0) ->
  column_max (als_solution pinv X 1 A n) 0 0.
Proof. exact c105_max. Qed.
Print Assumptions C105_max.
Theorem C105_nonpositive : forall pinv pinvX (X : tensor R) A i0 o, penrose pinv -> same_routine pinv pinvX -> nonempty (shp X) -> (2 <= ndims X <= 26)%nat -> cp_factors X 1 A ->
  (forall k i, (k < ndims X)%nat -> (i < nth k (shp X) 0)%nat -> 0 < mget (mat_at A k) i 0) ->
  (forall idx, valid (shp X) idx -> get X idx <= 0) -> (i0 < nth 0 (shp X) 0)%nat -> (forall idx, valid (shp X) idx -> nth 0 idx 0%nat = i0 -> get X idx = 0) ->
  cp_step pinvX (def X) 1 (map def A) = Ok o -> forall i, (i < nth 0 (shp X) 0)%nat -> mget (nth 0 (cp_A o) (mkT [] [])) i 0 = None.
Proof. exact c105_nonpositive. Qed.
Print Assumptions C105_nonpositive.

(** so a non-zero entry and a positive start do not make the step defined *)
Theorem C105_defined_refuted : exists (X : tensor R) A, some_entry X /\ cp_factors X 1 A /\ (forall M, In M A -> forall x, In x (dat M) -> 0 < x) /\
  forall pinv pinvX, penrose pinv -> same_routine pinv pinvX -> forall o, cp_step pinvX (def X) 1 (map def A) = Ok o -> ~ exists o', o = def_cp o'.
Proof. exact c105_refuted. Qed.
Print Assumptions C105_defined_refuted.

Example ex_C105 : exists pinv, penrose pinv /\ column_max (als_solution pinv Xneg 1 Ad 0) 0 0 /\
  exists A' lam, cp_mode (fun M => def (pinv (undef M))) (map def [mkT [2; 2]%nat [0; 0; 0; -1]; mkT [2; 2]%nat [0; 0; 0; -1]]) 1 0 (map def Ad) = Ok (A', lam) /\
    mget (nth 0 A' (mkT [] [])) 0 0 = None /\ mget (nth 0 A' (mkT [] [])) 1 0 = None.
Proof.
  destruct penrose_exists as (pinv & HP). exists pinv. split; [exact HP|].
  assert (HC : column_max (als_solution pinv Xneg 1 Ad 0) 0 0).
  { apply (C105_max pinv Xneg Ad 0 0 HP); [repeat constructor; discriminate|exact Ad_factors|cbn; lia| | |cbn; lia|].
    - intros k i Hk _ Hi. change (ndims Xneg) with 2%nat in Hk. destruct k as [|[|k]]; [| |lia]; cbn in Hi; (destruct i as [|[|i]]; [| |lia]); cbn; lra.
    - intros idx Hv. apply valid2_inv in Hv as (i & j & -> & Hi & Hj). destruct i as [|[|i]]; [| |lia]; (destruct j as [|[|j]]; [| |lia]); cbn; lra.
    - intros idx Hv H0. apply valid2_inv in Hv as (i & j & -> & Hi & Hj). cbn in H0. subst i. destruct j as [|[|j]]; [| |lia]; cbn; lra. }
  split; [exact HC|].
  destruct (C105_mode pinv (fun M => def (pinv (undef M))) Xneg 1 Ad [mkT [2; 2]%nat [0; 0; 0; -1]; mkT [2; 2]%nat [0; 0; 0; -1]] 0 0 HP) as (A' & lam & E & H); [intros M; rewrite undef_def; reflexivity|repeat constructor; discriminate|cbn; lia|reflexivity|exact Ad_factors|cbn; lia|lia|exact HC|].
  exists A', lam. split; [exact E|]. split; apply H; cbn; lia.
Qed.
