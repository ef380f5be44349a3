(** CP_ALS, HOSVD and HOOI training, programs of tensor operations, and data without a
    non-zero entry, in exact arithmetic with undefined results (C104). *)

From Coq Require Import ZArith List Bool Arith Lia Reals Lra.
From Verif Require Import Num Py Tensor TF TensorFacts TFFacts Sums Ops OpsLemmas Types Loss Fact Train TProg Spec SpecR SpecCp SpecBcu SpecTrain SpecScale
  NormFacts AlsFacts AlsLemmas ParamFacts ScaleAls SpecDef DefFacts DefSteps DefTrain DefBcu.
Import ListNotations.
Local Open Scope R_scope.
#[local] Existing Instance NumX.

Lemma c104_ops env e : teval (map def env) e = rmap def (teval env e).
Proof.
  pose proof (teval_rel dr dr0 dr1 dr_half dr_add dr_sub dr_mul env (map def env) (tds_def env) e) as K.
  destruct (teval env e) as [t|x], (teval (map def env) e) as [t'|x']; cbn [rrel rmap] in *; try contradiction; [rewrite (td_eq _ _ K); reflexivity|rewrite K; reflexivity].
Qed.

Lemma c104_hosvd svdU svdX X ranks : same_routine svdU svdX -> some_entry X ->
  hosvd svdX (def X) ranks = rmap (fun o => mkTu (map def (tu_A o)) (def (tu_core o)) (def (tu_full o)) (Some (tu_loss o))) (hosvd svdU X ranks).
Proof. intros HU HX. apply (rrel_rmap dtu); [auto|]. apply d_hosvd; assumption. Qed.
Lemma c104_hosvd_train svdU svdX X w (o : fobj R (list Z)) rnd steps : same_routine svdU svdX -> some_entry X ->
  hosvd_train svdX (def X) w (def_obj (fun a => a) o) rnd steps = def_outcome (fun a => a) (hosvd_train svdU X w o rnd steps).
Proof.
  intros HU HX. unfold hosvd_train, hooi_train. apply (d_train _ _ (fun a => a)). intros ranks id p _. unfold hosvd_body. rewrite (c104_hosvd svdU svdX X ranks HU HX).
  destruct (hosvd svdU X ranks) as [t|e]; cbn [rmap]; [|reflexivity]. destruct (forallb _ _); reflexivity.
Qed.
Lemma hooi_obj_pos svdU (X : tensor R) ranks A o : hooi_step svdU X ranks A = Ok o -> 0 <= m_obj (ho_met o).
Proof. intros E. unfold hooi_step in E. repeat (apply bind_ok in E as (? & ? & E)). injection E as <-. eapply metrics_pos. eassumption. Qed.
Lemma cp_obj_pos pinv (X : tensor R) r A o : cp_step pinv X r A = Ok o -> 0 <= m_obj (cp_met o).
Proof.
  intros E. unfold cp_step in E. apply bind_ok in E as (? & ? & E). apply bind_ok in E as ([? ?] & ? & E). repeat (apply bind_ok in E as (? & ? & E)). injection E as <-. eapply metrics_pos. eassumption.
Qed.
Lemma c104_hooi_step svdU svdX X ranks A : same_routine svdU svdX -> some_entry X -> hooi_step svdX (def X) ranks (map def A) = rmap def_hooi (hooi_step svdU X ranks A).
Proof. intros HU HX. apply (rrel_rmap (fun o o' => o' = def_hooi o)); [auto|]. apply d_hooi_step; assumption. Qed.
Lemma c104_hooi_train svdU svdX X w (o : fobj R (targs R * list Z)) rnd steps : same_routine svdU svdX -> some_entry X ->
  hooi_train svdX (def X) w (def_obj (fun a => (def_args (fst a), snd a)) o) rnd steps = def_outcome (fun a => (def_args (fst a), snd a)) (hooi_train svdU X w o rnd steps).
Proof.
  intros HU HX. unfold hosvd_train, hooi_train. apply (d_train _ _ (fun a => (def_args (fst a), snd a))). intros [args ranks] id p _. unfold hooi_body. cbn [fst snd].
  apply (d_als_body (map def) (fun _ _ => True)).
  - intros _ A _. unfold hooi_run. apply (rrel_bind_ok (fun o o' => o' = def_hooi o)); [apply d_hooi_step; assumption|]. intros a b Ea _ ->. cbn [rrel]. split; [reflexivity|]. split; [exact I|].
    cbn. apply (hooi_obj_pos _ _ _ _ _ Ea).
  - pose proof (d_hooi_init svdU svdX HU X ranks) as K. destruct (hooi_init svdU X ranks) as [a|], (hooi_init svdX (def X) ranks) as [b|]; cbn [rrel] in *; try contradiction; [|exact K]. split; [apply tds_eq, K|exact I].
Qed.

Lemma c104_cp_train pinv pinvX X w (o : fobj R (targs R * nat)) args r id rnd steps : penrose pinv -> same_routine pinv pinvX -> some_entry X ->
  o_built o = Some ((args, r), id) -> cp_factors X r rnd ->
  (forall k A, (Z.of_nat k < steps)%Z -> als_after (fun A => do o <- cp_step pinv X r A; Ok (cp_A o)) rnd k A -> clean_sweep pinv X r A) ->
  cp_train pinvX (def X) w (def_obj (fun a => (def_args (fst a), snd a)) o) (map def rnd) steps = def_outcome (fun a => (def_args (fst a), snd a)) (cp_train pinv X w o rnd steps).
Proof.
  intros HP HV HX EB HF HG. unfold cp_train. apply (d_train _ _ (fun a => (def_args (fst a), snd a))). intros [args' r'] id' p EB'. rewrite EB in EB'. injection EB' as <- <- <-. unfold cp_body. cbn [fst snd].
  apply (d_als_body (map def) (fun n A => (exists k, (k + n)%nat = Z.to_nat steps /\ als_after (fun A => do o <- cp_step pinv X r A; Ok (cp_A o)) rnd k A) /\ cp_factors X r A)).
  - intros n A [(k & Hk & HR) HA]. destruct (HG k A ltac:(lia) HR) as (s & E & Hnz). pose proof (c104_cp_step pinv pinvX X r A s HP HV HX HA E Hnz) as EX. unfold cp_run. rewrite E, EX. cbn [bind rrel].
    split; [reflexivity|]. cbn [fst snd ob_met]. split; [|apply (cp_obj_pos _ _ _ _ _ E)]. split.
    + exists (S k). split; [lia|]. eapply aa_step; [exact HR|]. rewrite E. reflexivity.
    + destruct (step_parts pinv X r A s HA E) as (Hne & Ho & mats & Em & E2 & _). apply (sweep pinv X r mats HP Hne ltac:(lia) Em (ndims X) 0 A _ (cp_A s) (cp_lam s) eq_refl HA E2).
  - cbn [rrel]. split; [reflexivity|]. split; [exists 0%nat; split; [reflexivity|constructor]|exact HF].
Qed.

(** data whose entries are all zero: the error is undefined *)
Lemma zero_sum (l : list R) : (forall x, In x l -> x = 0) -> lsum (map nsq l) = 0 /\ lsum (map ne0 l) = 0.
Proof.
  induction l as [|a l IH]; intros H; [split; reflexivity|]. destruct (IH (fun x Hx => H x (or_intror Hx))) as [H1 H2]. rewrite (H a (or_introl eq_refl)). 
  change (0 * 0 + lsum (map nsq l) = 0 /\ ne0 0 + lsum (map ne0 l) = 0). rewrite H1, H2. split; [ring|]. unfold ne0. cbn. destruct (Req_EM_T 0 0); [ring|contradiction].
Qed.
Lemma c104_zero_data (X : tensor R) F m : (forall x, In x (dat X) -> x = 0) -> metrics_of (def X) F = Ok m -> m_loss m = None /\ m_rel m = None.
Proof.
  intros H E. destruct (zero_sum (dat X) H) as [H1 H2]. unfold metrics_of in E. apply bind_ok in E as (l & E1 & E). apply bind_ok in E as (d & E2 & E). injection E as <-. cbn [m_loss m_rel]. split.
  - unfold rmse_ignore_zero in E1. destruct (negb _) in E1; [discriminate E1|]. cbv zeta in E1. repeat (apply bind_ok in E1 as (? & ? & E1)). injection E1 as <-.
    assert (K : dr (tf_sum (tf_map ne0 X)) (tf_sum (tf_map ne0 (def X)))) by (apply (tsum_rel dr dr0 dr_add), d_map; [apply dr_ne0|apply td_def]).
    unfold dr in K. rewrite K. clear K. unfold tf_sum at 2. cbn [tf_map dat]. rewrite H2. set (z := tf_sum _). destruct z; cbn; [|reflexivity]. destruct (Req_EM_T 0 0); [reflexivity|contradiction].
  - pose proof (d_norm X (def X) (td_def X)) as K. unfold dr in K. change (ndiv (tf_norm d) (tf_norm (def X)) = None). rewrite K. clear K. set (z := tf_norm d). unfold tf_norm, tf_sum. cbn [tf_map dat]. rewrite H1. cbn [nsqrt NumR]. rewrite sqrt_0. destruct z; cbn; [|reflexivity].
    destruct (Req_EM_T 0 0); [reflexivity|contradiction].
Qed.
