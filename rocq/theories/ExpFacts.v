(** Lemmas about the experiment scripts (C111). *)

From Coq Require Import ZArith List Bool Arith Lia Reals Lra.
From Verif Require Import Num Py Tensor TF TensorFacts TFFacts Sums Ops OpsLemmas Types Loss Fact Train Spec SpecR SpecFacts RSums MatR KronAlg NormFacts LossFacts SpecTrain TrainFacts TrainLemmas
  SpecCp SpecProx SpecTucker TuckerFacts TuckerRun TuckerLemmas AlsFacts AlsLemmas NcpFacts NcpLemmas NtFacts NtLemmas Retry DataGen DataFacts SpecData DataRecover
  Process SpecProc ProcFacts Experiment SpecExp.
Import ListNotations.
Local Open Scope R_scope.

(** ** runs keep invariants *)
Section Inv.
  Context {S : Type}.
  Variable run : S -> res (S * sobs R).
  Variables (P : S -> Prop) (Q : sobs R -> Prop).
  Lemma als_inv s0 os : als_run run s0 os -> P s0 -> (forall s s' o, P s -> run s = Ok (s', o) -> P s' /\ Q o) -> forall o, In o os -> Q o.
  Proof.
    intros (st & H0 & Hst) HP HR. assert (G : forall k, (k <= length os)%nat -> P (st k)).
    { induction k as [|k IH]; intros Hk; [rewrite H0; exact HP|]. destruct (nth_error os k) as [o|] eqn:E; [|apply nth_error_None in E; lia].
      apply (HR (st k) _ o (IH ltac:(lia)) (Hst k o E)). }
    intros o Ho. apply In_nth_error in Ho as (k & E). assert (k < length os)%nat by (apply nth_error_Some; congruence).
    apply (HR (st k) _ o (G k ltac:(lia)) (Hst k o E)).
  Qed.
  Variable pre : S -> res (S * option (tensor R)).
  Variables acc rej : S -> res S.
  Variable P1 : S -> Prop.
  Lemma bcu_inv s0 os : bcu_run run pre acc rej s0 os -> P s0 -> (forall s s' c, P s -> pre s = Ok (s', c) -> P1 s') ->
    (forall s s' o, P1 s -> run s = Ok (s', o) -> P s' /\ Q o) -> (forall s s', P s -> acc s = Ok s' -> P s') -> (forall s s', P s -> rej s = Ok s' -> P s') ->
    forall o, In o os -> Q o.
  Proof.
    intros (st & H0 & Hst) HP Hpre HR HA HJ. assert (G : forall k, (k < length os)%nat -> P (st k)).
    { induction k as [|k IH]; intros Hk; [rewrite H0; exact HP|]. destruct (nth_error os k) as [o|] eqn:E; [|apply nth_error_None in E; lia].
      destruct (Hst k o E) as (s1 & c & s2 & E1 & E2 & E3). specialize (E3 ltac:(lia)).
      destruct (HR s1 s2 o (Hpre _ _ _ (IH ltac:(lia)) E1) E2) as [K _]. destruct (nltb _ _); [apply (HA s2)|apply (HJ s2)]; assumption. }
    intros o Ho. apply In_nth_error in Ho as (k & E). assert (Hk : (k < length os)%nat) by (apply nth_error_Some; congruence).
    destruct (Hst k o E) as (s1 & c & s2 & E1 & E2 & _). apply (HR s1 s2 o (Hpre _ _ _ (G k Hk) E1) E2).
  Qed.
End Inv.

(** ** lines *)
Lemma metrics_line (X F : tensor R) m : wf X -> metrics_of X F = Ok m -> line_about X F (m_loss m, m_rel m).
Proof.
  intros HX E. pose proof (metrics_shape _ _ _ E) as Hs. destruct (metrics_R X F m HX E) as (M1 & _ & M3). split; [exact M1|]. cbn [snd]. rewrite M3, (sqdist_comm F X Hs). reflexivity.
Qed.
Lemma output_of (X : tensor R) kind steps os h fire : stopped_by fire steps (length os) -> h = map entry os ->
  (forall o, In o os -> kind (ob_full o) /\ line_about X (ob_full o) (entry o)) -> output_about X kind steps (map (fun it => (fst it, snd it)) h).
Proof.
  intros (S1 & S2 & _) -> HO. split; [rewrite !map_length; lia|]. intros l Hl. apply in_map_iff in Hl as (e & <- & He). apply in_map_iff in He as (o & <- & Ho).
  exists (ob_full o). exact (HO o Ho).
Qed.

(** ** one decomposition in a new process *)
Lemma experiment_alone data c a d steps X : data = Ok X ->
  experiment data c a d steps = match result (mkJob (c X) a d steps) with Ok h => Ok (map (fun it => (fst it, snd it)) h) | Raise e => Raise e end.
Proof.
  intros ->. unfold experiment. cbn [bind run exec start p_objs nth_error app length p_sums current p_stack hd p_dflt nth obj_build b_obj b_path w_sums upd b_cls p_ph fresh].
  unfold result, alone, ptrain. cbn -[obj_train]. destruct (obj_train _ _ _ _ _ _ _) as [o [h|e]]; cbn; [rewrite app_nil_r|]; reflexivity.
Qed.
Lemma cp_alone pinv X a A g steps : result (mkJob (CP_ALS pinv X) a (mkDr A g) steps) = snd (cp_train pinv X (mkW [0%nat] true) (mkObj (Some ((x_t a, x_rank a), 0%nat)) pub0) A steps).
Proof. unfold result, alone, cp_train, obj_train. cbn -[cp_body]. destruct (cp_body _ _ _ _ _ _ _) as [p [h|e]]; reflexivity. Qed.
Lemma hooi_alone svdU X a d steps : result (mkJob (HOOI svdU X) a d steps) = snd (hooi_train svdU X (mkW [0%nat] true) (mkObj (Some ((x_t a, x_ranks a), 0%nat)) pub0) tt steps).
Proof. unfold result, alone, hooi_train, obj_train. cbn -[hooi_body]. destruct (hooi_body _ _ _ _ _ _ _) as [p [h|e]]; reflexivity. Qed.
Lemma ncp_alone pow svals X a A g steps : result (mkJob (NCP_BCU pow svals X) a (mkDr A g) steps) = snd (ncp_train pow svals X (mkW [0%nat] true) (mkObj (Some ((x_t a, x_rank a), 0%nat)) pub0) A steps).
Proof. unfold result, alone, ncp_train, obj_train. cbn -[ncp_body]. destruct (ncp_body _ _ _ _ _ _ _ _) as [p [h|e]]; reflexivity. Qed.
Lemma nt_alone pow svals X a A g steps : result (mkJob (NTUCKER_BCU pow svals X) a (mkDr A g) steps) = snd (nt_train pow svals X (mkW [0%nat] true) (mkObj (Some (x_t a, 0%nat)) pub0) (A, g) steps).
Proof. unfold result, alone, nt_train, obj_train. cbn -[nt_body]. destruct (nt_body _ _ _ _ _ _ _ _) as [p [h|e]]; reflexivity. Qed.

(** ** the four trainings *)
Section Three.
  Variable X : tensor R.
  Hypothesis HX : wf X.
  Hypothesis Hne : nonempty (shp X).
  Hypothesis H3 : ndims X = 3%nat.
  Let w := mkW [0%nat] true.

  Lemma cp_output pinv r args A steps : penrose pinv -> cp_factors X r A -> (0 < steps)%Z -> a_vi args <> 0%Z ->
    exists h, snd (cp_train pinv X w (mkObj (Some ((args, r), 0%nat)) pub0) A steps) = Ok h /\ output_about X (cp_kind X r) steps (map (fun it => (fst it, snd it)) h).
  Proof.
    intros HP HA Hs Hv. destruct (cp_train_total pinv X r args 0%nat w (mkObj (Some ((args, r), 0%nat)) pub0) A steps) as (o & h & E); auto; [lia|intros i [<-|[]]; reflexivity|].
    exists h. rewrite E. split; [reflexivity|]. destruct (cp_history pinv X w _ A steps o h E) as (args' & r' & id & os & EB & HR & Hh & HS). injection EB as <- <- <-.
    apply (output_of X _ steps os h _ HS Hh). apply (als_inv _ (cp_factors X r) _ A os HR HA). clear - HP HX.
    intros s s' o HF H. unfold cp_run in H. apply bind_ok in H as (q & E & H). injection H as <- <-.
    destruct (c45_step pinv X r s q HP HF E) as (K1 & _ & _ & K2 & _).
    split; [exact K1|]. unfold entry. cbn [ob_full ob_met]. split; [do 2 eexists; split; [exact K1|exact K2]|].
    apply metrics_line; [exact HX|]. unfold cp_step in E. mon E. injection E as <-. cbn. assumption.
  Qed.
  Lemma ncp_output pow svals r args A steps : cp_factors X r A -> (0 < steps)%Z -> a_vi args <> 0%Z ->
    exists h, snd (ncp_train pow svals X w (mkObj (Some ((args, r), 0%nat)) pub0) A steps) = Ok h /\ output_about X (ncp_kind X r) steps (map (fun it => (fst it, snd it)) h).
  Proof.
    intros HA Hs Hv. destruct (ncp_train_total pow svals X r args 0%nat w (mkObj (Some ((args, r), 0%nat)) pub0) A steps) as (o & h & E); auto; [lia|intros i [<-|[]]; reflexivity|].
    exists h. rewrite E. split; [reflexivity|]. destruct (ncp_history svals pow X w _ A steps o h E) as (args' & r' & id & os & EB & HR & Hh & HS). injection EB as <- <- <-.
    apply (output_of X _ steps os h _ HS Hh).
    apply (bcu_inv _ (ncp_wf X r) _ _ _ _ (ncp_wf X r) _ os HR); [apply ncp_init_wf, HA|intros s s' c K Ec; injection Ec as <- _; exact K| | |intros s s' K Ec; injection Ec as <-; apply ncp_reject_wf, K].
    - clear - HX. intros s s2 o HW H. unfold ncp_run in H. apply bind_ok in H as ([[s' full] m] & E & H). injection H as <- <-. unfold entry. cbn [ob_full ob_met].
      destruct (ncp_parts svals X r s s' full m HW E) as (_ & _ & K & _ & _ & mats & _ & KN & Ef & Em). split; [exact K|]. split; [|apply metrics_line; assumption].
      exists (n_A s'). split; [apply K|]. split; [|exact Ef]. intros M HM. apply In_nth with (d := mkT [] []) in HM as (k & Hk & <-). rewrite (proj1 (proj1 K)) in Hk.
      fold (mat_at (n_A s') k). rewrite (proj2 (proj2 (KN k Hk))). intros x Hx. unfold ncp_new, mgen, gen in Hx. cbn [dat] in Hx. apply in_map_iff in Hx as (i & <- & _). apply Rmax_l.
    - intros s s' K Ec. destruct (ncp_accept_wf X r s K) as (q & Eq & Kq). congruence.
  Qed.
  Lemma nt_output pow svals ranks args A g steps : nonempty ranks -> tucker_factors X ranks A -> core_like ranks g -> (0 < steps)%Z -> a_vi args <> 0%Z ->
    exists h, snd (nt_train pow svals X w (mkObj (Some (args, 0%nat)) pub0) (A, g) steps) = Ok h /\ output_about X (ntucker_kind X ranks) steps (map (fun it => (fst it, snd it)) h).
  Proof.
    intros Hr HA Hg Hs Hv. destruct (nt_train_total pow svals X ranks args 0%nat w (mkObj (Some (args, 0%nat)) pub0) A g steps) as (o & h & E); auto; [lia|intros i [<-|[]]; reflexivity|].
    exists h. rewrite E. split; [reflexivity|]. destruct (nt_history svals pow X w _ (A, g) steps o h E) as (args' & id & os & EB & HR & Hh & HS). injection EB as <- <-.
    apply (output_of X _ steps os h _ HS Hh).
    apply (bcu_inv _ (nt_wf X ranks) _ _ _ _ (fun s => nt_wf X ranks s /\ nonneg (q_g s)) _ os HR); [apply nt_init_wf; assumption| | | |intros s s' K Ec; injection Ec as <-; apply nt_reject_wf, K].
    - clear - HX H3. intros s s' c K Ec. unfold nt_pre in Ec. apply bind_ok in Ec as (s1 & E1 & Ec). injection Ec as <- <-.
      destruct (nt_core_wf svals X ranks HX s s1 ltac:(lia) K E1) as (K1 & _ & _ & _ & _ & _ & _ & K2). split; [exact K1|]. rewrite K2.
      intros x Hx. unfold nt_newcore, gen in Hx. cbn [dat] in Hx. apply in_map_iff in Hx as (i & <- & _). apply Rmax_l.
    - clear - HX H3 Hr. intros s s2 o [HW HN] H. unfold nt_factors in H. apply bind_ok in H as ([[s' full] m] & E & H). injection H as <- <-. unfold entry. cbn [ob_full ob_met].
      destruct (nt_parts svals X ranks Hr s s' full m ltac:(lia) HW E) as (_ & K & _ & _ & Kg & _ & _ & mats & _ & KN & Ef & Em). split; [exact K|]. split; [|apply metrics_line; assumption].
      exists (q_g s), (q_A s'). split; [apply HW|]. split; [exact HN|]. split; [apply K|]. split; [|exact Ef]. intros M HM. apply In_nth with (d := mkT [] []) in HM as (k & Hk & <-). rewrite (proj1 (proj1 K)) in Hk.
      fold (mat_at (q_A s') k). rewrite (proj2 (proj2 (KN k Hk))). intros x Hx. unfold nt_new, mgen, gen in Hx. cbn [dat] in Hx. apply in_map_iff in Hx as (i & <- & _). apply Rmax_l.
    - intros s s' K Ec. destruct (nt_accept_wf X ranks s K) as (q & Eq & Kq). congruence.
  Qed.
  Lemma hooi_output svdU ranks args steps : left_svd svdU -> nonempty ranks -> length ranks = ndims X ->
    (forall n, (n < ndims X)%nat -> (nth n ranks 0 <= Nat.min (nth n (shp X) 0) (Nat.min (rest n (shp X)) (rest n ranks)))%nat) -> (0 < steps)%Z -> a_vi args <> 0%Z ->
    exists h, snd (hooi_train svdU X w (mkObj (Some ((args, map Z.of_nat ranks), 0%nat)) pub0) tt steps) = Ok h /\ output_about X (tucker_kind X ranks) steps (map (fun it => (fst it, snd it)) h).
  Proof.
    intros HU Hr HL Hfit Hs Hv.
    destruct (c54_hooi_total svdU X ranks args 0%nat w (mkObj (Some ((args, map Z.of_nat ranks), 0%nat)) pub0) tt steps) as (o & h & E); auto; [lia|intros i [<-|[]]; reflexivity|].
    exists h. rewrite E. split; [reflexivity|]. destruct (hooi_history svdU X w _ tt steps o h E) as (args' & r' & id & A0 & os & EB & HI & HR & Hh & HS). injection EB as <- <- <-.
    apply (output_of X _ steps os h _ HS Hh). destruct (hooi_init_cases svdU X ranks HU Hne HL) as [G _]. destruct G as (A1 & EA & HA); [intros n Hn; specialize (Hfit n Hn); lia|].
    rewrite HI in EA. injection EA as <-. apply (als_inv _ (factor_state X ranks) _ A0 os HR HA). clear - HU HX Hne Hr HL H3.
    intros s s' o HF H. unfold hooi_run in H. apply bind_ok in H as (q & E & H). injection H as <- <-.
    destruct (hooi_step_ok svdU X ranks HU HX Hne Hr HL ltac:(lia) s q HF E) as (K1 & K2 & K3 & _ & K4).
    split; [exact K1|]. unfold entry. cbn [ob_full ob_met]. split; [exists (ho_A q); split; [exact K1|rewrite K3, K2; reflexivity]|]. apply metrics_line; assumption.
  Qed.
End Three.

(** ** the data *)
Lemma no_noise N_list (Y : tensor R) (z : list nat -> R) : wf Y -> shp Y = N_list -> gen N_list (fun i => get Y i + Rmax 0 (0 * z i)) = Y.
Proof.
  intros HY <-. apply tensor_ext; [apply wf_gen|exact HY|reflexivity|]. intros i Hi. cbn [shp gen] in Hi. rewrite get_gen by exact Hi.
  rewrite Rmult_0_l, (Rmax_left 0 0) by lra. lra.
Qed.
