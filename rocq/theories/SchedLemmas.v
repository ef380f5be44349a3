(** Scheduling: invariants of the states and whole training sessions. *)

From Coq Require Import ZArith List Bool Arith Relations Lia.
From Verif Require Import Num Py Tensor TensorFacts TF Ops Types Loss Fact Train TFFacts LayoutFacts SpecTrain SpecBcu TrainLemmas BcuFacts NtLemmas
  Sched SchedFacts Graphs SpecSched SchedLists SchedCp SchedHooi SchedNcp SchedNt SchedBcu.
Import ListNotations.

(** ** memories equal at every variable *)
Section Ext.
  Context {V node var : Type} (g : graph V node var) (fetch : list node).

  Definition exec_ext (init init' : var -> V) (H : forall v, init v = init' v) (E : execution g fetch init) : execution g fetch init'.
  Proof.
    destruct E as [ran val fin rd st mem h1 h2 h3 h4 h5 h6 h7 h8].
    refine (mkE g fetch init' ran val fin rd st mem h1 h2 h3 h4 h5 _ h7 h8).
    intros t v Hv. rewrite <- H. exact (h6 t v Hv).
  Defined.

  Lemma exec_ext_finished init init' H E : finished g E -> finished g (exec_ext init init' H E).
  Proof. destruct E. exact (fun x => x). Qed.
  Lemma exec_ext_final init init' H E v x : final g (exec_ext init init' H E) v x <-> final g E v x.
  Proof. destruct E. reflexivity. Qed.

  Lemma final_unique init (E : execution g fetch init) v x y : final g E v x -> final g E v y -> x = y.
  Proof. intros (t1 & H1) (t2 & H2). rewrite <- (H1 (Nat.max t1 t2)), <- (H2 (Nat.max t1 t2)) by lia. reflexivity. Qed.

  (** every run that comes to its end leaves something *)
  Lemma leaves_ext init init' H (E : execution g fetch init) mem : leaves E mem -> leaves (exec_ext init init' H E) mem.
  Proof. intros (HF & Hv). split; [apply exec_ext_finished, HF|]. intros v. apply exec_ext_final, Hv. Qed.
End Ext.

Section Inv.
  Context {T : Type} {NM : Num T}.
  Notation dum := (mkT [] [] : tensor T).

  Lemma two_axes (M : tensor T) : ndims M = 2 <-> exists r c, shp M = [r; c].
  Proof.
    unfold ndims. split; [|intros (r & c & ->); reflexivity]. destruct (shp M) as [|r [|c [|? ?]]]; cbn; try discriminate. eauto.
  Qed.
  Lemma matmul_axes ta tb (A B C : tensor T) : tf_matmul ta tb A B = Ok C -> ndims A = 2 /\ ndims C = 2.
  Proof.
    unfold tf_matmul, ndims. destruct (shp A) as [|a1 [|a2 [|? ?]]]; try discriminate. destruct (shp B) as [|b1 [|b2 [|? ?]]]; try discriminate.
    destruct ta, tb; cbn; (match goal with |- (if ?b then _ else _) = _ -> _ => destruct b end; [|discriminate]); intros H; injection H as <-; auto.
  Qed.
  Lemma matrices_upd (A : list (tensor T)) m v : matrices A -> ndims v = 2 -> matrices (upd A m v).
  Proof.
    intros HA Hv M HM. destruct (In_nth _ _ dum HM) as (j & Hj & <-). rewrite upd_length in Hj. rewrite nth_upd. destruct ((j =? m) && (j <? length A))%bool; [apply two_axes, Hv|].
    apply HA, nth_In, Hj.
  Qed.

  Lemma reshape_length (t r : tensor T) s : tf_reshape t s = Ok r -> length (shp r) = length s.
  Proof.
    unfold tf_reshape. cbv zeta. destruct (existsb _ _); [discriminate|]. destruct (filter _ s) as [|? [|? ?]]; [| |discriminate].
    - destruct (_ =? _)%Z; [|discriminate]. intros H. injection H as <-. apply map_length.
    - destruct (_ =? _)%Z; [discriminate|]. destruct (_ =? _)%Z; [|discriminate]. intros H. injection H as <-. apply map_length.
  Qed.

  (** CP_ALS *)
  Lemma cp_mode_inv pinv mats rank m (A A' : list (tensor T)) lam : cp_mode pinv mats rank m A = Ok (A', lam) -> matrices A -> length A' = length A /\ matrices A'.
  Proof.
    intros H HM. unfold cp_mode in H. mon H. injection H as <- <-. split; [apply upd_length|]. apply matrices_upd; [exact HM|].
    match goal with E : tf_matmul false false _ (pinv _) = Ok ?n |- _ => apply matmul_axes in E; destruct E as (_ & En) end.
    match goal with E : tf_bin ndiv _ _ = Ok _ |- _ => apply bin_ndims in E; rewrite E, En end.
    match goal with E : tf_reshape _ [_; _] = Ok ?r |- _ => pose proof (reshape_length _ _ _ E) as Hr end.
    unfold col_max, ndims. match goal with |- context [match shp ?r with _ => _ end] => destruct (shp r) as [|x [|y [|? ?]]] end; try discriminate Hr. reflexivity.
  Qed.

  Lemma cp_modes_inv pinv mats rank l : forall (A A' : list (tensor T)) lam lam', cp_modes pinv mats rank l A lam = Ok (A', lam') -> matrices A -> length A' = length A /\ matrices A'.
  Proof.
    induction l as [|m l IH]; intros A A' lam lam' H HM; cbn in H; [injection H as <- <-; auto|]. destruct (cp_mode pinv mats rank m A) as [(A1, l1)|] eqn:E; [|discriminate]. cbn [bind fst snd] in H.
    destruct (cp_mode_inv _ _ _ _ _ _ _ E HM) as (L1 & M1). destruct (IH _ _ _ _ H M1) as (L2 & M2). split; [congruence|exact M2].
  Qed.

  Lemma cp_step_inv pinv (X : tensor T) rank A out : cp_step pinv X rank A = Ok out -> matrices A -> length (cp_A out) = length A /\ matrices (cp_A out).
  Proof.
    intros H HM. unfold cp_step in H. destruct (unfold_all X) as [mats|]; [|discriminate]. cbn [bind] in H.
    destruct (cp_modes pinv mats rank (seq 0 (ndims X)) A dum) as [(A', lam)|] eqn:E; [|discriminate]. cbn [bind] in H. mon H. injection H as <-. exact (cp_modes_inv _ _ _ _ _ _ _ _ E HM).
  Qed.

  (** NCP_BCU *)
  Lemma ncp_mode_inv svals mats m (s s' : ncp_state T) N : ncp_mode svals mats m s = Ok s' -> ncp_sized N s /\ matrices (n_A s) -> ncp_sized N s' /\ matrices (n_A s').
  Proof.
    intros H ((H1 & H2 & H3 & H4 & H5 & H6) & HM). unfold ncp_mode in H. mon H. injection H as <-. unfold ncp_sized. cbn [n_A n_Am n_A0 n_w n_L n_L0]. rewrite !upd_length. repeat split; try assumption.
    apply matrices_upd; [exact HM|]. change (ndims (tf_map nrelu ?a)) with (ndims a).
    repeat match goal with E : tf_bin _ _ _ = Ok _ |- _ => apply bin_ndims in E end. repeat match goal with E : tf_matmul false false _ _ = Ok _ |- _ => apply matmul_axes in E; destruct E end.
    repeat match goal with E : ndims ?a = _ |- ndims ?a = 2 => rewrite E end. unfold tf_map in *. cbn [ndims shp] in *. unfold ndims in *. cbn [shp] in *. lia.
  Qed.

  Lemma ncp_modes_inv svals mats l N : forall (s s' : ncp_state T), ncp_modes svals mats l s = Ok s' -> ncp_sized N s /\ matrices (n_A s) -> ncp_sized N s' /\ matrices (n_A s').
  Proof.
    induction l as [|m l IH]; intros s s' H HI; cbn in H; [injection H as <-; exact HI|]. destruct (ncp_mode svals mats m s) as [s1|] eqn:E; [|discriminate]. cbn [bind] in H.
    apply (IH _ _ H), (ncp_mode_inv _ _ _ _ _ _ E HI).
  Qed.

  Lemma ncp_step_inv svals (X : tensor T) s s' full mt N : ncp_step svals X s = Ok (s', full, mt) -> ncp_sized N s /\ matrices (n_A s) -> ncp_sized N s' /\ matrices (n_A s').
  Proof.
    intros H HI. unfold ncp_step in H. destruct (unfold_all X) as [mats|]; [|discriminate]. cbn [bind] in H.
    destruct (ncp_modes svals mats (seq 0 (ndims X)) s) as [s1|] eqn:E; [|discriminate]. cbn [bind] in H. mon H. injection H as <- _ _. exact (ncp_modes_inv _ _ _ _ _ _ E HI).
  Qed.

  Lemma ncp_accept_inv (s s' : ncp_state T) N : ncp_accept s = Ok s' -> ncp_sized N s /\ matrices (n_A s) -> ncp_sized N s' /\ matrices (n_A s').
  Proof.
    intros H ((H1 & H2 & H3 & H4 & H5 & H6) & HM). unfold ncp_accept in H. destruct (map3M _ _ _ _) as [l|] eqn:E; [|discriminate]. cbn [bind] in H. injection H as <-.
    assert (Lw : length (weights (n_t0 s) (n_t s) (n_L0 s) (n_L s)) = N) by (rewrite weights_length; congruence).
    destruct (map3M_nth extrapolate _ _ _ _ n0 dum dum dum E ltac:(congruence) ltac:(congruence)) as (Ll & _).
    unfold ncp_sized. cbn. repeat split; try assumption; congruence.
  Qed.

  Lemma ncp_reject_inv (s : ncp_state T) N : ncp_sized N s /\ matrices (n_A s) -> ncp_sized N (ncp_reject s) /\ matrices (n_A (ncp_reject s)).
  Proof. intros ((H1 & H2 & H3 & H4 & H5 & H6) & HM). unfold ncp_sized. cbn. auto 10. Qed.

  Lemma ncp_init_inv pow (X : tensor T) rnd : length rnd = ndims X -> matrices rnd -> ncp_sized (ndims X) (ncp_init pow X rnd) /\ matrices (n_A (ncp_init pow X rnd)).
  Proof.
    intros H HM. unfold ncp_sized. cbn. rewrite !map_length, !repeat_length. repeat split; try assumption. intros M HI. apply in_map_iff in HI. destruct HI as (r & <- & Hr). exact (HM r Hr).
  Qed.

  (** NTUCKER_BCU *)
  Lemma nt_core_inv svals (X : tensor T) s s' N : nt_core svals X s = Ok s' -> nt_sized N s -> nt_sized N s'.
  Proof. intros H (H1 & H2 & H3 & H4 & H5 & H6). unfold nt_core in H. mon H. injection H as <-. unfold nt_sized. cbn. rewrite !upd_length. auto 10. Qed.

  Lemma nt_modes_inv svals mats l N : forall (s s' : nt_state T), nt_modes svals mats l s = Ok s' -> nt_sized N s -> nt_sized N s'.
  Proof.
    induction l as [|m l IH]; intros s s' H HI; cbn in H; [injection H as <-; exact HI|]. destruct (nt_mode svals mats m s) as [s1|] eqn:E; [|discriminate]. cbn [bind] in H.
    apply (IH _ _ H). destruct HI as (H1 & H2 & H3 & H4 & H5 & H6). unfold nt_mode in E. mon E. injection E as <-. unfold nt_sized. cbn. rewrite !upd_length. auto 10.
  Qed.

  Lemma nt_fact_inv svals (X : tensor T) s s' full mt N : nt_fact svals X s = Ok (s', full, mt) -> nt_sized N s -> nt_sized N s'.
  Proof.
    intros H HI. unfold nt_fact in H. destruct (unfold_all X) as [mats|]; [|discriminate]. cbn [bind] in H.
    destruct (nt_modes svals mats (seq 0 (ndims X)) s) as [s1|] eqn:E; [|discriminate]. cbn [bind] in H. mon H. injection H as <- _ _. exact (nt_modes_inv _ _ _ _ _ _ E HI).
  Qed.

  Lemma nt_accept_inv (s s' : nt_state T) N : nt_accept s = Ok s' -> nt_sized N s -> nt_sized N s'.
  Proof.
    intros H (H1 & H2 & H3 & H4 & H5 & H6). unfold nt_accept in H. destruct (map3M _ _ _ _) as [l|] eqn:E; [|discriminate]. cbn [bind] in H. mon H. injection H as <-.
    assert (Lw : length (weights (q_t0 s) (q_t s) (q_L0 s) (q_L s)) = N + 1) by (rewrite weights_length; congruence).
    assert (Lf : length (firstn (length (q_A s)) (weights (q_t0 s) (q_t s) (q_L0 s) (q_L s))) = N) by (rewrite firstn_length, Lw, H1; lia).
    destruct (map3M_nth extrapolate _ _ _ _ n0 dum dum dum E ltac:(congruence) ltac:(congruence)) as (Ll & _).
    unfold nt_sized. cbn. repeat split; try assumption; congruence.
  Qed.
  Lemma nt_reject_inv (s : nt_state T) N : nt_sized N s -> nt_sized N (nt_reject s).
  Proof. intros (H1 & H2 & H3 & H4 & H5 & H6). unfold nt_sized. cbn. auto 10. Qed.
  Lemma nt_init_inv pow (X : tensor T) rnd rndg : length rnd = ndims X -> nt_sized (ndims X) (nt_init pow X rnd rndg).
  Proof. intros H. unfold nt_sized. cbn. rewrite !map_length, !repeat_length. auto 10. Qed.
End Inv.

(** ** sessions *)
Section Sess.
  Context {T : Type} {NM : Num T}.

  Lemma cp_session_reach pinv (X : tensor T) rank rnd mem : 0 < ndims X -> length rnd = ndims X -> matrices rnd -> cp_session pinv X rank rnd mem ->
    exists A, als_reach (fun A => do o <- cp_step pinv X rank A; Ok (cp_A o)) rnd A /\ (forall v, mem v = cp_vars A v) /\ length A = ndims X /\ matrices A.
  Proof.
    intros HN HL HM H. induction H as [|mem E mem' H IH (HF & Hv)].
    - exists rnd. repeat split; auto. constructor.
    - destruct IH as (A & HR & Hmem & LA & MA).
      destruct (c46_exec pinv X rank HN A LA MA (exec_ext _ _ _ _ Hmem E) (exec_ext_finished _ _ _ _ Hmem E HF)) as (out & Es & Lo & Hfin & _).
      destruct (cp_step_inv pinv X rank A out Es MA) as (_ & MA'). exists (cp_A out). split; [|split; [|auto]].
      + eapply ar_step; [exact HR|]. cbv beta. rewrite Es. reflexivity.
      + intros v. apply (final_unique _ _ _ E v); [apply Hv|]. apply (exec_ext_final _ _ _ _ Hmem E), Hfin.
  Qed.

  Lemma hooi_session_reach svdU (X : tensor T) ranks A0 mem : length A0 = ndims X -> hooi_session svdU X ranks A0 mem ->
    exists A, als_reach (fun A => do o <- hooi_step svdU X ranks A; Ok (ho_A o)) A0 A /\ (forall v, mem v = cp_vars A v) /\ length A = ndims X.
  Proof.
    intros HL H. induction H as [|mem E mem' H IH (HF & Hv)].
    - exists A0. repeat split; auto. constructor.
    - destruct IH as (A & HR & Hmem & LA).
      destruct (ho_exec svdU X ranks A LA (exec_ext _ _ _ _ Hmem E) (exec_ext_finished _ _ _ _ Hmem E HF)) as (out & Es & Lo & Hfin & _).
      exists (ho_A out). split; [|split; [|exact Lo]].
      + eapply ar_step; [exact HR|]. cbv beta. rewrite Es. reflexivity.
      + intros v. apply (final_unique _ _ _ E v); [apply Hv|]. apply (exec_ext_final _ _ _ _ Hmem E), Hfin.
  Qed.

  Lemma ncp_session_reach pow svals (X : tensor T) rnd mem : 0 < ndims X -> length rnd = ndims X -> matrices rnd -> ncp_session pow svals X rnd mem ->
    exists s, reach (fun s => Ok (s, None)) (ncp_run svals X) ncp_accept (fun s => Ok (ncp_reject s)) (ncp_init pow X rnd) s /\ (forall v, mem v = ncp_vars s v) /\
      ncp_sized (ndims X) s /\ matrices (n_A s).
  Proof.
    intros HN HL HM H.
    assert (Hstep : forall mem0 s (Hmem : forall v, mem0 v = ncp_vars s v) (E0 : execution (ncp_graph svals X) (ncp_fetch X) mem0) mem1, ncp_sized (ndims X) s -> matrices (n_A s) -> leaves E0 mem1 ->
              exists s2 o, ncp_run svals X s = Ok (s2, o) /\ (forall v, mem1 v = ncp_vars s2 v) /\ ncp_sized (ndims X) s2 /\ matrices (n_A s2)).
    { intros mem0 s Hmem E0 mem1 HS HMs (HF & Hv). pose proof HS as (H1 & H2 & H3 & H4 & H5 & H6).
      destruct (nc_exec svals X s H1 H2 H5 H6 HMs (exec_ext _ _ _ _ Hmem E0) (exec_ext_finished _ _ _ _ Hmem E0 HF)) as (s2 & full & mt & Es & Hfin & _).
      exists s2. eexists. split; [unfold ncp_run; rewrite Es; reflexivity|]. split; [|exact (ncp_step_inv svals X s s2 full mt (ndims X) Es (conj HS HMs))].
      intros v. apply (final_unique _ _ _ E0 v); [apply Hv|]. apply (exec_ext_final _ _ _ _ Hmem E0), Hfin. }
    induction H as [E mem (HF & Hv)|mem0 E0 mem1 E1 mem2 H IH L0 (HF & Hv)|mem0 E0 mem1 E1 mem2 H IH L0 (HF & Hv)].
    - exists (ncp_init pow X rnd). split; [constructor|]. split; [|apply ncp_init_inv; assumption].
      intros v. apply (final_unique _ _ _ E v); [apply Hv|]. apply ncp_init_exec; assumption.
    - destruct IH as (s & HR & Hmem & HS & HMs). destruct (Hstep mem0 s Hmem E0 mem1 HS HMs L0) as (s2 & o & Er & Hmem1 & HS2 & HM2).
      destruct (ncp_accept_exec (ndims X) s2 HN HS2 (exec_ext _ _ _ _ Hmem1 E1) (exec_ext_finished _ _ _ _ Hmem1 E1 HF)) as (s3 & Ea & Hfin).
      exists s3. split; [eapply reach_accept; [exact HR|reflexivity|exact Er|exact Ea]|]. split; [|exact (ncp_accept_inv s2 s3 (ndims X) Ea (conj HS2 HM2))].
      intros v. apply (final_unique _ _ _ E1 v); [apply Hv|]. apply (exec_ext_final _ _ _ _ Hmem1 E1), Hfin.
    - destruct IH as (s & HR & Hmem & HS & HMs). destruct (Hstep mem0 s Hmem E0 mem1 HS HMs L0) as (s2 & o & Er & Hmem1 & HS2 & HM2).
      exists (ncp_reject s2). split; [eapply reach_reject; [exact HR|reflexivity|exact Er|reflexivity]|]. split; [|exact (ncp_reject_inv s2 (ndims X) (conj HS2 HM2))].
      intros v. apply (final_unique _ _ _ E1 v); [apply Hv|]. apply (exec_ext_final _ _ _ _ Hmem1 E1).
      exact (ncp_reject_exec (ndims X) s2 HS2 (exec_ext _ _ _ _ Hmem1 E1) (exec_ext_finished _ _ _ _ Hmem1 E1 HF) v).
  Qed.

  Lemma nt_session_reach pow svals (X : tensor T) rnd rndg mem : 0 < ndims X -> length rnd = ndims X -> nt_session pow svals X rnd rndg mem ->
    exists s, reach (nt_pre svals X) (nt_factors svals X) nt_accept (fun s => Ok (nt_reject s)) (nt_init pow X rnd rndg) s /\ nt_mem s mem /\ nt_sized (ndims X) s.
  Proof.
    intros HN HL H.
    assert (Hstep : forall mem0 s (E0 : execution (nt_core_graph svals X) nt_core_fetch mem0) mem1 (E1 : execution (nt_fact_graph svals X) (nt_fact_fetch X) mem1) mem2,
              nt_mem s mem0 -> nt_sized (ndims X) s -> leaves E0 mem1 -> leaves E1 mem2 ->
              exists s1 c s2 o, nt_pre svals X s = Ok (s1, c) /\ nt_factors svals X s1 = Ok (s2, o) /\ nt_mem s2 mem2 /\ nt_sized (ndims X) s2).
    { intros mem0 s E0 mem1 E1 mem2 Hmem HS (HF & Hv) (HF1 & Hv1). pose proof HS as (H1 & H2 & H3 & H4 & H5 & H6).
      destruct (ct_exec svals X s mem0 H1 H5 H6 Hmem H2 E0 HF) as (s1 & Es & Hfin & _). pose proof (nt_core_inv _ _ _ _ _ Es HS) as HS1. pose proof HS1 as (G1 & G2 & G3 & G4 & G5 & G6).
      assert (Hmem1 : nt_mem s1 mem1) by (intros v N1 N2; apply (final_unique _ _ _ E0 v); [apply Hv|apply Hfin; assumption]).
      destruct (fc_exec svals X s1 mem1 G1 G2 G5 G6 Hmem1 E1 HF1) as (s2 & full & mt & Ef & Hfin1 & _).
      exists s1. eexists. exists s2. eexists. split; [unfold nt_pre; rewrite Es; reflexivity|]. split; [unfold nt_factors; rewrite Ef; reflexivity|]. split; [|exact (nt_fact_inv _ _ _ _ _ _ _ Ef HS1)].
      intros v N1 N2. apply (final_unique _ _ _ E1 v); [apply Hv1|apply Hfin1; assumption]. }
    induction H as [mem0 E mem Hd (HF & Hv)|mem0 E0 mem1 E1 mem2 E2 mem3 H IH L0 L1 (HF & Hv)|mem0 E0 mem1 E1 mem2 E2 mem3 H IH L0 L1 (HF & Hv)].
    - exists (nt_init pow X rnd rndg). split; [constructor|]. split; [|apply nt_init_inv; assumption].
      intros v N1 N2. apply (final_unique _ _ _ E v); [apply Hv|]. apply (nt_init_exec pow X rnd rndg mem0); assumption.
    - destruct IH as (s & HR & Hmem & HS). destruct (Hstep mem0 s E0 mem1 E1 mem2 Hmem HS L0 L1) as (s1 & c & s2 & o & Ep & Er & Hmem2 & HS2).
      destruct (nt_accept_exec (ndims X) s2 mem2 HN HS2 Hmem2 E2 HF) as (s3 & Ea & Hfin).
      exists s3. split; [eapply reach_accept; [exact HR|exact Ep|exact Er|exact Ea]|]. split; [|exact (nt_accept_inv s2 s3 (ndims X) Ea HS2)].
      intros v N1 N2. apply (final_unique _ _ _ E2 v); [apply Hv|apply Hfin; assumption].
    - destruct IH as (s & HR & Hmem & HS). destruct (Hstep mem0 s E0 mem1 E1 mem2 Hmem HS L0 L1) as (s1 & c & s2 & o & Ep & Er & Hmem2 & HS2).
      exists (nt_reject s2). split; [eapply reach_reject; [exact HR|exact Ep|exact Er|reflexivity]|]. split; [|exact (nt_reject_inv s2 (ndims X) HS2)].
      intros v N1 N2. apply (final_unique _ _ _ E2 v); [apply Hv|]. exact (nt_reject_exec (ndims X) s2 mem2 HS2 Hmem2 E2 HF v N1 N2).
  Qed.
End Sess.

(** ** one statement per run *)
Section All.
  Context {T : Type} {NM : Num T}.

  Lemma cp_exec pinv (X : tensor T) rank A : 0 < ndims X -> length A = ndims X -> matrices A ->
    forall E : execution (cp_graph pinv X rank) (cp_fetch X) (cp_vars A), finished _ E ->
    exists out, cp_step pinv X rank A = Ok out /\ length (cp_A out) = ndims X /\
      (forall v, final _ E v (cp_vars (cp_A out) v)) /\
      (forall m, m < ndims X -> fetched _ E (CUp m) (nth m (cp_A out) (mkT [] []))) /\
      e_val E (CLam (ndims X - 1)) = Ok (cp_lam out) /\ e_val E CFull = Ok (cp_full out) /\
      e_val E CLoss = Ok (scl (m_loss (cp_met out))) /\ e_val E CObj = Ok (scl (m_obj (cp_met out))) /\
      e_val E CRel = Ok (scl (m_rel (cp_met out))).
  Proof. intros HN HA HM. exact (c46_exec pinv X rank HN A HA HM). Qed.
  Lemma cp_no_failure pinv (X : tensor T) rank A : 0 < ndims X -> length A = ndims X ->
    forall out (E : execution (cp_graph pinv X rank) (cp_fetch X) (cp_vars A)) n,
    cp_step pinv X rank A = Ok out -> e_ran E n -> is_ok (e_val E n).
  Proof. intros HN HA. exact (c46_no_failure pinv X rank HN A HA). Qed.
  Lemma cp_exists pinv (X : tensor T) rank A : 0 < ndims X -> length A = ndims X ->
    forall out, cp_step pinv X rank A = Ok out ->
    exists E : execution (cp_graph pinv X rank) (cp_fetch X) (cp_vars A), finished _ E.
  Proof. intros HN HA. exact (c46_exists pinv X rank HN A HA). Qed.

  Lemma ncp_exec svals (X : tensor T) s : ncp_sized (ndims X) s -> matrices (n_A s) ->
    forall E : execution (ncp_graph svals X) (ncp_fetch X) (ncp_vars s), finished _ E ->
    exists s' full mt, ncp_step svals X s = Ok (s', full, mt) /\
      (forall v, final _ E v (ncp_vars s' v)) /\
      (forall m, m < ndims X -> fetched _ E (NA m) (nth m (n_A s') (mkT [] []))) /\
      e_val E NFull = Ok full /\
      e_val E NLoss = Ok (scl (m_loss mt)) /\ e_val E NObj = Ok (scl (m_obj mt)) /\ e_val E NRel = Ok (scl (m_rel mt)).
  Proof. intros (H1 & H2 & H3 & H4 & H5 & H6) HM. exact (nc_exec svals X s H1 H2 H5 H6 HM). Qed.
  Lemma ncp_no_failure svals (X : tensor T) s : ncp_sized (ndims X) s -> matrices (n_A s) ->
    forall out (E : execution (ncp_graph svals X) (ncp_fetch X) (ncp_vars s)) n,
    ncp_step svals X s = Ok out -> e_ran E n -> is_ok (e_val E n).
  Proof. intros (H1 & H2 & H3 & H4 & H5 & H6) HM. exact (nc_no_failure svals X s H1 H2 H5 H6 HM). Qed.
  Lemma ncp_exists svals (X : tensor T) s : ncp_sized (ndims X) s -> matrices (n_A s) ->
    forall out, ncp_step svals X s = Ok out ->
    exists E : execution (ncp_graph svals X) (ncp_fetch X) (ncp_vars s), finished _ E.
  Proof. intros (H1 & H2 & H3 & H4 & H5 & H6) HM. exact (nc_exists svals X s H1 H2 H5 H6 HM). Qed.

  Lemma ncp_accept_all k (s : ncp_state T) : 0 < k -> ncp_sized k s ->
    (forall E : execution (accept_graph k) (accept_fetch k) (ncp_vars s), finished _ E ->
     exists s', ncp_accept s = Ok s' /\ forall v, final _ E v (ncp_vars s' v)) /\
    (forall s', ncp_accept s = Ok s' ->
     (forall (E : execution (accept_graph k) (accept_fetch k) (ncp_vars s)) n, e_ran E n -> is_ok (e_val E n)) /\
     exists E : execution (accept_graph k) (accept_fetch k) (ncp_vars s), finished _ E).
  Proof. intros Hk HS. split; [exact (ncp_accept_exec k s Hk HS)|]. intros s' E. split; [exact (ncp_accept_no_failure k s s' Hk HS E)|exact (ncp_accept_exists k s s' Hk HS E)]. Qed.

  Lemma ncp_reject_all k (s : ncp_state T) : ncp_sized k s ->
    (forall E : execution reject_graph (reject_fetch k) (ncp_vars s), finished _ E ->
     forall v, final _ E v (ncp_vars (ncp_reject s) v)) /\
    (forall (E : execution reject_graph (reject_fetch k) (ncp_vars s)) n, e_ran E n -> is_ok (e_val E n)) /\
    exists E : execution reject_graph (reject_fetch k) (ncp_vars s), finished _ E.
  Proof. intros HS. split; [exact (ncp_reject_exec k s HS)|]. split; [exact (rj_no_failure k _)|exact (rj_exists k _)]. Qed.

  Lemma ncp_init_all pow (X : tensor T) rnd : length rnd = ndims X ->
    (forall E : execution (init_graph pow X (ndims X)) (init_fetch (ndims X)) (ncp_drawn X rnd), finished _ E ->
     forall v, final _ E v (ncp_vars (ncp_init pow X rnd) v)) /\
    (forall (E : execution (init_graph pow X (ndims X)) (init_fetch (ndims X)) (ncp_drawn X rnd)) n, e_ran E n -> is_ok (e_val E n)) /\
    exists E : execution (init_graph pow X (ndims X)) (init_fetch (ndims X)) (ncp_drawn X rnd), finished _ E.
  Proof. intros H. split; [exact (ncp_init_exec pow X rnd H)|]. split; [exact (it_no_failure pow X _ _)|exact (it_exists pow X _ _)]. Qed.

  Lemma nt_core_all svals (X : tensor T) s mem : nt_sized (ndims X) s -> nt_mem s mem ->
    (forall E : execution (nt_core_graph svals X) nt_core_fetch mem, finished _ E ->
     exists s', nt_core svals X s = Ok s' /\
       (forall v, v <> VBsq -> v <> VGrad -> final _ E v (nt_vars s' v)) /\ fetched _ E GUp (q_g s')) /\
    (forall s', nt_core svals X s = Ok s' ->
     (forall (E : execution (nt_core_graph svals X) nt_core_fetch mem) n, e_ran E n -> is_ok (e_val E n)) /\
     exists E : execution (nt_core_graph svals X) nt_core_fetch mem, finished _ E).
  Proof.
    intros (H1 & H2 & H3 & H4 & H5 & H6) Hm. split; [exact (ct_exec svals X s mem H1 H5 H6 Hm H2)|]. intros s' E.
    split; [intros E0 n; exact (ct_no_failure svals X s mem H1 H5 H6 Hm H2 s' E0 n E)|exact (ct_exists svals X s mem H1 H5 H6 Hm H2 s' E)].
  Qed.

  Lemma nt_fact_all svals (X : tensor T) s mem : nt_sized (ndims X) s -> nt_mem s mem ->
    (forall E : execution (nt_fact_graph svals X) (nt_fact_fetch X) mem, finished _ E ->
     exists s' full mt, nt_fact svals X s = Ok (s', full, mt) /\
       (forall v, v <> VBsq -> v <> VGrad -> final _ E v (nt_vars s' v)) /\
       (forall m, m < ndims X -> fetched _ E (FA m) (nth m (q_A s') (mkT [] []))) /\
       e_val E FFull = Ok full /\
       e_val E FLoss = Ok (scl (m_loss mt)) /\ e_val E FObj = Ok (scl (m_obj mt)) /\ e_val E FRel = Ok (scl (m_rel mt))) /\
    (forall out, nt_fact svals X s = Ok out ->
     (forall (E : execution (nt_fact_graph svals X) (nt_fact_fetch X) mem) n, e_ran E n -> is_ok (e_val E n)) /\
     exists E : execution (nt_fact_graph svals X) (nt_fact_fetch X) mem, finished _ E).
  Proof.
    intros (H1 & H2 & H3 & H4 & H5 & H6) Hm. split; [exact (fc_exec svals X s mem H1 H2 H5 H6 Hm)|]. intros out E.
    split; [intros E0 n; exact (fc_no_failure svals X s mem H1 H2 H5 H6 Hm out E0 n E)|exact (fc_exists svals X s mem H1 H2 H5 H6 Hm out E)].
  Qed.

  Lemma nt_accept_all k (s : nt_state T) mem : 0 < k -> nt_sized k s -> nt_mem s mem ->
    (forall E : execution (accept_graph k) (accept_fetch (k + 1)) mem, finished _ E ->
     exists s', nt_accept s = Ok s' /\ forall v, v <> VBsq -> v <> VGrad -> final _ E v (nt_vars s' v)) /\
    (forall s', nt_accept s = Ok s' ->
     (forall (E : execution (accept_graph k) (accept_fetch (k + 1)) mem) n, e_ran E n -> is_ok (e_val E n)) /\
     exists E : execution (accept_graph k) (accept_fetch (k + 1)) mem, finished _ E).
  Proof. intros Hk HS Hm. split; [exact (nt_accept_exec k s mem Hk HS Hm)|]. intros s' E. split; [exact (nt_accept_no_failure k s s' mem Hk HS Hm E)|exact (nt_accept_exists k s s' mem Hk HS Hm E)]. Qed.

  Lemma nt_reject_all k (s : nt_state T) mem : nt_sized k s -> nt_mem s mem ->
    (forall E : execution reject_graph (reject_fetch (k + 1)) mem, finished _ E ->
     forall v, v <> VBsq -> v <> VGrad -> final _ E v (nt_vars (nt_reject s) v)) /\
    (forall (E : execution reject_graph (reject_fetch (k + 1)) mem) n, e_ran E n -> is_ok (e_val E n)) /\
    exists E : execution reject_graph (reject_fetch (k + 1)) mem, finished _ E.
  Proof. intros HS Hm. split; [exact (nt_reject_exec k s mem HS Hm)|]. split; [exact (rj_no_failure _ _)|exact (rj_exists _ _)]. Qed.

  Lemma nt_init_all pow (X : tensor T) rnd rndg mem : length rnd = ndims X -> nt_mem (nt_drawn_state X rnd rndg) mem ->
    (forall E : execution (init_graph pow X (ndims X + 1)) (init_fetch (ndims X + 1)) mem, finished _ E ->
     forall v, v <> VBsq -> v <> VGrad -> final _ E v (nt_vars (nt_init pow X rnd rndg) v)) /\
    (forall (E : execution (init_graph pow X (ndims X + 1)) (init_fetch (ndims X + 1)) mem) n, e_ran E n -> is_ok (e_val E n)) /\
    exists E : execution (init_graph pow X (ndims X + 1)) (init_fetch (ndims X + 1)) mem, finished _ E.
  Proof. intros H Hm. split; [exact (nt_init_exec pow X rnd rndg mem H Hm)|]. split; [exact (it_no_failure pow X _ _)|exact (it_exists pow X _ _)]. Qed.
End All.
