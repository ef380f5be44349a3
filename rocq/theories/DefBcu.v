(** NCP_BCU and NTUCKER_BCU in exact arithmetic with undefined results (C104). *)

From Coq Require Import ZArith List Bool Arith Lia Reals Lra.
From Verif Require Import Num Py Tensor TF TensorFacts TFFacts Sums Ops OpsLemmas Types Loss Fact Train Spec SpecR SpecBcu BcuFacts SpecTrain SpecInit SpecScale ParamFacts ScaleAls SpecDef DefFacts DefTrain.
Import ListNotations.
Local Open Scope R_scope.
#[local] Existing Instance NumX.

Lemma map_Some_upd (l : list R) x : forall n, map Some (upd l n x) = upd (map Some l) n (Some x).
Proof. induction l as [|a l IH]; intros [|n]; cbn; try reflexivity. rewrite IH. reflexivity. Qed.
Lemma map_def_upd (l : list (tensor R)) x : forall n, map def (upd l n x) = upd (map def l) n (def x).
Proof. induction l as [|a l IH]; intros [|n]; cbn; try reflexivity. rewrite IH. reflexivity. Qed.
Lemma upd_len {A} (l : list A) x : forall n, length (upd l n x) = length l.
Proof. induction l as [|a l IH]; intros [|n]; cbn; auto. Qed.
Lemma nth_upd_eq (l : list R) x : forall n, (n < length l)%nat -> nth n (upd l n x) 0 = x.
Proof. induction l as [|a l IH]; intros [|n] H; cbn in *; try lia; [reflexivity|]. apply IH. lia. Qed.
Lemma nth_upd_ne (l : list R) x : forall n j, j <> n -> nth j (upd l n x) 0 = nth j l 0.
Proof. induction l as [|a l IH]; intros [|n] [|j] H; cbn in *; try lia; try reflexivity. apply IH. lia. Qed.
Lemma pos_upd l x : 0 < x -> forall n, pos l -> pos (upd l n x).
Proof. intros Hx. induction l as [|a l IH]; intros n H; [destruct n; exact H|]. inversion H; subst. destruct n; constructor; try assumption. apply IH; assumption. Qed.
Lemma pos_nth l n : pos l -> (n < length l)%nat -> 0 < nth n l 0.
Proof. intros H Hn. unfold pos in H. rewrite Forall_forall in H. apply H, nth_In, Hn. Qed.
Lemma d_shrink L L' G G' : L <> 0 -> dr L L' -> td G G' -> td (tf_map (fun x => ndiv x L) G) (tf_map (fun x => ndiv x L') G').
Proof. intros HL HLL HG. apply d_map; [|exact HG]. intros a b Hab. apply dr_div; assumption. Qed.
Lemma d_relu G G' : td G G' -> td (tf_map nrelu G) (tf_map nrelu G').
Proof. intros H. apply d_map; [apply dr_relu|exact H]. Qed.
Lemma dr_tnext a b : dr a b -> dr (t_next a) (t_next b).
Proof.
  intros H. unfold t_next. apply dr_div; [cbn; lra| |apply dr_ofZ]. apply dr_add; [apply dr1|]. apply dr_sqrt.
  - change (0 <= 1 + 4 * (a * a)). pose proof (Rle_0_sqr a) as K. unfold Rsqr in K. lra.
  - apply dr_add; [apply dr1|]. apply dr_mul; [apply dr_ofZ|apply dr_sq, H].
Qed.
Lemma tnext_pos a : 0 < t_next a.
Proof.
  unfold t_next. cbn. pose proof (sqrt_pos (1 + 4 * (a * a))) as K. unfold nsq. cbn. apply Rmult_lt_0_compat; [|lra].
  assert (0 < 1 + sqrt (1 + 4 * (a * a))) by lra. exact H.
Qed.
Lemma d_weights t0 t L0 : 0 < t -> pos L0 -> forall L, pos L -> weights (Some t0) (Some t) (map Some L0) (map Some L) = map Some (weights t0 t L0 L).
Proof.
  intros Ht. unfold weights. induction L0 as [|a L0 IH]; intros H0 [|b L] HL; cbn [combine map]; try reflexivity. inversion H0; inversion HL; subst. f_equal; [|apply IH; assumption].
  assert (Hd : 0 < ndiv a b) by (apply Rmult_lt_0_compat; [assumption|apply Rinv_0_lt_compat; assumption]).
  apply dr_min; [apply dr_div; [lra|reflexivity|reflexivity]|]. apply dr_sqrt; [apply Rlt_le, Hd|]. cbn [fst snd]. apply dr_div; [lra|reflexivity|reflexivity].
Qed.
Lemma d_extrapolate w a a' b b' : td a a' -> td b b' -> rrel td (extrapolate w a b) (extrapolate (Some w) a' b').
Proof.
  intros Ha Hb. unfold extrapolate. apply (rrel_bind td); [apply d_sub; assumption|]. intros d d' Hd. apply d_add; [exact Ha|]. apply d_map; [|exact Hd].
  intros x y Hxy. apply dr_mul; [reflexivity|exact Hxy].
Qed.
Lemma d_map3 ws : forall a b, rrel tds (map3M extrapolate ws a b) (map3M extrapolate (map Some ws) (map def a) (map def b)).
Proof.
  unfold map3M. induction ws as [|w ws IH]; intros a b; [constructor|]. destruct a as [|x a]; [constructor|]. destruct b as [|y b]; [constructor|]. cbn [map combine mapM fst snd].
  apply (rrel_bind td); [apply d_extrapolate; apply td_def|]. intros u u' Hu. apply (rrel_bind tds); [apply IH|]. intros v v' Hv. constructor; assumption.
Qed.
Lemma d_ones s : td (tf_ones s) (tf_ones s).
Proof. split; [reflexivity|]. cbn. induction (indices s); constructor; [reflexivity|assumption]. Qed.
Lemma metrics_pos (X F : tensor R) m : metrics_of X F = Ok m -> 0 <= m_obj m.
Proof.
  intros E. unfold metrics_of in E. apply bind_ok in E as (l & _ & E). apply bind_ok in E as (d & _ & E). injection E as <-. cbn [m_obj].
  change (0 <= 1 / 2 * (tf_norm d * tf_norm d)). pose proof (Rle_0_sqr (tf_norm d)) as K. unfold Rsqr in K. lra.
Qed.
Lemma d_norm_init pow powX X k a : same_pow pow powX -> some_entry X -> (0 < k)%nat -> some_entry a ->
  norm_init powX (def X) k (def a) = def (norm_init pow X k a).
Proof.
  intros HP HX Hk Ha. apply td_eq. unfold norm_init. apply d_map; [|apply td_def]. intros x y Hxy. apply dr_mul.
  - apply dr_div; [apply norm_nz, Ha|exact Hxy|apply d_norm, td_def].
  - pose proof (d_norm X (def X) (td_def X)) as E. unfold dr in E. rewrite E.
    assert (K : dr (ndiv n1 (nofZ (Z.of_nat k))) (ndiv n1 (nofZ (Z.of_nat k)))).
    { apply dr_div; [|apply dr1|apply dr_ofZ]. change (IZR (Z.of_nat k) <> 0). apply not_0_IZR. lia. }
    unfold dr in K. rewrite K. apply HP.
Qed.
Lemma relu_entry a : has_positive a -> some_entry (tf_map nrelu a).
Proof.
  intros (i & _ & H2). unfold get in H2. set (k := ravel (shp a) i) in *.
  assert (Hk : (k < length (dat a))%nat). { destruct (Nat.lt_ge_cases k (length (dat a))); [assumption|]. rewrite nth_overflow in H2 by assumption. cbn in H2. lra. }
  set (x := nth k (dat a) n0) in *. exists x. split; [|lra]. cbn. apply in_map_iff. exists x. split; [|apply nth_In, Hk]. unfold nrelu, nmax. cbn. destruct (Rlt_dec 0 x); [|lra].
  destruct (Rlt_dec x 0); [lra|]. reflexivity.
Qed.
Lemma def_relu a : tf_map nrelu (def a) = def (tf_map nrelu a).
Proof. apply td_eq, d_relu, td_def. Qed.

(** ** NCP_BCU *)
Section Ncp.
  Variables (svals : tensor R -> list R) (svalsX : tensor xreal -> list xreal) (X : tensor R).
  Hypothesis HS : same_values svals svalsX.
  Hypothesis HX : some_entry X.
  Lemma d_svals V V' : td V V' -> dr (tf_max (svals V)) (tf_max (svalsX V')).
  Proof. intros H. rewrite (td_eq _ _ H), HS. apply dr_tfmax, drs_map. Qed.
  Definition ndef (a : ncp_state R) (b : ncp_state xreal) : Prop := b = def_ncp a.
  Lemma d_ncp_mode mats mats' n s s2 : tds mats mats' -> ncp_mode svals mats n s = Ok s2 -> nth n (n_L s2) 0 <> 0 -> ncp_mode svalsX mats' n (def_ncp s) = Ok (def_ncp s2).
  Proof.
    intros HM ER HL. assert (K : rrel ndef (ncp_mode svals mats n s) (ncp_mode svalsX mats' n (def_ncp s))).
    { unfold ncp_mode in *. cbn [def_ncp n_A n_Am n_A0 n_t n_t0 n_w n_L n_L0].
      apply (rrel_bind_ok tds); [apply d_grams, tds_def|]. intros G G' E1 _ HG. rewrite E1 in ER. cbn [bind] in ER.
      apply (rrel_bind_ok td); [apply d_khatri, tds_def|]. intros kr kr' E2 _ Hkr. rewrite E2 in ER. cbn [bind] in ER.
      apply (rrel_bind_ok td); [apply pynth_rel, HM|]. intros Xm Xm' E3 _ HXm. rewrite E3 in ER. cbn [bind] in ER.
      apply (rrel_bind_ok td); [apply d_matmul; assumption|]. intros XA XA' E4 _ HXA. rewrite E4 in ER. cbn [bind] in ER.
      apply (rrel_bind_ok td); [apply d_hadamard, HG|]. intros V V' E5 _ HV. rewrite E5 in ER. cbn [bind] in ER.
      apply (rrel_bind_ok dr); [apply pynth_rel, drs_map|]. intros Lo Lo' E6 _ HLo. rewrite E6 in ER. cbn [bind] in ER. cbv zeta in ER |- *.
      apply (rrel_bind_ok td); [apply pynth_rel, tds_def|]. intros Am Am' E7 _ HAm. rewrite E7 in ER. cbn [bind] in ER.
      apply (rrel_bind_ok td); [apply d_matmul; assumption|]. intros AV AV' E8 _ HAV. rewrite E8 in ER. cbn [bind] in ER.
      apply (rrel_bind_ok td); [apply d_sub; assumption|]. intros Gn Gn' E9 _ HGn. rewrite E9 in ER. cbn [bind] in ER.
      assert (HLn : tf_max (svals V) <> 0).
      { apply bind_ok in ER as (up & _ & ER). injection ER as <-. cbn [n_L] in HL. rewrite nth_upd_eq in HL by (apply (pynth_of_nat _ _ _ 0 E6)). exact HL. }
      apply (rrel_bind td); [apply d_sub; [exact HAm|]; apply d_shrink; [exact HLn|apply d_svals, HV|exact HGn]|]. intros up up' Hup. cbn [rrel]. unfold ndef, def_ncp. cbn [n_A n_Am n_A0 n_t n_t0 n_w n_L n_L0].
      rewrite map_def_upd, !map_Some_upd, (td_eq _ _ (d_relu _ _ Hup)). pose proof (d_svals V V' HV) as Q. unfold dr in Q, HLo. rewrite Q, HLo. reflexivity. }
    rewrite ER in K. destruct (ncp_mode svalsX mats' n (def_ncp s)) as [z|]; cbn in K; [rewrite K; reflexivity|contradiction].
  Qed.
  Lemma ncp_mode_L mats n s s2 : ncp_mode svals mats n s = Ok s2 -> (n < length (n_L s))%nat /\ exists L, n_L s2 = upd (n_L s) n L /\ n_L0 s2 = upd (n_L0 s) n (nth n (n_L s) 0) /\ n_t0 s2 = n_t0 s.
  Proof.
    intros E. unfold ncp_mode in E. repeat (apply bind_ok in E as (? & ? & E)). injection E as <-. cbn [n_L n_L0 n_t0].
    match goal with H : pynth (n_L s) _ = Ok _ |- _ => destruct (pynth_of_nat _ _ _ 0 H) as [Hl ->] end. split; [exact Hl|]. eexists. split; [reflexivity|]. auto.
  Qed.
  Lemma ncp_modes_L mats n : forall k s s2, ncp_modes svals mats (seq k n) s = Ok s2 ->
    length (n_L s2) = length (n_L s) /\ n_t0 s2 = n_t0 s /\ (forall j, (j < k)%nat -> nth j (n_L s2) 0 = nth j (n_L s) 0) /\ (pos (n_L s) -> pos (n_L0 s) -> pos (n_L s2) -> pos (n_L0 s2)).
  Proof.
    induction n as [|n IH]; intros k s s2 E; cbn [seq ncp_modes] in E; [injection E as <-; auto|].
    apply bind_ok in E as (s1 & E1 & E2). destruct (ncp_mode_L _ _ _ _ E1) as (Hk & L & EL & EL0 & ET). destruct (IH _ _ _ E2) as (H1 & H2 & H3 & H4).
    rewrite EL, upd_len in H1. split; [exact H1|]. split; [congruence|]. split.
    - intros j Hj. rewrite H3 by lia. rewrite EL, nth_upd_ne by lia. reflexivity.
    - intros P1 P2 P3. apply H4; [|rewrite EL0; apply pos_upd; [apply pos_nth; assumption|exact P2]|exact P3].
      rewrite EL. apply pos_upd; [|exact P1]. pose proof (H3 k ltac:(lia)) as Q. rewrite EL, nth_upd_eq in Q by exact Hk. rewrite <- Q. apply pos_nth; [exact P3|lia].
  Qed.
  Lemma d_ncp_modes mats mats' n : tds mats mats' -> forall k s s2, ncp_modes svals mats (seq k n) s = Ok s2 -> pos (n_L s2) -> ncp_modes svalsX mats' (seq k n) (def_ncp s) = Ok (def_ncp s2).
  Proof.
    intros HM. induction n as [|n IH]; intros k s s2 E HP; cbn [seq ncp_modes] in *; [injection E as <-; reflexivity|].
    apply bind_ok in E as (s1 & E1 & E2). destruct (ncp_mode_L _ _ _ _ E1) as (Hk & L & EL & _). destruct (ncp_modes_L _ _ _ _ _ E2) as (H1 & _ & H3 & _).
    rewrite (d_ncp_mode mats mats' k s s1 HM E1). 2: { rewrite <- H3 by lia. apply Rgt_not_eq. apply pos_nth; [exact HP|]. rewrite H1, EL, upd_len. exact Hk. }
    cbn [bind]. apply IH; assumption.
  Qed.
  Lemma c104_ncp_step s s2 full m : ncp_step svals X s = Ok (s2, full, m) -> pos (n_L s2) -> ncp_step svalsX (def X) (def_ncp s) = Ok (def_ncp s2, def full, def_metrics m).
  Proof.
    intros E HP. unfold ncp_step in *. apply bind_ok in E as (mats & E1 & E). apply bind_ok in E as (s1 & E2 & E). cbv zeta in E.
    pose proof (d_unfold_all X (def X) (td_def X)) as K1. rewrite E1 in K1. destruct (unfold_all (def X)) as [mats'|]; [|contradiction]. cbn [rrel] in K1. cbn [bind].
    change (ndims (def X)) with (ndims X).
    apply bind_ok in E as (lam & E3 & E). apply bind_ok in E as (F & E4 & E). apply bind_ok in E as (m' & E5 & E). injection E as <- <- <-. cbn [n_L n_A] in *.
    rewrite (d_ncp_modes mats mats' (ndims X) K1 0 s s1 E2 HP). cbn [bind]. cbv zeta. cbn [def_ncp n_A n_Am n_A0 n_t n_t0 n_w n_L n_L0].
    assert (K3 : rrel td (ncp_ones (n_A s1)) (ncp_ones (map def (n_A s1)))).
    { unfold ncp_ones. apply (rrel_bind td); [apply pynth_rel, tds_def|]. intros a a' Ha. rewrite (d_dim _ _ Ha). apply rrel_bind_same. intros d. cbn [rrel]. apply d_ones. }
    rewrite E3 in K3. destruct (ncp_ones (map def (n_A s1))) as [lam'|]; [|contradiction]. cbn [rrel] in K3. cbn [bind].
    pose proof (d_kt _ _ _ _ (tds_def (n_A s1)) K3) as K4. rewrite E4 in K4. destruct (kt_extract (map def (n_A s1)) lam') as [F'|]; [|contradiction]. cbn [rrel] in K4. cbn [bind].
    pose proof (d_metrics X (def X) F F' HX (td_def X) K4) as K5. rewrite E5 in K5. destruct (metrics_of (def X) F') as [mm|]; [|contradiction]. cbn [rrel] in K5. cbn [bind].
    rewrite K5, (td_eq _ _ K4). pose proof (dr_tnext (n_t0 s1) (Some (n_t0 s1)) eq_refl) as K6. unfold dr in K6. rewrite K6. reflexivity.
  Qed.
  Definition ncpI (s : ncp_state R) : Prop := pos (n_L s) /\ pos (n_L0 s).
  Definition ncpJ (s : ncp_state R) : Prop := ncpI s /\ 0 < n_t s.
  Lemma d_ncp_accept s : ncpJ s -> rrel (fun x y => y = def_ncp x /\ ncpI x) (ncp_accept s) (ncp_accept (def_ncp s)).
  Proof.
    intros [[P1 P2] P3]. unfold ncp_accept. cbn [def_ncp n_A n_Am n_A0 n_t n_t0 n_w n_L n_L0]. rewrite d_weights by assumption. cbv zeta.
    apply (rrel_bind tds); [apply d_map3|]. intros Am Am' H. cbn [rrel]. split; [|split; assumption]. rewrite (tds_eq _ _ H). reflexivity.
  Qed.
  Lemma d_ncp_init pow powX rnd : same_pow pow powX -> (0 < ndims X)%nat -> Forall has_positive rnd -> ncp_init powX (def X) (map def rnd) = def_ncp (ncp_init pow X rnd).
  Proof.
    intros HP HN HR. unfold ncp_init, def_ncp. cbn [n_A n_Am n_A0 n_t n_t0 n_w n_L n_L0]. change (ndims (def X)) with (ndims X).
    assert (E : map (fun r => norm_init powX (def X) (ndims X) (tf_map nrelu r)) (map def rnd) = map def (map (fun r => norm_init pow X (ndims X) (tf_map nrelu r)) rnd)).
    { rewrite !map_map. apply map_ext_in. intros a Ha. rewrite def_relu. apply d_norm_init; auto. apply relu_entry. rewrite Forall_forall in HR. apply HR, Ha. }
    assert (E2 : forall n, map Some (repeat (@n1 R _) n) = repeat n1 n) by (induction n; cbn; [reflexivity|f_equal; assumption]).
    rewrite E, E2. reflexivity.
  Qed.
End Ncp.
Lemma pos_ones n : pos (repeat 1 n).
Proof. apply Forall_forall. intros x H. apply repeat_spec in H. subst. lra. Qed.
Lemma c104_ncp_train pow powX svals svalsX X rnd w (o : fobj R (targs R * nat)) steps : same_pow pow powX -> same_values svals svalsX -> some_entry X -> (0 < ndims X)%nat -> Forall has_positive rnd ->
  (forall k s, (Z.of_nat k < steps)%Z -> bcu_after (fun s => Ok (s, None)) (ncp_run svals X) ncp_accept (fun s => Ok (ncp_reject s)) (ncp_init pow X rnd) k s -> clean_ncp svals X s) ->
  ncp_train powX svalsX (def X) w (def_obj (fun a => (def_args (fst a), snd a)) o) (map def rnd) steps =
  def_outcome (fun a => (def_args (fst a), snd a)) (ncp_train pow svals X w o rnd steps).
Proof.
  intros HP HS HX HN HR HG. unfold ncp_train. apply d_train. intros [args r] id p _. cbn [fst snd]. unfold ncp_body. cbn [fst snd].
  set (s0 := ncp_init pow X rnd) in *. set (RR := bcu_after (fun s => Ok (s, None)) (ncp_run svals X) ncp_accept (fun s => Ok (ncp_reject s)) s0) in *.
  replace (Some (tf_ones (N := NumX) [1%nat; r])) with (omap def (Some (tf_ones [1%nat; r]))) by (cbn [omap]; f_equal; symmetry; apply td_eq, d_ones).
  apply (d_bcu_body def_ncp (fun n s => (exists k, (k + n)%nat = Z.to_nat steps /\ RR k s) /\ ncpI s) (fun n s => (exists k, (k + S n)%nat = Z.to_nat steps /\ RR k s) /\ ncpI s)
    (fun n s => (exists k u o', (k + S n)%nat = Z.to_nat steps /\ RR k u /\ ncp_run svals X u = Ok (s, o')) /\ ncpJ s)).
  - intros n s H. cbn. auto.
  - intros n s [(k & Hk & H1) H2]. destruct (HG k s ltac:(lia) H1) as (s2 & full & m & E & P). pose proof (c104_ncp_step svals svalsX X HS HX s s2 full m E P) as EX.
    unfold ncp_run. rewrite E, EX. cbn [bind rrel]. split; [reflexivity|]. cbn [fst snd ob_met]. split; [split|].
    + exists k, s, (mkObs (n_A s2) None full m). split; [exact Hk|]. split; [exact H1|]. unfold ncp_run. rewrite E. reflexivity.
    + unfold ncp_step in E. apply bind_ok in E as (mats & E1 & E). apply bind_ok in E as (s1 & E2 & E). cbv zeta in E. repeat (apply bind_ok in E as (? & ? & E)). injection E as <- _ _.
      cbn [n_L] in P. destruct (ncp_modes_L svals mats (ndims X) 0 s s1 E2) as (_ & _ & _ & Q). split; [split; cbn; [exact P|apply Q; [apply H2|apply H2|exact P]]|]. cbn [n_t]. apply tnext_pos.
    + unfold ncp_step in E. repeat (apply bind_ok in E as (? & ? & E)). injection E as _ _ <-. eapply metrics_pos. eassumption.
  - intros n s [(k & u & o' & Hk & Hu & Eu) HJ]. pose proof (d_ncp_accept s HJ) as K. destruct (ncp_accept s) as [x|] eqn:EA, (ncp_accept (def_ncp s)) as [y|]; cbn in K |- *; try exact K. destruct K as [K1 K2]. split; [exact K1|]. split; [|exact K2].
    exists (S k). split; [lia|]. eapply ba_accept; [exact Hu|reflexivity|exact Eu|exact EA].
  - intros n s [(k & u & o' & Hk & Hu & Eu) HJ]. cbn. split; [reflexivity|]. split; [|apply HJ]. exists (S k). split; [lia|]. eapply ba_reject; [exact Hu|reflexivity|exact Eu|reflexivity].
  - cbn [rrel]. split; [apply d_ncp_init; assumption|]. split; [exists 0%nat; split; [reflexivity|constructor]|]. split; cbn; apply pos_ones.
Qed.

(** ** NTUCKER_BCU *)
Lemma map_Some_firstn (l : list R) : forall n, @firstn xreal n (map Some l) = map Some (firstn n l).
Proof. induction l as [|a l IH]; intros [|n]; cbn; try reflexivity. rewrite IH. reflexivity. Qed.
Lemma nth_map_Some (l : list R) : forall n, dr (nth n l n0) (@nth xreal n (map Some l) n0).
Proof. induction l as [|a l IH]; intros [|n]; cbn; try reflexivity. apply IH. Qed.
Section Nt.
  Variables (svals : tensor R -> list R) (svalsX : tensor xreal -> list xreal) (X : tensor R).
  Hypothesis HS : same_values svals svalsX.
  Hypothesis HX : some_entry X.
  Definition qdef (a : nt_state R) (b : nt_state xreal) : Prop := b = def_nt a.
  Lemma d_msv l l' sk : tds l l' -> rrel dr (max_single_value_mul svals l sk) (max_single_value_mul svalsX l' sk).
  Proof.
    intros H. unfold max_single_value_mul. assert (K : Forall2 dr (map (fun m => tf_max (svals m)) (skip_ l sk)) (map (fun m => tf_max (svalsX m)) (skip_ l' sk))).
    { apply (Forall2_map' td); [intros a b Hab; apply (d_svals _ _ HS), Hab|]. apply skip_rel, H. }
    apply (reduce_rel dr); [|exact K]. intros a b c d Hab Hcd. apply dr_mul; assumption.
  Qed.
  Lemma d_nt_core s s2 : nt_core svals X s = Ok s2 -> nth (ndims X) (q_L s2) 0 <> 0 -> nt_core svalsX (def X) (def_nt s) = Ok (def_nt s2).
  Proof.
    intros ER HL. assert (K : rrel qdef (nt_core svals X s) (nt_core svalsX (def X) (def_nt s))).
    { unfold nt_core in *. change (ndims (def X)) with (ndims X). cbn [def_nt q_A q_Am q_A0 q_g q_gm q_g0 q_t q_t0 q_w q_L q_L0].
      apply (rrel_bind_ok tds); [apply d_grams, tds_def|]. intros G G' E1 _ HG. rewrite E1 in ER. cbn [bind] in ER.
      apply (rrel_bind_ok dr); [apply pynth_rel, drs_map|]. intros Lo Lo' E6 _ HLo. rewrite E6 in ER. cbn [bind] in ER.
      apply (rrel_bind_ok dr); [apply d_msv, HG|]. intros L L' E2 _ HLL. rewrite E2 in ER. cbn [bind] in ER.
      apply (rrel_bind_ok td); [apply d_ttm; [apply td_def|exact HG]|]. intros B B' E3 _ HB. rewrite E3 in ER. cbn [bind] in ER.
      apply (rrel_bind_ok td); [apply d_ttm; [apply td_def|apply tds_def]|]. intros XA XA' E4 _ HXA. rewrite E4 in ER. cbn [bind] in ER.
      apply (rrel_bind_ok td); [apply d_sub; assumption|]. intros Gn Gn' E9 _ HGn. rewrite E9 in ER. cbn [bind] in ER.
      assert (HLn : L <> 0).
      { apply bind_ok in ER as (up & _ & ER). injection ER as <-. cbn [q_L] in HL. rewrite nth_upd_eq in HL by (apply (pynth_of_nat _ _ _ 0 E6)). exact HL. }
      apply (rrel_bind td); [apply d_sub; [apply td_def|]; apply d_shrink; assumption|]. intros up up' Hup. cbn [rrel]. unfold qdef, def_nt. cbn [q_A q_Am q_A0 q_g q_gm q_g0 q_t q_t0 q_w q_L q_L0].
      rewrite !map_Some_upd, (td_eq _ _ (d_relu _ _ Hup)). unfold dr in HLL, HLo. rewrite HLL, HLo. reflexivity. }
    rewrite ER in K. destruct (nt_core svalsX (def X) (def_nt s)) as [z|]; cbn in K; [rewrite K; reflexivity|contradiction].
  Qed.
  Lemma nt_core_L s s2 : nt_core svals X s = Ok s2 -> (ndims X < length (q_L s))%nat /\ exists L, q_L s2 = upd (q_L s) (ndims X) L /\ q_L0 s2 = upd (q_L0 s) (ndims X) (nth (ndims X) (q_L s) 0).
  Proof.
    intros E. unfold nt_core in E. repeat (apply bind_ok in E as (? & ? & E)). injection E as <-. cbn [q_L q_L0].
    match goal with H : pynth (q_L s) _ = Ok _ |- _ => destruct (pynth_of_nat _ _ _ 0 H) as [Hl ->] end. split; [exact Hl|]. eexists. split; reflexivity.
  Qed.
  Lemma d_nt_mode mats mats' n s s2 : tds mats mats' -> nt_mode svals mats n s = Ok s2 -> nth n (q_L s2) 0 <> 0 -> nt_mode svalsX mats' n (def_nt s) = Ok (def_nt s2).
  Proof.
    intros HM ER HL. assert (K : rrel qdef (nt_mode svals mats n s) (nt_mode svalsX mats' n (def_nt s))).
    { unfold nt_mode in *. cbn [def_nt q_A q_Am q_A0 q_g q_gm q_g0 q_t q_t0 q_w q_L q_L0].
      apply (rrel_bind_ok td); [apply d_ttm; [apply td_def|apply tds_def]|]. intros Y Y' E1 _ HY. rewrite E1 in ER. cbn [bind] in ER.
      apply (rrel_bind_ok td); [apply d_unfold, HY|]. intros B B' E2 _ HB. rewrite E2 in ER. cbn [bind] in ER.
      apply (rrel_bind_ok td); [apply pynth_rel, HM|]. intros Xm Xm' E3 _ HXm. rewrite E3 in ER. cbn [bind] in ER.
      apply (rrel_bind_ok td); [apply d_matmul; assumption|]. intros XB XB' E4 _ HXB. rewrite E4 in ER. cbn [bind] in ER.
      apply (rrel_bind_ok td); [apply d_matmul; assumption|]. intros V V' E5 _ HV. rewrite E5 in ER. cbn [bind] in ER.
      apply (rrel_bind_ok td); [apply pynth_rel, tds_def|]. intros Am Am' E7 _ HAm. rewrite E7 in ER. cbn [bind] in ER.
      apply (rrel_bind_ok td); [apply d_matmul; assumption|]. intros AV AV' E8 _ HAV. rewrite E8 in ER. cbn [bind] in ER.
      apply (rrel_bind_ok td); [apply d_sub; assumption|]. intros Gn Gn' E9 _ HGn. rewrite E9 in ER. cbn [bind] in ER.
      apply (rrel_bind_ok dr); [apply pynth_rel, drs_map|]. intros Lo Lo' E6 _ HLo. rewrite E6 in ER. cbn [bind] in ER. cbv zeta in ER |- *.
      assert (HLn : tf_max (svals V) <> 0).
      { apply bind_ok in ER as (up & _ & ER). injection ER as <-. cbn [q_L] in HL. rewrite nth_upd_eq in HL by (apply (pynth_of_nat _ _ _ 0 E6)). exact HL. }
      apply (rrel_bind td); [apply d_sub; [exact HAm|]; apply d_shrink; [exact HLn|apply (d_svals _ _ HS), HV|exact HGn]|]. intros up up' Hup. cbn [rrel]. unfold qdef, def_nt. cbn [q_A q_Am q_A0 q_g q_gm q_g0 q_t q_t0 q_w q_L q_L0].
      rewrite map_def_upd, !map_Some_upd, (td_eq _ _ (d_relu _ _ Hup)). pose proof (d_svals _ _ HS V V' HV) as Q. unfold dr in Q, HLo. rewrite Q, HLo. reflexivity. }
    rewrite ER in K. destruct (nt_mode svalsX mats' n (def_nt s)) as [z|]; cbn in K; [rewrite K; reflexivity|contradiction].
  Qed.
  Lemma nt_mode_L mats n s s2 : nt_mode svals mats n s = Ok s2 -> (n < length (q_L s))%nat /\ exists L, q_L s2 = upd (q_L s) n L /\ q_L0 s2 = upd (q_L0 s) n (nth n (q_L s) 0).
  Proof.
    intros E. unfold nt_mode in E. repeat (apply bind_ok in E as (? & ? & E)). injection E as <-. cbn [q_L q_L0].
    match goal with H : pynth (q_L s) _ = Ok _ |- _ => destruct (pynth_of_nat _ _ _ 0 H) as [Hl ->] end. split; [exact Hl|]. eexists. split; reflexivity.
  Qed.
  Lemma nt_modes_L mats n : forall k s s2, nt_modes svals mats (seq k n) s = Ok s2 ->
    length (q_L s2) = length (q_L s) /\ (forall j, (j < k \/ k + n <= j)%nat -> nth j (q_L s2) 0 = nth j (q_L s) 0) /\ (pos (q_L s) -> pos (q_L0 s) -> pos (q_L s2) -> pos (q_L0 s2)).
  Proof.
    induction n as [|n IH]; intros k s s2 E; cbn [seq nt_modes] in E; [injection E as <-; auto|].
    apply bind_ok in E as (s1 & E1 & E2). destruct (nt_mode_L _ _ _ _ E1) as (Hk & L & EL & EL0). destruct (IH _ _ _ E2) as (H1 & H3 & H4).
    rewrite EL, upd_len in H1. split; [exact H1|]. split.
    - intros j Hj. rewrite H3 by lia. rewrite EL, nth_upd_ne by lia. reflexivity.
    - intros P1 P2 P3. apply H4; [|rewrite EL0; apply pos_upd; [apply pos_nth; assumption|exact P2]|exact P3].
      rewrite EL. apply pos_upd; [|exact P1]. pose proof (H3 k ltac:(lia)) as Q. rewrite EL, nth_upd_eq in Q by exact Hk. rewrite <- Q. apply pos_nth; [exact P3|lia].
  Qed.
  Lemma d_nt_modes mats mats' n : tds mats mats' -> forall k s s2, nt_modes svals mats (seq k n) s = Ok s2 -> pos (q_L s2) -> nt_modes svalsX mats' (seq k n) (def_nt s) = Ok (def_nt s2).
  Proof.
    intros HM. induction n as [|n IH]; intros k s s2 E HP; cbn [seq nt_modes] in *; [injection E as <-; reflexivity|].
    apply bind_ok in E as (s1 & E1 & E2). destruct (nt_mode_L _ _ _ _ E1) as (Hk & L & EL & _). destruct (nt_modes_L _ _ _ _ _ E2) as (H1 & H3 & _).
    rewrite (d_nt_mode mats mats' k s s1 HM E1). 2: { rewrite <- H3 by lia. apply Rgt_not_eq. apply pos_nth; [exact HP|]. rewrite H1, EL, upd_len. exact Hk. }
    cbn [bind]. apply IH; assumption.
  Qed.
  Lemma d_nt_fact s s2 full m : nt_fact svals X s = Ok (s2, full, m) -> pos (q_L s2) -> nt_fact svalsX (def X) (def_nt s) = Ok (def_nt s2, def full, def_metrics m).
  Proof.
    intros E HP. unfold nt_fact in *. apply bind_ok in E as (mats & E1 & E). apply bind_ok in E as (s1 & E2 & E). cbv zeta in E.
    pose proof (d_unfold_all X (def X) (td_def X)) as K1. rewrite E1 in K1. destruct (unfold_all (def X)) as [mats'|]; [|contradiction]. cbn [rrel] in K1. cbn [bind].
    change (ndims (def X)) with (ndims X).
    apply bind_ok in E as (F & E4 & E). apply bind_ok in E as (m' & E5 & E). injection E as <- <- <-. cbn [q_L q_A q_g] in *.
    rewrite (d_nt_modes mats mats' (ndims X) K1 0 s s1 E2 HP). cbn [bind]. cbv zeta. cbn [def_nt q_A q_Am q_A0 q_g q_gm q_g0 q_t q_t0 q_w q_L q_L0].
    pose proof (d_tt _ _ _ _ (td_def (q_g s1)) (tds_def (q_A s1))) as K4. rewrite E4 in K4. destruct (tt_extract (def (q_g s1)) (map def (q_A s1))) as [F'|]; [|contradiction]. cbn [rrel] in K4. cbn [bind].
    pose proof (d_metrics X (def X) F F' HX (td_def X) K4) as K5. rewrite E5 in K5. destruct (metrics_of (def X) F') as [mm|]; [|contradiction]. cbn [rrel] in K5. cbn [bind].
    rewrite K5, (td_eq _ _ K4). pose proof (dr_tnext (q_t0 s1) (Some (q_t0 s1)) eq_refl) as K6. unfold dr in K6. rewrite K6. reflexivity.
  Qed.
  Lemma nt_fact_L s s2 full m : nt_fact svals X s = Ok (s2, full, m) -> length (q_L s2) = length (q_L s) /\ nth (ndims X) (q_L s2) 0 = nth (ndims X) (q_L s) 0 /\
    (pos (q_L s) -> pos (q_L0 s) -> pos (q_L s2) -> pos (q_L0 s2)) /\ 0 < q_t s2 /\ 0 <= m_obj m.
  Proof.
    intros E. unfold nt_fact in E. apply bind_ok in E as (mats & E1 & E). apply bind_ok in E as (s1 & E2 & E). cbv zeta in E.
    apply bind_ok in E as (F & E4 & E). apply bind_ok in E as (m' & E5 & E). injection E as <- <- <-. cbn [q_L q_L0 q_t].
    destruct (nt_modes_L _ _ _ _ _ E2) as (H1 & H2 & H3). split; [exact H1|]. split; [apply H2; right; lia|]. split; [exact H3|]. split; [apply tnext_pos|]. eapply metrics_pos; eassumption.
  Qed.
  Definition ntI (s : nt_state R) : Prop := pos (q_L s) /\ pos (q_L0 s).
  Definition ntJ (s : nt_state R) : Prop := ntI s /\ 0 < q_t s.
  Lemma d_nt_accept s : ntJ s -> rrel (fun x y => y = def_nt x /\ ntI x) (nt_accept s) (nt_accept (def_nt s)).
  Proof.
    intros [[P1 P2] P3]. unfold nt_accept. cbn [def_nt q_A q_Am q_A0 q_g q_gm q_g0 q_t q_t0 q_w q_L q_L0]. rewrite d_weights by assumption. cbv zeta. rewrite map_length, map_Some_firstn.
    apply (rrel_bind tds); [apply d_map3|]. intros Am Am' H.
    pose proof (nth_map_Some (weights (q_t0 s) (q_t s) (q_L0 s) (q_L s)) (length (q_A s))) as W. unfold dr in W. rewrite W.
    apply (rrel_bind td); [apply d_extrapolate; apply td_def|]. intros gm gm' Hg. cbn [rrel]. split; [|split; assumption]. rewrite (tds_eq _ _ H), (td_eq _ _ Hg). reflexivity.
  Qed.
  Lemma d_nt_init pow powX rnd rndg : same_pow pow powX -> Forall has_positive rnd -> has_positive rndg -> nt_init powX (def X) (map def rnd) (def rndg) = def_nt (nt_init pow X rnd rndg).
  Proof.
    intros HP HR Hg. unfold nt_init, def_nt. cbn [q_A q_Am q_A0 q_g q_gm q_g0 q_t q_t0 q_w q_L q_L0]. change (ndims (def X)) with (ndims X).
    assert (E : map (fun r => norm_init powX (def X) (ndims X + 1) (tf_map nrelu r)) (map def rnd) = map def (map (fun r => norm_init pow X (ndims X + 1) (tf_map nrelu r)) rnd)).
    { rewrite !map_map. apply map_ext_in. intros a Ha. rewrite def_relu. apply d_norm_init; auto; [lia|]. apply relu_entry. rewrite Forall_forall in HR. apply HR, Ha. }
    assert (Eg : norm_init powX (def X) (ndims X + 1) (tf_map nrelu (def rndg)) = def (norm_init pow X (ndims X + 1) (tf_map nrelu rndg))).
    { rewrite def_relu. apply d_norm_init; auto; [lia|]. apply relu_entry, Hg. }
    assert (E2 : forall n, map Some (repeat (@n1 R _) n) = repeat n1 n) by (induction n; cbn; [reflexivity|f_equal; assumption]).
    rewrite E, Eg, E2. reflexivity.
  Qed.
  Lemma c104_nt_step s s1 s2 full m : nt_core svals X s = Ok s1 -> nt_fact svals X s1 = Ok (s2, full, m) -> pos (q_L s2) ->
    nt_core svalsX (def X) (def_nt s) = Ok (def_nt s1) /\ nt_fact svalsX (def X) (def_nt s1) = Ok (def_nt s2, def full, def_metrics m).
  Proof.
    intros E1 E2 HP. split; [|apply d_nt_fact; assumption]. apply d_nt_core; [exact E1|]. destruct (nt_fact_L _ _ _ _ E2) as (H1 & H2 & _). destruct (nt_core_L _ _ E1) as (Hl & L & EL & _).
    rewrite <- H2. apply Rgt_not_eq, pos_nth; [exact HP|]. rewrite H1, EL, upd_len. exact Hl.
  Qed.
End Nt.
Lemma c104_nt_train pow powX svals svalsX X rnd rndg w (o : fobj R (targs R)) steps : same_pow pow powX -> same_values svals svalsX -> some_entry X -> Forall has_positive rnd -> has_positive rndg ->
  (forall k s, (Z.of_nat k < steps)%Z -> bcu_after (nt_pre svals X) (nt_factors svals X) nt_accept (fun s => Ok (nt_reject s)) (nt_init pow X rnd rndg) k s -> clean_nt svals X s) ->
  nt_train powX svalsX (def X) w (def_obj def_args o) (map def rnd, def rndg) steps = def_outcome def_args (nt_train pow svals X w o (rnd, rndg) steps).
Proof.
  intros HP HS HX HR Hg HG. unfold nt_train. apply d_train. intros args id p _. unfold nt_body. cbn [fst snd].
  set (s0 := nt_init pow X rnd rndg) in *. set (RR := bcu_after (nt_pre svals X) (nt_factors svals X) nt_accept (fun s => Ok (nt_reject s)) s0) in *.
  change (@None (tensor xreal)) with (omap def (@None (tensor R))).
  apply (d_bcu_body def_nt (fun n s => (exists k, (k + n)%nat = Z.to_nat steps /\ RR k s) /\ ntI s)
    (fun n s1 => exists k u, (k + S n)%nat = Z.to_nat steps /\ RR k u /\ ntI u /\ nt_core svals X u = Ok s1)
    (fun n s => (exists k u u1 c o', (k + S n)%nat = Z.to_nat steps /\ RR k u /\ nt_pre svals X u = Ok (u1, c) /\ nt_factors svals X u1 = Ok (s, o')) /\ ntJ s)).
  - intros n s [(k & Hk & H1) H2]. destruct (HG k s ltac:(lia) H1) as (s1 & s2 & full & m & E1 & E2 & P). destruct (c104_nt_step svals svalsX X HS HX s s1 s2 full m E1 E2 P) as [K1 _].
    unfold nt_pre. rewrite E1, K1. cbn. split; [reflexivity|]. exists k, s. auto.
  - intros n s1 (k & u & Hk & H1 & H2 & E1). destruct (HG k u ltac:(lia) H1) as (s1' & s2 & full & m & E1' & E2 & P). assert (s1' = s1) by congruence. subst s1'.
    destruct (c104_nt_step svals svalsX X HS HX u s1 s2 full m E1 E2 P) as [_ K2]. unfold nt_factors. rewrite E2, K2. cbn [bind rrel]. split; [reflexivity|]. cbn [fst snd ob_met].
    destruct (nt_fact_L _ _ _ _ _ _ E2) as (L1 & L2 & L3 & L4 & L5). destruct (nt_core_L _ _ _ _ E1) as (Hl & L & EL & EL0). split; [split|exact L5].
    + exists k, u, s1, (Some (q_g s1)), (mkObs (q_A s2) None full m). split; [exact Hk|]. split; [exact H1|]. unfold nt_pre, nt_factors. rewrite E1, E2. split; reflexivity.
    + split; [|exact L4]. split; [exact P|]. apply L3; [| |exact P].
      * rewrite EL. apply pos_upd; [|apply H2]. rewrite EL, nth_upd_eq in L2 by exact Hl. rewrite <- L2. apply pos_nth; [exact P|]. rewrite L1, EL, upd_len. exact Hl.
      * rewrite EL0. apply pos_upd; [apply pos_nth; [apply H2|exact Hl]|apply H2].
  - intros n s [(k & u & u1 & c & o' & Hk & Hu & Eu & Ef) HJ]. pose proof (d_nt_accept s HJ) as K. destruct (nt_accept s) as [x|] eqn:EA, (nt_accept (def_nt s)) as [y|]; cbn in K |- *; try exact K. destruct K as [K1 K2]. split; [exact K1|]. split; [|exact K2].
    exists (S k). split; [lia|]. eapply ba_accept; [exact Hu|exact Eu|exact Ef|exact EA].
  - intros n s [(k & u & u1 & c & o' & Hk & Hu & Eu & Ef) HJ]. cbn. split; [reflexivity|]. split; [|apply HJ]. exists (S k). split; [lia|]. eapply ba_reject; [exact Hu|exact Eu|exact Ef|reflexivity].
  - cbn [rrel]. split; [apply d_nt_init; assumption|]. split; [exists 0%nat; split; [reflexivity|constructor]|]. split; cbn; apply pos_ones.
Qed.
