(** NTUCKER_BCU on data in other units (C96). *)

From Coq Require Import ZArith List Bool Arith Lia Permutation Reals Lra Psatz.
From Verif Require Import Num Py Tensor TF TensorFacts TFFacts Sums Ops OpsLemmas Types Loss Fact Train Spec SpecR LayoutFacts SpecFacts MulFacts TtmFacts SkipFacts TtmLemmas Matricize
  KronFacts RSums MatR KronAlg NormFacts SpecTucker MultiR SvdFacts TuckerFacts TuckerRun TuckerLemmas SpecCp SpecBcu BcuFacts SpecTrain TrainLemmas CpFacts AlsFacts AlsLemmas
  SpecProx Prox NcpFacts NcpLemmas NtFacts NtLemmas SpecInit InitFacts SchedLists SpecScale ParamFacts ScaleFacts ScaleAls ScaleBcu.
Import ListNotations.
Local Open Scope R_scope.

(** the products of the largest singular values *)
Lemma sc_msv svals k l m : spectral svals -> 0 < k -> Forall2 (fun g g' => tsc k g g' /\ matrix g /\ nonempty (shp g)) l m ->
  rrel (sc (k ^ length l)) (max_single_value_mul svals l SkNone) (max_single_value_mul svals m SkNone).
Proof.
  intros HS Hk H. unfold max_single_value_mul. cbn [skip_].
  assert (E : Forall2 (sc k) (map (fun m => tf_max (svals m)) l) (map (fun m => tf_max (svals m)) m)).
  { apply (Forall2_map' (fun g g' => tsc k g g' /\ matrix g /\ nonempty (shp g))); [|exact H]. intros g g' (H1 & H2 & H3). apply spectral_scale; assumption. }
  rewrite <- (map_length (fun m => tf_max (svals m)) l). destruct E as [|x x' a b Hx E]; cbn [py_reduce]; [reflexivity|].
  assert (G : forall j x x', sc (k ^ j) x x' -> rrel (sc (k ^ (j + length a))) (reduceM (fun a b => Ok (nmul a b)) x a) (reduceM (fun a b => Ok (nmul a b)) x' b)).
  { clear x x' Hx. induction E as [|y y' a b Hy E IH]; intros j x x' Hx; cbn [reduceM length]; [rewrite Nat.add_0_r; exact Hx|]. cbn [bind]. rewrite <- Nat.add_succ_comm. apply IH.
    replace (k ^ S j) with (k ^ j * k) by (cbn; ring). apply sc_mul; assumption. }
  specialize (G 1%nat x x'). cbn [Nat.add] in G. cbn [length]. apply G. replace (k ^ 1) with k by (cbn; ring). exact Hx.
Qed.

Section Nt.
  Variables (svals : tensor R -> list R) (X : tensor R) (ranks : list nat) (c s : R).
  Hypothesis HS : spectral svals.
  Hypothesis HX : wf X.
  Hypothesis Hne : nonempty (shp X).
  Hypothesis Hord : (2 <= ndims X <= 13)%nat.
  Hypothesis Hr : nonempty ranks.
  Hypothesis Hc : 0 < c.
  Hypothesis Hs : 0 < s.
  Hypothesis Hsc : s ^ (ndims X + 1) = c.
  Let N := ndims X.
  Let K := (s * s) ^ N.

  Lemma K_pos : 0 < K.
  Proof. apply pow_lt. apply Rmult_lt_0_compat; exact Hs. Qed.
  Lemma K_eq : c * s ^ N = s * K.
  Proof. unfold K. rewrite <- Hsc, Rpow_mult_distr. fold N. rewrite pow_add. cbn [pow]. ring. Qed.
  Lemma K_sq : s ^ N * s ^ N = K.
  Proof. unfold K. rewrite Rpow_mult_distr. reflexivity. Qed.
  Lemma K_up : s * s ^ (N - 1) = s ^ N.
  Proof. replace N with (S (N - 1)) at 2 by (unfold N; lia). reflexivity. Qed.
  Lemma div_K L L' x y : sc K L L' -> sc (s * K) x y -> sc s (ndiv x L) (ndiv y L').
  Proof.
    unfold sc. intros -> ->. cbn. unfold Rdiv. rewrite Rinv_mult. pose proof K_pos. replace (s * K * x * (/ K * / L)) with (K * / K * (s * (x * / L))) by ring. rewrite Rinv_r by lra. ring.
  Qed.

  Definition qvars (u v : nt_state R) : Prop :=
    Forall2 (tsc s) (q_A u) (q_A v) /\ Forall2 (tsc s) (q_Am u) (q_Am v) /\ Forall2 (tsc s) (q_A0 u) (q_A0 v) /\
    tsc s (q_g u) (q_g v) /\ tsc s (q_gm u) (q_gm v) /\ tsc s (q_g0 u) (q_g0 v) /\
    q_t v = q_t u /\ q_t0 v = q_t0 u /\ length (q_L v) = length (q_L u) /\ length (q_L0 v) = length (q_L0 u).
  Definition qQ (u v : nt_state R) : Prop := nt_wf X ranks u /\ qvars u v /\ (q_t0 u = 1 \/ nscaled K (q_L u) (q_L v)).
  (** after the updates of the bounds with index in D *)
  Definition qmid (D : nat -> Prop) (u v : nt_state R) : Prop :=
    nt_wf X ranks u /\ qvars u v /\ (forall j, D j -> sc K (nth j (q_L u) 0) (nth j (q_L v) 0)) /\
    (q_t0 u = 1 \/ nscaled K (q_L u) (q_L v) /\ forall j, D j -> sc K (nth j (q_L0 u) 0) (nth j (q_L0 v) 0)).
  Definition qQ1 : nt_state R -> nt_state R -> Prop := qmid (fun j => j = N).
  Definition qQ2 (u v : nt_state R) : Prop := nt_wf X ranks u /\ qvars u v /\ nscaled K (q_L u) (q_L v) /\ (q_t0 u = 1 \/ nscaled K (q_L0 u) (q_L0 v)).

  (** replacing the bound n on both sides *)
  Lemma upd_bounds (D : nat -> Prop) u v n L L' (HW : nt_wf X ranks u) (HV : qvars u v) : (n <= N)%nat -> sc K L L' ->
    (forall j, D j -> sc K (nth j (q_L u) 0) (nth j (q_L v) 0)) ->
    (q_t0 u = 1 \/ nscaled K (q_L u) (q_L v) /\ forall j, D j -> sc K (nth j (q_L0 u) 0) (nth j (q_L0 v) 0)) ->
    (forall j, D j \/ j = n -> sc K (nth j (upd (q_L u) n L) 0) (nth j (upd (q_L v) n L') 0)) /\
    (q_t0 u = 1 \/ nscaled K (upd (q_L u) n L) (upd (q_L v) n L') /\
      forall j, D j \/ j = n -> sc K (nth j (upd (q_L0 u) n (nth n (q_L u) 0)) 0) (nth j (upd (q_L0 v) n (nth n (q_L v) 0)) 0)).
  Proof.
    intros Hn HL ML ML0. destruct HW as (_ & _ & _ & _ & _ & _ & WL & WL0). destruct HV as (_ & _ & _ & _ & _ & _ & _ & _ & VL & VL0).
    assert (B : (n < length (q_L u))%nat /\ (n < length (q_L v))%nat /\ (n < length (q_L0 u))%nat /\ (n < length (q_L0 v))%nat) by (unfold N in Hn; lia). destruct B as (B1 & B2 & B3 & B4).
    split.
    - intros j Hj. rewrite !nth_upd by assumption. destruct (Nat.eqb_spec j n); [exact HL|]. destruct Hj; [apply ML; assumption|congruence].
    - destruct ML0 as [E|[ML1 ML2]]; [left; exact E|right]. split.
      + intros j. rewrite !nth_upd by assumption. destruct (Nat.eqb_spec j n); [exact HL|apply ML1].
      + intros j Hj. rewrite !nth_upd by assumption. destruct (Nat.eqb_spec j n); [apply ML1|]. destruct Hj; [apply ML2; assumption|congruence].
  Qed.

  Lemma sc_nt_core u v : qQ u v -> rrel qQ1 (nt_core svals X u) (nt_core svals (scale c X) v).
  Proof.
    intros (HW & HV & HL). pose proof HV as (VA & VAm & VA0 & Vg & Vgm & Vg0 & Vt & Vt0 & VL & VL0). pose proof HW as (WA & WAm & WA0 & Wg & Wgm & Wg0 & WL & WL0).
    pose proof (proj1 WA) as LA. destruct (nt_core_total svals X ranks u HX ltac:(lia) HW) as (u1 & EU & WU).
    assert (GR : rrel (fun a b => qvars a b /\ (forall j, j = N -> sc K (nth j (q_L a) 0) (nth j (q_L b) 0)) /\
      (q_t0 a = 1 \/ nscaled K (q_L a) (q_L b) /\ forall j, j = N -> sc K (nth j (q_L0 a) 0) (nth j (q_L0 b) 0))) (nt_core svals X u) (nt_core svals (scale c X) v)).
    { unfold nt_core. change (ndims (scale c X)) with (ndims X). fold N.
      apply (rrel_bind_ok (Forall2 (fun g g' => tsc (s * s) g g' /\ matrix g /\ nonempty (shp g)))).
      { unfold grams. apply (mapM_rel (fun a b => tsc s a b /\ exists k, (k < N)%nat /\ a = mat_at (q_A u) k)).
        - intros a b (Hab & k & Hk & ->). destruct (tf_mat X ranks (q_A u) WA k Hk) as ([W0 S0] & R1 & R2). pose proof (rank_pos X ranks Hr (q_A u) k WA Hk) as P0.
          pose proof (sc_matmul s s true false _ _ _ _ Hab Hab) as G. revert G. rewrite (matmul_ok true false _ _ (ncols (mat_at (q_A u) k)) (nrows (mat_at (q_A u) k)) (ncols (mat_at (q_A u) k))) by exact S0.
          destruct (tf_matmul true false b b); cbn [rrel]; [|tauto]. intros G. split; [exact G|]. split; [apply is_mat_mgen|]. cbn. rewrite R2. repeat constructor; exact P0.
        - assert (G : forall l m k, Forall2 (tsc s) l m -> (forall j, (j < length l)%nat -> nth j l (mkT [] []) = mat_at (q_A u) (k + j)) -> (k + length l <= N)%nat ->
            Forall2 (fun a b => tsc s a b /\ exists k, (k < N)%nat /\ a = mat_at (q_A u) k) l m).
          { intros l m k H. revert k. induction H as [|a b l m Hab H IH]; intros k Hj Hk; constructor.
            - split; [exact Hab|]. exists k. cbn in Hk. split; [lia|]. specialize (Hj 0%nat ltac:(cbn; lia)). rewrite Nat.add_0_r in Hj. exact Hj.
            - apply (IH (Datatypes.S k)); [|cbn in Hk; lia]. intros j Hj'. specialize (Hj (Datatypes.S j) ltac:(cbn; lia)). rewrite <- Nat.add_succ_comm in Hj. exact Hj. }
          apply (G _ _ 0%nat); [exact VA|reflexivity|rewrite LA; apply Nat.le_refl]. }
      intros G G' EG _ HG. assert (LG : length G = N). { unfold grams in EG. apply mapM_length in EG. rewrite EG. exact LA. }
      assert (HG' : Forall2 (tsc (s * s)) G G') by (clear - HG; induction HG as [|a b l m (H & _) HG IH]; constructor; assumption).
      rewrite (pynth_nat (q_L u) N 0), (pynth_nat (q_L v) N 0) by (unfold N; lia). cbn [bind].
      pose proof (sc_msv svals (s * s) G G' HS ltac:(apply Rmult_lt_0_compat; exact Hs) HG) as HM. rewrite LG in HM. fold K in HM.
      apply (rrel_bind (sc K)); [exact HM|]. intros L L' HLn.
      apply (rrel_bind (tsc (s * K))). { eapply rrel_cast; [|apply (sc_ttm s (s * s)); [exact Vgm|exact HG']]. cbn [skip_]. rewrite LG. reflexivity. }
      intros B B' HB. apply (rrel_bind (tsc (s * K))). { eapply rrel_cast; [|apply (sc_ttm c s); [apply tsc_scale|exact VA]]. cbn [skip_]. rewrite LA. apply K_eq. }
      intros XA XA' HXA. apply (rrel_bind (tsc (s * K))). { apply (sc_bin (s * K) (s * K)); [intros; apply sc_sub; assumption|exact HB|exact HXA]. }
      intros Gr Gr' HGr. apply (rrel_bind (tsc s)).
      { apply (sc_bin s s); [intros; apply sc_sub; assumption|exact Vgm|]. apply (sc_map (s * K)); [|exact HGr]. intros x y Hxy. apply div_K; assumption. }
      intros g g' Hg. cbn [rrel q_A q_Am q_A0 q_g q_gm q_g0 q_t q_t0 q_L q_L0].
      assert (HL0 : q_t0 u = 1 \/ nscaled K (q_L u) (q_L v) /\ forall j, False -> sc K (nth j (q_L0 u) 0) (nth j (q_L0 v) 0)) by (destruct HL as [E|E]; [left; exact E|right; split; [exact E|tauto]]).
      destruct (upd_bounds (fun _ => False) u v N L L' HW HV (Nat.le_refl _) HLn ltac:(tauto) HL0) as [U1 U2].
      split; [|split].
      - unfold qvars. cbn. rewrite !upd_length. repeat (split; [assumption|]). split; [|auto 10]. apply (sc_map s); [intros; apply sc_relu; [lra|assumption]|exact Hg].
      - intros j Hj. apply U1. auto.
      - destruct U2 as [E|[U2 U3]]; [left; exact E|right]. split; [exact U2|]. intros j Hj. apply U3. auto. }
    rewrite EU in *. destruct (nt_core svals (scale c X) v) as [v1|]; cbn in GR |- *; [|exact GR]. split; [exact WU|exact GR].
  Qed.

  Lemma sc_nt_mode (D : nat -> Prop) mats mats' n u v : unfold_all X = Ok mats -> Forall2 (tsc c) mats mats' -> (n < N)%nat -> qmid D u v ->
    rrel (qmid (fun j => D j \/ j = n)) (nt_mode svals mats n u) (nt_mode svals mats' n v).
  Proof.
    intros EM HM Hn (HW & HV & ML & ML0). pose proof HV as (VA & VAm & VA0 & Vg & Vgm & Vg0 & Vt & Vt0 & VL & VL0). pose proof HW as (WA & WAm & WA0 & Wg & Wgm & Wg0 & WL & WL0).
    pose proof (proj1 WA) as LA.
    assert (GW : forall u', nt_mode svals mats n u = Ok u' -> nt_wf X ranks u').
    { intros u' E. rewrite (nt_mode_run svals X ranks ltac:(lia) Hne Hr mats EM u n HW ltac:(lia) Hn) in E. injection E as <-.
      split; [apply replace_tucker; [exact WA|apply nt_new_mat]|]. repeat (split; [assumption|]). cbn [q_L q_L0]. rewrite !replace_length. auto. }
    assert (GR : rrel (fun a b => qvars a b /\ (forall j, D j \/ j = n -> sc K (nth j (q_L a) 0) (nth j (q_L b) 0)) /\
      (q_t0 a = 1 \/ nscaled K (q_L a) (q_L b) /\ forall j, D j \/ j = n -> sc K (nth j (q_L0 a) 0) (nth j (q_L0 b) 0))) (nt_mode svals mats n u) (nt_mode svals mats' n v)).
    { unfold nt_mode. pose proof (sc_ttm s s (q_g u) (q_g v) (q_A u) (q_A v) None false (SkInt (Z.of_nat n)) Vg VA) as HT. rewrite SchedLists.skip_length in HT by (rewrite LA; exact Hn). rewrite LA in HT. fold N in HT. rewrite K_up in HT.
      pose proof (cto_run X ranks ltac:(lia) (q_g u) (q_A u) n WA Wg ltac:(lia) Hn) as EY. rewrite EY in *. cbn [bind].
      destruct (ttm (q_g v) (q_A v) None false (SkInt (Z.of_nat n))) as [Y'|]; cbn [rrel bind] in *; [|contradiction].
      destruct (cto_unfold X ranks ltac:(lia) Hne Hr (q_g u) (q_A u) n WA Wg Hn) as (B & EB & HB & _ & _). pose proof (sc_unfold (s ^ N) _ Y' (Z.of_nat n) HT) as HU. rewrite EB in *. cbn [bind].
      destruct (unfold Y' (Z.of_nat n)) as [B'|]; cbn [rrel bind] in *; [|contradiction].
      apply (rrel_bind (tsc c)); [apply pynth_rel, HM|]. intros Xm Xm' HXm.
      apply (rrel_bind (tsc (s * K))). { eapply rrel_cast; [|apply sc_matmul; [exact HXm|exact HU]]. apply K_eq. }
      intros XB XB' HXB. pose proof (sc_matmul (s ^ N) (s ^ N) false true B B' B B' HU HU) as HQ. rewrite K_sq in HQ. destruct HB as [WB SB].
      rewrite (matmul_ok false true B B (nth n ranks 0%nat) (rest n (shp X)) (nth n ranks 0%nat) SB SB) in *. cbn [bind].
      match type of HQ with rrel _ (Ok ?q) _ => set (Bsq := q) in * end. destruct (tf_matmul false true B' B') as [Bsq'|]; cbn [rrel bind] in *; [|contradiction].
      assert (HL : sc K (tf_max (svals Bsq)) (tf_max (svals Bsq'))).
      { apply spectral_scale; [exact HS|apply is_mat_mgen| |apply K_pos|exact HQ]. cbn. pose proof (rank_pos X ranks Hr (q_A u) n WA Hn). repeat constructor; assumption. }
      set (L := tf_max (svals Bsq)) in *. set (L' := tf_max (svals Bsq')) in *. clearbody Bsq.
      apply (rrel_bind (tsc s)); [apply pynth_rel, VAm|]. intros Am Am' HAm.
      apply (rrel_bind (tsc (s * K))); [apply sc_matmul; assumption|]. intros AmB AmB' HAmB.
      apply (rrel_bind (tsc (s * K))). { apply (sc_bin (s * K) (s * K)); [intros; apply sc_sub; assumption|exact HAmB|exact HXB]. }
      intros Gr Gr' HGr. rewrite (pynth_nat (q_L u) n 0), (pynth_nat (q_L v) n 0) by (unfold N in Hn; lia). cbn [bind].
      apply (rrel_bind (tsc s)).
      { apply (sc_bin s s); [intros; apply sc_sub; assumption|exact HAm|]. apply (sc_map (s * K)); [|exact HGr]. intros x y Hxy. apply div_K; assumption. }
      intros up up' Hup. cbn [rrel q_A q_Am q_A0 q_g q_gm q_g0 q_t q_t0 q_L q_L0].
      destruct (upd_bounds D u v n L L' HW HV ltac:(lia) HL ML ML0) as [U1 U2].
      split; [|split; [exact U1|exact U2]].
      unfold qvars. cbn. rewrite !upd_length. split; [|auto 12]. apply Forall2_upd; [exact VA|]. apply (sc_map s); [intros; apply sc_relu; [lra|assumption]|exact Hup]. }
    destruct (nt_mode svals mats n u) as [u'|] eqn:EU, (nt_mode svals mats' n v) as [v'|]; cbn in GR |- *; try exact GR.
    split; [apply GW; reflexivity|exact GR].
  Qed.
  Lemma qmid_impl (D D' : nat -> Prop) u v : (forall j, D' j -> D j) -> qmid D u v -> qmid D' u v.
  Proof. intros H (H1 & H2 & H3 & H4). split; [exact H1|]. split; [exact H2|]. split; [auto|]. destruct H4 as [E|[E1 E2]]; [left; exact E|right]. auto. Qed.
  Lemma sc_nt_modes mats mats' n : unfold_all X = Ok mats -> Forall2 (tsc c) mats mats' -> forall k u v, (k + n)%nat = N -> qmid (fun j => j = N \/ j < k)%nat u v ->
    rrel (qmid (fun j => j <= N)%nat) (nt_modes svals mats (seq k n) u) (nt_modes svals mats' (seq k n) v).
  Proof.
    intros EM HM. induction n as [|n IH]; intros k u v Hk H; cbn [seq nt_modes].
    - revert H. apply qmid_impl. intros j Hj. lia.
    - apply (rrel_bind (qmid (fun j => (j = N \/ j < k)%nat \/ j = k))); [apply sc_nt_mode; try assumption; lia|]. intros a b Hab. apply IH; [lia|]. revert Hab. apply qmid_impl. intros j Hj. lia.
  Qed.

  Lemma sc_nt_pre u v : qQ u v -> rrel (fun x y => qQ1 (fst x) (fst y) /\ snd y = omap (scale s) (snd x)) (nt_pre svals X u) (nt_pre svals (scale c X) v).
  Proof.
    intros H. unfold nt_pre. apply (rrel_bind qQ1); [apply sc_nt_core, H|]. intros a b Hab. cbn. split; [exact Hab|]. f_equal. apply tsc_eq. destruct Hab as (_ & Hab & _). apply Hab.
  Qed.
  Lemma sc_nt_run u v : qQ1 u v -> rrel (fun x y => qQ2 (fst x) (fst y) /\ obs_scaled s s c (snd x) (snd y)) (nt_factors svals X u) (nt_factors svals (scale c X) v).
  Proof.
    intros H. unfold nt_factors, nt_fact. change (ndims (scale c X)) with (ndims X).
    apply (rrel_bind (fun p q => qQ2 (fst (fst p)) (fst (fst q)) /\ tsc c (snd (fst p)) (snd (fst q)) /\ met_rel c (snd p) (snd q))).
    - apply (rrel_bind_ok (Forall2 (tsc c))); [apply sc_unfold_all, tsc_scale|]. intros mats mats' EM _ HM.
      apply (rrel_bind (qmid (fun j => j <= N)%nat)).
      { apply sc_nt_modes; [exact EM|exact HM|reflexivity|]. revert H. apply qmid_impl. intros j Hj. lia. }
      intros u1 v1 (W1 & V1 & ML & ML0). pose proof W1 as (WA & WAm & WA0 & Wg & Wgm & Wg0 & WL & WL0). destruct V1 as (VA & VAm & VA0 & Vg & Vgm & Vg0 & Vt & Vt0 & VL & VL0).
      assert (Full : forall (l l' : list R), length l = S N -> length l' = S N -> (forall j, (j <= N)%nat -> sc K (nth j l 0) (nth j l' 0)) -> nscaled K l l').
      { intros l l' E1 E2 HH j. destruct (Nat.le_gt_cases j N) as [Hj|Hj]; [apply HH, Hj|]. rewrite !nth_overflow by lia. apply sc0. }
      cbn [q_A q_g]. apply (rrel_bind (tsc c)).
      { eapply rrel_cast; [|apply (sc_tt s s); [exact Vg|exact VA]]. rewrite (proj1 WA), <- Hsc, pow_add. cbn [pow]. ring. }
      intros F F' HF. apply (rrel_bind (met_rel c)); [apply sc_metrics; [exact Hc|apply tsc_scale|exact HF]|]. intros m m' Hm. cbn [rrel fst snd]. split; [|split; [exact HF|exact Hm]].
      split; [|split; [|split]].
      + unfold nt_wf. cbn. auto 12.
      + unfold qvars. cbn. rewrite Vt0. auto 12.
      + apply Full; [exact WL|cbn; rewrite VL; exact WL|exact ML].
      + cbn. destruct ML0 as [E|[ML1 ML2]]; [left; exact E|right]. apply Full; [exact WL0|rewrite VL0; exact WL0|exact ML2].
    - intros [[u2 F] m] [[v2 F'] m'] (H1 & H2 & H3). cbn in *. split; [exact H1|]. split; cbn; [apply tscs_eq; destruct H1 as (_ & H1 & _); apply H1|]. split; [reflexivity|]. split; [apply tsc_eq, H2|exact H3].
  Qed.
  Lemma sc_nt_accept u v : qQ2 u v -> rrel qQ (nt_accept u) (nt_accept v).
  Proof.
    intros (HW & (VA & VAm & VA0 & Vg & Vgm & Vg0 & Vt & Vt0 & VL & VL0) & HL & HL0). destruct (nt_accept_wf X ranks u HW) as (u' & EU & WU). pose proof HW as (WA & _ & _ & _ & _ & _ & WL & WL0).
    assert (G : rrel (fun a b => qvars a b /\ nscaled K (q_L a) (q_L b)) (nt_accept u) (nt_accept v)).
    { unfold nt_accept. rewrite Vt, Vt0. rewrite (sc_weights K (q_t0 u) (q_t u) (q_L0 u) (q_L u) (q_L0 v) (q_L v) K_pos) by (try assumption; congruence). rewrite (Forall2_len' _ _ _ VA).
      apply (rrel_bind (Forall2 (tsc s))); [apply sc_map3; assumption|]. intros Am Am' HAm. apply (rrel_bind (tsc s)); [apply sc_extrapolate; assumption|]. intros gm gm' Hgm. cbn. split; [|exact HL]. unfold qvars. cbn. auto 12. }
    rewrite EU in *. destruct (nt_accept v) as [v'|]; cbn in G |- *; [|exact G]. split; [exact WU|]. split; [apply G|right; apply G].
  Qed.
  Lemma sc_nt_reject u v : qQ2 u v -> qQ (nt_reject u) (nt_reject v).
  Proof.
    intros (HW & (VA & VAm & VA0 & Vg & Vgm & Vg0 & Vt & Vt0 & VL & VL0) & HL & HL0). split; [apply nt_reject_wf, HW|]. split; [|right; exact HL]. unfold qvars, nt_reject. cbn. auto 12.
  Qed.
End Nt.

Lemma sc_nt_init pow X ranks rnd rndg c : roots pow -> 0 < c -> (2 <= ndims X)%nat -> tucker_factors X ranks rnd -> core_like ranks rndg ->
  qQ X ranks (pow c (1 / INR (ndims X + 1))) (nt_init pow X rnd rndg) (nt_init pow (scale c X) rnd rndg).
Proof.
  intros HR Hc HN Hf Hg. split; [apply nt_init_wf; assumption|]. split; [|left; reflexivity].
  assert (E : Forall2 (tsc (pow c (1 / INR (ndims X + 1)))) (q_A (nt_init pow X rnd rndg)) (q_A (nt_init pow (scale c X) rnd rndg))).
  { cbn [nt_init q_A]. apply Forall2_map_same. intros a. change (ndims (scale c X)) with (ndims X). apply sc_norm_init; [exact HR|exact Hc|lia]. }
  assert (E' : tsc (pow c (1 / INR (ndims X + 1))) (q_g (nt_init pow X rnd rndg)) (q_g (nt_init pow (scale c X) rnd rndg))).
  { cbn [nt_init q_g]. change (ndims (scale c X)) with (ndims X). apply sc_norm_init; [exact HR|exact Hc|lia]. }
  unfold qvars. split; [exact E|]. split; [exact E|]. split; [exact E|]. split; [exact E'|]. split; [exact E'|]. split; [exact E'|]. cbn [nt_init q_t q_t0 q_L q_L0]. change (ndims (scale c X)) with (ndims X). auto.
Qed.

Section NtTrain.
  Variables (pow : R -> R -> R) (svals : tensor R -> list R) (X : tensor R) (ranks : list nat) (rnd : list (tensor R) * tensor R) (c : R).
  Hypothesis HR : roots pow.
  Hypothesis HS : spectral svals.
  Hypothesis HX : wf X.
  Hypothesis Hne : nonempty (shp X).
  Hypothesis Hord : (2 <= ndims X <= 13)%nat.
  Hypothesis Hr : nonempty ranks.
  Hypothesis Hf : tucker_factors X ranks (fst rnd).
  Hypothesis Hg : core_like ranks (snd rnd).
  Hypothesis Hc : 0 < c.
  Let s := pow c (1 / INR (ndims X + 1)).

  Lemma nt_bodies ar id w p steps :
    (let '(P1, r1) := nt_body pow svals X ar rnd (forallb (Nat.eqb id) (w_sums w)) steps p in
     let '(P2, r2) := nt_body pow svals (scale c X) ar rnd (forallb (Nat.eqb id) (w_sums w)) steps p in agree s s c P1 r1 P2 r2) /\
    (a_tol ar <= 0 ->
     let '(P1, r1) := nt_body pow svals X ar rnd (forallb (Nat.eqb id) (w_sums w)) steps p in
     let '(P2, r2) := nt_body pow svals (scale c X) ar rnd (forallb (Nat.eqb id) (w_sums w)) steps p in exactly s s c P1 r1 P2 r2).
  Proof.
    assert (Hs : 0 < s) by (apply root_pos; [exact HR|exact Hc|lia]). assert (Hsc : s ^ (ndims X + 1) = c) by (apply HR; [lra|lia]).
    assert (A1 : forall u v, qQ X ranks s u v -> rrel (fun x y => qQ1 X ranks s (fst x) (fst y) /\ snd y = omap (scale s) (snd x)) (nt_pre svals X u) (nt_pre svals (scale c X) v)) by (intros; apply sc_nt_pre; auto).
    assert (A2 : forall u v, qQ1 X ranks s u v -> rrel (fun x y => qQ2 X ranks s (fst x) (fst y) /\ obs_scaled s s c (snd x) (snd y)) (nt_factors svals X u) (nt_factors svals (scale c X) v)) by (intros; apply sc_nt_run; auto).
    assert (A3 : forall u v, qQ2 X ranks s u v -> rrel (qQ X ranks s) (nt_accept u) (nt_accept v)) by (intros; apply sc_nt_accept; auto).
    assert (A4 : forall u v, qQ2 X ranks s u v -> rrel (qQ X ranks s) (Ok (nt_reject u)) (Ok (nt_reject v))) by (intros; apply sc_nt_reject; auto).
    assert (A5 : qQ X ranks s (nt_init pow X (fst rnd) (snd rnd)) (nt_init pow (scale c X) (fst rnd) (snd rnd))) by (apply sc_nt_init; auto; lia).
    assert (A7 : forall Y u u' x, nt_pre svals Y u = Ok (u', x) -> x <> None).
    { intros Y u u' x E. unfold nt_pre in E. destruct (nt_core svals Y u); cbn in E; [|discriminate]. injection E as _ <-. discriminate. }
    split; [|intros Ht]; unfold nt_body.
    - exact (bcu_body_agree (nt_factors svals X) (nt_factors svals (scale c X)) (nt_pre svals X) (nt_pre svals (scale c X)) nt_accept nt_accept (fun s => Ok (nt_reject s)) (fun s => Ok (nt_reject s))
        (qQ X ranks s) (qQ1 X ranks s) (qQ2 X ranks s) _ ar steps s s c Hc A1 A2 A3 A4 _ _ None p (blank p) A5 eq_refl eq_refl (or_intror (A7 X)) (or_intror (A7 (scale c X))) eq_refl).
    - exact (bcu_body_exactly (nt_factors svals X) (nt_factors svals (scale c X)) (nt_pre svals X) (nt_pre svals (scale c X)) nt_accept nt_accept (fun s => Ok (nt_reject s)) (fun s => Ok (nt_reject s))
        (qQ X ranks s) (qQ1 X ranks s) (qQ2 X ranks s) _ ar steps s s c Hc A1 A2 A3 A4 _ _ None p (blank p) A5 eq_refl eq_refl (or_intror (A7 X)) (or_intror (A7 (scale c X))) eq_refl Ht).
  Qed.
  Lemma c96_nt_train w (o : fobj R (targs R)) steps o1 h1 o2 h2 :
    nt_train pow svals X w o rnd steps = (o1, Ok h1) -> nt_train pow svals (scale c X) w o rnd steps = (o2, Ok h2) ->
    same_run c h1 h2 /\ (length h1 = length h2 -> o_pub o2 = scale_pub s s c (o_pub o1)).
  Proof. apply train_agree. intros ar id p _. apply nt_bodies. Qed.
  Lemma c96_nt_exact w (o : fobj R (targs R)) ar id steps : o_built o = Some (ar, id) -> a_tol ar <= 0 ->
    snd (nt_train pow svals (scale c X) w o rnd steps) = rmap (map (scale_entry c)) (snd (nt_train pow svals X w o rnd steps)) /\
    forall o1 h1, nt_train pow svals X w o rnd steps = (o1, Ok h1) -> o_pub (fst (nt_train pow svals (scale c X) w o rnd steps)) = scale_pub s s c (o_pub o1).
  Proof. intros EB Ht. apply train_exactly. intros ar' id' p E. rewrite EB in E. injection E as <- <-. apply nt_bodies, Ht. Qed.
End NtTrain.
