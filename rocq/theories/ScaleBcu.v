(** NCP_BCU and NTUCKER_BCU on data in other units (C96). *)

From Coq Require Import ZArith List Bool Arith Lia Permutation Reals Lra Psatz.
From Verif Require Import Num Py Tensor TF TensorFacts TFFacts Sums Ops OpsLemmas Types Loss Fact Train Spec SpecR LayoutFacts SpecFacts MulFacts TtmFacts SkipFacts TtmLemmas Matricize
  KronFacts RSums MatR KronAlg NormFacts SpecTucker MultiR SvdFacts TuckerFacts TuckerRun TuckerLemmas SpecCp SpecBcu BcuFacts SpecTrain TrainLemmas CpFacts AlsFacts AlsLemmas
  SpecProx Prox NcpFacts NcpLemmas NtFacts NtLemmas SpecInit InitFacts SchedLists SpecScale ParamFacts ScaleFacts ScaleAls.
Import ListNotations.
Local Open Scope R_scope.

(** ** spectral norms *)
Lemma bigsum_scal n k (f : nat -> R) : bigsum n (fun i => k * f i) = k * bigsum n f.
Proof. induction n; cbn; [ring|]. rewrite IHn. ring. Qed.
Lemma mget_scale k M i j : mget (scale k M) i j = k * mget M i j.
Proof. exact (sc_get k M (scale k M) [i; j] (tsc_scale k M)). Qed.
Lemma stretch_scale k M s : stretches_at_most M s -> stretches_at_most (scale k M) (k * s).
Proof.
  intros H x. change (nrows (scale k M)) with (nrows M). change (ncols (scale k M)) with (ncols M).
  rewrite (bigsum_ext (nrows M) _ (fun i => k² * (bigsum (ncols M) (fun j => mget M i j * x j))²)).
  - rewrite bigsum_scal, Rsqr_mult, Rmult_assoc. apply Rmult_le_compat_l; [apply Rle_0_sqr|apply H].
  - intros i _. rewrite <- Rsqr_mult, <- bigsum_scal. f_equal. apply bigsum_ext. intros j _. rewrite mget_scale. ring.
Qed.
Lemma spectral_scale svals k M M' : spectral svals -> matrix M -> nonempty (shp M) -> 0 < k -> tsc k M M' -> sc k (tf_max (svals M)) (tf_max (svals M')).
Proof.
  intros HS HM Hne Hk H. rewrite (tsc_eq _ _ _ H).
  assert (HM' : matrix (scale k M)).
  { destruct HM as [W S]. split; [|exact S]. unfold wf, scale in *. cbn. rewrite map_length. exact W. }
  destruct (HS M HM Hne) as (A1 & A2 & A3). destruct (HS (scale k M) HM' Hne) as (B1 & B2 & B3). unfold sc. apply Rle_antisym.
  - apply B3; [apply Rmult_le_pos; lra|]. apply stretch_scale, A2.
  - pose proof (stretch_scale (/ k) _ _ B2) as K. rewrite scale_inv in K by lra. apply A3 in K; [|apply Rmult_le_pos; [left; apply Rinv_0_lt_compat, Hk|exact B1]].
    apply (Rmult_le_compat_l k) in K; [|lra]. rewrite <- Rmult_assoc, Rinv_r, Rmult_1_l in K by lra. exact K.
Qed.

(** ** roots *)
Lemma pow_inj_pos x y k : 0 <= x -> 0 <= y -> (0 < k)%nat -> x ^ k = y ^ k -> x = y.
Proof.
  intros Hx Hy Hk E. assert (G : forall u v, 0 <= u -> u < v -> u ^ k < v ^ k).
  { clear x y Hx Hy E. intros u v Hu Huv. destruct k as [|k]; [lia|]. clear Hk. induction k as [|k IH]; [cbn; lra|]. cbn [pow] in *.
    apply Rmult_le_0_lt_compat; [exact Hu| |exact Huv|exact IH]. apply Rmult_le_pos; [exact Hu|apply pow_le, Hu]. }
  destruct (Rtotal_order x y) as [L|[L|L]]; [|exact L|]; apply G in L; lra.
Qed.
Lemma root_scale pow c x k : roots pow -> 0 < c -> 0 <= x -> (0 < k)%nat -> pow (c * x) (1 / INR k) = pow c (1 / INR k) * pow x (1 / INR k).
Proof.
  intros HR Hc Hx Hk. destruct (HR c k ltac:(lra) Hk) as [A1 A2], (HR x k Hx Hk) as [B1 B2], (HR (c * x) k ltac:(apply Rmult_le_pos; lra) Hk) as [C1 C2].
  apply (pow_inj_pos _ _ k); [exact C1|apply Rmult_le_pos; assumption|exact Hk|]. rewrite C2, Rpow_mult_distr, A2, B2. reflexivity.
Qed.
Lemma root_pos pow c k : roots pow -> 0 < c -> (0 < k)%nat -> 0 < pow c (1 / INR k).
Proof.
  intros HR Hc Hk. destruct (HR c k ltac:(lra) Hk) as [[A1|A1] A2]; [exact A1|]. rewrite <- A1 in A2. rewrite pow_i in A2 by exact Hk. lra.
Qed.
Lemma sc_norm_init pow c X k a : roots pow -> 0 < c -> (0 < k)%nat -> tsc (pow c (1 / INR k)) (norm_init pow X k a) (norm_init pow (scale c X) k a).
Proof.
  intros HR Hc Hk. unfold norm_init. apply (sc_map 1); [|apply tsc_refl]. intros x y H. unfold sc in H. rewrite Rmult_1_l in H. subst y.
  rewrite exponent. pose proof (sc_norm c X (scale c X) ltac:(lra) (tsc_scale c X)) as N0. unfold sc in *. rewrite N0. cbn -[tf_norm INR].
  rewrite (root_scale pow c (tf_norm X) k HR Hc) by (try exact Hk; unfold tf_norm; apply sqrt_pos). ring.
Qed.


(** ** extrapolation *)
Lemma nmin_zero x : 0 <= x -> nmin 0 x = 0.
Proof. intros H. unfold nmin. cbn. destruct (Rlt_dec x 0); [lra|reflexivity]. Qed.
Definition nscaled (K : R) (L L' : list R) : Prop := forall j, sc K (nth j L 0) (nth j L' 0).
Lemma sc_weights K t0 t L0 L L0' L' : 0 < K -> length L = length L' -> length L0 = length L -> length L0' = length L' ->
  nscaled K L L' -> t0 = 1 \/ nscaled K L0 L0' -> weights t0 t L0' L' = weights t0 t L0 L.
Proof.
  intros HK H1 H2 H3 HL H0. unfold weights. revert L' L0 L0' H1 H2 H3 HL H0. induction L as [|x L IH]; intros [|x' L'] [|y L0] [|y' L0'] H1 H2 H3 HL H0; try discriminate; [reflexivity|].
  cbn [combine map]. f_equal.
  - cbn [fst snd]. destruct H0 as [->|H0].
    + replace (ndiv (nsub (1 : R) n1) t) with 0 by (cbn; unfold Rdiv; ring). rewrite !nmin_zero; [reflexivity| |]; apply sqrt_pos.
    + pose proof (HL 0%nat) as E1. pose proof (H0 0%nat) as E2. cbn in E1, E2. unfold sc in E1, E2. subst x' y'. f_equal. f_equal. cbn. unfold Rdiv. rewrite Rinv_mult.
      replace (K * y * (/ K * / x)) with (K * / K * (y * / x)) by ring. rewrite Rinv_r by lra. ring.
  - apply IH; try (cbn in *; lia); [intros j; exact (HL (S j))|]. destruct H0 as [H0|H0]; [left; exact H0|right; intros j; exact (H0 (S j))].
Qed.
Lemma sc_extrapolate s w a a' a0 a0' : tsc s a a' -> tsc s a0 a0' -> rrel (tsc s) (extrapolate w a a0) (extrapolate w a' a0').
Proof.
  intros H H0. unfold extrapolate. apply (rrel_bind (tsc s)). { apply (sc_bin s s); [intros; apply sc_sub; assumption|exact H|exact H0]. }
  intros d d' Hd. apply (sc_bin s s); [intros; apply sc_add; assumption|exact H|]. apply (sc_map s); [|exact Hd]. intros x y K. unfold sc in *. rewrite K. cbn. ring.
Qed.
Lemma sc_map3 s ws : forall a a' b b', Forall2 (tsc s) a a' -> Forall2 (tsc s) b b' -> rrel (Forall2 (tsc s)) (map3M extrapolate ws a b) (map3M extrapolate ws a' b').
Proof.
  unfold map3M. induction ws as [|w ws IH]; intros a a' b b' HA HB; [constructor|]. destruct HA as [|x x' a a' Hx HA]; [constructor|]. destruct HB as [|y y' b b' Hy HB]; [constructor|].
  cbn [combine mapM fst snd]. apply (rrel_bind (tsc s)); [apply sc_extrapolate; assumption|]. intros u u' Hu. apply (rrel_bind (Forall2 (tsc s))); [apply IH; assumption|].
  intros l l' Hl. constructor; assumption.
Qed.

Lemma nth_upd (l : list R) n v j : (n < length l)%nat -> nth j (upd l n v) 0 = if Nat.eqb j n then v else nth j l 0.
Proof. intros H. rewrite upd_replace. apply nth_replace. exact H. Qed.
Lemma upd_length (l : list R) n v : length (upd l n v) = length l.
Proof. rewrite upd_replace. apply replace_length. Qed.

(** ** NCP_BCU *)
Section Ncp.
  Variables (svals : tensor R -> list R) (X : tensor R) (r : nat) (c s : R).
  Hypothesis HS : spectral svals.
  Hypothesis HX : wf X.
  Hypothesis Hne : nonempty (shp X).
  Hypothesis Hord : (2 <= ndims X <= 25)%nat.
  Hypothesis Hr : (0 < r)%nat.
  Hypothesis Hc : 0 < c.
  Hypothesis Hs : 0 < s.
  Hypothesis Hsc : s ^ ndims X = c.
  Let N := ndims X.
  Let K := (s * s) ^ (N - 1).

  Lemma K_pos : 0 < K.
  Proof. apply pow_lt. apply Rmult_lt_0_compat; exact Hs. Qed.
  Lemma K_eq : c * s ^ (N - 1) = s * K.
  Proof.
    unfold K. rewrite <- Hsc, Rpow_mult_distr. fold N. replace N with (S (N - 1)) at 1 by (unfold N; lia). cbn [pow]. ring.
  Qed.

  Definition vars (u v : ncp_state R) : Prop :=
    Forall2 (tsc s) (n_A u) (n_A v) /\ Forall2 (tsc s) (n_Am u) (n_Am v) /\ Forall2 (tsc s) (n_A0 u) (n_A0 v) /\
    n_t v = n_t u /\ n_t0 v = n_t0 u /\ length (n_L v) = length (n_L u) /\ length (n_L0 v) = length (n_L0 u).
  Definition nQ (u v : ncp_state R) : Prop := ncp_wf X r u /\ vars u v /\ (n_t0 u = 1 \/ nscaled K (n_L u) (n_L v)).
  Definition nQ2 (u v : ncp_state R) : Prop := ncp_wf X r u /\ vars u v /\ nscaled K (n_L u) (n_L v) /\ (n_t0 u = 1 \/ nscaled K (n_L0 u) (n_L0 v)).
  (** after the modes below k *)
  Definition mid (k : nat) (u v : ncp_state R) : Prop :=
    ncp_wf X r u /\ vars u v /\ (forall j, (j < k)%nat -> sc K (nth j (n_L u) 0) (nth j (n_L v) 0)) /\
    (n_t0 u = 1 \/ nscaled K (n_L u) (n_L v) /\ forall j, (j < k)%nat -> sc K (nth j (n_L0 u) 0) (nth j (n_L0 v) 0)).

  Lemma sc_ncp_mode mats mats' n u v : unfold_all X = Ok mats -> Forall2 (tsc c) mats mats' -> (n < N)%nat -> mid n u v ->
    rrel (mid (S n)) (ncp_mode svals mats n u) (ncp_mode svals mats' n v).
  Proof.
    intros EM HM Hn (HW & (VA & VAm & VA0 & Vt & Vt0 & VL & VL0) & ML & ML0).
    pose proof HW as (WA & WAm & WA0 & WL & WL0). pose proof (proj1 WA) as LA.
    assert (GW : forall u', ncp_mode svals mats n u = Ok u' -> ncp_wf X r u').
    { intros u' E. rewrite (ncp_mode_run svals X r mats Hne ltac:(lia) EM u n WA WAm Hn ltac:(rewrite WL; exact Hn)) in E. injection E as <-.
      split; [apply replace_factors; [exact WA|apply ncp_new_mat]|]. split; [exact WAm|]. split; [exact WA0|]. cbn [n_L n_L0]. rewrite !replace_length. auto. }
    destruct (grams_ok X r (n_A u) n WA ltac:(lia) Hn) as (G0 & EG0 & EV0).
    assert (GR : rrel (fun a b => vars a b /\ (forall j, (j < S n)%nat -> sc K (nth j (n_L a) 0) (nth j (n_L b) 0)) /\
      (n_t0 a = 1 \/ nscaled K (n_L a) (n_L b) /\ forall j, (j < S n)%nat -> sc K (nth j (n_L0 a) 0) (nth j (n_L0 b) 0))) (ncp_mode svals mats n u) (ncp_mode svals mats' n v)).
    { unfold ncp_mode. apply (rrel_bind_ok (Forall2 (tsc (s * s)))); [apply sc_grams, VA|]. intros G G' EG _ HG. assert (G = G0) by congruence. subst G0.
      pose proof (sc_khatri s (n_A u) (n_A v) (SkInt (Z.of_nat n)) true VA) as HK. rewrite SchedLists.skip_length in HK by (rewrite LA; exact Hn). rewrite LA in HK.
      apply (rrel_bind (tsc (s ^ (N - 1)))); [exact HK|]. intros kr kr' Hkr.
      apply (rrel_bind (tsc c)); [apply pynth_rel, HM|]. intros Xm Xm' HXm.
      apply (rrel_bind (tsc (s * K))). { apply (rrel_cast (c * s ^ (N - 1))); [apply K_eq|]. apply sc_matmul; assumption. }
      intros XA XA' HXA. pose proof (sc_hadamard (s * s) G G' (SkInt (Z.of_nat n)) HG) as HH.
      assert (LG : length G = N). { unfold grams in EG. apply mapM_length in EG. rewrite EG. exact LA. }
      rewrite SchedLists.skip_length in HH by (rewrite LG; exact Hn). rewrite LG in HH. fold K in HH.
      apply (rrel_bind_ok (tsc K)); [exact HH|]. intros V V' EV _ HV. assert (V = gram_but r (n_A u) n) by congruence. subst V.
      assert (HSV : sc K (tf_max (svals (gram_but r (n_A u) n))) (tf_max (svals V'))).
      { apply spectral_scale; [exact HS|apply is_mat_mgen| |apply K_pos|exact HV]. unfold gram_but. cbn. repeat constructor; lia. }
      clear EV0. set (L := tf_max (svals (gram_but r (n_A u) n))) in *. set (L' := tf_max (svals V')) in *.
      rewrite (pynth_nat (n_L u) n 0), (pynth_nat (n_L v) n 0) by (rewrite ?VL, WL; exact Hn). cbn [bind].
      apply (rrel_bind (tsc s)); [apply pynth_rel, VAm|]. intros Am Am' HAm.
      apply (rrel_bind (tsc (s * K))); [apply sc_matmul; assumption|]. intros AmV AmV' HAmV.
      apply (rrel_bind (tsc (s * K))). { apply (sc_bin (s * K) (s * K)); [intros; apply sc_sub; assumption|exact HAmV|exact HXA]. }
      intros Gn Gn' HGn. apply (rrel_bind (tsc s)).
      { apply (sc_bin s s); [intros; apply sc_sub; assumption|exact HAm|]. apply (sc_map (s * K)); [|exact HGn]. intros x y Hxy. unfold sc in *. rewrite Hxy, HSV. cbn. unfold Rdiv. rewrite Rinv_mult.
        pose proof K_pos. replace (s * K * x * (/ K * / L)) with (K * / K * (s * (x * / L))) by ring. rewrite Rinv_r by lra. ring. }
      intros up up' Hup. cbn [rrel n_A n_Am n_A0 n_t n_t0 n_L n_L0].
      split; [|split].
      - split; [apply Forall2_upd; [exact VA|]; apply (sc_map s); [intros; apply sc_relu; [lra|assumption]|exact Hup]|]. cbn [n_A n_Am n_A0 n_t n_t0 n_L n_L0].
        repeat (split; [assumption|]). rewrite !upd_length. auto.
      - intros j Hj. rewrite !nth_upd by (rewrite ?VL, WL; exact Hn). destruct (Nat.eqb_spec j n); [exact HSV|]. apply ML. lia.
      - destruct ML0 as [E|[ML1 ML2]]; [left; exact E|right]. split.
        + intros j. rewrite !nth_upd by (rewrite ?VL, WL; exact Hn). destruct (Nat.eqb_spec j n); [exact HSV|]. apply ML1.
        + intros j Hj. rewrite !nth_upd by (rewrite ?VL0, WL0; exact Hn). destruct (Nat.eqb_spec j n); [apply ML1|]. apply ML2. lia. }
    destruct (ncp_mode svals mats n u) as [u'|] eqn:EU, (ncp_mode svals mats' n v) as [v'|]; cbn in GR |- *; try exact GR.
    split; [apply GW; reflexivity|exact GR].
  Qed.
  Lemma sc_ncp_modes mats mats' n : unfold_all X = Ok mats -> Forall2 (tsc c) mats mats' -> forall k u v, (k + n)%nat = N -> mid k u v ->
    rrel (mid N) (ncp_modes svals mats (seq k n) u) (ncp_modes svals mats' (seq k n) v).
  Proof.
    intros EM HM. induction n as [|n IH]; intros k u v Hk H; cbn [seq ncp_modes].
    - replace N with k by lia. exact H.
    - apply (rrel_bind (mid (S k))); [apply sc_ncp_mode; try assumption; lia|]. intros a b Hab. apply IH; [lia|exact Hab].
  Qed.

  Lemma sc_ncp_run u v : nQ u v -> rrel (fun x y => nQ2 (fst x) (fst y) /\ obs_scaled s 1 c (snd x) (snd y)) (ncp_run svals X u) (ncp_run svals (scale c X) v).
  Proof.
    intros (HW & HV & HL). unfold ncp_run, ncp_step. change (ndims (scale c X)) with (ndims X).
    apply (rrel_bind (fun p q => nQ2 (fst (fst p)) (fst (fst q)) /\ tsc c (snd (fst p)) (snd (fst q)) /\ met_rel c (snd p) (snd q))).
    - apply (rrel_bind_ok (Forall2 (tsc c))); [apply sc_unfold_all, tsc_scale|]. intros mats mats' EM _ HM.
      apply (rrel_bind (mid N)).
      { apply sc_ncp_modes; [exact EM|exact HM|reflexivity|]. split; [exact HW|]. split; [exact HV|]. split; [intros j Hj; lia|]. destruct HL as [HL|HL]; [left; exact HL|right]. split; [exact HL|intros j Hj; lia]. }
      intros u1 v1 (W1 & V1 & ML & ML0). pose proof W1 as (WA & _ & _ & WL & WL0). destruct V1 as (VA & VAm & VA0 & Vt & Vt0 & VL & VL0).
      assert (Full : forall (l l' : list R), length l = N -> length l' = N -> (forall j, (j < N)%nat -> sc K (nth j l 0) (nth j l' 0)) -> nscaled K l l').
      { intros l l' E1 E2 H j. destruct (Nat.lt_ge_cases j N) as [Hj|Hj]; [apply H, Hj|]. rewrite !nth_overflow by lia. apply sc0. }
      cbn [n_A]. unfold ncp_ones. apply (rrel_bind (tsc 1)).
      { apply (rrel_bind (tsc s)); [apply pynth_rel, VA|]. intros a0 a0' Ha. rewrite (sc_dim s _ _ _ Ha). apply rrel_bind_same. intros d. apply tsc_refl. }
      intros lam lam' Hlam. apply (rrel_bind (tsc c)).
      { eapply rrel_cast; [|apply (sc_kt 1 s); [exact VA|exact Hlam]]. rewrite (proj1 WA), Hsc. ring. }
      intros F F' HF. apply (rrel_bind (met_rel c)); [apply sc_metrics; [exact Hc|apply tsc_scale|exact HF]|]. intros m m' Hm. cbn [rrel fst snd]. split; [|split; [exact HF|exact Hm]].
      split; [|split; [|split]].
      + split; [exact WA|]. split; [apply W1|]. split; [apply W1|]. auto.
      + unfold vars. cbn. rewrite Vt0. auto 10.
      + apply Full; [exact WL|cbn; rewrite VL; exact WL|exact ML].
      + cbn. destruct ML0 as [E|[ML1 ML2]]; [left; exact E|right]. apply Full; [exact WL0|rewrite VL0; exact WL0|exact ML2].
    - intros [[u2 F] m] [[v2 F'] m'] (H1 & H2 & H3). cbn in *. split; [exact H1|]. split; cbn; [apply tscs_eq; destruct H1 as (_ & H1 & _); apply H1|]. split; [reflexivity|]. split; [apply tsc_eq, H2|exact H3].
  Qed.
  Lemma sc_ncp_accept u v : nQ2 u v -> rrel nQ (ncp_accept u) (ncp_accept v).
  Proof.
    intros (HW & (VA & VAm & VA0 & Vt & Vt0 & VL & VL0) & HL & HL0). destruct (ncp_accept_wf X r u HW) as (u' & EU & WU). pose proof HW as (WA & _ & _ & WL & WL0).
    assert (G : rrel (fun a b => vars a b /\ nscaled K (n_L a) (n_L b)) (ncp_accept u) (ncp_accept v)).
    { unfold ncp_accept. rewrite Vt, Vt0. rewrite (sc_weights K (n_t0 u) (n_t u) (n_L0 u) (n_L u) (n_L0 v) (n_L v) K_pos) by (try assumption; congruence).
      apply (rrel_bind (Forall2 (tsc s))); [apply sc_map3; assumption|]. intros Am Am' HAm. cbn. split; [|exact HL]. unfold vars. cbn. auto 10. }
    rewrite EU in *. destruct (ncp_accept v) as [v'|]; cbn in G |- *; [|exact G]. split; [exact WU|]. split; [apply G|right; apply G].
  Qed.
  Lemma sc_ncp_reject u v : nQ2 u v -> nQ (ncp_reject u) (ncp_reject v).
  Proof.
    intros (HW & (VA & VAm & VA0 & Vt & Vt0 & VL & VL0) & HL & HL0). split; [apply ncp_reject_wf, HW|]. split; [|right; exact HL]. unfold vars, ncp_reject. cbn. auto 10.
  Qed.
End Ncp.

Lemma sc_ncp_init pow X r rnd c : roots pow -> 0 < c -> (2 <= ndims X)%nat -> cp_factors X r rnd ->
  nQ X r (pow c (1 / INR (ndims X))) (ncp_init pow X rnd) (ncp_init pow (scale c X) rnd).
Proof.
  intros HR Hc HN Hf. split; [apply ncp_init_wf, Hf|]. change (ndims (scale c X)) with (ndims X). split; [|left; reflexivity].
  assert (E : Forall2 (tsc (pow c (1 / INR (ndims X)))) (n_A (ncp_init pow X rnd)) (n_A (ncp_init pow (scale c X) rnd))).
  { cbn [ncp_init n_A]. apply Forall2_map_same. intros a. change (ndims (scale c X)) with (ndims X). apply sc_norm_init; [exact HR|exact Hc|lia]. }
  split; [exact E|]. split; [exact E|]. split; [exact E|]. cbn [ncp_init n_t n_t0 n_L n_L0]. change (ndims (scale c X)) with (ndims X). auto.
Qed.

(** ** the loop *)
Section Bcu.
  Context {S : Type}.
  Variables (run run' : S -> res (S * sobs R)) (pre pre' : S -> res (S * option (tensor R))) (acc acc' rej rej' : S -> res S) (Q Q1 Q2 : S -> S -> Prop)
    (sum_ok : bool) (args : targs R) (steps : Z) (a b c : R).
  Hypothesis Hc : 0 < c.
  Hypothesis Hpre : forall s s', Q s s' -> rrel (fun x y => Q1 (fst x) (fst y) /\ snd y = omap (scale b) (snd x)) (pre s) (pre' s').
  Hypothesis Hrun : forall s s', Q1 s s' -> rrel (fun x y => Q2 (fst x) (fst y) /\ obs_scaled a b c (snd x) (snd y)) (run s) (run' s').
  Hypothesis Hacc : forall s s', Q2 s s' -> rrel Q (acc s) (acc' s').
  Hypothesis Hrej : forall s s', Q2 s s' -> rrel Q (rej s) (rej' s').

  Lemma bcu_extends fuel : forall step s o0 n h p P r, bcu_loop run sum_ok args steps pre acc rej fuel step s o0 n h p = (P, Ok r) -> exists t, r = h ++ t /\ (fuel = 0 \/ t <> [])%nat.
  Proof.
    induction fuel as [|fuel IH]; intros step s o0 n h p P r H; cbn [bcu_loop] in H.
    - injection H as _ <-. exists []. rewrite app_nil_r. auto.
    - destruct (pre s) as [[s1 core]|]; [|discriminate]. destruct (validate args steps step) as [v|]; [|discriminate]. destruct (run_v run sum_ok v s1) as [[s' o]|]; [|discriminate].
      destruct (stop_now _ _ _).
      + injection H as _ <-. eexists. split; [reflexivity|]. right. discriminate.
      + destruct (nltb _ _); [destruct (acc s')|destruct (rej s')]; try discriminate.
        all: apply IH in H as (t & -> & _); rewrite <- app_assoc; eexists; (split; [reflexivity|]); right; discriminate.
  Qed.
End Bcu.

Section BcuLoop.
  Context {S : Type}.
  Variables (run run' : S -> res (S * sobs R)) (pre pre' : S -> res (S * option (tensor R))) (acc acc' rej rej' : S -> res S) (Q Q1 Q2 : S -> S -> Prop)
    (sum_ok : bool) (args : targs R) (steps : Z) (a b c : R).
  Hypothesis Hc : 0 < c.
  Hypothesis Hpre : forall s s', Q s s' -> rrel (fun x y => Q1 (fst x) (fst y) /\ snd y = omap (scale b) (snd x)) (pre s) (pre' s').
  Hypothesis Hrun : forall s s', Q1 s s' -> rrel (fun x y => Q2 (fst x) (fst y) /\ obs_scaled a b c (snd x) (snd y)) (run s) (run' s').
  Hypothesis Hacc : forall s s', Q2 s s' -> rrel Q (acc s) (acc' s').
  Hypothesis Hrej : forall s s', Q2 s s' -> rrel Q (rej s) (rej' s').

  Lemma set_aux_scaled x p : set_aux (omap (scale b) x) (scale_pub a b c p) = scale_pub a b c (set_aux x p).
  Proof. unfold set_aux, scale_pub. cbn. destruct x; reflexivity. Qed.
  Lemma cmp_scaled step o o' o0 o0' : obs_scaled a b c o o' -> (step = 1%Z \/ o0' = c ^ 2 * o0) ->
    nltb (m_obj (ob_met o')) (if (step =? 1)%Z then nadd (m_obj (ob_met o')) n1 else o0') = nltb (m_obj (ob_met o)) (if (step =? 1)%Z then nadd (m_obj (ob_met o)) n1 else o0).
  Proof.
    intros (_ & _ & _ & (E & _)) H. rewrite E. cbn [scale_metrics m_obj]. set (x := m_obj (ob_met o)). cbn. destruct (Z.eqb_spec step 1) as [->|Hn].
    - destruct (Rlt_dec (c * (c * 1) * x) (c * (c * 1) * x + 1)); [|lra]. destruct (Rlt_dec x (x + 1)); [reflexivity|lra].
    - destruct H as [H|H]; [congruence|]. subst o0'. cbn. assert (P : 0 < c * (c * 1)) by (rewrite Rmult_1_r; apply Rmult_lt_0_compat; exact Hc).
      destruct (Rlt_dec (c * (c * 1) * x) (c * (c * 1) * o0)) as [L|L], (Rlt_dec x o0) as [L'|L']; try reflexivity; exfalso.
      + apply L'. apply Rmult_lt_reg_l in L; assumption.
      + apply L. apply Rmult_lt_compat_l; assumption.
  Qed.

  Lemma bcu_agree fuel : forall step s s' o0 o0' n n' h p, Q s s' -> (1 <= step)%Z -> (step = 1%Z \/ o0' = c ^ 2 * o0) ->
    let '(P1, r1) := bcu_loop run sum_ok args steps pre acc rej fuel step s o0 n h p in
    let '(P2, r2) := bcu_loop run' sum_ok args steps pre' acc' rej' fuel step s' o0' n' (entries c h) (scale_pub a b c p) in agree a b c P1 r1 P2 r2.
  Proof.
    induction fuel as [|fuel IH]; intros step s s' o0 o0' n n' h p HQ H1 H0; cbn [bcu_loop].
    - split; [|reflexivity]. pose proof (same_run_ext c h [] [] (same_run_nil_l c [])) as E. rewrite !app_nil_r in E. exact E.
    - pose proof (Hpre s s' HQ) as HP. destruct (pre s) as [[s0 x]|e], (pre' s') as [[s0' x']|e']; cbn in HP; try contradiction; [|exact HP].
      destruct HP as [HQ0 ->]. rewrite set_aux_scaled. set (p0 := set_aux x p).
      destruct (validate args steps step) as [v|e]; [|reflexivity].
      assert (H : rrel (fun x y => Q2 (fst x) (fst y) /\ obs_scaled a b c (snd x) (snd y)) (run_v run sum_ok v s0) (run_v run' sum_ok v s0')).
      { unfold run_v. destruct (v && negb sum_ok); [reflexivity|apply Hrun, HQ0]. }
      destruct (run_v run sum_ok v s0) as [[s1 o]|e], (run_v run' sum_ok v s0') as [[s1' o']|e']; cbn in H; try contradiction; [|exact H].
      destruct H as [HQ1 Ho]. rewrite (publish_scaled a b c v o o' p0 Ho), (entry_scaled a b c o o' Ho), <- (entries_app c).
      set (h1 := h ++ [(m_loss (ob_met o), m_rel (ob_met o))]). set (p1 := publish v o p0).
      rewrite (cmp_scaled step o o' o0 o0' Ho H0).
      assert (HX : forall y y', y = m_obj (ob_met o) /\ y' = m_obj (ob_met o') \/ y = (if (step =? 1)%Z then nadd (m_obj (ob_met o)) n1 else o0) /\ y' = (if (step =? 1)%Z then nadd (m_obj (ob_met o')) n1 else o0') /\ step <> 1%Z -> (step + 1 = 1)%Z \/ y' = c ^ 2 * y).
      { intros y y' [[-> ->]|(-> & -> & Hne)]; right; [destruct Ho as (_ & _ & _ & (E & _)); rewrite E; reflexivity|]. destruct (Z.eqb_spec step 1); [congruence|]. destruct H0; [congruence|assumption]. }
      assert (HN : step = 1%Z -> nltb (m_obj (ob_met o)) (if (step =? 1)%Z then nadd (m_obj (ob_met o)) n1 else o0) = true).
      { intros ->. cbn. destruct (Rlt_dec (m_obj (ob_met o)) (m_obj (ob_met o) + 1)); [reflexivity|lra]. }
      set (x0 := if (step =? 1)%Z then nadd (m_obj (ob_met o)) n1 else o0) in *. set (x0' := if (step =? 1)%Z then nadd (m_obj (ob_met o')) n1 else o0') in *.
      assert (HS : same_run c h1 (entries c h1)) by (pose proof (same_run_ext c h1 [] [] (same_run_nil_l c [])) as E; rewrite !app_nil_r in E; exact E).
      assert (TL : forall n2 y s2 P2 r2, bcu_loop run' sum_ok args steps pre' acc' rej' fuel (step + 1) s2 y n2 (entries c h1) (scale_pub a b c p1) = (P2, r2) -> agree a b c p1 (Ok h1) P2 r2).
      { intros n2 y s2 P2 r2 E2. destruct r2 as [h2|]; [|exact I]. destruct (bcu_extends run' pre' acc' rej' sum_ok args steps fuel _ _ _ _ _ _ _ _ E2) as (t & -> & Ht).
        pose proof (same_run_ext c h1 [] t (same_run_nil_l c t)) as E. rewrite app_nil_r in E. split; [exact E|]. intros L. rewrite app_length in L. unfold entries in L. rewrite map_length in L.
        destruct t; [|cbn in L; lia]. destruct Ht as [->|]; [|congruence]. cbn in E2. injection E2 as <- _. reflexivity. }
      assert (TR : forall n2 y s2 P2 r2, bcu_loop run sum_ok args steps pre acc rej fuel (step + 1) s2 y n2 h1 p1 = (P2, r2) -> agree a b c P2 r2 (scale_pub a b c p1) (Ok (entries c h1))).
      { intros n2 y s2 P2 r2 E2. destruct r2 as [h2|]; [|exact I]. destruct (bcu_extends run pre acc rej sum_ok args steps fuel _ _ _ _ _ _ _ _ E2) as (t & -> & Ht).
        pose proof (same_run_ext c h1 t [] (same_run_nil_r c t)) as E. rewrite app_nil_r in E. split; [exact E|]. intros L. rewrite app_length in L. unfold entries in L. rewrite map_length in L.
        destruct t; [|cbn in L; lia]. destruct Ht as [->|]; [|congruence]. cbn in E2. injection E2 as <- _. reflexivity. }
      destruct (stop_now args (stall_next args (m_obj (ob_met o)) x0 n) _), (stop_now args (stall_next args (m_obj (ob_met o')) x0' n') _).
      + split; [exact HS|reflexivity].
      + destruct (nltb (m_obj (ob_met o)) x0); [destruct (acc' s1') as [s2|]|destruct (rej' s1') as [s2|]]; try exact I.
        all: destruct (bcu_loop run' _ _ _ _ _ _ _ _ s2 _ _ (entries c h1) _) as [P2 r2] eqn:E2; exact (TL _ _ _ _ _ E2).
      + destruct (nltb (m_obj (ob_met o)) x0); [destruct (acc s1) as [s2|]|destruct (rej s1) as [s2|]]; try exact I.
        all: destruct (bcu_loop run _ _ _ _ _ _ _ _ s2 _ _ h1 _) as [P2 r2] eqn:E2; exact (TR _ _ _ _ _ E2).
      + destruct (nltb (m_obj (ob_met o)) x0) eqn:EC.
        * pose proof (Hacc s1 s1' HQ1) as HA. destruct (acc s1) as [s2|], (acc' s1') as [s2'|]; cbn in HA; try contradiction; [|exact HA]. apply IH; [exact HA|lia|apply HX; left; auto].
        * pose proof (Hrej s1 s1' HQ1) as HA. destruct (rej s1) as [s2|], (rej' s1') as [s2'|]; cbn in HA; try contradiction; [|exact HA]. apply IH; [exact HA|lia|]. apply HX. right. repeat split. intros E. specialize (HN E). congruence.
  Qed.

  Lemma bcu_exactly fuel : a_tol args <= 0 -> forall step s s' o0 o0' n n' h p, Q s s' -> (1 <= step)%Z -> (step = 1%Z \/ o0' = c ^ 2 * o0) -> 0 <= o0 ->
    let '(P1, r1) := bcu_loop run sum_ok args steps pre acc rej fuel step s o0 n h p in
    let '(P2, r2) := bcu_loop run' sum_ok args steps pre' acc' rej' fuel step s' o0' n' (entries c h) (scale_pub a b c p) in exactly a b c P1 r1 P2 r2.
  Proof.
    intros Ht. induction fuel as [|fuel IH]; intros step s s' o0 o0' n n' h p HQ H1 H0 Hp; cbn [bcu_loop]; [split; reflexivity|].
    pose proof (Hpre s s' HQ) as HP. destruct (pre s) as [[s0 x]|e], (pre' s') as [[s0' x']|e']; cbn in HP; try contradiction; [|exact HP].
    destruct HP as [HQ0 ->]. rewrite set_aux_scaled. set (p0 := set_aux x p).
    destruct (validate args steps step) as [v|e]; [|reflexivity].
    assert (H : rrel (fun x y => Q2 (fst x) (fst y) /\ obs_scaled a b c (snd x) (snd y)) (run_v run sum_ok v s0) (run_v run' sum_ok v s0')).
    { unfold run_v. destruct (v && negb sum_ok); [reflexivity|apply Hrun, HQ0]. }
    destruct (run_v run sum_ok v s0) as [[s1 o]|e], (run_v run' sum_ok v s0') as [[s1' o']|e']; cbn in H; try contradiction; [|exact H].
    destruct H as [HQ1 Ho]. rewrite (publish_scaled a b c v o o' p0 Ho), (entry_scaled a b c o o' Ho), <- (entries_app c).
    set (h1 := h ++ [(m_loss (ob_met o), m_rel (ob_met o))]). set (p1 := publish v o p0).
    rewrite (cmp_scaled step o o' o0 o0' Ho H0).
    destruct (met_pos a b c o o' Ho) as (G1 & G2 & G3 & G4).
    assert (HX : forall y y', y = m_obj (ob_met o) /\ y' = m_obj (ob_met o') \/ y = (if (step =? 1)%Z then nadd (m_obj (ob_met o)) n1 else o0) /\ y' = (if (step =? 1)%Z then nadd (m_obj (ob_met o')) n1 else o0') /\ step <> 1%Z -> (step + 1 = 1)%Z \/ y' = c ^ 2 * y).
    { intros y y' [[-> ->]|(-> & -> & Hne)]; right; [destruct Ho as (_ & _ & _ & (E & _)); rewrite E; reflexivity|]. destruct (Z.eqb_spec step 1); [congruence|]. destruct H0; [congruence|assumption]. }
    assert (HN : step = 1%Z -> nltb (m_obj (ob_met o)) (if (step =? 1)%Z then nadd (m_obj (ob_met o)) n1 else o0) = true).
    { intros ->. cbn. destruct (Rlt_dec (m_obj (ob_met o)) (m_obj (ob_met o) + 1)); [reflexivity|lra]. }
    assert (P0 : 0 <= (if (step =? 1)%Z then nadd (m_obj (ob_met o)) n1 else o0)) by (destruct (step =? 1)%Z; [cbn; lra|assumption]).
    assert (P0' : 0 <= (if (step =? 1)%Z then nadd (m_obj (ob_met o')) n1 else o0')).
    { destruct (Z.eqb_spec step 1); [cbn; lra|]. destruct H0 as [H0| ->]; [congruence|]. apply Rmult_le_pos; [apply pow2_ge_0|assumption]. }
    set (x0 := if (step =? 1)%Z then nadd (m_obj (ob_met o)) n1 else o0) in *. set (x0' := if (step =? 1)%Z then nadd (m_obj (ob_met o')) n1 else o0') in *.
    rewrite !stop_off by assumption.
    destruct (nltb (m_obj (ob_met o)) x0) eqn:EC.
    - pose proof (Hacc s1 s1' HQ1) as HA. destruct (acc s1) as [s2|], (acc' s1') as [s2'|]; cbn in HA; try contradiction; [|exact HA]. apply IH; [exact HA|lia|apply HX; left; auto|exact G1].
    - pose proof (Hrej s1 s1' HQ1) as HA. destruct (rej s1) as [s2|], (rej' s1') as [s2'|]; cbn in HA; try contradiction; [|exact HA]. apply IH; [exact HA|lia| |exact P0]. apply HX. right. repeat split. intros E. specialize (HN E). congruence.
  Qed.
End BcuLoop.

(** the first step overwrites the factors and the full tensor an earlier training
    published; the auxiliary value too when the core run publishes one *)
Section First.
  Context {S : Type}.
  Variables (run : S -> res (S * sobs R)) (pre : S -> res (S * option (tensor R))) (acc rej : S -> res S) (sum_ok : bool) (args : targs R) (steps : Z).
  Lemma bcu_first fuel s o0 n p q : (fuel <> 0)%nat -> p_finish q = p_finish p -> (p_aux q = p_aux p \/ forall s s' x, pre s = Ok (s', x) -> x <> None) ->
    let '(P1, r1) := bcu_loop run sum_ok args steps pre acc rej fuel 1 s o0 n [] p in
    let '(P2, r2) := bcu_loop run sum_ok args steps pre acc rej fuel 1 s o0 n [] q in
    r1 = r2 /\ ((exists h, r1 = Ok h) -> P1 = P2).
  Proof.
    intros Hf Hq Ha. destruct fuel as [|fuel]; [congruence|]. cbn [bcu_loop].
    destruct (pre s) as [[s0 x]|e] eqn:EP; [|split; [reflexivity|intros (h & E); discriminate]].
    destruct (validate args steps 1) as [v|e] eqn:EV; [|split; [reflexivity|intros (h & E); discriminate]].
    unfold validate in EV. rewrite orb_true_r in EV. injection EV as <-.
    destruct (run_v run sum_ok true s0) as [[s' o]|e] eqn:ER; [|split; [reflexivity|intros (h & E); discriminate]].
    replace (publish true o (set_aux x q)) with (publish true o (set_aux x p)).
    - match goal with |- let '(_, _) := ?x in _ => destruct x as [P r] end. auto.
    - unfold publish, set_aux. cbn. rewrite Hq. f_equal. destruct (ob_aux o); [reflexivity|]. destruct Ha as [->|Ha]; [reflexivity|]. apply Ha in EP. destruct x; [reflexivity|contradiction].
  Qed.
End First.

Section Body.
  Context {S : Type}.
  Variables (run run' : S -> res (S * sobs R)) (pre pre' : S -> res (S * option (tensor R))) (acc acc' rej rej' : S -> res S) (Q Q1 Q2 : S -> S -> Prop)
    (sum_ok : bool) (args : targs R) (steps : Z) (a b c : R).
  Hypothesis Hc : 0 < c.
  Hypothesis Hpre : forall s s', Q s s' -> rrel (fun x y => Q1 (fst x) (fst y) /\ snd y = omap (scale b) (snd x)) (pre s) (pre' s').
  Hypothesis Hrun : forall s s', Q1 s s' -> rrel (fun x y => Q2 (fst x) (fst y) /\ obs_scaled a b c (snd x) (snd y)) (run s) (run' s').
  Hypothesis Hacc : forall s s', Q2 s s' -> rrel Q (acc s) (acc' s').
  Hypothesis Hrej : forall s s', Q2 s s' -> rrel Q (rej s) (rej' s').
  Variables (s s' : S) (post : option (tensor R)) (p q : pub R).
  Hypothesis Hinit : Q s s'.
  Hypothesis Hpost : omap (scale b) post = post.
  Hypothesis Hqf : p_finish q = p_finish p.
  Hypothesis Hqa : p_aux q = p_aux p \/ forall s s' x, pre s = Ok (s', x) -> x <> None.
  Hypothesis Hqa' : p_aux q = p_aux p \/ forall s s' x, pre' s = Ok (s', x) -> x <> None.
  Hypothesis Hq : scale_pub a b c q = q.

  Lemma bcu_body_agree :
    let '(P1, r1) := bcu_body run sum_ok args steps pre acc rej (Ok s) post p in
    let '(P2, r2) := bcu_body run' sum_ok args steps pre' acc' rej' (Ok s') post p in agree a b c P1 r1 P2 r2.
  Proof.
    unfold bcu_body. destruct (Z.leb_spec steps 0) as [L|L]; [reflexivity|].
    pose proof (bcu_first run pre acc rej sum_ok args steps (Z.to_nat steps) s 0 0 p q ltac:(lia) Hqf Hqa) as F.
    pose proof (bcu_first run' pre' acc' rej' sum_ok args steps (Z.to_nat steps) s' 0 0 p q ltac:(lia) Hqf Hqa') as F'.
    pose proof (bcu_agree run run' pre pre' acc acc' rej rej' Q Q1 Q2 sum_ok args steps a b c Hc Hpre Hrun Hacc Hrej (Z.to_nat steps) 1 s s' 0 0 0 0 [] q Hinit ltac:(lia) ltac:(auto)) as G.
    rewrite Hq in G. change (entries c []) with (@nil (R * R)) in G. change n0 with 0.
    destruct (bcu_loop run sum_ok args steps pre acc rej (Z.to_nat steps) 1 s 0 0 [] p) as [P1 r1], (bcu_loop run' sum_ok args steps pre' acc' rej' (Z.to_nat steps) 1 s' 0 0 [] p) as [P2 r2].
    destruct (bcu_loop run sum_ok args steps pre acc rej (Z.to_nat steps) 1 s 0 0 [] q) as [P3 r3], (bcu_loop run' sum_ok args steps pre' acc' rej' (Z.to_nat steps) 1 s' 0 0 [] q) as [P4 r4].
    destruct F as [<- F], F' as [<- F']. destruct r1 as [h1|], r2 as [h2|]; try exact G. rewrite F, F' by eauto. destruct G as [G1 G2]. split; [exact G1|].
    intros E. rewrite (G2 E). rewrite <- Hpost at 1. apply set_aux_scaled.
  Qed.
  Lemma bcu_body_exactly : a_tol args <= 0 ->
    let '(P1, r1) := bcu_body run sum_ok args steps pre acc rej (Ok s) post p in
    let '(P2, r2) := bcu_body run' sum_ok args steps pre' acc' rej' (Ok s') post p in exactly a b c P1 r1 P2 r2.
  Proof.
    intros Ht. unfold bcu_body. destruct (Z.leb_spec steps 0) as [L|L]; [reflexivity|].
    pose proof (bcu_first run pre acc rej sum_ok args steps (Z.to_nat steps) s 0 0 p q ltac:(lia) Hqf Hqa) as F.
    pose proof (bcu_first run' pre' acc' rej' sum_ok args steps (Z.to_nat steps) s' 0 0 p q ltac:(lia) Hqf Hqa') as F'.
    pose proof (bcu_exactly run run' pre pre' acc acc' rej rej' Q Q1 Q2 sum_ok args steps a b c Hc Hpre Hrun Hacc Hrej (Z.to_nat steps) Ht 1 s s' 0 0 0 0 [] q Hinit ltac:(lia) ltac:(auto) ltac:(lra)) as G.
    rewrite Hq in G. change (entries c []) with (@nil (R * R)) in G. change n0 with 0.
    destruct (bcu_loop run sum_ok args steps pre acc rej (Z.to_nat steps) 1 s 0 0 [] p) as [P1 r1], (bcu_loop run' sum_ok args steps pre' acc' rej' (Z.to_nat steps) 1 s' 0 0 [] p) as [P2 r2].
    destruct (bcu_loop run sum_ok args steps pre acc rej (Z.to_nat steps) 1 s 0 0 [] q) as [P3 r3], (bcu_loop run' sum_ok args steps pre' acc' rej' (Z.to_nat steps) 1 s' 0 0 [] q) as [P4 r4].
    destruct F as [<- F], F' as [<- F']. destruct r1 as [h1|], r2 as [h2|]; try exact G. rewrite F, F' by eauto. destruct G as [G1 G2]. split; [exact G1|].
    rewrite G2. rewrite <- Hpost at 1. apply set_aux_scaled.
  Qed.
End Body.

(** ** train: NCP *)
Lemma pub_fixed s c p : scale_pub s 1 c (mkPub None (p_aux p) None (p_finish p)) = mkPub None (p_aux p) None (p_finish p).
Proof. unfold scale_pub. cbn. f_equal. destruct (p_aux p); cbn; [rewrite scale_one|]; reflexivity. Qed.
Section NcpTrain.
  Variables (pow : R -> R -> R) (svals : tensor R -> list R) (X : tensor R) (r : nat) (rnd : list (tensor R)) (c : R).
  Hypothesis HR : roots pow.
  Hypothesis HS : spectral svals.
  Hypothesis HX : wf X.
  Hypothesis Hne : nonempty (shp X).
  Hypothesis Hord : (2 <= ndims X <= 25)%nat.
  Hypothesis Hr : (0 < r)%nat.
  Hypothesis Hf : cp_factors X r rnd.
  Hypothesis Hc : 0 < c.
  Let s := pow c (1 / INR (ndims X)).

  Lemma ncp_bodies ar id w p steps :
    (let '(P1, r1) := ncp_body pow svals X ar rnd (forallb (Nat.eqb id) (w_sums w)) steps p in
     let '(P2, r2) := ncp_body pow svals (scale c X) ar rnd (forallb (Nat.eqb id) (w_sums w)) steps p in agree s 1 c P1 r1 P2 r2) /\
    (a_tol (fst ar) <= 0 ->
     let '(P1, r1) := ncp_body pow svals X ar rnd (forallb (Nat.eqb id) (w_sums w)) steps p in
     let '(P2, r2) := ncp_body pow svals (scale c X) ar rnd (forallb (Nat.eqb id) (w_sums w)) steps p in exactly s 1 c P1 r1 P2 r2).
  Proof.
    assert (Hs : 0 < s) by (apply root_pos; [exact HR|exact Hc|lia]). assert (Hsc : s ^ ndims X = c) by (apply HR; [lra|lia]).
    assert (A1 : forall u v, nQ X r s u v -> rrel (fun x y => nQ X r s (fst x) (fst y) /\ snd y = omap (scale 1) (snd x)) (Ok (u, None)) (Ok (v, @None (tensor R)))).
    { intros u v H. split; [exact H|reflexivity]. }
    assert (A2 : forall u v, nQ X r s u v -> rrel (fun x y => nQ2 X r s (fst x) (fst y) /\ obs_scaled s 1 c (snd x) (snd y)) (ncp_run svals X u) (ncp_run svals (scale c X) v)) by (intros; apply sc_ncp_run; auto).
    assert (A3 : forall u v, nQ2 X r s u v -> rrel (nQ X r s) (ncp_accept u) (ncp_accept v)) by (intros; apply sc_ncp_accept; auto).
    assert (A4 : forall u v, nQ2 X r s u v -> rrel (nQ X r s) (Ok (ncp_reject u)) (Ok (ncp_reject v))) by (intros; apply sc_ncp_reject; auto).
    assert (A5 : nQ X r s (ncp_init pow X rnd) (ncp_init pow (scale c X) rnd)) by (apply sc_ncp_init; auto; lia).
    assert (A6 : omap (scale 1) (Some (tf_ones [1; snd ar]%nat)) = Some (tf_ones [1; snd ar]%nat)) by (cbn; rewrite scale_one; reflexivity).
    split; [|intros Ht]; unfold ncp_body.
    - exact (bcu_body_agree (ncp_run svals X) (ncp_run svals (scale c X)) (fun s => Ok (s, None)) (fun s => Ok (s, None)) ncp_accept ncp_accept (fun s => Ok (ncp_reject s)) (fun s => Ok (ncp_reject s))
        (nQ X r s) (nQ X r s) (nQ2 X r s) _ (fst ar) steps s 1 c Hc A1 A2 A3 A4 _ _ _ p (mkPub None (p_aux p) None (p_finish p)) A5 A6 eq_refl (or_introl eq_refl) (or_introl eq_refl) (pub_fixed s c p)).
    - exact (bcu_body_exactly (ncp_run svals X) (ncp_run svals (scale c X)) (fun s => Ok (s, None)) (fun s => Ok (s, None)) ncp_accept ncp_accept (fun s => Ok (ncp_reject s)) (fun s => Ok (ncp_reject s))
        (nQ X r s) (nQ X r s) (nQ2 X r s) _ (fst ar) steps s 1 c Hc A1 A2 A3 A4 _ _ _ p (mkPub None (p_aux p) None (p_finish p)) A5 A6 eq_refl (or_introl eq_refl) (or_introl eq_refl) (pub_fixed s c p) Ht).
  Qed.
  Lemma c96_ncp_train w (o : fobj R (targs R * nat)) steps o1 h1 o2 h2 :
    ncp_train pow svals X w o rnd steps = (o1, Ok h1) -> ncp_train pow svals (scale c X) w o rnd steps = (o2, Ok h2) ->
    same_run c h1 h2 /\ (length h1 = length h2 -> o_pub o2 = scale_pub s 1 c (o_pub o1)).
  Proof. apply train_agree. intros ar id p _. apply ncp_bodies. Qed.
  Lemma c96_ncp_exact w (o : fobj R (targs R * nat)) ar id steps : o_built o = Some (ar, id) -> a_tol (fst ar) <= 0 ->
    snd (ncp_train pow svals (scale c X) w o rnd steps) = rmap (map (scale_entry c)) (snd (ncp_train pow svals X w o rnd steps)) /\
    forall o1 h1, ncp_train pow svals X w o rnd steps = (o1, Ok h1) -> o_pub (fst (ncp_train pow svals (scale c X) w o rnd steps)) = scale_pub s 1 c (o_pub o1).
  Proof. intros EB Ht. apply train_exactly. intros ar' id' p E. rewrite EB in E. injection E as <- <-. apply ncp_bodies, Ht. Qed.
End NcpTrain.
