(** Limit points of CP_ALS and HOOI runs (C92). *)

From Coq Require Import ZArith List Bool Arith Lia Reals Lra Psatz.
From Verif Require Import Num Py Tensor TF TensorFacts TFFacts Sums Ops OpsLemmas Types Loss Fact Train Spec SpecR LayoutFacts SpecFacts MulFacts TtmFacts SkipFacts TtmLemmas Matricize
  KronFacts RSums MatR KronAlg NormFacts SpecTucker MultiR SvdFacts TuckerFacts TuckerRun TuckerLemmas SpecCp SpecBcu BcuFacts SpecTrain TrainLemmas CpFacts AlsFacts AlsLemmas
  SpecProx Prox NcpFacts NcpLemmas NtFacts NtLemmas QuasiOpt DualAscent SpecFix FixFacts LimFacts.
Import ListNotations.
Local Open Scope R_scope.

(** ** how far a factor is from the least-squares solution *)
Section Bound.
  Variables (I J r : nat) (Y H V P W : mf).
  Hypothesis HV : meq r r V (mm J (tr H) H).
  Hypothesis HP : meq r r (mm r (mm r V P) V) V.
  Variables (w v : R).
  Hypothesis Hw : forall p q, (p < r)%nat -> (q < r)%nat -> Rabs (W p q) <= w.
  Hypothesis Hv : forall q, (q < r)%nat -> V q q <= v.
  Hypothesis HW : forall p q, (p < r)%nat -> (q < r)%nat -> INR r * Rabs (mm r V W p q - delta p q) <= / 2.
  Let B := mm r (mm J Y H) P.
  Let E C := fun i j => Y i j - mm r C (tr H) i j.


  Lemma sum_abs n f : Rabs (sumn n f) <= sumn n (fun i => Rabs (f i)).
  Proof.
    induction n as [|n IH]; [rewrite !sumn_0; Rn; rewrite Rabs_R0; lra|]. rewrite !(sumn_S RLR). Rn.
    eapply Rle_trans; [apply Rabs_triang|]. lra.
  Qed.

  Let gap C := fro I J (E C) - fro I J (E B).

  Lemma gap_D C : gap C = fro I J (mm r (fun a b => C a b - B a b) (tr H)).
  Proof. unfold gap. pose proof (split_res I J r Y H V HV B C (B_normal I J r Y H V P HV HP)) as G. fold E in G. rewrite G. lra. Qed.

  Lemma DV_bound C i q : (i < I)%nat -> (q < r)%nat -> (mm r (fun a b => C a b - B a b) V i q)² <= gap C * v.
  Proof.
    intros Hi Hq. rewrite gap_D. set (D := fun a b => C a b - B a b).
    rewrite (mm_ext r D D V (mm J (tr H) H)) by (intros; first [reflexivity|apply HV; auto]). rewrite <- mm_assoc.
    unfold mm at 1. eapply Rle_trans; [apply (sumnR_cauchy J (fun j => mm r D (tr H) i j) (fun j => H j q))|].
    assert (E1 : sumn J (fun j => (mm r D (tr H) i j)²) <= fro I J (mm r D (tr H))).
    { unfold fro, dot2. rewrite <- (sumnR_delta I i (fun a => sumn J (fun j => mm r D (tr H) a j * mm r D (tr H) a j)) Hi) at 1.
      apply sumnR_le. intros a Ha. assert (P0 : 0 <= sumn J (fun j => mm r D (tr H) a j * mm r D (tr H) a j)) by (apply sumnR_nonneg; intros; apply Rle_0_sqr).
      unfold delta. destruct (Nat.eqb_spec a i) as [->|]; lra. }
    assert (E2 : sumn J (fun j => (H j q)²) = V q q).
    { rewrite (HV q q Hq Hq). reflexivity. }
    rewrite E2. pose proof (Hv q Hq) as L. assert (0 <= sumn J (fun j => (mm r D (tr H) i j)²)) by (apply sumnR_nonneg; intros; apply Rle_0_sqr).
    assert (0 <= V q q) by (rewrite <- E2; apply sumnR_nonneg; intros; apply Rle_0_sqr).
    apply Rle_trans with (fro I J (mm r D (tr H)) * V q q); [apply Rmult_le_compat_r; auto|]. apply Rmult_le_compat_l; auto. apply fro_nonneg.
  Qed.

  Lemma D_bound C i q : (i < I)%nat -> (q < r)%nat -> 0 <= w ->
    Rabs (C i q - B i q) <= 2 * INR r * INR r * w * sqrt (gap C * v).
  Proof.
    intros Hi Hq Hw0. set (D := fun a b => C a b - B a b). change (Rabs (D i q) <= 2 * INR r * INR r * w * sqrt (gap C * v)).
    set (s := sqrt (gap C * v)). pose (d := sumn r (fun p => Rabs (D i p))).
    assert (Hs : forall p, (p < r)%nat -> Rabs (mm r D V i p) <= s).
    { intros p Hp. unfold s. rewrite <- sqrt_Rsqr_abs. apply sqrt_le_1_alt. apply DV_bound; auto. }
    assert (Hr : 0 < INR r) by (apply lt_0_INR; lia).
    assert (H1 : forall p, (p < r)%nat -> Rabs (D i p) <= INR r * (s * w) + d * (/ 2 * / INR r)).
    { intros p Hp. replace (D i p) with (mm r (mm r D V) W i p - mm r D (fun a b => mm r V W a b - delta a b) i p).
      2: { rewrite mm_sub_r, mm_assoc, mm_delta_r by auto. ring. }
      eapply Rle_trans; [apply Rabs_triang|]. rewrite Rabs_Ropp. apply Rplus_le_compat.
      - unfold mm at 1. eapply Rle_trans; [apply sum_abs|]. rewrite <- (sumnR_const r (s * w)). apply sumnR_le. intros l Hl. rewrite Rabs_mult.
        apply Rmult_le_compat; try apply Rabs_pos; auto.
      - unfold mm at 1. eapply Rle_trans; [apply sum_abs|]. unfold d. rewrite <- sumnR_scale_r. apply sumnR_le. intros l Hl. rewrite Rabs_mult.
        apply Rmult_le_compat_l; [apply Rabs_pos|]. apply (Rmult_le_reg_l (INR r)); auto. eapply Rle_trans; [apply HW; auto|]. right. field. lra. }
    assert (H2 : d <= INR r * (INR r * (s * w)) + d * / 2).
    { unfold d at 1. eapply Rle_trans; [apply sumnR_le; intros p Hp; apply H1; exact Hp|]. rewrite sumnR_const. right. field. lra. }
    assert (H3 : Rabs (D i q) <= d).
    { unfold d. rewrite <- (sumnR_delta r q (fun p => Rabs (D i p)) Hq) at 1. apply sumnR_le. intros a Ha. unfold delta. pose proof (Rabs_pos (D i a)). destruct (Nat.eqb a q); lra. }
    replace (2 * INR r * INR r * w * s) with (2 * (INR r * (INR r * (s * w)))) by ring. lra.
  Qed.
End Bound.

Section CpBound.
  Variables (pinv : tensor R -> tensor R) (X : tensor R) (r : nat).
  Hypothesis HP : penrose pinv.
  Hypothesis Hne : nonempty (shp X).
  Hypothesis Hord : (2 <= ndims X <= 26)%nat.
  Let N := ndims X.
  Let sol A n := als_solution pinv X r A n.
  Let I n := nth n (shp X) 0%nat.

  Lemma cp_bound A lam n (W : mf) w v : cp_factors X r A -> (n < N)%nat -> 0 <= w ->
    (forall p q, (p < r)%nat -> (q < r)%nat -> Rabs (W p q) <= w) ->
    (forall q, (q < r)%nat -> mget (gram_but r A n) q q <= v) ->
    (forall p q, (p < r)%nat -> (q < r)%nat -> INR r * Rabs (mm r (mget (gram_but r A n)) W p q - delta p q) <= / 2) ->
    forall i q, (i < I n)%nat -> (q < r)%nat ->
      Rabs (mget (mat_at A n) i q * mget lam q 0 - mget (sol A n) i q) <=
      2 * INR r * INR r * w * sqrt ((sqdist X (cp_tensor r lam A) - cp_error X r A n (sol A n)) * v).
  Proof.
    intros HA Hn Hw0 Hw Hv HW i q Hi Hq. destruct (unfold_all_ok X Hne) as (mats & EM).
    destruct (mode_form pinv X r mats Hne Hord EM A n HA Hn) as (Y & H & J & HG & HM & HS & HE).
    pose proof (err_self X r A n lam HA Hn Y H J HE) as ES. pose proof (pinv_gram pinv r HP A n) as [_ HVP].
    set (C := fun i q => mget (mat_at A n) i q * mget lam q 0) in *.
    pose proof (D_bound (I n) J r Y H (mget (gram_but r A n)) (mget (pinv (gram_but r A n))) W HG HVP w v Hw Hv HW C i q Hi Hq Hw0) as D.
    unfold sol at 1. rewrite (HS i q Hi Hq). change (mget (mat_at A n) i q * mget lam q 0) with (C i q).
    eapply Rle_trans; [exact D|]. right. f_equal. f_equal. f_equal. f_equal; [symmetry; exact ES|].
    unfold cp_error. rewrite HE by apply sol_mat. apply fro_ext. intros a b Ha Hb. f_equal. apply mm_ext; [|reflexivity]. intros l Hl.
    unfold ones. rewrite mget_mgen by (auto; lia). rewrite Rmult_1_r. symmetry. apply HS; auto.
  Qed.

  (** ** a sequence of steps whose starting points converge and whose errors do not fall below the limit *)
  Section Seq.
    Variables (As : nat -> list (tensor R)) (ls : nat -> nat -> R) (os : nat -> cp_out R) (A : list (tensor R)) (l : nat -> R).
    Hypothesis HAs : forall k, cp_factors X r (As k).
    Hypothesis HA : cp_factors X r A.
    Hypothesis Hcv : factors_cv As A.
    Hypothesis Hl : forall q, (q < r)%nat -> Un_cv (fun k => ls k q) (l q).
    Hypothesis Hstep : forall k, cp_step pinv X r (As k) = Ok (os k).
    Hypothesis Halive : forall k, alive pinv X r (As k) (os k).
    Let err (l : nat -> R) A := sqdist X (cp_tensor r (column r l) A).
    Hypothesis Hlow : forall k, err l A <= sqdist X (cp_full (os k)).

    Lemma cv_err Bs (ms : nat -> nat -> R) B m : (forall k, cp_factors X r (Bs k)) -> cp_factors X r B -> factors_cv Bs B -> (forall q, (q < r)%nat -> Un_cv (fun k => ms k q) (m q)) ->
      Un_cv (fun k => err (ms k) (Bs k)) (err m B).
    Proof.
      intros H1 H2 H3 H4. unfold err. apply (cv_cp_err X r Bs B (fun k => column r (ms k))); auto. intros q Hq.
      rewrite column_get by auto. eapply cv_ext; [|apply H4; exact Hq]. intros k. cbv beta. rewrite column_get by auto. reflexivity.
    Qed.

    (** against a change of mode n, when the first n factors have converged as well *)
    Lemma seq_best n : (n < N)%nat -> factors_cv (fun k => mixed n (cp_A (os k)) (As k)) A -> cp_best_mode X r (column r l) A n.
    Proof.
      intros Hn Hm C mu HC.
      assert (HO : forall k, cp_factors X r (cp_A (os k))). { intros k. apply (c45_step pinv X r (As k) (os k) HP (HAs k) (Hstep k)). }
      assert (HM : forall k, cp_factors X r (mixed n (cp_A (os k)) (As k))). { intros k. apply mixed_factors; auto. unfold N in *. lia. }
      apply (cv_le_const _ (fun k => sqdist X (cp_tensor r mu (replace n C (mixed n (cp_A (os k)) (As k)))))).
      - intros k. fold (err l A). eapply Rle_trans; [apply Hlow|]. eapply Rle_trans; [apply (full_after pinv X r HP (As k) (os k) n (HAs k) (Hstep k) (Halive k) Hn)|].
        apply (mode_step pinv X r HP (As k) (os k) (HAs k) (Hstep k) (Halive k) n C mu Hn HC).
      - apply (cv_cp_err X r (fun k => replace n C (mixed n (cp_A (os k)) (As k))) _ (fun _ => mu)).
        + intros k. apply replace_factors; auto.
        + apply replace_factors; auto.
        + apply (cv_replace (fun k => mixed n (cp_A (os k)) (As k)) A n (fun _ => C)); auto.
          * intros k. rewrite (proj1 (HM k)), (proj1 HA). reflexivity.
          * rewrite (proj1 HA). exact Hn.
          * intros. apply cv_const.
        + intros. apply cv_const.
    Qed.

    (** the weights after the modes below n of step k *)
    Definition wts k n q := match n with 0%nat => ls k q | S m => cmax (als_solution pinv X r (mixed m (cp_A (os k)) (As k)) m) q end.

    Hypothesis Hinv : forall n, (n < N)%nat -> invertible r (gram_but r A n).
    Hypothesis Hpos : forall q, (q < r)%nat -> 0 < l q.
    Hypothesis Hmax : max_normalised X r A.

    Lemma err_first : Un_cv (fun k => err (ls k) (As k)) (err l A).
    Proof. apply cv_err; auto. Qed.

    Lemma err_mid k n : (n < N)%nat -> err l A <= cp_error X r (mixed n (cp_A (os k)) (As k)) n (sol (mixed n (cp_A (os k)) (As k)) n) <= err (wts k n) (mixed n (cp_A (os k)) (As k)) /\
      err (wts k n) (mixed n (cp_A (os k)) (As k)) <= err (ls k) (As k).
    Proof.
      intros Hn. destruct (unfold_all_ok X Hne) as (mats & EM).
      assert (HO : cp_factors X r (cp_A (os k))) by apply (c45_step pinv X r (As k) (os k) HP (HAs k) (Hstep k)).
      assert (HM : forall m, (m <= N)%nat -> cp_factors X r (mixed m (cp_A (os k)) (As k))). { intros m Hm. apply mixed_factors; auto. }
      assert (Hopt : forall m, (m < N)%nat -> cp_error X r (mixed m (cp_A (os k)) (As k)) m (sol (mixed m (cp_A (os k)) (As k)) m) = err (wts k (S m)) (mixed (S m) (cp_A (os k)) (As k))).
      { intros m Hm. destruct (step_sweep pinv X r (As k) (os k) HP (HAs k) (Hstep k)) as (_ & _ & _ & HF & _).
        pose proof (proj1 (HAs k)) as L1. pose proof (proj1 HO) as L2.
        rewrite mixed_S by (unfold N in *; lia). rewrite (HF m Hm). unfold err, wts, cp_error.
        rewrite (rescale X r (mixed m (cp_A (os k)) (As k)) m (sol (mixed m (cp_A (os k)) (As k)) m) (cmax (sol (mixed m (cp_A (os k)) (As k)) m)) _ (HM m ltac:(lia)) Hm (sol_mat _ _ _ _ _) (normed_mat _ _ _ _ _)).
        - reflexivity.
        - intros i q Hi Hq. exact (normed_rescale r (sol (mixed m (cp_A (os k)) (As k)) m) (sol_mat _ _ _ _ _) (fun q Hq => alive_cmax pinv X r (As k) (os k) (HAs k) (Hstep k) (Halive k) m q Hm Hq) i q Hi Hq). }
      assert (Hself : forall m, (m < N)%nat -> cp_error X r (mixed m (cp_A (os k)) (As k)) m (sol (mixed m (cp_A (os k)) (As k)) m) <= err (wts k m) (mixed m (cp_A (os k)) (As k))).
      { intros m Hm. pose proof (sol_opt pinv X r mats HP Hne Hord EM (mixed m (cp_A (os k)) (As k)) m (HM m ltac:(lia)) Hm (mat_at (mixed m (cp_A (os k)) (As k)) m) (column r (wts k m)) (proj2 (HM m ltac:(lia)) m Hm)) as S0.
        unfold mat_at in S0. rewrite replace_self in S0. exact S0. }
      split; [split|].
      - eapply Rle_trans; [apply Hlow|]. rewrite Hopt by auto. apply (full_after pinv X r HP (As k) (os k) n (HAs k) (Hstep k) (Halive k) Hn).
      - apply Hself, Hn.
      - clear - Hn Hopt Hself. induction n as [|n IH]; [apply Rle_refl|]. rewrite <- Hopt by lia. eapply Rle_trans; [apply Hself; lia|]. apply IH. lia.
    Qed.

    (** the solutions of mode n approach the limit factor times the weights *)
    Lemma seq_sol n : (n < N)%nat -> factors_cv (fun k => mixed n (cp_A (os k)) (As k)) A -> (forall q, (q < r)%nat -> Un_cv (fun k => wts k n q) (l q)) ->
      forall i q, (i < I n)%nat -> (q < r)%nat -> Un_cv (fun k => mget (sol (mixed n (cp_A (os k)) (As k)) n) i q) (mget (mat_at A n) i q * l q).
    Proof.
      intros Hn Hm Hw i q Hi Hq. set (M := fun k => mixed n (cp_A (os k)) (As k)) in *.
      assert (HO : forall k, cp_factors X r (cp_A (os k))). { intros k. apply (c45_step pinv X r (As k) (os k) HP (HAs k) (Hstep k)). }
      assert (HM : forall k, cp_factors X r (M k)). { intros k. apply mixed_factors; auto. unfold N in *. lia. }
      destruct (Hinv n Hn) as (W & HW).
      (* bounds *)
      assert (Hr : 0 < INR r) by (apply lt_0_INR; lia).
      set (w := sumn r (fun p => sumn r (fun s => Rabs (W p s)))).
      assert (Hw0 : 0 <= w) by (unfold w; apply sumnR_nonneg; intros; apply sumnR_nonneg; intros; apply Rabs_pos).
      assert (HwW : forall p s, (p < r)%nat -> (s < r)%nat -> Rabs (W p s) <= w).
      { intros p s Hp Hs. apply Rle_trans with (sumn r (fun s => Rabs (W p s))).
        - rewrite <- (sumnR_delta r s (fun s => Rabs (W p s)) Hs) at 1. apply sumnR_le. intros a Ha. unfold delta. pose proof (Rabs_pos (W p a)). destruct (Nat.eqb a s); lra.
        - unfold w. rewrite <- (sumnR_delta r p (fun p => sumn r (fun s => Rabs (W p s))) Hp) at 1. apply sumnR_le. intros a Ha. unfold delta.
          assert (0 <= sumn r (fun s => Rabs (W a s))) by (apply sumnR_nonneg; intros; apply Rabs_pos). destruct (Nat.eqb a p); lra. }
      set (v := 1 + sumn r (fun p => Rabs (mget (gram_but r A n) p p))).
      assert (Hv0 : 0 <= v). { assert (0 <= sumn r (fun p => Rabs (mget (gram_but r A n) p p))) by (apply sumnR_nonneg; intros; apply Rabs_pos). unfold v. lra. }
      assert (HG : forall p s, (p < r)%nat -> (s < r)%nat -> Un_cv (fun k => mget (gram_but r (M k) n) p s) (mget (gram_but r A n) p s)).
      { intros p s Hp Hs. apply (cv_gram X r M A n p s); auto. }
      destruct (cv_unif2 r r (fun k p s => mget (gram_but r (M k) n) p s) _ HG 1 Rlt_0_1) as (K1 & HK1).
      assert (HVW : forall p s, (p < r)%nat -> (s < r)%nat -> Un_cv (fun k => mm r (mget (gram_but r (M k) n)) W p s) (delta p s)).
      { intros p s Hp Hs. apply cv_ext_l with (bigsum r (fun a => mget (gram_but r A n) p a * W a s)); [apply HW; auto|].
        eapply cv_ext with (f := fun k => bigsum r (fun a => mget (gram_but r (M k) n) p a * W a s)).
        - intros k. unfold mm. symmetry. apply (sumn_bigsum RLR).
        - apply (cv_bigsum r (fun k a => mget (gram_but r (M k) n) p a * W a s)). intros a Ha. apply (CV_mult (fun k => mget (gram_but r (M k) n) p a) (fun _ => W a s)); [apply HG; auto|apply cv_const]. }
      destruct (cv_unif2 r r (fun k p s => mm r (mget (gram_but r (M k) n)) W p s) _ HVW (/ 2 * / INR r)) as (K2 & HK2).
      { apply Rmult_lt_0_compat; [lra|apply Rinv_0_lt_compat; auto]. }
      set (gap := fun k => err (wts k n) (M k) - cp_error X r (M k) n (sol (M k) n)).
      assert (Hgap : Un_cv gap 0).
      { apply (cv_squeeze gap (fun k => err (ls k) (As k) - err l A)).
        - intros k. destruct (err_mid k n Hn) as [[G1 G2] G3]. unfold gap, M. lra.
        - apply cv_ext_l with (err l A - err l A); [lra|]. apply (CV_minus (fun k => err (ls k) (As k)) (fun _ => err l A)); [apply err_first|apply cv_const]. }
      assert (Hbnd : Un_cv (fun k => 2 * INR r * INR r * w * sqrt (gap k * v)) 0).
      { apply cv_ext_l with (2 * INR r * INR r * w * sqrt (0 * v)); [rewrite Rmult_0_l, sqrt_0; ring|].
        apply (CV_mult (fun _ => 2 * INR r * INR r * w)); [apply cv_const|].
        apply (continuity_seq sqrt (fun k => gap k * v)); [apply continuity_pt_sqrt; rewrite Rmult_0_l; lra|].
        apply (CV_mult gap (fun _ => v)); [exact Hgap|apply cv_const]. }
      assert (Hc : Un_cv (fun k => mget (mat_at (M k) n) i q * wts k n q) (mget (mat_at A n) i q * l q)).
      { apply (CV_mult (fun k => mget (mat_at (M k) n) i q)); [apply (cv_entry X r M A n i q HA Hm Hn Hi Hq)|apply Hw; auto]. }
      intros eps He. destruct (Hbnd (eps / 2) ltac:(lra)) as (K3 & HK3). destruct (Hc (eps / 2) ltac:(lra)) as (K4 & HK4).
      exists (K1 + K2 + K3 + K4)%nat. intros k Hk. specialize (HK3 k ltac:(lia)). specialize (HK4 k ltac:(lia)). unfold R_dist in *. rewrite Rminus_0_r in HK3.
      assert (D : Rabs (mget (mat_at (M k) n) i q * wts k n q - mget (sol (M k) n) i q) <= 2 * INR r * INR r * w * sqrt (gap k * v)).
      { pose proof (cp_bound (M k) (column r (wts k n)) n W w v (HM k) Hn Hw0 HwW) as CB. replace (wts k n q) with (mget (column r (wts k n)) q 0) by (apply column_get; auto). apply CB; auto.
        - intros s Hs. specialize (HK1 k s s ltac:(lia) Hs Hs). apply Rabs_def2 in HK1. unfold v.
          assert (Rabs (mget (gram_but r A n) s s) <= sumn r (fun p => Rabs (mget (gram_but r A n) p p))).
          { rewrite <- (sumnR_delta r s (fun p => Rabs (mget (gram_but r A n) p p)) Hs) at 1. apply sumnR_le. intros a Ha. unfold delta. pose proof (Rabs_pos (mget (gram_but r A n) a a)). destruct (Nat.eqb a s); lra. }
          pose proof (Rle_abs (mget (gram_but r A n) s s)). lra.
        - intros p s Hp Hs. specialize (HK2 k p s ltac:(lia) Hp Hs). apply Rlt_le in HK2. apply (Rmult_le_compat_l (INR r)) in HK2; [|lra].
          eapply Rle_trans; [exact HK2|]. right. field. lra. }
      pose proof (Rle_abs (2 * INR r * INR r * w * sqrt (gap k * v))) as Hab.
      apply Rabs_def2 in HK4. apply (fun H => Rle_lt_trans _ _ _ H (Rle_lt_trans _ _ _ Hab HK3)) in D. apply Rabs_def2 in D. unfold M in *. cbv beta in *. apply Rabs_def1; lra.
    Qed.

    Lemma seq_all n : (n <= N)%nat -> factors_cv (fun k => mixed n (cp_A (os k)) (As k)) A /\ (forall q, (q < r)%nat -> Un_cv (fun k => wts k n q) (l q)).
    Proof.
      induction n as [|n IH]; intros Hn; [split; [exact Hcv|exact Hl]|]. destruct (IH ltac:(lia)) as [Hm Hw]. clear IH.
      pose proof (seq_sol n ltac:(lia) Hm Hw) as HS.
      assert (HO : forall k, cp_factors X r (cp_A (os k))). { intros k. apply (c45_step pinv X r (As k) (os k) HP (HAs k) (Hstep k)). }
      assert (HI : I n <> 0%nat) by (apply nonempty_nth; auto; unfold N, ndims in *; lia).
      destruct (fac_mat X r A HA n ltac:(unfold N in *; lia)) as (_ & Er & Ec).
      assert (Hw' : forall q, (q < r)%nat -> Un_cv (fun k => wts k (S n) q) (l q)).
      { intros q Hq. apply (cv_max (I n) (fun k i => mget (sol (mixed n (cp_A (os k)) (As k)) n) i q) (fun i => mget (mat_at A n) i q * l q)).
        - intros i Hi. apply HS; auto.
        - intros k. unfold wts. apply (cmax_ok (als_solution pinv X r (mixed n (cp_A (os k)) (As k)) n) q). exact HI.
        - destruct (Hmax n q ltac:(unfold N in *; lia) Hq) as [(i & Hi & E1) H1]. rewrite Er in Hi, H1. specialize (Hpos q Hq). split.
          + exists i. split; [exact Hi|]. rewrite E1. lra.
          + intros j Hj. specialize (H1 j Hj). nra. }
      split; [|exact Hw'].
      assert (E : forall k, mixed (S n) (cp_A (os k)) (As k) = replace n (normed r (sol (mixed n (cp_A (os k)) (As k)) n)) (mixed n (cp_A (os k)) (As k))).
      { intros k. destruct (step_sweep pinv X r (As k) (os k) HP (HAs k) (Hstep k)) as (_ & _ & _ & HF & _).
        pose proof (proj1 (HAs k)) as L1. pose proof (proj1 (HO k)) as L2. rewrite mixed_S by (unfold N in *; lia). rewrite HF by (unfold N in *; lia). reflexivity. }
      rewrite <- (replace_self A n (mkT [] [])). fold (mat_at A n).
      assert (G : factors_cv (fun k => replace n (normed r (sol (mixed n (cp_A (os k)) (As k)) n)) (mixed n (cp_A (os k)) (As k))) (replace n (mat_at A n) A)).
      { apply cv_replace; auto.
        - intros k. rewrite (proj1 (mixed_factors X r _ _ n (HO k) (HAs k) ltac:(unfold N in *; lia))), (proj1 HA). reflexivity.
        - rewrite (proj1 HA). unfold N in *. lia.
        - intros i q Hi Hq. rewrite Er in Hi. rewrite Ec in Hq.
          apply cv_ext with (f := fun k => mget (sol (mixed n (cp_A (os k)) (As k)) n) i q / wts k (S n) q).
          + intros k. unfold normed. rewrite mget_mgen by auto. reflexivity.
          + specialize (Hpos q Hq). apply cv_ext_l with (mget (mat_at A n) i q * l q / l q); [field; lra|]. apply cv_div; [lra|apply HS; auto|apply Hw'; auto]. }
      intros m i q H1 H2 H3. eapply cv_ext; [|apply (G m i q H1 H2 H3)]. intros k. cbv beta. rewrite E. reflexivity.
    Qed.

    Lemma seq_all_best n : (n < N)%nat -> cp_best_mode X r (column r l) A n.
    Proof. intros Hn. apply seq_best; auto. apply seq_all. lia. Qed.
  End Seq.
End CpBound.

Lemma cp_tensor_weights r (l l' : tensor R) A : (forall q, (q < r)%nat -> mget l q 0 = mget l' q 0) -> cp_tensor r l A = cp_tensor r l' A.
Proof. intros H. unfold cp_tensor. apply gen_ext. intros i _. apply bigsum_ext. intros q Hq. rewrite (H q Hq). reflexivity. Qed.

Section CpRun.
  Variables (pinv : tensor R -> tensor R) (X : tensor R) (r : nat) (A0 : list (tensor R)) (out : nat -> cp_out R).
  Hypothesis HP : penrose pinv.
  Hypothesis HX : wf X.
  Hypothesis HA0 : cp_factors X r A0.
  Hypothesis Hrun : cp_iterates pinv X r A0 out.
  Hypothesis Halive : forall k n q v, (n < ndims X)%nat -> (q < r)%nat ->
    column_max (als_solution pinv X r (mixed n (cp_A (out k)) (cp_start A0 out k)) n) q v -> v <> 0.
  Let N := ndims X.

  Lemma run_start k : cp_factors X r (cp_start A0 out k) /\ cp_step pinv X r (cp_start A0 out k) = Ok (out k).
  Proof.
    induction k as [|k [IH1 IH2]]; [split; [exact HA0|apply Hrun]|]. cbn [cp_start].
    split; [apply (c45_step pinv X r _ _ HP IH1 IH2)|apply Hrun].
  Qed.
  Lemma run_factors k : cp_factors X r (cp_A (out k)).
  Proof. apply (run_start (S k)). Qed.
  Lemma run_full k : cp_full (out k) = cp_tensor r (weights r (cp_lam (out k))) (cp_A (out k)).
  Proof. destruct (run_start k) as [H1 H2]. destruct (c45_step pinv X r _ _ HP H1 H2) as (_ & _ & _ & Hf & _). exact Hf. Qed.
  Lemma run_order : nonempty (shp X) /\ (2 <= N <= 25)%nat.
  Proof. destruct (step_parts pinv X r A0 (out 0%nat) HA0 (proj1 Hrun)) as (H1 & H2 & _). auto. Qed.
  Lemma run_mono j k : (j <= k)%nat -> sqdist X (cp_full (out k)) <= sqdist X (cp_full (out j)).
  Proof.
    induction 1 as [|k Hk IH]; [apply Rle_refl|]. eapply Rle_trans; [|exact IH]. destruct (run_start (S k)) as [H1 H2]. cbn [cp_start] in *.
    rewrite (run_full k). apply (c44_step pinv X r _ _ (weights r (cp_lam (out k))) HP HX H1 H2). apply (Halive (S k)).
  Qed.

  Variables (phi : nat -> nat) (A : list (tensor R)) (lam : tensor R).
  Hypothesis Hphi : subsequence phi.
  Hypothesis HA : cp_factors X r A.
  Hypothesis Hcv : factors_cv (fun j => cp_A (out (phi j))) A.
  Hypothesis Hlam : forall q, (q < r)%nat -> Un_cv (fun j => get (cp_lam (out (phi j))) [q]) (mget lam q 0).
  Let l q := mget lam q 0.

  Lemma lim_weights B : cp_tensor r (column r l) B = cp_tensor r lam B.
  Proof. apply cp_tensor_weights. intros q Hq. rewrite column_get by auto. reflexivity. Qed.

  Lemma lim_err : (forall k, sqdist X (cp_tensor r lam A) <= sqdist X (cp_full (out k))) /\ Un_cv (fun k => sqdist X (cp_full (out k))) (sqdist X (cp_tensor r lam A)).
  Proof.
    apply (cv_mono _ _ phi); [apply run_mono|apply subsequence_ge, Hphi|].
    eapply cv_ext; [intros k; rewrite run_full; reflexivity|]. apply (cv_cp_err X r (fun j => cp_A (out (phi j))) A (fun j => weights r (cp_lam (out (phi j))))); auto.
    - intros k. apply run_factors.
    - intros q Hq. eapply cv_ext; [|apply Hlam; exact Hq]. intros k. cbv beta. unfold weights. rewrite mget_mgen by (auto; lia). reflexivity.
  Qed.

  Lemma best_weights n : cp_best_mode X r (column r l) A n -> cp_best_mode X r lam A n.
  Proof. intros H C mu HC. rewrite <- (lim_weights A). apply H, HC. Qed.

  Lemma lim_first : cp_best_mode X r lam A 0.
  Proof.
    destruct run_order as [Hne Ho]. apply best_weights. assert (Ho' : (2 <= ndims X <= 26)%nat) by (unfold N in *; lia).
    apply (seq_best pinv X r HP Ho' (fun j => cp_A (out (phi j))) (fun j => out (S (phi j))) A l); auto.
    - intros k. apply run_factors.
    - intros k. apply (proj2 Hrun).
    - intros k. exact (Halive (S (phi k))).
    - intros k. rewrite lim_weights. apply lim_err.
    - unfold N in *. lia.
  Qed.

  Lemma lim_last : cp_best_mode X r lam A (N - 1).
  Proof.
    destruct run_order as [Hne Ho]. intros C mu HC.
    apply (cv_le_const _ (fun j => sqdist X (cp_tensor r mu (replace (N - 1) C (cp_A (out (phi j))))))).
    - intros k. eapply Rle_trans; [apply (proj1 lim_err (phi k))|]. rewrite run_full. destruct (run_start (phi k)) as [H1 H2].
      apply (cp_last_best pinv X r HP _ _ H1 H2 (Halive (phi k)) C mu HC).
    - apply (cv_cp_err X r (fun j => replace (N - 1) C (cp_A (out (phi j)))) _ (fun _ => mu)).
      + intros k. apply replace_factors; auto. apply run_factors.
      + apply replace_factors; auto.
      + apply (cv_replace (fun j => cp_A (out (phi j))) A (N - 1) (fun _ => C)); auto.
        * intros k. rewrite (proj1 (run_factors (phi k))), (proj1 HA). reflexivity.
        * rewrite (proj1 HA). unfold N in *. lia.
        * intros. apply cv_const.
      + intros. apply cv_const.
  Qed.

  Lemma lim_normalised : (forall k n q v, (n < ndims X)%nat -> (q < r)%nat ->
    column_max (als_solution pinv X r (mixed n (cp_A (out k)) (cp_start A0 out k)) n) q v -> 0 < v) -> max_normalised X r A.
  Proof.
    intros Hpos n q Hn Hq. destruct run_order as [Hne Ho].
    assert (HI : nth n (shp X) 0%nat <> 0%nat) by (apply nonempty_nth; auto; unfold N, ndims in *; lia).
    destruct (fac_mat X r A HA n Hn) as (_ & Er & Ec).
    assert (H1 : forall k, column_max (mat_at (cp_A (out k)) n) q 1).
    { intros k. destruct (run_start k) as [G1 G2]. destruct (c45_step pinv X r _ _ HP G1 G2) as (_ & H & _). destruct (H n Hn) as (_ & H'). destruct (H' q Hq) as (v & Hv & _ & K & _).
      apply K. apply (Hpos k n q v Hn Hq Hv). }
    assert (Hc : column_max (mat_at A n) q (cmax (mat_at A n) q)) by (apply cmax_ok; rewrite Er; exact HI).
    replace 1 with (cmax (mat_at A n) q); [exact Hc|].
    apply (UL_sequence (fun _ => 1)); [|apply cv_const].
    apply (cv_max (nth n (shp X) 0%nat) (fun j i => mget (mat_at (cp_A (out (phi j))) n) i q) (fun i => mget (mat_at A n) i q)).
    - intros i Hi. apply (cv_entry X r (fun j => cp_A (out (phi j))) A n i q HA Hcv Hn Hi Hq).
    - intros k. destruct (fac_mat X r _ (run_factors (phi k)) n Hn) as (_ & Er' & _). specialize (H1 (phi k)). unfold column_max in H1. rewrite Er' in H1. exact H1.
    - unfold column_max in Hc. rewrite Er in Hc. exact Hc.
  Qed.

  Hypothesis Hinv : forall n, (n < ndims X)%nat -> invertible r (gram_but r A n).
  Hypothesis Hpos : forall q, (q < r)%nat -> 0 < mget lam q 0.
  Hypothesis Hmax : max_normalised X r A.

  Lemma lim_all : (forall n, (n < N)%nat -> cp_best_mode X r lam A n) /\ factors_cv (fun j => cp_A (out (S (phi j)))) A.
  Proof.
    destruct run_order as [Hne Ho].
    assert (H1 : forall k, cp_factors X r (cp_A (out (phi k)))) by (intros; apply run_factors).
    assert (H2 : forall k, cp_step pinv X r (cp_A (out (phi k))) = Ok (out (S (phi k)))) by (intros; apply (proj2 Hrun)).
    assert (H3 : forall k, alive pinv X r (cp_A (out (phi k))) (out (S (phi k)))) by (intros k; exact (Halive (S (phi k)))).
    assert (H4 : forall k, sqdist X (cp_tensor r (column r l) A) <= sqdist X (cp_full (out (S (phi k))))) by (intros k; rewrite lim_weights; apply lim_err).
    assert (Ho' : (2 <= ndims X <= 26)%nat) by (unfold N in *; lia).
    pose proof (seq_all pinv X r HP Hne Ho' (fun j => cp_A (out (phi j))) (fun j q => get (cp_lam (out (phi j))) [q]) (fun j => out (S (phi j))) A l H1 HA Hcv Hlam H2 H3 H4 Hinv Hpos Hmax) as SA.
    split.
    - intros n Hn. apply best_weights.
      apply (seq_best pinv X r HP Ho' (fun j => cp_A (out (phi j))) (fun j => out (S (phi j))) A l); auto. apply SA. unfold N in *. lia.
    - destruct (SA (ndims X) (le_n _)) as [G _]. intros n i q Q1 Q2 Q3. eapply cv_ext; [|apply (G n i q Q1 Q2 Q3)]. intros k. cbv beta.
      replace (ndims X) with (length (cp_A (out (phi k)))) by apply (H1 k). rewrite mixed_all; [reflexivity|].
      rewrite (proj1 (H1 k)), (proj1 (run_factors (S (phi k)))). reflexivity.
  Qed.
End CpRun.

Section HooiRun.
  Variables (svdU : tensor R -> tensor R) (X : tensor R) (ranks : list nat) (A0 : list (tensor R)) (out : nat -> hooi_out R).
  Hypothesis HS : left_svd svdU.
  Hypothesis HX : wf X.
  Hypothesis Hne : nonempty (shp X).
  Hypothesis Hrk : nonempty ranks.
  Hypothesis Hl : length ranks = ndims X.
  Hypothesis HA0 : factor_state X ranks A0.
  Hypothesis Hrun : hooi_iterates svdU X ranks A0 out.
  Let N := ndims X.
  Let err A := sqdist X (tucker_tensor (project X A) A).

  Lemma hrun_state k : factor_state X ranks (ho_A (out k)).
  Proof.
    induction k as [|k IH].
    - apply (hooi_facts svdU X ranks HS HX Hne Hrk Hl A0 (out 0%nat) HA0 (proj1 Hrun)).
    - apply (hooi_facts svdU X ranks HS HX Hne Hrk Hl (ho_A (out k)) (out (S k)) IH (proj2 Hrun k)).
  Qed.
  Lemma hrun_full k : sqdist X (ho_full (out k)) = err (ho_A (out k)).
  Proof.
    destruct k as [|k].
    - destruct (hooi_facts svdU X ranks HS HX Hne Hrk Hl A0 (out 0%nat) HA0 (proj1 Hrun)) as (_ & _ & _ & E). rewrite E. reflexivity.
    - destruct (hooi_facts svdU X ranks HS HX Hne Hrk Hl (ho_A (out k)) (out (S k)) (hrun_state k) (proj2 Hrun k)) as (_ & _ & _ & E). rewrite E. reflexivity.
  Qed.
  Lemma hrun_order : (2 <= N <= 13)%nat.
  Proof. apply (hooi_facts svdU X ranks HS HX Hne Hrk Hl A0 (out 0%nat) HA0 (proj1 Hrun)). Qed.
  Lemma hrun_step k : err (ho_A (out (S k))) <= err (ho_A (out k)).
  Proof.
    pose proof (hooi_after svdU X ranks HS HX Hne Hrk Hl (ho_A (out k)) (out (S k)) (hrun_state k) (proj2 Hrun k) 0 N ltac:(lia) ltac:(lia)) as G.
    rewrite mixed_0 in G. replace N with (length (ho_A (out k))) in G by apply (hrun_state k).
    rewrite mixed_all in G by (rewrite (proj1 (hrun_state k)), (proj1 (hrun_state (S k))); reflexivity). exact G.
  Qed.
  Lemma hrun_mono j k : (j <= k)%nat -> sqdist X (ho_full (out k)) <= sqdist X (ho_full (out j)).
  Proof.
    rewrite !hrun_full. induction 1 as [|k Hk IH]; [apply Rle_refl|]. eapply Rle_trans; [apply hrun_step|exact IH].
  Qed.

  Variables (phi : nat -> nat) (A : list (tensor R)).
  Hypothesis Hphi : subsequence phi.
  Hypothesis HA : tucker_factors X ranks A.
  Hypothesis Hcv : factors_cv (fun j => ho_A (out (phi j))) A.

  Lemma hlim_state : factor_state X ranks A.
  Proof.
    split; [apply HA|]. intros k Hk. split; [apply HA; auto|]. destruct HA as (L & _ & HM). destruct (matrix_is_mat _ _ _ (HM k Hk)) as (_ & Er & Ec).
    intros p q Hp Hq. apply (UL_sequence (fun j => bigsum (nrows (mat_at A k)) (fun i => mget (mat_at (ho_A (out (phi j))) k) i p * mget (mat_at (ho_A (out (phi j))) k) i q))).
    - apply (cv_bigsum (nrows (mat_at A k)) (fun j i => mget (mat_at (ho_A (out (phi j))) k) i p * mget (mat_at (ho_A (out (phi j))) k) i q)).
      intros i Hi. apply (CV_mult (fun j => mget (mat_at (ho_A (out (phi j))) k) i p) (fun j => mget (mat_at (ho_A (out (phi j))) k) i q)); apply Hcv; auto; lia.
    - eapply cv_ext; [|apply cv_const]. intros j. cbv beta. destruct (proj2 (hrun_state (phi j)) k Hk) as [HM' HO]. destruct (matrix_is_mat _ _ _ HM') as (_ & Er' & Ec').
      rewrite Er, <- Er'. symmetry. apply HO; rewrite Ec', <- Ec; auto.
  Qed.

  Let tkf k : tucker_factors X ranks (ho_A (out k)) := state_tucker X _ _ (hrun_state k) Hl.

  Lemma hlim_err : (forall k, err A <= sqdist X (ho_full (out k))) /\ Un_cv (fun k => sqdist X (ho_full (out k))) (err A).
  Proof.
    apply (cv_mono _ _ phi); [apply hrun_mono|apply subsequence_ge, Hphi|].
    apply cv_ext with (f := fun j => err (ho_A (out (phi j)))); [intros k; symmetry; apply hrun_full|]. unfold err.
    apply (cv_tucker_err X ranks (fun j => ho_A (out (phi j))) A (fun j => project X (ho_A (out (phi j))))); auto.
    - intros k. apply (proj_shape' X ranks _ (tkf (phi k)) X eq_refl).
    - apply (proj_shape' X ranks _ HA X eq_refl).
    - apply (cv_project X ranks (fun j => ho_A (out (phi j)))); auto.
  Qed.
  Lemma hlim_core : tensor_cv (fun j => ho_core (out (phi j))) (project X A).
  Proof.
    intros idx Hv. eapply cv_ext; [|apply (cv_project X ranks (fun j => ho_A (out (phi j))) A (fun k => tkf (phi k)) HA Hcv idx Hv)].
    intros j. cbv beta. destruct (phi j) as [|k].
    - destruct (hooi_facts svdU X ranks HS HX Hne Hrk Hl A0 (out 0%nat) HA0 (proj1 Hrun)) as (_ & _ & E & _). rewrite E. reflexivity.
    - destruct (hooi_facts svdU X ranks HS HX Hne Hrk Hl (ho_A (out k)) (out (S k)) (hrun_state k) (proj2 Hrun k)) as (_ & _ & E & _). rewrite E. reflexivity.
  Qed.

  Lemma hlim_mode n C h : (n < N)%nat -> is_mat C (nth n (shp X) 0%nat) (nth n ranks 0%nat) -> core_like ranks h ->
    Un_cv (fun j => sqdist X (tucker_tensor h (replace n C (ho_A (out (phi j)))))) (sqdist X (tucker_tensor h (replace n C A))).
  Proof.
    intros Hn HC Hh. apply (cv_tucker_err X ranks (fun j => replace n C (ho_A (out (phi j)))) _ (fun _ => h)).
    - intros k. apply replace_tucker; auto.
    - apply replace_tucker; auto.
    - apply (cv_replace (fun j => ho_A (out (phi j))) A n (fun _ => C)); auto.
      + intros k. rewrite (proj1 (hrun_state (phi k))), (proj1 HA). reflexivity.
      + rewrite (proj1 HA). exact Hn.
      + intros. apply cv_const.
    - intros k. apply Hh.
    - apply Hh.
    - intros idx _. apply cv_const.
  Qed.

  Lemma hlim_first : tucker_best_mode X ranks (project X A) A 0.
  Proof.
    intros C h HC Hh. pose proof hrun_order as Ho. eapply (cv_le_const _ _ _ _ (hlim_mode 0 C h ltac:(lia) HC Hh)). Unshelve.
    intros k. eapply Rle_trans; [apply (proj1 hlim_err (S (phi k)))|]. rewrite hrun_full.
    pose proof (hooi_end svdU X ranks HS HX Hne Hrk Hl (ho_A (out (phi k))) (out (S (phi k))) (hrun_state _) (proj2 Hrun _)) as E. rewrite hrun_full in E. rewrite <- E.
    eapply Rle_trans; [apply (hooi_after svdU X ranks HS HX Hne Hrk Hl _ _ (hrun_state (phi k)) (proj2 Hrun (phi k)) 1 N); lia|].
    apply (hooi_mode_step svdU X ranks HS HX Hne Hrk Hl _ _ 0 C h (hrun_state (phi k)) (proj2 Hrun (phi k)) ltac:(unfold N in *; lia) Hh HC).
  Qed.

  Lemma hstep_last B o C h : factor_state X ranks B -> hooi_step svdU X (map Z.of_nat ranks) B = Ok o -> core_like ranks h ->
    is_mat C (nth (N - 1) (shp X) 0%nat) (nth (N - 1) ranks 0%nat) ->
    sqdist X (ho_full o) <= sqdist X (tucker_tensor h (replace (N - 1) C (ho_A o))).
  Proof.
    intros HB E Hh HC. pose proof hrun_order as Ho. destruct (hooi_facts svdU X ranks HS HX Hne Hrk Hl B o HB E) as (_ & HB' & _).
    pose proof (proj1 HB) as L. pose proof (proj1 HB') as L'.
    pose proof (hooi_mode_step svdU X ranks HS HX Hne Hrk Hl B o (N - 1) C h HB E ltac:(unfold N in *; lia) Hh HC) as M.
    replace (S (N - 1)) with (ndims X) in M by (unfold N in *; lia). rewrite (hooi_end svdU X ranks HS HX Hne Hrk Hl B o HB E) in M.
    eapply Rle_trans; [exact M|]. right. f_equal. f_equal.
    transitivity (replace (N - 1) C (replace (N - 1) (mat_at (ho_A o) (N - 1)) (mixed (N - 1) (ho_A o) B))); [symmetry; apply replace_twice|].
    rewrite <- mixed_S by (unfold N in *; lia). replace (S (N - 1)) with (length B) by (unfold N in *; lia). rewrite mixed_all by lia. reflexivity.
  Qed.

  Lemma hlim_last : tucker_best_mode X ranks (project X A) A (N - 1).
  Proof.
    intros C h HC Hh. pose proof hrun_order as Ho. eapply (cv_le_const _ _ _ _ (hlim_mode (N - 1) C h ltac:(lia) HC Hh)). Unshelve.
    intros k. eapply Rle_trans; [apply (proj1 hlim_err (phi k))|]. destruct (phi k) as [|j].
    - apply (hstep_last A0 _ C h HA0 (proj1 Hrun) Hh HC).
    - apply (hstep_last (ho_A (out j)) _ C h (hrun_state j) (proj2 Hrun j) Hh HC).
  Qed.
End HooiRun.

(** ** limit points exist: the entries of orthonormal columns are at most 1 *)
Lemma orthonormal_entry (U : tensor R) i q : orthonormal U -> (i < nrows U)%nat -> (q < ncols U)%nat -> Rabs (mget U i q) <= 1.
Proof.
  intros H Hi Hq. specialize (H q q Hq Hq). rewrite Nat.eqb_refl in H. rewrite <- (sumn_bigsum RLR) in H.
  assert (L : mget U i q * mget U i q <= 1).
  { rewrite <- H. rewrite <- (sumnR_delta (nrows U) i (fun i => mget U i q * mget U i q) Hi) at 1. apply sumnR_le. intros a Ha. unfold delta.
    assert (0 <= mget U a q * mget U a q) by nra. destruct (Nat.eqb a i); lra. }
  apply Rabs_le. nra.
Qed.
Lemma nth_sum (l : list nat) k : (nth k l 0 <= list_sum l)%nat.
Proof. revert k. induction l as [|a l IH]; intros [|k]; cbn; try lia. specialize (IH k). unfold list_sum in *. lia. Qed.

Fixpoint jump (phi : nat -> nat) (n : nat) : nat := match n with 0%nat => 0%nat | S k => S (phi (jump phi k)) end.
Lemma strict_choice (phi : nat -> nat) : (forall n, (n <= phi n)%nat) -> exists chi, (forall n, (n <= chi n)%nat) /\ subsequence (fun n => phi (chi n)).
Proof.
  intros H. exists (jump phi).
  assert (Hs : forall n, (phi (jump phi n) < phi (jump phi (S n)))%nat). { intros n. pose proof (H (jump phi (S n))) as G. cbn [jump] in *. lia. }
  split.
  - induction n as [|n IH]; [lia|]. cbn [jump]. specialize (H (jump phi n)). lia.
  - intros j k Hjk. induction Hjk as [|k Hk IH]; [apply Hs|]. specialize (Hs k). lia.
Qed.

Lemma factors_cluster (X : tensor R) ranks (As : nat -> list (tensor R)) : length ranks = ndims X -> (forall k, factor_state X ranks (As k)) ->
  exists phi A, subsequence phi /\ tucker_factors X ranks A /\ factors_cv (fun j => As (phi j)) A.
Proof.
  intros Hl HAs. set (B := S (list_sum (shp X) + list_sum ranks)).
  assert (HB : forall k, (nth k (shp X) 0 < B)%nat /\ (nth k ranks 0 < B)%nat).
  { intros k. pose proof (nth_sum (shp X) k). pose proof (nth_sum ranks k). unfold B. lia. }
  set (e := fun (A : list (tensor R)) n i q => if (Nat.ltb i (nth n (shp X) 0%nat) && Nat.ltb q (nth n ranks 0%nat))%bool then mget (mat_at A n) i q else 0).
  set (y := fun k p => e (As k) (p / B / B)%nat ((p / B) mod B)%nat (p mod B)%nat).
  assert (HB0 : B <> 0%nat) by (unfold B; lia).
  destruct (vec_cluster (ndims X * B * B) y 1) as (ys & phi & Hphi & Hc).
  - intros k p Hp. assert (Hd : (p / B / B < ndims X)%nat) by (apply Nat.div_lt_upper_bound; auto; apply Nat.div_lt_upper_bound; auto; nia).
    unfold y, e. destruct (Nat.ltb _ _ && Nat.ltb _ _)%bool eqn:E; [|rewrite Rabs_R0; lra]. apply andb_prop in E. destruct E as [E1 E2]. apply Nat.ltb_lt in E1, E2.
    destruct (proj2 (HAs k) (p / B / B)%nat Hd) as [HM HO]. destruct (matrix_is_mat _ _ _ HM) as (_ & Er & Ec). apply orthonormal_entry; auto; lia.
  - destruct (strict_choice phi Hphi) as (chi & Hchi & Hs).
    set (A := map (fun n => mgen (nth n (shp X) 0%nat) (nth n ranks 0%nat) (fun i q => ys (n * B * B + i * B + q)%nat)) (seq 0 (ndims X))).
    assert (EA : forall n, (n < ndims X)%nat -> mat_at A n = mgen (nth n (shp X) 0%nat) (nth n ranks 0%nat) (fun i q => ys (n * B * B + i * B + q)%nat)).
    { intros n Hn. unfold mat_at, A. rewrite nth_map_lt with (da := 0%nat) by (rewrite seq_length; auto). rewrite seq_nth by auto. reflexivity. }
    assert (LA : length A = ndims X) by (unfold A; rewrite map_length, seq_length; reflexivity).
    exists (fun j => phi (chi j)), A. split; [exact Hs|]. split.
    + split; [exact LA|]. split; [exact Hl|]. intros k Hk. rewrite EA by auto. apply is_mat_mgen.
    + intros n i q Hn Hi Hq. rewrite LA in Hn. rewrite EA in Hi, Hq |- * by auto.
      destruct (matrix_is_mat _ _ _ (is_mat_mgen (nth n (shp X) 0%nat) (nth n ranks 0%nat) (fun i q => ys (n * B * B + i * B + q)%nat))) as (_ & Er & Ec).
      rewrite Er in Hi. rewrite Ec in Hq. rewrite mget_mgen by auto. destruct (HB n) as [B1 B2].
      set (p := (n * B * B + i * B + q)%nat).
      assert (P1 : (p / B = n * B + i)%nat). { unfold p. replace (n * B * B + i * B + q)%nat with (q + (n * B + i) * B)%nat by ring. rewrite Nat.div_add, Nat.div_small by lia. lia. }
      assert (P2 : (p mod B = q)%nat). { unfold p. replace (n * B * B + i * B + q)%nat with (q + (n * B + i) * B)%nat by ring. rewrite Nat.mod_add, Nat.mod_small by lia. lia. }
      assert (P3 : ((n * B + i) / B = n)%nat). { rewrite Nat.add_comm, Nat.div_add, Nat.div_small by lia. lia. }
      assert (P4 : ((n * B + i) mod B = i)%nat). { rewrite Nat.add_comm, Nat.mod_add, Nat.mod_small by lia. lia. }
      assert (Hp : (p < ndims X * B * B)%nat) by (unfold p; nia).
      assert (Hy : forall k, y k p = mget (mat_at (As k) n) i q).
      { intros k. unfold y, e. rewrite P1, P2, P3, P4. apply Nat.ltb_lt in Hi, Hq. rewrite Hi, Hq. reflexivity. }
      intros eps He. destruct (Hc eps He) as (K & HK). exists K. intros k Hk. unfold R_dist. rewrite <- Hy. apply HK; auto. specialize (Hchi k). lia.
Qed.

(** ** infinitely many steps *)
Fixpoint follow {O} (f : O -> Py.res O) (o0 : O) (k : nat) : O :=
  match k with 0%nat => o0 | S j => match f (follow f o0 j) with Ok o => o | Raise _ => o0 end end.
Lemma follow_ok {O} (f : O -> Py.res O) (P : O -> Prop) o0 : P o0 -> (forall o, P o -> exists o', f o = Ok o' /\ P o') ->
  forall k, P (follow f o0 k) /\ f (follow f o0 k) = Ok (follow f o0 (S k)).
Proof.
  intros H0 H. assert (HP : forall k, P (follow f o0 k)).
  { induction k as [|k IH]; [exact H0|]. cbn [follow]. destruct (H _ IH) as (o' & E & H'). rewrite E. exact H'. }
  intros k. split; [apply HP|]. cbn [follow]. destruct (H _ (HP k)) as (o' & E & _). rewrite E. reflexivity.
Qed.
Lemma cp_run_exists pinv (X : tensor R) r A0 : penrose pinv -> wf X -> nonempty (shp X) -> (2 <= ndims X <= 25)%nat -> cp_factors X r A0 ->
  exists out, cp_iterates pinv X r A0 out.
Proof.
  intros HP HX Hne Ho HA0. destruct (cp_step_total pinv X r A0 HP HX Hne Ho HA0) as (o0 & E0).
  exists (follow (fun o => cp_step pinv X r (cp_A o)) o0). split; [exact E0|].
  apply (follow_ok (fun o => cp_step pinv X r (cp_A o)) (fun o => cp_factors X r (cp_A o)) o0).
  - apply (c45_step pinv X r A0 o0 HP HA0 E0).
  - intros o HF. destruct (cp_step_total pinv X r _ HP HX Hne Ho HF) as (o' & E). exists o'. split; [exact E|]. apply (c45_step pinv X r _ o' HP HF E).
Qed.
Lemma hooi_run_exists svdU (X : tensor R) ranks A0 : left_svd svdU -> wf X -> nonempty (shp X) -> nonempty ranks ->
  length ranks = ndims X -> (2 <= ndims X <= 13)%nat ->
  (forall n, (n < ndims X)%nat -> (nth n ranks 0 <= Nat.min (nth n (shp X) 0) (rest n ranks))%nat) -> factor_state X ranks A0 ->
  exists out, hooi_iterates svdU X ranks A0 out.
Proof.
  intros HS HX Hne Hrk Hl Ho Hfit HA0. destruct (c54_hooi svdU X ranks HS HX Hne Hrk Hl Ho) as [_ G]. specialize (G Hfit).
  destruct (G A0 HA0) as (o0 & E0 & H0).
  exists (follow (fun o => hooi_step svdU X (map Z.of_nat ranks) (ho_A o)) o0). split; [exact E0|].
  apply (follow_ok (fun o => hooi_step svdU X (map Z.of_nat ranks) (ho_A o)) (fun o => factor_state X ranks (ho_A o)) o0); [exact H0|].
  intros o HF. apply G, HF.
Qed.

(** ** C92 *)
Lemma c92_cp_limit pinv (X : tensor R) r A0 out phi A lam : penrose pinv -> wf X -> cp_factors X r A0 -> cp_iterates pinv X r A0 out ->
  (forall k n q v, (n < ndims X)%nat -> (q < r)%nat ->
     column_max (als_solution pinv X r (mixed n (cp_A (out k)) (cp_start A0 out k)) n) q v -> v <> 0) ->
  subsequence phi -> cp_factors X r A -> factors_cv (fun j => cp_A (out (phi j))) A ->
  (forall q, (q < r)%nat -> Un_cv (fun j => get (cp_lam (out (phi j))) [q]) (mget lam q 0)) ->
  Un_cv (fun k => sqdist X (cp_full (out k))) (sqdist X (cp_tensor r lam A)) /\
  (forall k, sqdist X (cp_tensor r lam A) <= sqdist X (cp_full (out k))) /\
  cp_best_mode X r lam A 0 /\ cp_best_mode X r lam A (ndims X - 1).
Proof.
  intros HP HX HA0 Hr Ha Hp HA Hc Hl. destruct (lim_err pinv X r A0 out HP HX HA0 Hr Ha phi A lam Hp HA Hc Hl) as [H1 H2].
  split; [exact H2|]. split; [exact H1|]. split; [apply (lim_first pinv X r A0 out HP HX HA0 Hr Ha phi A lam Hp HA Hc Hl)|apply (lim_last pinv X r A0 out HP HX HA0 Hr Ha phi A lam Hp HA Hc Hl)].
Qed.
Lemma c92_cp_normalised pinv (X : tensor R) r A0 out phi A : penrose pinv -> cp_factors X r A0 -> cp_iterates pinv X r A0 out ->
  (forall k n q v, (n < ndims X)%nat -> (q < r)%nat ->
     column_max (als_solution pinv X r (mixed n (cp_A (out k)) (cp_start A0 out k)) n) q v -> 0 < v) ->
  subsequence phi -> cp_factors X r A -> factors_cv (fun j => cp_A (out (phi j))) A -> max_normalised X r A.
Proof. intros HP HA0 Hr Ha Hp HA Hc. apply (lim_normalised pinv X r A0 out HP HA0 Hr phi A HA Hc Ha). Qed.
Lemma c92_cp_stationary pinv (X : tensor R) r A0 out phi A lam : penrose pinv -> wf X -> cp_factors X r A0 -> cp_iterates pinv X r A0 out ->
  (forall k n q v, (n < ndims X)%nat -> (q < r)%nat ->
     column_max (als_solution pinv X r (mixed n (cp_A (out k)) (cp_start A0 out k)) n) q v -> 0 < v) ->
  subsequence phi -> cp_factors X r A -> factors_cv (fun j => cp_A (out (phi j))) A ->
  (forall q, (q < r)%nat -> Un_cv (fun j => get (cp_lam (out (phi j))) [q]) (mget lam q 0)) ->
  (forall q, (q < r)%nat -> 0 < mget lam q 0) -> (forall n, (n < ndims X)%nat -> invertible r (gram_but r A n)) ->
  (forall n, (n < ndims X)%nat -> cp_best_mode X r lam A n /\ cp_normal_equations X r lam A n) /\
  factors_cv (fun j => cp_A (out (S (phi j)))) A /\
  exists o, cp_step pinv X r A = Ok o /\ cp_A o = A /\ shp (cp_lam o) = [r] /\ forall q, (q < r)%nat -> get (cp_lam o) [q] = mget lam q 0.
Proof.
  intros HP HX HA0 Hr Ha Hp HA Hc Hl Hpos Hinv.
  pose proof (c92_cp_normalised pinv X r A0 out phi A HP HA0 Hr Ha Hp HA Hc) as Hmax.
  assert (Ha' : forall k n q v, (n < ndims X)%nat -> (q < r)%nat ->
     column_max (als_solution pinv X r (mixed n (cp_A (out k)) (cp_start A0 out k)) n) q v -> v <> 0) by (intros k n q v H1 H2 H3; specialize (Ha k n q v H1 H2 H3); lra).
  destruct (lim_all pinv X r A0 out HP HX HA0 Hr Ha' phi A lam Hp HA Hc Hl Hinv Hpos Hmax) as [HB HN].
  destruct (run_order pinv X r A0 out HA0 Hr) as [Hne Ho].
  assert (HB' : forall n, (n < ndims X)%nat -> cp_best_mode X r lam A n /\ cp_normal_equations X r lam A n).
  { intros n Hn. split; [apply HB, Hn|]. apply c91_normal; auto; lia. }
  split; [exact HB'|]. split; [exact HN|]. apply c91_stationary; auto. intros n Hn. split; [apply Hinv, Hn|apply HB', Hn].
Qed.
Lemma c92_hooi_limit svdU (X : tensor R) ranks A0 out phi A : left_svd svdU -> wf X -> nonempty (shp X) -> nonempty ranks ->
  length ranks = ndims X -> factor_state X ranks A0 -> hooi_iterates svdU X ranks A0 out ->
  subsequence phi -> tucker_factors X ranks A -> factors_cv (fun j => ho_A (out (phi j))) A ->
  factor_state X ranks A /\ tensor_cv (fun j => ho_core (out (phi j))) (project X A) /\
  Un_cv (fun k => sqdist X (ho_full (out k))) (sqdist X (tucker_tensor (project X A) A)) /\
  (forall k, sqdist X (tucker_tensor (project X A) A) <= sqdist X (ho_full (out k))) /\
  tucker_best_mode X ranks (project X A) A 0 /\ tucker_best_mode X ranks (project X A) A (ndims X - 1).
Proof.
  intros HS HX Hne Hrk Hl HA0 Hr Hp HA Hc.
  destruct (hlim_err svdU X ranks A0 out HS HX Hne Hrk Hl HA0 Hr phi A Hp HA Hc) as [H1 H2].
  split; [apply (hlim_state svdU X ranks A0 out HS HX Hne Hrk Hl HA0 Hr phi A HA Hc)|].
  split; [apply (hlim_core svdU X ranks A0 out HS HX Hne Hrk Hl HA0 Hr phi A HA Hc)|]. split; [exact H2|]. split; [exact H1|].
  split; [apply (hlim_first svdU X ranks A0 out HS HX Hne Hrk Hl HA0 Hr phi A Hp HA Hc)|apply (hlim_last svdU X ranks A0 out HS HX Hne Hrk Hl HA0 Hr phi A Hp HA Hc)].
Qed.
Lemma c92_hooi_exists svdU (X : tensor R) ranks A0 out : left_svd svdU -> wf X -> nonempty (shp X) -> nonempty ranks ->
  length ranks = ndims X -> factor_state X ranks A0 -> hooi_iterates svdU X ranks A0 out ->
  exists phi A, subsequence phi /\ tucker_factors X ranks A /\ factors_cv (fun j => ho_A (out (phi j))) A.
Proof.
  intros HS HX Hne Hrk Hl HA0 Hr. apply (factors_cluster X ranks (fun k => ho_A (out k)) Hl). intros k.
  apply (hrun_state svdU X ranks A0 out HS HX Hne Hrk Hl HA0 Hr).
Qed.
Lemma c92_hooi_matrix svdU (X : tensor R) ranks A0 out : left_svd svdU -> wf X -> nonempty (shp X) -> nonempty ranks ->
  ndims X = 2%nat -> length ranks = 2%nat -> factor_state X ranks A0 -> hooi_iterates svdU X ranks A0 out ->
  exists A, factor_state X ranks A /\
    Un_cv (fun k => sqdist X (ho_full (out k))) (sqdist X (tucker_tensor (project X A) A)) /\
    forall n, (n < 2)%nat -> tucker_best_mode X ranks (project X A) A n.
Proof.
  intros HS HX Hne Hrk H2 Hl HA0 Hr. assert (Hl' : length ranks = ndims X) by congruence.
  destruct (c92_hooi_exists svdU X ranks A0 out HS HX Hne Hrk Hl' HA0 Hr) as (phi & A & Hp & HA & Hc). exists A.
  destruct (c92_hooi_limit svdU X ranks A0 out phi A HS HX Hne Hrk Hl' HA0 Hr Hp HA Hc) as (G1 & _ & G2 & _ & G3 & G4).
  split; [exact G1|]. split; [exact G2|]. rewrite H2 in G4. cbn in G4. intros [|[|n]] Hn; [exact G3|exact G4|lia].
Qed.
