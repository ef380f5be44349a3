(** Fixed points of the CP_ALS and HOOI steps (C91). *)

From Coq Require Import ZArith List Bool Arith Lia Reals Lra Psatz.
From Verif Require Import Num Py Tensor TF TensorFacts TFFacts Sums Ops OpsLemmas Types Loss Fact Train Spec SpecR LayoutFacts SpecFacts MulFacts TtmFacts SkipFacts TtmLemmas Matricize
  KronFacts RSums MatR KronAlg NormFacts SpecTucker MultiR SvdFacts TuckerFacts TuckerRun TuckerLemmas SpecCp SpecBcu BcuFacts SpecTrain TrainLemmas CpFacts AlsFacts AlsLemmas
  SpecProx Prox NcpFacts NcpLemmas NtFacts NtLemmas QuasiOpt SpecFix.
Import ListNotations.
Local Open Scope R_scope.

(** ** linear least squares: minimal exactly when the normal equations hold *)
Section LsChar.
  Variables (I J r : nat) (Y H V P : mf).
  Hypothesis HV : meq r r V (mm J (tr H) H).
  Hypothesis HP : meq r r (mm r (mm r V P) V) V.
  Let B := mm r (mm J Y H) P.
  Let E C := fun i j => Y i j - mm r C (tr H) i j.

  Lemma res_H C : meq I r (mm J (E C) H) (fun i q => mm J Y H i q - mm r C V i q).
  Proof.
    intros i q Hi Hq. unfold E. rewrite mm_sub_l. f_equal. rewrite mm_assoc. apply mm_ext; [reflexivity|]. intros l Hl. symmetry. apply HV; auto.
  Qed.

  Lemma split_res C D : meq I r (mm r C V) (mm J Y H) ->
    fro I J (E D) = fro I J (E C) + fro I J (mm r (fun a b => D a b - C a b) (tr H)).
  Proof.
    intros HC.
    rewrite (fro_ext I J (E D) (fun i j => E C i j - mm r (fun a b => D a b - C a b) (tr H) i j)).
    2: { intros i j _ _. unfold E. rewrite mm_sub_l. lra. }
    rewrite fro_sub. rewrite (dot2_sym I J (E C)), dot2_adj_r.
    rewrite (dot2_ext I r _ (fun a b => D a b - C a b) (mm J (E C) (tr (tr H))) (fun _ _ => 0)).
    - rewrite dot2_sym, dot2_zero_l. lra.
    - intros i j _ _. reflexivity.
    - intros i j Hi Hj. change (tr (tr H)) with H. rewrite res_H by auto. rewrite HC by auto. lra.
  Qed.

  Lemma normal_min C : meq I r (mm r C V) (mm J Y H) -> forall D, fro I J (E C) <= fro I J (E D).
  Proof. intros HC D. rewrite (split_res C D HC). pose proof (fro_nonneg I J (mm r (fun a b => D a b - C a b) (tr H))). lra. Qed.

  Lemma B_normal : meq I r (mm r B V) (mm J Y H).
  Proof.
    intros i q Hi Hq. pose proof (normal_eq I J r Y H V P HV HP i q Hi Hq) as N. cbv beta in N. fold B in N. change (mm J (E B) H i q = 0) in N.
    rewrite res_H in N by auto. cbv beta in N. lra.
  Qed.

  Lemma min_normal C : fro I J (E C) <= fro I J (E B) -> meq I r (mm r C V) (mm J Y H).
  Proof.
    intros HC. rewrite (split_res B C B_normal) in HC.
    pose proof (fro_nonneg I J (mm r (fun a b => C a b - B a b) (tr H))) as Hp.
    assert (Z : fro I J (mm r (fun a b => C a b - B a b) (tr H)) = 0) by lra. apply fro_zero in Z.
    intros i q Hi Hq. rewrite <- (B_normal i q Hi Hq).
    assert (G : mm r (fun a b => C a b - B a b) V i q = 0).
    { rewrite (mm_ext r _ (fun a b => C a b - B a b) V (mm J (tr H) H)) by (intros; first [reflexivity|apply HV; auto]).
      rewrite <- mm_assoc. rewrite (mm_ext J _ (fun _ _ => 0) H H) by (intros; first [reflexivity|apply Z; auto]).
      unfold mm. apply sumnR_zero. intros. lra. }
    rewrite mm_sub_l in G. lra.
  Qed.

  (** with V invertible the solution is unique *)
  Lemma unique_B C (W : mf) : meq r r (mm r V W) delta -> meq I r (mm r C V) (mm J Y H) -> meq I r B C.
  Proof.
    intros HW HC.
    assert (HVP : meq r r (mm r V P) delta).
    { intros i j Hi Hj. transitivity (mm r (mm r V P) (mm r V W) i j).
      - rewrite (mm_ext r (mm r V P) (mm r V P) (mm r V W) delta) by (intros; first [reflexivity|apply HW; auto]). symmetry. apply mm_delta_r; auto.
      - rewrite <- mm_assoc. rewrite (mm_ext r _ V W W) by (intros; first [reflexivity|apply HP; auto]). apply HW; auto. }
    intros i q Hi Hq. unfold B. rewrite (mm_ext r _ (mm r C V) P P) by (intros; first [reflexivity|symmetry; apply HC; auto]).
    rewrite mm_assoc. rewrite (mm_ext r C C (mm r V P) delta) by (intros; first [reflexivity|apply HVP; auto]). apply mm_delta_r; auto.
  Qed.
End LsChar.

Lemma replace_twice {T} n (U C : T) : forall A, replace n U (replace n C A) = replace n U A.
Proof. induction n as [|n IH]; intros [|a A]; cbn [replace]; auto. rewrite IH. reflexivity. Qed.
Lemma mixed_same (A : list (tensor R)) n : mixed n A A = A.
Proof. unfold mixed. apply firstn_skipn. Qed.

Section Cp.
  Variables (pinv : tensor R -> tensor R) (X : tensor R) (r : nat) (mats : list (tensor R)).
  Hypothesis HP : penrose pinv.
  Hypothesis Hne : nonempty (shp X).
  Hypothesis Hord : (2 <= ndims X <= 26)%nat.
  Hypothesis Hmats : unfold_all X = Ok mats.
  Let N := ndims X.
  Let sol A n := als_solution pinv X r A n.
  Let I n := nth n (shp X) 0%nat.

  (** a mode n in matrix form: Y the unfolding, H the Khatri-Rao product *)
  Lemma mode_form A n : cp_factors X r A -> (n < N)%nat -> exists Y H : mf, exists J,
    meq r r (mget (gram_but r A n)) (mm J (tr H) H) /\
    meq (I n) r (mget (mttkrp X r A n)) (mm J Y H) /\
    meq (I n) r (mget (sol A n)) (mm r (mm J Y H) (mget (pinv (gram_but r A n)))) /\
    forall C lam, is_mat C (I n) r -> sqdist X (cp_tensor r lam (replace n C A)) =
      fro (I n) J (fun i j => Y i j - mm r (fun i q => mget C i q * mget lam q 0) (tr H) i j).
  Proof.
    intros HA Hn. destruct (mats_nth X mats Hmats n Hn) as (Xm & _ & EX).
    destruct (kr_ok X r A n HA Hord Hn) as (H & EH & HmH & Hkh & Hbut).
    pose proof (mttkrp_kr X r A n Hne Hord Hn Xm H EX Hbut) as HM.
    exists (mget Xm), (mget H), (rest n (shp X)). split; [|split; [|split]].
    - intros p q Hp Hq. apply (gram_kr X r A n HA Hord Hn H Hkh HmH); auto.
    - intros i q Hi Hq. apply HM; auto.
    - intros i q Hi Hq. unfold sol, als_solution. rewrite mget_mgen by auto. rewrite <- (sumn_bigsum RLR). unfold mm at 1. apply sumn_ext.
      intros p Hp. Rn. f_equal. apply HM; auto.
    - intros C lam HC. apply (error_unfold X r A n HA Hne Hord Hn Xm H C lam EX EH HC).
  Qed.

  (** the weighted factor *)
  Let wf_ A n (lam : tensor R) : mf := fun i q => mget (mat_at A n) i q * mget lam q 0.

  Lemma normal_mm A n lam : cp_normal_equations X r lam A n <->
    meq (I n) r (mm r (wf_ A n lam) (mget (gram_but r A n))) (mget (mttkrp X r A n)).
  Proof.
    split; intros H i q Hi Hq; specialize (H i q Hi Hq); unfold mm, wf_ in *; [rewrite (sumn_bigsum RLR)|rewrite (sumn_bigsum RLR) in H]; exact H.
  Qed.

  Lemma err_self A n lam : cp_factors X r A -> (n < N)%nat -> forall Y H J,
    (forall C lam, is_mat C (I n) r -> sqdist X (cp_tensor r lam (replace n C A)) =
      fro (I n) J (fun i j => Y i j - mm r (fun i q => mget C i q * mget lam q 0) (tr H) i j)) ->
    sqdist X (cp_tensor r lam A) = fro (I n) J (fun i j => Y i j - mm r (wf_ A n lam) (tr H) i j).
  Proof.
    intros HA Hn Y H J HE. rewrite <- (replace_self A n (mkT [] [])) at 1. fold (mat_at A n). apply HE. apply HA; auto.
  Qed.

  Lemma best_normal A n lam : cp_factors X r A -> (n < N)%nat ->
    cp_best_mode X r lam A n <-> cp_normal_equations X r lam A n.
  Proof.
    intros HA Hn. destruct (mode_form A n HA Hn) as (Y & H & J & HG & HM & HS & HE).
    pose proof (err_self A n lam HA Hn Y H J HE) as HS0.
    pose proof (pinv_gram pinv r HP A n) as [_ HVP]. rewrite normal_mm. split.
    - intros HB.
      pose proof (HB (sol A n) (ones r) (sol_mat pinv X r A n)) as L. rewrite HS0, HE in L by apply sol_mat.
      intros i q Hi Hq. rewrite HM by auto.
      apply (min_normal (I n) J r Y H (mget (gram_but r A n)) (mget (pinv (gram_but r A n))) HG HVP (wf_ A n lam)); auto.
      eapply Rle_trans; [exact L|]. right. apply fro_ext. intros a b Ha Hb. f_equal. apply mm_ext; [|reflexivity]. intros l Hl.
      unfold ones. rewrite mget_mgen by (auto; lia). rewrite Rmult_1_r. apply HS; auto.
    - intros HN C mu HC. rewrite HS0, HE by auto.
      apply (normal_min (I n) J r Y H (mget (gram_but r A n)) HG (wf_ A n lam)).
      intros i q Hi Hq. rewrite HN, HM by auto. reflexivity.
  Qed.

  Lemma sol_unique A n lam : cp_factors X r A -> (n < N)%nat -> invertible r (gram_but r A n) ->
    cp_normal_equations X r lam A n ->
    forall i q, (i < I n)%nat -> (q < r)%nat -> mget (sol A n) i q = mget (mat_at A n) i q * mget lam q 0.
  Proof.
    intros HA Hn (W & HW) HN i q Hi Hq. destruct (mode_form A n HA Hn) as (Y & H & J & HG & HM & HS & HE).
    pose proof (pinv_gram pinv r HP A n) as [_ HVP]. rewrite HS by auto.
    apply (unique_B (I n) J r Y H (mget (gram_but r A n)) (mget (pinv (gram_but r A n))) HVP (wf_ A n lam) W); auto.
    - intros p s Hp Hs. unfold mm, delta. rewrite (sumn_bigsum RLR). apply HW; auto.
    - intros a b Ha Hb. apply normal_mm in HN. rewrite HN, HM by auto. reflexivity.
  Qed.

  (** a mode update that changes nothing *)
  Lemma mode_kept A n lam : cp_factors X r A -> (n < N)%nat -> invertible r (gram_but r A n) ->
    (forall q, (q < r)%nat -> column_max (mat_at A n) q 1) -> (forall q, (q < r)%nat -> 0 < mget lam q 0) ->
    cp_normal_equations X r lam A n ->
    normed r (sol A n) = mat_at A n /\ (forall q, (q < r)%nat -> cmax (sol A n) q = mget lam q 0).
  Proof.
    intros HA Hn HI Hmax Hpos HN. pose proof (sol_unique A n lam HA Hn HI HN) as ES.
    destruct (matrix_is_mat _ _ _ (proj2 HA n Hn)) as (_ & Er & Ec).
    assert (Hr : nrows (sol A n) = I n) by reflexivity.
    assert (HI0 : I n <> 0%nat) by (apply nonempty_nth; auto).
    assert (Hc : forall q, (q < r)%nat -> cmax (sol A n) q = mget lam q 0).
    { intros q Hq. apply (column_max_unique (sol A n) q); [apply cmax_ok; congruence|]. destruct (Hmax q Hq) as [(i & Hi & E1) H1]. rewrite Er in Hi, H1.
      specialize (Hpos q Hq). split.
      - exists i. rewrite Hr. split; [exact Hi|]. rewrite ES, E1 by auto. lra.
      - intros j Hj. rewrite Hr in Hj. rewrite ES by auto. specialize (H1 j Hj). nra. }
    split; [|exact Hc]. apply (mat_ext _ _ (I n) r); [apply is_mat_mgen|apply HA; auto|].
    intros i q Hi Hq. unfold normed. rewrite mget_mgen by auto. rewrite ES, Hc by auto. specialize (Hpos q Hq). field. lra.
  Qed.
End Cp.

Section CpStep.
  Variables (pinv : tensor R -> tensor R) (X : tensor R) (r : nat).
  Hypothesis HP : penrose pinv.
  Let N := ndims X.
  Let sol A n := als_solution pinv X r A n.

  Definition alive A (o : cp_out R) : Prop := forall n q v, (n < N)%nat -> (q < r)%nat ->
    column_max (als_solution pinv X r (mixed n (cp_A o) A) n) q v -> v <> 0.

  Lemma alive_cmax A o : cp_factors X r A -> cp_step pinv X r A = Ok o -> alive A o ->
    forall n q, (n < N)%nat -> (q < r)%nat -> cmax (sol (mixed n (cp_A o) A) n) q <> 0.
  Proof.
    intros HA E Ha n q Hn Hq. apply (Ha n q); auto. apply cmax_ok. apply (sol_pos pinv X r A o HA E n Hn).
  Qed.

  (** one mode inside a step: optimal against any change of that mode *)
  Lemma mode_step A o : cp_factors X r A -> cp_step pinv X r A = Ok o -> alive A o ->
    forall n C mu, (n < N)%nat -> is_mat C (nth n (shp X) 0%nat) r ->
      sqdist X (cp_tensor r (column r (cmax (sol (mixed n (cp_A o) A) n))) (mixed (S n) (cp_A o) A)) <=
      sqdist X (cp_tensor r mu (replace n C (mixed n (cp_A o) A))).
  Proof.
    intros HA E Ha n C mu Hn HC. pose proof (alive_cmax A o HA E Ha) as Hnz.
    destruct (step_parts pinv X r A o HA E) as (Hne & Ho & mats & E1 & E2 & _).
    destruct (step_sweep pinv X r A o HP HA E) as (_ & _ & HA' & HF & _).
    pose proof (proj1 HA) as L. pose proof (proj1 HA') as L'.
    pose proof (mixed_factors X r (cp_A o) A n HA' HA ltac:(unfold N in *; lia)) as HM.
    rewrite mixed_S by (unfold N in *; lia). rewrite (HF n Hn).
    rewrite (rescale X r (mixed n (cp_A o) A) n (sol (mixed n (cp_A o) A) n) (cmax (sol (mixed n (cp_A o) A) n)) _ HM Hn (sol_mat _ _ _ _ _) (normed_mat _ _ _ _ _)).
    2: { intros i q Hi Hq. exact (normed_rescale r (sol (mixed n (cp_A o) A) n) (sol_mat _ _ _ _ _) (fun q Hq => Hnz n q Hn Hq) i q Hi Hq). }
    fold (cp_error X r (mixed n (cp_A o) A) n (sol (mixed n (cp_A o) A) n)). apply (sol_opt pinv X r mats HP Hne ltac:(lia) E1); auto.
  Qed.

  (** the error after the modes 0..n of a step *)
  Let after A o n := sqdist X (cp_tensor r (column r (cmax (sol (mixed n (cp_A o) A) n))) (mixed (S n) (cp_A o) A)).

  Lemma after_mono A o : cp_factors X r A -> cp_step pinv X r A = Ok o -> alive A o ->
    forall n m, (n <= m)%nat -> (m < N)%nat -> after A o m <= after A o n.
  Proof.
    intros HA E Ha n m Hnm. induction Hnm as [|m Hnm IH]; intros Hm; [apply Rle_refl|].
    eapply Rle_trans; [|apply IH; lia]. unfold after.
    destruct (step_sweep pinv X r A o HP HA E) as (_ & _ & HA' & _).
    pose proof (mixed_factors X r (cp_A o) A (S m) HA' HA ltac:(unfold N in *; lia)) as HM.
    pose proof (mode_step A o HA E Ha (S m) (mat_at (mixed (S m) (cp_A o) A) (S m)) (column r (cmax (sol (mixed m (cp_A o) A) m))) Hm (proj2 HM _ Hm)) as M.
    unfold mat_at in M at 1. rewrite replace_self in M. exact M.
  Qed.

  Lemma after_last A o : cp_factors X r A -> cp_step pinv X r A = Ok o -> after A o (N - 1) = sqdist X (cp_full o).
  Proof.
    intros HA E. destruct (step_sweep pinv X r A o HP HA E) as (_ & Ho & HA' & _ & _ & Hf & _).
    unfold after. rewrite Hf. pose proof (proj1 HA) as L. pose proof (proj1 HA') as L'. fold N in Ho.
    replace (S (N - 1)) with (length A) by (unfold N in *; lia). rewrite mixed_all by lia. reflexivity.
  Qed.

  Lemma full_after A o n : cp_factors X r A -> cp_step pinv X r A = Ok o -> alive A o -> (n < N)%nat -> sqdist X (cp_full o) <= after A o n.
  Proof. intros HA E Ha Hn. rewrite <- (after_last A o HA E). apply after_mono; auto; lia. Qed.

  Lemma weights_column (l : tensor R) c : (forall q, (q < r)%nat -> get l [q] = c q) -> column r c = weights r l.
  Proof.
    intros H. apply tensor_ext; [|apply wf_gen|reflexivity|].
    - unfold wf, column. cbn [shp dat prod]. rewrite map_length, seq_length. lia.
    - intros idx Hv. change (shp (column r c)) with [r; 1%nat] in Hv. apply valid2_inv in Hv as (q & z & -> & Hq & Hz). assert (z = 0)%nat by lia. subst z.
      fold (mget (column r c) q 0). fold (mget (weights r l) q 0). unfold weights. rewrite column_get, mget_mgen by (auto; lia). symmetry. apply H; auto.
  Qed.

  Lemma lam_last A o : cp_factors X r A -> cp_step pinv X r A = Ok o -> forall q, (q < r)%nat ->
    get (cp_lam o) [q] = cmax (sol (mixed (N - 1) (cp_A o) A) (N - 1)) q.
  Proof.
    intros HA E q Hq. destruct (step_sweep pinv X r A o HP HA E) as (_ & _ & _ & _ & HL & _). rewrite HL.
    unfold lams, get. cbn [shp dat ravel]. rewrite Nat.mul_1_r, Nat.add_0_r. rewrite nth_map_seq by auto. reflexivity.
  Qed.

  (** ** fixed points are optimal in every mode *)
  Lemma cp_fixed_best A o : cp_factors X r A -> cp_step pinv X r A = Ok o -> alive A o -> cp_A o = A ->
    forall n, (n < N)%nat -> cp_best_mode X r (weights r (cp_lam o)) A n /\ cp_normal_equations X r (weights r (cp_lam o)) A n.
  Proof.
    intros HA E Ha Hfix n Hn.
    assert (HB : cp_best_mode X r (weights r (cp_lam o)) A n).
    { intros C mu HC. rewrite <- Hfix at 1.
      destruct (c45_step pinv X r A o HP HA E) as (_ & _ & _ & Hf & _). fold (weights r (cp_lam o)) in Hf. rewrite <- Hf.
      eapply Rle_trans; [apply (full_after A o n HA E Ha Hn)|]. unfold after.
      pose proof (mode_step A o HA E Ha n C mu Hn HC) as M. rewrite Hfix, mixed_same in M. rewrite Hfix, !mixed_same in *. exact M. }
    split; [exact HB|]. destruct (step_parts pinv X r A o HA E) as (Hne & Ho & mats & E1 & _).
    apply (best_normal pinv X r mats HP Hne ltac:(unfold N in *; lia) E1 A n _ HA Hn). exact HB.
  Qed.

  (** ** stationary points are fixed *)
  Lemma cp_modes_kept A mu mats : nonempty (shp X) -> (2 <= N <= 26)%nat -> unfold_all X = Ok mats -> cp_factors X r A ->
    max_normalised X r A -> (forall q, (q < r)%nat -> 0 < mget mu q 0) ->
    (forall n, (n < N)%nat -> invertible r (gram_but r A n) /\ cp_normal_equations X r mu A n) ->
    forall n k lam, (k + n)%nat = N -> exists lam', cp_modes pinv mats r (seq k n) A lam = Ok (A, lam') /\
      (n <> 0%nat -> shp lam' = [r] /\ forall q, (q < r)%nat -> get lam' [q] = mget mu q 0).
  Proof.
    intros Hne Ho E1 HA Hmx Hpos Hst. induction n as [|n IH]; intros k lam Hk; cbn [seq cp_modes]; [exists lam; split; [reflexivity|lia]|].
    destruct (Hst k ltac:(lia)) as [HI HN].
    destruct (mode_kept pinv X r mats HP Hne Ho E1 A k mu HA ltac:(unfold N in *; lia) HI (fun q Hq => Hmx k q ltac:(unfold N in *; lia) Hq) Hpos HN) as [K1 K2].
    rewrite (cp_mode_run pinv X r mats HP Hne Ho E1) by (auto; unfold N in *; lia). cbn [bind fst snd]. rewrite K1.
    unfold mat_at. rewrite replace_self. destruct (IH (S k) (lams r (als_solution pinv X r A k)) ltac:(lia)) as (lam' & E & G).
    destruct n as [|n].
    - exists (lams r (als_solution pinv X r A k)). split; [reflexivity|]. intros _. split; [reflexivity|]. intros q Hq.
      unfold lams, get. cbn [shp dat ravel]. rewrite Nat.mul_1_r, Nat.add_0_r. rewrite nth_map_seq by auto. apply K2; auto.
    - exists lam'. split; [exact E|]. intros _. apply G. discriminate.
  Qed.

  Lemma cp_stationary_fixed A mu : wf X -> nonempty (shp X) -> (2 <= N <= 25)%nat -> cp_factors X r A ->
    max_normalised X r A -> (forall q, (q < r)%nat -> 0 < mget mu q 0) ->
    (forall n, (n < N)%nat -> invertible r (gram_but r A n) /\ cp_normal_equations X r mu A n) ->
    exists o, cp_step pinv X r A = Ok o /\ cp_A o = A /\ shp (cp_lam o) = [r] /\ forall q, (q < r)%nat -> get (cp_lam o) [q] = mget mu q 0.
  Proof.
    intros HX Hne Ho HA Hmx Hpos Hst. destruct (cp_step_total pinv X r A HP HX Hne Ho HA) as (o & E). exists o. split; [exact E|].
    destruct (step_parts pinv X r A o HA E) as (_ & _ & mats & E1 & E2 & _).
    destruct (cp_modes_kept A mu mats Hne ltac:(lia) E1 HA Hmx Hpos Hst N 0%nat (mkT [] []) eq_refl) as (lam' & E3 & G).
    fold N in E2. rewrite E2 in E3. injection E3 as -> ->. split; [reflexivity|]. apply G. lia.
  Qed.

  (** ** steps that move lower the error *)
  Lemma cp_still A mu o : cp_factors X r A -> cp_step pinv X r A = Ok o -> alive A o ->
    max_normalised X r A -> (forall q, (q < r)%nat -> 0 < mget mu q 0) ->
    (forall n, (n < N)%nat -> invertible r (gram_but r A n)) ->
    sqdist X (cp_tensor r mu A) <= sqdist X (cp_full o) ->
    cp_A o = A /\ forall q, (q < r)%nat -> get (cp_lam o) [q] = mget mu q 0.
  Proof.
    intros HA E Ha Hmx Hpos HI Hle.
    destruct (step_parts pinv X r A o HA E) as (Hne & Ho & mats & E1 & E2 & _). fold N in Ho.
    destruct (step_sweep pinv X r A o HP HA E) as (_ & _ & HA' & HF & _).
    pose proof (proj1 HA) as L. pose proof (proj1 HA') as L'.
    assert (G : forall n, (n <= N)%nat -> mixed n (cp_A o) A = A).
    { induction n as [|n IH]; intros Hn; [reflexivity|]. specialize (IH ltac:(lia)).
      rewrite mixed_S by (unfold N in *; lia). rewrite IH.
      assert (HN : cp_normal_equations X r mu A n).
      { apply (best_normal pinv X r mats HP Hne ltac:(unfold N in *; lia) E1 A n mu HA ltac:(unfold N in *; lia)). intros C nu HC.
        eapply Rle_trans; [exact Hle|]. eapply Rle_trans; [apply (full_after A o n HA E Ha ltac:(lia))|]. unfold after.
        pose proof (mode_step A o HA E Ha n C nu ltac:(lia) HC) as M. rewrite IH in M. rewrite IH. exact M. }
      destruct (mode_kept pinv X r mats HP Hne ltac:(unfold N in *; lia) E1 A n mu HA ltac:(unfold N in *; lia) (HI n ltac:(lia)) (fun q Hq => Hmx n q ltac:(unfold N in *; lia) Hq) Hpos HN) as [K1 _].
      rewrite HF by (unfold N in *; lia). rewrite IH, K1. apply replace_self. }
    assert (Hfix : cp_A o = A). { rewrite <- (mixed_all (cp_A o) A) by lia. apply G. lia. }
    split; [exact Hfix|]. intros q Hq. rewrite (lam_last A o HA E q Hq). rewrite G by lia.
    assert (HN : cp_normal_equations X r mu A (N - 1)).
    { apply (best_normal pinv X r mats HP Hne ltac:(unfold N in *; lia) E1 A (N - 1) mu HA ltac:(unfold N in *; lia)). intros C nu HC.
      eapply Rle_trans; [exact Hle|]. eapply Rle_trans; [apply (full_after A o (N - 1) HA E Ha ltac:(lia))|]. unfold after.
      pose proof (mode_step A o HA E Ha (N - 1)%nat C nu ltac:(lia) HC) as M. rewrite (G (N - 1)%nat ltac:(lia)) in M. rewrite (G (N - 1)%nat ltac:(lia)). exact M. }
    apply (mode_kept pinv X r mats HP Hne ltac:(unfold N in *; lia) E1 A (N - 1) mu HA ltac:(unfold N in *; lia) (HI (N - 1)%nat ltac:(lia)) (fun q Hq => Hmx (N - 1)%nat q ltac:(unfold N in *; lia) Hq) Hpos HN). exact Hq.
  Qed.

  (** ** no progress: the factors before are optimal in the first mode *)
  Lemma cp_no_progress A mu o : cp_factors X r A -> cp_step pinv X r A = Ok o -> alive A o ->
    sqdist X (cp_tensor r mu A) <= sqdist X (cp_full o) -> cp_best_mode X r mu A 0.
  Proof.
    intros HA E Ha Hle C nu HC. destruct (step_parts pinv X r A o HA E) as (_ & Ho & _). fold N in Ho.
    eapply Rle_trans; [exact Hle|]. eapply Rle_trans; [apply (full_after A o 0 HA E Ha ltac:(lia))|].
    apply (mode_step A o HA E Ha 0%nat C nu ltac:(lia) HC).
  Qed.

  (** the factors after a step are optimal in the last mode *)
  Lemma cp_last_best A o : cp_factors X r A -> cp_step pinv X r A = Ok o -> alive A o ->
    cp_best_mode X r (weights r (cp_lam o)) (cp_A o) (N - 1).
  Proof.
    intros HA E Ha C nu HC. destruct (step_parts pinv X r A o HA E) as (_ & Ho & _). fold N in Ho.
    destruct (c45_step pinv X r A o HP HA E) as (HA' & _ & _ & Hf & _). fold (weights r (cp_lam o)) in Hf. rewrite <- Hf.
    rewrite <- (after_last A o HA E). unfold after.
    eapply Rle_trans; [apply (mode_step A o HA E Ha (N - 1)%nat C nu ltac:(lia) HC)|]. right. f_equal. f_equal.
    pose proof (proj1 HA) as L. pose proof (proj1 HA') as L'.
    transitivity (replace (N - 1) C (replace (N - 1) (mat_at (cp_A o) (N - 1)) (mixed (N - 1) (cp_A o) A))); [symmetry; apply replace_twice|].
    rewrite <- mixed_S by (unfold N in *; lia). replace (S (N - 1)) with (length A) by (unfold N in *; lia). rewrite mixed_all by lia. reflexivity.
  Qed.
End CpStep.

Section Hooi.
  Variables (svdU : tensor R -> tensor R) (X : tensor R) (ranks : list nat).
  Hypothesis HS : left_svd svdU.
  Hypothesis HX : wf X.
  Hypothesis Hne : nonempty (shp X).
  Hypothesis Hrk : nonempty ranks.
  Hypothesis Hl : length ranks = ndims X.
  Let N := ndims X.
  Let zr := map Z.of_nat ranks.
  Let err A := sqdist X (tucker_tensor (project X A) A).

  Lemma hooi_facts A o : factor_state X ranks A -> hooi_step svdU X zr A = Ok o ->
    (2 <= N <= 13)%nat /\ factor_state X ranks (ho_A o) /\ ho_core o = project X (ho_A o) /\ ho_full o = tucker_tensor (project X (ho_A o)) (ho_A o).
  Proof.
    intros HA E. assert (Ho : (2 <= ndims X <= 13)%nat) by (apply (hooi_step_order svdU X zr A o); auto; apply HA).
    destruct (hooi_step_ok svdU X ranks HS HX Hne Hrk Hl Ho A o HA E) as (H1 & H2 & H3 & _). rewrite H3, H2. auto.
  Qed.

  Lemma mixed_state A' A n : factor_state X ranks A' -> factor_state X ranks A -> (n <= N)%nat -> factor_state X ranks (mixed n A' A).
  Proof.
    intros [L' H'] [L H] Hn. fold N in L, L'. split; [rewrite mixed_length; lia|]. intros k Hk. unfold mat_at. rewrite nth_mixed by (unfold N in *; lia).
    destruct (Nat.ltb k n); [apply H'|apply H]; auto.
  Qed.

  Lemma core_of A : factor_state X ranks A -> core_like ranks (project X A).
  Proof. intros HA. split; [apply wf_mode_products; exact HX|apply (proj_shape' X _ _ (state_tucker X _ _ HA Hl) X eq_refl)]. Qed.

  Lemma hooi_mode_step A o n C h : factor_state X ranks A -> hooi_step svdU X zr A = Ok o -> (n < N)%nat ->
    core_like ranks h -> is_mat C (nth n (shp X) 0%nat) (nth n ranks 0%nat) ->
    err (mixed (S n) (ho_A o) A) <= sqdist X (tucker_tensor h (replace n C (mixed n (ho_A o) A))).
  Proof.
    intros HA E Hn Hh HC. destruct (hooi_facts A o HA E) as (Ho & HA' & _).
    pose proof (hooi_step_best_any svdU X ranks A o HS HX Hne Hrk Hl HA E n h C Hn Hh HC) as G.
    rewrite (mixed_S (ho_A o) A n) in G at 3 by (rewrite ?(proj1 HA), ?(proj1 HA'); auto). rewrite replace_twice in G. exact G.
  Qed.

  Lemma hooi_after A o : factor_state X ranks A -> hooi_step svdU X zr A = Ok o -> forall n m, (n <= m)%nat -> (m <= N)%nat ->
    err (mixed m (ho_A o) A) <= err (mixed n (ho_A o) A).
  Proof.
    intros HA E n m Hnm. destruct (hooi_facts A o HA E) as (Ho & HA' & _). induction Hnm as [|m Hnm IH]; intros Hm; [apply Rle_refl|].
    eapply Rle_trans; [|apply IH; lia].
    pose proof (mixed_state (ho_A o) A m HA' HA ltac:(lia)) as HM.
    pose proof (hooi_mode_step A o m (mat_at (mixed m (ho_A o) A) m) (project X (mixed m (ho_A o) A)) HA E ltac:(lia) (core_of _ HM) (proj1 (proj2 HM m ltac:(unfold N in *; lia)))) as M.
    unfold mat_at in M. rewrite replace_self in M. exact M.
  Qed.

  Lemma hooi_end A o : factor_state X ranks A -> hooi_step svdU X zr A = Ok o -> err (mixed N (ho_A o) A) = sqdist X (ho_full o).
  Proof.
    intros HA E. destruct (hooi_facts A o HA E) as (Ho & HA' & _ & Ef). replace N with (length A) by apply HA.
    rewrite mixed_all by (rewrite (proj1 HA), (proj1 HA'); reflexivity). rewrite Ef. reflexivity.
  Qed.

  (** fixed points are optimal in every mode *)
  Lemma hooi_fixed_best A o : factor_state X ranks A -> hooi_step svdU X zr A = Ok o -> ho_A o = A ->
    forall n, (n < N)%nat -> tucker_best_mode X ranks (ho_core o) A n.
  Proof.
    intros HA E Hfix n Hn C h HC Hh. destruct (hooi_facts A o HA E) as (Ho & HA' & Ec & Ef).
    pose proof (hooi_mode_step A o n C h HA E Hn Hh HC) as M. rewrite Hfix, !mixed_same in M. rewrite Ec, Hfix. exact M.
  Qed.

  (** no progress: the state before is optimal in the first mode *)
  Lemma hooi_no_progress A o : factor_state X ranks A -> hooi_step svdU X zr A = Ok o ->
    sqdist X (tucker_tensor (project X A) A) <= sqdist X (ho_full o) -> tucker_best_mode X ranks (project X A) A 0.
  Proof.
    intros HA E Hle C h HC Hh. destruct (hooi_facts A o HA E) as (Ho & _).
    eapply Rle_trans; [exact Hle|]. rewrite <- (hooi_end A o HA E).
    eapply Rle_trans; [apply (hooi_after A o HA E 1 N); lia|]. apply (hooi_mode_step A o 0 C h HA E ltac:(lia) Hh HC).
  Qed.
End Hooi.

(** ** C91 *)
Lemma unfold_all_ok (X : tensor R) : nonempty (shp X) -> exists mats, unfold_all X = Ok mats.
Proof.
  intros Hne. unfold unfold_all. pose (g := fun z => match unfold X z with Ok v => v | Raise _ => mkT [] [] end). exists (map g (zrange (ndims X))).
  apply mapM_ok. intros z Hz. apply in_zrange in Hz. rewrite <- (Z2Nat.id z) by lia. unfold g.
  destruct (unfold_ok X (Z.to_nat z)) as (M & -> & _); [unfold ndims in *; lia|apply nonempty_nth; auto; unfold ndims in *; lia|reflexivity].
Qed.
Lemma c91_normal (X : tensor R) r lam A n : nonempty (shp X) -> (2 <= ndims X <= 26)%nat -> cp_factors X r A ->
  (n < ndims X)%nat -> (cp_best_mode X r lam A n <-> cp_normal_equations X r lam A n).
Proof.
  intros Hne Ho HA Hn. destruct penrose_exists as (pinv & HP). destruct (unfold_all_ok X Hne) as (mats & E).
  apply (best_normal pinv X r mats HP Hne Ho E); auto.
Qed.
Lemma c91_fixed pinv (X : tensor R) r A o : penrose pinv -> cp_factors X r A -> cp_step pinv X r A = Ok o -> alive pinv X r A o ->
  cp_A o = A -> forall n, (n < ndims X)%nat ->
  cp_best_mode X r (weights r (cp_lam o)) A n /\ cp_normal_equations X r (weights r (cp_lam o)) A n.
Proof. intros HP. apply cp_fixed_best; auto. Qed.
Lemma c91_stationary pinv (X : tensor R) r A mu : penrose pinv -> wf X -> nonempty (shp X) -> (2 <= ndims X <= 25)%nat ->
  cp_factors X r A -> max_normalised X r A -> (forall q, (q < r)%nat -> 0 < mget mu q 0) ->
  (forall n, (n < ndims X)%nat -> invertible r (gram_but r A n) /\ cp_normal_equations X r mu A n) ->
  exists o, cp_step pinv X r A = Ok o /\ cp_A o = A /\ shp (cp_lam o) = [r] /\ forall q, (q < r)%nat -> get (cp_lam o) [q] = mget mu q 0.
Proof. intros HP. apply cp_stationary_fixed; auto. Qed.
Lemma c91_strict pinv (X : tensor R) r A mu o : penrose pinv -> cp_factors X r A -> cp_step pinv X r A = Ok o -> alive pinv X r A o ->
  max_normalised X r A -> (forall q, (q < r)%nat -> 0 < mget mu q 0) ->
  (forall n, (n < ndims X)%nat -> invertible r (gram_but r A n)) ->
  (cp_A o <> A \/ exists q, (q < r)%nat /\ get (cp_lam o) [q] <> mget mu q 0) ->
  sqdist X (cp_full o) < sqdist X (cp_tensor r mu A).
Proof.
  intros HP HA E Ha Hm Hpos HI Hd. apply Rnot_le_lt. intros Hle.
  destruct (cp_still pinv X r HP A mu o HA E Ha Hm Hpos HI Hle) as [H1 H2]. destruct Hd as [Hd|(q & Hq & Hd)]; auto.
Qed.
Lemma c91_no_progress pinv (X : tensor R) r A mu o : penrose pinv -> cp_factors X r A -> cp_step pinv X r A = Ok o -> alive pinv X r A o ->
  sqdist X (cp_tensor r mu A) <= sqdist X (cp_full o) -> cp_best_mode X r mu A 0.
Proof. intros HP. apply cp_no_progress; auto. Qed.
Lemma c91_hooi_fixed svdU (X : tensor R) ranks A o : left_svd svdU -> wf X -> nonempty (shp X) -> nonempty ranks ->
  length ranks = ndims X -> factor_state X ranks A -> hooi_step svdU X (map Z.of_nat ranks) A = Ok o -> ho_A o = A ->
  forall n, (n < ndims X)%nat -> tucker_best_mode X ranks (ho_core o) A n.
Proof. intros HS HX Hne Hrk Hl. apply (hooi_fixed_best svdU X ranks HS HX Hne Hrk Hl). Qed.
Lemma c91_hooi_no_progress svdU (X : tensor R) ranks A o : left_svd svdU -> wf X -> nonempty (shp X) -> nonempty ranks ->
  length ranks = ndims X -> factor_state X ranks A -> hooi_step svdU X (map Z.of_nat ranks) A = Ok o ->
  sqdist X (tucker_tensor (project X A) A) <= sqdist X (ho_full o) -> tucker_best_mode X ranks (project X A) A 0.
Proof. intros HS HX Hne Hrk Hl. apply (hooi_no_progress svdU X ranks HS HX Hne Hrk Hl). Qed.
