(** Property lemmas for CP_ALS: C44, C45 and completion of training. *)

From Coq Require Import ZArith List Bool Arith Lia Permutation Reals Lra Psatz IndefiniteDescription.
From Verif Require Import Num Py Tensor TF TensorFacts TFFacts Sums Ops OpsLemmas Types Loss Fact Train Spec SpecR LayoutFacts SpecFacts MulFacts TtmFacts SkipFacts TtmLemmas Matricize
  KronFacts RSums MatR KronAlg NormFacts SpecTucker MultiR SvdFacts TuckerFacts TuckerRun TuckerLemmas SpecCp SpecBcu BcuFacts SpecTrain TrainLemmas CpFacts AlsFacts
  Spectral SvdExists.
Import ListNotations.
Local Open Scope R_scope.

Section Inv.
  Context {T : Type} {NT : Num T}.
  Lemma unfold_all_nonempty (X : tensor T) mats : unfold_all X = Ok mats -> nonempty (shp X).
  Proof.
    intros H. unfold unfold_all in H. unfold nonempty. rewrite Forall_forall. intros d Hd Hz. subst d.
    destruct (In_nth (shp X) 0%nat 0%nat Hd) as (n & Hn & En).
    pose proof (mapM_inv _ _ _ H) as F.
    assert (Hin : In (Z.of_nat n) (zrange (ndims X))) by (apply in_zrange; unfold ndims; lia).
    assert (G : forall (l : list Z) (m : list (tensor T)) z, Forall2 (fun a b => unfold X a = Ok b) l m -> In z l -> exists b, unfold X z = Ok b).
    { intros l m z F2. induction F2 as [|x y l m E F2 IH]; intros Hz; [contradiction|]. destruct Hz as [->|Hz]; eauto. }
    destruct (G _ _ _ F Hin) as (b & Eb). rewrite unfold_err_zero in Eb by auto. discriminate.
  Qed.

  Lemma cp_modes_len pinv (mats : list (tensor T)) rank modes : forall A lam A' lam',
    cp_modes pinv mats rank modes A lam = Ok (A', lam') -> length A' = length A.
  Proof.
    induction modes as [|m modes IH]; intros A lam A' lam' H; cbn [cp_modes] in H; [congruence|].
    destruct (cp_mode pinv mats rank m A) as [[A1 l1]|] eqn:E; [|discriminate]. cbn [bind fst snd] in H.
    apply IH in H. rewrite H. unfold cp_mode in E. mon E. injection E as <- _. apply upd_length.
  Qed.

  Lemma kt_extract_len (U : list (tensor T)) lam t : kt_extract U lam = Ok t -> (1 <= length U <= 25)%nat.
  Proof.
    unfold kt_extract. intros H. apply bind_ok in H as (K & E & _).
    destruct (le_gt_dec (length U) 25) as [L|L]; [|rewrite khatri_err_many in E by auto; discriminate].
    destruct U; [discriminate|]. simpl in *. lia.
  Qed.

  Lemma cp_step_order pinv (X : tensor T) rank A o : length A = ndims X -> cp_step pinv X rank A = Ok o -> (2 <= ndims X <= 25)%nat.
  Proof.
    intros HL H. unfold cp_step in H. apply bind_ok in H as (mats & _ & H). apply bind_ok in H as ([A' lam] & E & H).
    apply bind_ok in H as (full & Ef & _). pose proof (cp_modes_len _ _ _ _ _ _ _ _ E) as L. apply kt_extract_len in Ef.
    split; [|lia]. destruct (ndims X) as [|[|k]] eqn:Ek; try lia.
    assert (HA1 : length A = 1%nat) by lia. destruct A as [|a [|b A]]; try (simpl in HA1; lia).
    cbn [seq cp_modes] in E. apply bind_ok in E as (p & E & _). unfold cp_mode in E.
    apply bind_ok in E as (G & _ & E). apply bind_ok in E as (K & E & _). discriminate E.
  Qed.
End Inv.

Section Step.
  Variables (pinv : tensor R -> tensor R) (X : tensor R) (r : nat) (A : list (tensor R)) (o : cp_out R).
  Hypothesis HP : penrose pinv.
  Hypothesis HA : cp_factors X r A.
  Hypothesis Hstep : cp_step pinv X r A = Ok o.
  Let N := ndims X.
  Let sol n := als_solution pinv X r (mixed n (cp_A o) A) n.

  Lemma step_parts : nonempty (shp X) /\ (2 <= N <= 25)%nat /\ exists mats, unfold_all X = Ok mats /\
    cp_modes pinv mats r (seq 0 N) A (mkT [] []) = Ok (cp_A o, cp_lam o) /\
    kt_extract (cp_A o) (mkT (shp (cp_lam o) ++ [1%nat]) (dat (cp_lam o))) = Ok (cp_full o) /\
    metrics_of X (cp_full o) = Ok (cp_met o).
  Proof.
    pose proof Hstep as H. pose proof (cp_step_order _ _ _ _ _ (proj1 HA) H) as Ho.
    unfold cp_step in H. apply bind_ok in H as (mats & E1 & H). apply bind_ok in H as ([A' lam] & E2 & H).
    apply bind_ok in H as (full & E3 & H). apply bind_ok in H as (m & E4 & H). injection H as <-. cbn [cp_A cp_lam cp_full cp_met].
    split; [apply (unfold_all_nonempty X mats E1)|]. split; [exact Ho|]. exists mats. auto.
  Qed.

  Lemma step_sweep : nonempty (shp X) /\ (2 <= N <= 25)%nat /\ cp_factors X r (cp_A o) /\
    (forall m, (m < N)%nat -> mat_at (cp_A o) m = normed r (sol m)) /\
    cp_lam o = lams r (sol (N - 1)) /\
    cp_full o = cp_tensor r (column r (cmax (sol (N - 1)))) (cp_A o) /\ metrics_of X (cp_full o) = Ok (cp_met o) /\
    (forall m, (m < N)%nat -> least_squares X r (mixed m (cp_A o) A) m (sol m)) /\
    ((forall m q, (m < N)%nat -> (q < r)%nat -> cmax (sol m) q <> 0) -> forall mu,
       sqdist X (cp_full o) <= sqdist X (cp_tensor r mu A)).
  Proof.
    destruct step_parts as (Hne & Ho & mats & E1 & E2 & E3 & E4). assert (Ho' : (2 <= ndims X <= 26)%nat) by (unfold N in *; lia).
    destruct (sweep pinv X r mats HP Hne Ho' E1 N 0 A _ _ _ eq_refl HA E2) as (HA' & _ & HS & _).
    destruct (HS (N - 1)%nat ltac:(lia)) as [_ HL]. specialize (HL eq_refl). fold (sol (N - 1)) in HL.
    assert (Hf : cp_full o = cp_tensor r (column r (cmax (sol (N - 1)))) (cp_A o)).
    { rewrite HL in E3. unfold lams in E3. cbn [shp dat app] in E3. fold (column r (cmax (sol (N - 1)))) in E3.
      rewrite (kt_extract_ok RLR _ _ r) in E3; [congruence| | | |].
      - intros E. pose proof (proj1 HA') as L. rewrite E in L. simpl in L. unfold N in *. lia.
      - rewrite (proj1 HA'). unfold N in *. lia.
      - apply (fac_in X r _ HA').
      - split; [|reflexivity]. unfold wf, column. cbn [shp dat prod]. rewrite map_length, seq_length. lia. }
    split; [exact Hne|]. split; [exact Ho|]. split; [exact HA'|]. split; [intros m Hm; apply HS; lia|]. split; [exact HL|]. split; [exact Hf|]. split; [exact E4|].
    split.
    - intros m Hm. apply (sol_least_squares pinv X r mats HP Hne Ho' E1); auto. apply mixed_factors; auto. unfold N in *. lia.
    - intros Hnz mu. rewrite Hf. apply (sweep_descends pinv X r mats HP Hne Ho' E1 A (cp_A o) (cp_lam o) HA E2); auto.
  Qed.

  Lemma sol_rows m : nrows (sol m) = nth m (shp X) 0%nat. Proof. reflexivity. Qed.
  Lemma sol_pos m : (m < N)%nat -> nrows (sol m) <> 0%nat.
  Proof. intros Hm. destruct step_parts as (Hne & _). rewrite sol_rows. apply nonempty_nth; auto. Qed.

  Lemma step_c44 mu :
    (forall n q v, (n < N)%nat -> (q < r)%nat -> column_max (sol n) q v -> v <> 0) ->
    sqdist X (cp_full o) <= sqdist X (cp_tensor r mu A).
  Proof.
    intros Hg. apply step_sweep. intros m q Hm Hq. apply (Hg m q); auto. apply cmax_ok, sol_pos, Hm.
  Qed.

  Lemma step_c45 : cp_factors X r (cp_A o) /\
    (forall n, (n < N)%nat -> least_squares X r (mixed n (cp_A o) A) n (sol n) /\
       forall q, (q < r)%nat -> exists v, column_max (sol n) q v /\
         (forall i, (i < nth n (shp X) 0)%nat -> mget (mat_at (cp_A o) n) i q = mget (sol n) i q / v) /\
         (0 < v -> column_max (mat_at (cp_A o) n) q 1) /\
         (n = (N - 1)%nat -> get (cp_lam o) [q] = v)) /\
    is_mat (mgen r 1 (fun q _ => get (cp_lam o) [q])) r 1 /\
    shp (cp_lam o) = [r] /\
    cp_full o = cp_tensor r (mgen r 1 (fun q _ => get (cp_lam o) [q])) (cp_A o) /\
    ((forall q, (q < r)%nat -> get (cp_lam o) [q] <> 0) ->
     cp_full o = cp_tensor r (ones r) (replace (N - 1) (sol (N - 1)) (cp_A o))).
  Proof.
    destruct step_sweep as (Hne & Ho & HA' & HF & HL & Hf & _ & HS & _).
    assert (Hget : forall q, (q < r)%nat -> get (cp_lam o) [q] = cmax (sol (N - 1)) q).
    { intros q Hq. rewrite HL. unfold lams, get. cbn [shp dat ravel]. rewrite Nat.mul_1_r, Nat.add_0_r. rewrite nth_map_seq by auto. reflexivity. }
    assert (Ecol : column r (cmax (sol (N - 1))) = mgen r 1 (fun q _ => get (cp_lam o) [q])).
    { apply tensor_ext; [|apply wf_gen|reflexivity|].
      - unfold wf, column. cbn [shp dat prod]. rewrite map_length, seq_length. lia.
      - intros idx Hv. change (shp (column r (cmax (sol (N - 1))))) with [r; 1%nat] in Hv. apply valid2_inv in Hv as (q & z & -> & Hq & Hz). assert (z = 0)%nat by lia. subst z.
        fold (mget (column r (cmax (sol (N - 1)))) q 0). fold (mget (mgen r 1 (fun q _ => get (cp_lam o) [q])) q 0).
        rewrite column_get, mget_mgen by (auto; lia). symmetry. apply Hget; auto. }
    split; [exact HA'|]. split.
    - intros n Hn. split; [apply HS; auto|]. intros q Hq. exists (cmax (sol n) q). pose proof (cmax_ok (sol n) q (sol_pos n Hn)) as HM.
      assert (Hd : forall i, (i < nth n (shp X) 0)%nat -> mget (mat_at (cp_A o) n) i q = mget (sol n) i q / cmax (sol n) q).
      { intros i Hi. rewrite HF by auto. unfold normed. rewrite mget_mgen by auto. reflexivity. }
      split; [exact HM|]. split; [exact Hd|]. split.
      + intros Hv. destruct HM as [(i & Hi & Ei) HM]. rewrite sol_rows in Hi, HM.
        assert (Er : nrows (mat_at (cp_A o) n) = nth n (shp X) 0%nat) by (rewrite HF by auto; reflexivity).
        split.
        * exists i. rewrite Er. split; [exact Hi|]. rewrite Hd, Ei by auto. field. lra.
        * intros j Hj. rewrite Er in Hj. rewrite Hd by auto. apply (Rmult_le_reg_r (cmax (sol n) q)); [exact Hv|].
          unfold Rdiv. rewrite Rmult_assoc, Rinv_l, Rmult_1_r, Rmult_1_l by lra. apply HM; auto.
      + intros ->. apply Hget, Hq.
    - split; [apply is_mat_mgen|]. split; [rewrite HL; reflexivity|]. split; [rewrite <- Ecol; exact Hf|].
      intros Hnz. rewrite Hf. pose proof (proj1 HA') as L'. fold N in L'.
      rewrite <- (replace_self (cp_A o) (N - 1) (mkT [] [])) at 1. fold (mat_at (cp_A o) (N - 1)).
      apply (rescale X r (cp_A o) (N - 1) (sol (N - 1)) (cmax (sol (N - 1))) (mat_at (cp_A o) (N - 1)) HA').
      + unfold N in *. lia.
      + apply is_mat_mgen.
      + apply HA'. unfold N in *. lia.
      + intros i q Hi Hq. rewrite HF by lia. unfold normed. rewrite mget_mgen by auto. field. rewrite <- Hget by auto. auto.
  Qed.
End Step.

(** the solution only depends on the other factors *)
Lemma but_replace A n (B : tensor R) idx q : but (replace n B A) n idx q = but A n idx q.
Proof.
  unfold but. rewrite replace_length. f_equal. apply map_ext_in. intros k Hk. apply in_others in Hk. unfold mat_at.
  rewrite nth_replace_ne by lia. reflexivity.
Qed.

Lemma sol_replace pinv (X : tensor R) r A n B : als_solution pinv X r (replace n B A) n = als_solution pinv X r A n.
Proof.
  assert (E1 : mttkrp X r (replace n B A) n = mttkrp X r A n).
  { unfold mttkrp, mgen. apply gen_ext. intros idx _. rewrite <- !(isum_msum RLR). apply isum_ext. intros i _. rewrite but_replace. reflexivity. }
  assert (E2 : gram_but r (replace n B A) n = gram_but r A n).
  { unfold gram_but, mgen. apply gen_ext. intros idx _. rewrite replace_length. f_equal. apply map_ext_in. intros k Hk. apply in_others in Hk.
    unfold mat_at. rewrite nth_replace_ne by lia. reflexivity. }
  unfold als_solution. rewrite E1, E2. reflexivity.
Qed.

Lemma least_squares_replace (X : tensor R) r A n B C : least_squares X r (replace n C A) n B -> least_squares X r A n B.
Proof.
  unfold least_squares, cp_error. intros [H1 H2]. split; [exact H1|]. intros D HD. specialize (H2 D HD).
  assert (E : forall U, replace n U (replace n C A) = replace n U A).
  { intros U. clear. revert A. induction n as [|n IH]; intros [|a A]; cbn [replace]; auto. rewrite IH. reflexivity. }
  rewrite !E in H2. exact H2.
Qed.

(** C44 *)
Lemma c44_step pinv (X : tensor R) r A o mu : penrose pinv -> wf X -> cp_factors X r A -> cp_step pinv X r A = Ok o ->
  (forall n q v, (n < ndims X)%nat -> (q < r)%nat ->
     column_max (als_solution pinv X r (mixed n (cp_A o) A) n) q v -> v <> 0) ->
  sqdist X (cp_full o) <= sqdist X (cp_tensor r mu A) /\ m_obj (cp_met o) = / 2 * sqdist X (cp_full o).
Proof.
  intros HP HX HA E Hg. split; [apply (step_c44 pinv X r A o HP HA E mu Hg)|].
  destruct (step_sweep pinv X r A o HP HA E) as (_ & _ & _ & _ & _ & _ & EM & _).
  pose proof (metrics_shape _ _ _ EM) as Hs. destruct (metrics_R X _ _ HX EM) as (_ & M & _). rewrite M, (sqdist_comm _ _ Hs). reflexivity.
Qed.

(** the factors at the beginning of step k+1 of a run *)
Definition before (A0 : list (tensor R)) (os : list (sobs R)) (k : nat) : list (tensor R) :=
  match k with 0 => A0 | S j => nth j (map ob_factors os) [] end.

Lemma c44_run pinv (X : tensor R) r A0 os : penrose pinv -> wf X -> cp_factors X r A0 -> als_run (cp_run pinv X r) A0 os ->
  (forall k o n q v, nth_error os k = Some o -> (n < ndims X)%nat -> (q < r)%nat ->
     column_max (als_solution pinv X r (mixed n (ob_factors o) (match k with 0 => A0 | S j => nth j (map ob_factors os) [] end)) n) q v -> v <> 0) ->
  forall j k, (j <= k)%nat -> (k < length os)%nat ->
    m_obj (met os k) <= m_obj (met os j) /\ (sqlen X <> 0 -> m_rel (met os k) <= m_rel (met os j)).
Proof.
  intros HP HX HA (st & H0 & Hst) Hg.
  assert (Hget : forall k, (k < length os)%nat -> exists o, nth_error os k = Some o).
  { intros k Hk. destruct (nth_error os k) eqn:E; [eauto|]. apply nth_error_None in E. lia. }
  assert (Hst2 : forall k, (k <= length os)%nat -> st k = before A0 os k).
  { intros [|k] Hk; [exact H0|]. destruct (Hget k Hk) as (o & Eo). pose proof (Hst k o Eo) as E. apply cp_run_obs in E as (lam & E & _).
    unfold before. rewrite nth_map_lt with (da := o) by lia. rewrite (nth_error_nth os k o Eo). auto. }
  assert (Hrun : forall k o, nth_error os k = Some o -> cp_factors X r (st k) -> cp_factors X r (st (S k)) /\
     (forall mu, sqdist X (ob_full o) <= sqdist X (cp_tensor r mu (st k))) /\
     (exists mu, ob_full o = cp_tensor r mu (st (S k))) /\ measured X (ob_full o) (ob_met o) /\ shp (ob_full o) = shp X).
  { intros k o Ek Hk. pose proof (Hst k o Ek) as E. unfold cp_run in E.
    destruct (cp_step pinv X r (st k)) as [q|] eqn:Eq; [|discriminate]. cbn [bind] in E. injection E as E1 E2.
    destruct (step_sweep pinv X r (st k) q HP Hk Eq) as (_ & _ & G1 & _ & _ & G2 & G3 & _ & G4).
    assert (Hd : forall mu, sqdist X (cp_full q) <= sqdist X (cp_tensor r mu (st k))).
    { intros mu. apply (c44_step pinv X r (st k) q mu HP HX Hk Eq). intros n p v Hn Hp HM. apply (Hg k o n p v Ek Hn Hp).
      fold (before A0 os k). rewrite <- (Hst2 k) by (apply Nat.lt_le_incl, nth_error_Some; congruence). rewrite <- E2. exact HM. }
    rewrite <- E1, <- E2. cbn [ob_full ob_met]. split; [exact G1|]. split; [exact Hd|]. split; [eauto|]. split; [apply metrics_R; auto|]. apply (metrics_shape _ _ _ G3). }
  assert (HF : forall k, (k <= length os)%nat -> cp_factors X r (st k)).
  { induction k as [|k IH]; intros Hk; [rewrite H0; auto|]. destruct (Hget k ltac:(lia)) as (o & Eo). apply (Hrun k o Eo). apply IH. lia. }
  assert (Hmet : forall k o, nth_error os k = Some o -> met os k = ob_met o).
  { intros k o Ek. unfold met. rewrite nth_map_lt with (da := o) by (apply nth_error_Some; congruence).
    rewrite (nth_error_nth os k o Ek). reflexivity. }
  assert (Hd : forall k o, nth_error os k = Some o -> forall j p, nth_error os j = Some p -> (j <= k)%nat ->
    sqdist X (ob_full o) <= sqdist X (ob_full p)).
  { induction k as [|k IH]; intros o Ek j p Ej Hjk.
    - assert (j = 0%nat) by lia. subst. replace p with o by congruence. apply Rle_refl.
    - destruct (Nat.eq_dec j (S k)) as [->|Hne']; [replace p with o by congruence; apply Rle_refl|].
      assert (Hk : (S k < length os)%nat) by (apply nth_error_Some; congruence).
      destruct (Hget k ltac:(lia)) as (q & Eq). specialize (IH q Eq j p Ej ltac:(lia)).
      destruct (Hrun (S k) o Ek (HF (S k) ltac:(lia))) as (_ & C & _). destruct (Hrun k q Eq (HF k ltac:(lia))) as (_ & _ & (mu & D) & _).
      specialize (C mu). rewrite <- D in C. lra. }
  intros j k Hjk Hk. destruct (Hget k Hk) as (o & Eo). destruct (Hget j ltac:(lia)) as (p & Ep).
  specialize (Hd k o Eo j p Ep Hjk). rewrite (Hmet k o Eo), (Hmet j p Ep).
  destruct (Hrun k o Eo (HF k ltac:(lia))) as (_ & _ & _ & (_ & M1 & M2) & S1).
  destruct (Hrun j p Ep (HF j ltac:(lia))) as (_ & _ & _ & (_ & M3 & M4) & S2).
  rewrite M1, M2, M3, M4. rewrite (sqdist_comm (ob_full o) X S1), (sqdist_comm (ob_full p) X S2). split; [lra|].
  intros Hz. fold (sqlen X). pose proof (sqlen_nonneg X). assert (Hp : 0 < sqlen X) by lra.
  apply Rmult_le_compat_r; [apply Rlt_le, Rinv_0_lt_compat, sqrt_lt_R0; exact Hp|]. apply sqrt_le_1_alt. exact Hd.
Qed.

(** C45 *)
Lemma c45_step pinv (X : tensor R) r A o : penrose pinv -> cp_factors X r A -> cp_step pinv X r A = Ok o ->
  cp_factors X r (cp_A o) /\
  (forall n, (n < ndims X)%nat ->
     let others_now := mixed n (cp_A o) A in let B := als_solution pinv X r others_now n in
     least_squares X r others_now n B /\
     forall q, (q < r)%nat -> exists v, column_max B q v /\
       (forall i, (i < nth n (shp X) 0)%nat -> mget (mat_at (cp_A o) n) i q = mget B i q / v) /\
       (0 < v -> column_max (mat_at (cp_A o) n) q 1) /\
       (n = (ndims X - 1)%nat -> get (cp_lam o) [q] = v)) /\
  shp (cp_lam o) = [r] /\
  cp_full o = cp_tensor r (mgen r 1 (fun q _ => get (cp_lam o) [q])) (cp_A o) /\
  ((forall q, (q < r)%nat -> get (cp_lam o) [q] <> 0) ->
   let B := als_solution pinv X r (cp_A o) (ndims X - 1) in
   least_squares X r (cp_A o) (ndims X - 1) B /\ cp_full o = cp_tensor r (ones r) (replace (ndims X - 1) B (cp_A o))).
Proof.
  intros HP HA E. destruct (step_c45 pinv X r A o HP HA E) as (H1 & H2 & _ & H4 & H5 & H6).
  pose proof (cp_step_order _ _ _ _ _ (proj1 HA) E) as Ho.
  split; [exact H1|]. split; [exact H2|]. split; [exact H4|]. split; [exact H5|].
  intros Hnz. cbv zeta. specialize (H6 Hnz). destruct (H2 (ndims X - 1)%nat ltac:(lia)) as [LS _].
  assert (L : length (cp_A o) = length A) by (rewrite (proj1 H1), (proj1 HA); reflexivity).
  assert (E0 : replace (ndims X - 1) (mat_at (cp_A o) (ndims X - 1)) (mixed (ndims X - 1) (cp_A o) A) = cp_A o).
  { pose proof (proj1 HA) as LA. rewrite <- mixed_S by lia. replace (S (ndims X - 1)) with (length A) by lia. apply mixed_all; auto. }
  assert (ES : als_solution pinv X r (cp_A o) (ndims X - 1) = als_solution pinv X r (mixed (ndims X - 1) (cp_A o) A) (ndims X - 1)).
  { rewrite <- E0 at 1. apply sol_replace. }
  rewrite ES. split; [|exact H6].
  assert (G : forall (X : tensor R) r A n B C, least_squares X r A n B -> least_squares X r (replace n C A) n B).
  { clear. intros X r A n B C. unfold least_squares, cp_error. intros [H1 H2]. split; [exact H1|]. intros D HD. specialize (H2 D HD).
    assert (E : forall U, replace n U (replace n C A) = replace n U A).
    { intros U. clear. revert A. induction n as [|n IH]; intros [|a A]; cbn [replace]; auto. rewrite IH. reflexivity. }
    rewrite !E. exact H2. }
  pose proof (G X r _ _ _ (mat_at (cp_A o) (ndims X - 1)) LS) as G'. rewrite E0 in G'. exact G'.
Qed.

(** the factors and weights a completed train leaves on the object *)
Lemma c45_train pinv (X : tensor R) w o rnd steps o' h : penrose pinv ->
  (exists args r id, o_built o = Some ((args, r), id) /\ cp_factors X r rnd) ->
  cp_train pinv X w o rnd steps = (o', Ok h) ->
  exists r A lam, (exists args id, o_built o = Some ((args, r), id)) /\ p_factors (o_pub o') = Some A /\ p_aux (o_pub o') = Some lam /\
    cp_factors X r A /\ shp lam = [r] /\
    let B := als_solution pinv X r A (ndims X - 1) in
    (forall q, (q < r)%nat -> column_max B q (get lam [q])) /\
    ((forall q, (q < r)%nat -> get lam [q] <> 0) -> least_squares X r A (ndims X - 1) B /\
       cp_tensor r (mgen r 1 (fun q _ => get lam [q])) A = cp_tensor r (ones r) (replace (ndims X - 1) B A)).
Proof.
  intros HP (args & r & id & Hb & HA) H. apply cp_pub_ok in H as (args' & r' & id' & os & ob & Hb' & (st & H0 & Hst) & _ & Hl & HF & Haux & _).
  rewrite Hb in Hb'. injection Hb' as <- <- <-.
  assert (Hget : forall k, (k < length os)%nat -> exists o, nth_error os k = Some o).
  { intros k Hk. destruct (nth_error os k) eqn:E; [eauto|]. apply nth_error_None in E. lia. }
  assert (HS : forall k, (k <= length os)%nat -> cp_factors X r (st k)).
  { induction k as [|k IH]; intros Hk; [rewrite H0; auto|]. destruct (Hget k ltac:(lia)) as (q & Eq). pose proof (Hst k q Eq) as E.
    unfold cp_run in E. destruct (cp_step pinv X r (st k)) as [p|] eqn:Ep; [|discriminate]. cbn [bind] in E. injection E as <- _.
    apply (c45_step pinv X r (st k) p HP (IH ltac:(lia)) Ep). }
  assert (Hlen : (length os - 1 < length os)%nat) by (apply nth_error_Some; congruence).
  pose proof (Hst _ _ Hl) as E. unfold cp_run in E. destruct (cp_step pinv X r (st (length os - 1)%nat)) as [p|] eqn:Ep; [|discriminate].
  cbn [bind] in E. injection E as _ <-. cbn [ob_factors ob_aux] in *.
  destruct (c45_step pinv X r _ p HP (HS (length os - 1)%nat ltac:(lia)) Ep) as (G1 & G2 & G3 & G4 & G5).
  pose proof (cp_step_order _ _ _ _ _ (proj1 (HS (length os - 1)%nat ltac:(lia))) Ep) as Ho.
  exists r, (cp_A p), (cp_lam p). split; [eauto|]. split; [exact HF|]. split; [exact Haux|]. split; [exact G1|]. split; [exact G3|].
  cbv zeta. split.
  - intros q Hq. destruct (G2 (ndims X - 1)%nat ltac:(lia)) as [_ G]. destruct (G q Hq) as (v & V1 & _ & _ & V2). rewrite V2 by reflexivity.
    assert (E0 : replace (ndims X - 1) (mat_at (cp_A p) (ndims X - 1)) (mixed (ndims X - 1) (cp_A p) (st (length os - 1)%nat)) = cp_A p).
    { pose proof (proj1 G1) as L1. pose proof (proj1 (HS (length os - 1)%nat ltac:(lia))) as L2.
      rewrite <- mixed_S by lia. replace (S (ndims X - 1)) with (length (st (length os - 1)%nat)) by lia. apply mixed_all; lia. }
    rewrite <- E0 at 1. rewrite sol_replace. exact V1.
  - intros Hnz. destruct (G5 Hnz) as [LS E]. split; [exact LS|]. rewrite <- G4. exact E.
Qed.

(** ** completion *)
Lemma cp_step_total pinv (X : tensor R) r A : penrose pinv -> wf X -> nonempty (shp X) -> (2 <= ndims X <= 25)%nat -> cp_factors X r A ->
  exists o, cp_step pinv X r A = Ok o.
Proof.
  intros HP HX Hne Ho HA. unfold cp_step.
  assert (E1 : exists mats, unfold_all X = Ok mats).
  { unfold unfold_all. pose (g := fun z => match unfold X z with Ok v => v | Raise _ => mkT [] [] end). exists (map g (zrange (ndims X))).
    apply mapM_ok. intros z Hz. apply in_zrange in Hz. rewrite <- (Z2Nat.id z) by lia. unfold g.
    destruct (unfold_ok X (Z.to_nat z)) as (M & -> & _); [unfold ndims in *; lia|apply nonempty_nth; auto; unfold ndims in *; lia|reflexivity]. }
  destruct E1 as (mats & E1). rewrite E1. cbn [bind].
  assert (E2 : forall modes A lam, cp_factors X r A -> (forall m, In m modes -> (m < ndims X)%nat) ->
     exists A' lam', cp_modes pinv mats r modes A lam = Ok (A', lam')).
  { induction modes as [|m modes IH]; intros A1 lam HA1 Hm; cbn [cp_modes]; [eauto|].
    rewrite (cp_mode_run pinv X r mats HP Hne ltac:(lia) E1 A1 m HA1) by (apply Hm; left; auto). cbn [bind fst snd].
    apply IH; [|intros k Hk; apply Hm; right; auto]. apply replace_factors; auto. apply normed_mat. }
  destruct (E2 (seq 0 (ndims X)) A (mkT [] []) HA) as (A' & lam' & E3); [intros m Hm; apply in_seq in Hm; lia|].
  rewrite E3. cbn [bind].
  destruct (sweep pinv X r mats HP Hne ltac:(lia) E1 (ndims X) 0 A _ _ _ eq_refl HA E3) as (HA' & _ & HS & _).
  destruct (HS (ndims X - 1)%nat ltac:(lia)) as [_ HL]. rewrite (HL eq_refl). unfold lams. cbn [shp dat app].
  rewrite (kt_extract_ok RLR A' _ r).
  - cbn [bind]. destruct (metrics_ok X (cp_tensor r (mkT [r; 1%nat] (map (cmax (als_solution pinv X r (mixed (ndims X - 1) A' A) (ndims X - 1))) (seq 0 r))) A')) as (m & Em); [auto| |rewrite Em; cbn [bind]; eauto].
    change (map nrows A' = shp X). pose proof (proj1 HA') as L. apply nth_ext with (d := 0%nat) (d' := 0%nat); rewrite map_length; [exact L|].
    intros k Hk. rewrite (nth_map_lt nrows A' k (mkT [] [])) by auto. apply (fac_mat X r A' HA'). lia.
  - intros E. pose proof (proj1 HA') as L. rewrite E in L. simpl in L. lia.
  - rewrite (proj1 HA'). lia.
  - apply (fac_in X r _ HA').
  - split; [|reflexivity]. unfold wf. cbn [shp dat prod]. rewrite map_length, seq_length. lia.
Qed.

Lemma cp_train_total pinv (X : tensor R) r args id w o rnd steps : penrose pinv -> wf X -> nonempty (shp X) -> (2 <= ndims X <= 25)%nat ->
  o_built o = Some ((args, r), id) -> cp_factors X r rnd -> w_path w = true -> (forall i, In i (w_sums w) -> i = id) ->
  (0 < steps)%Z -> a_vi args <> 0%Z -> exists o' h, cp_train pinv X w o rnd steps = (o', Ok h).
Proof.
  intros HP HX Hne Ho Hb HA Hw Hid Hst Hint.
  unfold cp_train, obj_train. rewrite Hb, Hw. cbn [negb].
  assert (E : forallb (Nat.eqb id) (w_sums w) = true). { apply forallb_forall. intros i Hi. apply Nat.eqb_eq. symmetry. auto. }
  rewrite E. unfold cp_body, als_body. cbn [fst snd]. destruct (Z.leb_spec steps 0); [lia|].
  edestruct (als_loop_total (cp_run pinv X r) args steps (cp_factors X r)) as (p' & h' & E1 & _).
  - intros s Hs. destruct (cp_step_total pinv X r s HP HX Hne Ho Hs) as (q & Eq). unfold cp_run. rewrite Eq. cbn [bind]. eexists _, _. split; [reflexivity|].
    apply (c45_step pinv X r s q HP Hs Eq).
  - intros step. unfold validate. destruct (_ || _)%bool; [eauto|]. destruct (Z.eqb_spec (a_vi args) 0); [contradiction|]. eauto.
  - exact HA.
  - rewrite E1. eauto.
Qed.

(** the step fails for every other order *)
Lemma cp_step_fails {T} {NT : Num T} pinv (X : tensor T) r A : length A = ndims X -> (ndims X < 2 \/ 25 < ndims X)%nat ->
  exists e, cp_step pinv X r A = Raise e.
Proof.
  intros HL Ho. destruct (cp_step pinv X r A) as [o|e] eqn:E; [|eauto]. apply cp_step_order in E; auto. lia.
Qed.

(** ** the Moore-Penrose inverse exists *)
Lemma ortho_dot n k W (a b : nat -> R) : ortho n k W ->
  sumn n (fun j => sumn k (fun p => a p * W j p) * sumn k (fun q => b q * W j q)) = sumn k (fun p => a p * b p).
Proof.
  intros HW.
  transitivity (sumn n (fun j => sumn k (fun p => sumn k (fun q => a p * b q * (W j p * W j q))))).
  { apply sumnR_ext. intros j _. rewrite <- sumnR_scale_r. apply sumnR_ext. intros p _. rewrite <- sumnR_scale. apply sumnR_ext. intros. lra. }
  rewrite sumnR_ex. apply sumnR_ext. intros p Hp. rewrite sumnR_ex.
  rewrite <- (sumnR_delta' k p (fun q => a p * b q) Hp). apply sumnR_ext. intros q Hq. rewrite sumnR_scale. f_equal.
  rewrite delta_sym. apply (HW p q Hp Hq).
Qed.

Definition inv0 (x : R) : R := if Req_EM_T x 0 then 0 else / x.
Lemma inv0_1 x : x * inv0 x * x = x.
Proof. unfold inv0. destruct (Req_EM_T x 0) as [->|H]; [lra|]. field. exact H. Qed.
Lemma inv0_2 x : inv0 x * x * inv0 x = inv0 x.
Proof. unfold inv0. destruct (Req_EM_T x 0) as [->|H]; [lra|]. field. exact H. Qed.

Lemma pinv_exists (M : tensor R) : matrix M -> exists P, is_pinv M P.
Proof.
  intros HM. destruct (svd_exists M HM) as (U & s & W & HS). destruct HS as (HU & HW & OU & OW & _ & _ & HE).
  set (k := Nat.min (nrows M) (ncols M)) in *. set (m := nrows M) in *. set (n := ncols M) in *.
  destruct (matrix_is_mat _ _ _ HU) as (_ & U1 & U2). destruct (matrix_is_mat _ _ _ HW) as (_ & W1 & W2).
  assert (oU : ortho m k (mget U)).
  { intros p q Hp Hq. unfold mm, tr. rewrite (sumn_bigsum RLR). unfold orthonormal in OU. rewrite U1, U2 in OU. apply (OU p q Hp Hq). }
  assert (oW : ortho n k (mget W)).
  { intros p q Hp Hq. unfold mm, tr. rewrite (sumn_bigsum RLR). unfold orthonormal in OW. rewrite W1, W2 in OW. apply (OW p q Hp Hq). }
  assert (EM : forall i j, (i < m)%nat -> (j < n)%nat -> mget M i j = sumn k (fun p => mget U i p * s p * mget W j p)).
  { intros i j Hi Hj. rewrite HE by auto. symmetry. apply (sumn_bigsum RLR). }
  exists (mgen n m (fun j i => sumn k (fun p => mget W j p * inv0 (s p) * mget U i p))).
  set (P := mgen n m _).
  assert (EP : forall j i, (j < n)%nat -> (i < m)%nat -> mget P j i = sumn k (fun p => mget W j p * inv0 (s p) * mget U i p)).
  { intros j i Hj Hi. unfold P. rewrite mget_mgen by auto. reflexivity. }
  assert (EMP : forall i l, (i < m)%nat -> (l < m)%nat -> bigsum n (fun j => mget M i j * mget P j l) = sumn k (fun p => mget U i p * (s p * inv0 (s p)) * mget U l p)).
  { intros i l Hi Hl. rewrite <- (sumn_bigsum RLR). rewrite (sumnR_ext k _ (fun p => (mget U i p * s p) * (inv0 (s p) * mget U l p))) by (intros; lra).
    rewrite <- (ortho_dot n k (mget W) (fun p => mget U i p * s p) (fun p => inv0 (s p) * mget U l p) oW).
    apply sumnR_ext. intros j Hj. rewrite EM, EP by auto. f_equal. apply sumnR_ext. intros. lra. }
  assert (EPM : forall j l, (j < n)%nat -> (l < n)%nat -> bigsum m (fun i => mget P j i * mget M i l) = sumn k (fun p => mget W j p * (inv0 (s p) * s p) * mget W l p)).
  { intros j l Hj Hl. rewrite <- (sumn_bigsum RLR). rewrite (sumnR_ext k _ (fun p => (mget W j p * inv0 (s p)) * (s p * mget W l p))) by (intros; lra).
    rewrite <- (ortho_dot m k (mget U) (fun p => mget W j p * inv0 (s p)) (fun p => s p * mget W l p) oU).
    apply sumnR_ext. intros i Hi. rewrite EM, EP by auto. f_equal. apply sumnR_ext. intros. lra. }
  unfold is_pinv. fold m n. cbv zeta. split; [apply is_mat_mgen|]. split; [|split; [|split]].
  - intros i j Hi Hj. rewrite <- (sumn_bigsum RLR), EM by auto.
    rewrite (sumnR_ext k _ (fun p => (mget U i p * (s p * inv0 (s p))) * (s p * mget W j p))).
    2: { intros p Hp. rewrite <- (inv0_1 (s p)) at 1. lra. }
    rewrite <- (ortho_dot m k (mget U) (fun p => mget U i p * (s p * inv0 (s p))) (fun p => s p * mget W j p) oU).
    apply sumnR_ext. intros l Hl. rewrite EMP, EM by auto. Rn. f_equal. apply sumnR_ext. intros. lra.
  - intros j i Hj Hi. rewrite <- (sumn_bigsum RLR), EP by auto.
    rewrite (sumnR_ext k _ (fun p => (mget W j p * (inv0 (s p) * s p)) * (inv0 (s p) * mget U i p))).
    2: { intros p Hp. rewrite <- (inv0_2 (s p)) at 1. lra. }
    rewrite <- (ortho_dot n k (mget W) (fun p => mget W j p * (inv0 (s p) * s p)) (fun p => inv0 (s p) * mget U i p) oW).
    apply sumnR_ext. intros l Hl. rewrite EPM, EP by auto. Rn. f_equal. apply sumnR_ext. intros. lra.
  - intros i l Hi Hl. rewrite !EMP by auto. apply sumnR_ext. intros. lra.
  - intros j l Hj Hl. rewrite !EPM by auto. apply sumnR_ext. intros. lra.
Qed.

Lemma penrose_exists : exists pinv, penrose pinv.
Proof.
  destruct (functional_choice (fun M P : tensor R => matrix M -> is_pinv M P)) as (f & Hf).
  - intros M. assert (D : {shp M = [nrows M; ncols M]} + {shp M <> [nrows M; ncols M]}) by (apply list_eq_dec; apply Nat.eq_dec).
    destruct D as [D|D]; [destruct (Nat.eq_dec (length (dat M)) (prod (shp M))) as [D2|D2]|].
    + destruct (pinv_exists M) as (P & HP); [split; auto|]. eauto.
    + exists M. intros [W _]. contradiction.
    + exists M. intros [_ W]. contradiction.
  - exists f. exact Hf.
Qed.

Lemma c44_train pinv (X : tensor R) w o rnd steps o' h : penrose pinv -> wf X -> sqlen X <> 0 ->
  (exists args r id, o_built o = Some ((args, r), id) /\ cp_factors X r rnd) ->
  cp_train pinv X w o rnd steps = (o', Ok h) ->
  exists args r id os, o_built o = Some ((args, r), id) /\ als_run (cp_run pinv X r) rnd os /\ h = map entry os /\
  ((forall k ob n q v, nth_error os k = Some ob -> (n < ndims X)%nat -> (q < r)%nat ->
     column_max (als_solution pinv X r (mixed n (ob_factors ob) (match k with 0 => rnd | S j => nth j (map ob_factors os) [] end)) n) q v -> v <> 0) ->
   forall j k, (j <= k)%nat -> (k < length h)%nat -> snd (nth k h (0, 0)) <= snd (nth j h (0, 0))).
Proof.
  intros HP HX Hz (args & r & id & Hb & HA) H. apply cp_history in H as (args' & r' & id' & os & Hb' & Hr & -> & _).
  rewrite Hb in Hb'. injection Hb' as <- <- <-. exists args, r, id, os. split; [exact Hb|]. split; [exact Hr|]. split; [reflexivity|].
  intros Hg j k Hjk Hk. rewrite map_length in Hk.
  destruct (c44_run pinv X r rnd os HP HX HA Hr Hg j k Hjk Hk) as [_ G]. specialize (G Hz).
  unfold met in G. assert (Hj : (j < length os)%nat) by lia.
  destruct (nth_error os k) as [ok|] eqn:Ek; [|apply nth_error_None in Ek; lia].
  destruct (nth_error os j) as [oj|] eqn:Ej; [|apply nth_error_None in Ej; lia].
  rewrite nth_map_lt with (da := ok) in G by auto. rewrite (nth_map_lt _ os j oj) in G by auto.
  rewrite (nth_map_lt _ os k ok) by auto. rewrite (nth_map_lt _ os j oj) by auto.
  exact G.
Qed.

(** ** the example: X = diag(2, 1), rank 1 *)
Definition Xd : tensor R := mkT [2; 2]%nat [2; 0; 0; 1].
Definition Ad : list (tensor R) := [mkT [2; 1]%nat [1; 1]; mkT [2; 1]%nat [1; 1]].

Lemma Ad_factors : cp_factors Xd 1 Ad.
Proof. split; [reflexivity|]. intros k Hk. change (ndims Xd) with 2%nat in Hk. destruct k as [|[|k]]; [split; reflexivity..|lia]. Qed.

Lemma pinv_1 pinv G g : penrose pinv -> G = mgen 1 1 (fun _ _ => g) -> 0 < g -> mget (pinv G) 0 0 = / g.
Proof.
  intros HP -> Hg. destruct (HP (mgen 1 1 (fun _ _ => g)) (is_mat_mgen _ _ _)) as (_ & H & _).
  specialize (H 0%nat 0%nat ltac:(cbn; lia) ltac:(cbn; lia)). change (nrows (mgen 1 1 (fun _ _ => g))) with 1%nat in H.
  change (ncols (mgen 1 1 (fun _ _ => g))) with 1%nat in H. set (p := mget (pinv _) 0 0) in *. cbn [bigsum] in H.
  rewrite mget_mgen in H by lia. fold p in H. Rn.
  assert (H' : g * p * g = g) by (revert H; Rn; lra).
  apply (Rmult_eq_reg_l g); [|lra]. apply (Rmult_eq_reg_r g); [|lra]. rewrite Rinv_r by lra. lra.
Qed.

(** entries of the solutions for 2 x 2 data, rank 1 *)
Lemma sol_22 pinv (X a b : tensor R) n : penrose pinv -> shp X = [2; 2]%nat -> (n < 2)%nat -> is_mat a 2 1 -> is_mat b 2 1 ->
  let c := if Nat.eqb n 0 then b else a in let g := mget c 0 0 * mget c 0 0 + mget c 1 0 * mget c 1 0 in 0 < g ->
  mget (als_solution pinv X 1 [a; b] n) 0 0 =
  (get X [0; 0]%nat * mget c 0 0 + (if Nat.eqb n 0 then get X [0; 1]%nat else get X [1; 0]%nat) * mget c 1 0) * / g.
Proof.
  intros HP HX Hn Ha Hb c g Hg. destruct (matrix_is_mat _ _ _ Ha) as (_ & Ea & _). destruct (matrix_is_mat _ _ _ Hb) as (_ & Eb & _).
  assert (EG : gram_but 1 [a; b] n = mgen 1 1 (fun _ _ => g)).
  { unfold gram_but, mgen. apply gen_ext. intros idx Hv. apply valid2_inv in Hv as (i & j & -> & Hi & Hj). assert (i = 0)%nat by lia. assert (j = 0)%nat by lia. subst i j.
    subst g c. destruct n as [|[|n]]; [| |lia]; cbn [others length Nat.eqb map listprod fold_right nth]; unfold mat_at; cbn.
    - rewrite Eb. cbn [bigsum]. Rn. ring.
    - rewrite Ea. cbn [bigsum]. Rn. ring. }
  unfold als_solution. rewrite HX. rewrite mget_mgen by (destruct n as [|[|n]]; cbn; lia). cbn [bigsum]. rewrite (pinv_1 pinv _ g HP EG Hg).
  unfold mttkrp. rewrite HX. rewrite mget_mgen by (destruct n as [|[|n]]; cbn; lia). subst c.
  destruct n as [|[|n]]; [| |lia]; unfold but, mat_at; cbn; Rn; ring.
Qed.

Lemma ex_c44_guard pinv o : penrose pinv -> cp_step pinv Xd 1 Ad = Ok o ->
  forall n q v, (n < ndims Xd)%nat -> (q < 1)%nat -> column_max (als_solution pinv Xd 1 (mixed n (cp_A o) Ad) n) q v -> v <> 0.
Proof.
  intros HP E n q v Hn Hq. change (ndims Xd) with 2%nat in Hn. assert (q = 0)%nat by lia. subst q.
  assert (Hpos : forall M, (0 < nrows M)%nat -> 0 < mget M 0 0 -> column_max M 0 v -> v <> 0).
  { intros M HM H0 [_ H]. specialize (H 0%nat HM). lra. }
  destruct (c45_step pinv Xd 1 Ad o HP Ad_factors E) as (HF & HN & _).
  assert (ma : is_mat (mkT [2; 1]%nat [1; 1]) 2 1) by (split; reflexivity).
  assert (E0 : mget (als_solution pinv Xd 1 Ad 0) 0 0 = 1).
  { unfold Ad. rewrite (sol_22 pinv Xd _ _ 0 HP eq_refl ltac:(lia) ma ma); unfold mget, get; cbn; lra. }
  destruct n as [|[|n]]; [| |lia].
  - apply Hpos; [cbn; lia|]. rewrite mixed_0, E0. lra.
  - apply Hpos; [cbn; lia|]. destruct (HN 0%nat ltac:(cbn; lia)) as [_ H0]. destruct (H0 0%nat ltac:(lia)) as (u & HU & HD & _).
    rewrite mixed_0 in HU, HD. specialize (HD 0%nat ltac:(cbn; lia)). rewrite E0 in HD.
    assert (Hu : 1 <= u) by (rewrite <- E0; apply HU; cbn; lia).
    set (a := mat_at (cp_A o) 0) in *. assert (Ma : is_mat a 2 1) by (apply (proj2 HF 0%nat); cbn; lia).
    assert (Em : mixed 1 (cp_A o) Ad = [a; mkT [2; 1]%nat [1; 1]]).
    { unfold a, mat_at. destruct HF as [L _]. destruct (cp_A o) as [|x l]; [discriminate L|]. reflexivity. }
    rewrite Em. assert (Hp : 0 < mget a 0 0). { rewrite HD. apply Rdiv_lt_0_compat; lra. }
    rewrite (sol_22 pinv Xd a _ 1 HP eq_refl ltac:(lia) Ma ma); cbn [Nat.eqb].
    + unfold get at 1 2. cbn. apply Rmult_lt_0_compat; [lra|]. apply Rinv_0_lt_compat.
      pose proof (Rle_0_sqr (mget a 1 0)) as S. unfold Rsqr in S. nra.
    + pose proof (Rle_0_sqr (mget a 1 0)) as S. unfold Rsqr in S. nra.
Qed.

Lemma ex_c44 : exists pinv o, penrose pinv /\ wf Xd /\ cp_factors Xd 1 Ad /\ cp_step pinv Xd 1 Ad = Ok o /\
  (forall n q v, (n < ndims Xd)%nat -> (q < 1)%nat -> column_max (als_solution pinv Xd 1 (mixed n (cp_A o) Ad) n) q v -> v <> 0) /\
  sqdist Xd (cp_full o) <= 3.
Proof.
  destruct penrose_exists as (pinv & HP).
  destruct (cp_step_total pinv Xd 1 Ad HP) as (o & E); [reflexivity|repeat constructor; discriminate|cbn; lia|apply Ad_factors|].
  exists pinv, o. split; [exact HP|]. split; [reflexivity|]. split; [apply Ad_factors|]. split; [exact E|].
  pose proof (ex_c44_guard pinv o HP E) as G. split; [exact G|].
  eapply Rle_trans; [apply (c44_step pinv Xd 1 Ad o (ones 1) HP eq_refl Ad_factors E G)|].
  unfold sqdist, Xd, Ad, cp_tensor, ones, mat_at, mgen, mget, gen, get. cbn. unfold Rsqr. lra.
Qed.
