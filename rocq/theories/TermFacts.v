(** How many steps the training loops make (C87). *)

From Coq Require Import ZArith List Bool Arith Lia Reals Lra Psatz.
From Verif Require Import Num Py Tensor TensorFacts Fact Train Spec SpecR Sums RSums MatR LossFacts SpecTrain TrainFacts TrainLemmas BcuFacts SpecTucker MultiR
  SvdFacts TuckerFacts TuckerRun TuckerLemmas.
Import ListNotations.
Local Open Scope R_scope.

Lemma small_R (tol ref obj : R) : 0 < ref + 1 ->
  small_change tol ref obj <-> Rabs (obj - ref) < tol * (ref + 1).
Proof.
  intros Hp. unfold small_change. rewrite nltb_R. Rn. split; intros H.
  - apply (Rmult_lt_compat_r (ref + 1)) in H; [|lra]. unfold Rdiv in H.
    rewrite Rmult_assoc, Rinv_l, Rmult_1_r in H by lra. exact H.
  - apply (Rmult_lt_reg_r (ref + 1)); [lra|]. unfold Rdiv.
    rewrite Rmult_assoc, Rinv_l, Rmult_1_r by lra. exact H.
Qed.

Lemma not_small_down (tol ref obj : R) : 0 < tol -> 0 <= obj -> obj < ref -> ~ small_change tol ref obj -> obj <= ref - tol.
Proof.
  intros Ht Ho Hlt H. rewrite small_R in H by lra. rewrite Rabs_left in H by lra. nra.
Qed.

Lemma block_cases (P : nat -> Prop) m : (forall j, {P j} + {~ P j}) ->
  (forall j, (3 * m <= j <= 3 * m + 2)%nat -> P j) \/ exists j, (3 * m <= j <= 3 * m + 2)%nat /\ ~ P j.
Proof.
  intros D. destruct (D (3 * m)%nat) as [A|A]; [|right; exists (3 * m)%nat; split; [lia|auto]].
  destruct (D (3 * m + 1)%nat) as [B|B]; [|right; exists (3 * m + 1)%nat; split; [lia|auto]].
  destruct (D (3 * m + 2)%nat) as [C|C]; [|right; exists (3 * m + 2)%nat; split; [lia|auto]].
  left. intros j Hj. assert (j = 3 * m \/ j = 3 * m + 1 \/ j = 3 * m + 2)%nat as [->|[->| ->]] by lia; auto.
Qed.

Definition below (l : list nat) (b : nat) : nat := length (filter (fun k => k <? b)%nat l).

Lemma below_le l a b : (a <= b)%nat -> (below l a <= below l b)%nat.
Proof.
  intros H. unfold below. induction l as [|x l IH]; simpl; [lia|].
  destruct (x <? a)%nat eqn:E1, (x <? b)%nat eqn:E2; simpl; try lia.
  apply Nat.ltb_lt in E1. apply Nat.ltb_ge in E2. lia.
Qed.
Lemma below_in l a b j : (a <= j < b)%nat -> In j l -> (below l a + 1 <= below l b)%nat.
Proof.
  intros H. unfold below. induction l as [|x l IH]; simpl; [tauto|]. intros [->|Hin].
  - destruct (j <? a)%nat eqn:E1; [apply Nat.ltb_lt in E1; lia|].
    destruct (j <? b)%nat eqn:E2; [|apply Nat.ltb_ge in E2; lia]. simpl.
    pose proof (below_le l a b ltac:(lia)). unfold below in *. lia.
  - specialize (IH Hin). destruct (x <? a)%nat eqn:E1, (x <? b)%nat eqn:E2; simpl; try lia.
    apply Nat.ltb_lt in E1. apply Nat.ltb_ge in E2. lia.
Qed.
Lemma below_length l b : (below l b <= length l)%nat.
Proof. unfold below. induction l as [|x l IH]; simpl; [lia|]. destruct (x <? b)%nat; simpl; lia. Qed.

Section Bound.
  Variable os : list (sobs R).
  Variable tol : R.
  Hypothesis Ht : 0 < tol.
  Hypothesis Hpos : forall k, 0 <= m_obj (met os k).
  Let ob k := m_obj (met os k).

  Lemma ref_pos k : 0 <= ref_best os k.
  Proof.
    induction k as [|k IH]; cbn [ref_best].
    - Rn. specialize (Hpos 0%nat). lra.
    - destruct (nltb (m_obj (met os k)) (ref_best os k)); auto.
  Qed.
  Lemma ref_step k : ref_best os (S k) <= ref_best os k.
  Proof.
    cbn [ref_best]. destruct (nltb (m_obj (met os k)) (ref_best os k)) eqn:E; [|lra]. apply nltb_R in E. lra.
  Qed.
  Lemma ref_mono j k : (j <= k)%nat -> ref_best os k <= ref_best os j.
  Proof. induction 1 as [|k H IH]; [lra|]. pose proof (ref_step k). lra. Qed.
  Lemma ref_take k : ob k < ref_best os k -> ref_best os (S k) = ob k.
  Proof. intros H. cbn [ref_best]. apply nltb_R in H. fold (ob k). unfold ob in *. rewrite H. reflexivity. Qed.
  Lemma ref_1 : ref_best os 1 = ob 0%nat.
  Proof. apply ref_take. cbn [ref_best]. unfold ob. Rn. lra. Qed.

  Variable l : list nat.
  Variable n : nat.
  Hypothesis Hrej : forall k, (k < n)%nat -> (exists j, (j < k)%nat /\ ob j <= ob k) -> In k l.
  Hypothesis Hno : forall k, (k + 1 < n)%nat -> ~ fires tol ref_best os k.

  Lemma blocks m : (1 <= m)%nat -> (3 * m + 1 <= n)%nat ->
    tol * INR m + ref_best os (3 * m) <= ob 0%nat + tol * (1 + INR (below l (3 * m))).
  Proof.
    induction m as [|m IH]; [lia|]. intros _ Hn.
    destruct (Nat.eq_dec m 0) as [->|Hm].
    - pose proof (ref_mono 1 (3 * 1) ltac:(lia)). rewrite ref_1 in H.
      pose proof (pos_INR (below l (3 * 1))). change (INR 1) with 1. nra.
    - specialize (IH ltac:(lia) ltac:(lia)).
      destruct (block_cases (fun j => small_change tol (ref_best os j) (ob j)) m) as [H|(j & Hj & H)].
      { intros j. unfold small_change. apply bool_dec. }
      { exfalso. apply (Hno (3 * m + 2)); [lia|]. right. split; [lia|]. intros j Hj. apply H. lia. }
      pose proof (ref_mono (3 * m) j ltac:(lia)) as R1. pose proof (ref_mono (S j) (3 * S m) ltac:(lia)) as R2.
      destruct (Rlt_le_dec (ob j) (ref_best os j)) as [Hlt|Hge].
      + pose proof (not_small_down _ _ _ Ht (Hpos j) Hlt H) as D. rewrite (ref_take j Hlt) in R2.
        pose proof (le_INR _ _ (below_le l (3 * m) (3 * S m) ltac:(lia))) as B. rewrite S_INR. unfold ob in *. nra.
      + assert (Hin : In j l).
        { apply Hrej; [lia|]. destruct (ref_best_min os j ltac:(lia)) as [_ (i & Hi & E)]. exists i. split; auto.
          unfold ob in *. rewrite <- E. exact Hge. }
        pose proof (le_INR _ _ (below_in l (3 * m) (3 * S m) j ltac:(lia) Hin)) as B. rewrite plus_INR in B.
        change (INR 1) with 1 in B. pose proof (ref_mono (3 * m) (3 * S m) ltac:(lia)) as R3. rewrite S_INR. nra.
  Qed.

  Lemma steps_bound : INR n <= 3 * (INR (length l) + ob 0%nat / tol + 2).
  Proof.
    assert (Hq : 0 <= ob 0%nat / tol).
    { apply Rmult_le_pos; [apply Hpos|]. left. apply Rinv_0_lt_compat. exact Ht. }
    pose proof (pos_INR (length l)) as Hl.
    destruct (le_lt_dec n 3) as [Hn|Hn].
    - apply le_INR in Hn. change (INR 3) with (1 + 1 + 1) in Hn. lra.
    - pose proof (Nat.div_mod (n - 1) 3 ltac:(lia)) as D. pose proof (Nat.mod_upper_bound (n - 1) 3 ltac:(lia)) as U.
      set (m := ((n - 1) / 3)%nat) in *. pose proof (blocks m ltac:(lia) ltac:(lia)) as B.
      pose proof (le_INR _ _ (below_length l (3 * m))) as L. pose proof (ref_pos (3 * m)) as P.
      assert (Hm : INR m <= INR (length l) + ob 0%nat / tol + 1).
      { apply (Rmult_le_reg_l tol); [exact Ht|].
        replace (tol * (INR (length l) + ob 0%nat / tol + 1)) with (ob 0%nat + tol * (1 + INR (length l))) by (field; lra). nra. }
      assert (Hnm : INR n <= INR (3 * m + 3)) by (apply le_INR; lia).
      rewrite plus_INR, mult_INR in Hnm. change (INR 3) with (1 + 1 + 1) in Hnm. lra.
  Qed.
End Bound.

(** the objective of an observation in terms of the history entry *)
Definition observed (X : tensor R) (os : list (sobs R)) : Prop := forall o, In o os -> measured X (ob_full o) (ob_met o).

Lemma obs_obj (X : tensor R) os k : observed X os -> sqlen X <> 0 -> (k < length os)%nat ->
  m_rel (met os k) = snd (nth k (map entry os) (0, 0)) /\
  m_obj (met os k) = / 2 * sqlen X * (snd (nth k (map entry os) (0, 0)))² /\ 0 <= snd (nth k (map entry os) (0, 0)).
Proof.
  intros Ho Hz Hk. destruct (nth_error os k) as [o|] eqn:E; [|apply nth_error_None in E; lia].
  assert (E1 : met os k = ob_met o) by (unfold met; rewrite (nth_map_lt _ os k o) by auto; f_equal; apply nth_error_nth; auto).
  assert (E2 : nth k (map entry os) (0, 0) = entry o) by (rewrite (nth_map_lt _ os k o) by auto; f_equal; apply nth_error_nth; auto).
  rewrite E1, E2. destruct (Ho o (nth_error_In _ _ E)) as (_ & M1 & M2). unfold entry. cbn [snd]. split; [reflexivity|].
  fold (sqlen X) in M2. pose proof (sqlen_nonneg X) as P. assert (Hp : 0 < sqlen X) by lra.
  pose proof (MultiR.sqdist_nonneg (ob_full o) X) as D. rewrite M1, M2. split.
  - unfold Rdiv. rewrite Rsqr_mult. pose proof (sqrt_lt_R0 _ Hp) as Q. rewrite Rsqr_inv'.
    rewrite (Rsqr_sqrt (sqdist _ _)) by exact D. rewrite (Rsqr_sqrt (sqlen X)) by exact P. field. exact Hz.
  - apply Rmult_le_pos; [apply sqrt_pos|]. left. apply Rinv_0_lt_compat, sqrt_lt_R0, Hp.
Qed.

Lemma obs_pos (X : tensor R) os : observed X os -> forall k, 0 <= m_obj (met os k).
Proof.
  intros Ho k. unfold met. destruct (nth_error os k) as [o|] eqn:E.
  - erewrite nth_error_nth by (erewrite map_nth_error; [reflexivity|exact E]).
    destruct (Ho o (nth_error_In _ _ E)) as (_ & M1 & _). rewrite M1.
    pose proof (MultiR.sqdist_nonneg (ob_full o) X). lra.
  - rewrite nth_overflow; [apply Rle_refl|]. rewrite map_length. apply nth_error_None. exact E.
Qed.

Lemma obs_rel_le (X : tensor R) os i k : observed X os -> sqlen X <> 0 -> (i < length os)%nat -> (k < length os)%nat ->
  m_obj (met os i) <= m_obj (met os k) <-> snd (nth i (map entry os) (0, 0)) <= snd (nth k (map entry os) (0, 0)).
Proof.
  intros Ho Hz Hi Hk. destruct (obs_obj X os i Ho Hz Hi) as (_ & E1 & P1). destruct (obs_obj X os k Ho Hz Hk) as (_ & E2 & P2).
  rewrite E1, E2. pose proof (sqlen_nonneg X) as P. assert (Hp : 0 < / 2 * sqlen X) by lra. split; intros H.
  - apply (Rmult_le_reg_l _ _ _ Hp) in H. apply Rsqr_incr_0_var; auto.
  - apply Rmult_le_compat_l; [lra|]. apply Rsqr_incr_1; auto.
Qed.

Lemma als_observed {S} (run : S -> res (S * sobs R)) X s0 os : als_run run s0 os ->
  (forall s s' o, run s = Ok (s', o) -> measured X (ob_full o) (ob_met o)) -> observed X os.
Proof.
  intros (st & _ & H) Hm o Hin. apply In_nth_error in Hin as (k & E). eapply Hm, H, E.
Qed.
Lemma bcu_observed {S} (run : S -> res (S * sobs R)) pre acc rej X s0 os : bcu_run run pre acc rej s0 os ->
  (forall s s' o, run s = Ok (s', o) -> measured X (ob_full o) (ob_met o)) -> observed X os.
Proof.
  intros (st & _ & H) Hm o Hin. apply In_nth_error in Hin as (k & E). destruct (H k o E) as (s1 & c & s2 & _ & R & _). eapply Hm, R.
Qed.

Lemma bcu_bound (X : tensor R) os tol steps l : observed X os -> sqlen X <> 0 -> 0 < tol ->
  stopped_by (fires tol ref_best os) steps (length os) ->
  (forall k, (k < length (map entry os))%nat ->
     (exists j, (j < k)%nat /\ snd (nth j (map entry os) (0, 0)) <= snd (nth k (map entry os) (0, 0))) -> In k l) ->
  INR (length (map entry os)) <= 3 * (INR (length l) + / 2 * sqlen X * (snd (nth 0 (map entry os) (0, 0)))² / tol + 2).
Proof.
  intros Ho Hz Ht (H1 & _ & Hno & _) Hl. rewrite map_length in *.
  destruct (obs_obj X os 0 Ho Hz H1) as (_ & E & _). rewrite <- E.
  apply (steps_bound os tol Ht (obs_pos X os Ho) l (length os)); auto.
  intros k Hk (j & Hj & Hle). apply Hl; [exact Hk|]. exists j. split; [exact Hj|].
  apply (obs_rel_le X os j k Ho Hz); auto. lia.
Qed.

Lemma c87_ncp pow svals (X : tensor R) w o rnd steps o' h args rank id l : wf X -> sqlen X <> 0 ->
  o_built o = Some ((args, rank), id) -> 0 < a_tol args ->
  ncp_train pow svals X w o rnd steps = (o', Ok h) ->
  (forall k, (k < length h)%nat -> (exists j, (j < k)%nat /\ snd (nth j h (0, 0)) <= snd (nth k h (0, 0))) -> In k l) ->
  INR (length h) <= 3 * (INR (length l) + / 2 * sqlen X * (snd (nth 0 h (0, 0)))² / a_tol args + 2).
Proof.
  intros HX Hz Hb Ht H Hl. apply ncp_history in H as (args' & rank' & id' & os & Hb' & Hr & -> & Hs).
  rewrite Hb in Hb'. injection Hb' as <- <- <-.
  apply (bcu_bound X os (a_tol args) steps l); auto.
  apply (bcu_observed _ _ _ _ X _ _ Hr). intros s s' ob E.
  destruct (steps_measured X HX) as (_ & _ & M & _). destruct (M _ _ _ _ E) as (ones & _ & _ & _ & G). exact G.
Qed.

Lemma c87_nt pow svals (X : tensor R) w o rnd steps o' h args id l : wf X -> sqlen X <> 0 ->
  o_built o = Some (args, id) -> 0 < a_tol args ->
  nt_train pow svals X w o rnd steps = (o', Ok h) ->
  (forall k, (k < length h)%nat -> (exists j, (j < k)%nat /\ snd (nth j h (0, 0)) <= snd (nth k h (0, 0))) -> In k l) ->
  INR (length h) <= 3 * (INR (length l) + / 2 * sqlen X * (snd (nth 0 h (0, 0)))² / a_tol args + 2).
Proof.
  intros HX Hz Hb Ht H Hl. apply nt_history in H as (args' & id' & os & Hb' & Hr & -> & Hs).
  rewrite Hb in Hb'. injection Hb' as <- <-.
  apply (bcu_bound X os (a_tol args) steps l); auto.
  apply (bcu_observed _ _ _ _ X _ _ Hr). intros s s' ob E.
  destruct (steps_measured X HX) as (_ & _ & _ & M). destruct (M _ _ _ _ E) as (_ & _ & _ & G). exact G.
Qed.

(** the loops whose reference is never renewed *)
Lemma als_term (X : tensor R) os tol steps : observed X os -> sqlen X <> 0 ->
  stopped_by (fires tol ref_first os) steps (length os) ->
  let h := map entry os in
  (forall k, (k < length h)%nat -> snd (nth k h (0, 0)) <= snd (nth 0 h (0, 0))) ->
  let q := / 2 * sqlen X * (snd (nth 0 h (0, 0)))² in
  (tol * (q + 2) <= 1 -> Z.of_nat (length h) = steps \/ snd (nth (length h - 1) h (0, 0)) < tol) /\
  (q + 1 < tol * (q + 2) -> (length h <= 3)%nat).
Proof.
  intros Ho Hz (H1 & H2 & Hno & Hf) h Hm q.
  assert (El : length h = length os) by apply map_length.
  destruct (obs_obj X os 0 Ho Hz H1) as (_ & Eq & _). fold h in Eq. fold q in Eq.
  assert (Hq : 0 <= q) by (rewrite <- Eq; apply (obs_pos X os Ho)).
  assert (Er : forall k, ref_first os k = q + 1) by (intros k; unfold ref_first; rewrite Eq; Rn; reflexivity).
  assert (Hk : forall k, (k < length os)%nat -> 0 <= m_obj (met os k) <= q).
  { intros k Hk. split; [apply (obs_pos X os Ho)|]. rewrite <- Eq. apply (obs_rel_le X os k 0 Ho Hz); auto. apply Hm. lia. }
  split; intros Ht.
  - destruct (Z.eq_dec (Z.of_nat (length os)) steps) as [E|E]; [left; congruence|right].
    destruct (Hf ltac:(lia)) as [F|[Hk2 F]].
    + apply nltb_R in F. rewrite El. destruct (obs_obj X os (length os - 1) Ho Hz ltac:(lia)) as (Erel & _).
      fold h in Erel. rewrite <- Erel. exact F.
    + exfalso. specialize (F (length os - 1)%nat ltac:(lia)). rewrite Er in F. apply small_R in F; [|lra].
      specialize (Hk (length os - 1)%nat ltac:(lia)). rewrite Rabs_left in F by lra. lra.
  - rewrite El. destruct (le_lt_dec (length os) 3) as [L|L]; [exact L|]. exfalso. apply (Hno 2%nat ltac:(lia)). right. split; [lia|].
    intros j Hj. rewrite Er. apply small_R; [lra|]. specialize (Hk j ltac:(lia)). rewrite Rabs_left by lra. lra.
Qed.

Lemma c87_cp pinv (X : tensor R) w o rnd steps o' h args rank id : wf X -> sqlen X <> 0 ->
  o_built o = Some ((args, rank), id) -> cp_train pinv X w o rnd steps = (o', Ok h) ->
  (forall k, (k < length h)%nat -> snd (nth k h (0, 0)) <= snd (nth 0 h (0, 0))) ->
  let q := / 2 * sqlen X * (snd (nth 0 h (0, 0)))² in
  (a_tol args * (q + 2) <= 1 -> Z.of_nat (length h) = steps \/ snd (nth (length h - 1) h (0, 0)) < a_tol args) /\
  (q + 1 < a_tol args * (q + 2) -> (length h <= 3)%nat).
Proof.
  intros HX Hz Hb H. apply cp_history in H as (args' & rank' & id' & os & Hb' & Hr & -> & Hs).
  rewrite Hb in Hb'. injection Hb' as <- <- <-.
  apply (als_term X os (a_tol args) steps); auto. apply (als_observed _ X _ _ Hr). intros s s' ob E.
  destruct (steps_measured X HX) as (M & _). destruct (M _ _ _ _ _ E) as (lam & _ & _ & _ & G). exact G.
Qed.

Lemma c87_hooi svdU (X : tensor R) w o rnd steps o' h args ranks id : left_svd svdU -> wf X -> nonempty (shp X) -> sqlen X <> 0 ->
  o_built o = Some ((args, map Z.of_nat ranks), id) -> nonempty ranks -> length ranks = ndims X ->
  hooi_train svdU X w o rnd steps = (o', Ok h) ->
  let q := / 2 * sqlen X * (snd (nth 0 h (0, 0)))² in
  (a_tol args * (q + 2) <= 1 -> Z.of_nat (length h) = steps \/ snd (nth (length h - 1) h (0, 0)) < a_tol args) /\
  (q + 1 < a_tol args * (q + 2) -> (length h <= 3)%nat).
Proof.
  intros HS HX Hne Hz Hb Hrk Hl H.
  pose proof (c57_train_any svdU X w o rnd steps o' h HS HX Hne Hz (ex_intro _ args (ex_intro _ ranks (ex_intro _ id (conj Hb (conj Hrk Hl))))) H) as Hm.
  apply hooi_history in H as (args' & ranks' & id' & A0 & os & Hb' & Hi & Hr & -> & Hs).
  rewrite Hb in Hb'. injection Hb' as <- <- <-.
  apply (als_term X os (a_tol args) steps); auto; [|intros k Hk; apply Hm; lia]. apply (als_observed _ X _ _ Hr). intros s s' ob E.
  destruct (steps_measured X HX) as (_ & M & _). destruct (M _ _ _ _ _ E) as (g & _ & _ & _ & G). exact G.
Qed.

(** the first objective of HOOI is at most half the squared norm *)
Lemma hooi_first svdU (X : tensor R) w o rnd steps o' h args ranks id : left_svd svdU -> wf X -> nonempty (shp X) -> sqlen X <> 0 ->
  o_built o = Some ((args, map Z.of_nat ranks), id) -> nonempty ranks -> length ranks = ndims X ->
  hooi_train svdU X w o rnd steps = (o', Ok h) -> / 2 * sqlen X * (snd (nth 0 h (0, 0)))² <= / 2 * sqlen X.
Proof.
  intros HS HX Hne Hz Hb Hrk Hl H.
  apply hooi_history in H as (args' & ranks' & id' & A0 & os & Hb' & Hi & Hr & -> & Hs).
  rewrite Hb in Hb'. injection Hb' as <- <- <-.
  assert (HA : factor_state X ranks A0).
  { destruct (hooi_init_cases svdU X ranks HS Hne Hl) as [G1 G2]. destruct G1 as (A & E & HA).
    - intros n Hn'. destruct (le_lt_dec (nth n ranks 0%nat) (Nat.min (nth n (shp X) 0%nat) (rest n (shp X)))) as [L|L]; auto.
      rewrite G2 in Hi by eauto. discriminate.
    - rewrite Hi in E. injection E as <-. exact HA. }
  assert (Ho : observed X os).
  { apply (als_observed _ X _ _ Hr). intros s s' ob E.
    destruct (steps_measured X HX) as (_ & M & _). destruct (M _ _ _ _ _ E) as (g & _ & _ & _ & G). exact G. }
  destruct Hs as (H1 & _). destruct (obs_obj X os 0 Ho Hz H1) as (_ & E & _). rewrite <- E.
  destruct os as [|ob os]; [cbn in H1; lia|]. destruct Hr as (st & H0 & Hst). specialize (Hst 0%nat ob eq_refl). rewrite H0 in Hst.
  unfold hooi_run in Hst. destruct (hooi_step svdU X (map Z.of_nat ranks) A0) as [q|] eqn:Eq; [|discriminate]. cbn [bind] in Hst. injection Hst as _ <-.
  unfold met. cbn [map nth ob_met].
  destruct (c57_step_any svdU X ranks A0 q HS HX Hne Hrk Hl HA Eq) as [_ ->].
  destruct (c55_hooi_any svdU X ranks A0 q HS HX Hne Hrk Hl HA Eq) as (_ & _ & ->).
  pose proof (sqlen_nonneg (ho_core q)). lra.
Qed.

Lemma c87_hooi_small svdU (X : tensor R) w o rnd steps o' h args ranks id : left_svd svdU -> wf X -> nonempty (shp X) -> sqlen X <> 0 ->
  o_built o = Some ((args, map Z.of_nat ranks), id) -> nonempty ranks -> length ranks = ndims X ->
  hooi_train svdU X w o rnd steps = (o', Ok h) -> a_tol args * (sqlen X + 4) <= 2 ->
  Z.of_nat (length h) = steps \/ snd (nth (length h - 1) h (0, 0)) < a_tol args.
Proof.
  intros HS HX Hne Hz Hb Hrk Hl H Ht. pose proof (hooi_first svdU X w o rnd steps o' h args ranks id HS HX Hne Hz Hb Hrk Hl H) as Hq.
  apply (c87_hooi svdU X w o rnd steps o' h args ranks id HS HX Hne Hz Hb Hrk Hl H).
  assert (0 <= / 2 * sqlen X * (snd (nth 0 h (0, 0)))²).
  { pose proof (sqlen_nonneg X). pose proof (Rle_0_sqr (snd (nth 0 h (0, 0)))). nra. }
  pose proof (sqlen_nonneg X). destruct (Rle_dec (a_tol args) 0); nra.
Qed.
