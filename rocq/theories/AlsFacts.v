(** CP_ALS over the reals: every mode update solves its least-squares problem and no step
    increases the distance. *)

From Coq Require Import ZArith List Bool Arith Lia Permutation Reals Lra Psatz.
From Verif Require Import Num Py Tensor TF TensorFacts TFFacts Sums Ops OpsLemmas Types Loss Fact Train Spec SpecR LayoutFacts SpecFacts MulFacts TtmFacts SkipFacts TtmLemmas Matricize
  KronFacts RSums MatR KronAlg NormFacts SpecTucker MultiR SvdFacts TuckerFacts TuckerRun SpecCp SpecBcu BcuFacts SpecTrain TrainLemmas CpFacts.
Import ListNotations.
Local Open Scope R_scope.

(** ** linear least squares *)
Section LS.
  Variables (I J r : nat) (Y H V P : mf).
  Hypothesis HV : meq r r V (mm J (tr H) H).
  Hypothesis HP : meq r r (mm r (mm r V P) V) V.
  Let B := mm r (mm J Y H) P.

  Lemma proj_H : meq J r (mm r H (mm r P V)) H.
  Proof.
    pose (Z := fun a b => mm r P V a b - delta a b).
    assert (E : meq J r (mm r H Z) (fun _ _ => 0)).
    { apply fro_zero. unfold fro. rewrite dot2_adj.
      rewrite (dot2_ext r r Z Z (mm J (tr H) (mm r H Z)) (fun _ _ => 0)).
      - rewrite dot2_sym. apply dot2_zero_l.
      - intros i j _ _. reflexivity.
      - intros i j Hi Hj. rewrite <- mm_assoc.
        rewrite (mm_ext r _ V Z Z) by (intros; first [reflexivity | symmetry; apply HV; auto]).
        unfold Z. rewrite mm_sub_r, mm_delta_r by auto. rewrite <- mm_assoc, HP by auto. lra. }
    intros i j Hi Hj. specialize (E i j Hi Hj). unfold Z in E. rewrite mm_sub_r, mm_delta_r in E by auto. lra.
  Qed.

  Lemma normal_eq : meq I r (mm J (fun i j => Y i j - mm r B (tr H) i j) H) (fun _ _ => 0).
  Proof.
    intros i q Hi Hq. rewrite mm_sub_l.
    assert (E : mm J (mm r B (tr H)) H i q = mm J Y H i q).
    { rewrite mm_assoc. rewrite (mm_ext r B B _ V) by (intros; first [reflexivity | symmetry; apply HV; auto]).
      unfold B. rewrite mm_assoc. rewrite (mm_assoc J r Y H). apply mm_ext; [reflexivity|]. intros l Hl. apply proj_H; auto. }
    rewrite E. lra.
  Qed.

  Lemma ls_opt C : fro I J (fun i j => Y i j - mm r B (tr H) i j) <= fro I J (fun i j => Y i j - mm r C (tr H) i j).
  Proof.
    set (E := fun i j => Y i j - mm r B (tr H) i j).
    rewrite (fro_ext I J (fun i j => Y i j - mm r C (tr H) i j) (fun i j => E i j - mm r (fun a b => C a b - B a b) (tr H) i j)).
    2: { intros i j _ _. unfold E. rewrite mm_sub_l. lra. }
    rewrite fro_sub. rewrite (dot2_sym I J E), dot2_adj_r.
    rewrite (dot2_ext I r _ (fun a b => C a b - B a b) (mm J E (tr (tr H))) (fun _ _ => 0)).
    - rewrite dot2_sym, dot2_zero_l. pose proof (fro_nonneg I J (mm r (fun a b => C a b - B a b) (tr H))). lra.
    - intros i j _ _. reflexivity.
    - intros i j Hi Hj. rewrite <- (normal_eq i j Hi Hj). reflexivity.
  Qed.
End LS.

(** column maxima of a matrix *)
Definition cmax (M : tensor R) (q : nat) : R := tf_max (map (fun i => mget M i q) (seq 0 (nrows M))).
Lemma cmax_ok M q : nrows M <> 0%nat -> column_max M q (cmax M q).
Proof.
  intros H. destruct (tf_max_R (map (fun i => mget M i q) (seq 0 (nrows M)))) as [H1 H2].
  { intros E. apply map_eq_nil in E. destruct (nrows M); [congruence|discriminate]. }
  split.
  - apply in_map_iff in H1 as (i & E & Hi). apply in_seq in Hi. exists i. split; [lia|exact E].
  - intros i Hi. apply H2, in_map_iff. exists i. split; auto. apply in_seq. lia.
Qed.
Lemma column_max_unique M q u v : column_max M q u -> column_max M q v -> u = v.
Proof. intros [(i & Hi & <-) H1] [(j & Hj & <-) H2]. specialize (H1 j Hj). specialize (H2 i Hi). lra. Qed.

Lemma div_cols (B : tensor R) I r (l : nat -> R) : is_mat B I r ->
  tf_bin ndiv B (mkT [r] (map l (seq 0 r))) = Ok (mgen I r (fun i q => mget B i q / l q)).
Proof.
  intros [_ Hs]. unfold tf_bin. rewrite Hs. cbn [shp].
  assert (E : bshape [I; r] [r] = Some [I; r]).
  { unfold bshape. cbn. rewrite Nat.eqb_refl. reflexivity. }
  rewrite E. f_equal. unfold mgen. apply gen_ext. intros idx Hidx. apply valid2_inv in Hidx as (i & q & -> & Hi & Hq).
  cbn [nth]. rewrite bidx_same by (constructor; [auto|constructor; [auto|constructor]]).
  fold (mget B i q). change (@ndiv R _) with Rdiv. f_equal.
  unfold bidx. cbn [length Nat.sub skipn combine map fst snd].
  unfold get. cbn [dat shp ravel]. rewrite Nat.mul_1_r, Nat.add_0_r.
  replace (if Nat.eqb r 1 then 0%nat else q) with q.
  - rewrite nth_map_seq by auto. reflexivity.
  - destruct (Nat.eqb_spec r 1); lia.
Qed.

Lemma mixed_all (A' A : list (tensor R)) : length A' = length A -> mixed (length A) A' A = A'.
Proof. intros H. unfold mixed. rewrite firstn_all2, skipn_all2, app_nil_r by lia. reflexivity. Qed.
Lemma mixed_0 (A' A : list (tensor R)) : mixed 0 A' A = A. Proof. reflexivity. Qed.

Lemma mixed_S (A' A : list (tensor R)) m : length A' = length A -> (m < length A)%nat -> mixed (S m) A' A = replace m (mat_at A' m) (mixed m A' A).
Proof.
  intros HL Hm. assert (Lm : length (mixed m A' A) = length A) by (apply mixed_length; auto; lia).
  apply (list_nth_ext _ _ (mkT [] [])); [rewrite replace_length, Lm, mixed_length; auto; lia|].
  rewrite mixed_length by (auto; lia). intros j Hj. rewrite nth_mixed by (auto; lia).
  rewrite nth_replace by lia. destruct (Nat.eqb_spec j m) as [->|E].
  - destruct (Nat.ltb_spec m (S m)); [reflexivity|lia].
  - rewrite nth_mixed by (auto; lia). destruct (Nat.ltb_spec j (S m)), (Nat.ltb_spec j m); auto; lia.
Qed.

Section Als.
  Variables (pinv : tensor R -> tensor R) (X : tensor R) (r : nat) (mats : list (tensor R)).
  Hypothesis HP : penrose pinv.
  Hypothesis Hne : nonempty (shp X).
  Hypothesis Hord : (2 <= ndims X <= 26)%nat.
  Hypothesis Hmats : unfold_all X = Ok mats.
  Let N := ndims X.
  Let sol A n := als_solution pinv X r A n.
  Let I n := nth n (shp X) 0%nat.

  Lemma mats_nth n : (n < N)%nat -> exists M, pynth mats (Z.of_nat n) = Ok M /\ unfold X (Z.of_nat n) = Ok M.
  Proof.
    clear HP Hne Hord. intros Hn. unfold unfold_all in Hmats. pose proof (mapM_length _ _ _ Hmats) as L. rewrite zrange_length in L.
    pose proof (mapM_inv _ _ _ Hmats) as F. exists (nth n mats (mkT [] [])).
    rewrite (pynth_nat mats n (mkT [] [])) by (rewrite L; auto). split; [reflexivity|].
    assert (G : forall (l : list Z) (m : list (tensor R)) k, Forall2 (fun a b => unfold X a = Ok b) l m -> (k < length l)%nat ->
              unfold X (nth k l 0%Z) = Ok (nth k m (mkT [] []))).
    { intros l m k F2. revert k. induction F2 as [|x y l m H F2 IH]; intros k Hk; [simpl in Hk; lia|]. destruct k; simpl; auto. apply IH. simpl in Hk. lia. }
    specialize (G _ _ n F). rewrite zrange_length in G. specialize (G Hn).
    unfold zrange in G. rewrite nth_map_lt with (da := 0%nat) in G by (rewrite seq_length; auto). rewrite seq_nth in G by auto. exact G.
  Qed.

  Lemma sol_mat A n : is_mat (sol A n) (I n) r.
  Proof. apply is_mat_mgen. Qed.

  Lemma pinv_gram A n : is_mat (pinv (gram_but r A n)) r r /\
    meq r r (mm r (mm r (mget (gram_but r A n)) (mget (pinv (gram_but r A n)))) (mget (gram_but r A n))) (mget (gram_but r A n)).
  Proof.
    assert (Hm : is_mat (gram_but r A n) r r) by apply is_mat_mgen.
    destruct (matrix_is_mat _ _ _ Hm) as (H1 & H2 & H3). destruct (HP _ H1) as (P1 & P2 & _). rewrite H2, H3 in *.
    split; [exact P1|]. intros i j Hi Hj. unfold mm. rewrite <- (P2 i j Hi Hj), (sumn_bigsum RLR). apply bigsum_ext. intros k Hk.
    rewrite (sumn_bigsum RLR). reflexivity.
  Qed.

  (** the distance after any change of the mode-n factor *)
  Lemma sol_opt A n : cp_factors X r A -> (n < N)%nat -> forall C lam, is_mat C (I n) r ->
    cp_error X r A n (sol A n) <= sqdist X (cp_tensor r lam (replace n C A)).
  Proof.
    intros HA Hn C lam HC. destruct (mats_nth n Hn) as (Xm & _ & EX).
    destruct (kr_ok X r A n HA Hord Hn) as (H & EH & HmH & Hkh & Hbut).
    unfold cp_error. rewrite (error_unfold X r A n HA Hne Hord Hn Xm H (sol A n) (ones r) EX EH (sol_mat A n)).
    rewrite (error_unfold X r A n HA Hne Hord Hn Xm H C lam EX EH HC).
    destruct (pinv_gram A n) as [_ HVP].
    pose proof (ls_opt (I n) (rest n (shp X)) r (mget Xm) (mget H) (mget (gram_but r A n)) (mget (pinv (gram_but r A n)))
      (gram_kr X r A n HA Hord Hn H Hkh HmH) HVP (fun i q => mget C i q * mget lam q 0)) as L.
    eapply Rle_trans; [|exact L]. right. apply fro_ext. intros i j Hi Hj. f_equal. apply mm_ext; [|reflexivity].
    intros q Hq. unfold ones. rewrite mget_mgen by (auto; lia). rewrite Rmult_1_r. unfold sol, als_solution. rewrite mget_mgen by auto.
    rewrite <- (sumn_bigsum RLR). apply sumn_ext. intros p Hp. Rn. f_equal.
    apply (mttkrp_kr X r A n Hne Hord Hn Xm H EX Hbut); auto.
  Qed.

  Lemma sol_least_squares A n : cp_factors X r A -> (n < N)%nat -> least_squares X r A n (sol A n).
  Proof. intros HA Hn. split; [apply sol_mat|]. intros C HC. apply sol_opt; auto. Qed.

  (** ** one mode *)
  Definition lams (B : tensor R) : tensor R := mkT [r] (map (cmax B) (seq 0 r)).
  Definition normed (B : tensor R) : tensor R := mgen (nrows B) r (fun i q => mget B i q / cmax B q).

  Lemma cp_mode_run A n : cp_factors X r A -> (n < N)%nat ->
    cp_mode pinv mats r n A = Ok (replace n (normed (sol A n)) A, lams (sol A n)).
  Proof.
    intros HA Hn. unfold cp_mode. destruct (grams_ok X r A n HA Hord Hn) as (G & EG & EV). rewrite EG. cbn [bind].
    destruct (kr_ok X r A n HA Hord Hn) as (H & EH & HmH & Hkh & Hbut). rewrite EH. cbn [bind].
    destruct (mats_nth n Hn) as (Xm & EXm & EX). rewrite EXm. cbn [bind].
    assert (H0 : nth n (shp X) 0%nat <> 0%nat) by (apply nonempty_nth; auto).
    pose proof (proj2 (unfold_mat X Xm n Hn H0 EX)) as HXm.
    rewrite (matmul_ok false false Xm H (I n) (rest n (shp X)) r) by (try apply HXm; apply HmH). cbn [bind].
    rewrite EV. cbn [bind]. destruct (pinv_gram A n) as [HPm _].
    rewrite (matmul_ok false false _ (pinv (gram_but r A n)) (I n) r r) by (try apply HPm; reflexivity). cbn [bind].
    set (nn := mgen (I n) r _).
    assert (Enn : nn = sol A n).
    { unfold nn, sol, als_solution. unfold mgen at 1 3. apply gen_ext. intros idx Hidx. apply valid2_inv in Hidx as (i & q & -> & Hi & Hq).
      cbn [nth]. rewrite <- (sumn_bigsum RLR). apply sumn_ext. intros p Hp. Rn. f_equal. rewrite mget_mgen by auto.
      symmetry. apply (mttkrp_kr X r A n Hne Hord Hn Xm H EX Hbut); auto. }
    rewrite Enn. clear nn Enn.
    assert (Ed : dim Xm 0 = Ok (I n)).
    { unfold dim. destruct HXm as [_ ->]. reflexivity. }
    rewrite Ed. cbn [bind].
    pose proof (reshape_ok (sol A n) [I n; r]) as E. cbn [map] in E. rewrite E by reflexivity. cbn [bind]. clear E.
    assert (Es : mkT [I n; r] (dat (sol A n)) = sol A n) by reflexivity. rewrite Es.
    assert (El : col_max (sol A n) = lams (sol A n)) by reflexivity. rewrite El.
    unfold lams at 1. rewrite (div_cols (sol A n) (I n) r) by apply sol_mat. cbn [bind]. rewrite upd_replace. reflexivity.
  Qed.

  Lemma normed_mat A n : is_mat (normed (sol A n)) (I n) r.
  Proof. apply is_mat_mgen. Qed.

  Lemma replace_factors A n B : cp_factors X r A -> is_mat B (I n) r -> cp_factors X r (replace n B A).
  Proof.
    intros [HL HA] HB. split; [rewrite replace_length; exact HL|]. intros k Hk. unfold mat_at.
    destruct (Nat.eq_dec k n) as [->|E].
    - rewrite nth_replace, Nat.eqb_refl by (rewrite HL; auto). exact HB.
    - rewrite nth_replace_ne by auto. apply HA; auto.
  Qed.

  (** what the sweep over the modes k..N-1 leaves *)
  Lemma sweep n : forall k A lam A' lam', (k + n)%nat = N -> cp_factors X r A ->
    cp_modes pinv mats r (seq k n) A lam = Ok (A', lam') ->
    cp_factors X r A' /\ (forall j, (j < k)%nat -> mat_at A' j = mat_at A j) /\
    (forall m, (k <= m < N)%nat -> mat_at A' m = normed (sol (mixed m A' A) m) /\
       (m = (N - 1)%nat -> lam' = lams (sol (mixed m A' A) m))) /\
    (n = 0%nat -> lam' = lam).
  Proof.
    induction n as [|n IH]; intros k A lam A' lam' HN HA E; cbn [seq cp_modes] in E.
    - injection E as <- <-. split; [auto|]. split; [auto|]. split; [intros m Hm; lia|auto].
    - rewrite cp_mode_run in E by (auto; lia). cbn [bind fst snd] in E. set (B := sol A k) in *.
      assert (HA1 : cp_factors X r (replace k (normed B) A)) by (apply replace_factors; [auto|apply normed_mat]).
      destruct (IH (S k) _ _ _ _ ltac:(lia) HA1 E) as (H1 & H2 & H3 & H4).
      assert (HL : length A' = length A) by (rewrite (proj1 H1), (proj1 HA); reflexivity).
      assert (HLA : length A = N) by apply HA.
      assert (Hk : mat_at A' k = normed B).
      { rewrite (H2 k) by lia. unfold mat_at. rewrite nth_replace, Nat.eqb_refl by lia. reflexivity. }
      assert (Hlt : forall j, (j < k)%nat -> mat_at A' j = mat_at A j).
      { intros j Hj. rewrite (H2 j) by lia. unfold mat_at. rewrite nth_replace_ne by lia. reflexivity. }
      assert (Hmk : mixed k A' A = A).
      { apply (list_nth_ext _ _ (mkT [] [])); [rewrite mixed_length; auto; lia|]. rewrite mixed_length by (auto; lia). intros j Hj.
        rewrite nth_mixed by (auto; lia). destruct (Nat.ltb_spec j k) as [Hjk|Hjk]; auto. apply Hlt, Hjk. }
      assert (Hmm : forall m, (S k <= m < N)%nat -> mixed m A' (replace k (normed B) A) = mixed m A' A).
      { intros m Hm. apply (list_nth_ext _ _ (mkT [] [])); [rewrite !mixed_length; rewrite ?replace_length; auto; lia|].
        rewrite mixed_length by (rewrite ?replace_length; auto; lia). intros j Hj.
        rewrite !nth_mixed by (rewrite ?replace_length; auto; lia). destruct (Nat.ltb_spec j m) as [Hjm|Hjm]; auto.
        rewrite nth_replace_ne by lia. reflexivity. }
      split; [exact H1|]. split; [exact Hlt|]. split; [|discriminate].
      intros m Hm. destruct (Nat.eq_dec m k) as [->|Hmne].
      + rewrite Hmk. fold B. split; [exact Hk|]. intros HkN. apply H4. lia.
      + destruct (H3 m ltac:(lia)) as [G1 G2]. rewrite Hmm in G1, G2 by lia. auto.
  Qed.

  Lemma mixed_factors A' A m : cp_factors X r A' -> cp_factors X r A -> (m <= N)%nat -> cp_factors X r (mixed m A' A).
  Proof.
    clear Hord. intros [L' H'] [L H] Hm. fold N in L, L'. assert (E : length (mixed m A' A) = N) by (rewrite mixed_length; lia).
    split; [exact E|]. intros k Hk. unfold mat_at. rewrite nth_mixed by lia. destruct (Nat.ltb k m); [apply H'|apply H]; auto.
  Qed.

  (** weights as a column *)
  Definition column (l : nat -> R) : tensor R := mkT [r; 1%nat] (map l (seq 0 r)).
  Lemma column_get l q : (q < r)%nat -> mget (column l) q 0 = l q.
  Proof. intros H. unfold mget, get, column. cbn [shp dat ravel prod]. rewrite !Nat.mul_1_r, !Nat.add_0_r. rewrite nth_map_seq by auto. reflexivity. Qed.

  (** the normalised factor with its weights is the solution itself *)
  Lemma rescale A n B (l : nat -> R) A1 : cp_factors X r A -> (n < N)%nat -> is_mat B (I n) r -> is_mat A1 (I n) r ->
    (forall i q, (i < I n)%nat -> (q < r)%nat -> mget A1 i q * l q = mget B i q) ->
    cp_tensor r (column l) (replace n A1 A) = cp_tensor r (ones r) (replace n B A).
  Proof.
    clear Hord. intros HA Hn HB HA1 Hl. pose proof (proj1 HA) as L. fold N in L.
    destruct (matrix_is_mat _ _ _ HB) as (_ & HBr & _). destruct (matrix_is_mat _ _ _ HA1) as (_ & HAr & _).
    assert (Es : map nrows (replace n A1 A) = map nrows (replace n B A)).
    { apply nth_ext with (d := 0%nat) (d' := 0%nat); rewrite !map_length, !replace_length; [reflexivity|]. intros k Hk.
      rewrite !(nth_map_lt nrows _ _ (mkT [] [])) by (rewrite replace_length; auto). rewrite !nth_replace by lia.
      destruct (Nat.eqb k n); congruence. }
    unfold cp_tensor. rewrite Es. apply gen_ext. intros idx Hv. rewrite <- !(sumn_bigsum RLR). apply sumn_ext. intros q Hq.
    rewrite !replace_length, L. rewrite !(bigprod_split RLR n _ N) by auto. rewrite column_get by auto.
    unfold ones. rewrite mget_mgen by (auto; lia).
    assert (E1 : forall C, mat_at (replace n C A) n = C).
    { intros C. unfold mat_at. rewrite nth_replace, Nat.eqb_refl by lia. reflexivity. }
    rewrite !E1.
    assert (Hi : (nth n idx 0 < I n)%nat).
    { pose proof (valid_nth _ _ n Hv) as V. rewrite map_length, replace_length in V. specialize (V ltac:(lia)).
      rewrite (nth_map_lt nrows _ _ (mkT [] [])) in V by (rewrite replace_length; lia). fold (mat_at (replace n B A) n) in V. rewrite E1, HBr in V. exact V. }
    rewrite <- (Hl _ q Hi Hq).
    replace (map (fun k => mget (mat_at (replace n A1 A) k) (nth k idx 0%nat) q) (rev (others n N)))
      with (map (fun k => mget (mat_at (replace n B A) k) (nth k idx 0%nat) q) (rev (others n N))).
    - Rn. ring.
    - apply map_ext_in. intros k Hk. apply in_rev, in_others in Hk. unfold mat_at. rewrite !nth_replace_ne by lia. reflexivity.
  Qed.

  Lemma normed_rescale B : is_mat B (nrows B) r -> (forall q, (q < r)%nat -> cmax B q <> 0) ->
    forall i q, (i < nrows B)%nat -> (q < r)%nat -> mget (normed B) i q * cmax B q = mget B i q.
  Proof. intros _ H i q Hi Hq. unfold normed. rewrite mget_mgen by auto. field. auto. Qed.

  (** ** a whole sweep *)
  Section Sweep.
    Variables (A A' : list (tensor R)) (lam : tensor R).
    Hypothesis HA : cp_factors X r A.
    Hypothesis Hrun : cp_modes pinv mats r (seq 0 N) A (mkT [] []) = Ok (A', lam).
    Let B m := sol (mixed m A' A) m.
    Hypothesis Hnz : forall m q, (m < N)%nat -> (q < r)%nat -> cmax (B m) q <> 0.

    Lemma descend m : (m < N)%nat -> forall mu,
      sqdist X (cp_tensor r (column (cmax (B m))) (mixed (S m) A' A)) <= sqdist X (cp_tensor r mu (mixed m A' A)).
    Proof.
      intros Hm mu. destruct (sweep N 0 A _ _ _ eq_refl HA Hrun) as (HA' & _ & HS & _).
      pose proof (proj1 HA) as L. pose proof (proj1 HA') as L'. fold N in L, L'.
      pose proof (mixed_factors A' A m HA' HA ltac:(lia)) as HM.
      rewrite mixed_S by lia. rewrite (proj1 (HS m ltac:(lia))). fold (B m).
      rewrite (rescale (mixed m A' A) m (B m) (cmax (B m)) (normed (B m)) HM Hm (sol_mat _ _) (normed_mat _ _)).
      2: { intros i q Hi Hq. exact (normed_rescale (B m) (sol_mat _ _) (fun q Hq => Hnz m q Hm Hq) i q Hi Hq). }
      fold (cp_error X r (mixed m A' A) m (B m)).
      rewrite <- (replace_self (mixed m A' A) m (mkT [] [])) at 2. apply sol_opt; auto. apply HM. auto.
    Qed.

    Lemma sweep_descends mu : sqdist X (cp_tensor r (column (cmax (B (N - 1)))) A') <= sqdist X (cp_tensor r mu A).
    Proof.
      destruct (sweep N 0 A _ _ _ eq_refl HA Hrun) as (HA' & _ & HS & _).
      pose proof (proj1 HA) as L. pose proof (proj1 HA') as L'. fold N in L, L'.
      assert (G : forall m, (m < N)%nat -> sqdist X (cp_tensor r (column (cmax (B m))) (mixed (S m) A' A)) <= sqdist X (cp_tensor r mu A)).
      { induction m as [|m IH]; intros Hm.
        - apply (descend 0 Hm).
        - eapply Rle_trans; [apply (descend (S m) Hm (column (cmax (B m))))|]. apply IH. lia. }
      specialize (G (N - 1)%nat ltac:(unfold N in *; lia)). replace (S (N - 1)) with (length A) in G by (unfold N in *; lia).
      rewrite mixed_all in G by lia. exact G.
    Qed.
  End Sweep.
End Als.
