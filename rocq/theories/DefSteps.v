(** One step of each algorithm in exact arithmetic with undefined results (C104). *)

From Coq Require Import ZArith List Bool Arith Lia Permutation Reals Lra.
From Verif Require Import Num Py Tensor TF TensorFacts TFFacts Sums Ops OpsLemmas Types Loss Fact Train Spec SpecR LayoutFacts SpecFacts MulFacts TtmFacts SkipFacts TtmLemmas Matricize
  KronFacts RSums MatR KronAlg NormFacts SpecTucker MultiR SvdFacts TuckerFacts TuckerRun TuckerLemmas SpecCp SpecBcu BcuFacts SpecTrain TrainLemmas LossFacts CpFacts AlsFacts AlsLemmas
  SpecProx Prox NcpFacts NcpLemmas NtFacts NtLemmas SpecScale ParamFacts ScaleAls SpecDef DefFacts.
Import ListNotations.
Local Open Scope R_scope.
#[local] Existing Instance NumX.

(** ** HOSVD, HOOI *)
Section Tucker.
  Variables (svdU : tensor R -> tensor R) (svdX : tensor xreal -> tensor xreal).
  Hypothesis HU : same_routine svdU svdX.

  Lemma td_U M M' : td M M' -> td (svdU M) (svdX M').
  Proof. intros H. rewrite (td_eq _ _ H), HU. apply td_def. Qed.
  Lemma d_columns t t' r : td t t' -> rrel td (tf_columns t r) (tf_columns t' r).
  Proof.
    intros H. unfold tf_columns. rewrite (proj1 H). destruct (shp t') as [|a [|b [|]]]; try reflexivity. cbn [rrel]. apply mgen_rel. intros i j. apply d_get, H.
  Qed.
  Lemma d_hosvd_factor X X' ranks n : td X X' -> rrel td (hosvd_factor svdU X ranks n) (hosvd_factor svdX X' ranks n).
  Proof.
    intros H. unfold hosvd_factor. apply (rrel_bind td); [apply d_unfold, H|]. intros u u' Hu. apply rrel_bind_same. intros r. apply d_columns, td_U, Hu.
  Qed.
  Lemma mapM_td {A} (f : A -> res (tensor R)) (g : A -> res (tensor xreal)) l : (forall a, rrel td (f a) (g a)) -> rrel tds (mapM f l) (mapM g l).
  Proof. intros H. apply (mapM_rel eq); [intros a b ->; apply H|]. induction l; constructor; auto. Qed.
  Definition dtu (o : tucker_out R) (o' : tucker_out xreal) : Prop := o' = mkTu (map def (tu_A o)) (def (tu_core o)) (def (tu_full o)) (Some (tu_loss o)).
  Lemma d_hosvd X ranks : some_entry X -> rrel dtu (hosvd svdU X ranks) (hosvd svdX (def X) ranks).
  Proof.
    intros HN. unfold hosvd. apply (rrel_bind tds); [apply mapM_td; intros n; apply d_hosvd_factor, td_def|]. intros A A' HA.
    apply (rrel_bind td); [apply d_ttm; [apply td_def|exact HA]|]. intros g g' Hg. apply (rrel_bind td); [apply d_tt; assumption|]. intros F F' HF.
    apply (rrel_bind dr); [apply d_rmse; [exact HN|apply td_def|exact HF]|]. intros l l' Hl. cbn [rrel]. unfold dtu. cbn [tu_A tu_core tu_full tu_loss].
    rewrite (tds_eq _ _ HA), (td_eq _ _ Hg), (td_eq _ _ HF), Hl. reflexivity.
  Qed.
  Lemma d_assign d r v v' : td v v' -> rrel td (assign_chk d r v) (assign_chk d r v').
  Proof. intros H. unfold assign_chk. rewrite (proj1 H). destruct (r <? 0)%Z; [reflexivity|]. destruct (shape_eqb _ _); [exact H|reflexivity]. Qed.
  Lemma d_hooi_init X ranks : rrel tds (hooi_init svdU X ranks) (hooi_init svdX (def X) ranks).
  Proof.
    unfold hooi_init. apply mapM_td. intros n. apply rrel_bind_same. intros d. apply rrel_bind_same. intros r.
    apply (rrel_bind td); [apply d_hosvd_factor, td_def|]. intros v v' Hv. apply d_assign, Hv.
  Qed.
  Lemma d_hooi_mode X ranks n A A' : tds A A' -> rrel tds (hooi_mode svdU X ranks n A) (hooi_mode svdX (def X) ranks n A').
  Proof.
    intros HA. unfold hooi_mode. apply (rrel_bind td); [apply d_ttm; [apply td_def|exact HA]|]. intros Y Y' HY. apply (rrel_bind td); [apply d_unfold, HY|]. intros u u' Hu.
    apply rrel_bind_same. intros r. apply rrel_bind_same. intros d. apply (rrel_bind td); [apply d_columns, td_U, Hu|]. intros t t' Ht.
    apply (rrel_bind td); [apply d_assign, Ht|]. intros v v' Hv. cbn [rrel]. apply Forall2_upd; assumption.
  Qed.
  Lemma d_hooi_modes X ranks l : forall A A', tds A A' -> rrel tds (hooi_modes svdU X ranks l A) (hooi_modes svdX (def X) ranks l A').
  Proof.
    induction l as [|n l IH]; intros A A' HA; cbn [hooi_modes]; [exact HA|]. apply (rrel_bind tds); [apply d_hooi_mode, HA|]. intros B B' HB. apply IH, HB.
  Qed.
  Lemma d_hooi_step X ranks A : some_entry X -> rrel (fun o o' => o' = def_hooi o) (hooi_step svdU X ranks A) (hooi_step svdX (def X) ranks (map def A)).
  Proof.
    intros HN. unfold hooi_step. apply (rrel_bind tds); [apply d_hooi_modes, tds_def|]. intros B B' HB.
    apply (rrel_bind td); [apply d_ttm; [apply td_def|exact HB]|]. intros g g' Hg. apply (rrel_bind td); [apply d_tt; assumption|]. intros F F' HF.
    apply (rrel_bind dmet); [apply d_metrics; [exact HN|apply td_def|exact HF]|]. intros m m' Hm. cbn [rrel]. unfold def_hooi. cbn [ho_A ho_core ho_full ho_met].
    rewrite (tds_eq _ _ HB), (td_eq _ _ Hg), (td_eq _ _ HF), Hm. reflexivity.
  Qed.
End Tucker.

(** ** CP_ALS *)
Section Cp.
  Variables (pinv : tensor R -> tensor R) (pinvX : tensor xreal -> tensor xreal) (X : tensor R) (r : nat).
  Hypothesis HP : penrose pinv.
  Hypothesis HV : same_routine pinv pinvX.
  Hypothesis Hne : nonempty (shp X).
  Hypothesis Hord : (2 <= ndims X <= 26)%nat.
  Let N := ndims X.

  Lemma d_col_max M M' : td M M' -> td (col_max M) (col_max M').
  Proof.
    intros H. unfold col_max. rewrite (proj1 H). destruct (shp M') as [|a [|b [|]]]; try exact H. split; [reflexivity|]. cbn [dat].
    apply Forall2_map_same. intros j. apply dr_tfmax. apply Forall2_map_same. intros i. apply d_get, H.
  Qed.
  Lemma d_div_cols B B' (l : nat -> R) I : is_mat B I r -> td B B' -> (forall q, (q < r)%nat -> l q <> 0) ->
    forall L', td (mkT [r] (map l (seq 0 r))) L' -> rrel td (tf_bin ndiv B (mkT [r] (map l (seq 0 r)))) (tf_bin ndiv B' L').
  Proof.
    intros HB HBB Hl L' HL. rewrite (div_cols B I r l HB). unfold tf_bin. rewrite <- (proj1 HBB), <- (proj1 HL), (proj2 HB). cbn [shp].
    unfold bshape. cbn [rev app bshape_rev]. rewrite Nat.eqb_refl. cbn [option_map rev app rrel].
    split; [reflexivity|]. unfold mgen, gen. cbn [dat]. 
    assert (G : forall ls, (forall idx, In idx ls -> valid [I; r] idx) -> Forall2 dr (map (fun idx => mget B (nth 0 idx 0%nat) (nth 1 idx 0%nat) / l (nth 1 idx 0%nat)) ls)
       (map (fun idx => ndiv (get B' (bidx [I; r] idx)) (get L' (bidx [r] idx))) ls)).
    { induction ls as [|idx ls IH]; intros Hv; [constructor|]. cbn [map]. constructor; [|apply IH; intros; apply Hv; right; assumption].
      destruct (valid2_inv I r idx (Hv idx (or_introl eq_refl))) as (i & q & -> & Hi & Hq). cbn [nth].
      assert (E1 : bidx [I; r] [i; q] = [i; q]) by (apply bidx_same; repeat constructor; assumption).
      assert (E2 : bidx [r] [i; q] = [q]). { unfold bidx. cbn. destruct (Nat.eqb r 1) eqn:E; [|reflexivity]. apply Nat.eqb_eq in E. f_equal. lia. }
      rewrite E1, E2. apply dr_div; [apply Hl, Hq|apply d_get, HBB|].
      pose proof (d_get _ _ [q] HL) as K. unfold dr in *. rewrite K. f_equal. unfold get. cbn [shp dat ravel]. cbn [map prod fold_right]. rewrite Nat.mul_1_r, Nat.add_0_r.
      rewrite (nth_map_lt l (seq 0 r) q 0%nat) by (rewrite seq_length; exact Hq). rewrite seq_nth by exact Hq. reflexivity. }
    apply G. intros idx Hi. apply in_indices in Hi. exact Hi.
  Qed.
  Lemma matmul_mat (A B M : tensor R) a b : shp B = [a; b] -> tf_matmul false false A B = Ok M -> exists d, is_mat M d b.
  Proof.
    intros HB E. unfold tf_matmul in E. rewrite HB in E. destruct (shp A) as [|a1 [|a2 [|]]]; try discriminate E. cbn in E. destruct (Nat.eqb a2 a); [|discriminate E]. injection E as <-.
    exists a1. apply is_mat_mgen.
  Qed.
  Lemma nth_fst {B} (l : list B) m : forall j d, (j < m)%nat -> nth j (firstn m l) d = nth j l d.
  Proof. revert l. induction m as [|m IH]; intros [|y l] [|j] d H; try lia; cbn; auto. apply IH. lia. Qed.
  Lemma skipn_replace_le {B} (x : B) k : forall m l, (k < m)%nat -> skipn m (replace k x l) = skipn m l.
  Proof. induction k as [|k IH]; intros [|m] [|y l] H; try lia; cbn; try reflexivity. apply IH. lia. Qed.
  Definition dpair (a : list (tensor R) * tensor R) (b : list (tensor xreal) * tensor xreal) : Prop := tds (fst a) (fst b) /\ td (snd a) (snd b).
  Lemma d_cp_mode mats mats' n A A' : unfold_all X = Ok mats -> tds mats mats' -> tds A A' -> cp_factors X r A -> (n < N)%nat ->
    (forall q, (q < r)%nat -> cmax (als_solution pinv X r A n) q <> 0) -> rrel dpair (cp_mode pinv mats r n A) (cp_mode pinvX mats' r n A').
  Proof.
    intros Em HM HA HF Hn Hnz. pose proof (cp_mode_run pinv X r mats HP Hne Hord Em A n HF Hn) as ER. destruct (grams_ok X r A n HF Hord Hn) as (G0 & EG0 & EV0).
    unfold cp_mode in *. apply (rrel_bind_ok tds); [apply d_grams, HA|]. intros G G' E1 _ HG. rewrite E1 in ER, EG0. injection EG0 as <-. cbn [bind] in ER.
    apply (rrel_bind_ok td); [apply d_khatri, HA|]. intros kr kr' E2 _ Hkr. rewrite E2 in ER. cbn [bind] in ER.
    apply (rrel_bind_ok td); [apply pynth_rel, HM|]. intros Xm Xm' E3 _ HXm. rewrite E3 in ER. cbn [bind] in ER.
    apply (rrel_bind_ok td); [apply d_matmul; assumption|]. intros XA XA' E4 _ HXA. rewrite E4 in ER. cbn [bind] in ER.
    apply (rrel_bind_ok td); [apply d_hadamard, HG|]. intros V V' E5 _ HVV. rewrite EV0 in E5. injection E5 as <-. rewrite EV0 in ER. cbn [bind] in ER.
    apply (rrel_bind_ok td); [apply d_matmul; [exact HXA|rewrite (td_eq _ _ HVV), HV; apply td_def]|]. intros nn nn' E6 _ Hnn. rewrite E6 in ER. cbn [bind] in ER.
    rewrite (d_dim _ _ HXm 0%Z) in ER |- *. apply (rrel_bind_ok eq); [apply rrel_refl|]. intros d d' E7 _ <-. rewrite E7 in ER. cbn [bind] in ER.
    apply (rrel_bind_ok td); [apply d_reshape, Hnn|]. intros q q' E8 _ Hq. rewrite E8 in ER. cbn [bind] in ER.
    assert (EL : col_max q = lams r (als_solution pinv X r A n)). { apply bind_ok in ER as (new & _ & ER). injection ER as _ ER. exact ER. }
    destruct (pinv_gram pinv r HP A n) as [HPm _]. destruct (matmul_mat XA _ nn r r (proj2 HPm) E6) as (dd & Hd).
    apply (rrel_bind td).
    { pose proof (d_col_max q q' Hq) as HC. rewrite EL in HC |- *. apply (d_div_cols nn nn' (cmax (als_solution pinv X r A n)) dd Hd Hnn Hnz _ HC). }
    intros new new' Hnew. cbn [rrel]. split; cbn [fst snd]; [apply Forall2_upd; assumption|apply d_col_max, Hq].
  Qed.
  Lemma d_cp_modes mats mats' n : unfold_all X = Ok mats -> tds mats mats' -> forall k A A0 lam lam0 A1 lam1, (k + n)%nat = N -> tds A A0 -> td lam lam0 -> cp_factors X r A ->
    cp_modes pinv mats r (seq k n) A lam = Ok (A1, lam1) ->
    (forall m q, (k <= m < N)%nat -> (q < r)%nat -> cmax (als_solution pinv X r (mixed m A1 A) m) q <> 0) ->
    rrel dpair (cp_modes pinv mats r (seq k n) A lam) (cp_modes pinvX mats' r (seq k n) A0 lam0).
  Proof.
    intros Em HM. induction n as [|n IH]; intros k A A0 lam lam0 A1 lam1 HN HA HL HF E Hnz; cbn [seq cp_modes] in *; [split; assumption|].
    assert (Ek : (k < N)%nat) by lia. pose proof (cp_mode_run pinv X r mats HP Hne Hord Em A k HF Ek) as ER.
    assert (EA : cp_factors X r A1 /\ forall j, (j < k)%nat -> mat_at A1 j = mat_at A j).
    { destruct (sweep pinv X r mats HP Hne Hord Em (S n) k A lam A1 lam1 HN HF E) as (H1 & H2 & _). split; assumption. }
    destruct EA as [HF1 Hpre].
    assert (LA : length A = N) by apply HF. assert (LA1 : length A1 = N) by apply HF1.
    assert (M0 : mixed k A1 A = A).
    { unfold mixed. rewrite <- (firstn_skipn k A) at 2. f_equal. apply nth_ext with (d := mkT [] []) (d' := mkT [] []); rewrite !firstn_length; [lia|]. intros j Hj. rewrite !nth_fst by lia. apply (Hpre j). lia. }
    apply (rrel_bind_ok dpair).
    { apply d_cp_mode; auto. intros q Hq. specialize (Hnz k q ltac:(lia) Hq). rewrite M0 in Hnz. exact Hnz. }
    intros [B lb] [B' lb'] EB _ [HB HLb]. cbn [fst snd] in *. rewrite ER in EB. injection EB as <- <-. rewrite ER in E. cbn [bind fst snd] in E.
    assert (HFB : cp_factors X r (replace k (normed r (als_solution pinv X r A k)) A)) by (apply replace_factors; [exact HF|apply normed_mat]).
    destruct (sweep pinv X r mats HP Hne Hord Em n (S k) _ _ A1 lam1 ltac:(lia) HFB E) as (_ & Hpre2 & _).
    apply (IH (S k) _ _ _ _ A1 lam1); auto; [lia|]. intros m q Hm Hq. specialize (Hnz m q ltac:(lia) Hq).
    replace (mixed m A1 (replace k (normed r (als_solution pinv X r A k)) A)) with (mixed m A1 A); [exact Hnz|].
    unfold mixed. f_equal. symmetry. apply skipn_replace_le. lia.
  Qed.
End Cp.
Lemma c104_cp_step pinv pinvX (X : tensor R) r A o : penrose pinv -> same_routine pinv pinvX -> some_entry X -> cp_factors X r A -> cp_step pinv X r A = Ok o ->
  (forall n q v, (n < ndims X)%nat -> (q < r)%nat -> column_max (als_solution pinv X r (mixed n (cp_A o) A) n) q v -> v <> 0) ->
  cp_step pinvX (def X) r (map def A) = Ok (def_cp o).
Proof.
  intros HP HV HN HF E Hnz. destruct (step_parts pinv X r A o HF E) as (Hne & Ho & mats & Em & E2 & _).
  assert (Hc : forall m q, (0 <= m < ndims X)%nat -> (q < r)%nat -> cmax (als_solution pinv X r (mixed m (cp_A o) A) m) q <> 0).
  { intros m q Hm Hq. apply (Hnz m q); [lia|exact Hq|]. apply cmax_ok. unfold als_solution. unfold nrows. cbn. apply nonempty_nth; [exact Hne|unfold ndims in Hm; lia]. }
  assert (K : rrel (fun a b => b = def_cp a) (cp_step pinv X r A) (cp_step pinvX (def X) r (map def A))).
  { unfold cp_step. apply (rrel_bind_ok tds); [apply d_unfold_all, td_def|]. intros m1 m2 Em1 _ HM. assert (m1 = mats) by congruence. subst m1.
    apply (rrel_bind dpair). { apply (d_cp_modes pinv pinvX X r HP HV Hne ltac:(lia) mats m2 (ndims X) Em HM 0 A (map def A) _ _ (cp_A o) (cp_lam o) eq_refl (tds_def A)); auto. split; [reflexivity|constructor]. }
    intros [B lb] [B' lb'] [HB HL]. cbn [fst snd] in *. apply (rrel_bind td). { apply d_kt; [exact HB|]. destruct HL as [S D]. split; [cbn; rewrite S; reflexivity|exact D]. }
    intros F F' HFF. apply (rrel_bind dmet); [apply d_metrics; [exact HN|apply td_def|exact HFF]|]. intros m m' Hm. cbn [rrel]. unfold def_cp. cbn.
    rewrite (tds_eq _ _ HB), (td_eq _ _ HL), (td_eq _ _ HFF), Hm. reflexivity. }
  rewrite E in K. destruct (cp_step pinvX (def X) r (map def A)) as [o'|e]; cbn in K; [|contradiction]. rewrite K. reflexivity.
Qed.
