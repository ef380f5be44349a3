(** CP_ALS divides by a zero column maximum (C105). *)

From Coq Require Import ZArith List Bool Arith Lia Permutation Reals Lra.
From Verif Require Import Num Py Tensor TF TensorFacts TFFacts Sums Ops OpsLemmas Types Loss Fact Train Spec SpecR LayoutFacts SpecFacts MulFacts TtmFacts SkipFacts TtmLemmas Matricize
  KronFacts RSums MatR KronAlg NormFacts SpecTucker MultiR SvdFacts TuckerFacts TuckerRun TuckerLemmas SpecCp SpecBcu BcuFacts SpecTrain TrainLemmas LossFacts CpFacts AlsFacts AlsLemmas
  SpecProx Prox NcpFacts NcpLemmas NtFacts NtLemmas DataFacts SpecScale ParamFacts ScaleAls SpecDef DefFacts DefSteps.
Import ListNotations.
Local Open Scope R_scope.
#[local] Existing Instance NumX.

Section Cp.
  Variables (pinv : tensor R -> tensor R) (pinvX : tensor xreal -> tensor xreal) (X : tensor R) (r : nat).
  Hypothesis HP : penrose pinv.
  Hypothesis HV : same_routine pinv pinvX.
  Hypothesis Hne : nonempty (shp X).
  Hypothesis Hord : (2 <= ndims X <= 26)%nat.
  Let N := ndims X.

  Lemma x_div_cols B B' (l : nat -> R) I q : is_mat B I r -> td B B' -> l q = 0 -> (q < r)%nat ->
    forall L', td (mkT [r] (map l (seq 0 r))) L' ->
    rrel (fun _ new => forall i, (i < I)%nat -> mget new i q = None) (tf_bin ndiv B (mkT [r] (map l (seq 0 r)))) (tf_bin ndiv B' L').
  Proof.
    intros HB HBB Hl Hq L' HL. rewrite (div_cols B I r l HB). unfold tf_bin. rewrite <- (proj1 HBB), <- (proj1 HL), (proj2 HB). cbn [shp].
    unfold bshape. cbn [rev app bshape_rev]. rewrite Nat.eqb_refl. cbn [option_map rev app rrel].
    intros i Hi. unfold mget. rewrite get_gen by (repeat constructor; assumption).
    assert (E1 : bidx [I; r] [i; q] = [i; q]) by (apply bidx_same; repeat constructor; assumption).
    assert (E2 : bidx [r] [i; q] = [q]). { unfold bidx. cbn. destruct (Nat.eqb r 1) eqn:E; [|reflexivity]. apply Nat.eqb_eq in E. f_equal. lia. }
    rewrite E1, E2. pose proof (d_get _ _ [q] HL) as K. pose proof (d_get _ _ [i; q] HBB) as K2. unfold dr in K, K2. rewrite K, K2.
    replace (get (mkT [r] (map l (seq 0 r))) [q]) with 0; [cbn; destruct (Req_EM_T 0 0); [reflexivity|congruence]|].
    unfold get. cbn [shp dat ravel]. cbn [map prod fold_right]. rewrite Nat.mul_1_r, Nat.add_0_r.
    rewrite (nth_map_lt l (seq 0 r) q 0%nat) by (rewrite seq_length; exact Hq). rewrite seq_nth by exact Hq. symmetry. exact Hl.
  Qed.
  Definition undefd n q (a : list (tensor R) * tensor R) (b : list (tensor xreal) * tensor xreal) : Prop :=
    forall i, (i < nth n (shp X) 0)%nat -> mget (nth n (fst b) (mkT [] [])) i q = None.
  Lemma x_cp_mode mats mats' n A A' q0 : unfold_all X = Ok mats -> tds mats mats' -> tds A A' -> cp_factors X r A -> (n < N)%nat -> (q0 < r)%nat ->
    cmax (als_solution pinv X r A n) q0 = 0 -> rrel (undefd n q0) (cp_mode pinv mats r n A) (cp_mode pinvX mats' r n A').
  Proof.
    intros Em HM HA HF Hn Hq0 Hz. pose proof (cp_mode_run pinv X r mats HP Hne Hord Em A n HF Hn) as ER. destruct (grams_ok X r A n HF Hord Hn) as (G0 & EG0 & EV0).
    unfold cp_mode in *. apply (rrel_bind_ok tds); [apply d_grams, HA|]. intros G G' E1 _ HG. rewrite E1 in ER, EG0. injection EG0 as <-. cbn [bind] in ER.
    apply (rrel_bind_ok td); [apply d_khatri, HA|]. intros kr kr' E2 _ Hkr. rewrite E2 in ER. cbn [bind] in ER.
    apply (rrel_bind_ok td); [apply pynth_rel, HM|]. intros Xm Xm' E3 _ HXm. rewrite E3 in ER. cbn [bind] in ER.
    apply (rrel_bind_ok td); [apply d_matmul; assumption|]. intros XA XA' E4 _ HXA. rewrite E4 in ER. cbn [bind] in ER.
    apply (rrel_bind_ok td); [apply d_hadamard, HG|]. intros V V' E5 _ HVV. rewrite EV0 in E5. injection E5 as <-. rewrite EV0 in ER. cbn [bind] in ER.
    apply (rrel_bind_ok td); [apply d_matmul; [exact HXA|rewrite (td_eq _ _ HVV), HV; apply td_def]|]. intros nn nn' E6 _ Hnn. rewrite E6 in ER. cbn [bind] in ER.
    rewrite (d_dim _ _ HXm 0%Z) in ER |- *. apply (rrel_bind_ok eq); [apply rrel_refl|]. intros d d' E7 _ <-. rewrite E7 in ER. cbn [bind] in ER.
    apply (rrel_bind_ok td); [apply d_reshape, Hnn|]. intros q q' E8 _ Hq. rewrite E8 in ER. cbn [bind] in ER.
    destruct (pinv_gram pinv r HP A n) as [HPm _]. destruct (matmul_mat XA _ nn r r (proj2 HPm) E6) as (dd & Hd).
    assert (LA : length A = N) by apply HF. assert (LA' : length A' = N) by (rewrite <- LA; symmetry; clear -HA; induction HA; cbn; congruence).
    assert (EL : col_max q = lams r (als_solution pinv X r A n) /\ dd = nth n (shp X) 0%nat).
    { apply bind_ok in ER as (new & En & ER). injection ER as ER EL. split; [exact EL|]. rewrite EL in En. unfold lams in En. rewrite (div_cols _ dd r _ Hd) in En. injection En as <-.
      apply (f_equal (fun l => nth 0 (shp (nth n l (mkT [] []))) 0%nat)) in ER. rewrite nth_upd, Nat.eqb_refl in ER. replace (n <? length A) with true in ER by (symmetry; apply Nat.ltb_lt; lia).
      rewrite nth_replace, Nat.eqb_refl in ER by lia. exact ER. }
    destruct EL as [EL Edd]. subst dd.
    apply (rrel_bind (fun _ new => forall i, (i < nth n (shp X) 0)%nat -> mget new i q0 = None)).
    { pose proof (d_col_max q q' Hq) as HC. rewrite EL in HC |- *. apply (x_div_cols nn nn' (cmax (als_solution pinv X r A n)) _ q0 Hd Hnn Hz Hq0 _ HC). }
    intros new new' Hnew. cbn [rrel]. unfold undefd. cbn [fst snd]. intros i Hi. rewrite nth_upd, Nat.eqb_refl. replace (n <? length A') with true by (symmetry; apply Nat.ltb_lt; lia). cbn [andb]. apply Hnew, Hi.
  Qed.
End Cp.

(** modes after the first do not touch the first factor *)
Lemma cp_modes_keep {T} {Nm : Num T} (pinv : tensor T -> tensor T) mats r k : forall ms A lam A' lam', (forall m, In m ms -> (k < m)%nat) -> cp_modes pinv mats r ms A lam = Ok (A', lam') -> nth k A' (mkT [] []) = nth k A (mkT [] []).
Proof.
  induction ms as [|m ms IH]; intros A lam A' lam' Hm E; cbn [cp_modes] in E; [injection E as <- <-; reflexivity|].
  apply bind_ok in E as ([B lb] & E1 & E2). cbn [fst snd] in E2. rewrite (IH _ _ _ _ (fun x H => Hm x (or_intror H)) E2).
  unfold cp_mode in E1. repeat (apply bind_ok in E1 as (? & _ & E1)). injection E1 as <- _. rewrite nth_upd. replace (k =? m) with false; [reflexivity|]. symmetry. apply Nat.eqb_neq. specialize (Hm m (or_introl eq_refl)). lia.
Qed.

Lemma cmax_unique M q v : nrows M <> 0%nat -> column_max M q v -> cmax M q = v.
Proof.
  intros H [(i & Hi & E) Hv]. destruct (cmax_ok M q H) as [(j & Hj & E') Hv']. apply Rle_antisym; [rewrite <- E'; apply Hv, Hj|rewrite <- E; apply Hv', Hi].
Qed.

Lemma c105_mode pinv pinvX (X : tensor R) r A mats n q : penrose pinv -> same_routine pinv pinvX -> nonempty (shp X) -> (2 <= ndims X <= 26)%nat ->
  unfold_all X = Ok mats -> cp_factors X r A -> (n < ndims X)%nat -> (q < r)%nat -> column_max (als_solution pinv X r A n) q 0 ->
  exists A' lam, cp_mode pinvX (map def mats) r n (map def A) = Ok (A', lam) /\ forall i, (i < nth n (shp X) 0)%nat -> mget (nth n A' (mkT [] [])) i q = None.
Proof.
  intros HP HV Hne Ho Em HF Hn Hq HC.
  assert (Z : cmax (als_solution pinv X r A n) q = 0). { apply cmax_unique; [|exact HC]. unfold als_solution, nrows. cbn. apply nonempty_nth; [exact Hne|exact Hn]. }
  pose proof (x_cp_mode pinv pinvX X r HP HV Hne Ho mats (map def mats) n A (map def A) q Em (tds_def _) (tds_def _) HF Hn Hq Z) as K.
  rewrite (cp_mode_run pinv X r mats HP Hne Ho Em A n HF Hn) in K. destruct (cp_mode pinvX (map def mats) r n (map def A)) as [[A' lam]|e]; cbn in K; [|contradiction].
  exists A', lam. split; [reflexivity|exact K].
Qed.

Lemma c105_step pinv pinvX (X : tensor R) r A o q : penrose pinv -> same_routine pinv pinvX -> (2 <= ndims X <= 26)%nat -> cp_factors X r A -> (q < r)%nat ->
  column_max (als_solution pinv X r A 0) q 0 -> cp_step pinvX (def X) r (map def A) = Ok o ->
  forall i, (i < nth 0 (shp X) 0)%nat -> mget (nth 0 (cp_A o) (mkT [] [])) i q = None.
Proof.
  intros HP HV Ho HF Hq HC E i Hi. unfold cp_step in E. apply bind_ok in E as (mats' & Em' & E). 
  pose proof (d_unfold_all X (def X) (td_def X)) as K. rewrite Em' in K. destruct (unfold_all X) as [mats|e] eqn:Em; cbn in K; [|contradiction].
  rewrite (tds_eq _ _ K) in E. pose proof (unfold_all_nonempty X mats Em) as Hne.
  destruct (c105_mode pinv pinvX X r A mats 0 q HP HV Hne Ho Em HF ltac:(lia) Hq HC) as (A1 & lam & E1 & H1).
  apply bind_ok in E as ([A2 l2] & E2 & E). apply bind_ok in E as (F & _ & E). apply bind_ok in E as (m & _ & E). injection E as <-. cbn [cp_A].
  change (ndims (def X)) with (ndims X) in E2. replace (ndims X) with (S (ndims X - 1))%nat in E2 by lia. cbn [seq cp_modes] in E2. rewrite E1 in E2. cbn [bind fst snd] in E2.
  pose proof (fun H => cp_modes_keep _ _ _ 0 _ _ _ _ _ H E2) as Q. rewrite Q; [apply H1, Hi|]. intros m0 Hm. apply in_seq in Hm. lia.
Qed.

(** rank one, data without positive entries, one slice of mode n empty *)
Lemma msum_sign s (f : list nat -> R) : (forall i, valid s i -> f i <= 0) -> msum s f <= 0.
Proof.
  intros H. rewrite <- (isum_msum RLR). pose proof (isumR_nonneg s (fun i => (-1) * f i) (fun i Hi => ltac:(specialize (H i Hi); lra))) as K. rewrite isumR_scale in K. lra.
Qed.
Lemma lprod_pos (l : list nat) (f : nat -> R) : (forall k, In k l -> 0 < f k) -> 0 < listprod (map f l).
Proof. induction l as [|x l IH]; intros H; cbn [map listprod]; Rn; [lra|]. apply Rmult_lt_0_compat; [apply H; left; auto|]. apply IH. intros; apply H; right; auto. Qed.

Lemma c105_max pinv (X : tensor R) A n i0 : penrose pinv -> nonempty (shp X) -> cp_factors X 1 A -> (n < ndims X)%nat ->
  (forall k i, (k < ndims X)%nat -> k <> n -> (i < nth k (shp X) 0)%nat -> 0 < mget (mat_at A k) i 0) ->
  (forall idx, valid (shp X) idx -> get X idx <= 0) -> (i0 < nth n (shp X) 0)%nat -> (forall idx, valid (shp X) idx -> nth n idx 0%nat = i0 -> get X idx = 0) ->
  column_max (als_solution pinv X 1 A n) 0 0.
Proof.
  intros HP Hne HF Hn Hpos Hx Hi0 Hz.
  assert (LA : length A = ndims X) by apply HF.
  set (g := listprod (map (fun k => bigsum (nrows (mat_at A k)) (fun i => mget (mat_at A k) i 0 * mget (mat_at A k) i 0)) (others n (length A)))).
  assert (Hg : 0 < g).
  { apply lprod_pos. intros k Hk. apply in_others in Hk as [K1 K2]. assert (Hd : nrows (mat_at A k) = nth k (shp X) 0%nat) by (destruct HF as [_ HF]; destruct (matrix_is_mat _ _ _ (HF k ltac:(lia))) as (_ & -> & _); reflexivity).
    assert (Hd0 : (0 < nth k (shp X) 0)%nat). { assert (nth k (shp X) 0 <> 0)%nat by (apply nonempty_nth; [exact Hne|unfold ndims in *; lia]). lia. }
    rewrite <- (sumn_bigsum RLR), Hd. pose proof (Hpos k 0%nat ltac:(lia) K2 Hd0) as P.
    destruct (Rle_lt_or_eq_dec 0 (sumn (nth k (shp X) 0%nat) (fun i => mget (mat_at A k) i 0 * mget (mat_at A k) i 0))) as [L|L]; [apply sumnR_nonneg; intros; apply Rle_0_sqr|exact L|].
    pose proof (sumnR_zero_inv _ _ (fun i _ => Rle_0_sqr _) (eq_sym L) 0%nat Hd0) as Q. cbv beta in Q. apply Rsqr_0_uniq in Q. lra. }
  assert (EG : gram_but 1 A n = mgen 1 1 (fun _ _ => g)).
  { unfold gram_but, mgen. apply gen_ext. intros idx Hv. apply valid2_inv in Hv as (i & j & -> & Hi & Hj). assert (i = 0)%nat by lia. assert (j = 0)%nat by lia. subst i j. reflexivity. }
  assert (ES : forall i, (i < nth n (shp X) 0)%nat -> mget (als_solution pinv X 1 A n) i 0 =
     msum (replace n 1%nat (shp X)) (fun idx => get X (replace n i idx) * but A n idx 0) * / g).
  { intros i Hi. unfold als_solution. rewrite mget_mgen by lia. cbn [bigsum]. rewrite (pinv_1 pinv _ g HP EG Hg). unfold mttkrp. rewrite mget_mgen by lia. Rn. ring. }
  assert (HV : forall i idx, (i < nth n (shp X) 0)%nat -> valid (replace n 1%nat (shp X)) idx -> valid (shp X) (replace n i idx) /\ nth n (replace n i idx) 0%nat = i /\ forall k, (k < ndims X)%nat -> k <> n -> (nth k idx 0 < nth k (shp X) 0)%nat).
  { intros i idx Hi Hv. pose proof (valid_length _ _ Hv) as L. rewrite replace_length in L. assert (Hk : forall k, (k < ndims X)%nat -> k <> n -> (nth k idx 0 < nth k (shp X) 0)%nat).
    { intros k Hk Hkn. pose proof (valid_nth _ _ k Hv ltac:(rewrite replace_length; exact Hk)) as Q. rewrite nth_replace_ne in Q by auto. exact Q. }
    split; [|split; [rewrite nth_replace, Nat.eqb_refl by (rewrite L; exact Hn); reflexivity|exact Hk]].
    rewrite <- (replace_nth n (shp X)) at 1. apply valid_replace1; auto. }
  pose proof (Rinv_0_lt_compat _ Hg) as Hgi.
  assert (Hnr : nrows (als_solution pinv X 1 A n) = nth n (shp X) 0%nat) by reflexivity. split; rewrite Hnr.
  - exists i0. split; [exact Hi0|]. rewrite ES by exact Hi0. replace (msum _ _) with 0; [ring|]. symmetry. rewrite <- (isum_msum RLR).
    rewrite (isum_ext _ _ (fun _ => 0 * 0)); [rewrite isumR_scale; ring|]. intros idx Hv. destruct (HV i0 idx Hi0 Hv) as (V1 & V2 & _). rewrite (Hz _ V1 V2). ring.
  - intros i Hi. rewrite ES by exact Hi. assert (M : msum (replace n 1%nat (shp X)) (fun idx => get X (replace n i idx) * but A n idx 0) <= 0).
    { apply msum_sign. intros idx Hv. destruct (HV i idx Hi Hv) as (V1 & _ & V3). pose proof (Hx _ V1).
      assert (0 < but A n idx 0). { apply lprod_pos. intros k Hk. apply in_others in Hk as [K1 K2]. apply Hpos; [lia|exact K2|apply V3; [lia|exact K2]]. }
      nra. }
    nra.
Qed.

Lemma c105_nonpositive pinv pinvX (X : tensor R) A i0 o : penrose pinv -> same_routine pinv pinvX -> nonempty (shp X) -> (2 <= ndims X <= 26)%nat -> cp_factors X 1 A ->
  (forall k i, (k < ndims X)%nat -> (i < nth k (shp X) 0)%nat -> 0 < mget (mat_at A k) i 0) ->
  (forall idx, valid (shp X) idx -> get X idx <= 0) -> (i0 < nth 0 (shp X) 0)%nat -> (forall idx, valid (shp X) idx -> nth 0 idx 0%nat = i0 -> get X idx = 0) ->
  cp_step pinvX (def X) 1 (map def A) = Ok o -> forall i, (i < nth 0 (shp X) 0)%nat -> mget (nth 0 (cp_A o) (mkT [] [])) i 0 = None.
Proof.
  intros HP HV Hne Ho HF Hpos Hx Hi0 Hz E. apply (c105_step pinv pinvX X 1 A o 0 HP HV Ho HF ltac:(lia)); [|exact E].
  apply (c105_max pinv X A 0 i0); auto. lia.
Qed.

(** data with a non-zero entry, positive start *)
Definition Xneg : tensor R := mkT [2; 2]%nat [0; 0; 0; -1].
Lemma c105_refuted : exists (X : tensor R) A, some_entry X /\ cp_factors X 1 A /\ (forall M, In M A -> forall x, In x (dat M) -> 0 < x) /\
  forall pinv pinvX, penrose pinv -> same_routine pinv pinvX -> forall o, cp_step pinvX (def X) 1 (map def A) = Ok o -> ~ exists o', o = def_cp o'.
Proof.
  exists Xneg, Ad. split; [exists (-1); split; [cbn; tauto|lra]|]. split; [exact Ad_factors|]. split.
  { intros M [<-|[<-|[]]] x [<-|[<-|[]]]; lra. }
  intros pinv pinvX HP HV o E [o' EB]. apply (f_equal cp_A) in EB. cbn in EB. set (B := cp_A o') in EB.
  assert (K : mget (nth 0 (cp_A o) (mkT [] [])) 0 0 = None).
  { apply (c105_nonpositive pinv pinvX Xneg Ad 0 o HP HV); [repeat constructor; discriminate|cbn; lia|exact Ad_factors| | |cbn; lia| |exact E|cbn; lia].
    - intros k i Hk Hi. change (ndims Xneg) with 2%nat in Hk. destruct k as [|[|k]]; [| |lia]; cbn in Hi; (destruct i as [|[|i]]; [| |lia]); cbn; lra.
    - intros idx Hv. apply valid2_inv in Hv as (i & j & -> & Hi & Hj). destruct i as [|[|i]]; [| |lia]; (destruct j as [|[|j]]; [| |lia]); cbn; lra.
    - intros idx Hv H0. apply valid2_inv in Hv as (i & j & -> & Hi & Hj). cbn in H0. subst i. destruct j as [|[|j]]; [| |lia]; cbn; lra. }
  rewrite EB in K. clearbody B. destruct B as [|M B]; cbn in K; [discriminate K|]. unfold mget, get, def in K. cbn [dat shp] in K.
  destruct (lt_dec (ravel (shp M) [0; 0]%nat) (length (dat M))) as [L|L].
  - rewrite (nth_indep _ _ (Some 0)) in K by (rewrite map_length; exact L). rewrite (map_nth Some) in K. discriminate K.
  - rewrite nth_overflow in K by (rewrite map_length; lia). discriminate K.
Qed.
