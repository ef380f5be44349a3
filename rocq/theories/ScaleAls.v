(** CP_ALS, HOSVD and HOOI on data in other units (C96). *)

From Coq Require Import ZArith List Bool Arith Reals Lra Lia.
From Verif Require Import Num Py Tensor TF Ops Types Loss Fact Train Spec SpecR SpecTucker SpecScale ParamFacts ScaleFacts.
Import ListNotations.
Local Open Scope R_scope.

Lemma rrel_rmap {A B} (P : A -> B -> Prop) (f : A -> B) x y : (forall a b, P a b -> b = f a) -> rrel P x y -> y = rmap f x.
Proof. intros K H. destruct x, y; cbn in *; try contradiction; [rewrite (K _ _ H)|rewrite H]; reflexivity. Qed.
Lemma rrel_bind_ok {A B A' B'} (P : A -> B -> Prop) (Q : A' -> B' -> Prop) x y f g :
  rrel P x y -> (forall a b, x = Ok a -> y = Ok b -> P a b -> rrel Q (f a) (g b)) -> rrel Q (bind x f) (bind y g).
Proof. destruct x, y; cbn; intros H K; try contradiction; [apply K; auto|exact H]. Qed.

Lemma sc_col_max c M M' : 0 < c -> tsc c M M' -> tsc c (col_max M) (col_max M').
Proof.
  intros Hc H. unfold col_max. rewrite (proj1 H). destruct (shp M') as [|a [|b [|]]]; try exact H. split; [reflexivity|]. cbn [dat].
  apply Forall2_map_same. intros j. apply sc_tfmax; [exact Hc|]. apply Forall2_map_same. intros i. unfold mget. apply sc_get, H.
Qed.
Lemma Forall2_upd {A B} (P : A -> B -> Prop) l m a b : Forall2 P l m -> P a b -> forall n, Forall2 P (upd l n a) (upd m n b).
Proof. intros H K. unfold upd. induction H; intros [|n]; cbn; constructor; auto. Qed.

(** ** CP_ALS *)
Section Cp.
  Variables (c : R) (pinv : tensor R -> tensor R).
  Hypothesis Hc : 0 < c.

  Definition cp_pair (p q : list (tensor R) * tensor R) : Prop := fst q = fst p /\ tsc c (snd p) (snd q).
  Lemma sc_cp_mode mats mats' r n A : Forall2 (tsc c) mats mats' -> rrel cp_pair (cp_mode pinv mats r n A) (cp_mode pinv mats' r n A).
  Proof.
    intros HM. unfold cp_mode. apply rrel_bind_same. intros G. apply rrel_bind_same. intros kr.
    apply (rrel_bind (tsc c)); [apply pynth_rel, HM|]. intros Xm Xm' HX.
    apply (rrel_bind (tsc (c * 1))); [apply sc_matmul; [exact HX|apply tsc_refl]|]. intros XA XA' HXA.
    apply rrel_bind_same. intros V. apply (rrel_bind (tsc (c * 1 * 1))); [apply sc_matmul; [exact HXA|apply tsc_refl]|]. intros nn nn' Hnn.
    apply (tsc_cast _ c) in Hnn; [|ring]. rewrite (sc_dim c _ _ _ HX). apply rrel_bind_same. intros d.
    apply (rrel_bind (tsc c)); [apply sc_reshape, Hnn|]. intros q q' Hq. pose proof (sc_col_max c q q' Hc Hq) as HL.
    apply (rrel_bind (tsc 1)).
    { apply (rrel_cast (c / c)); [unfold Rdiv; apply Rinv_r; lra|]. apply (sc_bin c c); [intros; apply sc_div; assumption|exact Hnn|exact HL]. }
    intros a a' Ha. cbn. split; cbn; [|exact HL]. rewrite (tsc_one _ _ Ha). reflexivity.
  Qed.
  Lemma sc_cp_modes mats mats' r l : Forall2 (tsc c) mats mats' -> forall A lam lam', tsc c lam lam' ->
    rrel cp_pair (cp_modes pinv mats r l A lam) (cp_modes pinv mats' r l A lam').
  Proof.
    intros HM. induction l as [|n l IH]; intros A lam lam' HL; cbn [cp_modes]; [split; [reflexivity|exact HL]|].
    apply (rrel_bind cp_pair); [apply sc_cp_mode, HM|]. intros p q [H1 H2]. rewrite H1. apply IH, H2.
  Qed.
  Definition cp_scaled (o o' : cp_out R) : Prop :=
    cp_A o' = cp_A o /\ cp_lam o' = scale c (cp_lam o) /\ cp_full o' = scale c (cp_full o) /\ met_rel c (cp_met o) (cp_met o').
  Lemma sc_cp_step X r A : rrel cp_scaled (cp_step pinv X r A) (cp_step pinv (scale c X) r A).
  Proof.
    unfold cp_step. apply (rrel_bind (Forall2 (tsc c))); [apply sc_unfold_all, tsc_scale|]. intros mats mats' HM. change (ndims (scale c X)) with (ndims X).
    apply (rrel_bind cp_pair). { apply sc_cp_modes; [exact HM|]. split; [reflexivity|constructor]. }
    intros [A1 l1] [A2 l2] [H1 H2]. cbn in H1, H2. subst A2.
    apply (rrel_bind (tsc (1 ^ length A1 * c))). { apply (sc_kt c 1); [apply tscs_refl|]. destruct H2 as [S D]. split; [cbn; rewrite S; reflexivity|exact D]. }
    intros F F' HF. apply (tsc_cast _ c) in HF; [|rewrite pow1; ring]. apply (rrel_bind (met_rel c)); [apply sc_metrics; [exact Hc|apply tsc_scale|exact HF]|].
    intros m m' Hm. cbn. split; [reflexivity|]. cbn. split; [apply tsc_eq, H2|]. split; [apply tsc_eq, HF|exact Hm].
  Qed.
  Lemma c96_cp_step X r A :
    cp_step pinv (scale c X) r A =
      rmap (fun o => mkCP (cp_A o) (scale c (cp_lam o)) (scale c (cp_full o)) (scale_metrics c (cp_met o))) (cp_step pinv X r A).
  Proof.
    apply (rrel_rmap cp_scaled); [|apply sc_cp_step]. intros o o' (H1 & H2 & H3 & [H4 _]). destruct o'. cbn in *. congruence.
  Qed.
End Cp.

(** ** HOSVD, HOOI *)
Lemma scale_inv c t : c <> 0 -> scale (/ c) (scale c t) = t.
Proof. intros Hc. destruct t as [s d]. unfold scale. cbn. f_equal. rewrite map_map. rewrite <- (map_id d) at 2. apply map_ext. intros a. field. exact Hc. Qed.
Section Tucker.
  Variables (c : R) (svdU svdU' : tensor R -> tensor R).
  Hypothesis Hc : 0 < c.
  Hypothesis HU : forall M, svdU' (scale c M) = svdU M.

  Lemma hu M M' : tsc c M M' -> svdU' M' = svdU M.
  Proof. intros H. rewrite (tsc_eq _ _ _ H). apply HU. Qed.
  Lemma sc_hosvd_factor X ranks n : hosvd_factor svdU' (scale c X) ranks n = hosvd_factor svdU X ranks n.
  Proof.
    unfold hosvd_factor. pose proof (sc_unfold c X (scale c X) n (tsc_scale c X)) as H. destruct (unfold X n) as [u|e], (unfold (scale c X) n) as [u'|e']; cbn in H; try contradiction; cbn; [|congruence].
    rewrite (hu u u' H). reflexivity.
  Qed.
  Lemma mapM_same {A B} (f g : A -> res B) l : (forall a, f a = g a) -> mapM f l = mapM g l.
  Proof. intros H. induction l; cbn; [reflexivity|]. rewrite H, IHl. reflexivity. Qed.
  Definition tu_scaled (o o' : tucker_out R) : Prop :=
    o' = mkTu (tu_A o) (scale c (tu_core o)) (scale c (tu_full o)) (c * tu_loss o).
  Lemma sc_core X A : rrel (tsc c) (ttm X A None true SkNone) (ttm (scale c X) A None true SkNone).
  Proof.
    eapply rrel_cast; [|apply (sc_ttm c 1 X (scale c X) A A None true SkNone (tsc_scale c X) (tscs_refl A))]. rewrite pow1. ring.
  Qed.
  Lemma sc_full g g' A : tsc c g g' -> rrel (tsc c) (tt_extract g A) (tt_extract g' A).
  Proof. intros H. eapply rrel_cast; [|apply (sc_tt c 1 A A g g' H (tscs_refl A))]. rewrite pow1. ring. Qed.
  Lemma sc_hosvd X ranks : rrel tu_scaled (hosvd svdU X ranks) (hosvd svdU' (scale c X) ranks).
  Proof.
    unfold hosvd. change (ndims (scale c X)) with (ndims X). rewrite (mapM_same (hosvd_factor svdU' (scale c X) ranks) (hosvd_factor svdU X ranks)) by (intros; apply sc_hosvd_factor).
    apply rrel_bind_same. intros A. apply (rrel_bind (tsc c)); [apply sc_core|]. intros g g' Hg. apply (rrel_bind (tsc c)); [apply sc_full, Hg|]. intros F F' HF.
    apply (rrel_bind (sc c)); [apply sc_rmse; [exact Hc|apply tsc_scale|exact HF]|]. intros l l' HL. cbn. unfold tu_scaled. cbn. rewrite (tsc_eq _ _ _ Hg), (tsc_eq _ _ _ HF), HL. reflexivity.
  Qed.
  Lemma c96_hosvd X ranks : hosvd svdU' (scale c X) ranks = rmap (fun o => mkTu (tu_A o) (scale c (tu_core o)) (scale c (tu_full o)) (c * tu_loss o)) (hosvd svdU X ranks).
  Proof. apply (rrel_rmap tu_scaled); [|apply sc_hosvd]. intros a b H. exact H. Qed.

  Lemma sc_hooi_init X ranks : hooi_init svdU' (scale c X) ranks = hooi_init svdU X ranks.
  Proof. unfold hooi_init. change (ndims (scale c X)) with (ndims X). apply mapM_same. intros n. rewrite sc_hosvd_factor. reflexivity. Qed.
  Lemma sc_hooi_modes X ranks l : forall A, hooi_modes svdU' (scale c X) ranks l A = hooi_modes svdU X ranks l A.
  Proof.
    induction l as [|n l IH]; intros A; cbn [hooi_modes]; [reflexivity|].
    assert (E : hooi_mode svdU' (scale c X) ranks n A = hooi_mode svdU X ranks n A).
    { unfold hooi_mode. pose proof (sc_ttm c 1 X (scale c X) A A None true (SkInt (Z.of_nat n)) (tsc_scale c X) (tscs_refl A)) as H.
      apply (rrel_cast _ c) in H; [|rewrite pow1; ring].
      destruct (ttm X A None true (SkInt (Z.of_nat n))) as [Y|], (ttm (scale c X) A None true (SkInt (Z.of_nat n))) as [Y'|]; cbn in H; try contradiction; cbn [bind]; [|congruence].
      pose proof (sc_unfold c Y Y' (Z.of_nat n) H) as K. destruct (unfold Y (Z.of_nat n)) as [u|], (unfold Y' (Z.of_nat n)) as [u'|]; cbn in K; try contradiction; cbn [bind]; [|congruence].
      rewrite (hu u u' K). reflexivity. }
    rewrite E. destruct (hooi_mode svdU X ranks n A); cbn; [apply IH|reflexivity].
  Qed.
  Definition ho_scaled (o o' : hooi_out R) : Prop :=
    ho_A o' = ho_A o /\ ho_core o' = scale c (ho_core o) /\ ho_full o' = scale c (ho_full o) /\ met_rel c (ho_met o) (ho_met o').
  Lemma sc_hooi_step X ranks A : rrel ho_scaled (hooi_step svdU X ranks A) (hooi_step svdU' (scale c X) ranks A).
  Proof.
    unfold hooi_step. change (ndims (scale c X)) with (ndims X). rewrite sc_hooi_modes. apply rrel_bind_same. intros A'.
    apply (rrel_bind (tsc c)); [apply sc_core|]. intros g g' Hg. apply (rrel_bind (tsc c)); [apply sc_full, Hg|]. intros F F' HF.
    apply (rrel_bind (met_rel c)); [apply sc_metrics; [exact Hc|apply tsc_scale|exact HF]|]. intros m m' Hm. cbn. split; [reflexivity|]. cbn. split; [apply tsc_eq, Hg|]. split; [apply tsc_eq, HF|exact Hm].
  Qed.
  Lemma c96_hooi_step X ranks A :
    hooi_step svdU' (scale c X) ranks A =
      rmap (fun o => mkHO (ho_A o) (scale c (ho_core o)) (scale c (ho_full o)) (scale_metrics c (ho_met o))) (hooi_step svdU X ranks A).
  Proof.
    apply (rrel_rmap ho_scaled); [|apply sc_hooi_step]. intros o o' (H1 & H2 & H3 & [H4 _]). destruct o'. cbn in *. congruence.
  Qed.
End Tucker.

(** ** the loop *)
Section Als.
  Context {S : Type}.
  Variables (run run' : S -> res (S * sobs R)) (Q : S -> S -> Prop) (sum_ok : bool) (args : targs R) (steps : Z) (a b c : R).
  Hypothesis Hc : 0 < c.
  Definition obs_scaled (o o' : sobs R) : Prop :=
    ob_factors o' = map (scale a) (ob_factors o) /\ ob_aux o' = omap (scale b) (ob_aux o) /\ ob_full o' = scale c (ob_full o) /\
    met_rel c (ob_met o) (ob_met o').
  Hypothesis Hrun : forall s s', Q s s' -> rrel (fun x y => Q (fst x) (fst y) /\ obs_scaled (snd x) (snd y)) (run s) (run' s').

  Lemma run_v_scaled v s s' : Q s s' -> rrel (fun x y => Q (fst x) (fst y) /\ obs_scaled (snd x) (snd y)) (run_v run sum_ok v s) (run_v run' sum_ok v s').
  Proof. intros H. unfold run_v. destruct (v && negb sum_ok); [reflexivity|apply Hrun, H]. Qed.
  Lemma publish_scaled v o o' p : obs_scaled o o' -> publish v o' (scale_pub a b c p) = scale_pub a b c (publish v o p).
  Proof.
    intros (H1 & H2 & H3 & _). unfold publish, scale_pub. cbn. rewrite H1, H2, H3. f_equal; [destruct (ob_aux o); reflexivity|destruct v; reflexivity].
  Qed.
  Lemma publish_first o o' p p' : p_finish p' = p_finish p -> ob_aux o <> None \/ p' = scale_pub a b c p -> obs_scaled o o' -> publish true o' p' = scale_pub a b c (publish true o p).
  Proof.
    intros Hf Ha (H1 & H2 & H3 & _). unfold publish, scale_pub. cbn. rewrite H1, H2, H3, Hf. f_equal. destruct Ha as [Ha| ->]; destruct (ob_aux o); try reflexivity. contradiction.
  Qed.
  Definition entries (c : R) (h : hist R) : hist R := map (scale_entry c) h.
  Lemma entries_app h x : entries c (h ++ [x]) = entries c h ++ [scale_entry c x].
  Proof. unfold entries. rewrite map_app. reflexivity. Qed.
  Lemma same_run_ext h t t' : same_run c t t' -> same_run c (h ++ t) (entries c h ++ t').
  Proof.
    intros H k H1 H2. rewrite app_length in *. unfold entries in *. rewrite map_length in *. destruct (Nat.lt_ge_cases k (length h)) as [L|L].
    - rewrite !app_nth1 by (rewrite ?map_length; lia). rewrite (nth_indep _ (0,0) (scale_entry c (0,0))) by (rewrite map_length; lia). apply map_nth.
    - rewrite !app_nth2 by (rewrite ?map_length; lia). rewrite map_length. apply H; lia.
  Qed.
  (** agreement of the two outcomes *)
  Definition agree (P1 : pub R) (r1 : res (hist R)) (P2 : pub R) (r2 : res (hist R)) : Prop :=
    match r1, r2 with
    | Ok h, Ok h' => same_run c h h' /\ (length h = length h' -> P2 = scale_pub a b c P1)
    | Raise e, Raise e' => e = e'
    | _, _ => True
    end.

  Lemma als_extends fuel : forall step s o0 n h p P r, als_loop run sum_ok args steps fuel step s o0 n h p = (P, Ok r) -> exists t, r = h ++ t /\ (fuel = 0 \/ t <> [])%nat.
  Proof.
    induction fuel as [|fuel IH]; intros step s o0 n h p P r H; cbn [als_loop] in H.
    - injection H as _ <-. exists []. rewrite app_nil_r. auto.
    - destruct (validate args steps step) as [v|]; [|discriminate]. destruct (run_v run sum_ok v s) as [[s' o]|]; [|discriminate].
      destruct (stop_now _ _ _).
      + injection H as _ <-. eexists. split; [reflexivity|]. right. discriminate.
      + apply IH in H as (t & -> & _). rewrite <- app_assoc. eexists. split; [reflexivity|]. right. discriminate.
  Qed.
End Als.

Section AlsLoop.
  Context {S : Type}.
  Variables (run run' : S -> res (S * sobs R)) (Q : S -> S -> Prop) (sum_ok : bool) (args : targs R) (steps : Z) (a b c : R).
  Hypothesis Hc : 0 < c.
  Hypothesis Hrun : forall s s', Q s s' -> rrel (fun x y => Q (fst x) (fst y) /\ obs_scaled a b c (snd x) (snd y)) (run s) (run' s').

  (** the tail of a history after h *)
  Lemma entry_scaled o o' : obs_scaled a b c o o' -> (m_loss (ob_met o'), m_rel (ob_met o')) = scale_entry c (m_loss (ob_met o), m_rel (ob_met o)).
  Proof. intros (_ & _ & _ & [H _]). rewrite H. reflexivity. Qed.

  Lemma same_run_nil_l t : same_run c [] t.
  Proof. intros k H. cbn in H. lia. Qed.
  Lemma same_run_nil_r t : same_run c t [].
  Proof. intros k _ H. cbn in H. lia. Qed.

  Lemma als_agree fuel : forall step s s' o0 o0' n n' h p, Q s s' ->
    let '(P1, r1) := als_loop run sum_ok args steps fuel step s o0 n h p in
    let '(P2, r2) := als_loop run' sum_ok args steps fuel step s' o0' n' (entries c h) (scale_pub a b c p) in agree a b c P1 r1 P2 r2.
  Proof.
    induction fuel as [|fuel IH]; intros step s s' o0 o0' n n' h p HQ; cbn [als_loop].
    - split; [|reflexivity]. pose proof (same_run_ext c h [] [] (same_run_nil_l [])) as E. rewrite !app_nil_r in E. exact E.
    - destruct (validate args steps step) as [v|e]; [|reflexivity].
      pose proof (run_v_scaled run run' Q sum_ok a b c Hrun v s s' HQ) as H. destruct (run_v run sum_ok v s) as [[s1 o]|e], (run_v run' sum_ok v s') as [[s1' o']|e']; cbn in H; try contradiction; [|exact H].
      destruct H as [HQ1 Ho]. rewrite (publish_scaled a b c v o o' p Ho), (entry_scaled o o' Ho), <- (entries_app c).
      set (h1 := h ++ [(m_loss (ob_met o), m_rel (ob_met o))]). set (p1 := publish v o p).
      set (x := if (step =? 1)%Z then _ else o0). set (x' := if (step =? 1)%Z then _ else o0').
      assert (HS : same_run c h1 (entries c h1)) by (pose proof (same_run_ext c h1 [] [] (same_run_nil_l [])) as E; rewrite !app_nil_r in E; exact E).
      destruct (stop_now args (stall_next args (m_obj (ob_met o)) x n) _), (stop_now args (stall_next args (m_obj (ob_met o')) x' n') _).
      + split; [exact HS|reflexivity].
      + destruct (als_loop run' sum_ok args steps fuel (step + 1) s1' _ _ (entries c h1) (scale_pub a b c p1)) as [P2 [h2|e2]] eqn:E2; [|exact I].
        destruct (als_extends run' sum_ok args steps fuel _ _ _ _ _ _ _ _ E2) as (t & -> & Ht). pose proof (same_run_ext c h1 [] t (same_run_nil_l t)) as E. rewrite app_nil_r in E.
        split; [exact E|]. intros L. rewrite app_length in L. unfold entries in L. rewrite map_length in L.
        destruct t; [|cbn in L; lia]. destruct Ht as [->|]; [|congruence]. cbn in E2. injection E2 as <- _. reflexivity.
      + destruct (als_loop run sum_ok args steps fuel (step + 1) s1 _ _ h1 p1) as [P1 [h2|e2]] eqn:E2; [|exact I].
        destruct (als_extends run sum_ok args steps fuel _ _ _ _ _ _ _ _ E2) as (t & -> & Ht). pose proof (same_run_ext c h1 t [] (same_run_nil_r t)) as E. rewrite app_nil_r in E.
        split; [exact E|]. intros L. rewrite app_length in L. unfold entries in L. rewrite map_length in L.
        destruct t; [|cbn in L; lia]. destruct Ht as [->|]; [|congruence]. cbn in E2. injection E2 as <- _. reflexivity.
      + apply IH, HQ1.
  Qed.

  (** no stop when the tolerance is not positive *)
  Lemma stop_off m x n : a_tol args <= 0 -> 0 <= m_obj m -> 0 <= m_rel m -> 0 <= x -> stop_now args (stall_next args (m_obj m) x n) (m_rel m) = false.
  Proof.
    intros Ht Ho Hr Hx. unfold stop_now, stall_next, relerr1. cbn.
    assert (E : 0 <= Rabs (m_obj m - x) / (x + 1)) by (apply Rmult_le_pos; [apply Rabs_pos|]; left; apply Rinv_0_lt_compat; lra).
    destruct (Rlt_dec (Rabs (m_obj m - x) / (x + 1)) (a_tol args)); [lra|]. destruct (Rlt_dec (m_rel m) (a_tol args)); [lra|]. reflexivity.
  Qed.

  (** the same outcome up to the scale *)
  Definition exactly (a b c : R) (P1 : pub R) (r1 : res (hist R)) (P2 : pub R) (r2 : res (hist R)) : Prop :=
    match r1, r2 with
    | Ok h, Ok h' => h' = entries c h /\ P2 = scale_pub a b c P1
    | Raise e, Raise e' => e = e'
    | _, _ => False
    end.
  Lemma met_pos o o' : obs_scaled a b c o o' -> 0 <= m_obj (ob_met o) /\ 0 <= m_rel (ob_met o) /\ 0 <= m_obj (ob_met o') /\ 0 <= m_rel (ob_met o').
  Proof.
    intros (_ & _ & _ & (-> & H1 & H2)). cbn [scale_metrics m_obj m_rel]. repeat split; try assumption. apply Rmult_le_pos; [apply pow2_ge_0|assumption].
  Qed.
  Lemma als_exactly fuel : a_tol args <= 0 -> forall step s s' o0 o0' n n' h p, Q s s' -> 0 <= o0 -> 0 <= o0' ->
    let '(P1, r1) := als_loop run sum_ok args steps fuel step s o0 n h p in
    let '(P2, r2) := als_loop run' sum_ok args steps fuel step s' o0' n' (entries c h) (scale_pub a b c p) in exactly a b c P1 r1 P2 r2.
  Proof.
    intros Ht. induction fuel as [|fuel IH]; intros step s s' o0 o0' n n' h p HQ H0 H0'; cbn [als_loop]; [split; reflexivity|].
    destruct (validate args steps step) as [v|e]; [|reflexivity].
    pose proof (run_v_scaled run run' Q sum_ok a b c Hrun v s s' HQ) as H. destruct (run_v run sum_ok v s) as [[s1 o]|e], (run_v run' sum_ok v s') as [[s1' o']|e']; cbn in H; try contradiction; [|exact H].
    destruct H as [HQ1 Ho]. rewrite (publish_scaled a b c v o o' p Ho), (entry_scaled o o' Ho), <- (entries_app c).
    destruct (met_pos o o' Ho) as (G1 & G2 & G3 & G4).
    rewrite !stop_off; try assumption.
    - apply IH; [exact HQ1| |]; destruct (step =? 1)%Z; try assumption; cbn; lra.
    - destruct (step =? 1)%Z; [cbn; lra|assumption].
    - destruct (step =? 1)%Z; [cbn; lra|assumption].
  Qed.
End AlsLoop.

(** ** the first step overwrites what an earlier training published *)
Definition blank (p : pub R) : pub R := mkPub None None None (p_finish p).
Section First.
  Context {S : Type}.
  Variables (run : S -> res (S * sobs R)) (sum_ok : bool) (args : targs R) (steps : Z).
  Hypothesis Haux : forall s s' o, run s = Ok (s', o) -> ob_aux o <> None.
  Lemma als_first fuel s o0 n p : (fuel <> 0)%nat ->
    let '(P1, r1) := als_loop run sum_ok args steps fuel 1 s o0 n [] p in
    let '(P2, r2) := als_loop run sum_ok args steps fuel 1 s o0 n [] (blank p) in
    r1 = r2 /\ ((exists h, r1 = Ok h) -> P1 = P2).
  Proof.
    intros Hf. destruct fuel as [|fuel]; [congruence|]. cbn [als_loop].
    destruct (validate args steps 1) as [v|e] eqn:EV; [|split; [reflexivity|intros (h & E); discriminate]].
    unfold validate in EV. rewrite orb_true_r in EV. injection EV as <-.
    destruct (run_v run sum_ok true s) as [[s' o]|e] eqn:ER; [|split; [reflexivity|intros (h & E); discriminate]].
    replace (publish true o (blank p)) with (publish true o p).
    - match goal with |- let '(_, _) := ?x in _ => destruct x as [P r] end. auto.
    - unfold publish, blank. cbn. unfold run_v in ER. destruct (true && negb sum_ok); [discriminate|]. apply Haux in ER. destruct (ob_aux o); [reflexivity|contradiction].
  Qed.
End First.

Section Body.
  Context {S : Type}.
  Variables (run run' : S -> res (S * sobs R)) (Q : S -> S -> Prop) (sum_ok : bool) (args : targs R) (steps : Z) (a b c : R).
  Hypothesis Hc : 0 < c.
  Hypothesis Hrun : forall s s', Q s s' -> rrel (fun x y => Q (fst x) (fst y) /\ obs_scaled a b c (snd x) (snd y)) (run s) (run' s').
  Hypothesis Haux : forall s s' o, run s = Ok (s', o) -> ob_aux o <> None.
  Hypothesis Haux' : forall s s' o, run' s = Ok (s', o) -> ob_aux o <> None.
  Variables (init init' : res S).
  Hypothesis Hinit : rrel Q init init'.

  Lemma als_body_agree p :
    let '(P1, r1) := als_body run sum_ok args steps init p in
    let '(P2, r2) := als_body run' sum_ok args steps init' p in agree a b c P1 r1 P2 r2.
  Proof.
    unfold als_body. destruct init as [s|e], init' as [s'|e']; cbn in Hinit; try contradiction; [|exact Hinit].
    destruct (Z.leb_spec steps 0) as [L|L]; [reflexivity|].
    pose proof (als_first run sum_ok args steps Haux (Z.to_nat steps) s 0 0 p ltac:(lia)) as F.
    pose proof (als_first run' sum_ok args steps Haux' (Z.to_nat steps) s' 0 0 p ltac:(lia)) as F'.
    pose proof (als_agree run run' Q sum_ok args steps a b c Hrun (Z.to_nat steps) 1 s s' 0 0 0 0 [] (blank p) Hinit) as G.
    change (scale_pub a b c (blank p)) with (blank p) in G. change (entries c []) with (@nil (R * R)) in G. change n0 with 0.
    destruct (als_loop run sum_ok args steps (Z.to_nat steps) 1 s 0 0 [] p) as [P1 r1], (als_loop run' sum_ok args steps (Z.to_nat steps) 1 s' 0 0 [] p) as [P2 r2].
    destruct (als_loop run sum_ok args steps (Z.to_nat steps) 1 s 0 0 [] (blank p)) as [P3 r3], (als_loop run' sum_ok args steps (Z.to_nat steps) 1 s' 0 0 [] (blank p)) as [P4 r4].
    destruct F as [<- F], F' as [<- F']. destruct r1 as [h1|], r2 as [h2|]; try exact G. rewrite F, F' by eauto. exact G.
  Qed.
  Lemma als_body_exactly p : a_tol args <= 0 ->
    let '(P1, r1) := als_body run sum_ok args steps init p in
    let '(P2, r2) := als_body run' sum_ok args steps init' p in exactly a b c P1 r1 P2 r2.
  Proof.
    intros Ht. unfold als_body. destruct init as [s|e], init' as [s'|e']; cbn in Hinit; try contradiction; [|exact Hinit].
    destruct (Z.leb_spec steps 0) as [L|L]; [reflexivity|].
    pose proof (als_first run sum_ok args steps Haux (Z.to_nat steps) s 0 0 p ltac:(lia)) as F.
    pose proof (als_first run' sum_ok args steps Haux' (Z.to_nat steps) s' 0 0 p ltac:(lia)) as F'.
    pose proof (als_exactly run run' Q sum_ok args steps a b c Hrun (Z.to_nat steps) Ht 1 s s' 0 0 0 0 [] (blank p) Hinit (Rle_refl 0) (Rle_refl 0)) as G.
    change (scale_pub a b c (blank p)) with (blank p) in G. change (entries c []) with (@nil (R * R)) in G. change n0 with 0.
    destruct (als_loop run sum_ok args steps (Z.to_nat steps) 1 s 0 0 [] p) as [P1 r1], (als_loop run' sum_ok args steps (Z.to_nat steps) 1 s' 0 0 [] p) as [P2 r2].
    destruct (als_loop run sum_ok args steps (Z.to_nat steps) 1 s 0 0 [] (blank p)) as [P3 r3], (als_loop run' sum_ok args steps (Z.to_nat steps) 1 s' 0 0 [] (blank p)) as [P4 r4].
    destruct F as [<- F], F' as [<- F']. destruct r1 as [h1|], r2 as [h2|]; try exact G. rewrite F, F' by eauto. exact G.
  Qed.
End Body.

(** ** train *)
Lemma train_agree {A Rn} e rs (body body' : A -> Rn -> bool -> Z -> pub R -> pub R * res (hist R)) a b c w o rnd steps :
  (forall ar id p, o_built o = Some (ar, id) ->
     let '(P1, r1) := body ar rnd (forallb (Nat.eqb id) (w_sums w)) steps p in
     let '(P2, r2) := body' ar rnd (forallb (Nat.eqb id) (w_sums w)) steps p in agree a b c P1 r1 P2 r2) ->
  forall o1 h1 o2 h2, obj_train e rs body w o rnd steps = (o1, Ok h1) -> obj_train e rs body' w o rnd steps = (o2, Ok h2) ->
  same_run c h1 h2 /\ (length h1 = length h2 -> o_pub o2 = scale_pub a b c (o_pub o1)).
Proof.
  intros H o1 h1 o2 h2 E1 E2. unfold obj_train in *. destruct (o_built o) as [[ar id]|] eqn:EB; [|discriminate]. destruct (negb (w_path w)); [discriminate|].
  specialize (H ar id (if rs then set_finish false (o_pub o) else o_pub o) eq_refl).
  destruct (body ar rnd _ steps _) as [P1 r1], (body' ar rnd _ steps _) as [P2 r2]. destruct r1 as [k1|]; [|discriminate]. destruct r2 as [k2|]; [|discriminate].
  injection E1 as <- <-. injection E2 as <- <-. destruct H as [H1 H2]. split; [exact H1|]. intros L. cbn. rewrite (H2 L). reflexivity.
Qed.
Lemma train_exactly {A Rn} e rs (body body' : A -> Rn -> bool -> Z -> pub R -> pub R * res (hist R)) a b c w o rnd steps :
  (forall ar id p, o_built o = Some (ar, id) ->
     let '(P1, r1) := body ar rnd (forallb (Nat.eqb id) (w_sums w)) steps p in
     let '(P2, r2) := body' ar rnd (forallb (Nat.eqb id) (w_sums w)) steps p in exactly a b c P1 r1 P2 r2) ->
  snd (obj_train e rs body' w o rnd steps) = rmap (map (scale_entry c)) (snd (obj_train e rs body w o rnd steps)) /\
  forall o1 h1, obj_train e rs body w o rnd steps = (o1, Ok h1) ->
    o_pub (fst (obj_train e rs body' w o rnd steps)) = scale_pub a b c (o_pub o1).
Proof.
  intros H. unfold obj_train in *. destruct (o_built o) as [[ar id]|] eqn:EB; [|split; [reflexivity|discriminate]]. destruct (negb (w_path w)); [split; [reflexivity|discriminate]|].
  specialize (H ar id (if rs then set_finish false (o_pub o) else o_pub o) eq_refl).
  destruct (body ar rnd _ steps _) as [P1 r1], (body' ar rnd _ steps _) as [P2 r2]. destruct r1 as [k1|], r2 as [k2|]; cbn in H; try contradiction.
  - destruct H as [-> ->]. split; [reflexivity|]. intros o1 h1 E. injection E as <- <-. reflexivity.
  - subst. split; [reflexivity|discriminate].
Qed.

Lemma map_scale1 l : map (scale 1) l = l.
Proof. apply tscs_one, (tscs_scale 1). Qed.

Lemma cp_runs c pinv X r s s' : 0 < c -> s' = s -> rrel (fun x y => fst y = fst x /\ obs_scaled 1 c c (snd x) (snd y)) (cp_run pinv X r s) (cp_run pinv (scale c X) r s').
Proof.
  intros Hc ->. unfold cp_run. apply (rrel_bind (cp_scaled c)); [apply sc_cp_step, Hc|]. intros o o' (H1 & H2 & H3 & H4). cbn. split; [exact H1|].
  split; cbn; [rewrite H1, map_scale1; reflexivity|]. split; [rewrite H2; reflexivity|]. split; [exact H3|exact H4].
Qed.
Lemma cp_aux pinv X r s s' (o : sobs R) : cp_run pinv X r s = Ok (s', o) -> ob_aux o <> None.
Proof. unfold cp_run. destruct (cp_step pinv X r s); cbn; intros E; [|discriminate]. injection E as _ <-. discriminate. Qed.
Lemma hooi_runs c svdU svdU' X r s s' : 0 < c -> (forall M, svdU' (scale c M) = svdU M) -> s' = s ->
  rrel (fun x y => fst y = fst x /\ obs_scaled 1 c c (snd x) (snd y)) (hooi_run svdU X r s) (hooi_run svdU' (scale c X) r s').
Proof.
  intros Hc HU ->. unfold hooi_run. apply (rrel_bind (ho_scaled c)); [apply sc_hooi_step; assumption|]. intros o o' (H1 & H2 & H3 & H4). cbn. split; [exact H1|].
  split; cbn; [rewrite H1, map_scale1; reflexivity|]. split; [rewrite H2; reflexivity|]. split; [exact H3|exact H4].
Qed.
Lemma hooi_aux svdU X r s s' (o : sobs R) : hooi_run svdU X r s = Ok (s', o) -> ob_aux o <> None.
Proof. unfold hooi_run. destruct (hooi_step svdU X r s); cbn; intros E; [|discriminate]. injection E as _ <-. discriminate. Qed.

Lemma c96_cp_train c pinv X w (o : fobj R (targs R * nat)) rnd steps o1 h1 o2 h2 : 0 < c ->
  cp_train pinv X w o rnd steps = (o1, Ok h1) -> cp_train pinv (scale c X) w o rnd steps = (o2, Ok h2) ->
  same_run c h1 h2 /\ (length h1 = length h2 -> o_pub o2 = scale_pub 1 c c (o_pub o1)).
Proof.
  intros Hc. apply train_agree. intros ar id p _. unfold cp_body.
  apply (als_body_agree (cp_run pinv X (snd ar)) (cp_run pinv (scale c X) (snd ar)) (fun s s' => s' = s) _ (fst ar) steps 1 c c); [| | |reflexivity].
  - intros s s' E. apply cp_runs; assumption.
  - apply cp_aux.
  - apply cp_aux.
Qed.
Lemma c96_cp_exact c pinv X w (o : fobj R (targs R * nat)) ar id rnd steps : 0 < c -> o_built o = Some (ar, id) -> a_tol (fst ar) <= 0 ->
  snd (cp_train pinv (scale c X) w o rnd steps) = rmap (map (scale_entry c)) (snd (cp_train pinv X w o rnd steps)) /\
  forall o1 h1, cp_train pinv X w o rnd steps = (o1, Ok h1) -> o_pub (fst (cp_train pinv (scale c X) w o rnd steps)) = scale_pub 1 c c (o_pub o1).
Proof.
  intros Hc EB Ht. apply train_exactly. intros ar' id' p E. rewrite EB in E. injection E as <- <-. unfold cp_body.
  apply (als_body_exactly (cp_run pinv X (snd ar)) (cp_run pinv (scale c X) (snd ar)) (fun s s' => s' = s) _ (fst ar) steps 1 c c); [| | |reflexivity|exact Ht].
  - intros s s' E. apply cp_runs; assumption.
  - apply cp_aux.
  - apply cp_aux.
Qed.
Lemma hooi_inits c svdU svdU' X ranks : (forall M, svdU' (scale c M) = svdU M) -> rrel (fun s s' => s' = s) (hooi_init svdU X ranks) (hooi_init svdU' (scale c X) ranks).
Proof. intros HU. rewrite (sc_hooi_init c svdU svdU' HU). destruct (hooi_init svdU X ranks); reflexivity. Qed.
Lemma c96_hooi_train c svdU svdU' X w (o : fobj R (targs R * list Z)) rnd steps o1 h1 o2 h2 : 0 < c -> (forall M, svdU' (scale c M) = svdU M) ->
  hooi_train svdU X w o rnd steps = (o1, Ok h1) -> hooi_train svdU' (scale c X) w o rnd steps = (o2, Ok h2) ->
  same_run c h1 h2 /\ (length h1 = length h2 -> o_pub o2 = scale_pub 1 c c (o_pub o1)).
Proof.
  intros Hc HU. apply train_agree. intros ar id p _. unfold hooi_body.
  apply (als_body_agree (hooi_run svdU X (snd ar)) (hooi_run svdU' (scale c X) (snd ar)) (fun s s' => s' = s) _ (fst ar) steps 1 c c).
  - intros s s' E. apply hooi_runs; assumption.
  - apply hooi_aux.
  - apply hooi_aux.
  - apply hooi_inits, HU.
Qed.
Lemma c96_hooi_exact c svdU svdU' X w (o : fobj R (targs R * list Z)) ar id rnd steps : 0 < c -> (forall M, svdU' (scale c M) = svdU M) ->
  o_built o = Some (ar, id) -> a_tol (fst ar) <= 0 ->
  snd (hooi_train svdU' (scale c X) w o rnd steps) = rmap (map (scale_entry c)) (snd (hooi_train svdU X w o rnd steps)) /\
  forall o1 h1, hooi_train svdU X w o rnd steps = (o1, Ok h1) -> o_pub (fst (hooi_train svdU' (scale c X) w o rnd steps)) = scale_pub 1 c c (o_pub o1).
Proof.
  intros Hc HU EB Ht. apply train_exactly. intros ar' id' p E. rewrite EB in E. injection E as <- <-. unfold hooi_body.
  apply (als_body_exactly (hooi_run svdU X (snd ar)) (hooi_run svdU' (scale c X) (snd ar)) (fun s s' => s' = s) _ (fst ar) steps 1 c c); [| | | |exact Ht].
  - intros s s' E. apply hooi_runs; assumption.
  - apply hooi_aux.
  - apply hooi_aux.
  - apply hooi_inits, HU.
Qed.
