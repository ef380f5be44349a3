(** Training NCP_BCU and NTUCKER_BCU from reordered or rescaled starting factors (C103). *)

From Coq Require Import ZArith List Bool Arith Lia Permutation Reals Lra.
From Verif Require Import Num Py Tensor TF TensorFacts TFFacts Sums Ops OpsLemmas Types Loss Fact Train Spec SpecR LayoutFacts SpecFacts MulFacts TtmFacts SkipFacts TtmLemmas Matricize
  KronFacts RSums MatR KronAlg NormFacts SpecTucker MultiR SvdFacts TuckerFacts TuckerRun TuckerLemmas SpecCp SpecBcu BcuFacts SpecTrain TrainLemmas LossFacts CpFacts AlsFacts AlsLemmas
  SpecProx Prox NcpFacts NcpLemmas NtFacts NtLemmas SpecFix SpecScale SpecSym SymFacts SymTrain SymBcu SpecOrder OrderAlg OrderTrain.
From Verif Require ScaleFacts.
Import ListNotations.
Local Open Scope R_scope.

(** ** matrices *)
Section Cols.
  Variables (p : nat -> nat) (d c : nat).
  Hypothesis Hp : perm1 c p.

  Lemma cols_map (f : R -> R) (A : tensor R) : is_mat A d c -> tf_map f (relabel_cols p A) = relabel_cols p (tf_map f A).
  Proof.
    intros HA. pose proof (tf_map_shape f A d c HA) as HM. destruct (is_mat_dims _ _ _ HA) as [D1 D2]. destruct (is_mat_dims _ _ _ HM) as [M1 M2].
    apply mat_ext with (r := d) (c := c); [apply tf_map_shape, cols_mat, HA|apply cols_mat, HM|]. intros i q Hi Hq.
    rewrite (mget_map d f _ c) by (auto using cols_mat). rewrite !mget_cols by (rewrite ?D1, ?D2, ?M1, ?M2; auto). rewrite (mget_map d f A c); auto. apply Hp, Hq.
  Qed.
  Lemma cols_norm (A : tensor R) : is_mat A d c -> tf_norm (relabel_cols p A) = tf_norm A.
  Proof.
    intros HA. pose proof (cols_mat p A d c HA) as HM. destruct (is_mat_dims _ _ _ HA) as [D1 D2].
    assert (E : relabel_cols p A = relabel (second_axis p) A).
    { apply mat_ext with (r := d) (c := c); [exact HM|split; [apply wf_relabel|apply HA]|]. intros i q Hi Hq. rewrite mget_cols by (rewrite ?D1, ?D2; auto).
      unfold mget. rewrite get_relabel; [reflexivity|]. rewrite (proj2 HA). repeat constructor; assumption. }
    rewrite E. apply norm_relabel; [apply HA|]. rewrite (proj2 HA). intros j Hj. destruct j as [|[|j]]; cbn in *; [apply perm1_id|exact Hp|lia].
  Qed.
  Lemma cols_extrapolate w (A B : tensor R) : is_mat A d c -> is_mat B d c -> extrapolate w (relabel_cols p A) (relabel_cols p B) = rmap (relabel_cols p) (extrapolate w A B).
  Proof.
    intros HA HB. pose proof (cols_mat p A d c HA) as HA'. pose proof (cols_mat p B d c HB) as HB'.
    unfold extrapolate. rewrite !bin_same by (rewrite ?(proj2 HA), ?(proj2 HB), ?(proj2 HA'), ?(proj2 HB'); reflexivity). cbn [bind]. rewrite !tf_map_gen, !bin_same by reflexivity. cbn [rmap]. f_equal.
    destruct (is_mat_dims _ _ _ HA) as [D1 D2]. destruct (is_mat_dims _ _ _ HB) as [D3 D4].
    apply mat_ext with (r := d) (c := c); [split; [apply wf_gen|apply HA']|apply cols_mat; split; [apply wf_gen|apply HA]|]. intros i q Hi Hq.
    assert (V : forall i q, (i < d)%nat -> (q < c)%nat -> valid [d; c] [i; q]) by (intros; repeat constructor; assumption).
    rewrite mget_cols by (unfold nrows, ncols; cbn [shp gen]; rewrite (proj2 HA); assumption). unfold mget at 1 2. rewrite (proj2 HA), (proj2 HA'). rewrite !get_gen by (apply V; auto; apply Hp; auto).
    fold (mget (relabel_cols p A) i q). fold (mget (relabel_cols p B) i q). rewrite !mget_cols by (rewrite ?D1, ?D2, ?D3, ?D4; auto). reflexivity.
  Qed.
  Lemma cols_init pow (X : tensor R) n (A : tensor R) : is_mat A d c -> norm_init pow X n (tf_map nrelu (relabel_cols p A)) = relabel_cols p (norm_init pow X n (tf_map nrelu A)).
  Proof.
    intros HA. unfold norm_init. rewrite (cols_map nrelu A HA). rewrite cols_norm by (apply tf_map_shape, HA). apply cols_map, tf_map_shape, HA.
  Qed.
End Cols.

(** ** lists of factors, with c k columns in mode k *)
Section Fac.
  Variables (s : list nat) (pi : nat -> nat -> nat) (c : nat -> nat).
  Hypothesis Hpi : forall k, (k < length s)%nat -> perm1 (c k) (pi k).
  Lemma ro_extrapolate ws A A0 : facs s c A -> facs s c A0 -> length ws = length s ->
    map3M extrapolate ws (reorder pi A) (reorder pi A0) = rmap (reorder pi) (map3M extrapolate ws A A0).
  Proof.
    intros [LA HA] [LB HB] Lw.
    assert (G : forall (U V : list (tensor R)), length U = length s -> length V = length s -> (forall k, (k < length s)%nat -> shp (mat_at U k) = shp (mat_at V k)) -> exists l, map3M extrapolate ws U V = Ok l).
    { intros U V LU LV HUV. apply (map3M_total extrapolate (fun _ _ _ _ => True)); [congruence|congruence|]. intros k da db dc Hk. rewrite Lw in Hk.
      rewrite (nth_indep U db (mkT [] [])), (nth_indep V dc (mkT [] [])) by lia.
      destruct (extrapolate_total (nth k ws da) (mat_at U k) (mat_at V k) (HUV k Hk)) as (mm0 & E & _). eauto. }
    destruct (G A A0 LA LB) as (l & El). { intros k Hk. rewrite (proj2 (HA k Hk)), (proj2 (HB k Hk)). reflexivity. }
    destruct (G (reorder pi A) (reorder pi A0)) as (l' & El'); [rewrite ro_length; exact LA|rewrite ro_length; exact LB| |].
    { intros k Hk. rewrite !ro_at by lia. rewrite (proj2 (cols_mat (pi k) _ _ _ (HA k Hk))), (proj2 (cols_mat (pi k) _ _ _ (HB k Hk))). reflexivity. }
    destruct (map3M_nth extrapolate _ _ _ _ 0 (mkT [] []) (mkT [] []) (mkT [] []) El ltac:(congruence) ltac:(congruence)) as [Ll Hl].
    destruct (map3M_nth extrapolate _ _ _ _ 0 (mkT [] []) (mkT [] []) (mkT [] []) El' ltac:(rewrite ro_length; congruence) ltac:(rewrite !ro_length; congruence)) as [Ll' Hl'].
    rewrite El, El'. cbn [rmap]. f_equal. apply ro_eq; [congruence|]. intros k Hk. rewrite Ll, Lw in Hk.
    specialize (Hl k ltac:(lia)). specialize (Hl' k ltac:(lia)). change (extrapolate (nth k ws 0) (mat_at A k) (mat_at A0 k) = Ok (mat_at l k)) in Hl.
    change (extrapolate (nth k ws 0) (mat_at (reorder pi A) k) (mat_at (reorder pi A0) k) = Ok (mat_at l' k)) in Hl'. rewrite !ro_at in Hl' by lia.
    rewrite (cols_extrapolate (pi k) (nth k s 0%nat) (c k) (Hpi k Hk)) in Hl' by auto. rewrite Hl in Hl'. cbn [rmap] in Hl'. congruence.
  Qed.
  Lemma ro_init pow (X : tensor R) n A : facs s c A ->
    map (fun t => norm_init pow X n (tf_map nrelu t)) (reorder pi A) = reorder pi (map (fun t => norm_init pow X n (tf_map nrelu t)) A).
  Proof.
    intros [LA HA]. apply ro_eq; [rewrite !map_length, ro_length; reflexivity|]. rewrite map_length. intros k Hk. unfold mat_at.
    rewrite !(nth_map_lt _ _ k (mkT [] [])) by (rewrite ?ro_length; exact Hk). fold (mat_at (reorder pi A) k). rewrite ro_at by exact Hk. fold (mat_at A k).
    rewrite LA in Hk. apply (cols_init (pi k) (nth k s 0%nat) (c k) (Hpi k Hk)); auto.
  Qed.
End Fac.

(** ** NCP_BCU *)
Definition reorder_ncp (pi : nat -> nat -> nat) (s : ncp_state R) : ncp_state R :=
  mkNCP (reorder pi (n_A s)) (reorder pi (n_Am s)) (reorder pi (n_A0 s)) (n_t s) (n_t0 s) (n_w s) (n_L s) (n_L0 s).

Section Ncp.
  Variables (pow : R -> R -> R) (svals : tensor R -> list R) (X : tensor R) (r : nat) (p : nat -> nat).
  Hypothesis HS : spectral svals.
  Hypothesis HX : wf X.
  Hypothesis Hne : nonempty (shp X).
  Hypothesis Hord : (2 <= ndims X <= 25)%nat.
  Hypothesis Hp : perm1 r p.
  Let N := ndims X.
  Let I n := nth n (shp X) 0%nat.
  Local Notation ro := (reorder (T := R) (fun _ => p)).

  Lemma linked_ro A n : cp_factors X r A -> linked X r p (fun _ _ => 1) n A (ro A).
  Proof.
    intros HA. split; [exact HA|]. split; [apply rf_same_shape, HA|]. intros k i q Hk _ Hi Hq. split; [lra|].
    rewrite ro_at by (rewrite (proj1 HA); exact Hk). destruct (is_mat_dims _ _ _ (proj2 HA k Hk)) as [D1 D2]. rewrite mget_cols by (rewrite ?D1, ?D2; auto). ring.
  Qed.
  Lemma one_scal n q : (q < r)%nat -> scal X (fun _ _ => 1) n q = 1.
  Proof. apply (scal_one X r); auto. Qed.
  Lemma gram_ro A n a b : cp_factors X r A -> (a < r)%nat -> (b < r)%nat -> mget (gram_but r (ro A) n) a b = mget (gram_but r A n) (p a) (p b).
  Proof. intros HA Ha Hb. rewrite (gram_linked X r p Hp _ n A (ro A) (linked_ro A n HA)) by auto. rewrite !one_scal by auto. ring. Qed.
  Lemma mttkrp_ro A n i q : cp_factors X r A -> (n < N)%nat -> (i < I n)%nat -> (q < r)%nat -> mget (mttkrp X r (ro A) n) i q = mget (mttkrp X r A n) i (p q).
  Proof. intros HA Hn Hi Hq. rewrite (mttkrp_linked X r p Hp _ n A (ro A) (linked_ro A n HA)) by auto. rewrite one_scal by auto. ring. Qed.
  Lemma L_ro A n : cp_factors X r A -> ncp_L svals r (ro A) n = ncp_L svals r A n.
  Proof.
    intros HA. unfold ncp_L. destruct (Nat.eq_dec r 0) as [->|Hr]; [reflexivity|].
    apply (spectral_perm svals r p); auto; try apply is_mat_mgen. intros a b Ha Hb. apply gram_ro; auto.
  Qed.

  Lemma ncp_new_ro A Am L n : cp_factors X r A -> is_mat Am (I n) r -> (n < N)%nat ->
    ncp_new X r (ro A) (relabel_cols p Am) L n = relabel_cols p (ncp_new X r A Am L n).
  Proof.
    intros HA HAm Hn. destruct (is_mat_dims _ _ _ HAm) as [D1 D2].
    apply mat_ext with (r := I n) (c := r); [apply is_mat_mgen|apply cols_mat, is_mat_mgen|]. intros i q Hi Hq.
    rewrite mget_cols by assumption. unfold ncp_new. rewrite !mget_mgen by (auto; apply Hp; exact Hq).
    rewrite mttkrp_ro by assumption. rewrite !mget_cols by (rewrite ?D1, ?D2; auto).
    do 4 f_equal. rewrite <- (sum_perm r p (fun l => mget Am i l * mget (gram_but r A n) l (p q)) Hp). apply sumn_ext. intros l Hl.
    rewrite mget_cols by (rewrite ?D1, ?D2; auto). rewrite gram_ro by auto. reflexivity.
  Qed.
  Lemma ncp_modes_ro mats : unfold_all X = Ok mats -> forall l s, ncp_wf X r s -> (forall n, In n l -> (n < N)%nat) ->
    ncp_modes svals mats l (reorder_ncp (fun _ => p) s) = rmap (reorder_ncp (fun _ => p)) (ncp_modes svals mats l s).
  Proof.
    intros E. induction l as [|n l IH]; intros s (HA & HAm & HA0 & HL & HL0) Hl; cbn [ncp_modes]; [reflexivity|].
    assert (Hn : (n < N)%nat) by (apply Hl; left; auto).
    rewrite (ncp_mode_run svals X r mats Hne ltac:(lia) E s n HA HAm) by (auto; rewrite HL; exact Hn).
    rewrite (ncp_mode_run svals X r mats Hne ltac:(lia) E (reorder_ncp (fun _ => p) s) n) by (cbn [reorder_ncp n_A n_Am n_L]; auto using rf_same_shape; rewrite HL; exact Hn).
    cbn [bind reorder_ncp n_A n_Am n_A0 n_t n_t0 n_w n_L n_L0]. rewrite (L_ro _ n HA). rewrite (ro_at (fun _ => p) (n_Am s)) by (rewrite (proj1 HAm); exact Hn).
    rewrite (ncp_new_ro (n_A s)) by (auto; apply HAm, Hn). rewrite <- (ro_replace (fun _ => p)).
    match goal with |- _ = rmap _ (ncp_modes _ _ _ ?t) => specialize (IH t) end. apply IH; [|intros m Hm; apply Hl; right; auto].
    split; [apply replace_factors; [exact HA|apply is_mat_mgen]|]. split; [exact HAm|]. split; [exact HA0|]. cbn [n_L n_L0]. rewrite !replace_length. auto.
  Qed.
  Lemma ncp_run_ro s : ncp_wf X r s -> ncp_run svals X (reorder_ncp (fun _ => p) s) = rmap (fun x => (reorder_ncp (fun _ => p) (fst x), reorder_obs (fun _ => p) (second_axis p) (snd x))) (ncp_run svals X s).
  Proof.
    intros HW. unfold ncp_run, ncp_step. destruct (unfold_all_total X Hne) as (mats & E). rewrite E. cbn [bind].
    fold N. rewrite (ncp_modes_ro mats E (seq 0 N) s HW) by (intros n Hn; apply in_seq in Hn; lia).
    destruct (ncp_modes svals mats (seq 0 N) s) as [s1|e] eqn:E3; [|reflexivity]. cbn [rmap bind reorder_ncp n_A].
    destruct (ncp_sweep svals X r mats Hne ltac:(lia) E N 0 s s1 eq_refl HW E3) as (W1 & _).
    rewrite (ncp_ones_ok X r (n_A s1)) by (try apply W1; lia). rewrite (ncp_ones_ok X r (reorder (fun _ => p) (n_A s1))) by (try (apply rf_same_shape, W1); lia). cbn [bind].
    assert (K : forall F, cp_factors X r F -> kt_extract F (ones r) = Ok (cp_tensor r (ones r) F)) by (intros F HF; apply (kt_relabel X r (fun _ i => i) Hord); auto; try (intros k Hk; apply perm1_id); apply is_mat_mgen).
    rewrite (K _ (proj1 W1)), (K _ (rf_same_shape X r p _ (proj1 W1))). cbn [rmap bind].
    rewrite (cp_tensor_reorder X r p Hp (ones r) (ones r)).
    - destruct (metrics_of X (cp_tensor r (ones r) (n_A s1))); reflexivity.
    - apply W1.
    - intros q Hq. unfold ones. rewrite !mget_mgen by (try lia; auto; apply Hp, Hq). reflexivity.
  Qed.
  Lemma ncp_accept_ro s : ncp_wf X r s -> ncp_accept (reorder_ncp (fun _ => p) s) = rmap (reorder_ncp (fun _ => p)) (ncp_accept s).
  Proof.
    intros (HA & HAm & HA0 & HL & HL0). unfold ncp_accept. cbn [reorder_ncp n_A n_A0 n_t n_t0 n_L n_L0].
    rewrite (ro_extrapolate (shp X) (fun _ => p) (fun _ => r)); [|intros; exact Hp|exact HA|exact HA0|rewrite weights_length; [exact HL|congruence]].
    destruct (map3M extrapolate _ (n_A s) (n_A0 s)); reflexivity.
  Qed.
  Lemma ncp_init_ro rnd : cp_factors X r rnd -> ncp_init pow X (reorder (fun _ => p) rnd) = reorder_ncp (fun _ => p) (ncp_init pow X rnd).
  Proof.
    intros HR. unfold ncp_init, reorder_ncp. cbn [n_A n_Am n_A0 n_t n_t0 n_w n_L n_L0].
    rewrite (ro_init (shp X) (fun _ => p) (fun _ => r) (fun _ _ => Hp) pow X (ndims X) rnd HR). reflexivity.
  Qed.
  Lemma ones_ro : relabel (second_axis p) (tf_ones [1; r]%nat) = tf_ones (T := R) [1; r]%nat.
  Proof.
    unfold relabel, tf_ones, tf_fill. apply gen_ext. intros idx Hv. cbn [shp gen] in Hv. rewrite get_gen; [reflexivity|]. apply moved_valid; [|exact Hv].
    intros [|[|k]] Hk; cbn in *; [apply perm1_id|exact Hp|lia].
  Qed.
  Lemma ncp_train_reorder w o rnd steps : (exists a id, o_built o = Some ((a, r), id)) -> cp_factors X r rnd ->
    ncp_train pow svals X w (reorder_obj (fun _ => p) (second_axis p) o) (reorder (fun _ => p) rnd) steps =
    (reorder_obj (fun _ => p) (second_axis p) (fst (ncp_train pow svals X w o rnd steps)), snd (ncp_train pow svals X w o rnd steps)).
  Proof.
    intros (a & id & Hb) HR. unfold ncp_train. apply obj_train_reorder. intros a' id' q b Hb'. rewrite Hb in Hb'. injection Hb' as <- <-.
    unfold ncp_body. cbn [fst snd]. rewrite ncp_init_ro by exact HR.
    apply (bcu_body_reorder (fun _ => p) (second_axis p) (reorder_ncp (fun _ => p)) (ncp_wf X r) (ncp_wf X r)).
    - intros s Hs. reflexivity.
    - intros s s' cc Hs E. injection E as <- _. exact Hs.
    - apply ncp_run_ro.
    - intros s s' ob Hs E. apply (ncp_run_wf svals X r s s' ob Hs E).
    - apply ncp_accept_ro.
    - intros s s' Hs E. destruct (ncp_accept_wf X r s Hs) as (s1 & E1 & W). congruence.
    - reflexivity.
    - intros s s' Hs E. injection E as <-. apply ncp_reject_wf, Hs.
    - cbn [omap]. rewrite ones_ro. reflexivity.
    - apply ncp_init_wf, HR.
  Qed.
End Ncp.

(** ** NTUCKER_BCU *)
Definition reorder_nt (pi : nat -> nat -> nat) (s : nt_state R) : nt_state R :=
  mkNT (reorder pi (q_A s)) (reorder pi (q_Am s)) (reorder pi (q_A0 s)) (relabel pi (q_g s)) (relabel pi (q_gm s)) (relabel pi (q_g0 s)) (q_t s) (q_t0 s) (q_w s) (q_L s) (q_L0 s).

Section Nt.
  Variables (pow : R -> R -> R) (svals : tensor R -> list R) (X : tensor R) (ranks : list nat) (pi : nat -> nat -> nat).
  Hypothesis HS : spectral svals.
  Hypothesis HX : wf X.
  Hypothesis Hne : nonempty (shp X).
  Hypothesis Hr : nonempty ranks.
  Hypothesis Hord : (2 <= ndims X <= 13)%nat.
  Hypothesis Hpi : relabelling ranks pi.
  Let N := ndims X.
  Local Notation ro := (reorder (T := R) pi).
  Local Notation idn := (fun _ i : nat => i).

  Lemma pi_perm k A : tucker_factors X ranks A -> (k < N)%nat -> perm1 (nth k ranks 0%nat) (pi k).
  Proof. intros (_ & L & _) Hk. apply Hpi. rewrite L. exact Hk. Qed.
  Lemma rk_pos k A : tucker_factors X ranks A -> (k < N)%nat -> (nth k ranks 0 <> 0)%nat.
  Proof. intros (_ & L & _) Hk. apply nonempty_nth; [exact Hr|rewrite L; exact Hk]. Qed.
  Lemma ro_factors A : tucker_factors X ranks A -> tucker_factors X ranks (ro A).
  Proof.
    intros (HL & HL2 & HA). split; [rewrite ro_length; exact HL|]. split; [exact HL2|]. intros k Hk. rewrite ro_at by (rewrite HL; exact Hk). apply cols_mat, HA, Hk.
  Qed.
  Lemma core_ro g : core_like ranks g -> core_like ranks (relabel pi g).
  Proof. intros [_ H]. split; [apply wf_relabel|exact H]. Qed.
  Lemma gram_of_cols k A a b : tucker_factors X ranks A -> (k < N)%nat -> (a < nth k ranks 0)%nat -> (b < nth k ranks 0)%nat ->
    mget (gram_of (relabel_cols (pi k) (mat_at A k))) a b = mget (gram_of (mat_at A k)) (pi k a) (pi k b).
  Proof.
    intros HT Hk Ha Hb. pose proof HT as (_ & _ & HA). destruct (is_mat_dims _ _ _ (HA k Hk)) as [D1 D2]. pose proof (pi_perm k A HT Hk) as [P1 _].
    unfold gram_of. rewrite nrows_cols, ncols_cols, D2. rewrite !mget_mgen by auto. apply bigsum_ext. intros i Hi. rewrite !mget_cols by (rewrite ?D2; auto). reflexivity.
  Qed.
  Lemma gram_of_mat k (A : list (tensor R)) : tucker_factors X ranks A -> (k < N)%nat -> is_mat (gram_of (mat_at A k)) (nth k ranks 0%nat) (nth k ranks 0%nat).
  Proof. intros (_ & _ & HA) Hk. destruct (is_mat_dims _ _ _ (HA k Hk)) as [D1 D2]. unfold gram_of. rewrite D2. apply is_mat_mgen. Qed.
  Lemma coreL_ro A : tucker_factors X ranks A -> nt_coreL svals X (ro A) = nt_coreL svals X A.
  Proof.
    intros HA. unfold nt_coreL. apply bigprod_ext. intros k Hk. pose proof (ro_factors A HA) as HB.
    apply (spectral_perm svals (nth k ranks 0%nat) (pi k)); [exact HS|apply (rk_pos k A HA Hk)|apply (pi_perm k A HA Hk)|apply gram_of_mat; auto|apply gram_of_mat; auto|].
    intros a b Ha Hb. rewrite ro_at by (rewrite (proj1 HA); exact Hk). apply gram_of_cols; auto.
  Qed.
  Lemma project_ro A : tucker_factors X ranks A -> project X (ro A) = relabel pi (project X A).
  Proof.
    intros HA. pose proof HA as (HL & HL2 & HM). rewrite !project_plt, ro_length. unfold plt.
    rewrite <- (relabel_id X HX) at 1. rewrite (mps_relabel pi (fun k => mtrans (mat_at A k)) (fun k => mtrans (mat_at (ro A) k))).
    - apply relabel_ext. intros k i Hk Hi.
      unfold on_modes. destruct (in_dec Nat.eq_dec k (seq 0 (length A))) as [J|J]; [reflexivity|]. exfalso. apply J, in_seq. rewrite HL. split; [lia|]. unfold ndims in Hk.
      rewrite shp_mode_products, rshape_length in Hk. exact Hk.
    - apply seq_NoDup.
    - intros k _. apply perm1_id.
    - intros k Hk. apply in_seq in Hk. rewrite HL in Hk. destruct (is_mat_dims _ _ _ (HM k ltac:(lia))) as [D1 D2]. rewrite ro_at by lia.
      split; [lia|]. change (ncols (mtrans (mat_at A k))) with (nrows (mat_at A k)). change (nrows (mtrans (mat_at A k))) with (ncols (mat_at A k)).
      assert (Pk : perm1 (ncols (mat_at A k)) (pi k)) by (rewrite D2; apply (pi_perm k A HA); unfold N; lia).
      split; [exact D1|]. split; [reflexivity|]. split; [reflexivity|]. split; [exact Pk|]. intros i j Hi Hj.
      assert (Hi' : (pi k i < ncols (mat_at A k))%nat) by (apply Pk, Hi).
      rewrite (mget_mtrans (relabel_cols (pi k) (mat_at A k))), (mget_mtrans (mat_at A k)) by assumption. apply mget_cols; assumption.
  Qed.
  Lemma sqcore_ro A g : tucker_factors X ranks A -> core_like ranks g ->
    mode_products (relabel pi g) (pl (map gram_of (ro A)) (seq 0 N)) = relabel pi (mode_products g (pl (map gram_of A) (seq 0 N))).
  Proof.
    intros HA Hg. pose proof HA as (HL & HL2 & HM). unfold pl. rewrite (mps_relabel pi (fun k => mat_at (map gram_of A) k) (fun k => mat_at (map gram_of (ro A)) k)).
    - apply relabel_ext. intros k i _ _. unfold on_modes. destruct (in_dec Nat.eq_dec k (seq 0 N)); reflexivity.
    - apply seq_NoDup.
    - rewrite (proj2 Hg). exact Hpi.
    - intros k Hk. apply in_seq in Hk. assert (Hk' : (k < N)%nat) by lia. pose proof (ro_factors A HA) as HB.
      assert (E : forall F, length F = N -> mat_at (map gram_of F) k = gram_of (mat_at F k)) by (intros F LF; unfold mat_at; apply nth_map_lt; rewrite LF; exact Hk').
      rewrite (E A HL), (E (ro A) (proj1 HB)). destruct (is_mat_dims _ _ _ (gram_of_mat k A HA Hk')) as [D1 D2]. destruct (is_mat_dims _ _ _ (gram_of_mat k _ HB Hk')) as [D3 D4].
      rewrite D1, D2, D3, D4. split; [rewrite (core_ndims X ranks A HA g Hg); exact Hk'|]. split; [rewrite (proj2 Hg); reflexivity|]. split; [reflexivity|]. split; [reflexivity|].
      split; [apply (pi_perm k A HA Hk')|]. intros i j Hi Hj. rewrite ro_at by (rewrite HL; exact Hk'). apply gram_of_cols; auto.
  Qed.
  Lemma modes_ro A g ks : tucker_factors X ranks A -> core_like ranks g -> NoDup ks -> (forall k, In k ks -> (k < N)%nat) ->
    mode_products (relabel pi g) (map (fun k => (mat_at (ro A) k, k)) ks) = relabel (on_modes ks idn pi) (mode_products g (map (fun k => (mat_at A k, k)) ks)).
  Proof.
    intros HA Hg Hd Hks. pose proof HA as (HL & HL2 & HM). apply mps_relabel.
    - exact Hd.
    - rewrite (proj2 Hg). exact Hpi.
    - intros k Hk. specialize (Hks k Hk). destruct (is_mat_dims _ _ _ (HM k Hks)) as [D1 D2]. rewrite ro_at by (rewrite HL; exact Hks).
      split; [rewrite (core_ndims X ranks A HA g Hg); exact Hks|]. split; [rewrite (proj2 Hg); exact D2|]. split; [reflexivity|]. split; [reflexivity|].
      split; [apply perm1_id|]. intros i j Hi Hj. apply mget_cols; assumption.
  Qed.
  Lemma cto_ro A g n : tucker_factors X ranks A -> core_like ranks g -> (n < N)%nat ->
    core_times_others (relabel pi g) (ro A) n = relabel (set_sg idn n (pi n)) (core_times_others g A n).
  Proof.
    intros HA Hg Hn. unfold core_times_others at 1. rewrite ro_length. pose proof (tf_len X ranks A HA) as HL. rewrite HL. fold N.
    rewrite modes_ro; auto.
    - unfold core_times_others. rewrite HL. apply relabel_ext. intros k i Hk Hi. unfold on_modes, set_sg. destruct (in_dec Nat.eq_dec k (others n N)) as [J|J].
      + apply in_others in J as [_ J]. destruct (Nat.eqb_spec k n); [contradiction|reflexivity].
      + destruct (Nat.eqb_spec k n) as [->|E]; [reflexivity|]. exfalso. apply J, in_others. split; [|exact E]. unfold ndims in Hk. rewrite shp_mode_products, rshape_length in Hk.
        pose proof (core_ndims X ranks A HA g Hg) as EG. unfold N, ndims in *. lia.
    - apply NoDup_filter, seq_NoDup.
    - intros k Hk. apply in_others in Hk. lia.
  Qed.
  Lemma tk_ro A g : tucker_factors X ranks A -> core_like ranks g -> tucker_tensor (relabel pi g) (ro A) = tucker_tensor g A.
  Proof.
    intros HA Hg. rewrite (tk_pl X ranks _ (ro_factors A HA) _ (core_ro g Hg)), (tk_pl X ranks A HA g Hg). fold N. unfold pl.
    rewrite modes_ro; auto; [|apply seq_NoDup|intros k Hk; apply in_seq in Hk; lia].
    transitivity (relabel idn (mode_products g (map (fun k => (mat_at A k, k)) (seq 0 N)))); [|apply relabel_id, wf_mode_products, Hg].
    apply relabel_ext. intros k i Hk Hi. unfold on_modes. destruct (in_dec Nat.eq_dec k (seq 0 N)) as [J|J]; [reflexivity|]. exfalso. apply J, in_seq. split; [lia|].
    unfold ndims in Hk. rewrite shp_mode_products, rshape_length in Hk. pose proof (core_ndims X ranks A HA g Hg) as EG. unfold N, ndims in *. lia.
  Qed.
  Lemma moved_one n q f idx : moved (set_sg idn n f) (replace n q idx) = replace n (f q) idx.
  Proof.
    rewrite (moved_replace (set_sg idn n f) (fun i => i)). unfold set_sg at 1. rewrite Nat.eqb_refl. f_equal.
    apply nth_ext with (d := 0%nat) (d' := 0%nat); [apply moved_length|]. intros k Hk. rewrite moved_length in Hk. rewrite nth_moved by exact Hk. unfold set_sg. destruct (Nat.eqb k n); reflexivity.
  Qed.
  Lemma get_one n q (Y : tensor R) idx f : (n < ndims Y)%nat -> valid (replace n 1%nat (shp Y)) idx -> (q < nth n (shp Y) 0)%nat ->
    get (relabel (set_sg idn n f) Y) (replace n q idx) = get Y (replace n (f q) idx).
  Proof. intros Hn Hv Hq. rewrite get_relabel by (rewrite <- (replace_nth n (shp Y)); apply valid_replace1; auto). rewrite moved_one. reflexivity. Qed.
  Lemma sgram_ro A g n a b : tucker_factors X ranks A -> core_like ranks g -> (n < N)%nat -> (a < nth n ranks 0)%nat -> (b < nth n ranks 0)%nat ->
    mget (slice_gram (core_times_others (relabel pi g) (ro A) n) n) a b = mget (slice_gram (core_times_others g A n) n) (pi n a) (pi n b).
  Proof.
    intros HA Hg Hn Ha Hb. rewrite cto_ro by assumption. destruct (cto_shape X ranks ltac:(lia) g A n HA Hg Hn) as [HSh _]. set (Y := core_times_others g A n) in *.
    assert (Hn' : (n < ndims Y)%nat) by (unfold ndims; rewrite HSh, replace_length; exact Hn).
    assert (Hd : nth n (shp Y) 0%nat = nth n ranks 0%nat) by (rewrite HSh; apply nth_replace_eq; exact Hn).
    pose proof (pi_perm n A HA Hn) as [P1 _]. unfold slice_gram. rewrite shp_relabel. rewrite !mget_mgen by (rewrite Hd; auto). rewrite <- !(isum_msum RLR). apply isum_ext. intros idx Hv.
    rewrite !get_one by (rewrite ?Hd; auto). reflexivity.
  Qed.
  Lemma sgram_mat A g n : tucker_factors X ranks A -> core_like ranks g -> (n < N)%nat -> is_mat (slice_gram (core_times_others g A n) n) (nth n ranks 0%nat) (nth n ranks 0%nat).
  Proof.
    intros HA Hg Hn. destruct (cto_shape X ranks ltac:(lia) g A n HA Hg Hn) as [HSh _]. unfold slice_gram. rewrite HSh. rewrite nth_replace_eq by exact Hn. apply is_mat_mgen.
  Qed.
  Lemma L_nt_ro A g n : tucker_factors X ranks A -> core_like ranks g -> (n < N)%nat -> nt_L svals (relabel pi g) (ro A) n = nt_L svals g A n.
  Proof.
    intros HA Hg Hn. apply (spectral_perm svals (nth n ranks 0%nat) (pi n)); [exact HS|apply (rk_pos n A HA Hn)|apply (pi_perm n A HA Hn)|apply sgram_mat; auto|apply sgram_mat; auto using ro_factors, core_ro|].
    intros a b Ha Hb. apply sgram_ro; auto.
  Qed.
  Lemma XB_ro A g n i q : tucker_factors X ranks A -> core_like ranks g -> (n < N)%nat -> (q < nth n ranks 0)%nat ->
    nt_XB X (relabel pi g) (ro A) n i q = nt_XB X g A n i (pi n q).
  Proof.
    intros HA Hg Hn Hq. unfold nt_XB. rewrite cto_ro by assumption. destruct (cto_shape X ranks ltac:(lia) g A n HA Hg Hn) as [HSh _]. set (Y := core_times_others g A n) in *.
    apply isum_ext. intros idx Hv. rewrite get_one; [reflexivity| | |].
    - unfold ndims. rewrite HSh, replace_length. exact Hn.
    - rewrite HSh. rewrite FixFacts.replace_twice. exact Hv.
    - rewrite HSh. rewrite nth_replace_eq by exact Hn. exact Hq.
  Qed.
  Lemma nt_new_ro A g Am L n : tucker_factors X ranks A -> core_like ranks g -> is_mat Am (nth n (shp X) 0%nat) (nth n ranks 0%nat) -> (n < N)%nat ->
    nt_new X ranks (relabel pi g) (ro A) (relabel_cols (pi n) Am) L n = relabel_cols (pi n) (nt_new X ranks g A Am L n).
  Proof.
    intros HA Hg HAm Hn. destruct (is_mat_dims _ _ _ HAm) as [D1 D2]. pose proof (pi_perm n A HA Hn) as Pn.
    apply mat_ext with (r := nth n (shp X) 0%nat) (c := nth n ranks 0%nat); [apply is_mat_mgen|apply cols_mat, is_mat_mgen|]. intros i q Hi Hq.
    rewrite mget_cols by assumption. unfold nt_new. rewrite !mget_mgen by (auto; apply Pn; exact Hq).
    rewrite XB_ro by assumption. rewrite !mget_cols by (rewrite ?D1, ?D2; auto).
    do 4 f_equal. rewrite <- (sum_perm _ (pi n) (fun l => mget Am i l * mget (slice_gram (core_times_others g A n) n) l (pi n q)) Pn). apply sumn_ext. intros l Hl.
    rewrite mget_cols by (rewrite ?D1, ?D2; auto). rewrite sgram_ro by auto. reflexivity.
  Qed.

  Lemma nt_core_ro s : nt_wf X ranks s -> nt_core svals X (reorder_nt pi s) = rmap (reorder_nt pi) (nt_core svals X s).
  Proof.
    intros (HA & HAm & HA0 & Hg & Hgm & Hg0 & HL & HL0).
    rewrite (nt_core_run svals X ranks HX ltac:(lia) s HA Hgm HL).
    rewrite (nt_core_run svals X ranks HX ltac:(lia) (reorder_nt pi s) (ro_factors _ HA) (core_ro _ Hgm) HL).
    cbn [rmap reorder_nt q_A q_Am q_A0 q_g q_gm q_g0 q_t q_t0 q_w q_L q_L0]. rewrite (coreL_ro _ HA).
    unfold reorder_nt. cbn [q_A q_Am q_A0 q_g q_gm q_g0 q_t q_t0 q_w q_L q_L0]. f_equal. f_equal. unfold nt_newcore at 1. unfold relabel at 3. cbn [nt_newcore shp gen]. apply gen_ext. intros idx Hv.
    fold N. rewrite (sqcore_ro _ _ HA Hgm), (project_ro _ HA). unfold nt_newcore. rewrite get_gen by (apply moved_valid; auto).
    pose proof (core_ro _ Hgm) as [_ Sg]. rewrite (get_relabel pi (q_gm s)) by (rewrite (proj2 Hgm); exact Hv).
    pose proof (mps_gram_shape X ranks (q_A s) (q_gm s) HA Hgm) as S1. pose proof (proj_shape' X ranks (q_A s) HA X eq_refl) as S2. fold N in S1, S2. fold N.
    rewrite (get_relabel pi (mode_products (q_gm s) (pl (map gram_of (q_A s)) (seq 0 N)))) by (rewrite S1; exact Hv).
    rewrite (get_relabel pi (project X (q_A s))) by (rewrite S2; exact Hv). reflexivity.
  Qed.
  Lemma nt_modes_ro mats : unfold_all X = Ok mats -> forall l s, nt_wf X ranks s -> (forall n, In n l -> (n < N)%nat) ->
    nt_modes svals mats l (reorder_nt pi s) = rmap (reorder_nt pi) (nt_modes svals mats l s).
  Proof.
    intros E. induction l as [|n l IH]; intros s HW Hl; cbn [nt_modes]; [reflexivity|]. pose proof HW as (HA & HAm & HA0 & Hg & Hgm & Hg0 & HL & HL0).
    assert (Hn : (n < N)%nat) by (apply Hl; left; auto).
    assert (HW' : nt_wf X ranks (reorder_nt pi s)).
    { split; [apply ro_factors, HA|]. split; [apply ro_factors, HAm|]. split; [apply ro_factors, HA0|]. split; [apply core_ro, Hg|]. split; [apply core_ro, Hgm|]. split; [apply core_ro, Hg0|]. auto. }
    rewrite (nt_mode_run svals X ranks ltac:(lia) Hne Hr mats E s n HW) by (unfold N in *; lia).
    rewrite (nt_mode_run svals X ranks ltac:(lia) Hne Hr mats E (reorder_nt pi s) n HW') by (unfold N in *; lia).
    cbn [bind reorder_nt q_A q_Am q_A0 q_g q_gm q_g0 q_t q_t0 q_w q_L q_L0]. rewrite (L_nt_ro _ _ n HA Hg Hn). rewrite (ro_at pi (q_Am s)) by (rewrite (proj1 HAm); exact Hn).
    rewrite (nt_new_ro (q_A s)) by (auto; apply HAm, Hn). rewrite <- (ro_replace pi).
    match goal with |- _ = rmap _ (nt_modes _ _ _ ?t) => specialize (IH t) end. apply IH; [|intros m Hm; apply Hl; right; auto].
    split; [apply replace_tucker; [exact HA|apply is_mat_mgen]|]. repeat (split; [assumption|]). cbn [q_L q_L0]. rewrite !replace_length. auto.
  Qed.
  Lemma nt_factors_ro s : nt_wf X ranks s -> nt_factors svals X (reorder_nt pi s) = rmap (fun x => (reorder_nt pi (fst x), reorder_obs pi pi (snd x))) (nt_factors svals X s).
  Proof.
    intros HW. unfold nt_factors, nt_fact. destruct (unfold_all_total X Hne) as (mats & E). rewrite E. cbn [bind].
    fold N. rewrite (nt_modes_ro mats E (seq 0 N) s HW) by (intros n Hn; apply in_seq in Hn; lia).
    destruct (nt_modes svals mats (seq 0 N) s) as [s1|e] eqn:E3; [|reflexivity]. cbn [rmap bind reorder_nt q_A q_g].
    destruct (nt_sweep svals X ranks Hr mats N Hne Hord E 0 s s1 eq_refl HW E3) as (W1 & _). pose proof W1 as (WA & _ & _ & Wg & _).
    assert (G : forall g B, core_like ranks g -> tucker_factors X ranks B -> tt_extract g B = Ok (tucker_tensor g B)).
    { intros g B HG HB. apply (tt_extract_ok RLR).
      - apply HG.
      - rewrite (core_ndims X ranks B HB _ HG). lia.
      - rewrite (core_ndims X ranks B HB _ HG). apply (tf_len X ranks _ HB).
      - intros k Hk. rewrite (tf_len X ranks _ HB) in Hk. destruct (core_fits X ranks B HB _ k HG Hk) as (_ & G2 & G3). auto. }
    rewrite (G _ _ Wg WA), (G _ _ (core_ro _ Wg) (ro_factors _ WA)). cbn [bind]. rewrite tk_ro by assumption.
    destruct (metrics_of X (tucker_tensor (q_g s1) (q_A s1))); reflexivity.
  Qed.
  Lemma extrapolate_core w (g g0 : tensor R) : core_like ranks g -> core_like ranks g0 -> extrapolate w (relabel pi g) (relabel pi g0) = rmap (relabel pi) (extrapolate w g g0).
  Proof.
    intros [Wg Sg] [W0 S0]. unfold extrapolate. rewrite !bin_same by (rewrite ?shp_relabel; congruence). cbn [bind]. rewrite !tf_map_gen, !bin_same by reflexivity. cbn [rmap]. f_equal.
    unfold relabel at 3 4. cbn [shp gen]. apply gen_ext. intros idx Hv. rewrite Sg in Hv.
    assert (Hv' : valid ranks (moved pi idx)) by (apply moved_valid; auto).
    rewrite !get_gen by (cbn [shp gen relabel]; rewrite ?Sg; assumption). rewrite !get_relabel by (rewrite ?Sg, ?S0; assumption). reflexivity.
  Qed.
  Lemma nt_accept_ro s : nt_wf X ranks s -> nt_accept (reorder_nt pi s) = rmap (reorder_nt pi) (nt_accept s).
  Proof.
    intros (HA & HAm & HA0 & Hg & Hgm & Hg0 & HL & HL0). unfold nt_accept. cbn [reorder_nt q_A q_A0 q_g q_g0 q_t q_t0 q_L q_L0]. rewrite ro_length.
    rewrite (ro_extrapolate (shp X) pi (fun k => nth k ranks 0%nat)).
    - destruct (map3M extrapolate _ (q_A s) (q_A0 s)); [|reflexivity]. cbn [rmap bind]. rewrite extrapolate_core by assumption. destruct (extrapolate _ (q_g s) (q_g0 s)); reflexivity.
    - intros k Hk. apply (pi_perm k _ HA Hk).
    - split; [apply HA|]. intros k Hk. apply HA, Hk.
    - split; [apply HA0|]. intros k Hk. apply HA0, Hk.
    - rewrite firstn_length, weights_length by congruence. rewrite (proj1 HA), HL. unfold ndims. lia.
  Qed.
  Lemma map_core (f : R -> R) (g : tensor R) : core_like ranks g -> tf_map f (relabel pi g) = relabel pi (tf_map f g).
  Proof.
    intros [Wg Sg]. unfold relabel at 1. rewrite tf_map_gen. unfold relabel. change (shp (tf_map f g)) with (shp g). apply gen_ext. intros idx Hv. rewrite Sg in Hv.
    rewrite <- (gen_get g Wg) at 2. rewrite tf_map_gen. rewrite get_gen by (rewrite Sg; apply moved_valid; auto). reflexivity.
  Qed.
  Lemma nt_init_ro rnd g : tucker_factors X ranks rnd -> core_like ranks g -> nt_init pow X (reorder pi rnd) (relabel pi g) = reorder_nt pi (nt_init pow X rnd g).
  Proof.
    intros HR Hg. unfold nt_init, reorder_nt. cbn [q_A q_Am q_A0 q_g q_gm q_g0 q_t q_t0 q_w q_L q_L0].
    rewrite (ro_init (shp X) pi (fun k => nth k ranks 0%nat)).
    - assert (Hg' : core_like ranks (tf_map nrelu g)). { destruct Hg as [W1 W2]. split; [unfold wf, tf_map; cbn [shp dat]; rewrite map_length; exact W1|exact W2]. }
      assert (E : norm_init pow X (ndims X + 1) (tf_map nrelu (relabel pi g)) = relabel pi (norm_init pow X (ndims X + 1) (tf_map nrelu g))).
      { unfold norm_init. rewrite (map_core nrelu g Hg). rewrite (norm_relabel (tf_map nrelu g) pi) by (try apply Hg'; rewrite (proj2 Hg'); exact Hpi). apply map_core, Hg'. }
      rewrite E. reflexivity.
    - intros k Hk. apply (pi_perm k _ HR Hk).
    - split; [apply HR|]. intros k Hk. apply HR, Hk.
  Qed.
  Lemma nt_train_reorder w o rnd g steps : tucker_factors X ranks rnd -> core_like ranks g ->
    nt_train pow svals X w (reorder_obj pi pi o) (reorder pi rnd, relabel pi g) steps =
    (reorder_obj pi pi (fst (nt_train pow svals X w o (rnd, g) steps)), snd (nt_train pow svals X w o (rnd, g) steps)).
  Proof.
    intros HR Hg. unfold nt_train. apply obj_train_reorder. intros a' id' q b Hb'.
    unfold nt_body. cbn [fst snd]. rewrite nt_init_ro by assumption.
    apply (bcu_body_reorder pi pi (reorder_nt pi) (nt_wf X ranks) (nt_wf X ranks)).
    - intros s Hs. unfold nt_pre. rewrite nt_core_ro by exact Hs. destruct (nt_core svals X s); reflexivity.
    - intros s s' cc Hs E. unfold nt_pre in E. apply bind_ok in E as (s1 & E & E2). injection E2 as <- _. apply (nt_core_wf svals X ranks HX s s1 ltac:(lia) Hs E).
    - apply nt_factors_ro.
    - intros s s' ob Hs E. unfold nt_factors in E. apply bind_ok in E as ([[s1 full] m] & E & E2). injection E2 as <- _. apply (nt_parts svals X ranks Hr s s1 full m Hord Hs E).
    - apply nt_accept_ro.
    - intros s s' Hs E. destruct (nt_accept_wf X ranks s Hs) as (s1 & E1 & W). congruence.
    - reflexivity.
    - intros s s' Hs E. injection E as <-. apply nt_reject_wf, Hs.
    - reflexivity.
    - apply nt_init_wf; [exact HR|exact Hg].
  Qed.
End Nt.

(** ** the size of the random starting matrices of NCP and NTucker does not matter *)
Lemma relu_scale c x : 0 < c -> nrelu (c * x) = c * nrelu (T := R) x.
Proof.
  intros Hc. rewrite !nrelu_R. rewrite <- RmaxRmult by lra. rewrite Rmult_0_r. reflexivity.
Qed.
Lemma relu_scale_t c (t : tensor R) : 0 < c -> tf_map nrelu (scale c t) = scale c (tf_map nrelu t).
Proof. intros Hc. unfold tf_map, scale. cbn [shp dat]. f_equal. rewrite !map_map. apply map_ext. intros x. apply relu_scale, Hc. Qed.
Lemma norm_scale_t c (t : tensor R) : 0 < c -> tf_norm (scale c t) = c * tf_norm t.
Proof. intros Hc. apply (ScaleFacts.sc_norm c t (scale c t)); [lra|apply ScaleFacts.tsc_scale]. Qed.
Lemma init_scale pow X n c (t : tensor R) : 0 < c -> norm_init pow X n (tf_map nrelu (scale c t)) = norm_init pow X n (tf_map nrelu t).
Proof.
  intros Hc. rewrite relu_scale_t by exact Hc. unfold norm_init. rewrite norm_scale_t by exact Hc. set (u := tf_map nrelu t). set (k := tf_norm u). unfold tf_map, scale. cbn [shp dat]. f_equal.
  rewrite map_map. apply map_ext. intros x. Rn. f_equal. unfold Rdiv. rewrite Rinv_mult. replace (c * x * (/ c * / k)) with (c * / c * (x * / k)) by ring. rewrite Rinv_r by lra. ring.
Qed.
Lemma inits_scale pow X n c (rnd : list (tensor R)) : (forall k, (k < length rnd)%nat -> 0 < c k) ->
  map (fun t => norm_init pow X n (tf_map nrelu t)) (scale_each c rnd) = map (fun t => norm_init pow X n (tf_map nrelu t)) rnd.
Proof.
  intros Hc. unfold scale_each. rewrite map_map. apply nth_ext with (d := norm_init pow X n (tf_map nrelu (mkT [] []))) (d' := norm_init pow X n (tf_map nrelu (mkT [] []))).
  - rewrite !map_length, seq_length. reflexivity.
  - rewrite map_length, seq_length. intros k Hk. rewrite (nth_map_lt _ _ k 0%nat) by (rewrite seq_length; exact Hk). rewrite seq_nth by exact Hk. rewrite init_scale by (apply Hc, Hk).
    rewrite (nth_map_lt _ _ k (mkT [] [])) by exact Hk. reflexivity.
Qed.
Lemma ncp_train_scaled pow svals (X : tensor R) c w o rnd steps : (forall k, (k < length rnd)%nat -> 0 < c k) ->
  ncp_train pow svals X w o (scale_each c rnd) steps = ncp_train pow svals X w o rnd steps.
Proof.
  intros Hc. unfold ncp_train. apply obj_train_same. intros [a r] id q b _. unfold ncp_body. unfold ncp_init. rewrite (inits_scale pow X _ c rnd Hc). reflexivity.
Qed.
Lemma nt_train_scaled pow svals (X : tensor R) c cg w o rnd g steps : (forall k, (k < length rnd)%nat -> 0 < c k) -> 0 < cg ->
  nt_train pow svals X w o (scale_each c rnd, scale cg g) steps = nt_train pow svals X w o (rnd, g) steps.
Proof.
  intros Hc Hg. unfold nt_train. apply obj_train_same. intros a id q b _. unfold nt_body. cbn [fst snd]. unfold nt_init. rewrite (inits_scale pow X _ c rnd Hc), (init_scale pow X _ cg g Hg). reflexivity.
Qed.
