(** Training NCP_BCU and NTUCKER_BCU on relabelled data (C101). *)

From Coq Require Import ZArith List Bool Arith Lia Permutation Reals Lra.
From Verif Require Import Num Py Tensor TF TensorFacts TFFacts Sums Ops OpsLemmas Types Loss Fact Train Spec SpecR LayoutFacts SpecFacts MulFacts TtmFacts SkipFacts TtmLemmas Matricize
  KronFacts RSums MatR KronAlg NormFacts SpecTucker MultiR SvdFacts TuckerFacts TuckerRun TuckerLemmas SpecCp SpecBcu BcuFacts SpecTrain TrainLemmas LossFacts CpFacts AlsFacts AlsLemmas
  SpecProx Prox NcpFacts NcpLemmas NtFacts NtLemmas SpecScale SpecSym SymFacts SymTrain.
Import ListNotations.
Local Open Scope R_scope.

(** ** matrices *)
Section Rows.
  Variables (sg : nat -> nat -> nat) (k d : nat).
  Hypothesis Hp : perm1 d (sg k).

  Lemma mget_map (f : R -> R) (A : tensor R) c i q : is_mat A d c -> (i < d)%nat -> (q < c)%nat -> mget (tf_map f A) i q = f (mget A i q).
  Proof. intros [HA Hs] Hi Hq. rewrite <- (gen_get A HA) at 1. rewrite tf_map_gen. unfold mget. rewrite get_gen; [reflexivity|]. rewrite Hs. repeat constructor; assumption. Qed.
  Lemma rows_map (f : R -> R) (A : tensor R) c : is_mat A d c -> tf_map f (relabel_rows sg k A) = relabel_rows sg k (tf_map f A).
  Proof.
    intros HA. pose proof (tf_map_shape f A d c HA) as HM. destruct (is_mat_dims _ _ _ HA) as [D1 D2]. destruct (is_mat_dims _ _ _ HM) as [M1 M2].
    apply mat_ext with (r := d) (c := c); [apply tf_map_shape, rows_mat, HA|apply rows_mat, HM|]. intros i q Hi Hq.
    rewrite (mget_map f _ c) by (auto using rows_mat). rewrite !mget_rows by (rewrite ?D1, ?D2, ?M1, ?M2; auto). rewrite (mget_map f A c); auto. apply Hp, Hi.
  Qed.
  Lemma rows_norm (A : tensor R) c : is_mat A d c -> tf_norm (relabel_rows sg k A) = tf_norm A.
  Proof.
    intros HA. pose proof (rows_mat sg k A d c HA) as HM. destruct (is_mat_dims _ _ _ HA) as [D1 D2].
    pose (t := fun j : nat => match j with O => sg k | _ => fun i : nat => i end).
    assert (E : relabel_rows sg k A = relabel t A).
    { apply mat_ext with (r := d) (c := c); [exact HM|split; [apply wf_relabel|apply HA]|]. intros i q Hi Hq. rewrite mget_rows by (rewrite ?D1, ?D2; auto).
      unfold mget. rewrite get_relabel; [reflexivity|]. rewrite (proj2 HA). repeat constructor; assumption. }
    rewrite E. apply norm_relabel; [apply HA|]. rewrite (proj2 HA). intros j Hj. destruct j as [|[|j]]; cbn in *; [exact Hp|apply perm1_id|lia].
  Qed.
  Lemma rows_extrapolate w (A B : tensor R) c : is_mat A d c -> is_mat B d c -> extrapolate w (relabel_rows sg k A) (relabel_rows sg k B) = rmap (relabel_rows sg k) (extrapolate w A B).
  Proof.
    intros HA HB. pose proof (rows_mat sg k A d c HA) as HA'. pose proof (rows_mat sg k B d c HB) as HB'.
    unfold extrapolate. rewrite !bin_same by (rewrite ?(proj2 HA), ?(proj2 HB), ?(proj2 HA'), ?(proj2 HB'); reflexivity). cbn [bind]. rewrite !tf_map_gen, !bin_same by reflexivity. cbn [rmap]. f_equal.
    destruct (is_mat_dims _ _ _ HA) as [D1 D2]. destruct (is_mat_dims _ _ _ HB) as [D3 D4].
    apply mat_ext with (r := d) (c := c); [split; [apply wf_gen|apply HA']|apply rows_mat; split; [apply wf_gen|apply HA]|]. intros i q Hi Hq.
    assert (V : forall i q, (i < d)%nat -> (q < c)%nat -> valid [d; c] [i; q]) by (intros; repeat constructor; assumption).
    rewrite mget_rows by (unfold nrows, ncols; cbn [shp gen]; rewrite (proj2 HA); assumption). unfold mget at 1 2. rewrite (proj2 HA), (proj2 HA'). rewrite !get_gen by (apply V; auto; apply Hp; auto).
    fold (mget (relabel_rows sg k A) i q). fold (mget (relabel_rows sg k B) i q). rewrite !mget_rows by (rewrite ?D1, ?D2, ?D3, ?D4; auto). reflexivity.
  Qed.
  Lemma rows_init pow (X Y : tensor R) n (A : tensor R) c : tf_norm Y = tf_norm X -> is_mat A d c ->
    norm_init pow Y n (tf_map nrelu (relabel_rows sg k A)) = relabel_rows sg k (norm_init pow X n (tf_map nrelu A)).
  Proof.
    intros E HA. unfold norm_init. rewrite E. rewrite (rows_map nrelu A c HA). rewrite (rows_norm _ c) by (apply tf_map_shape, HA).
    apply (rows_map _ _ c), tf_map_shape, HA.
  Qed.
End Rows.

(** ** lists of factors, with c k columns in mode k *)
Section Fac.
  Variables (s : list nat) (sg : nat -> nat -> nat) (c : nat -> nat).
  Hypothesis Hsg : relabelling s sg.
  Definition facs (A : list (tensor R)) : Prop := length A = length s /\ forall k, (k < length s)%nat -> is_mat (mat_at A k) (nth k s 0%nat) (c k).
  Lemma rf_eq A B : length B = length A -> (forall k, (k < length A)%nat -> mat_at B k = relabel_rows sg k (mat_at A k)) -> B = relabel_factors sg A.
  Proof.
    intros L H. apply nth_ext with (d := mkT [] []) (d' := mkT [] []); [rewrite rf_length; exact L|]. intros k Hk. rewrite L in Hk.
    change (mat_at B k = mat_at (relabel_factors sg A) k). rewrite rf_at by exact Hk. apply H, Hk.
  Qed.
  Lemma rf_extrapolate ws A A0 : facs A -> facs A0 -> length ws = length s ->
    map3M extrapolate ws (relabel_factors sg A) (relabel_factors sg A0) = rmap (relabel_factors sg) (map3M extrapolate ws A A0).
  Proof.
    intros [LA HA] [LB HB] Lw.
    assert (G : forall (U V : list (tensor R)), length U = length s -> length V = length s -> (forall k, (k < length s)%nat -> shp (mat_at U k) = shp (mat_at V k)) -> exists l, map3M extrapolate ws U V = Ok l).
    { intros U V LU LV HUV. apply (map3M_total extrapolate (fun _ _ _ _ => True)); [congruence|congruence|]. intros k da db dc Hk. rewrite Lw in Hk.
      rewrite (nth_indep U db (mkT [] [])), (nth_indep V dc (mkT [] [])) by lia.
      destruct (extrapolate_total (nth k ws da) (mat_at U k) (mat_at V k) (HUV k Hk)) as (mm0 & E & _). eauto. }
    destruct (G A A0 LA LB) as (l & El). { intros k Hk. rewrite (proj2 (HA k Hk)), (proj2 (HB k Hk)). reflexivity. }
    destruct (G (relabel_factors sg A) (relabel_factors sg A0)) as (l' & El'); [rewrite rf_length; exact LA|rewrite rf_length; exact LB| |].
    { intros k Hk. rewrite !rf_at by lia. rewrite (proj2 (rows_mat sg k _ _ _ (HA k Hk))), (proj2 (rows_mat sg k _ _ _ (HB k Hk))). reflexivity. }
    destruct (map3M_nth extrapolate _ _ _ _ 0 (mkT [] []) (mkT [] []) (mkT [] []) El ltac:(congruence) ltac:(congruence)) as [Ll Hl].
    destruct (map3M_nth extrapolate _ _ _ _ 0 (mkT [] []) (mkT [] []) (mkT [] []) El' ltac:(rewrite rf_length; congruence) ltac:(rewrite !rf_length; congruence)) as [Ll' Hl'].
    rewrite El, El'. cbn [rmap]. f_equal. apply rf_eq; [congruence|]. intros k Hk. rewrite Ll, Lw in Hk.
    specialize (Hl k ltac:(lia)). specialize (Hl' k ltac:(lia)). change (extrapolate (nth k ws 0) (mat_at A k) (mat_at A0 k) = Ok (mat_at l k)) in Hl.
    change (extrapolate (nth k ws 0) (mat_at (relabel_factors sg A) k) (mat_at (relabel_factors sg A0) k) = Ok (mat_at l' k)) in Hl'. rewrite !rf_at in Hl' by lia.
    rewrite (rows_extrapolate sg k (nth k s 0%nat) (Hsg k Hk) _ _ _ (c k)) in Hl' by auto. rewrite Hl in Hl'. cbn [rmap] in Hl'. congruence.
  Qed.
  Lemma rf_init pow (X Y : tensor R) n A : tf_norm Y = tf_norm X -> facs A ->
    map (fun t => norm_init pow Y n (tf_map nrelu t)) (relabel_factors sg A) = relabel_factors sg (map (fun t => norm_init pow X n (tf_map nrelu t)) A).
  Proof.
    intros E [LA HA]. apply rf_eq; [rewrite !map_length, rf_length; reflexivity|]. rewrite map_length. intros k Hk. unfold mat_at.
    rewrite !(nth_map_lt _ _ k (mkT [] [])) by (rewrite ?rf_length; exact Hk). fold (mat_at (relabel_factors sg A) k). rewrite rf_at by exact Hk. fold (mat_at A k).
    rewrite LA in Hk. apply (rows_init sg k (nth k s 0%nat) (Hsg k Hk) pow X Y n _ (c k)); auto.
  Qed.
End Fac.

(** ** NCP_BCU *)
Definition relabel_ncp (sg : nat -> nat -> nat) (s : ncp_state R) : ncp_state R :=
  mkNCP (relabel_factors sg (n_A s)) (relabel_factors sg (n_Am s)) (relabel_factors sg (n_A0 s)) (n_t s) (n_t0 s) (n_w s) (n_L s) (n_L0 s).

Section Ncp.
  Variables (pow : R -> R -> R) (svals : tensor R -> list R) (X : tensor R) (r : nat) (sg : nat -> nat -> nat).
  Hypothesis HX : wf X.
  Hypothesis Hne : nonempty (shp X).
  Hypothesis Hord : (2 <= ndims X <= 25)%nat.
  Hypothesis Hsg : relabelling (shp X) sg.
  Let N := ndims X.

  Lemma ncp_new_relabel A Am L n : cp_factors X r A -> is_mat Am (nth n (shp X) 0%nat) r -> (n < N)%nat ->
    ncp_new (relabel sg X) r (relabel_factors sg A) (relabel_rows sg n Am) L n = relabel_rows sg n (ncp_new X r A Am L n).
  Proof.
    intros HA HAm Hn. destruct (is_mat_dims _ _ _ HAm) as [D1 D2].
    apply mat_ext with (r := nth n (shp X) 0%nat) (c := r); [apply is_mat_mgen|apply rows_mat, is_mat_mgen|]. intros i q Hi Hq.
    rewrite mget_rows by assumption. unfold ncp_new. rewrite !mget_mgen by (auto; apply (Hsg n Hn); exact Hi).
    rewrite mttkrp_relabel, (gram_relabel X r sg Hsg A n HA) by assumption. rewrite !mget_rows by (rewrite ?D1, ?D2; auto).
    do 4 f_equal. apply sumn_ext. intros p Hpp. rewrite mget_rows by (rewrite ?D1, ?D2; auto). reflexivity.
  Qed.
  Lemma ncp_modes_relabel mats mats' : unfold_all X = Ok mats -> unfold_all (relabel sg X) = Ok mats' -> forall l s, ncp_wf X r s -> (forall n, In n l -> (n < N)%nat) ->
    ncp_modes svals mats' l (relabel_ncp sg s) = rmap (relabel_ncp sg) (ncp_modes svals mats l s).
  Proof.
    intros E E'. induction l as [|n l IH]; intros s (HA & HAm & HA0 & HL & HL0) Hl; cbn [ncp_modes]; [reflexivity|].
    assert (Hn : (n < N)%nat) by (apply Hl; left; auto).
    rewrite (ncp_mode_run svals X r mats Hne ltac:(lia) E s n HA HAm) by (auto; rewrite HL; exact Hn).
    rewrite (ncp_mode_run svals (relabel sg X) r mats' Hne ltac:(change (ndims (relabel sg X)) with N; unfold N; lia) E' (relabel_ncp sg s) n) by (cbn [relabel_ncp n_A n_Am n_L]; auto using rf_factors; rewrite HL; exact Hn).
    cbn [bind relabel_ncp n_A n_Am n_A0 n_t n_t0 n_w n_L n_L0]. unfold ncp_L. rewrite (gram_relabel X r sg Hsg _ n HA). rewrite rf_at by (rewrite (proj1 HAm); exact Hn).
    rewrite ncp_new_relabel by (auto; apply HAm, Hn). rewrite <- rf_replace.
    match goal with |- _ = rmap _ (ncp_modes _ _ _ ?t) => specialize (IH t) end. apply IH; [|intros m Hm; apply Hl; right; auto].
    split; [apply replace_factors; [exact HA|apply is_mat_mgen]|]. split; [exact HAm|]. split; [exact HA0|]. cbn [n_L n_L0]. rewrite !replace_length. auto.
  Qed.
  Lemma ncp_run_relabel s : ncp_wf X r s -> ncp_run svals (relabel sg X) (relabel_ncp sg s) = rmap (fun x => (relabel_ncp sg (fst x), relabel_obs sg (snd x))) (ncp_run svals X s).
  Proof.
    intros HW. unfold ncp_run, ncp_step. destruct (unfold_all_total X Hne) as (mats & E). destruct (unfold_all_total (relabel sg X) Hne) as (mats' & E'). rewrite E, E'. cbn [bind].
    change (ndims (relabel sg X)) with N. rewrite (ncp_modes_relabel mats mats' E E' (seq 0 N) s HW) by (intros n Hn; apply in_seq in Hn; lia).
    fold N. destruct (ncp_modes svals mats (seq 0 N) s) as [s1|e] eqn:E3; [|reflexivity]. cbn [rmap bind relabel_ncp n_A].
    destruct (ncp_sweep svals X r mats Hne ltac:(lia) E N 0 s s1 eq_refl HW E3) as (W1 & _).
    rewrite (ncp_ones_ok X r (n_A s1)) by (try apply W1; lia). rewrite (ncp_ones_ok (relabel sg X) r) by (try (apply rf_factors, W1); change (ndims (relabel sg X)) with (ndims X); lia). cbn [bind].
    destruct (kt_relabel X r sg Hord Hsg (n_A s1) (ones r) (proj1 W1) (is_mat_mgen _ _ _)) as [K1 K2]. rewrite K1, K2. cbn [rmap bind].
    rewrite metrics_relabel by (auto; try apply wf_gen; apply (cp_shape X r Hord (ones r) (n_A s1) (proj1 W1))). destruct (metrics_of X (cp_tensor r (ones r) (n_A s1))); reflexivity.
  Qed.
  Lemma ncp_accept_relabel s : ncp_wf X r s -> ncp_accept (relabel_ncp sg s) = rmap (relabel_ncp sg) (ncp_accept s).
  Proof.
    intros (HA & HAm & HA0 & HL & HL0). unfold ncp_accept. cbn [relabel_ncp n_A n_A0 n_t n_t0 n_L n_L0].
    rewrite (rf_extrapolate (shp X) sg (fun _ => r) Hsg); [|exact HA|exact HA0|rewrite weights_length; [exact HL|congruence]].
    destruct (map3M extrapolate _ (n_A s) (n_A0 s)); reflexivity.
  Qed.
  Lemma ncp_init_relabel rnd : cp_factors X r rnd -> ncp_init pow (relabel sg X) (relabel_factors sg rnd) = relabel_ncp sg (ncp_init pow X rnd).
  Proof.
    intros HR. unfold ncp_init, relabel_ncp. cbn [n_A n_Am n_A0 n_t n_t0 n_w n_L n_L0]. change (ndims (relabel sg X)) with (ndims X).
    rewrite (rf_init (shp X) sg (fun _ => r) Hsg pow X (relabel sg X) (ndims X) rnd (norm_relabel X sg HX Hsg) HR). reflexivity.
  Qed.
  Lemma ncp_train_relabel w o rnd steps : (exists a id, o_built o = Some ((a, r), id)) -> cp_factors X r rnd ->
    ncp_train pow svals (relabel sg X) w (relabel_obj sg o) (relabel_factors sg rnd) steps =
    (relabel_obj sg (fst (ncp_train pow svals X w o rnd steps)), snd (ncp_train pow svals X w o rnd steps)).
  Proof.
    intros (a & id & Hb) HR. unfold ncp_train. apply obj_train_relabel. intros a' id' p b Hb'. rewrite Hb in Hb'. injection Hb' as <- <-.
    unfold ncp_body. cbn [fst snd]. rewrite ncp_init_relabel by exact HR.
    apply (bcu_body_relabel sg (relabel_ncp sg) (ncp_wf X r) (ncp_wf X r)).
    - intros s Hs. reflexivity.
    - intros s s' cc Hs E. injection E as <- _. exact Hs.
    - apply ncp_run_relabel.
    - intros s s' q Hs E. apply (ncp_run_wf svals X r s s' q Hs E).
    - apply ncp_accept_relabel.
    - intros s s' Hs E. destruct (ncp_accept_wf X r s Hs) as (s1 & E1 & W). congruence.
    - reflexivity.
    - intros s s' Hs E. injection E as <-. apply ncp_reject_wf, Hs.
    - apply ncp_init_wf, HR.
  Qed.
End Ncp.

(** ** mode products *)
Lemma relabel_ext sg sg' (Y : tensor R) : (forall k i, (k < ndims Y)%nat -> (i < nth k (shp Y) 0)%nat -> sg k i = sg' k i) -> relabel sg Y = relabel sg' Y.
Proof.
  intros H. unfold relabel. apply gen_ext. intros idx Hv. f_equal. apply moved_ext. intros k Hk. pose proof (valid_length _ _ Hv) as L. apply H; [unfold ndims; lia|].
  apply (valid_nth _ _ k Hv). lia.
Qed.
Lemma relabel_id (Y : tensor R) : wf Y -> relabel (fun _ i => i) Y = Y.
Proof.
  intros HY. unfold relabel. rewrite <- (gen_get Y HY) at 2. apply gen_ext. intros idx Hv. f_equal.
  apply nth_ext with (d := 0%nat) (d' := 0%nat); [apply moved_length|]. intros k Hk. rewrite moved_length in Hk. apply nth_moved, Hk.
Qed.
Lemma mp_relabel sg tau (Y M M' : tensor R) n : relabelling (shp Y) sg -> (n < ndims Y)%nat -> ncols M = nth n (shp Y) 0%nat -> ncols M' = ncols M -> nrows M' = nrows M -> perm1 (nrows M) tau ->
  (forall i k, (i < nrows M)%nat -> (k < ncols M)%nat -> mget M' i k = mget M (tau i) (sg n k)) ->
  mode_product (relabel sg Y) M' n = relabel (set_sg sg n tau) (mode_product Y M n).
Proof.
  intros H Hn Hc Hc' Hr' Ht HM. unfold mode_product at 1. unfold relabel at 3. change (shp (mode_product Y M n)) with (replace n (nrows M) (shp Y)). rewrite Hr'. cbn [shp relabel gen].
  apply gen_ext. intros idx Hv. pose proof (valid_length _ _ Hv) as L. rewrite replace_length in L. unfold ndims in Hn.
  rewrite get_mp by (apply moved_valid; [apply relabelling_set; assumption|exact Hv]). rewrite (sumn_bigsum RLR), Hc'.
  assert (Pn : perm1 (ncols M) (sg n)) by (rewrite Hc; apply H, Hn).
  rewrite <- (bigsum_perm (ncols M) (sg n) (fun k => get Y (replace n k (moved (set_sg sg n tau) idx)) * mget M (nth n (moved (set_sg sg n tau) idx) 0%nat) k) Pn).
  apply bigsum_ext. intros k Hk. rewrite get_relabel.
  - rewrite (moved_replace sg tau). rewrite nth_moved by (rewrite L; exact Hn). replace (set_sg sg n tau n) with tau by (unfold set_sg; rewrite Nat.eqb_refl; reflexivity). Rn. f_equal. apply HM; auto.
    pose proof (valid_nth _ _ n Hv) as V. rewrite replace_length in V. specialize (V Hn). rewrite nth_replace_eq in V by exact Hn. exact V.
  - apply (valid_replace (shp Y) idx n k (nrows M)); [exact Hn|exact Hv|rewrite <- Hc; exact Hk].
Qed.

(** the mode-k matrices F k replaced by F' k, for every k in ks *)
Definition on_modes (ks : list nat) (tau sg : nat -> nat -> nat) : nat -> nat -> nat := fun k => if in_dec Nat.eq_dec k ks then tau k else sg k.
Lemma mps_relabel tau (F F' : nat -> tensor R) ks : forall sg (Y : tensor R), NoDup ks -> relabelling (shp Y) sg ->
  (forall k, In k ks -> (k < ndims Y)%nat /\ ncols (F k) = nth k (shp Y) 0%nat /\ ncols (F' k) = ncols (F k) /\ nrows (F' k) = nrows (F k) /\ perm1 (nrows (F k)) (tau k) /\
     forall i j, (i < nrows (F k))%nat -> (j < ncols (F k))%nat -> mget (F' k) i j = mget (F k) (tau k i) (sg k j)) ->
  mode_products (relabel sg Y) (map (fun k => (F' k, k)) ks) = relabel (on_modes ks tau sg) (mode_products Y (map (fun k => (F k, k)) ks)).
Proof.
  induction ks as [|n ks IH]; intros sg Y Hd Hs H.
  - cbn [map]. unfold mode_products. cbn [fold_left]. apply relabel_ext. reflexivity.
  - inversion Hd as [|? ? Hn Hd']; subst. destruct (H n (or_introl eq_refl)) as (H1 & H2 & H3 & H4 & H5 & H6).
    change (mode_products (relabel sg Y) (map (fun k => (F' k, k)) (n :: ks))) with (mode_products (mode_product (relabel sg Y) (F' n) n) (map (fun k => (F' k, k)) ks)).
    change (mode_products Y (map (fun k => (F k, k)) (n :: ks))) with (mode_products (mode_product Y (F n) n) (map (fun k => (F k, k)) ks)).
    rewrite (mp_relabel sg (tau n) Y (F n) (F' n) n) by assumption. rewrite IH; [|exact Hd'|apply (relabelling_set (shp Y) sg n (nrows (F n)) (tau n) Hs H5)|].
    + apply relabel_ext. intros k i _ _. unfold on_modes, set_sg. destruct (in_dec Nat.eq_dec k ks) as [I|I]; destruct (in_dec Nat.eq_dec k (n :: ks)) as [J|J]; try reflexivity.
      * exfalso. apply J. right. exact I.
      * destruct J as [->|J]; [rewrite Nat.eqb_refl; reflexivity|contradiction].
      * destruct (Nat.eqb_spec k n) as [->|]; [exfalso; apply J; left; reflexivity|reflexivity].
    + intros k Hk. destruct (H k (or_intror Hk)) as (K1 & K2 & K3 & K4 & K5 & K6). assert (E : k <> n) by (intros ->; contradiction).
      change (shp (mode_product Y (F n) n)) with (replace n (nrows (F n)) (shp Y)). rewrite nth_replace_ne by exact E.
      split; [unfold ndims; cbn [mode_product shp gen]; rewrite replace_length; exact K1|]. repeat (split; [assumption|]). intros i j Hi Hj. unfold set_sg. destruct (Nat.eqb_spec k n); [contradiction|]. apply K6; assumption.
Qed.

(** ** NTUCKER_BCU *)
Definition relabel_nt (sg : nat -> nat -> nat) (s : nt_state R) : nt_state R :=
  mkNT (relabel_factors sg (q_A s)) (relabel_factors sg (q_Am s)) (relabel_factors sg (q_A0 s)) (q_g s) (q_gm s) (q_g0 s) (q_t s) (q_t0 s) (q_w s) (q_L s) (q_L0 s).

Section Nt.
  Variables (pow : R -> R -> R) (svals : tensor R -> list R) (X : tensor R) (ranks : list nat) (sg : nat -> nat -> nat).
  Hypothesis HX : wf X.
  Hypothesis Hne : nonempty (shp X).
  Hypothesis Hr : nonempty ranks.
  Hypothesis Hord : (2 <= ndims X <= 13)%nat.
  Hypothesis Hsg : relabelling (shp X) sg.
  Let N := ndims X.

  Lemma rt_factors A : tucker_factors X ranks A -> tucker_factors (relabel sg X) ranks (relabel_factors sg A).
  Proof.
    intros (HL & HL2 & HA). split; [rewrite rf_length; exact HL|]. split; [exact HL2|]. intros k Hk. change (ndims (relabel sg X)) with (ndims X) in Hk. rewrite rf_at by (rewrite HL; exact Hk). apply rows_mat, HA, Hk.
  Qed.
  Lemma gram_of_rows k c (A : tensor R) : (k < N)%nat -> is_mat A (nth k (shp X) 0%nat) c -> gram_of (relabel_rows sg k A) = gram_of A.
  Proof.
    intros Hk HA. destruct (is_mat_dims _ _ _ HA) as [D1 D2]. unfold gram_of. rewrite nrows_rows, ncols_rows, D1, D2. unfold mgen. apply gen_ext. intros idx Hv.
    apply valid2_inv in Hv as (p & q & -> & Hp & Hq). cbn [nth].
    rewrite <- (bigsum_perm _ (sg k) (fun i => mget A i p * mget A i q)) by (apply Hsg, Hk). apply bigsum_ext. intros i Hi. rewrite !mget_rows by (rewrite ?D1, ?D2; auto). reflexivity.
  Qed.
  Lemma grams_relabel A : tucker_factors X ranks A -> map gram_of (relabel_factors sg A) = map gram_of A.
  Proof.
    intros (HL & _ & HA). apply nth_ext with (d := mkT [] []) (d' := mkT [] []); rewrite !map_length, ?rf_length; [reflexivity|]. intros k Hk.
    rewrite !(nth_map_lt gram_of _ k (mkT [] [])) by (rewrite ?rf_length; exact Hk). fold (mat_at (relabel_factors sg A) k). rewrite rf_at by exact Hk. fold (mat_at A k).
    rewrite HL in Hk. apply (gram_of_rows k (nth k ranks 0%nat)); auto.
  Qed.
  Lemma project_relabel A : tucker_factors X ranks A -> project (relabel sg X) (relabel_factors sg A) = project X A.
  Proof.
    intros HA. pose proof HA as (HL & HL2 & HM). rewrite !project_plt, rf_length. unfold plt.
    rewrite (mps_relabel (fun _ i => i) (fun k => mtrans (mat_at A k)) (fun k => mtrans (mat_at (relabel_factors sg A) k))).
    - transitivity (relabel (fun _ i => i) (mode_products X (map (fun k => (mtrans (mat_at A k), k)) (seq 0 (length A))))); [|apply relabel_id, wf_mode_products, HX]. apply relabel_ext. intros k i Hk Hi.
      unfold on_modes. destruct (in_dec Nat.eq_dec k (seq 0 (length A))) as [J|J]; [reflexivity|]. exfalso. apply J, in_seq. rewrite HL. split; [lia|]. unfold ndims in Hk.
      rewrite shp_mode_products, rshape_length in Hk. exact Hk.
    - apply seq_NoDup.
    - exact Hsg.
    - intros k Hk. apply in_seq in Hk. rewrite HL in Hk. destruct (is_mat_dims _ _ _ (HM k ltac:(lia))) as [D1 D2]. rewrite rf_at by lia.
      split; [lia|]. change (ncols (mtrans (mat_at A k))) with (nrows (mat_at A k)). change (nrows (mtrans (mat_at A k))) with (ncols (mat_at A k)).
      split; [exact D1|]. split; [reflexivity|]. split; [reflexivity|]. split; [apply perm1_id|]. intros i j Hi Hj.
      assert (Hj' : (sg k j < nrows (mat_at A k))%nat) by (rewrite D1 in *; apply (Hsg k); [unfold ndims in *; lia|exact Hj]). rewrite (mget_mtrans (relabel_rows sg k (mat_at A k))), (mget_mtrans (mat_at A k)) by assumption. apply mget_rows; assumption.
  Qed.
  Lemma modes_relabel A g ks : tucker_factors X ranks A -> core_like ranks g -> NoDup ks -> (forall k, In k ks -> (k < N)%nat) ->
    mode_products g (map (fun k => (mat_at (relabel_factors sg A) k, k)) ks) = relabel (on_modes ks sg (fun _ i => i)) (mode_products g (map (fun k => (mat_at A k, k)) ks)).
  Proof.
    intros HA Hg Hd Hks. pose proof HA as (HL & HL2 & HM). rewrite <- (relabel_id g) at 1 by (apply Hg). apply mps_relabel.
    - exact Hd.
    - intros k _. apply perm1_id.
    - intros k Hk. specialize (Hks k Hk). destruct (is_mat_dims _ _ _ (HM k Hks)) as [D1 D2]. rewrite rf_at by (rewrite HL; exact Hks).
      split; [rewrite (core_ndims X ranks A HA g Hg); exact Hks|]. split; [rewrite (proj2 Hg); exact D2|]. split; [reflexivity|]. split; [reflexivity|].
      split; [rewrite D1; apply Hsg, Hks|]. intros i j Hi Hj. apply mget_rows; assumption.
  Qed.
  Lemma cto_relabel A g n : tucker_factors X ranks A -> core_like ranks g -> (n < N)%nat ->
    core_times_others g (relabel_factors sg A) n = relabel (set_sg sg n (fun i => i)) (core_times_others g A n).
  Proof.
    intros HA Hg Hn. unfold core_times_others at 1. rewrite rf_length. pose proof (tf_len X ranks A HA) as HL. rewrite HL. fold N.
    rewrite modes_relabel; auto.
    - unfold core_times_others. rewrite HL. apply relabel_ext. intros k i Hk Hi. unfold on_modes, set_sg. destruct (in_dec Nat.eq_dec k (others n N)) as [J|J].
      + apply in_others in J as [_ J]. destruct (Nat.eqb_spec k n); [contradiction|reflexivity].
      + destruct (Nat.eqb_spec k n) as [|E]; [reflexivity|]. exfalso. apply J, in_others. split; [|exact E]. unfold ndims in Hk. rewrite shp_mode_products, rshape_length in Hk.
        pose proof (core_ndims X ranks A HA g Hg) as EG. unfold N, ndims in *. lia.
    - apply NoDup_filter, seq_NoDup.
    - intros k Hk. apply in_others in Hk. lia.
  Qed.
  Lemma tk_relabel A g : tucker_factors X ranks A -> core_like ranks g -> tucker_tensor g (relabel_factors sg A) = relabel sg (tucker_tensor g A).
  Proof.
    intros HA Hg. rewrite (tk_pl (relabel sg X) ranks _ (rt_factors A HA) g Hg), (tk_pl X ranks A HA g Hg). change (ndims (relabel sg X)) with N. fold N. unfold pl.
    rewrite modes_relabel; auto; [|apply seq_NoDup|intros k Hk; apply in_seq in Hk; lia].
    apply relabel_ext. intros k i Hk Hi. unfold on_modes. destruct (in_dec Nat.eq_dec k (seq 0 N)) as [J|J]; [reflexivity|]. exfalso. apply J, in_seq. split; [lia|].
    unfold ndims in Hk. rewrite shp_mode_products, rshape_length in Hk. pose proof (core_ndims X ranks A HA g Hg) as EG. unfold N, ndims in *. lia.
  Qed.
  Lemma slice_relabel (Y : tensor R) n : (n < ndims Y)%nat -> (forall k, (k < ndims Y)%nat -> k <> n -> perm1 (nth k (shp Y) 0%nat) (sg k)) ->
    slice_gram (relabel (set_sg sg n (fun i => i)) Y) n = slice_gram Y n.
  Proof.
    intros Hn H. unfold slice_gram. cbn [relabel shp gen]. unfold mgen. apply gen_ext. intros idx Hv. apply valid2_inv in Hv as (p & q & -> & Hp & Hq). cbn [nth]. rewrite <- !(isum_msum RLR).
    assert (Hs : relabelling (replace n 1%nat (shp Y)) (set_sg sg n (fun i => i))).
    { intros k Hk. rewrite replace_length in Hk. unfold set_sg. destruct (Nat.eqb_spec k n); [apply perm1_id|]. rewrite nth_replace_ne by assumption. apply H; assumption. }
    rewrite <- (isum_moved RLR _ _ (fun idx => get Y (replace n p idx) * get Y (replace n q idx)) Hs). apply isum_ext. intros idx Hv.
    assert (G : forall x, (x < nth n (shp Y) 0)%nat -> get (relabel (set_sg sg n (fun i => i)) Y) (replace n x idx) = get Y (replace n x (moved (set_sg sg n (fun i => i)) idx))).
    { intros x Hx. rewrite get_relabel by (rewrite <- (replace_nth n (shp Y)); apply valid_replace1; auto). rewrite (moved_replace (set_sg sg n (fun i => i)) (fun i => i)).
      f_equal. f_equal; [unfold set_sg; rewrite Nat.eqb_refl; reflexivity|]. apply moved_ext. intros k _. unfold set_sg. destruct (Nat.eqb k n); reflexivity. }
    unfold relabel in G. rewrite !G by assumption. reflexivity.
  Qed.
  Lemma sgram_relabel A g n : tucker_factors X ranks A -> core_like ranks g -> (n < N)%nat ->
    slice_gram (core_times_others g (relabel_factors sg A) n) n = slice_gram (core_times_others g A n) n.
  Proof.
    intros HA Hg Hn. rewrite cto_relabel by assumption. destruct (cto_shape X ranks ltac:(lia) g A n HA Hg Hn) as [HS _].
    apply slice_relabel; unfold ndims; rewrite HS, replace_length; [exact Hn|]. intros k Hk E. rewrite nth_replace_ne by exact E. apply Hsg, Hk.
  Qed.
  Lemma XB_relabel A g n i q : tucker_factors X ranks A -> core_like ranks g -> (n < N)%nat -> (i < nth n (shp X) 0)%nat -> (q < nth n ranks 0)%nat ->
    nt_XB (relabel sg X) g (relabel_factors sg A) n i q = nt_XB X g A n (sg n i) q.
  Proof.
    intros HA Hg Hn Hi Hq. unfold nt_XB. rewrite cto_relabel by assumption. destruct (cto_shape X ranks ltac:(lia) g A n HA Hg Hn) as [HS _]. set (Y := core_times_others g A n) in *.
    assert (Hs : relabelling (replace n 1%nat (shp X)) (set_sg sg n (fun i => i))) by (apply relabelling_set; [exact Hsg|apply perm1_id]). cbn [relabel shp gen].
    rewrite <- (isum_moved RLR _ _ (fun idx => get X (replace n (sg n i) idx) * get Y (replace n q idx)) Hs). apply isum_ext. intros idx Hv. f_equal.
    - change (get (relabel sg X) (replace n i idx) = get X (replace n (sg n i) (moved (set_sg sg n (fun i => i)) idx))).
      rewrite get_relabel by (rewrite <- (replace_nth n (shp X)); apply valid_replace1; auto). rewrite (moved_replace sg (fun i => i)). reflexivity.
    - change (get (relabel (set_sg sg n (fun i => i)) Y) (replace n q idx) = get Y (replace n q (moved (set_sg sg n (fun i => i)) idx))).
      rewrite get_relabel by (rewrite HS; apply valid_replace1; auto). rewrite (moved_replace (set_sg sg n (fun i => i)) (fun i => i)).
      f_equal. f_equal; [unfold set_sg; rewrite Nat.eqb_refl; reflexivity|]. apply moved_ext. intros k _. unfold set_sg. destruct (Nat.eqb k n); reflexivity.
  Qed.
  Lemma nt_new_relabel A g Am L n : tucker_factors X ranks A -> core_like ranks g -> is_mat Am (nth n (shp X) 0%nat) (nth n ranks 0%nat) -> (n < N)%nat ->
    nt_new (relabel sg X) ranks g (relabel_factors sg A) (relabel_rows sg n Am) L n = relabel_rows sg n (nt_new X ranks g A Am L n).
  Proof.
    intros HA Hg HAm Hn. destruct (is_mat_dims _ _ _ HAm) as [D1 D2].
    apply mat_ext with (r := nth n (shp X) 0%nat) (c := nth n ranks 0%nat); [apply is_mat_mgen|apply rows_mat, is_mat_mgen|]. intros i q Hi Hq.
    rewrite mget_rows by assumption. unfold nt_new. cbn [relabel shp gen]. rewrite !mget_mgen by (auto; apply (Hsg n Hn); exact Hi).
    change (gen (shp X) (fun idx => get X (moved sg idx))) with (relabel sg X).
    rewrite sgram_relabel, XB_relabel by assumption. rewrite !mget_rows by (rewrite ?D1, ?D2; auto).
    do 4 f_equal. apply sumn_ext. intros p Hpp. rewrite mget_rows by (rewrite ?D1, ?D2; auto). reflexivity.
  Qed.

  Lemma nt_core_relabel s : nt_wf X ranks s -> nt_core svals (relabel sg X) (relabel_nt sg s) = rmap (relabel_nt sg) (nt_core svals X s).
  Proof.
    intros (HA & HAm & HA0 & Hg & Hgm & Hg0 & HL & HL0).
    rewrite (nt_core_run svals X ranks HX ltac:(lia) s HA Hgm HL).
    rewrite (nt_core_run svals (relabel sg X) ranks (wf_relabel sg X) ltac:(change (ndims (relabel sg X)) with (ndims X); lia) (relabel_nt sg s)); [|apply rt_factors, HA|exact Hgm|exact HL].
    cbn [rmap relabel_nt q_A q_Am q_A0 q_g q_gm q_g0 q_t q_t0 q_w q_L q_L0].
    assert (EL : nt_coreL svals (relabel sg X) (relabel_factors sg (q_A s)) = nt_coreL svals X (q_A s)).
    { unfold nt_coreL. change (ndims (relabel sg X)) with (ndims X). apply bigprod_ext. intros k Hk. rewrite rf_at by (rewrite (proj1 HA); exact Hk).
      rewrite (gram_of_rows k (nth k ranks 0%nat)); [reflexivity|exact Hk|apply HA, Hk]. }
    rewrite EL. unfold relabel_nt. cbn [q_A q_Am q_A0 q_g q_gm q_g0 q_t q_t0 q_w q_L q_L0]. f_equal. f_equal. unfold nt_newcore. change (ndims (relabel sg X)) with (ndims X).
    rewrite grams_relabel, project_relabel by assumption. reflexivity.
  Qed.
  Lemma nt_modes_relabel mats mats' : unfold_all X = Ok mats -> unfold_all (relabel sg X) = Ok mats' -> forall l s, nt_wf X ranks s -> (forall n, In n l -> (n < N)%nat) ->
    nt_modes svals mats' l (relabel_nt sg s) = rmap (relabel_nt sg) (nt_modes svals mats l s).
  Proof.
    intros E E'. induction l as [|n l IH]; intros s HW Hl; cbn [nt_modes]; [reflexivity|]. pose proof HW as (HA & HAm & HA0 & Hg & Hgm & Hg0 & HL & HL0).
    assert (Hn : (n < N)%nat) by (apply Hl; left; auto).
    assert (HW' : nt_wf (relabel sg X) ranks (relabel_nt sg s)).
    { split; [apply rt_factors, HA|]. split; [apply rt_factors, HAm|]. split; [apply rt_factors, HA0|]. auto 10. }
    rewrite (nt_mode_run svals X ranks ltac:(lia) Hne Hr mats E s n HW) by (unfold N in *; lia).
    rewrite (nt_mode_run svals (relabel sg X) ranks ltac:(change (ndims (relabel sg X)) with (ndims X); lia) Hne Hr mats' E' (relabel_nt sg s) n HW') by (change (ndims (relabel sg X)) with (ndims X); unfold N in *; lia).
    cbn [bind relabel_nt q_A q_Am q_A0 q_g q_gm q_g0 q_t q_t0 q_w q_L q_L0]. unfold nt_L. rewrite sgram_relabel by assumption. rewrite rf_at by (rewrite (proj1 HAm); exact Hn).
    rewrite nt_new_relabel by (auto; apply HAm, Hn). rewrite <- rf_replace.
    match goal with |- _ = rmap _ (nt_modes _ _ _ ?t) => specialize (IH t) end. apply IH; [|intros m Hm; apply Hl; right; auto].
    split; [apply replace_tucker; [exact HA|apply is_mat_mgen]|]. repeat (split; [assumption|]). cbn [q_L q_L0]. rewrite !replace_length. auto.
  Qed.
  Lemma nt_factors_relabel s : nt_wf X ranks s -> nt_factors svals (relabel sg X) (relabel_nt sg s) = rmap (fun x => (relabel_nt sg (fst x), relabel_obs sg (snd x))) (nt_factors svals X s).
  Proof.
    intros HW. unfold nt_factors, nt_fact. destruct (unfold_all_total X Hne) as (mats & E). destruct (unfold_all_total (relabel sg X) Hne) as (mats' & E'). rewrite E, E'. cbn [bind].
    change (ndims (relabel sg X)) with N. rewrite (nt_modes_relabel mats mats' E E' (seq 0 N) s HW) by (intros n Hn; apply in_seq in Hn; lia).
    fold N. destruct (nt_modes svals mats (seq 0 N) s) as [s1|e] eqn:E3; [|reflexivity]. cbn [rmap bind relabel_nt q_A q_g].
    destruct (nt_sweep svals X ranks Hr mats N Hne Hord E 0 s s1 eq_refl HW E3) as (W1 & _). pose proof W1 as (WA & _ & _ & Wg & _).
    assert (G : forall (Y : tensor R) B, ndims Y = ndims X -> tucker_factors Y ranks B -> tt_extract (q_g s1) B = Ok (tucker_tensor (q_g s1) B)).
    { intros Y B EY HB. apply (tt_extract_ok RLR).
      - apply Wg.
      - rewrite (core_ndims Y ranks B HB _ Wg), EY. lia.
      - rewrite (core_ndims Y ranks B HB _ Wg). apply (tf_len Y ranks _ HB).
      - intros k Hk. rewrite (tf_len Y ranks _ HB) in Hk. destruct (core_fits Y ranks B HB _ k Wg Hk) as (_ & G2 & G3). auto. }
    rewrite (G X (q_A s1) eq_refl WA), (G (relabel sg X) _ eq_refl (rt_factors _ WA)). cbn [bind]. rewrite tk_relabel by assumption.
    rewrite metrics_relabel by (auto; try apply wf_gen; apply (tk_shape X ranks (q_A s1) WA (q_g s1))). destruct (metrics_of X (tucker_tensor (q_g s1) (q_A s1))); reflexivity.
  Qed.
  Lemma nt_accept_relabel s : nt_wf X ranks s -> nt_accept (relabel_nt sg s) = rmap (relabel_nt sg) (nt_accept s).
  Proof.
    intros (HA & HAm & HA0 & Hg & Hgm & Hg0 & HL & HL0). unfold nt_accept. cbn [relabel_nt q_A q_A0 q_g q_g0 q_t q_t0 q_L q_L0]. rewrite rf_length.
    rewrite (rf_extrapolate (shp X) sg (fun k => nth k ranks 0%nat) Hsg).
    - destruct (map3M extrapolate _ (q_A s) (q_A0 s)); [|reflexivity]. cbn [rmap bind]. destruct (extrapolate _ (q_g s) (q_g0 s)); reflexivity.
    - split; [apply HA|]. intros k Hk. apply HA, Hk.
    - split; [apply HA0|]. intros k Hk. apply HA0, Hk.
    - rewrite firstn_length, weights_length by congruence. rewrite (proj1 HA), HL. unfold ndims. lia.
  Qed.
  Lemma nt_init_relabel rnd g : tucker_factors X ranks rnd -> nt_init pow (relabel sg X) (relabel_factors sg rnd) g = relabel_nt sg (nt_init pow X rnd g).
  Proof.
    intros HR. unfold nt_init, relabel_nt. cbn [q_A q_Am q_A0 q_g q_gm q_g0 q_t q_t0 q_w q_L q_L0]. change (ndims (relabel sg X)) with (ndims X).
    rewrite (rf_init (shp X) sg (fun k => nth k ranks 0%nat) Hsg pow X (relabel sg X) (ndims X + 1) rnd (norm_relabel X sg HX Hsg)).
    - assert (E : norm_init pow (relabel sg X) (ndims X + 1) (tf_map nrelu g) = norm_init pow X (ndims X + 1) (tf_map nrelu g)) by (unfold norm_init; rewrite (norm_relabel X sg HX Hsg); reflexivity).
      rewrite E. reflexivity.
    - split; [apply HR|]. intros k Hk. apply HR, Hk.
  Qed.
  Lemma nt_train_relabel w o rnd g steps : tucker_factors X ranks rnd -> core_like ranks g ->
    nt_train pow svals (relabel sg X) w (relabel_obj sg o) (relabel_factors sg rnd, g) steps =
    (relabel_obj sg (fst (nt_train pow svals X w o (rnd, g) steps)), snd (nt_train pow svals X w o (rnd, g) steps)).
  Proof.
    intros HR Hg. unfold nt_train. apply obj_train_relabel. intros a' id' p b Hb'.
    unfold nt_body. cbn [fst snd]. rewrite nt_init_relabel by exact HR.
    apply (bcu_body_relabel sg (relabel_nt sg) (nt_wf X ranks) (nt_wf X ranks)).
    - intros s Hs. unfold nt_pre. rewrite nt_core_relabel by exact Hs. destruct (nt_core svals X s); reflexivity.
    - intros s s' cc Hs E. unfold nt_pre in E. apply bind_ok in E as (s1 & E & E2). injection E2 as <- _. apply (nt_core_wf svals X ranks HX s s1 ltac:(lia) Hs E).
    - apply nt_factors_relabel.
    - intros s s' q Hs E. unfold nt_factors in E. apply bind_ok in E as ([[s1 full] m] & E & E2). injection E2 as <- _. apply (nt_parts svals X ranks Hr s s1 full m Hord Hs E).
    - apply nt_accept_relabel.
    - intros s s' Hs E. destruct (nt_accept_wf X ranks s Hs) as (s1 & E1 & W). congruence.
    - reflexivity.
    - intros s s' Hs E. injection E as <-. apply nt_reject_wf, Hs.
    - apply nt_init_wf; [exact HR|exact Hg].
  Qed.
End Nt.
