(** Property lemmas for NCP_BCU: C50 and completion of training. *)

From Coq Require Import ZArith List Bool Arith Lia Permutation Reals Lra Psatz.
From Verif Require Import Num Py Tensor TF TensorFacts TFFacts Sums Ops OpsLemmas Types Loss Fact Train Spec SpecR LayoutFacts SpecFacts MulFacts TtmFacts SkipFacts TtmLemmas Matricize
  KronFacts RSums MatR KronAlg NormFacts SpecTucker MultiR SvdFacts TuckerFacts TuckerRun TuckerLemmas SpecCp SpecBcu BcuFacts SpecTrain TrainLemmas CpFacts AlsFacts AlsLemmas
  SpecProx Prox NcpFacts.
Import ListNotations.
Local Open Scope R_scope.

Lemma ncp_modes_len {T} {NT : Num T} svals (mats : list (tensor T)) modes : forall s s', ncp_modes svals mats modes s = Ok s' -> length (n_A s') = length (n_A s).
Proof.
  induction modes as [|m r IH]; intros s s' H; simpl in H; [injection H as <-; auto|].
  mon H. apply IH in H. rewrite H. unfold ncp_mode in E. mon E. injection E as <-. cbn [n_A]. apply upd_length.
Qed.

Lemma ncp_step_order {T} {NT : Num T} svals (X : tensor T) s p : length (n_A s) = ndims X -> ncp_step svals X s = Ok p -> (2 <= ndims X <= 25)%nat.
Proof.
  intros HL H. unfold ncp_step in H. apply bind_ok in H as (mats & _ & H). apply bind_ok in H as (s1 & E & H).
  apply bind_ok in H as (lam & _ & H). apply bind_ok in H as (full & Ef & _). pose proof (ncp_modes_len _ _ _ _ _ E) as L. apply kt_extract_len in Ef. cbn [n_A] in Ef.
  split; [|lia]. destruct (ndims X) as [|[|k]] eqn:Ek; try lia.
  assert (HA1 : length (n_A s) = 1%nat) by lia. destruct s as [A Am A0 t t0 w L1 L0]. cbn [n_A] in *. destruct A as [|a [|b A]]; try (simpl in HA1; lia).
  cbn [seq ncp_modes] in E. apply bind_ok in E as (p' & E & _). unfold ncp_mode in E. cbn [n_A] in E.
  apply bind_ok in E as (G & _ & E). apply bind_ok in E as (K & E & _). discriminate E.
Qed.

Lemma ncp_ones_ok (X : tensor R) r A : cp_factors X r A -> (0 < ndims X)%nat -> ncp_ones A = Ok (ones r).
Proof.
  intros [HL HA] HN. unfold ncp_ones. change (pynth A 0) with (pynth A (Z.of_nat 0)). rewrite (pynth_nat A 0 (mkT [] [])) by lia. cbn [bind]. destruct (HA 0%nat HN) as [_ Hs].
  unfold mat_at in Hs. unfold dim. rewrite Hs. reflexivity.
Qed.

Section Step.
  Variables (svals : tensor R -> list R) (X : tensor R) (r : nat) (s s2 : ncp_state R) (full : tensor R) (m : metrics R).
  Hypothesis HW : ncp_wf X r s.
  Hypothesis Hstep : ncp_step svals X s = Ok (s2, full, m).
  Let N := ndims X.

  Lemma ncp_parts : nonempty (shp X) /\ (2 <= N <= 25)%nat /\ ncp_wf X r s2 /\ n_Am s2 = n_Am s /\ n_A0 s2 = n_A0 s /\ exists mats, unfold_all X = Ok mats /\
    (forall k, (k < N)%nat -> let A := mixed k (n_A s2) (n_A s) in cp_factors X r A /\
       nth k (n_L s2) 0 = ncp_L svals r A k /\ mat_at (n_A s2) k = ncp_new X r A (mat_at (n_Am s) k) (nth k (n_L s2) 0) k) /\
    full = cp_tensor r (ones r) (n_A s2) /\ metrics_of X full = Ok m.
  Proof.
    pose proof Hstep as H. pose proof (ncp_step_order _ _ _ _ (proj1 (proj1 HW)) H) as Ho.
    unfold ncp_step in H. apply bind_ok in H as (mats & E1 & H). apply bind_ok in H as (s1 & E2 & H).
    apply bind_ok in H as (lam & E3 & H). apply bind_ok in H as (full' & E4 & H). apply bind_ok in H as (m' & E5 & H). injection H as <- <- <-.
    pose proof (unfold_all_nonempty X mats E1) as Hne.
    destruct (ncp_sweep svals X r mats Hne ltac:(lia) E1 N 0 s s1 eq_refl HW E2) as (W1 & H1 & H2 & _ & H4). cbn [n_A n_Am n_A0 n_L] in *.
    rewrite (ncp_ones_ok X r) in E3 by (try apply W1; lia). injection E3 as <-.
    split; [exact Hne|]. split; [exact Ho|]. split; [exact W1|]. split; [exact H1|]. split; [exact H2|]. exists mats. split; [exact E1|]. split.
    - intros k Hk. destruct (H4 k ltac:(lia)) as [K1 K2]. cbv zeta in *. split; [|split; auto]. apply mixed_factors; [apply W1|apply HW|lia].
    - split; [|exact E5]. rewrite (kt_extract_ok RLR _ _ r) in E4; [congruence| | | |].
      + intros E. pose proof (proj1 (proj1 W1)) as L. rewrite E in L. simpl in L. lia.
      + rewrite (proj1 (proj1 W1)). lia.
      + apply (fac_in X r _ (proj1 W1)).
      + apply is_mat_mgen.
  Qed.

  Lemma c50_modes : spectral svals -> (0 < r)%nat -> forall n, (n < N)%nat ->
    let A := mixed n (n_A s2) (n_A s) in let f B := / 2 * cp_error X r A n B in
    let L := nth n (n_L s2) 0 in
    spectral_norm (gram_but r A n) L /\ projected_step f L (mat_at (n_Am s) n) (mat_at (n_A s2) n) /\
    (L <> 0 -> descends f L (mat_at (n_Am s) n) (mat_at (n_A s2) n)).
  Proof.
    intros HS Hr n Hn A f L. destruct ncp_parts as (Hne & Ho & W2 & _ & _ & mats & E1 & HM & _).
    destruct (HM n Hn) as (HA & EL & EA). fold A in HA, EL, EA. fold L in EL, EA. rewrite EA.
    apply (ncp_new_step svals X r mats Hne ltac:(unfold N in *; lia) E1 A _ L n HS Hr HA Hn); auto. apply HW; auto.
  Qed.

  Lemma cp_error_same A n : cp_error X r A n (mat_at A n) = sqdist X (cp_tensor r (ones r) A).
  Proof. unfold cp_error, mat_at. rewrite replace_self. reflexivity. Qed.

  (** without extrapolation the whole step descends *)
  Lemma c50_sweep : spectral svals -> (0 < r)%nat -> n_Am s = n_A s -> (forall M, In M (n_A s) -> nonneg M) ->
    (forall n, (n < N)%nat -> nth n (n_L s2) 0 <> 0) -> sqdist X full <= sqdist X (cp_tensor r (ones r) (n_A s)).
  Proof.
    intros HS Hr Eam Hnn HL. destruct ncp_parts as (Hne & Ho & W2 & _ & _ & mats & E1 & HM & Ef & _). rewrite Ef.
    pose proof (proj1 (proj1 HW)) as LA. pose proof (proj1 (proj1 W2)) as LA'.
    assert (G : forall n, (n <= N)%nat -> sqdist X (cp_tensor r (ones r) (mixed n (n_A s2) (n_A s))) <= sqdist X (cp_tensor r (ones r) (n_A s))).
    { induction n as [|n IH]; intros Hn; [rewrite mixed_0; apply Rle_refl|]. specialize (IH ltac:(lia)).
      eapply Rle_trans; [|exact IH]. destruct (c50_modes HS Hr n ltac:(lia)) as (_ & _ & D). specialize (D (HL n ltac:(lia))). destruct D as [_ D].
      rewrite Eam in D. assert (Hin : In (mat_at (n_A s) n) (n_A s)) by (apply nth_In; rewrite LA; unfold N in *; lia).
      specialize (D (Hnn _ Hin)). rewrite mixed_S by (rewrite ?LA, ?LA'; unfold N in *; auto; lia).
      unfold cp_error in D. rewrite <- (replace_self (mixed n (n_A s2) (n_A s)) n (mkT [] [])) at 2.
      replace (nth n (mixed n (n_A s2) (n_A s)) (mkT [] [])) with (mat_at (n_A s) n); [lra|].
      rewrite nth_mixed by (rewrite ?LA, ?LA'; unfold N in *; auto; lia). rewrite Nat.ltb_irrefl. reflexivity. }
    specialize (G N (Nat.le_refl _)). replace N with (length (n_A s)) in G by (rewrite LA; reflexivity). rewrite mixed_all in G by congruence. exact G.
  Qed.
End Step.

(** ** reachable states *)
Lemma tf_map_shape {T} (f : T -> T) (M : tensor T) a b : is_mat M a b -> is_mat (tf_map f M) a b.
Proof. intros [H1 H2]. split; [|exact H2]. unfold wf, tf_map in *. cbn [shp dat]. rewrite map_length. exact H1. Qed.

Lemma ncp_init_wf pow (X : tensor R) r rnd : cp_factors X r rnd -> ncp_wf X r (ncp_init pow X rnd).
Proof.
  intros [HL H].
  assert (G : cp_factors X r (n_A (ncp_init pow X rnd))).
  { unfold ncp_init. cbn [n_A]. split; [rewrite map_length; exact HL|]. intros k Hk. unfold mat_at.
    rewrite (nth_map_lt _ rnd k (mkT [] [])) by (rewrite HL; exact Hk). unfold norm_init. apply tf_map_shape, tf_map_shape, H, Hk. }
  split; [exact G|]. split; [exact G|]. split; [exact G|]. cbn [ncp_init n_L n_L0]. rewrite !repeat_length. auto.
Qed.

Lemma extrapolate_total w (a a0 : tensor R) : shp a = shp a0 -> exists m, extrapolate w a a0 = Ok m /\ wf m /\ shp m = shp a.
Proof.
  intros Hs. unfold extrapolate. rewrite bin_same by auto. cbn [bind]. rewrite tf_map_gen. rewrite bin_same by reflexivity.
  eexists. split; [reflexivity|]. split; [apply wf_gen|reflexivity].
Qed.

Lemma map3M_total {A B C D} (f : A -> B -> C -> res D) (Q : A -> B -> C -> D -> Prop) a : forall b c,
  length a = length b -> length b = length c ->
  (forall k da db dc, (k < length a)%nat -> exists d, f (nth k a da) (nth k b db) (nth k c dc) = Ok d) ->
  exists l, map3M f a b c = Ok l.
Proof.
  unfold map3M. induction a as [|x a IH]; intros [|y b] [|z c] H1 H2 H; simpl in *; try lia; [eauto|].
  destruct (H 0%nat x y z ltac:(lia)) as (d & E). cbn in E. rewrite E. cbn [bind].
  destruct (IH b c ltac:(lia) ltac:(lia)) as (l & El).
  - intros k da db dc Hk. apply (H (S k) da db dc). lia.
  - rewrite El. cbn [bind]. eauto.
Qed.

Lemma weights_length (t0 t : R) L0 L : length L0 = length L -> length (weights t0 t L0 L) = length L.
Proof. intros H. unfold weights. rewrite map_length, combine_length, H. apply Nat.min_id. Qed.

Lemma ncp_accept_wf (X : tensor R) r s : ncp_wf X r s -> exists s', ncp_accept s = Ok s' /\ ncp_wf X r s'.
Proof.
  intros (HA & HAm & HA0 & HL & HL0). unfold ncp_accept.
  assert (Lw : length (weights (n_t0 s) (n_t s) (n_L0 s) (n_L s)) = ndims X) by (rewrite weights_length; congruence).
  assert (LA : length (n_A s) = ndims X) by apply HA. assert (LA0 : length (n_A0 s) = ndims X) by apply HA0.
  assert (Hsh : forall k, (k < ndims X)%nat -> shp (mat_at (n_A s) k) = shp (mat_at (n_A0 s) k)).
  { intros k Hk. rewrite (proj2 (proj2 HA k Hk)), (proj2 (proj2 HA0 k Hk)). reflexivity. }
  destruct (map3M_total extrapolate (fun _ _ _ _ => True) (weights (n_t0 s) (n_t s) (n_L0 s) (n_L s)) (n_A s) (n_A0 s)) as (l & El); [congruence|congruence| |].
  { intros k da db dc Hk. rewrite Lw in Hk. rewrite (nth_indep (n_A s) db (mkT [] [])) by lia. rewrite (nth_indep (n_A0 s) dc (mkT [] [])) by lia.
    destruct (extrapolate_total (nth k (weights (n_t0 s) (n_t s) (n_L0 s) (n_L s)) da) (mat_at (n_A s) k) (mat_at (n_A0 s) k) (Hsh k Hk)) as (mm0 & E & _). eauto. }
  rewrite El. cbn [bind]. eexists. split; [reflexivity|].
  destruct (map3M_nth extrapolate _ _ _ _ 0 (mkT [] []) (mkT [] []) (mkT [] []) El ltac:(congruence) ltac:(congruence)) as [Ll Hl].
  assert (Hf : cp_factors X r l).
  { split; [congruence|]. intros k Hk. specialize (Hl k ltac:(rewrite Lw; exact Hk)). fold (mat_at (n_A s) k) in Hl. fold (mat_at (n_A0 s) k) in Hl. fold (mat_at l k) in Hl.
    destruct (extrapolate_total (nth k (weights (n_t0 s) (n_t s) (n_L0 s) (n_L s)) 0) _ _ (Hsh k Hk)) as (m0 & E & W & S).
    rewrite E in Hl. injection Hl as <-. split; [exact W|]. rewrite S. apply (proj2 HA k Hk). }
  split; [exact HA|]. split; [exact Hf|]. split; [exact HA|]. cbn [n_L n_L0]. auto.
Qed.

Lemma ncp_reject_wf (X : tensor R) r s : ncp_wf X r s -> ncp_wf X r (ncp_reject s).
Proof. intros (HA & HAm & HA0 & HL & HL0). unfold ncp_wf, ncp_reject. cbn [n_A n_Am n_A0 n_L n_L0]. auto. Qed.

Lemma ncp_run_wf svals (X : tensor R) r s s2 o : ncp_wf X r s -> ncp_run svals X s = Ok (s2, o) -> ncp_wf X r s2.
Proof.
  intros HW H. unfold ncp_run in H. apply bind_ok in H as ([[s' full] m] & E & H). injection H as <- <-.
  apply (ncp_parts svals X r s s' full m HW E).
Qed.

Lemma ncp_reach_wf pow svals (X : tensor R) r rnd s : cp_factors X r rnd ->
  reach (fun s => Ok (s, None)) (ncp_run svals X) ncp_accept (fun s => Ok (ncp_reject s)) (ncp_init pow X rnd) s -> ncp_wf X r s.
Proof.
  intros HR H. induction H as [|s s1 c s2 o s3 H IH E1 E2 E3|s s1 c s2 o s3 H IH E1 E2 E3].
  - apply ncp_init_wf, HR.
  - injection E1 as <- <-. pose proof (ncp_run_wf _ _ _ _ _ _ IH E2) as W. destruct (ncp_accept_wf X r s2 W) as (s' & E & W'). congruence.
  - injection E1 as <- <-. pose proof (ncp_run_wf _ _ _ _ _ _ IH E2) as W. injection E3 as <-. apply ncp_reject_wf, W.
Qed.

(** ** completion *)
Lemma ncp_run_total svals (X : tensor R) r s : wf X -> nonempty (shp X) -> (2 <= ndims X <= 25)%nat -> ncp_wf X r s ->
  exists s' o, ncp_run svals X s = Ok (s', o) /\ ncp_wf X r s'.
Proof.
  intros HX Hne Ho HW. cut (exists s' o, ncp_run svals X s = Ok (s', o)).
  { intros (s' & o & E). exists s', o. split; [exact E|]. apply (ncp_run_wf _ _ _ _ _ _ HW E). }
  unfold ncp_run, ncp_step.
  assert (E1 : exists mats, unfold_all X = Ok mats).
  { unfold unfold_all. pose (g := fun z => match unfold X z with Ok v => v | Raise _ => mkT [] [] end). exists (map g (zrange (ndims X))).
    apply mapM_ok. intros z Hz. apply in_zrange in Hz. rewrite <- (Z2Nat.id z) by lia. unfold g.
    destruct (unfold_ok X (Z.to_nat z)) as (M & -> & _); [unfold ndims in *; lia|apply nonempty_nth; auto; unfold ndims in *; lia|reflexivity]. }
  destruct E1 as (mats & E1). rewrite E1. cbn [bind].
  assert (E2 : forall n k s, (k + n)%nat = ndims X -> ncp_wf X r s -> exists s', ncp_modes svals mats (seq k n) s = Ok s').
  { clear s HW. induction n as [|n IH]; intros k s Hk HW; cbn [seq ncp_modes]; [eauto|]. destruct HW as (HA & HAm & HA0 & HL & HL0).
    rewrite (ncp_mode_run svals X r mats Hne ltac:(lia) E1 s k HA HAm) by lia. cbn [bind]. apply IH; [lia|].
    split; [apply replace_factors; [exact HA|apply ncp_new_mat]|]. split; [exact HAm|]. split; [exact HA0|]. cbn [n_L n_L0]. rewrite !replace_length. auto. }
  destruct (E2 (ndims X) 0%nat s eq_refl HW) as (s1 & E3). rewrite E3. cbn [bind n_A].
  destruct (ncp_sweep svals X r mats Hne ltac:(lia) E1 (ndims X) 0 s s1 eq_refl HW E3) as (W1 & _).
  rewrite (ncp_ones_ok X r) by (try apply W1; lia). cbn [bind].
  rewrite (kt_extract_ok RLR _ _ r).
  - cbn [bind]. destruct (metrics_ok X (cp_tensor r (ones r) (n_A s1))) as (m & Em); [auto| |rewrite Em; cbn [bind]; eauto].
    change (map nrows (n_A s1) = shp X). pose proof (proj1 (proj1 W1)) as L. apply nth_ext with (d := 0%nat) (d' := 0%nat); rewrite map_length; [exact L|].
    intros k Hk. rewrite (nth_map_lt nrows (n_A s1) k (mkT [] [])) by auto. apply (fac_mat X r (n_A s1) (proj1 W1)). lia.
  - intros E. pose proof (proj1 (proj1 W1)) as L. rewrite E in L. simpl in L. lia.
  - rewrite (proj1 (proj1 W1)). lia.
  - apply (fac_in X r _ (proj1 W1)).
  - apply is_mat_mgen.
Qed.

Section TotalB.
  Context {S : Type} (pre : S -> res (S * option (tensor R))) (run : S -> res (S * sobs R)) (accept reject : S -> res S)
    (args : targs R) (steps : Z) (P P1 : S -> Prop).
  Hypothesis Hpre : forall s, P s -> exists s' c, pre s = Ok (s', c) /\ P1 s'.
  Hypothesis Hrun : forall s, P1 s -> exists s' o, run s = Ok (s', o) /\ P1 s'.
  Hypothesis Hacc : forall s, P1 s -> exists s', accept s = Ok s' /\ P s'.
  Hypothesis Hrej : forall s, P1 s -> exists s', reject s = Ok s' /\ P s'.
  Hypothesis Hval : forall step, exists v, validate args steps step = Ok v.

  Lemma bcu_loop_total fuel : forall step s obj0 nst h p, P s ->
    exists p' h', bcu_loop run true args steps pre accept reject fuel step s obj0 nst h p = (p', Ok h').
  Proof.
    induction fuel as [|fuel IH]; intros step s obj0 nst h p Hs; cbn [bcu_loop]; [eauto|].
    destruct (Hpre s Hs) as (s1 & c & -> & H1). destruct (Hval step) as (v & ->). unfold run_v. rewrite andb_false_r.
    destruct (Hrun s1 H1) as (s' & o & -> & Hs'). destruct (stop_now _ _ _); [eauto|]. destruct (nltb _ _).
    - destruct (Hacc s' Hs') as (s'' & -> & H2). apply IH, H2.
    - destruct (Hrej s' Hs') as (s'' & -> & H2). apply IH, H2.
  Qed.
End TotalB.

Lemma validate_total (args : targs R) steps step : a_vi args <> 0%Z -> exists v, validate args steps step = Ok v.
Proof. intros Hint. unfold validate. destruct (_ || _)%bool; [eauto|]. destruct (Z.eqb_spec (a_vi args) 0); [contradiction|]. eauto. Qed.

Lemma ncp_train_total pow svals (X : tensor R) r args id w o rnd steps : wf X -> nonempty (shp X) -> (2 <= ndims X <= 25)%nat ->
  o_built o = Some ((args, r), id) -> cp_factors X r rnd -> w_path w = true -> (forall i, In i (w_sums w) -> i = id) ->
  (0 < steps)%Z -> a_vi args <> 0%Z -> exists o' h, ncp_train pow svals X w o rnd steps = (o', Ok h).
Proof.
  intros HX Hne Ho Hb HA Hw Hid Hst Hint.
  unfold ncp_train, obj_train. rewrite Hb, Hw. cbn [negb].
  assert (E : forallb (Nat.eqb id) (w_sums w) = true). { apply forallb_forall. intros i Hi. apply Nat.eqb_eq. symmetry. auto. }
  rewrite E. unfold ncp_body, bcu_body. cbn [fst snd]. destruct (Z.leb_spec steps 0); [lia|].
  edestruct (bcu_loop_total (fun s => Ok (s, None)) (ncp_run svals X) ncp_accept (fun s => Ok (ncp_reject s)) args steps (ncp_wf X r) (ncp_wf X r)) as (p' & h' & E1).
  - intros s Hs. eauto.
  - intros s Hs. apply ncp_run_total; auto.
  - intros s Hs. apply ncp_accept_wf, Hs.
  - intros s Hs. eexists. split; [reflexivity|]. apply ncp_reject_wf, Hs.
  - intros step. apply validate_total, Hint.
  - apply ncp_init_wf, HA.
  - rewrite E1. eauto.
Qed.

Lemma c50_step svals (X : tensor R) r s s2 full m : spectral svals -> (0 < r)%nat -> ncp_wf X r s -> ncp_step svals X s = Ok (s2, full, m) ->
  forall n, (n < ndims X)%nat ->
    let A := mixed n (n_A s2) (n_A s) in let f B := / 2 * cp_error X r A n B in let L := nth n (n_L s2) 0 in
    spectral_norm (gram_but r A n) L /\
    (L <> 0 -> projected_step f L (mat_at (n_Am s) n) (mat_at (n_A s2) n) /\ descends f L (mat_at (n_Am s) n) (mat_at (n_A s2) n)).
Proof. intros HS Hr HW E n Hn A f L. destruct (c50_modes svals X r s s2 full m HW E HS Hr n Hn) as (H1 & H2 & H3). auto. Qed.

Lemma c50_every pow svals (X : tensor R) r rnd s s2 full m : spectral svals -> (0 < r)%nat -> cp_factors X r rnd ->
  reach (fun s => Ok (s, None)) (ncp_run svals X) ncp_accept (fun s => Ok (ncp_reject s)) (ncp_init pow X rnd) s ->
  ncp_step svals X s = Ok (s2, full, m) -> ncp_wf X r s /\ forall n, (n < ndims X)%nat ->
    let A := mixed n (n_A s2) (n_A s) in let f B := / 2 * cp_error X r A n B in let L := nth n (n_L s2) 0 in
    spectral_norm (gram_but r A n) L /\
    (L <> 0 -> projected_step f L (mat_at (n_Am s) n) (mat_at (n_A s2) n) /\ descends f L (mat_at (n_Am s) n) (mat_at (n_A s2) n)).
Proof.
  intros HS Hr HR H E. pose proof (ncp_reach_wf pow svals X r rnd s HR H) as W. split; [exact W|]. exact (c50_step svals X r s s2 full m HS Hr W E).
Qed.

Lemma c50_whole svals (X : tensor R) r s s2 full m : spectral svals -> wf X -> (0 < r)%nat -> ncp_wf X r s -> ncp_step svals X s = Ok (s2, full, m) ->
  n_Am s = n_A s -> (forall M, In M (n_A s) -> nonneg M) -> (forall n, (n < ndims X)%nat -> nth n (n_L s2) 0 <> 0) ->
  sqdist X full <= sqdist X (cp_tensor r (ones r) (n_A s)) /\ m_obj m = / 2 * sqdist X full.
Proof.
  intros HS HX Hr HW E H1 H2 H3. split; [exact (c50_sweep svals X r s s2 full m HW E HS Hr H1 H2 H3)|].
  destruct (ncp_parts svals X r s s2 full m HW E) as (_ & _ & _ & _ & _ & mats & _ & _ & _ & Em). pose proof (metrics_shape _ _ _ Em) as Hs. destruct (metrics_R X _ _ HX Em) as (_ & M & _). rewrite M, (sqdist_comm _ _ Hs). reflexivity.
Qed.

Lemma ncp_step_total svals (X : tensor R) r s : wf X -> nonempty (shp X) -> (2 <= ndims X <= 25)%nat -> ncp_wf X r s ->
  exists s2 full m, ncp_step svals X s = Ok (s2, full, m).
Proof.
  intros HX Hne Ho HW. destruct (ncp_run_total svals X r s HX Hne Ho HW) as (s' & o & E & _). unfold ncp_run in E.
  apply bind_ok in E as ([[s2 full] m] & E & _). eauto.
Qed.

Lemma ncp_step_fails svals (X : tensor R) s : length (n_A s) = ndims X -> (ndims X < 2 \/ 25 < ndims X)%nat -> exists e, ncp_step svals X s = Raise e.
Proof. intros HL Ho. destruct (ncp_step svals X s) as [p|e] eqn:E; [|eauto]. apply ncp_step_order in E; [lia|exact HL]. Qed.

(** ** example: diag(2, 1) from the all-ones factors *)
Definition sd : ncp_state R := mkNCP Ad Ad Ad 1 1 [0; 0] [1; 1] [1; 1].
Lemma sd_wf : ncp_wf Xd 1 sd.
Proof. split; [apply Ad_factors|]. split; [apply Ad_factors|]. split; [apply Ad_factors|]. split; reflexivity. Qed.

Lemma spectral_norm_11 (M : tensor R) s : nrows M = 1%nat -> ncols M = 1%nat -> spectral_norm M s -> mget M 0 0 <> 0 -> s <> 0.
Proof.
  intros H1 H2 (_ & H & _) Hm ->. specialize (H (fun _ => 1)). rewrite H1, H2 in H. unfold bigsum in H. cbn in H. unfold Rsqr in H. nra.
Qed.

Lemma ex_c50 svals : spectral svals -> exists s2 full m, ncp_step svals Xd sd = Ok (s2, full, m) /\
  (forall n, (n < ndims Xd)%nat -> nth n (n_L s2) 0 <> 0).
Proof.
  intros HS. destruct (ncp_step_total svals Xd 1 sd) as (s2 & full & m & E); [reflexivity|repeat constructor; discriminate|cbn; lia|apply sd_wf|].
  exists s2, full, m. split; [exact E|].
  assert (P := c50_step svals Xd 1 sd s2 full m HS ltac:(lia) sd_wf E). cbv zeta in P.
  destruct (P 0%nat ltac:(cbn; lia)) as (P0 & P1). rewrite mixed_0 in P0, P1.
  assert (L0 : nth 0 (n_L s2) 0 <> 0).
  { eapply spectral_norm_11; [| |exact P0|]; [reflexivity|reflexivity|]. unfold gram_but. rewrite mget_mgen by lia. unfold Ad, mat_at, nrows, mget, get. cbn. lra. }
  destruct (ncp_parts svals Xd 1 sd s2 full m sd_wf E) as (_ & _ & W2 & _).
  intros n Hn. destruct n as [|[|n]]; [exact L0| |cbn in Hn; lia].
  destruct (P 1%nat ltac:(cbn; lia)) as (Q0 & _). eapply spectral_norm_11; [| |exact Q0|]; [reflexivity|reflexivity|].
  destruct (P1 L0) as [_ [_ D]]. specialize (D ltac:(intros x [<-|[<-|[]]]; lra)).
  assert (HA2 := proj2 (proj1 W2) 0%nat ltac:(cbn; lia)). change (nth 0 (shp Xd) 0%nat) with 2%nat in HA2.
  pose proof (proj1 (proj1 W2)) as LA. change (ndims Xd) with 2%nat in LA.
  destruct (n_A s2) as [|a0 [|a1 [|a2 l]]]; try (cbn in LA; lia). unfold mat_at in HA2, D. cbn [nth] in HA2, D.
  unfold gram_but. rewrite mget_mgen by lia. unfold mixed. cbn [firstn skipn app sd n_A Ad]. change (length [a0; mkT [2; 1]%nat [1; 1]]) with 2%nat.
  unfold mat_at. cbn [others seq filter Nat.eqb negb map nth listprod]. replace (nrows a0) with 2%nat by (unfold nrows; rewrite (proj2 HA2); reflexivity).
  intros Z. destruct a0 as [sh d]. destruct HA2 as [Hw Hs]. unfold wf in Hw. cbn [shp dat] in Hs, Hw. subst sh. cbn in Hw. destruct d as [|x [|y [|z d]]]; try (cbn in Hw; lia).
  unfold cp_error in D. unfold bigsum in *. unfold mget, get in *. cbn in Z, D. unfold Rsqr in D.
  assert (x = 0) by nra. assert (y = 0) by nra. subst x y. lra.
Qed.
