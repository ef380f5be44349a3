(** Property lemmas for NTUCKER_BCU: C53 and completion of training. *)

From Coq Require Import ZArith List Bool Arith Lia Permutation Reals Lra Psatz.
From Verif Require Import Num Py Tensor TF TensorFacts TFFacts Sums Ops OpsLemmas Types Loss Fact Train Spec SpecR LayoutFacts SpecFacts MulFacts TtmFacts SkipFacts TtmOrder TtmLemmas Matricize
  KronFacts RSums MatR KronAlg NormFacts SpecTucker MultiR SvdFacts TuckerFacts TuckerRun TuckerLemmas SpecCp SpecBcu BcuFacts SpecTrain TrainLemmas CpFacts AlsFacts AlsLemmas
  SpecProx Prox NcpFacts NcpLemmas NtFacts.
Import ListNotations.
Local Open Scope R_scope.

Lemma mixed_tucker (X : tensor R) ranks A B k : tucker_factors X ranks A -> tucker_factors X ranks B -> (k <= ndims X)%nat -> tucker_factors X ranks (mixed k A B).
Proof.
  intros (A1 & A2 & A3) (B1 & B2 & B3) Hk. split; [rewrite mixed_length; auto; congruence|]. split; [auto|]. intros j Hj. unfold mat_at.
  rewrite nth_mixed by (try congruence; lia). destruct (Nat.ltb_spec j k); [apply A3|apply B3]; auto.
Qed.

Section Step.
  Variables (svals : tensor R -> list R) (X : tensor R) (ranks : list nat).
  Hypothesis HX : wf X.
  Hypothesis Hr : nonempty ranks.
  Let N := ndims X.

  Lemma nt_core_wf s s1 : (1 <= N <= 13)%nat -> nt_wf X ranks s -> nt_core svals X s = Ok s1 ->
    nt_wf X ranks s1 /\ q_A s1 = q_A s /\ q_Am s1 = q_Am s /\ q_A0 s1 = q_A0 s /\ q_gm s1 = q_gm s /\ q_g0 s1 = q_g0 s /\
    nth N (q_L s1) 0 = nt_coreL svals X (q_A s) /\ q_g s1 = nt_newcore X ranks (q_A s) (q_gm s) (nth N (q_L s1) 0).
  Proof.
    intros Ho (HA & HAm & HA0 & Hg & Hgm & Hg0 & HL & HL0) E.
    rewrite (nt_core_run svals X ranks HX Ho s HA Hgm HL) in E. injection E as <-. cbn [q_A q_Am q_A0 q_g q_gm q_g0 q_L q_L0].
    rewrite nth_replace, Nat.eqb_refl by (rewrite HL; unfold N; lia).
    split; [|repeat (split; [reflexivity|]); reflexivity]. unfold nt_wf. cbn [q_A q_Am q_A0 q_g q_gm q_g0 q_L q_L0]. rewrite !replace_length.
    repeat (split; [first [assumption | split; [apply wf_gen|reflexivity]]|]). assumption.
  Qed.

  Lemma c53_core s s1 : spectral svals -> (1 <= N <= 13)%nat -> nt_wf X ranks s -> nt_core svals X s = Ok s1 ->
    let f C := / 2 * sqdist X (tucker_tensor C (q_A s)) in let L := nth N (q_L s1) 0 in
    q_A s1 = q_A s /\
    (exists sig, (forall k, (k < N)%nat -> spectral_norm (gram_of (mat_at (q_A s) k)) (sig k)) /\ L = bigprod N sig) /\
    (L <> 0 -> projected_step f L (q_gm s) (q_g s1) /\ descends f L (q_gm s) (q_g s1)).
  Proof.
    intros HS Ho HW E f L. pose proof HW as (HA & HAm & HA0 & Hg & Hgm & Hg0 & HL & HL0).
    destruct (nt_core_wf s s1 Ho HW E) as (HW1 & EA & _ & _ & _ & _ & EL & Eg). fold L in EL, Eg.
    assert (H2 : exists sig, (forall k, (k < N)%nat -> spectral_norm (gram_of (mat_at (q_A s) k)) (sig k)) /\ L = bigprod N sig).
    { exists (fun k => tf_max (svals (gram_of (mat_at (q_A s) k)))). split; [|rewrite EL; reflexivity]. intros k Hk. apply HS; [apply gram_matrix|].
      unfold gram_of. cbn. destruct (tf_mat X ranks (q_A s) HA k Hk) as (_ & _ & ->). pose proof (rank_pos X ranks Hr (q_A s) k HA Hk). repeat constructor; auto. }
    split; [exact EA|]. split; [exact H2|]. intros HL0'.
    destruct (core_step X ranks (q_A s) HX HA L Hr H2 (q_gm s) (q_g s1)) as [P1 P2].
    - exact Hgm.
    - apply HW1.
    - intros i Hi. rewrite Eg at 1. unfold nt_newcore. rewrite get_gen by auto. reflexivity.
    - split; [exact P1|]. apply P2. destruct H2 as (sig & HG & EG). assert (0 <= bigprod N sig).
      { clear - HG. assert (G : forall n, (n <= N)%nat -> 0 <= bigprod n sig); [|apply G, Nat.le_refl]. induction n as [|n IH]; intros Hn; cbn; Rn; [lra|].
        apply Rmult_le_pos; [apply IH; lia|]. apply HG. lia. }
      rewrite EG in *. lra.
  Qed.

  (** what the sweep over the modes k..N-1 leaves *)
  Lemma nt_sweep mats n : nonempty (shp X) -> (2 <= N <= 13)%nat -> unfold_all X = Ok mats -> forall k s s', (k + n)%nat = N -> nt_wf X ranks s -> nt_modes svals mats (seq k n) s = Ok s' ->
    nt_wf X ranks s' /\ q_Am s' = q_Am s /\ q_A0 s' = q_A0 s /\ q_g s' = q_g s /\ q_gm s' = q_gm s /\ q_g0 s' = q_g0 s /\
    (forall j, (j < k)%nat -> mat_at (q_A s') j = mat_at (q_A s) j /\ nth j (q_L s') 0 = nth j (q_L s) 0) /\
    (forall m, (k <= m < N)%nat -> let A := mixed m (q_A s') (q_A s) in
       nth m (q_L s') 0 = nt_L svals (q_g s) A m /\ mat_at (q_A s') m = nt_new X ranks (q_g s) A (mat_at (q_Am s) m) (nth m (q_L s') 0) m).
  Proof.
    intros Hne Ho Hm. induction n as [|n IH]; intros k s s' HN HW E; cbn [seq nt_modes] in E.
    - injection E as <-. split; [exact HW|]. repeat (split; [reflexivity|]). split; [auto|intros m Hm'; lia].
    - rewrite (nt_mode_run svals X ranks ltac:(unfold N in *; lia) Hne Hr mats Hm s k HW) in E by (unfold N in *; lia). cbn [bind] in E.
      destruct HW as (HA & HAm & HA0 & Hg & Hgm & Hg0 & HL & HL0).
      set (L := nt_L svals (q_g s) (q_A s) k) in *. set (B := nt_new X ranks (q_g s) (q_A s) (mat_at (q_Am s) k) L k) in *.
      match type of E with nt_modes _ _ _ ?t = _ => set (s1 := t) in * end.
      assert (HA1 : tucker_factors X ranks (replace k B (q_A s))) by (apply replace_tucker; [auto|apply nt_new_mat]).
      destruct (IH (S k) s1 s' ltac:(lia)) as ((G1 & G2 & G3 & G4 & G5 & G6 & G7 & G8) & H1 & H2 & H5 & H6 & H7 & H3 & H4); [|exact E|].
      { split; [exact HA1|]. repeat (split; [assumption|]). cbn [q_L q_L0 s1]. rewrite !replace_length. auto. }
      cbn [s1 q_A q_Am q_A0 q_g q_gm q_g0 q_L] in H1, H2, H3, H4, H5, H6, H7.
      assert (LA : length (q_A s) = N) by apply HA. assert (LA' : length (q_A s') = length (q_A s)) by (rewrite (proj1 G1), LA; reflexivity).
      assert (Hk : mat_at (q_A s') k = B).
      { rewrite (proj1 (H3 k ltac:(lia))). unfold mat_at. rewrite nth_replace, Nat.eqb_refl by lia. reflexivity. }
      assert (HLk : nth k (q_L s') 0 = L).
      { rewrite (proj2 (H3 k ltac:(lia))). rewrite nth_replace, Nat.eqb_refl by (unfold N in *; lia). reflexivity. }
      assert (Hlt : forall j, (j < k)%nat -> mat_at (q_A s') j = mat_at (q_A s) j /\ nth j (q_L s') 0 = nth j (q_L s) 0).
      { intros j Hj. destruct (H3 j ltac:(lia)) as [K1 K2]. rewrite K1, K2. unfold mat_at. rewrite !nth_replace_ne by lia. auto. }
      assert (Hmk : mixed k (q_A s') (q_A s) = q_A s).
      { apply (list_nth_ext _ _ (mkT [] [])); [rewrite mixed_length; auto; lia|]. rewrite mixed_length by (auto; lia). intros j Hj.
        rewrite nth_mixed by (auto; lia). destruct (Nat.ltb_spec j k) as [Hjk|Hjk]; auto. apply Hlt, Hjk. }
      assert (Hmm : forall m, (S k <= m < N)%nat -> mixed m (q_A s') (replace k B (q_A s)) = mixed m (q_A s') (q_A s)).
      { intros m Hm'. apply (list_nth_ext _ _ (mkT [] [])); [rewrite !mixed_length; rewrite ?replace_length; auto; lia|].
        rewrite mixed_length by (rewrite ?replace_length; auto; lia). rewrite replace_length. intros j Hj.
        rewrite !nth_mixed by (rewrite ?replace_length; auto; lia). destruct (Nat.ltb_spec j m) as [Hjm|Hjm]; auto. apply nth_replace_ne. lia. }
      split; [unfold nt_wf; auto 10|]. repeat (split; [assumption|]).
      intros m Hm'. destruct (Nat.eq_dec m k) as [->|Hmne].
      + rewrite Hmk. cbv zeta. split; [exact HLk|]. rewrite HLk. exact Hk.
      + pose proof (H4 m ltac:(lia)) as K. rewrite Hmm in K by lia. exact K.
  Qed.

  Lemma nt_parts s s2 full m : (2 <= N <= 13)%nat -> nt_wf X ranks s -> nt_fact svals X s = Ok (s2, full, m) ->
    nonempty (shp X) /\ nt_wf X ranks s2 /\ q_Am s2 = q_Am s /\ q_A0 s2 = q_A0 s /\ q_g s2 = q_g s /\ q_gm s2 = q_gm s /\ q_g0 s2 = q_g0 s /\
    exists mats, unfold_all X = Ok mats /\
    (forall k, (k < N)%nat -> let A := mixed k (q_A s2) (q_A s) in tucker_factors X ranks A /\
       nth k (q_L s2) 0 = nt_L svals (q_g s) A k /\ mat_at (q_A s2) k = nt_new X ranks (q_g s) A (mat_at (q_Am s) k) (nth k (q_L s2) 0) k) /\
    full = tucker_tensor (q_g s) (q_A s2) /\ metrics_of X full = Ok m.
  Proof.
    intros Ho HW H. unfold nt_fact in H. apply bind_ok in H as (mats & E1 & H). apply bind_ok in H as (s1 & E2 & H).
    apply bind_ok in H as (full' & E4 & H). apply bind_ok in H as (m' & E5 & H). injection H as <- <- <-.
    pose proof (unfold_all_nonempty X mats E1) as Hne.
    destruct (nt_sweep mats N Hne Ho E1 0 s s1 eq_refl HW E2) as (W1 & H1 & H2 & H3 & H5 & H6 & _ & H4). cbn [q_A q_Am q_A0 q_g q_gm q_g0 q_L] in *.
    split; [exact Hne|]. split; [exact W1|]. repeat (split; [assumption|]). exists mats. split; [exact E1|]. split.
    - intros k Hk. destruct (H4 k ltac:(lia)) as [K1 K2]. cbv zeta in *. split; [|split; auto]. apply mixed_tucker; [apply W1|apply HW|unfold N in *; lia].
    - split; [|exact E5]. destruct W1 as (WA & _ & _ & Wg & _). rewrite H3 in *. rewrite (tt_extract_ok RLR) in E4; [congruence|apply Wg| | |].
      + rewrite (core_ndims X ranks (q_A s1) WA _ Wg). unfold N in *. lia.
      + rewrite (core_ndims X ranks (q_A s1) WA _ Wg). apply (tf_len X ranks _ WA).
      + intros k Hk. rewrite (tf_len X ranks _ WA) in Hk. destruct (core_fits X ranks (q_A s1) WA _ k Wg Hk) as (_ & G2 & G3). auto.
  Qed.

  Lemma c53_fact s s2 full m : spectral svals -> (2 <= N <= 13)%nat -> nt_wf X ranks s -> nt_fact svals X s = Ok (s2, full, m) ->
    q_g s2 = q_g s /\ forall n, (n < N)%nat ->
    let A := mixed n (q_A s2) (q_A s) in let f B := / 2 * sqdist X (tucker_tensor (q_g s) (replace n B A)) in let L := nth n (q_L s2) 0 in
    spectral_norm (slice_gram (core_times_others (q_g s) A n) n) L /\
    (L <> 0 -> projected_step f L (mat_at (q_Am s) n) (mat_at (q_A s2) n) /\ descends f L (mat_at (q_Am s) n) (mat_at (q_A s2) n)).
  Proof.
    intros HS Ho HW E. destruct (nt_parts s s2 full m Ho HW E) as (Hne & W2 & _ & _ & Eg & _ & _ & mats & E1 & HM & _). split; [exact Eg|]. intros n Hn A f L.
    destruct (HM n Hn) as (HA & EL & EA). fold A in HA, EL, EA. fold L in EL, EA. rewrite EA.
    pose proof HW as (_ & HAm & _ & Hg & _).
    destruct (nt_new_step svals X ranks ltac:(unfold N in *; lia) Hne Hr mats E1 (q_g s) A (mat_at (q_Am s) n) L n HS HA Hg Hn) as (P1 & P2 & P3); [apply HAm; exact Hn|exact EL|].
    split; [exact P1|]. intros Hl. split; [exact P2|exact (P3 Hl)].
  Qed.

  Lemma c53_sweep s s2 full m : spectral svals -> (2 <= N <= 13)%nat -> nt_wf X ranks s -> nt_fact svals X s = Ok (s2, full, m) ->
    q_Am s = q_A s -> (forall M, In M (q_A s) -> nonneg M) -> (forall n, (n < N)%nat -> nth n (q_L s2) 0 <> 0) ->
    sqdist X full <= sqdist X (tucker_tensor (q_g s) (q_A s)) /\ m_obj m = / 2 * sqdist X full.
  Proof.
    intros HS Ho HW E Eam Hnn HL. destruct (nt_parts s s2 full m Ho HW E) as (Hne & W2 & _ & _ & Eg & _ & _ & mats & E1 & HM & Ef & Em).
    split.
    2: { pose proof (metrics_shape _ _ _ Em) as Hs. destruct (metrics_R X _ _ HX Em) as (_ & M & _). rewrite M, (sqdist_comm _ _ Hs). reflexivity. }
    rewrite Ef. pose proof (proj1 (proj1 HW)) as LA. pose proof (proj1 (proj1 W2)) as LA'.
    assert (G : forall n, (n <= N)%nat -> sqdist X (tucker_tensor (q_g s) (mixed n (q_A s2) (q_A s))) <= sqdist X (tucker_tensor (q_g s) (q_A s))).
    { induction n as [|n IH]; intros Hn; [rewrite mixed_0; apply Rle_refl|]. specialize (IH ltac:(lia)).
      eapply Rle_trans; [|exact IH]. destruct (c53_fact s s2 full m HS Ho HW E) as (_ & K). destruct (K n ltac:(lia)) as (_ & D). destruct (D (HL n ltac:(lia))) as [_ [_ D']].
      rewrite Eam in D'. assert (Hin : In (mat_at (q_A s) n) (q_A s)) by (apply nth_In; rewrite LA; unfold N in *; lia).
      specialize (D' (Hnn _ Hin)). rewrite mixed_S by (rewrite ?LA, ?LA'; unfold N in *; auto; lia).
      rewrite <- (replace_self (mixed n (q_A s2) (q_A s)) n (mkT [] [])) at 2.
      replace (nth n (mixed n (q_A s2) (q_A s)) (mkT [] [])) with (mat_at (q_A s) n); [lra|].
      rewrite nth_mixed by (rewrite ?LA, ?LA'; unfold N in *; auto; lia). rewrite Nat.ltb_irrefl. reflexivity. }
    specialize (G N (Nat.le_refl _)). replace N with (length (q_A s)) in G by (rewrite LA; reflexivity). rewrite mixed_all in G by congruence. exact G.
  Qed.
End Step.

(** ** reachable states *)
Lemma tf_map_core (f : R -> R) (M : tensor R) ranks : core_like ranks M -> core_like ranks (tf_map f M).
Proof. intros [H1 H2]. split; [|exact H2]. unfold wf, tf_map in *. cbn [shp dat]. rewrite map_length. exact H1. Qed.

Lemma nt_init_wf pow (X : tensor R) ranks rnd rndg : tucker_factors X ranks rnd -> core_like ranks rndg -> nt_wf X ranks (nt_init pow X rnd rndg).
Proof.
  intros (HL & HR & H) Hg.
  assert (G : tucker_factors X ranks (q_A (nt_init pow X rnd rndg))).
  { unfold nt_init. cbn [q_A]. split; [rewrite map_length; exact HL|]. split; [exact HR|]. intros k Hk. unfold mat_at.
    rewrite (nth_map_lt _ rnd k (mkT [] [])) by (rewrite HL; exact Hk). unfold norm_init. apply tf_map_shape, tf_map_shape, H, Hk. }
  assert (Gg : core_like ranks (q_g (nt_init pow X rnd rndg))) by (unfold nt_init, norm_init; cbn [q_g]; apply tf_map_core, tf_map_core, Hg).
  split; [exact G|]. split; [exact G|]. split; [exact G|]. split; [exact Gg|]. split; [exact Gg|]. split; [exact Gg|].
  cbn [nt_init q_L q_L0]. rewrite !repeat_length. split; lia.
Qed.

Lemma nt_accept_wf (X : tensor R) ranks s : nt_wf X ranks s -> exists s', nt_accept s = Ok s' /\ nt_wf X ranks s'.
Proof.
  intros (HA & HAm & HA0 & Hg & Hgm & Hg0 & HL & HL0). unfold nt_accept. set (ws := weights (q_t0 s) (q_t s) (q_L0 s) (q_L s)).
  assert (Lw : length ws = S (ndims X)) by (unfold ws; rewrite weights_length; congruence).
  assert (LA : length (q_A s) = ndims X) by apply HA. assert (LA0 : length (q_A0 s) = ndims X) by apply HA0.
  assert (Lf : length (firstn (length (q_A s)) ws) = ndims X) by (rewrite firstn_length; lia).
  assert (Hsh : forall k, (k < ndims X)%nat -> shp (mat_at (q_A s) k) = shp (mat_at (q_A0 s) k)).
  { intros k Hk. destruct HA as (_ & _ & HA). destruct HA0 as (_ & _ & HA0). rewrite (proj2 (HA k Hk)), (proj2 (HA0 k Hk)). reflexivity. }
  destruct (map3M_total extrapolate (fun _ _ _ _ => True) (firstn (length (q_A s)) ws) (q_A s) (q_A0 s)) as (l & El); [congruence|congruence| |].
  { intros k da db dc Hk. rewrite Lf in Hk. rewrite (nth_indep (q_A s) db (mkT [] [])) by lia. rewrite (nth_indep (q_A0 s) dc (mkT [] [])) by lia.
    destruct (extrapolate_total (nth k (firstn (length (q_A s)) ws) da) (mat_at (q_A s) k) (mat_at (q_A0 s) k) (Hsh k Hk)) as (mm0 & E & _). eauto. }
  rewrite El. cbn [bind].
  destruct (extrapolate_total (nth (length (q_A s)) ws n0) (q_g s) (q_g0 s)) as (gm & Eg & Wg & Sg); [rewrite (proj2 Hg), (proj2 Hg0); reflexivity|].
  rewrite Eg. cbn [bind]. eexists. split; [reflexivity|].
  destruct (map3M_nth extrapolate _ _ _ _ 0 (mkT [] []) (mkT [] []) (mkT [] []) El ltac:(congruence) ltac:(congruence)) as [Ll Hl].
  assert (Hf : tucker_factors X ranks l).
  { split; [congruence|]. split; [apply HA|]. intros k Hk. specialize (Hl k ltac:(rewrite Lf; exact Hk)). fold (mat_at (q_A s) k) in Hl. fold (mat_at (q_A0 s) k) in Hl. fold (mat_at l k) in Hl.
    destruct (extrapolate_total (nth k (firstn (length (q_A s)) ws) 0) _ _ (Hsh k Hk)) as (m0 & E & W & S).
    rewrite E in Hl. injection Hl as <-. split; [exact W|]. rewrite S. destruct HA as (_ & _ & HA). apply (HA k Hk). }
  split; [exact HA|]. split; [exact Hf|]. split; [exact HA|]. split; [exact Hg|]. split; [split; [exact Wg|cbn [q_gm]; rewrite Sg; apply Hg]|]. split; [exact Hg|]. cbn [q_L q_L0]. auto.
Qed.

Lemma nt_reject_wf (X : tensor R) ranks s : nt_wf X ranks s -> nt_wf X ranks (nt_reject s).
Proof. intros (HA & HAm & HA0 & Hg & Hgm & Hg0 & HL & HL0). unfold nt_wf, nt_reject. cbn [q_A q_Am q_A0 q_g q_gm q_g0 q_L q_L0]. auto 10. Qed.

Lemma nt_reach_wf pow svals (X : tensor R) ranks rnd rndg s : wf X -> nonempty ranks -> (2 <= ndims X <= 13)%nat -> tucker_factors X ranks rnd -> core_like ranks rndg ->
  reach (nt_pre svals X) (nt_factors svals X) nt_accept (fun s => Ok (nt_reject s)) (nt_init pow X rnd rndg) s -> nt_wf X ranks s.
Proof.
  intros HX Hr Ho HR Hg H.
  assert (G : forall s s1 c s2 o, nt_wf X ranks s -> nt_pre svals X s = Ok (s1, c) -> nt_factors svals X s1 = Ok (s2, o) -> nt_wf X ranks s2).
  { clear - HX Hr Ho. intros s s1 c s2 o W E1 E2. unfold nt_pre in E1. apply bind_ok in E1 as (s' & E1 & E). injection E as <- <-.
    apply (nt_core_wf svals X ranks HX) in E1; [|lia|exact W]. destruct E1 as (W1 & _).
    unfold nt_factors in E2. apply bind_ok in E2 as ([[s3 full] m] & E2 & E). injection E as <- <-. apply (nt_parts svals X ranks Hr s' s3 full m Ho W1 E2). }
  induction H as [|s s1 c s2 o s3 H IH E1 E2 E3|s s1 c s2 o s3 H IH E1 E2 E3].
  - apply nt_init_wf; auto.
  - pose proof (G _ _ _ _ _ IH E1 E2) as W. destruct (nt_accept_wf X ranks s2 W) as (s' & E & W'). congruence.
  - pose proof (G _ _ _ _ _ IH E1 E2) as W. injection E3 as <-. apply nt_reject_wf, W.
Qed.

(** ** completion *)
Lemma nt_core_total svals (X : tensor R) ranks s : wf X -> (1 <= ndims X <= 13)%nat -> nt_wf X ranks s -> exists s1, nt_core svals X s = Ok s1 /\ nt_wf X ranks s1.
Proof.
  intros HX Ho HW. cut (exists s1, nt_core svals X s = Ok s1).
  { intros (s1 & E). exists s1. split; [exact E|]. apply (nt_core_wf svals X ranks HX s s1 Ho HW E). }
  destruct HW as (HA & HAm & HA0 & Hg & Hgm & Hg0 & HL & HL0). rewrite (nt_core_run svals X ranks HX Ho s HA Hgm HL). eauto.
Qed.

Lemma unfold_all_total {T} {NT : Num T} (X : tensor T) : nonempty (shp X) -> exists mats, unfold_all X = Ok mats.
Proof.
  intros Hne. unfold unfold_all. pose (g := fun z => match unfold X z with Ok v => v | Raise _ => mkT [] [] end). exists (map g (zrange (ndims X))).
  apply mapM_ok. intros z Hz. apply in_zrange in Hz. rewrite <- (Z2Nat.id z) by lia. unfold g.
  destruct (unfold_ok X (Z.to_nat z)) as (M & -> & _); [unfold ndims in *; lia|apply nonempty_nth; auto; unfold ndims in *; lia|reflexivity].
Qed.

Lemma nt_fact_total svals (X : tensor R) ranks s : wf X -> nonempty (shp X) -> nonempty ranks -> (2 <= ndims X <= 13)%nat -> nt_wf X ranks s ->
  exists s2 full m, nt_fact svals X s = Ok (s2, full, m) /\ nt_wf X ranks s2.
Proof.
  intros HX Hne Hr Ho HW. cut (exists s2 full m, nt_fact svals X s = Ok (s2, full, m)).
  { intros (s2 & full & m & E). exists s2, full, m. split; [exact E|]. apply (nt_parts svals X ranks Hr s s2 full m Ho HW E). }
  unfold nt_fact. destruct (unfold_all_total X Hne) as (mats & E1). rewrite E1. cbn [bind].
  assert (E2 : forall n k s, (k + n)%nat = ndims X -> nt_wf X ranks s -> exists s', nt_modes svals mats (seq k n) s = Ok s').
  { clear s HW. induction n as [|n IH]; intros k s Hk HW; cbn [seq nt_modes]; [eauto|].
    rewrite (nt_mode_run svals X ranks ltac:(lia) Hne Hr mats E1 s k HW) by lia. cbn [bind]. apply IH; [lia|]. destruct HW as (HA & HAm & HA0 & Hg & Hgm & Hg0 & HL & HL0).
    split; [apply replace_tucker; [exact HA|apply nt_new_mat]|]. repeat (split; [assumption|]). cbn [q_L q_L0]. rewrite !replace_length. auto. }
  destruct (E2 (ndims X) 0%nat s eq_refl HW) as (s1 & E3). rewrite E3. cbn [bind q_A q_g].
  destruct (nt_sweep svals X ranks Hr mats (ndims X) Hne ltac:(lia) E1 0 s s1 eq_refl HW E3) as ((WA & _ & _ & Wg & _) & _).
  rewrite (tt_extract_ok RLR).
  - cbn [bind]. destruct (metrics_ok X (tucker_tensor (q_g s1) (q_A s1))) as (m & Em); [auto| |rewrite Em; cbn [bind]; eauto].
    change (map nrows (q_A s1) = shp X). pose proof (tf_len X ranks _ WA) as L. apply nth_ext with (d := 0%nat) (d' := 0%nat); rewrite map_length; [exact L|].
    intros k Hk. rewrite (nth_map_lt nrows (q_A s1) k (mkT [] [])) by auto. apply (tf_mat X ranks (q_A s1) WA). lia.
  - apply Wg.
  - rewrite (core_ndims X ranks (q_A s1) WA _ Wg). lia.
  - rewrite (core_ndims X ranks (q_A s1) WA _ Wg). apply (tf_len X ranks _ WA).
  - intros k Hk. rewrite (tf_len X ranks _ WA) in Hk. destruct (core_fits X ranks (q_A s1) WA _ k Wg Hk) as (_ & G2 & G3). auto.
Qed.

Lemma nt_train_total pow svals (X : tensor R) ranks args id w o rnd rndg steps : wf X -> nonempty (shp X) -> nonempty ranks -> (2 <= ndims X <= 13)%nat ->
  o_built o = Some (args, id) -> tucker_factors X ranks rnd -> core_like ranks rndg -> w_path w = true -> (forall i, In i (w_sums w) -> i = id) ->
  (0 < steps)%Z -> a_vi args <> 0%Z -> exists o' h, nt_train pow svals X w o (rnd, rndg) steps = (o', Ok h).
Proof.
  intros HX Hne Hr Ho Hb HA Hg Hw Hid Hst Hint.
  unfold nt_train, obj_train. rewrite Hb, Hw. cbn [negb].
  assert (E : forallb (Nat.eqb id) (w_sums w) = true). { apply forallb_forall. intros i Hi. apply Nat.eqb_eq. symmetry. auto. }
  rewrite E. unfold nt_body, bcu_body. cbn [fst snd]. destruct (Z.leb_spec steps 0); [lia|].
  edestruct (bcu_loop_total (nt_pre svals X) (nt_factors svals X) nt_accept (fun s => Ok (nt_reject s)) args steps (nt_wf X ranks) (nt_wf X ranks)) as (p' & h' & E1).
  - intros s Hs. unfold nt_pre. destruct (nt_core_total svals X ranks s HX ltac:(lia) Hs) as (s1 & -> & W1). cbn [bind]. eauto.
  - intros s Hs. unfold nt_factors. destruct (nt_fact_total svals X ranks s HX Hne Hr Ho Hs) as (s2 & full & m & -> & W2). cbn [bind]. eauto.
  - intros s Hs. apply nt_accept_wf, Hs.
  - intros s Hs. eexists. split; [reflexivity|]. apply nt_reject_wf, Hs.
  - intros step. apply validate_total, Hint.
  - apply nt_init_wf; [exact HA|exact Hg].
  - rewrite E1. eauto.
Qed.

(** ** the factor run only succeeds for orders 2 to 13 *)
Lemma nt_fact_order {T} {NT : Num T} svals (X : tensor T) s p : length (q_A s) = ndims X -> ndims (q_g s) = ndims X -> nt_fact svals X s = Ok p -> (2 <= ndims X <= 13)%nat.
Proof.
  intros HL Hg H. unfold nt_fact in H. apply bind_ok in H as (mats & _ & H). apply bind_ok in H as (s1 & E & H). apply bind_ok in H as (full & E2 & _).
  destruct (ndims X) as [|N] eqn:EN.
  - cbn in E. injection E as <-. cbn [q_g q_A] in E2. destruct (q_A s); [|discriminate]. unfold tt_extract in E2. apply ttm_nil in E2. contradiction.
  - cbn [seq nt_modes] in E. apply bind_ok in E as (s' & E & _). unfold nt_mode in E. apply bind_ok in E as (Y & E & _).
    rewrite <- Hg. apply (ttm_skip0_order (q_g s) Y (q_A s) false); [congruence|exact E].
Qed.

Lemma nt_wf_order (X : tensor R) ranks s : nt_wf X ranks s -> length (q_A s) = ndims X /\ ndims (q_g s) = ndims X.
Proof. intros ((H1 & H2 & _) & _ & _ & [_ H3] & _). split; [exact H1|]. unfold ndims at 1. rewrite H3. exact H2. Qed.

Lemma nt_fact_fails svals (X : tensor R) ranks s : nt_wf X ranks s -> (ndims X < 2 \/ 13 < ndims X)%nat -> exists e, nt_fact svals X s = Raise e.
Proof.
  intros HW Ho. destruct (nt_wf_order X ranks s HW) as [H1 H2]. destruct (nt_fact svals X s) as [p|e] eqn:E; [|eauto]. apply nt_fact_order in E; auto. lia.
Qed.

Lemma c53_fact_any svals (X : tensor R) ranks s s2 full m : spectral svals -> nonempty ranks -> nt_wf X ranks s -> nt_fact svals X s = Ok (s2, full, m) ->
  q_g s2 = q_g s /\ forall n, (n < ndims X)%nat ->
  let A := mixed n (q_A s2) (q_A s) in let f B := / 2 * sqdist X (tucker_tensor (q_g s) (replace n B A)) in let L := nth n (q_L s2) 0 in
  spectral_norm (slice_gram (core_times_others (q_g s) A n) n) L /\
  (L <> 0 -> projected_step f L (mat_at (q_Am s) n) (mat_at (q_A s2) n) /\ descends f L (mat_at (q_Am s) n) (mat_at (q_A s2) n)).
Proof.
  intros HS Hr HW E. destruct (nt_wf_order X ranks s HW) as [H1 H2]. apply (c53_fact svals X ranks Hr s s2 full m HS); auto. apply (nt_fact_order svals X s _ H1 H2 E).
Qed.

Lemma c53_sweep_any svals (X : tensor R) ranks s s2 full m : spectral svals -> wf X -> nonempty ranks -> nt_wf X ranks s -> nt_fact svals X s = Ok (s2, full, m) ->
  q_Am s = q_A s -> (forall M, In M (q_A s) -> nonneg M) -> (forall n, (n < ndims X)%nat -> nth n (q_L s2) 0 <> 0) ->
  sqdist X full <= sqdist X (tucker_tensor (q_g s) (q_A s)) /\ m_obj m = / 2 * sqdist X full.
Proof.
  intros HS HX Hr HW E. destruct (nt_wf_order X ranks s HW) as [H1 H2]. apply (c53_sweep svals X ranks HX Hr s s2 full m HS); auto. apply (nt_fact_order svals X s _ H1 H2 E).
Qed.

(** the number of axes a core run leaves *)
Lemma bshape_rev_length a : forall b r, bshape_rev a b = Some r -> length r = Nat.max (length a) (length b).
Proof.
  induction a as [|x a IH]; intros [|y b] r H; cbn [bshape_rev] in H; try (injection H as <-; reflexivity).
  destruct (bshape_rev a b) as [s|] eqn:E; [|discriminate].
  apply IH in E. cbn [length]. rewrite <- Nat.succ_max_distr, <- E.
  repeat match type of H with context [if ?c then _ else _] => destruct c end; try discriminate; injection H as <-; reflexivity.
Qed.

Lemma bin_ndims {T} {NT : Num T} (op : T -> T -> T) A B C : tf_bin op A B = Ok C -> ndims C = Nat.max (ndims A) (ndims B).
Proof.
  intros H. unfold tf_bin in H. destruct (bshape (shp A) (shp B)) as [s|] eqn:E; [|discriminate]. injection H as <-. unfold ndims. cbn [shp gen].
  unfold bshape in E. destruct (bshape_rev _ _) as [r|] eqn:E'; [|discriminate]. cbn in E. injection E as <-. apply bshape_rev_length in E'. rewrite !rev_length in *. exact E'.
Qed.

Lemma ttm_ndims {T} {NT : Num T} (X : tensor T) A tr Y : ttm X A None tr SkNone = Ok Y -> ndims Y = ndims X.
Proof.
  intros H. unfold ttm in H. cbv zeta iota in H.
  apply bind_ok in H as (tops & Ht & H); apply bind_ok in H as (mops & Hm & H); apply bind_ok in H as (tgt & Htg & H).
  apply set_targets_inv in Htg as [Ltg _]. unfold tf_einsum in H. repeat (match type of H with (if ?b then _ else _) = _ => destruct b end; [discriminate|]).
  injection H as <-. unfold ndims at 1. cbn [shp gen]. rewrite map_length, Ltg. apply mapM_length in Ht. rewrite Ht. apply zrange_length.
Qed.

Lemma nt_modes_L svals (mats : list (tensor R)) modes k : (forall m, In m modes -> m <> k) -> forall s s', nt_modes svals mats modes s = Ok s' -> nth k (q_L s') 0 = nth k (q_L s) 0.
Proof.
  intros Hk. induction modes as [|m l IH]; intros s s' H; cbn [nt_modes] in H; [injection H as <-; reflexivity|].
  apply bind_ok in H as (s1 & E & H). rewrite (IH (fun j Hj => Hk j (or_intror Hj)) _ _ H). unfold nt_mode in E.
  repeat (let x := fresh in let K := fresh in apply bind_ok in E as (x & K & E)). injection E as <-. cbn [q_L].
  rewrite nth_upd. destruct (Nat.eqb_spec k m) as [->|]; [|reflexivity]. exfalso. apply (Hk m); [left; reflexivity|reflexivity].
Qed.

Lemma nt_fact_coreL svals (X : tensor R) s s2 full m : nt_fact svals X s = Ok (s2, full, m) -> nth (ndims X) (q_L s2) 0 = nth (ndims X) (q_L s) 0.
Proof.
  intros H. unfold nt_fact in H. apply bind_ok in H as (mats & _ & H). apply bind_ok in H as (s1 & E & H). apply bind_ok in H as (f & _ & H). apply bind_ok in H as (m' & _ & H).
  injection H as <- _ _. cbn [q_L]. apply (nt_modes_L svals mats (seq 0 (ndims X))); [|exact E]. intros k Hk. apply in_seq in Hk. lia.
Qed.

Lemma nt_core_order svals (X : tensor R) ranks s s1 : nt_wf X ranks s -> nt_core svals X s = Ok s1 -> length (q_A s1) = ndims X /\ ndims (q_g s1) = ndims X.
Proof.
  intros HW E1. destruct (nt_wf_order X ranks s HW) as [N1 N2]. split.
  - unfold nt_core in E1. mon E1. injection E1 as <-. exact N1.
  - unfold nt_core in E1. apply bind_ok in E1 as (AtA & EA & E1). apply bind_ok in E1 as (Lo & _ & E1). apply bind_ok in E1 as (Ln & _ & E1). apply bind_ok in E1 as (Bsq & K1 & E1).
    apply bind_ok in E1 as (XA & K2 & E1). apply bind_ok in E1 as (Gr & K3 & E1). apply bind_ok in E1 as (g' & K4 & E1). injection E1 as <-. cbn [q_g].
    apply ttm_ndims in K1, K2. apply bin_ndims in K3, K4. change (ndims (tf_map nrelu g')) with (ndims g'). rewrite K4.
    change (ndims (tf_map (fun x => ndiv x Ln) Gr)) with (ndims Gr). rewrite K3, K1, K2.
    destruct HW as ((_ & Hr & _) & _ & _ & _ & [_ Hs] & _). unfold ndims in *. rewrite Hs, Hr. lia.
Qed.

Lemma nt_step_order svals (X : tensor R) ranks s s1 p : nt_wf X ranks s -> nt_core svals X s = Ok s1 -> nt_fact svals X s1 = Ok p -> (2 <= ndims X <= 13)%nat.
Proof. intros HW E1 E2. destruct (nt_core_order svals X ranks s s1 HW E1). apply (nt_fact_order svals X s1 p); assumption. Qed.

(** the updates of one training step: the core, then the factors in turn *)
Lemma c53_step svals (X : tensor R) ranks s s1 s2 full m : spectral svals -> wf X -> nonempty ranks -> nt_wf X ranks s ->
  nt_core svals X s = Ok s1 -> nt_fact svals X s1 = Ok (s2, full, m) ->
  (let f C := / 2 * sqdist X (tucker_tensor C (q_A s)) in let L := nth (ndims X) (q_L s2) 0 in
   (exists sig, (forall k, (k < ndims X)%nat -> spectral_norm (gram_of (mat_at (q_A s) k)) (sig k)) /\ L = bigprod (ndims X) sig) /\
   (L <> 0 -> projected_step f L (q_gm s) (q_g s2) /\ descends f L (q_gm s) (q_g s2))) /\
  forall n, (n < ndims X)%nat ->
    let A := mixed n (q_A s2) (q_A s) in let f B := / 2 * sqdist X (tucker_tensor (q_g s2) (replace n B A)) in let L := nth n (q_L s2) 0 in
    spectral_norm (slice_gram (core_times_others (q_g s2) A n) n) L /\
    (L <> 0 -> projected_step f L (mat_at (q_Am s) n) (mat_at (q_A s2) n) /\ descends f L (mat_at (q_Am s) n) (mat_at (q_A s2) n)).
Proof.
  intros HS HX Hr HW E1 E2. pose proof (nt_step_order svals X ranks s s1 _ HW E1 E2) as Ho.
  destruct (nt_core_wf svals X ranks HX s s1 ltac:(lia) HW E1) as (W1 & A1 & A2 & _).
  destruct (c53_core svals X ranks HX Hr s s1 HS ltac:(lia) HW E1) as (_ & C1 & C2).
  destruct (c53_fact_any svals X ranks s1 s2 full m HS Hr W1 E2) as (Eg & F).
  assert (K : nth (ndims X) (q_L s2) 0 = nth (ndims X) (q_L s1) 0) by apply (nt_fact_coreL svals X s1 s2 full m E2).
  cbv zeta in *. rewrite K, Eg. split; [split; [exact C1|exact C2]|]. intros n Hn. specialize (F n Hn). rewrite A1, A2 in F. exact F.
Qed.

(** a whole step (core run, then factor run) from equal extrapolated points *)
Lemma c53_whole svals (X : tensor R) ranks s s1 s2 full m : spectral svals -> wf X -> nonempty ranks -> nt_wf X ranks s ->
  nt_core svals X s = Ok s1 -> nt_fact svals X s1 = Ok (s2, full, m) -> q_Am s = q_A s -> q_gm s = q_g s -> nonneg (q_g s) ->
  (forall M, In M (q_A s) -> nonneg M) -> (forall n, (n <= ndims X)%nat -> nth n (q_L s2) 0 <> 0) ->
  sqdist X full <= sqdist X (tucker_tensor (q_g s) (q_A s)) /\ m_obj m = / 2 * sqdist X full.
Proof.
  intros HS HX Hr HW E1 E2 Ea Eg Hg HA HL. destruct (nt_wf_order X ranks s HW) as [N1 N2].
  pose proof (nt_step_order svals X ranks s s1 _ HW E1 E2) as Ho.
  destruct (nt_core_wf svals X ranks HX s s1 ltac:(lia) HW E1) as (W1 & A1 & A2 & _ & _ & _ & _ & _).
  destruct (c53_core svals X ranks HX Hr s s1 HS ltac:(lia) HW E1) as (_ & _ & D).
  assert (K : nth (ndims X) (q_L s1) 0 = nth (ndims X) (q_L s2) 0).
  { symmetry. apply (nt_fact_coreL svals X s1 s2 full m E2). }
  destruct (c53_sweep_any svals X ranks s1 s2 full m HS HX Hr W1 E2) as [P Q]; [congruence|rewrite A1; exact HA|intros n Hn; apply HL; lia|].
  split; [|exact Q]. eapply Rle_trans; [exact P|]. rewrite A1. destruct D as [_ [_ D]]; [rewrite K; apply HL; lia|].
  rewrite Eg in D. specialize (D Hg). lra.
Qed.

Lemma nt_reach_any pow svals (X : tensor R) ranks rnd rndg s : wf X -> nonempty ranks -> tucker_factors X ranks rnd -> core_like ranks rndg ->
  reach (nt_pre svals X) (nt_factors svals X) nt_accept (fun s => Ok (nt_reject s)) (nt_init pow X rnd rndg) s -> nt_wf X ranks s.
Proof.
  intros HX Hr HR Hg H.
  assert (G : forall s s1 c s2 o, nt_wf X ranks s -> nt_pre svals X s = Ok (s1, c) -> nt_factors svals X s1 = Ok (s2, o) -> nt_wf X ranks s2).
  { clear - HX Hr. intros s s1 c s2 o W E1 E2. unfold nt_pre in E1. apply bind_ok in E1 as (s' & E1 & E). injection E as <- <-.
    unfold nt_factors in E2. apply bind_ok in E2 as ([[s3 full] m] & E2 & E). injection E as <- <-. pose proof (nt_step_order svals X ranks s s' _ W E1 E2) as Ho.
    apply (nt_core_wf svals X ranks HX) in E1; [|lia|exact W]. destruct E1 as (W1 & _). apply (nt_parts svals X ranks Hr s' s3 full m Ho W1 E2). }
  induction H as [|s s1 c s2 o s3 H IH E1 E2 E3|s s1 c s2 o s3 H IH E1 E2 E3].
  - apply nt_init_wf; auto.
  - pose proof (G _ _ _ _ _ IH E1 E2) as W. destruct (nt_accept_wf X ranks s2 W) as (s' & E & W'). congruence.
  - pose proof (G _ _ _ _ _ IH E1 E2) as W. injection E3 as <-. apply nt_reject_wf, W.
Qed.

(** ** example: diag(2, 1) from the all-ones core and factors *)
Definition td : nt_state R := mkNT Ad Ad Ad (mkT [1; 1]%nat [1]) (mkT [1; 1]%nat [1]) (mkT [1; 1]%nat [1]) 1 1 [0; 0; 0] [1; 1; 1] [1; 1; 1].
Lemma Ad_tucker : tucker_factors Xd [1; 1]%nat Ad.
Proof. split; [reflexivity|]. split; [reflexivity|]. intros k Hk. destruct k as [|[|k]]; [split; reflexivity|split; reflexivity|cbn in Hk; lia]. Qed.
Lemma td_wf : nt_wf Xd [1; 1]%nat td.
Proof. pose proof Ad_tucker. repeat (split; [first [assumption | split; reflexivity | reflexivity]|]). reflexivity. Qed.

Lemma core11 g : core_like [1; 1]%nat g -> exists c, g = mkT [1; 1]%nat [c].
Proof. destruct g as [sh d]. intros [Hw Hs]. cbn [shp] in Hs. subst sh. unfold wf in Hw. cbn in Hw. destruct d as [|c [|? ?]]; try discriminate. eauto. Qed.
Lemma mat21 (M : tensor R) : is_mat M 2 1 -> exists x y, M = mkT [2; 1]%nat [x; y].
Proof. destruct M as [sh d]. intros [Hw Hs]. cbn [shp] in Hs. subst sh. unfold wf in Hw. cbn in Hw. destruct d as [|x [|y [|? ?]]]; try discriminate. eauto. Qed.

Lemma ex_c53 svals : spectral svals -> exists s1 s2 full m, nt_core svals Xd td = Ok s1 /\ nt_fact svals Xd s1 = Ok (s2, full, m) /\
  (forall n, (n <= ndims Xd)%nat -> nth n (q_L s2) 0 <> 0).
Proof.
  intros HS. assert (Hne : nonempty (shp Xd)) by (repeat constructor; discriminate). assert (Hr : nonempty [1; 1]%nat) by (repeat constructor; discriminate).
  destruct (nt_core_total svals Xd [1; 1]%nat td eq_refl ltac:(cbn; lia) td_wf) as (s1 & E1 & W1).
  destruct (nt_fact_total svals Xd [1; 1]%nat s1 eq_refl Hne Hr ltac:(cbn; lia) W1) as (s2 & full & m & E2 & W2).
  exists s1, s2, full, m. split; [exact E1|]. split; [exact E2|].
  destruct (c53_step svals Xd [1; 1]%nat td s1 s2 full m HS eq_refl Hr td_wf E1 E2) as ((C1 & C2) & P). change (ndims Xd) with 2%nat in *.
  change (q_A td) with Ad in *. change (q_Am td) with Ad in *. change (q_gm td) with (mkT [1; 1]%nat [1]) in *.
  assert (LC : nth 2 (q_L s2) 0 <> 0).
  { destruct C1 as (sig & Hs & ->). assert (G : forall k, (k < 2)%nat -> sig k <> 0).
    { intros k Hk. specialize (Hs k Hk). destruct k as [|[|k]]; [| |lia]; (eapply spectral_norm_11; [| |exact Hs|]; [reflexivity|reflexivity|]);
      unfold gram_of; rewrite mget_mgen by (cbn; lia); unfold mat_at, Ad, mget, get; cbn; lra. }
    pose proof (G 0%nat ltac:(lia)). pose proof (G 1%nat ltac:(lia)). unfold bigprod. cbn. Rn. intros K. assert (sig 0%nat * sig 1%nat = 0) by lra. apply Rmult_integral in H1. tauto. }
  destruct (C2 LC) as [_ [_ D]]. specialize (D ltac:(intros x [<-|[]]; lra)).
  destruct W2 as (WA & _ & _ & Wg & _). destruct (core11 _ Wg) as (g & Eg). rewrite Eg in *.
  assert (D' : / 2 * ((g - 2)² + 2 * g² + (g - 1)²) <= / 2 * 3).
  { replace ((g - 2)² + 2 * g² + (g - 1)²) with (sqdist Xd (tucker_tensor (mkT [1; 1]%nat [g]) Ad)); [replace 3 with (sqdist Xd (tucker_tensor (mkT [1; 1]%nat [1]) Ad)); [exact D|]|];
    unfold sqdist, Xd, tucker_tensor, Ad, get; cbn; unfold Rsqr; ring. }
  unfold Rsqr in D'. assert (Hg : g <> 0) by nra.
  destruct (mat21 (mat_at (q_A s2) 0)) as (x & y & EA); [destruct WA as (_ & _ & WA); apply (WA 0%nat); cbn; lia|].
  assert (L0 : nth 0 (q_L s2) 0 <> 0).
  { destruct (P 0%nat ltac:(lia)) as (P0 & _). rewrite mixed_0 in P0. eapply spectral_norm_11; [| |exact P0|]; [reflexivity|reflexivity|].
    unfold slice_gram. rewrite mget_mgen by (cbn; lia). unfold Ad, get; cbn. nra. }
  assert (L1 : nth 1 (q_L s2) 0 <> 0).
  { destruct (P 0%nat ltac:(lia)) as (_ & P0). destruct (P0 L0) as [_ [_ D0]]. rewrite mixed_0, EA in D0. change (mat_at Ad 0) with (mkT [2; 1]%nat [1; 1]) in D0. specialize (D0 ltac:(intros z [<-|[<-|[]]]; lra)).
    assert (D1 : / 2 * ((x * g - 2)² + (x * g)² + (y * g)² + (y * g - 1)²) <= / 2 * ((g - 2)² + 2 * g² + (g - 1)²)).
    { replace ((x * g - 2)² + (x * g)² + (y * g)² + (y * g - 1)²) with (sqdist Xd (tucker_tensor (mkT [1; 1]%nat [g]) (replace 0 (mkT [2; 1]%nat [x; y]) Ad)));
      [replace ((g - 2)² + 2 * g² + (g - 1)²) with (sqdist Xd (tucker_tensor (mkT [1; 1]%nat [g]) (replace 0 (mkT [2; 1]%nat [1; 1]) Ad))); [exact D0|]|];
      unfold sqdist, Xd, tucker_tensor, Ad, get; cbn; unfold Rsqr; ring. }
    unfold Rsqr in D1. assert (Hxy : x <> 0 \/ y <> 0).
    { destruct (Req_dec x 0) as [->|]; [|tauto]. destruct (Req_dec y 0) as [->|]; [|tauto]. exfalso. nra. }
    destruct (P 1%nat ltac:(lia)) as (P1 & _).
    assert (EM : mixed 1 (q_A s2) Ad = [mkT [2; 1]%nat [x; y]; mkT [2; 1]%nat [1; 1]]).
    { destruct WA as (LA & _). change (ndims Xd) with 2%nat in LA. destruct (q_A s2) as [|a0 [|a1 [|a2 l]]]; try (cbn in LA; lia). unfold mat_at in EA. cbn [nth] in EA. rewrite EA. reflexivity. }
    rewrite EM in P1. eapply spectral_norm_11; [| |exact P1|]; [reflexivity|reflexivity|].
    unfold slice_gram. rewrite mget_mgen by (cbn; lia). unfold get; cbn.
    assert (0 < g * g) by (destruct (Rtotal_order g 0) as [?|[?|?]]; [nra|contradiction|nra]).
    assert (0 < x * x + y * y).
    { destruct Hxy as [H1|H1]; destruct (Rtotal_order x 0) as [?|[?|?]]; destruct (Rtotal_order y 0) as [?|[?|?]]; nra. }
    nra. }
  intros n Hn. destruct n as [|[|[|n]]]; [exact L0|exact L1|exact LC|lia].
Qed.

Lemma nt_step_total svals (X : tensor R) ranks s : wf X -> nonempty (shp X) -> nonempty ranks -> (2 <= ndims X <= 13)%nat -> nt_wf X ranks s ->
  exists s1 s2 full m, nt_core svals X s = Ok s1 /\ nt_fact svals X s1 = Ok (s2, full, m).
Proof.
  intros HX Hne Hr Ho HW. destruct (nt_core_total svals X ranks s HX ltac:(lia) HW) as (s1 & E1 & W1).
  destruct (nt_fact_total svals X ranks s1 HX Hne Hr Ho W1) as (s2 & full & m & E2 & _). exists s1, s2, full, m. auto.
Qed.
