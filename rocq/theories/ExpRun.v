(** The four experiment scripts from the draws to the written lines (C111). *)

From Coq Require Import ZArith List Bool Arith Lia Reals Lra.
From Verif Require Import Num Py Tensor TF TensorFacts TFFacts Sums Ops OpsLemmas Types Loss Fact Train Spec SpecR SpecFacts RSums MatR KronAlg NormFacts LossFacts SpecTrain TrainFacts TrainLemmas
  SpecCp SpecProx SpecTucker TuckerFacts TuckerRun TuckerLemmas AlsFacts AlsLemmas NcpFacts NcpLemmas NtFacts NtLemmas Retry QuasiOpt DataGen DataFacts SpecData DataRecover
  Process SpecProc ProcFacts Experiment SpecExp ExpFacts.
Import ListNotations.
Local Open Scope R_scope.

Section Scripts.
  Variables N1 N2 N3 : nat.
  Let N := [N1; N2; N3].
  Hypothesis HN : nonempty N.

  Lemma cp_script_data cast r rand randn : (forall x, 0 <= x -> 0 <= cast F32 x) -> cp_draws N r rand randn ->
    synthetic_data_cp cast N rand randn 0 = Ok (cp_tensor r (ones r) (map (tf_map (cast F32)) (drawn 3 rand))) /\
    shp (cp_tensor r (ones r) (map (tf_map (cast F32)) (drawn 3 rand))) = N.
  Proof.
    intros HC HD. assert (Es : shp (cp_tensor r (ones r) (map (tf_map (cast F32)) (drawn 3 rand))) = N).
    { cbn. unfold nrows. cbn. destruct HD as (HD & _). rewrite (proj2 (HD 0%nat ltac:(cbn; lia))), (proj2 (HD 1%nat ltac:(cbn; lia))), (proj2 (HD 2%nat ltac:(cbn; lia))). reflexivity. }
    split; [|exact Es]. destruct (c65_cp cast HC N r rand randn 0) as (X & E & _); [discriminate|cbn; lia|apply HD|apply HD|].
    rewrite E. f_equal. rewrite (cp_data cast N r rand randn 0 X ltac:(discriminate) HD E). cbn [N length]. apply no_noise; [apply wf_gen|exact Es].
  Qed.
  Lemma tucker_script_shape rk randg rand randn : tucker_draws N rk randg rand randn -> shp (tucker_tensor (positive_part randg) (drawn 3 rand)) = N.
  Proof.
    intros (_ & _ & _ & HD & _). cbn. unfold nrows. cbn. rewrite (proj2 (HD 0%nat ltac:(cbn; lia))), (proj2 (HD 1%nat ltac:(cbn; lia))), (proj2 (HD 2%nat ltac:(cbn; lia))). reflexivity.
  Qed.
  Lemma tucker_script_data rk noise randg rand randn : tucker_draws N rk randg rand randn -> synthetic_data_tucker N randg rand randn noise = Ok (with_noise N (tucker_tensor (positive_part randg) (drawn 3 rand)) noise randn).
  Proof.
    intros HD. pose proof HD as (A1 & A2 & A3 & A4 & A5 & A6). destruct (c65_tucker N rk randg rand randn noise) as (X & E & _); auto; [discriminate|cbn; lia|].
    rewrite E. f_equal. apply (tucker_data N rk randg rand randn noise X ltac:(discriminate) ltac:(cbn; lia) HD E).
  Qed.

  Variables (rand : nat -> list nat -> tensor R) (randn : list nat -> tensor R).
  Hypothesis HG : generator rand randn.
  Lemma gen_cp r : cp_draws N r (fun ii => rand ii [nth ii N 0%nat; r]) (randn N).
  Proof. split; [intros k _; apply (proj1 HG)|apply (proj2 HG)]. Qed.
  Lemma gen_tucker r : tucker_draws N [r; r; r] (rand 0%nat [r; r; r]) (fun ii => rand (S ii) [nth ii N 0%nat; nth ii [r; r; r] 0%nat]) (randn N).
  Proof. split; [apply (proj1 HG)|]. split; [apply (proj1 HG)|]. split; [reflexivity|]. split; [intros k _; apply (proj1 HG)|apply (proj2 HG)]. Qed.

  Lemma c111_cp cast pinv gR dR A X : (forall x, 0 <= x -> 0 <= cast F32 x) -> penrose pinv ->
    X = cp_model cast rand N1 N2 N3 gR -> cp_factors X dR A ->
    exists h, cp_ex cast pinv rand randn N1 N2 N3 gR dR A = Ok h /\ output_about X (cp_kind X dR) 600 h.
  Proof.
    intros HC HP EX HA. destruct (cp_script_data cast gR _ _ HC (gen_cp gR)) as [E Es].
    change (cp_tensor gR (ones gR) (map (tf_map (cast F32)) (drawn 3 (fun ii : nat => rand ii [nth ii N 0%nat; gR])))) with (cp_model cast rand N1 N2 N3 gR) in E, Es.
    rewrite <- EX in E, Es. unfold cp_ex, cp_synthetic. fold N. rewrite (experiment_alone _ _ _ _ _ X E), cp_alone. cbn [x_t x_rank].
    destruct (cp_output X ltac:(rewrite EX; apply wf_gen) ltac:(rewrite Es; exact HN) ltac:(unfold ndims; rewrite Es; reflexivity) pinv dR (mkArgs (1 / 10000) 50 false) A 600 HP HA ltac:(lia) ltac:(discriminate)) as (h & Eh & Ho).
    rewrite Eh. eexists. split; [reflexivity|exact Ho].
  Qed.
  Lemma c111_ncp cast pow svals gR dR A X : (forall x, 0 <= x -> 0 <= cast F32 x) ->
    X = cp_model cast rand N1 N2 N3 gR -> cp_factors X dR A ->
    exists h, ncp_ex cast pow svals rand randn N1 N2 N3 gR dR A = Ok h /\ output_about X (ncp_kind X dR) 6000 h.
  Proof.
    intros HC EX HA. destruct (cp_script_data cast gR _ _ HC (gen_cp gR)) as [E Es].
    change (cp_tensor gR (ones gR) (map (tf_map (cast F32)) (drawn 3 (fun ii : nat => rand ii [nth ii N 0%nat; gR])))) with (cp_model cast rand N1 N2 N3 gR) in E, Es.
    rewrite <- EX in E, Es. unfold ncp_ex, cp_synthetic. fold N. rewrite (experiment_alone _ _ _ _ _ X E), ncp_alone. cbn [x_t x_rank].
    destruct (ncp_output X ltac:(rewrite EX; apply wf_gen) ltac:(rewrite Es; exact HN) ltac:(unfold ndims; rewrite Es; reflexivity) pow svals dR (mkArgs (1 / 10000) 200 false) A 6000 HA ltac:(lia) ltac:(discriminate)) as (h & Eh & Ho).
    rewrite Eh. eexists. split; [reflexivity|exact Ho].
  Qed.

  Lemma tucker_gen_data noise gR : tucker_synthetic rand randn N [gR; gR; gR] noise = Ok (with_noise N (tucker_model rand N1 N2 N3 gR) noise (randn N)).
  Proof. exact (tucker_script_data _ noise _ _ _ (gen_tucker gR)). Qed.
  Lemma tucker_gen_shape gR : shp (tucker_model rand N1 N2 N3 gR) = N.
  Proof. exact (tucker_script_shape _ _ _ _ (gen_tucker gR)). Qed.

  Lemma c111_ntucker pow svals gR dR A g X : (0 < dR)%nat ->
    X = tucker_model rand N1 N2 N3 gR -> tucker_factors X [dR; dR; dR] A -> core_like [dR; dR; dR] g ->
    exists h, ntucker_ex pow svals rand randn N1 N2 N3 gR dR A g = Ok h /\ output_about X (ntucker_kind X [dR; dR; dR]) 10000 h.
  Proof.
    intros Hd EX HA Hg. pose proof (tucker_gen_data 0 gR) as E. pose proof (tucker_gen_shape gR) as Es.
    unfold with_noise in E. rewrite (no_noise N (tucker_model rand N1 N2 N3 gR) (get (randn N)) (wf_gen _ _) Es) in E. rewrite <- EX in E, Es. unfold ntucker_ex. fold N. rewrite (experiment_alone _ _ _ _ _ X E), nt_alone. cbn [x_t].
    assert (Hr : nonempty [dR; dR; dR]) by (repeat constructor; lia).
    destruct (nt_output X ltac:(rewrite EX; apply wf_gen) ltac:(rewrite Es; exact HN) ltac:(unfold ndims; rewrite Es; reflexivity) pow svals [dR; dR; dR] (mkArgs (1 / 10000) 500 false) A g 10000 Hr HA Hg ltac:(lia) ltac:(discriminate)) as (h & Eh & Ho).
    rewrite Eh. eexists. split; [reflexivity|exact Ho].
  Qed.

  Lemma tucker_alone noise svdU gR dR :
    tucker_with_noise noise svdU rand randn N1 N2 N3 gR dR =
    match snd (hooi_train svdU (with_noise N (tucker_model rand N1 N2 N3 gR) noise (randn N)) (mkW [0%nat] true) (mkObj (Some ((mkArgs (1 / 10000) 10 false, map Z.of_nat [dR; dR; dR]), 0%nat)) pub0) tt 100) with
    | Ok h => Ok (map (fun it => (fst it, snd it)) h) | Raise e => Raise e end.
  Proof. unfold tucker_with_noise. fold N. rewrite (experiment_alone _ _ _ _ _ _ (tucker_gen_data noise gR)), hooi_alone. reflexivity. Qed.

  Lemma fits_three dR : (0 < dR)%nat -> (dR <= N1)%nat -> (dR <= N2)%nat -> (dR <= N3)%nat ->
    forall n, (n < 3)%nat -> (nth n [dR; dR; dR] 0 <= Nat.min (nth n N 0) (Nat.min (rest n N) (rest n [dR; dR; dR])))%nat.
  Proof. intros H0 H1 H2 H3 n Hn. assert (n = 0 \/ n = 1 \/ n = 2)%nat as [->|[->| ->]] by lia; unfold rest, N; cbn; nia. Qed.

  Lemma c111_tucker noise svdU gR dR X : left_svd svdU ->
    (0 < dR)%nat -> (dR <= N1)%nat -> (dR <= N2)%nat -> (dR <= N3)%nat -> X = with_noise N (tucker_model rand N1 N2 N3 gR) noise (randn N) ->
    exists h, tucker_with_noise noise svdU rand randn N1 N2 N3 gR dR = Ok h /\ output_about X (tucker_kind X [dR; dR; dR]) 100 h.
  Proof.
    intros HU H0 H1 H2 H3 EX. rewrite (tucker_alone noise svdU gR dR), <- EX.
    assert (Hr : nonempty [dR; dR; dR]) by (repeat constructor; lia). assert (Es : shp X = N) by (rewrite EX; reflexivity).
    assert (E3 : ndims X = 3%nat) by (unfold ndims; rewrite Es; reflexivity).
    destruct (hooi_output X ltac:(rewrite EX; apply wf_gen) ltac:(rewrite Es; exact HN) E3 svdU [dR; dR; dR] (mkArgs (1 / 10000) 10 false) 100 HU Hr) as (h & Eh & Ho); [rewrite E3; reflexivity|rewrite Es, E3; apply fits_three; assumption|lia|discriminate|].
    rewrite Eh. eexists. split; [reflexivity|exact Ho].
  Qed.
  Lemma c111_tucker_rejects noise svdU gR dR : left_svd svdU ->
    (N1 < dR \/ N2 < dR \/ N3 < dR)%nat -> tucker_with_noise noise svdU rand randn N1 N2 N3 gR dR = Raise ValueError.
  Proof.
    intros HU HR. rewrite (tucker_alone noise svdU gR dR). set (X := with_noise N (tucker_model rand N1 N2 N3 gR) noise (randn N)).
    unfold hooi_train, obj_train. cbn -[hooi_body map]. unfold hooi_body. cbn -[hooi_init map X].
    rewrite (c54_init_rejects svdU X (map Z.of_nat [dR; dR; dR]) HU (wf_gen _ _) HN eq_refl); [reflexivity|].
    destruct HR as [H|[H|H]]; [exists 0%nat|exists 1%nat|exists 2%nat]; (split; [cbn; lia|right; cbn [map nth X with_noise shp gen N]; lia]).
  Qed.

  Lemma c111_tucker_bound noise svdU gR dR X h : left_svd svdU ->
    (0 < dR)%nat -> (gR <= dR)%nat -> X = with_noise N (tucker_model rand N1 N2 N3 gR) noise (randn N) ->
    tucker_with_noise noise svdU rand randn N1 N2 N3 gR dR = Ok h ->
    forall l, In l h -> snd l <= sqrt (3 * noise_energy noise (randn N)) / sqrt (sqlen X).
  Proof.
    intros HU H0 Hg EX. rewrite (tucker_alone noise svdU gR dR), <- EX. destruct (hooi_train _ _ _ _ _ _) as [o' [h'|e]] eqn:E; intros Eh; [|discriminate Eh]. injection Eh as <-.
    assert (Hr : nonempty [dR; dR; dR]) by (repeat constructor; lia). assert (Es : shp X = N) by (rewrite EX; reflexivity). assert (HX : wf X) by (rewrite EX; apply wf_gen).
    assert (E3 : ndims X = 3%nat) by (unfold ndims; rewrite Es; reflexivity). assert (Hne : nonempty (shp X)) by (rewrite Es; exact HN).
    destruct (hooi_published svdU X (mkW [0%nat] true) (mkObj (Some ((mkArgs (1 / 10000) 10 false, map Z.of_nat [dR; dR; dR]), 0%nat)) pub0) tt 100 o' h' (mkArgs (1 / 10000) 10 false) (map Z.of_nat [dR; dR; dR]) 0%nat eq_refl E) as (A0 & os & ob & Hi & Hrn & _ & _ & Hh & _).
    destruct (tucker_draws_factors N _ _ _ _ X (gen_tucker gR) Es) as [F1 F2].
    pose proof (hooi_run_quasi svdU X [dR; dR; dR] HU HX Hne Hr ltac:(rewrite E3; reflexivity) A0 os [gR; gR; gR] _ _ Hi Hrn F1 F2) as HQ.
    intros l Hl. apply in_map_iff in Hl as (e & <- & He). subst h'. apply in_map_iff in He as (o & <- & Ho). 
    assert (HM : metrics_of X (ob_full o) = Ok (ob_met o)).
    { assert (HF : factor_state X [dR; dR; dR] A0).
      { destruct (hooi_init_cases svdU X [dR; dR; dR] HU Hne ltac:(rewrite E3; reflexivity)) as [G1 G2]. 
        destruct (Exists_dec (fun n => Nat.min (nth n (shp X) 0) (rest n (shp X)) < nth n [dR; dR; dR] 0)%nat (seq 0 3) (fun n => Compare_dec.lt_dec _ _)) as [D|D].
        - apply Exists_exists in D as (n & Hn & D). apply in_seq in Hn. rewrite G2 in Hi; [discriminate Hi|]. exists n. split; [lia|exact D].
        - destruct G1 as (A1 & E1 & K1); [|congruence]. intros n Hn. apply Nat.nlt_ge. intros K. apply D. apply Exists_exists. exists n. split; [apply in_seq; lia|exact K]. }
      revert o Ho. apply (als_inv _ (factor_state X [dR; dR; dR]) _ A0 os Hrn HF).
      intros s s' o HFs H. unfold hooi_run in H. apply bind_ok in H as (q & Eq & H). injection H as <- <-.
      destruct (hooi_step_ok svdU X [dR; dR; dR] HU HX Hne Hr ltac:(rewrite E3; reflexivity) ltac:(lia) s q HFs Eq) as (K1 & K2 & K3 & _ & K4). split; [exact K1|exact K4]. }
    destruct (metrics_line X _ _ HX HM) as [_ L]. cbn [snd fst entry] in L |- *. unfold entry. cbn [fst snd]. rewrite L.
    unfold Rdiv. apply Rmult_le_compat_r.
    - destruct (Req_dec (sqrt (sqlen X)) 0) as [K|K]; [rewrite K, Rinv_0; lra|]. left. apply Rinv_0_lt_compat. pose proof (sqrt_pos (sqlen X)). lra.
    - apply sqrt_le_1_alt. eapply Rle_trans; [apply (HQ ltac:(intros n Hn; rewrite E3 in Hn; destruct n as [|[|[|n]]]; cbn; lia) o Ho)|].
      rewrite E3. right. f_equal; [cbn; lra|]. apply (noise_dist N _ (randn N) X noise); [apply (proj2 HG)|exact EX].
  Qed.
  Lemma c111_tucker_exact svdU gR dR : left_svd svdU ->
    (0 < dR)%nat -> (gR <= dR)%nat -> (dR <= N1)%nat -> (dR <= N2)%nat -> (dR <= N3)%nat ->
    (exists i, valid N i /\ get (tucker_model rand N1 N2 N3 gR) i <> 0) ->
    tucker_with_noise 0 svdU rand randn N1 N2 N3 gR dR = Ok [(0, 0)].
  Proof.
    intros HU H0 Hg H1 H2 H3 (i & Hi & Hnz). set (X := with_noise N (tucker_model rand N1 N2 N3 gR) 0 (randn N)).
    destruct (c111_tucker 0 svdU gR dR X HU H0 H1 H2 H3 eq_refl) as (h & Eh & _). rewrite Eh. f_equal. revert Eh.
    rewrite (tucker_alone 0 svdU gR dR). fold X. destruct (hooi_train _ _ _ _ _ _) as [o' [h'|e]] eqn:E; intros Eh; [|discriminate Eh]. injection Eh as <-.
    assert (Hr : nonempty [dR; dR; dR]) by (repeat constructor; lia).
    destruct (c79_hooi_tucker svdU N [gR; gR; gR] _ _ _ 0 X [dR; dR; dR] (mkW [0%nat] true) (mkObj (Some ((mkArgs (1 / 10000) 10 false, map Z.of_nat [dR; dR; dR]), 0%nat)) pub0) tt 100 o' h' (mkArgs (1 / 10000) 10 false) 0%nat HU HN ltac:(discriminate) (gen_tucker gR)
      (tucker_gen_data 0 gR) Hr eq_refl ltac:(intros k Hk; destruct k as [|[|[|k]]]; cbn in Hk |- *; lia) eq_refl E) as (F & _ & _ & K).
    destruct (K eq_refl) as [_ K2]. rewrite K2; [reflexivity|cbn; lra|]. exists i. split; [exact Hi|]. unfold X, with_noise. rewrite get_gen by exact Hi. rewrite Rmult_0_l, (Rmax_left 0 0) by lra. rewrite Rplus_0_r. exact Hnz.
  Qed.
End Scripts.
