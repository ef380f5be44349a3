(** Lemmas about the demo scripts (C113). *)

From Coq Require Import ZArith List Bool Arith Lia Reals Lra.
From Verif Require Import Num Py Tensor TF TensorFacts TFFacts Sums Ops OpsLemmas Types Loss Fact Train Spec SpecR SpecFacts RSums MatR KronAlg NormFacts LossFacts SpecTrain TrainFacts TrainLemmas
  SpecCp SpecProx SpecTucker TuckerFacts TuckerRun TuckerLemmas AlsFacts AlsLemmas NcpFacts NcpLemmas NtFacts NtLemmas Retry QuasiOpt DataGen DataFacts SpecData DataRecover
  Process SpecProc ProcFacts Experiment SpecExp ExpFacts ExpRun Demo.
Import ListNotations.
Local Open Scope R_scope.

(** the attributes of one decomposition in a new process *)
Lemma demo_alone data c a d steps X : data = Ok X ->
  demo data c a d steps = match result (mkJob (c X) a d steps) with
                          | Ok h => Ok (p_factors (model (mkJob (c X) a d steps)), p_aux (model (mkJob (c X) a d steps)))
                          | Raise e => Raise e end.
Proof.
  intros ->. unfold demo. cbn [bind run exec start p_objs nth_error app length p_sums current p_stack hd p_dflt nth obj_build b_obj b_path w_sums upd b_cls p_ph fresh].
  unfold result, model, alone, ptrain. cbn -[obj_train]. destruct (obj_train _ _ _ _ _ _ _) as [o [h|e]]; reflexivity.
Qed.
Lemma cp_model_alone pinv X a A g steps : model (mkJob (CP_ALS pinv X) a (mkDr A g) steps) = o_pub (fst (cp_train pinv X (mkW [0%nat] true) (mkObj (Some ((x_t a, x_rank a), 0%nat)) pub0) A steps)).
Proof. unfold model, alone, cp_train, obj_train. cbn -[cp_body]. destruct (cp_body _ _ _ _ _ _ _) as [p [h|e]]; reflexivity. Qed.
Lemma hooi_model_alone svdU X a d steps : model (mkJob (HOOI svdU X) a d steps) = o_pub (fst (hooi_train svdU X (mkW [0%nat] true) (mkObj (Some ((x_t a, x_ranks a), 0%nat)) pub0) tt steps)).
Proof. unfold model, alone, hooi_train, obj_train. cbn -[hooi_body]. destruct (hooi_body _ _ _ _ _ _ _) as [p [h|e]]; reflexivity. Qed.

(** the attributes are those of the last run *)
Lemma last_of {A} (l : list A) : l <> [] -> exists x, nth_error l (length l - 1) = Some x.
Proof. intros H. destruct (nth_error l (length l - 1)) eqn:E; [eauto|]. apply nth_error_None in E. destruct l; [congruence|cbn in E; lia]. Qed.
Lemma cp_attrs pinv (X : tensor R) w o rnd steps o' h args r id : o_built o = Some ((args, r), id) -> cp_train pinv X w o rnd steps = (o', Ok h) ->
  exists os ob, als_run (cp_run pinv X r) rnd os /\ In ob os /\ p_factors (o_pub o') = Some (ob_factors ob) /\ forall x, ob_aux ob = Some x -> p_aux (o_pub o') = Some x.
Proof.
  intros Hb H. apply train_ok in H as ([args' rank'] & id' & p & p' & Hb' & _ & _ & H & ->). rewrite Hb in Hb'. injection Hb' as <- <- <-.
  bodies H. apply als_body_ok in H as (s0 & os & Hi & Hr & Hh & Hs & (_ & _ & HL & _) & _). cbn [fst snd] in *. injection Hi as <-.
  assert (Hn : os <> []) by (intros ->; destruct Hs as [Hs _]; cbn in Hs; lia). destruct (last_of os Hn) as (ob & E). destruct (HL ob E) as [L1 L2].
  exists os, ob. split; [exact Hr|]. split; [apply nth_error_In in E; exact E|]. split; [exact L1|exact L2].
Qed.
Lemma hooi_attrs svdU (X : tensor R) w o rnd steps o' h args ranks id : o_built o = Some ((args, ranks), id) -> hooi_train svdU X w o rnd steps = (o', Ok h) ->
  exists A0 os ob, hooi_init svdU X ranks = Ok A0 /\ als_run (hooi_run svdU X ranks) A0 os /\ In ob os /\ p_factors (o_pub o') = Some (ob_factors ob) /\ forall x, ob_aux ob = Some x -> p_aux (o_pub o') = Some x.
Proof.
  intros Hb H. apply train_ok in H as ([args' rank'] & id' & p & p' & Hb' & _ & _ & H & ->). rewrite Hb in Hb'. injection Hb' as <- <- <-.
  bodies H. apply als_body_ok in H as (s0 & os & Hi & Hr & Hh & Hs & (_ & _ & HL & _) & _). cbn [fst snd] in *.
  assert (Hn : os <> []) by (intros ->; destruct Hs as [Hs _]; cbn in Hs; lia). destruct (last_of os Hn) as (ob & E). destruct (HL ob E) as [L1 L2].
  exists s0, os, ob. split; [exact Hi|]. split; [exact Hr|]. split; [apply nth_error_In in E; exact E|]. split; [exact L1|exact L2].
Qed.

Lemma ncp_model_alone pow svals X a A g steps : model (mkJob (NCP_BCU pow svals X) a (mkDr A g) steps) = o_pub (fst (ncp_train pow svals X (mkW [0%nat] true) (mkObj (Some ((x_t a, x_rank a), 0%nat)) pub0) A steps)).
Proof. unfold model, alone, ncp_train, obj_train. cbn -[ncp_body]. destruct (ncp_body _ _ _ _ _ _ _ _) as [p [h|e]]; reflexivity. Qed.
Lemma ncp_attrs pow svals (X : tensor R) w o rnd steps o' h args r id : o_built o = Some ((args, r), id) -> ncp_train pow svals X w o rnd steps = (o', Ok h) ->
  exists os ob, bcu_run (ncp_run svals X) (fun s => Ok (s, None)) ncp_accept (fun s => Ok (ncp_reject s)) (ncp_init pow X rnd) os /\ In ob os /\
    p_factors (o_pub o') = Some (ob_factors ob) /\ p_aux (o_pub o') = Some (tf_ones [1; r]%nat).
Proof.
  intros Hb H. apply train_ok in H as ([args' rank'] & id' & p & p' & Hb' & _ & _ & H & ->). rewrite Hb in Hb'. injection Hb' as <- <- <-.
  bodies H. apply bcu_body_ok in H as (s0 & os & p1 & Hi & Hr & (Hh & Hs & (_ & _ & HL & _) & _) & -> & _). cbn [fst snd] in *. injection Hi as <-.
  assert (Hn : os <> []) by (intros ->; destruct Hs as [Hs _]; cbn in Hs; lia). destruct (last_of os Hn) as (ob & E). destruct (HL ob E) as [L1 _].
  exists os, ob. split; [exact Hr|]. split; [apply nth_error_In in E; exact E|]. split; [exact L1|reflexivity].
Qed.

Lemma nt_model_alone pow svals X a A g steps : model (mkJob (NTUCKER_BCU pow svals X) a (mkDr A g) steps) = o_pub (fst (nt_train pow svals X (mkW [0%nat] true) (mkObj (Some (x_t a, 0%nat)) pub0) (A, g) steps)).
Proof. unfold model, alone, nt_train, obj_train. cbn -[nt_body]. destruct (nt_body _ _ _ _ _ _ _ _) as [p [h|e]]; reflexivity. Qed.
(** the published core is the one the last run of the factors used *)
Lemma nt_attrs pow svals (X : tensor R) w o A g steps o' h args id (P : nt_state R -> Prop) : o_built o = Some (args, id) -> nt_train pow svals X w o (A, g) steps = (o', Ok h) ->
  P (nt_init pow X A g) ->
  (forall s s1 c s2 ob s3, P s -> nt_pre svals X s = Ok (s1, c) -> nt_factors svals X s1 = Ok (s2, ob) -> nt_accept s2 = Ok s3 \/ Ok (nt_reject s2) = Ok s3 -> P s3) ->
  exists s s1 s2 ob, P s /\ nt_core svals X s = Ok s1 /\ nt_factors svals X s1 = Ok (s2, ob) /\
    p_factors (o_pub o') = Some (ob_factors ob) /\ p_aux (o_pub o') = Some (q_g s1).
Proof.
  intros Hb H H0 HP. apply train_ok in H as (args' & id' & p & p' & Hb' & _ & _ & H & ->). rewrite Hb in Hb'. injection Hb' as <- <-.
  bodies H. unfold bcu_body in H. cbn [fst snd] in H. destruct (Z.leb_spec steps 0) as [Hs|Hs]; [discriminate H|]. rewrite bcu_gen in H.
  destruct (gen_loop _ _ _ _ _ _ _ _ _ _ _ _ _ _) as [p1 [h1|]] eqn:E; [|discriminate H]. injection H as <- <-.
  apply loop_done in E as (os & (st & S0 & ST) & (_ & Hst & (_ & _ & HL & _) & _)); [|exact Hs].
  assert (Hn : os <> []) by (intros ->; destruct Hst as [Hst _]; cbn in Hst; lia). destruct (last_of os Hn) as (ob & Eo). destruct (HL ob Eo) as [L1 _].
  assert (G : forall k, (k < length os)%nat -> P (st k)).
  { induction k as [|k IH]; intros Hk; [rewrite S0; exact H0|]. destruct (nth_error os k) as [o1|] eqn:Ek; [|apply nth_error_None in Ek; lia].
    destruct (ST k o1 Ek) as (s1 & c & s2 & E1 & E2 & _ & E3). specialize (E3 Hk). apply (HP (st k) s1 c s2 o1 _ (IH ltac:(lia)) E1 E2). destruct (nltb _ _); [left|right]; exact E3. }
  assert (Hk : (length os - 1 < length os)%nat) by (destruct os; [congruence|cbn; lia]).
  destruct (ST _ ob Eo) as (s1 & c & s2 & E1 & E2 & E3 & _). pose proof E1 as E1'. unfold nt_pre in E1'. apply bind_ok in E1' as (s1' & Ec & E1'). injection E1' as -> <-.
  exists (st (length os - 1)%nat), s1, s2, ob. split; [apply G, Hk|]. split; [exact Ec|]. split; [exact E2|]. split; [exact L1|].
  cbn [o_pub set_finish set_aux p_aux]. apply E3; [lia| |reflexivity]. unfold nt_factors in E2. apply bind_ok in E2 as ([[? ?] ?] & _ & E2). injection E2 as _ <-. reflexivity.
Qed.

Lemma ne20 : nonempty [20; 20; 20]%nat.
Proof. repeat constructor; lia. Qed.

Section Scripts.
  Variable n : nat.
  Let N := [n; n; n].
  Hypothesis HN : nonempty N.
  Variables (rand : nat -> list nat -> tensor R) (randn : list nat -> tensor R).
  Hypothesis HG : generator rand randn.

  Lemma cp_noisy_data cast r noise : (forall x, 0 <= x -> 0 <= cast F32 x) ->
    cp_synthetic cast rand randn N r noise = Ok (with_noise N (cp_model cast rand n n n r) noise (randn N)).
  Proof.
    intros HC. pose proof (gen_cp n n n rand randn HG r) as HD. fold N in HD. destruct (c65_cp cast HC N r (fun ii => rand ii [nth ii N 0%nat; r]) (randn N) noise) as (X & E & _); [discriminate|cbn; lia|apply HD|apply HD|].
    unfold cp_synthetic. rewrite E. f_equal. rewrite (cp_data cast N r _ _ noise X ltac:(discriminate) HD E). reflexivity.
  Qed.

  Lemma c113_cp cast pinv r noise args A steps X : (forall x, 0 <= x -> 0 <= cast F32 x) -> penrose pinv -> (0 < steps)%Z -> a_vi args <> 0%Z ->
    X = with_noise N (cp_model cast rand n n n r) noise (randn N) -> cp_factors X r A ->
    exists B lam, demo (cp_synthetic cast rand randn N r noise) (CP_ALS pinv) (mkX args r []) (mkDr A (mkT [] [])) steps = Ok (Some B, Some lam) /\
      cp_factors X r B /\ shp lam = [r] /\
      ((forall q, (q < r)%nat -> get lam [q] <> 0) -> forall C, is_mat C n r ->
         sqdist X (cp_tensor r (mgen r 1 (fun q _ => get lam [q])) B) <= sqdist X (cp_tensor r (ones r) (replace 2 C B))).
  Proof.
    intros HC HP Hs Hv EX HA. assert (HX : wf X) by (rewrite EX; apply wf_gen). assert (Es : shp X = N) by (rewrite EX; reflexivity).
    assert (E3 : ndims X = 3%nat) by (unfold ndims; rewrite Es; reflexivity).
    rewrite (demo_alone _ _ _ _ _ X (eq_trans (cp_noisy_data cast r noise HC) (f_equal Ok (eq_sym EX)))), cp_alone, cp_model_alone. cbn [x_t x_rank].
    destruct (cp_train_total pinv X r args 0%nat (mkW [0%nat] true) (mkObj (Some ((args, r), 0%nat)) pub0) A steps) as (o & h & E); auto; [rewrite Es; exact HN|lia|intros i [<-|[]]; reflexivity|].
    rewrite E. cbn [fst snd]. destruct (cp_attrs pinv X (mkW [0%nat] true) (mkObj (Some ((args, r), 0%nat)) pub0) A steps o h args r 0%nat eq_refl E) as (os & ob & HR & Hin & Ef & Ea).
    assert (HO : exists q s, cp_factors X r s /\ cp_step pinv X r s = Ok q /\ ob_factors ob = cp_A q /\ ob_aux ob = Some (cp_lam q)).
    { revert ob Hin Ef Ea. intros ob Hin _ _. revert ob Hin. apply (als_inv _ (cp_factors X r) _ A os HR HA). intros s s' o1 HF H. unfold cp_run in H. apply bind_ok in H as (q & Eq & H). injection H as <- <-.
      split; [apply (c45_step pinv X r s q HP HF Eq)|]. exists q, s. split; [exact HF|]. split; [exact Eq|]. split; reflexivity. }
    destruct HO as (q & s & HF & Eq & E1 & E2). destruct (c45_step pinv X r s q HP HF Eq) as (K1 & _ & K3 & K4 & K5).
    exists (cp_A q), (cp_lam q). rewrite Ef, E1, (Ea _ E2). split; [reflexivity|]. split; [exact K1|]. split; [exact K3|].
    intros Hnz C HCm. specialize (K5 Hnz). cbv zeta in K5. rewrite E3 in K5. cbn [Nat.sub] in K5. destruct K5 as [[_ LS] Efull]. rewrite <- K4, Efull. apply LS. rewrite Es. exact HCm.
  Qed.

  Lemma c113_ncp cast pow svals r noise args A steps X : (forall x, 0 <= x -> 0 <= cast F32 x) -> (0 < steps)%Z -> a_vi args <> 0%Z ->
    X = with_noise N (cp_model cast rand n n n r) noise (randn N) -> cp_factors X r A ->
    exists B lam, demo (cp_synthetic cast rand randn N r noise) (NCP_BCU pow svals) (mkX args r []) (mkDr A (mkT [] [])) steps = Ok (Some B, Some lam) /\
      cp_factors X r B /\ (forall M, In M B -> nonneg M) /\ lam = mgen 1 r (fun _ _ => 1).
  Proof.
    intros HC Hs Hv EX HA. assert (HX : wf X) by (rewrite EX; apply wf_gen). assert (Es : shp X = N) by (rewrite EX; reflexivity).
    assert (E3 : ndims X = 3%nat) by (unfold ndims; rewrite Es; reflexivity).
    rewrite (demo_alone _ _ _ _ _ X (eq_trans (cp_noisy_data cast r noise HC) (f_equal Ok (eq_sym EX)))), ncp_alone, ncp_model_alone. cbn [x_t x_rank].
    destruct (ncp_train_total pow svals X r args 0%nat (mkW [0%nat] true) (mkObj (Some ((args, r), 0%nat)) pub0) A steps) as (o & h & E); auto; [rewrite Es; exact HN|lia|intros i [<-|[]]; reflexivity|].
    rewrite E. cbn [fst snd]. destruct (ncp_attrs pow svals X (mkW [0%nat] true) (mkObj (Some ((args, r), 0%nat)) pub0) A steps o h args r 0%nat eq_refl E) as (os & ob & HR & Hin & Ef & Ea).
    assert (HO : cp_factors X r (ob_factors ob) /\ (forall M, In M (ob_factors ob) -> nonneg M)).
    { clear Ef Ea. revert ob Hin.
      apply (bcu_inv _ (ncp_wf X r) _ _ _ _ (ncp_wf X r) _ os HR); [apply ncp_init_wf, HA|intros s s' c K Ec; injection Ec as <- _; exact K| | |intros s s' K Ec; injection Ec as <-; apply ncp_reject_wf, K].
      - clear - HX. intros s s2 o HW H. unfold ncp_run in H. apply bind_ok in H as ([[s' full] m] & E & H). injection H as <- <-. cbn [ob_factors].
        destruct (ncp_parts svals X r s s' full m HW E) as (_ & _ & K & _ & _ & mats & _ & KN & Ef & Em). split; [exact K|]. split; [apply K|].
        intros M HM. apply In_nth with (d := mkT [] []) in HM as (k & Hk & <-). rewrite (proj1 (proj1 K)) in Hk.
        fold (mat_at (n_A s') k). rewrite (proj2 (proj2 (KN k Hk))). intros x Hx. unfold ncp_new, mgen, gen in Hx. cbn [dat] in Hx. apply in_map_iff in Hx as (i & <- & _). apply Rmax_l.
      - intros s s' K Ec. destruct (ncp_accept_wf X r s K) as (q & Eq & Kq). congruence. }
    exists (ob_factors ob), (tf_ones [1; r]%nat). rewrite Ef, Ea. split; [reflexivity|]. split; [apply HO|]. split; [apply HO|]. reflexivity.
  Qed.

  Lemma c113_tucker svdU r noise args steps X : left_svd svdU -> (0 < r)%nat -> (r <= n)%nat -> (0 < steps)%Z -> a_vi args <> 0%Z ->
    X = with_noise N (tucker_model rand n n n r) noise (randn N) ->
    exists B, demo (tucker_synthetic rand randn N [r; r; r] noise) (HOOI svdU) (mkX args 0 (map Z.of_nat [r; r; r])) (mkDr [] (mkT [] [])) steps = Ok (Some B, Some (project X B)) /\
      factor_state X [r; r; r] B /\ sqdist X (tucker_tensor (project X B) B) <= 3 * noise_energy noise (randn N).
  Proof.
    intros HU H0 H1 Hs Hv EX. assert (HX : wf X) by (rewrite EX; apply wf_gen). assert (Es : shp X = N) by (rewrite EX; reflexivity).
    assert (E3 : ndims X = 3%nat) by (unfold ndims; rewrite Es; reflexivity). assert (Hne : nonempty (shp X)) by (rewrite Es; exact HN). assert (Hr : nonempty [r; r; r]) by (repeat constructor; lia).
    assert (HL : length [r; r; r] = ndims X) by (rewrite E3; reflexivity).
    rewrite (demo_alone _ _ _ _ _ X (eq_trans (tucker_gen_data n n n rand randn HG noise r) (f_equal Ok (eq_sym EX)))), hooi_alone, hooi_model_alone. cbn [x_t x_ranks].
    assert (Hfit : forall k, (k < ndims X)%nat -> (nth k [r; r; r] 0 <= Nat.min (nth k (shp X) 0) (Nat.min (rest k (shp X)) (rest k [r; r; r])))%nat) by (rewrite Es, E3; apply fits_three; assumption).
    destruct (c54_hooi_total svdU X [r; r; r] args 0%nat (mkW [0%nat] true) (mkObj (Some ((args, map Z.of_nat [r; r; r]), 0%nat)) pub0) tt steps) as (o & h & E); auto; [lia|intros i [<-|[]]; reflexivity|].
    rewrite E. cbn [fst snd]. destruct (hooi_attrs svdU X (mkW [0%nat] true) (mkObj (Some ((args, map Z.of_nat [r; r; r]), 0%nat)) pub0) tt steps o h args (map Z.of_nat [r; r; r]) 0%nat eq_refl E) as (A0 & os & ob & Hi & HR & Hin & Ef & Ea).
    destruct (hooi_init_cases svdU X [r; r; r] HU Hne HL) as [G _]. destruct G as (A1 & EA & HA); [intros k Hk; specialize (Hfit k Hk); lia|]. rewrite Hi in EA. injection EA as <-.
    destruct (tucker_draws_factors N _ _ _ _ X (gen_tucker n n n rand randn HG r) Es) as [F1 F2].
    pose proof (hooi_run_quasi svdU X [r; r; r] HU HX Hne Hr HL A0 os [r; r; r] _ _ Hi HR F1 F2 (fun k _ => le_n _) ob Hin) as HQ.
    assert (HO : exists q, factor_state X [r; r; r] (ho_A q) /\ ho_core q = project X (ho_A q) /\ ho_full q = tucker_tensor (ho_core q) (ho_A q) /\ ob_factors ob = ho_A q /\ ob_aux ob = Some (ho_core q) /\ ob_full ob = ho_full q).
    { clear Ef Ea HQ. revert ob Hin. apply (als_inv _ (factor_state X [r; r; r]) _ A0 os HR HA). intros s s' o1 HF H. unfold hooi_run in H. apply bind_ok in H as (q & Eq & H). injection H as <- <-.
      destruct (hooi_step_ok svdU X [r; r; r] HU HX Hne Hr HL ltac:(lia) s q HF Eq) as (K1 & K2 & K3 & _ & K4). split; [exact K1|]. exists q. split; [exact K1|]. split; [exact K2|]. split; [exact K3|]. repeat split; reflexivity. }
    destruct HO as (q & K1 & K2 & K3 & E1 & E2 & E4). exists (ho_A q). rewrite Ef, E1, (Ea _ E2), K2. split; [reflexivity|]. split; [exact K1|].
    rewrite E4, K3, K2 in HQ. eapply Rle_trans; [exact HQ|]. rewrite E3. right. f_equal; [cbn; lra|]. apply (noise_dist N _ (randn N) X noise); [apply (proj2 HG)|exact EX].
  Qed.

  Lemma c113_ntucker pow svals r noise args A g steps X : (0 < r)%nat -> (0 < steps)%Z -> a_vi args <> 0%Z ->
    X = with_noise N (tucker_model rand n n n r) noise (randn N) -> tucker_factors X [r; r; r] A -> core_like [r; r; r] g ->
    exists B core, demo (tucker_synthetic rand randn N [r; r; r] noise) (NTUCKER_BCU pow svals) (mkX args 0 (map Z.of_nat [r; r; r])) (mkDr A g) steps = Ok (Some B, Some core) /\
      tucker_factors X [r; r; r] B /\ (forall M, In M B -> nonneg M) /\ core_like [r; r; r] core /\ nonneg core.
  Proof.
    intros H0 Hs Hv EX HA Hg. assert (HX : wf X) by (rewrite EX; apply wf_gen). assert (Es : shp X = N) by (rewrite EX; reflexivity).
    assert (E3 : ndims X = 3%nat) by (unfold ndims; rewrite Es; reflexivity). assert (Hne : nonempty (shp X)) by (rewrite Es; exact HN). assert (Hr : nonempty [r; r; r]) by (repeat constructor; lia).
    rewrite (demo_alone _ _ _ _ _ X (eq_trans (tucker_gen_data n n n rand randn HG noise r) (f_equal Ok (eq_sym EX)))), nt_alone, nt_model_alone. cbn [x_t].
    destruct (nt_train_total pow svals X [r; r; r] args 0%nat (mkW [0%nat] true) (mkObj (Some (args, 0%nat)) pub0) A g steps) as (o & h & E); auto; [lia|intros i [<-|[]]; reflexivity|].
    rewrite E. cbn [fst snd].
    assert (HC : forall s s1, nt_wf X [r; r; r] s -> nt_core svals X s = Ok s1 -> nt_wf X [r; r; r] s1 /\ nonneg (q_g s1)).
    { intros s s1 K E1. destruct (nt_core_wf svals X [r; r; r] HX s s1 ltac:(lia) K E1) as (K1 & _ & _ & _ & _ & _ & _ & K2). split; [exact K1|]. rewrite K2.
      intros x Hx. unfold nt_newcore, gen in Hx. cbn [dat] in Hx. apply in_map_iff in Hx as (i & <- & _). apply Rmax_l. }
    assert (HF : forall s s2 ob, nt_wf X [r; r; r] s -> nt_factors svals X s = Ok (s2, ob) -> nt_wf X [r; r; r] s2 /\ tucker_factors X [r; r; r] (ob_factors ob) /\ forall M, In M (ob_factors ob) -> nonneg M).
    { intros s s2 ob HW H. unfold nt_factors in H. apply bind_ok in H as ([[s' full] m] & E1 & H). injection H as <- <-. cbn [ob_factors].
      destruct (nt_parts svals X [r; r; r] Hr s s' full m ltac:(lia) HW E1) as (_ & K & _ & _ & Kg & _ & _ & mats & _ & KN & Ef & Em). split; [exact K|]. split; [apply K|].
      intros M HM. apply In_nth with (d := mkT [] []) in HM as (k & Hk & <-). rewrite (proj1 (proj1 K)) in Hk.
      fold (mat_at (q_A s') k). rewrite (proj2 (proj2 (KN k Hk))). intros x Hx. unfold nt_new, mgen, gen in Hx. cbn [dat] in Hx. apply in_map_iff in Hx as (i & <- & _). apply Rmax_l. }
    destruct (nt_attrs pow svals X (mkW [0%nat] true) (mkObj (Some (args, 0%nat)) pub0) A g steps o h args 0%nat (nt_wf X [r; r; r]) eq_refl E) as (s & s1 & s2 & ob & Ps & E1 & E2 & Ef & Ea).
    - apply nt_init_wf; assumption.
    - intros s s1 c s2 ob s3 K E1 E2 E4. unfold nt_pre in E1. apply bind_ok in E1 as (s1' & E1 & E1'). injection E1' as -> _.
      destruct (HF s1 s2 ob (proj1 (HC _ _ K E1)) E2) as [K2 _]. destruct E4 as [E4|E4]; [destruct (nt_accept_wf X [r; r; r] s2 K2) as (q & Eq & Kq); congruence|injection E4 as <-; apply nt_reject_wf, K2].
    - destruct (HC _ _ Ps E1) as [K1 K2]. destruct (HF _ _ _ K1 E2) as (_ & K3 & K4). exists (ob_factors ob), (q_g s1). rewrite Ef, Ea. split; [reflexivity|]. split; [exact K3|]. split; [exact K4|]. split; [apply K1|exact K2].
  Qed.
End Scripts.
