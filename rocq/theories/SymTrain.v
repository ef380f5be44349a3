(** Training on relabelled data (C101): the loops, CP_ALS and NCP_BCU. *)

From Coq Require Import ZArith List Bool Arith Lia Permutation Reals Lra.
From Verif Require Import Num Py Tensor TF TensorFacts TFFacts Sums Ops OpsLemmas Types Loss Fact Train Spec SpecR LayoutFacts SpecFacts MulFacts TtmFacts SkipFacts TtmLemmas Matricize
  KronFacts RSums MatR KronAlg NormFacts SpecTucker MultiR SvdFacts TuckerFacts TuckerRun TuckerLemmas SpecCp SpecBcu BcuFacts SpecTrain TrainLemmas LossFacts CpFacts AlsFacts AlsLemmas
  SpecProx Prox NcpFacts NcpLemmas SpecScale SpecSym SymFacts.
Import ListNotations.


(** ** the loops *)
Section Loops.
  Context {T : Type} {NT : Num T} (sg : nat -> nat -> nat).
  Definition relabel_obs (o : sobs T) : sobs T := mkObs (relabel_factors sg (ob_factors o)) (ob_aux o) (relabel sg (ob_full o)) (ob_met o).
  Lemma publish_relabel v o p : publish v (relabel_obs o) (relabel_pub sg p) = relabel_pub sg (publish v o p).
  Proof. unfold publish, relabel_pub, relabel_obs. destruct v; reflexivity. Qed.
  Lemma set_aux_relabel a (p : pub T) : set_aux a (relabel_pub sg p) = relabel_pub sg (set_aux a p). Proof. reflexivity. Qed.
  Lemma set_finish_relabel b (p : pub T) : set_finish b (relabel_pub sg p) = relabel_pub sg (set_finish b p). Proof. reflexivity. Qed.
  Definition rp {A} (x : pub T * res A) : pub T * res A := (relabel_pub sg (fst x), snd x).

  Context {S : Type} (phi : S -> S) (P P1 : S -> Prop).
  Variables (run run' : S -> res (S * sobs T)) (sum_ok : bool) (args : targs T) (steps : Z).

  Section Als.
    Hypothesis Hrun : forall s, P s -> run' (phi s) = rmap (fun x => (phi (fst x), relabel_obs (snd x))) (run s).
    Hypothesis Hinv : forall s s' o, P s -> run s = Ok (s', o) -> P s'.
    Lemma als_loop_relabel fuel : forall step s obj0 nst h p, P s ->
      als_loop run' sum_ok args steps fuel step (phi s) obj0 nst h (relabel_pub sg p) = rp (als_loop run sum_ok args steps fuel step s obj0 nst h p).
    Proof.
      induction fuel as [|fuel IH]; intros step s obj0 nst h p Hs; cbn [als_loop]; [reflexivity|].
      destruct (validate args steps step) as [v|e]; [|reflexivity]. unfold run_v. destruct (v && negb sum_ok)%bool; [reflexivity|].
      rewrite (Hrun s Hs). destruct (run s) as [[s' o]|e] eqn:E; [|reflexivity]. cbn [rmap fst snd]. rewrite publish_relabel. cbn [ob_met relabel_obs].
      destruct (stop_now _ _ _); [reflexivity|]. apply IH. eapply Hinv; eauto.
    Qed.
    Lemma als_body_relabel s p : P s ->
      als_body run' sum_ok args steps (Ok (phi s)) (relabel_pub sg p) = rp (als_body run sum_ok args steps (Ok s) p).
    Proof. intros Hs. unfold als_body. destruct (steps <=? 0)%Z; [reflexivity|]. apply als_loop_relabel, Hs. Qed.
  End Als.

  Section Bcu.
    Variables (pre pre' : S -> res (S * option (tensor T))) (accept reject : S -> res S).
    Hypothesis Hpre : forall s, P s -> pre' (phi s) = rmap (fun x => (phi (fst x), snd x)) (pre s).
    Hypothesis Ipre : forall s s' c, P s -> pre s = Ok (s', c) -> P1 s'.
    Hypothesis Hrun : forall s, P1 s -> run' (phi s) = rmap (fun x => (phi (fst x), relabel_obs (snd x))) (run s).
    Hypothesis Irun : forall s s' o, P1 s -> run s = Ok (s', o) -> P1 s'.
    Hypothesis Hacc : forall s, P1 s -> accept (phi s) = rmap phi (accept s).
    Hypothesis Iacc : forall s s', P1 s -> accept s = Ok s' -> P s'.
    Hypothesis Hrej : forall s, P1 s -> reject (phi s) = rmap phi (reject s).
    Hypothesis Irej : forall s s', P1 s -> reject s = Ok s' -> P s'.
    Lemma bcu_loop_relabel fuel : forall step s obj0 nst h p, P s ->
      bcu_loop run' sum_ok args steps pre' accept reject fuel step (phi s) obj0 nst h (relabel_pub sg p) =
      rp (bcu_loop run sum_ok args steps pre accept reject fuel step s obj0 nst h p).
    Proof.
      induction fuel as [|fuel IH]; intros step s obj0 nst h p Hs; cbn [bcu_loop]; [reflexivity|].
      rewrite (Hpre s Hs). destruct (pre s) as [[s1 c]|e] eqn:E0; [|reflexivity]. cbn [rmap fst snd]. rewrite set_aux_relabel. pose proof (Ipre _ _ _ Hs E0) as H1.
      destruct (validate args steps step) as [v|e]; [|reflexivity]. unfold run_v. destruct (v && negb sum_ok)%bool; [reflexivity|].
      rewrite (Hrun s1 H1). destruct (run s1) as [[s' o]|e] eqn:E; [|reflexivity]. cbn [rmap fst snd]. rewrite publish_relabel. cbn [ob_met relabel_obs]. pose proof (Irun _ _ _ H1 E) as H2.
      destruct (stop_now _ _ _); [reflexivity|]. destruct (nltb _ _).
      - rewrite (Hacc s' H2). destruct (accept s') as [s''|e] eqn:E3; [|reflexivity]. cbn [rmap]. apply IH. eapply Iacc; eauto.
      - rewrite (Hrej s' H2). destruct (reject s') as [s''|e] eqn:E3; [|reflexivity]. cbn [rmap]. apply IH. eapply Irej; eauto.
    Qed.
    Lemma bcu_body_relabel s post p : P s ->
      bcu_body run' sum_ok args steps pre' accept reject (Ok (phi s)) post (relabel_pub sg p) = rp (bcu_body run sum_ok args steps pre accept reject (Ok s) post p).
    Proof.
      intros Hs. unfold bcu_body. destruct (steps <=? 0)%Z; [reflexivity|]. rewrite (bcu_loop_relabel _ _ _ _ _ _ _ Hs).
      destruct (bcu_loop run sum_ok args steps pre accept reject _ _ s _ _ _ p) as [p' [h|e]]; reflexivity.
    Qed.
  End Bcu.
End Loops.

Section Obj.
  Context {T : Type} {NT : Num T} {A RR : Type} (sg : nat -> nat -> nat) (unb : exc) (resets : bool).
  Variables (body body' : A -> RR -> bool -> Z -> pub T -> pub T * res (hist T)).
  Lemma obj_train_relabel w (o : fobj T A) rnd rnd' steps :
    (forall a id p b, o_built o = Some (a, id) -> body' a rnd' b steps (relabel_pub sg p) = rp sg (body a rnd b steps p)) ->
    obj_train unb resets body' w (relabel_obj sg o) rnd' steps =
    (relabel_obj sg (fst (obj_train unb resets body w o rnd steps)), snd (obj_train unb resets body w o rnd steps)).
  Proof.
    intros H. unfold obj_train. cbn [relabel_obj o_built o_pub].
    replace (if resets then set_finish false (relabel_pub sg (o_pub o)) else relabel_pub sg (o_pub o)) with (relabel_pub sg (if resets then set_finish false (o_pub o) else o_pub o)) by (destruct resets; reflexivity).
    destruct (o_built o) as [[a id]|] eqn:E; [|reflexivity]. destruct (negb (w_path w)); [reflexivity|].
    rewrite (H a id _ _ eq_refl). unfold rp. destruct (body a rnd _ steps _) as [p' [h|e]]; reflexivity.
  Qed.
End Obj.

Local Open Scope R_scope.

(** ** CP_ALS *)
Section Cp.
  Variables (pinv : tensor R -> tensor R) (X : tensor R) (r : nat) (sg : nat -> nat -> nat).
  Hypothesis HP : penrose pinv.
  Hypothesis HX : wf X.
  Hypothesis Hne : nonempty (shp X).
  Hypothesis Hord : (2 <= ndims X <= 25)%nat.
  Hypothesis Hsg : relabelling (shp X) sg.
  Let N := ndims X.

  Lemma unfold_all_ok (Y : tensor R) : nonempty (shp Y) -> exists mats, unfold_all Y = Ok mats.
  Proof.
    intros HY. unfold unfold_all. pose (g := fun z => match unfold Y z with Ok v => v | Raise _ => mkT [] [] end). exists (map g (zrange (ndims Y))).
    apply mapM_ok. intros z Hz. apply in_zrange in Hz. rewrite <- (Z2Nat.id z) by lia. unfold g.
    destruct (unfold_ok Y (Z.to_nat z)) as (M & -> & _); [unfold ndims in *; lia|apply nonempty_nth; auto; unfold ndims in *; lia|reflexivity].
  Qed.

  Lemma sol_relabel A n : cp_factors X r A -> (n < N)%nat -> als_solution pinv (relabel sg X) r (relabel_factors sg A) n = relabel_rows sg n (als_solution pinv X r A n).
  Proof.
    intros HA Hn. unfold als_solution at 1. rewrite mttkrp_relabel, (gram_relabel X r sg Hsg A n HA) by assumption.
    apply mat_ext with (r := nth n (shp X) 0%nat) (c := r); [apply is_mat_mgen|apply rows_mat, is_mat_mgen|]. intros i q Hi Hq.
    rewrite mget_rows by assumption. unfold als_solution. rewrite !mget_mgen by (auto; apply (Hsg n Hn); exact Hi). apply bigsum_ext. intros p Hp.
    rewrite mget_rows by assumption. reflexivity.
  Qed.
  Lemma cmax_relabel (B : tensor R) n q c : (n < N)%nat -> is_mat B (nth n (shp X) 0%nat) c -> (q < c)%nat -> cmax (relabel_rows sg n B) q = cmax B q.
  Proof.
    intros Hn HB Hq. destruct (is_mat_dims _ _ _ HB) as [D1 D2].
    assert (H0 : nth n (shp X) 0%nat <> 0%nat) by (apply nonempty_nth; auto).
    destruct (cmax_ok B q ltac:(congruence)) as ((i & Hi & Ei) & HB2). destruct (cmax_ok (relabel_rows sg n B) q ltac:(rewrite nrows_rows; congruence)) as ((j & Hj & Ej) & HB3).
    rewrite nrows_rows in Hj, HB3. rewrite D1 in *. apply Rle_antisym.
    - rewrite <- Ej. rewrite mget_rows by (rewrite ?D1, ?D2; auto). apply HB2, (Hsg n Hn), Hj.
    - rewrite <- Ei. destruct (perm1_onto _ _ i (sg_perm X sg Hsg n Hn) Hi) as (k & Hk & <-). rewrite <- (mget_rows sg n B k q) by (rewrite ?D1, ?D2; auto). apply HB3, Hk.
  Qed.
  Lemma lams_relabel (B : tensor R) n : (n < N)%nat -> is_mat B (nth n (shp X) 0%nat) r -> lams r (relabel_rows sg n B) = lams r B.
  Proof. intros Hn HB. unfold lams. f_equal. apply map_ext_in. intros q Hq. apply in_seq in Hq. apply (cmax_relabel B n q r); auto; lia. Qed.
  Lemma normed_relabel (B : tensor R) n : (n < N)%nat -> is_mat B (nth n (shp X) 0%nat) r -> normed r (relabel_rows sg n B) = relabel_rows sg n (normed r B).
  Proof.
    intros Hn HB. destruct (is_mat_dims _ _ _ HB) as [D1 D2]. apply mat_ext with (r := nth n (shp X) 0%nat) (c := r).
    - unfold normed. rewrite nrows_rows, D1. apply is_mat_mgen.
    - apply rows_mat. unfold normed. rewrite D1. apply is_mat_mgen.
    - intros i q Hi Hq. rewrite mget_rows by (cbn; rewrite ?D1; auto). unfold normed. rewrite nrows_rows, D1, !mget_mgen by (auto; apply (Hsg n Hn); exact Hi).
      rewrite (cmax_relabel B n q r) by auto. rewrite mget_rows by (rewrite ?D1, ?D2; auto). reflexivity.
  Qed.

  Lemma cp_modes_relabel mats mats' : unfold_all X = Ok mats -> unfold_all (relabel sg X) = Ok mats' -> forall l A lam, cp_factors X r A -> (forall n, In n l -> (n < N)%nat) ->
    cp_modes pinv mats' r l (relabel_factors sg A) lam = rmap (fun p => (relabel_factors sg (fst p), snd p)) (cp_modes pinv mats r l A lam).
  Proof.
    intros E E'. induction l as [|n l IH]; intros A lam HA Hl; cbn [cp_modes]; [reflexivity|].
    rewrite (cp_mode_run pinv X r mats HP Hne ltac:(lia) E A n HA) by (apply Hl; left; auto).
    rewrite (cp_mode_run pinv (relabel sg X) r mats' HP Hne) by (auto using rf_factors; try (apply Hl; left; auto); change (ndims (relabel sg X)) with (ndims X); lia). cbn [bind fst snd].
    assert (Hn : (n < N)%nat) by (apply Hl; left; auto).
    rewrite sol_relabel by auto. rewrite lams_relabel, normed_relabel by (auto; apply is_mat_mgen). rewrite <- rf_replace.
    apply IH; [|intros m Hm; apply Hl; right; auto]. apply replace_factors; [exact HA|apply is_mat_mgen].
  Qed.

  Lemma kt_relabel A lam : cp_factors X r A -> is_mat lam r 1 ->
    kt_extract (relabel_factors sg A) lam = rmap (relabel sg) (kt_extract A lam) /\ kt_extract A lam = Ok (cp_tensor r lam A).
  Proof.
    intros HA Hl. pose proof (rf_factors X r sg A HA) as HA'.
    assert (G : forall (Y : tensor R) B, ndims Y = ndims X -> cp_factors Y r B -> kt_extract B lam = Ok (cp_tensor r lam B)).
    { intros Y B EY HB. apply (kt_extract_ok RLR); auto.
      - intros ->. destruct HB as [HB _]. cbn in HB. lia.
      - rewrite (proj1 HB). lia.
      - apply (fac_in Y r B HB). }
    split; [|apply (G X); auto]. rewrite (G X A eq_refl HA), (G (relabel sg X) _ eq_refl HA'). cbn [rmap]. f_equal. apply (cp_tensor_relabel X r sg Hsg), HA.
  Qed.
  Lemma cp_shape lam A : cp_factors X r A -> shp (cp_tensor r lam A) = shp X.
  Proof.
    intros HA. change (map nrows A = shp X). pose proof (proj1 HA) as L. apply nth_ext with (d := 0%nat) (d' := 0%nat); rewrite map_length; [exact L|].
    intros k Hk. rewrite (nth_map_lt nrows A k (mkT [] [])) by auto. apply (fac_mat X r A HA). lia.
  Qed.

  Lemma cp_step_relabel A : cp_factors X r A ->
    cp_step pinv (relabel sg X) r (relabel_factors sg A) =
    rmap (fun o => mkCP (relabel_factors sg (cp_A o)) (cp_lam o) (relabel sg (cp_full o)) (cp_met o)) (cp_step pinv X r A).
  Proof.
    intros HA. unfold cp_step. destruct (unfold_all_ok X Hne) as (mats & E). destruct (unfold_all_ok (relabel sg X) Hne) as (mats' & E'). rewrite E, E'. cbn [bind].
    change (ndims (relabel sg X)) with N. rewrite (cp_modes_relabel mats mats' E E' (seq 0 N) A (mkT [] []) HA) by (intros n Hn; apply in_seq in Hn; lia).
    fold N. destruct (cp_modes pinv mats r (seq 0 N) A (mkT [] [])) as [[A1 lam]|e] eqn:E3; [|reflexivity]. cbn [rmap bind fst snd].
    destruct (sweep pinv X r mats HP Hne ltac:(lia) E N 0 A _ _ _ eq_refl HA E3) as (HA' & _ & HS & _).
    destruct (HS (ndims X - 1)%nat ltac:(unfold N; lia)) as [_ HL]. rewrite (HL eq_refl). unfold lams. cbn [shp dat app].
    set (lm := mkT [r; 1%nat] _). assert (Hlm : is_mat lm r 1).
    { split; [|reflexivity]. unfold wf, lm. cbn [shp dat prod]. rewrite map_length, seq_length. lia. }
    destruct (kt_relabel A1 lm HA' Hlm) as [K1 K2]. rewrite K1, K2. cbn [rmap bind].
    rewrite metrics_relabel by (auto using cp_shape; apply wf_gen). destruct (metrics_of X (cp_tensor r lm A1)); reflexivity.
  Qed.

  Lemma cp_train_relabel w o rnd steps : (exists a id, o_built o = Some ((a, r), id)) -> cp_factors X r rnd ->
    cp_train pinv (relabel sg X) w (relabel_obj sg o) (relabel_factors sg rnd) steps =
    (relabel_obj sg (fst (cp_train pinv X w o rnd steps)), snd (cp_train pinv X w o rnd steps)).
  Proof.
    intros (a & id & Hb) HR. unfold cp_train. apply obj_train_relabel. intros a' id' p b Hb'. rewrite Hb in Hb'. injection Hb' as <- <-.
    unfold cp_body. cbn [fst snd]. apply (als_body_relabel sg (relabel_factors sg) (cp_factors X r)); [| |exact HR].
    - intros s Hs. unfold cp_run. rewrite (cp_step_relabel s Hs). destruct (cp_step pinv X r s); reflexivity.
    - intros s s' q Hs E. unfold cp_run in E. destruct (cp_step pinv X r s) as [y|] eqn:Ey; [|discriminate]. cbn [bind] in E. injection E as <- _. apply (c45_step pinv X r s y HP Hs Ey).
  Qed.
End Cp.
