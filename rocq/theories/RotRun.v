(** HOSVD and HOOI of rotated data (C110). *)

From Coq Require Import ZArith List Bool Arith Lia Permutation Reals Lra.
From Verif Require Import Num Py Tensor TF TensorFacts TFFacts Sums Ops OpsLemmas Types Loss Fact Train Spec SpecR LayoutFacts SpecFacts MulFacts TtmFacts SkipFacts TtmLemmas Matricize
  KronFacts RSums MatR KronAlg NormFacts SpecTucker MultiR SvdFacts TuckerFacts TuckerRun TuckerLemmas SpecTrain TrainLemmas LossFacts AlsLemmas SpecProx NtFacts QuasiOpt
  SpecScale SpecSym SymFacts SymTrain SymBcu SpecGauge GaugeAlg GaugeFacts SpecRot RotFacts.
From Verif Require BcuFacts.
Import ListNotations.
Local Open Scope R_scope.

Section Run.
  Variables (svdU svdU' : tensor R -> tensor R) (X : tensor R) (ranks : list nat) (Q : list (tensor R)).
  Hypothesis HS : left_svd svdU.
  Hypothesis HS' : left_svd svdU'.
  Hypothesis HX : wf X.
  Hypothesis Hne : nonempty (shp X).
  Hypothesis HQ : rotation (shp X) Q.
  Let N := ndims X.
  Let I n := nth n (shp X) 0%nat.
  Let Y := rotated Q X.
  Lemma Yshp : shp Y = shp X. Proof. apply (rot_shp X Q HQ). Qed.
  Lemma Ynd : ndims Y = ndims X. Proof. apply (rot_ndims X Q HQ). Qed.
  Lemma Yne : nonempty (shp Y). Proof. rewrite Yshp. exact Hne. Qed.
  Lemma Ywf : wf Y. Proof. apply wf_gen. Qed.

  Lemma first_turned n M M' : (n < N)%nat -> unfold X (Z.of_nat n) = Ok M -> unfold Y (Z.of_nat n) = Ok M' ->
    gap_at M (Nat.min (nth n ranks 0%nat) (Nat.min (nrows M) (ncols M))) ->
    turned_span (mat_at Q n) (leading (svdU M) (nth n ranks 0%nat)) (leading (svdU' M') (nth n ranks 0%nat)).
  Proof.
    intros Hn EM EM' Hgap. assert (H0 : I n <> 0%nat) by (apply nonempty_nth; auto).
    destruct (rot_gram X Q HX HQ (mat_at []) (mat_at []) [] n M M') as (M1 & M2 & M2b & M3); auto; [constructor|intros k []|].
    pose proof EM as EM2. apply unfold_mat in EM2 as [_ EM2]; auto. destruct (matrix_is_mat _ _ _ EM2) as (Hm & Hr & Hc).
    destruct (matrix_is_mat _ _ _ M2) as (Hm' & Hr' & Hc').
    destruct (HS M Hm) as (s & W & Hs); [rewrite Hr; auto|rewrite Hc; apply rest_nonzero; auto|].
    destruct (HS' M' Hm') as (s' & W' & Hs'); [rewrite Hr'; auto|rewrite Hc', Hc; apply rest_nonzero; auto|].
    apply (rot_leading X Q HQ n M M' (svdU M) (svdU' M') W W' s s'); auto.
  Qed.

  Section Hosvd.
    Hypothesis Hlen : (ndims X <= length ranks)%nat.
    Hypothesis Hord : (0 < ndims X <= 13)%nat.
    Lemma hosvd_rotated : hosvd_gaps X ranks -> exists o o', hosvd svdU X (map Z.of_nat ranks) = Ok o /\ hosvd svdU' (rotated Q X) (map Z.of_nat ranks) = Ok o' /\
      turned_spans Q (tu_A o) (tu_A o') /\ shp (tu_core o') = shp (tu_core o) /\ sqlen (tu_core o') = sqlen (tu_core o) /\
      tu_full o' = rotated Q (tu_full o) /\ sqdist (rotated Q X) (tu_full o') = sqdist X (tu_full o).
    Proof.
      intros Hgap. destruct (hosvd_ok svdU X ranks HS HX Hne Hlen Hord) as (o & Eo & F1 & F2 & F3 & F4).
      destruct (hosvd_ok svdU' Y ranks HS' Ywf Yne) as (o' & Eo' & G1 & G2 & G3 & G4); [rewrite Ynd; exact Hlen|rewrite Ynd; exact Hord|].
      exists o, o'. split; [exact Eo|]. split; [exact Eo'|]. rewrite Yshp in G1.
      assert (SP : turned_spans Q (tu_A o) (tu_A o')).
      { split; [rewrite (proj1 F1), (proj1 G1); apply Ynd|]. intros k Hk. rewrite (proj1 F1) in Hk. destruct (F4 k Hk) as (M & EM & ->). destruct (G4 k) as (M' & EM' & ->); [rewrite Ynd; exact Hk|].
        apply (first_turned k); auto. }
      split; [exact SP|]. destruct (rot_core X Q HX HQ (fitted (shp X) ranks) (tu_A o) (tu_A o') F1 G1 SP) as [C1 C2].
      rewrite G2, F2. split; [exact C1|]. split; [exact C2|].
      assert (EF : tu_full o' = rotated Q (tu_full o)) by (rewrite G3, F3, G2, F2; apply (rot_full X Q HX HQ (fitted (shp X) ranks)); assumption).
      split; [exact EF|]. rewrite EF. apply (rot_dist X Q HX HQ); [rewrite F3; apply wf_gen|rewrite F3, F2; apply (full_shape X _ _ F1)].
    Qed.
  End Hosvd.

  Section Hooi.
    Hypothesis Hrk : nonempty ranks.
    Hypothesis Hlen : length ranks = ndims X.
    Hypothesis Hord : (2 <= ndims X <= 13)%nat.
    Let rk := map Z.of_nat ranks.
    Definition rlinked (A A' : list (tensor R)) : Prop := factor_state X ranks A /\ factor_state Y ranks A' /\ turned_spans Q A A'.
    Lemma HlenY : length ranks = ndims Y. Proof. rewrite Ynd. exact Hlen. Qed.
    Lemma HordY : (2 <= ndims Y <= 13)%nat. Proof. rewrite Ynd. exact Hord. Qed.

    Lemma mode_turned A A' n : rlinked A A' -> (n < N)%nat ->
      (forall Z M, ttm X A None true (SkInt (Z.of_nat n)) = Ok Z -> unfold Z (Z.of_nat n) = Ok M -> gap_at M (nth n ranks 0%nat)) ->
      (exists B B', hooi_mode svdU X rk n A = Ok B /\ hooi_mode svdU' Y rk n A' = Ok B' /\ rlinked B B') \/
      (hooi_mode svdU X rk n A = Raise ValueError /\ hooi_mode svdU' Y rk n A' = Raise ValueError).
    Proof.
      intros (HA & HA' & HSP) Hn Hgap. assert (HnY : (n < ndims Y)%nat) by (rewrite Ynd; exact Hn).
      destruct (hooi_mode_cases svdU X ranks HS HX Hne Hrk Hlen Hord A n HA Hn) as (M & EM & E).
      destruct (hooi_mode_cases svdU' Y ranks HS' Ywf Yne Hrk HlenY HordY A' n HA' HnY) as (M' & EM' & E').
      specialize (Hgap _ M (partial_run X ranks HX Hlen Hord A n HA Hn) EM).
      rewrite Yshp in E'. rewrite Ynd in EM'.
      fold rk in E, E'. destruct (Nat.leb_spec (nth n ranks 0%nat) (Nat.min (nth n (shp X) 0%nat) (rest n ranks))) as [L|L]; [left|right; split; assumption].
      exists (upd A n (leading (svdU M) (nth n ranks 0%nat))), (upd A' n (leading (svdU' M') (nth n ranks 0%nat))). split; [exact E|]. split; [exact E'|].
      destruct (hooi_mode_ok svdU X ranks HS HX Hne Hrk Hlen Hord A n _ HA Hn E) as [K1 _].
      destruct (hooi_mode_ok svdU' Y ranks HS' Ywf Yne Hrk HlenY HordY A' n _ HA' HnY E') as [K2 _].
      split; [exact K1|]. split; [exact K2|]. split; [rewrite !BcuFacts.upd_length; apply HSP|]. intros k Hk. rewrite BcuFacts.upd_length, (proj1 HA) in Hk.
      destruct (Nat.eq_dec k n) as [->|Hkn]; [|rewrite !upd_other by exact Hkn; apply HSP; rewrite (proj1 HA); exact Hk].
      rewrite !upd_here by (rewrite ?(proj1 HA), ?(proj1 HA'), ?Ynd; exact Hk).
      assert (H0 : I n <> 0%nat) by (apply nonempty_nth; auto).
      assert (FM : rfam X Q (mat_at A) (mat_at A') (others n N)).
      { intros j Hj. apply (turned_fam X Q HQ ranks A A' HA HA' HSP j). apply in_others in Hj. apply in_seq. unfold N in *. lia. }
      destruct (rot_gram X Q HX HQ (mat_at A) (mat_at A') (others n N) n M M') as (M1 & M2 & M2b & M3); auto.
      { apply NoDup_filter, seq_NoDup. }
      { intros C. apply in_others in C. lia. }
      destruct (partial_shape X ranks Hlen Hord A n HA Hn) as (Y1 & Y2 & Y3).
      pose proof EM as EM2. apply unfold_mat in EM2 as [_ EM2]; [|unfold N in *; lia|rewrite Y2; auto]. rewrite Y2, Y3 in EM2. destruct (matrix_is_mat _ _ _ EM2) as (Hm & Hr & Hc).
      destruct (matrix_is_mat _ _ _ M2) as (Hm' & Hr' & Hc').
      assert (R0 : rest n ranks <> 0%nat) by (apply rest_nonzero; auto).
      destruct (HS M Hm) as (s & W & Hs); [rewrite Hr; auto|rewrite Hc; auto|].
      destruct (HS' M' Hm') as (s' & W' & Hs'); [rewrite Hr'; auto|rewrite Hc', Hc; auto|].
      apply (rot_leading X Q HQ n M M' (svdU M) (svdU' M') W W' s s'); auto. rewrite Hr, Hc, Nat.min_l by exact L. exact Hgap.
    Qed.
    Lemma modes_turned modes : forall A A', rlinked A A' -> (forall n, In n modes -> (n < N)%nat) -> sweep_gaps svdU X ranks modes A ->
      (exists B B', hooi_modes svdU X rk modes A = Ok B /\ hooi_modes svdU' Y rk modes A' = Ok B' /\ rlinked B B') \/
      (hooi_modes svdU X rk modes A = Raise ValueError /\ hooi_modes svdU' Y rk modes A' = Raise ValueError).
    Proof.
      induction modes as [|n modes IH]; intros A A' HA Hm Hg; cbn [hooi_modes]; [left; exists A, A'; auto|]. destruct Hg as [Hg1 Hg2].
      destruct (mode_turned A A' n HA (Hm n (or_introl eq_refl)) Hg1) as [(B & B' & E & E' & HB)|(E & E')]; rewrite E, E'; cbn [bind]; [|right; auto].
      apply IH; auto. intros j Hj. apply Hm. right. exact Hj.
    Qed.
    Definition turned_obs (o o' : sobs R) : Prop :=
      turned_spans Q (ob_factors o) (ob_factors o') /\
      (exists g g', ob_aux o = Some g /\ ob_aux o' = Some g' /\ shp g' = shp g /\ sqlen g' = sqlen g) /\
      ob_full o' = rotated Q (ob_full o) /\ m_obj (ob_met o') = m_obj (ob_met o) /\ m_rel (ob_met o') = m_rel (ob_met o).
    Lemma step_turned A A' : rlinked A A' -> sweep_gaps svdU X ranks (seq 0 (ndims X)) A ->
      (exists o o', hooi_step svdU X rk A = Ok o /\ hooi_step svdU' Y rk A' = Ok o' /\ rlinked (ho_A o) (ho_A o') /\
         shp (ho_core o') = shp (ho_core o) /\ sqlen (ho_core o') = sqlen (ho_core o) /\ ho_full o' = rotated Q (ho_full o) /\
         m_obj (ho_met o') = m_obj (ho_met o) /\ m_rel (ho_met o') = m_rel (ho_met o)) \/
      (hooi_step svdU X rk A = Raise ValueError /\ hooi_step svdU' Y rk A' = Raise ValueError).
    Proof.
      intros HA Hg. destruct (modes_turned (seq 0 (ndims X)) A A' HA) as [(B & B' & E & E' & HB)|(E & E')]; auto.
      - intros n Hn. apply in_seq in Hn. unfold N. lia.
      - left. destruct (HA) as (HA1 & HA2 & _). destruct HB as (H1 & H2 & H3). pose proof HlenY as LY. pose proof HordY as OY.
        assert (F : exists o, hooi_step svdU X rk A = Ok o /\ ho_A o = B).
        { unfold hooi_step. rewrite E. cbn [bind]. destruct (core_run X ranks HX ltac:(lia) ltac:(lia) ranks B H1) as [C1 C2]. rewrite C1. cbn [bind]. rewrite C2. cbn [bind].
          destruct (metrics_ok X (tucker_tensor (project X B) B) HX (full_shape X ranks B H1)) as (m & ->). cbn [bind]. eauto. }
        assert (F' : exists o, hooi_step svdU' Y rk A' = Ok o /\ ho_A o = B').
        { unfold hooi_step. rewrite Ynd, E'. cbn [bind].
          destruct (core_run Y ranks Ywf ltac:(lia) ltac:(lia) ranks B' H2) as [C1 C2]. rewrite C1. cbn [bind]. rewrite C2. cbn [bind].
          destruct (metrics_ok Y (tucker_tensor (project Y B') B') Ywf (full_shape Y ranks B' H2)) as (m & ->). cbn [bind]. eauto. }
        destruct F as (o & Eo & <-). destruct F' as (o' & Eo' & <-). exists o, o'. split; [exact Eo|]. split; [exact Eo'|]. split; [exact (conj H1 (conj H2 H3))|].
        destruct (hooi_step_ok svdU X ranks HS HX Hne Hrk Hlen Hord A o HA1 Eo) as (_ & K1 & K2 & _ & K3).
        destruct (hooi_step_ok svdU' Y ranks HS' Ywf Yne Hrk LY OY A' o' HA2 Eo') as (_ & K1' & K2' & _ & K3').
        destruct (rot_core X Q HX HQ ranks (ho_A o) (ho_A o') H1 H2 H3) as [C1 C2]. rewrite K1, K1'. split; [exact C1|]. split; [exact C2|].
        assert (EF : ho_full o' = rotated Q (ho_full o)) by (rewrite K2, K2', K1, K1'; apply (rot_full X Q HX HQ ranks); assumption). split; [exact EF|].
        rewrite EF in K3'. apply (rot_metrics X Q HX HQ (ho_full o)); auto; [rewrite K2; apply wf_gen|rewrite K2, K1; apply (full_shape X _ _ H1)].
      - right. unfold hooi_step. rewrite Ynd, E, E'. split; reflexivity.
    Qed.

    Lemma init_turned : hosvd_gaps X ranks ->
      (exists A A', hooi_init svdU X rk = Ok A /\ hooi_init svdU' Y rk = Ok A' /\ rlinked A A') \/
      (hooi_init svdU X rk = Raise ValueError /\ hooi_init svdU' Y rk = Raise ValueError).
    Proof.
      intros Hg. destruct (hooi_init_cases svdU X ranks HS Hne Hlen) as [G1 G2].
      destruct (hooi_init_cases svdU' Y ranks HS' Yne HlenY) as [G1' G2']. rewrite Ynd, Yshp in G1', G2'.
      destruct (forallb (fun n => Nat.leb (nth n ranks 0%nat) (Nat.min (I n) (rest n (shp X)))) (seq 0 N)) eqn:EB.
      - left. assert (L : forall n, (n < N)%nat -> (nth n ranks 0 <= Nat.min (I n) (rest n (shp X)))%nat).
        { intros n Hn. rewrite forallb_forall in EB. apply Nat.leb_le, EB, in_seq. lia. }
        destruct (G1 L) as (A & E & HA). destruct (G1' L) as (A' & E' & HA'). exists A, A'. split; [exact E|]. split; [exact E'|]. split; [exact HA|]. split; [exact HA'|].
        destruct (hosvd_rotated ltac:(lia) ltac:(lia) Hg) as (o & o' & Eo & Eo' & SP & _).
        rewrite <- (hooi_init_hosvd svdU X rk A o E Eo), <- (hooi_init_hosvd svdU' Y rk A' o' E' Eo'). exact SP.
      - right. assert (L : exists n, (n < N)%nat /\ (Nat.min (I n) (rest n (shp X)) < nth n ranks 0)%nat).
        { apply not_true_iff_false in EB. destruct (existsb (fun n => Nat.ltb (Nat.min (I n) (rest n (shp X))) (nth n ranks 0%nat)) (seq 0 N)) eqn:EX.
          - apply existsb_exists in EX as (n & Hn & Ln). apply in_seq in Hn. apply Nat.ltb_lt in Ln. exists n. split; [lia|exact Ln].
          - exfalso. apply EB. apply forallb_forall. intros n Hn. apply Nat.leb_le. destruct (le_lt_dec (nth n ranks 0%nat) (Nat.min (I n) (rest n (shp X)))) as [|L]; auto.
            exfalso. apply not_true_iff_false in EX. apply EX. apply existsb_exists. exists n. split; [exact Hn|apply Nat.ltb_lt, L]. }
        split; [apply G2, L|apply G2', L].
    Qed.

    (** ** the training loop *)
    Lemma publish_turned v o o' p p' : turned_obs o o' -> turned_pub Q p p' -> turned_pub Q (publish v o p) (publish v o' p').
    Proof.
      intros (O1 & (g & g' & G & G' & G1 & G2) & O3 & O4) (P1 & P2 & P3 & P4). unfold publish, turned_pub. cbn [p_factors p_aux p_full p_finish]. rewrite G, G'.
      split; [exact O1|]. split; [split; assumption|]. split; [|exact P4]. destruct v; [rewrite O3; reflexivity|exact P3].
    Qed.
    Lemma run_turned A A' : rlinked A A' -> sweep_gaps svdU X ranks (seq 0 (ndims X)) A ->
      (exists B B' o o', hooi_run svdU X rk A = Ok (B, o) /\ hooi_run svdU' Y rk A' = Ok (B', o') /\ rlinked B B' /\ turned_obs o o' /\
         exists h, hooi_step svdU X rk A = Ok h /\ ho_A h = B) \/
      (hooi_run svdU X rk A = Raise ValueError /\ hooi_run svdU' Y rk A' = Raise ValueError).
    Proof.
      intros HA Hg. unfold hooi_run. destruct (step_turned A A' HA Hg) as [(o & o' & E & E' & HL & C1 & C2 & EF & EM)|(E & E')]; rewrite E, E'; cbn [bind]; [left|right; auto].
      exists (ho_A o), (ho_A o'). do 2 eexists. split; [reflexivity|]. split; [reflexivity|]. split; [exact HL|]. split; [|eauto].
      split; [apply HL|]. cbn [ob_aux ob_full ob_met]. split; [|split; assumption]. exists (ho_core o), (ho_core o'). auto.
    Qed.
    Section Loop.
      Variables (sum_ok : bool) (args : targs R) (steps : Z).
      Hypothesis Hg : hooi_gaps svdU X ranks steps.
      Lemma loop_turned fuel : forall j A A' obj0 nst h h' p p', rlinked A A' -> after svdU X ranks j A -> (Z.of_nat j + Z.of_nat fuel <= steps)%Z -> turned_pub Q p p' -> map snd h' = map snd h ->
        turned_pub Q (fst (als_loop (hooi_run svdU X rk) sum_ok args steps fuel (Z.of_nat j + 1) A obj0 nst h p))
                     (fst (als_loop (hooi_run svdU' Y rk) sum_ok args steps fuel (Z.of_nat j + 1) A' obj0 nst h' p')) /\
        same_errors (snd (als_loop (hooi_run svdU X rk) sum_ok args steps fuel (Z.of_nat j + 1) A obj0 nst h p))
                    (snd (als_loop (hooi_run svdU' Y rk) sum_ok args steps fuel (Z.of_nat j + 1) A' obj0 nst h' p')).
      Proof.
        induction fuel as [|fuel IH]; intros j A A' obj0 nst h h' p p' HA Haf Hj Hp Hh; cbn [als_loop]; [split; [exact Hp|exact Hh]|].
        destruct (validate args steps (Z.of_nat j + 1)) as [v|e]; [|split; [exact Hp|reflexivity]]. unfold run_v.
        destruct (v && negb sum_ok)%bool; [split; [exact Hp|reflexivity]|].
        destruct (run_turned A A' HA (proj2 Hg j A ltac:(lia) Haf)) as [(B & B' & o & o' & E & E' & HB & HO & (hh & Eh & <-))|(E & E')]; rewrite E, E'; [|split; [exact Hp|reflexivity]].
        pose proof (publish_turned v o o' p p' HO Hp) as HP. destruct HO as (_ & _ & _ & EO & ER). rewrite EO, ER.
        assert (Hh' : map snd (h' ++ [(m_loss (ob_met o'), m_rel (ob_met o))]) = map snd (h ++ [(m_loss (ob_met o), m_rel (ob_met o))])) by (rewrite !map_app, Hh; reflexivity).
        destruct (stop_now _ _ _); [split; [exact HP|exact Hh']|].
        replace (Z.of_nat j + 1 + 1)%Z with (Z.of_nat (S j) + 1)%Z by lia. apply IH; auto; [|lia]. apply (after_step _ _ _ _ A); assumption.
      Qed.
      Lemma body_turned p p' : turned_pub Q p p' ->
        turned_pub Q (fst (als_body (hooi_run svdU X rk) sum_ok args steps (hooi_init svdU X rk) p))
                     (fst (als_body (hooi_run svdU' Y rk) sum_ok args steps (hooi_init svdU' Y rk) p')) /\
        same_errors (snd (als_body (hooi_run svdU X rk) sum_ok args steps (hooi_init svdU X rk) p))
                    (snd (als_body (hooi_run svdU' Y rk) sum_ok args steps (hooi_init svdU' Y rk) p')).
      Proof.
        intros Hp. unfold als_body. destruct (init_turned (proj1 Hg)) as [(A & A' & E & E' & HA)|(E & E')]; rewrite E, E'; [|split; [exact Hp|reflexivity]].
        destruct (Z.leb_spec steps 0); [split; [exact Hp|reflexivity]|]. apply (loop_turned (Z.to_nat steps) 0); auto; [|lia]. constructor. exact E.
      Qed.
    End Loop.
    Lemma hooi_train_turned w args id steps (o o' : fobj R (targs R * list Z)) : hooi_gaps svdU X ranks steps -> o_built o = Some ((args, rk), id) -> turned_obj Q o o' ->
      turned_obj Q (fst (hooi_train svdU X w o tt steps)) (fst (hooi_train svdU' (rotated Q X) w o' tt steps)) /\
      same_errors (snd (hooi_train svdU X w o tt steps)) (snd (hooi_train svdU' (rotated Q X) w o' tt steps)).
    Proof.
      intros Hg EB [HB HP]. unfold hooi_train, obj_train. rewrite HB, EB. destruct (negb (w_path w)); [split; [split; [reflexivity|exact HP]|reflexivity]|].
      unfold hooi_body. cbn [fst snd]. destruct (body_turned (forallb (Nat.eqb id) (w_sums w)) args steps Hg _ _ HP) as [K1 K2]. fold Y.
      destruct (als_body (hooi_run svdU X rk) _ _ _ _ (o_pub o)) as [q r]. destruct (als_body (hooi_run svdU' Y rk) _ _ _ _ (o_pub o')) as [q' r'].
      cbn [fst snd] in K1, K2. destruct r as [h|e], r' as [h'|e']; cbn [same_errors] in K2; try contradiction; cbn [fst snd]; (split; [|exact K2]); (split; [reflexivity|]); [|exact K1].
      destruct K1 as (P1 & P2 & P3 & P4). repeat split; assumption.
    Qed.
  End Hooi.

  Lemma hosvd_train_turned w args id steps (o o' : fobj R (list Z)) : (ndims X <= length ranks)%nat -> (0 < ndims X <= 13)%nat -> hosvd_gaps X ranks ->
    o_built o = Some (args, id) -> args = map Z.of_nat ranks -> turned_obj Q o o' ->
    turned_obj Q (fst (hosvd_train svdU X w o tt steps)) (fst (hosvd_train svdU' (rotated Q X) w o' tt steps)) /\
    snd (hosvd_train svdU' (rotated Q X) w o' tt steps) = snd (hosvd_train svdU X w o tt steps).
  Proof.
    intros Hlen Hord Hg EB -> [HB (P1 & P2 & P3 & P4)]. unfold hosvd_train, obj_train. rewrite HB, EB.
    destruct (negb (w_path w)); [split; [split; [reflexivity|repeat split; assumption]|reflexivity]|]. unfold hosvd_body.
    destruct (hosvd_rotated Hlen Hord Hg) as (q & q' & -> & -> & SP & C1 & C2 & EF & _).
    destruct (forallb _ _); cbn [fst snd]; (split; [|reflexivity]); (split; [reflexivity|]); cbn; unfold turned_pub; cbn.
    - split; [exact SP|]. split; [split; assumption|]. rewrite EF. split; reflexivity.
    - split; [exact P1|]. split; [exact P2|]. split; [exact P3|reflexivity].
  Qed.
End Run.

Lemma hooi_step_rotated svdU svdU' (X : tensor R) ranks Q : left_svd svdU -> left_svd svdU' -> wf X -> nonempty (shp X) -> rotation (shp X) Q ->
  nonempty ranks -> length ranks = ndims X -> (2 <= ndims X <= 13)%nat ->
  forall A A', factor_state X ranks A -> factor_state (rotated Q X) ranks A' -> turned_spans Q A A' -> sweep_gaps svdU X ranks (seq 0 (ndims X)) A ->
  (exists o o', hooi_step svdU X (map Z.of_nat ranks) A = Ok o /\ hooi_step svdU' (rotated Q X) (map Z.of_nat ranks) A' = Ok o' /\
     turned_spans Q (ho_A o) (ho_A o') /\ shp (ho_core o') = shp (ho_core o) /\ sqlen (ho_core o') = sqlen (ho_core o) /\
     ho_full o' = rotated Q (ho_full o) /\ m_obj (ho_met o') = m_obj (ho_met o) /\ m_rel (ho_met o') = m_rel (ho_met o)) \/
  (hooi_step svdU X (map Z.of_nat ranks) A = Raise ValueError /\ hooi_step svdU' (rotated Q X) (map Z.of_nat ranks) A' = Raise ValueError).
Proof.
  intros HS HS' HX Hne HQ Hrk Hlen Hord A A' HA HA' SP Hg.
  destruct (step_turned svdU svdU' X ranks Q HS HS' HX Hne HQ Hrk Hlen Hord A A' (conj HA (conj HA' SP)) Hg) as [(o & o' & E & E' & (_ & _ & K) & L)|K]; [left|right; exact K].
  exists o, o'. repeat (split; [assumption|]). exact L.
Qed.
