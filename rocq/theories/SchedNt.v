(** NTUCKER_BCU: every execution of the core run and of the factor run computes the sequential updates. *)

From Coq Require Import ZArith List Bool Arith Relations Lia.
From Verif Require Import Num Py Tensor TensorFacts TF Ops Types Loss Fact TFFacts LayoutFacts TrainLemmas BcuFacts Sched SchedFacts Graphs SchedLists.
Import ListNotations.

Section NtState.
  Context {T : Type} {NM : Num T}.
  Lemma nth_snoc {B} (l : list B) x i d : nth i (l ++ [x]) d = if i =? length l then x else nth i l d.
  Proof.
    destruct (Nat.eqb_spec i (length l)) as [->|H]; [rewrite app_nth2, Nat.sub_diag by lia; reflexivity|].
    destruct (Nat.lt_ge_cases i (length l)); [apply app_nth1; assumption|]. rewrite !nth_overflow; [reflexivity|lia|rewrite app_length; cbn; lia].
  Qed.
End NtState.

(** ** the core run *)
Section Core.
  Context {T : Type} {NM : Num T}.
  Variables (svals : tensor T -> list T) (X : tensor T).
  Notation N := (ndims X).
  Notation g := (nt_core_graph svals X).
  Notation nd := (needed g nt_core_fetch).
  Notation dum := (mkT [] [] : tensor T).

  Definition ct_dom (n : ntc) : Prop := match n with GGram i => i < N | _ => True end.
  Definition ct_src (n : ntc) (v : var) : option ntc :=
    match n, v with
    | GGrad, VBsq => Some GBsq
    | GUp, VGrad => Some GGrad
    | GUp, VL _ => Some GL
    | _, _ => None end.
  Definition ct_wr (v : var) : option ntc :=
    match v with
    | VL0 i => if i =? N then Some GL0 else None
    | VL i => if i =? N then Some GL else None
    | VA i => if i =? N then Some GUp else None
    | VBsq => Some GBsq
    | VGrad => Some GGrad
    | _ => None end.
  Definition ct_rank (n : ntc) : nat :=
    match n with GGram _ | GL0 | GTtm => 0 | GL | GBsq => 1 | GGrad => 2 | GUp => 3 end.

  Lemma ct_prec_dom n d : ct_dom n -> prec g d n -> ct_dom d.
  Proof. intros Hn H. destruct n; crack; cbn in *; try lia; exact I. Qed.
  Lemma ct_needed n : nd n -> ct_dom n.
  Proof. apply needed_in; [|exact ct_prec_dom]. intros f H. unfold nt_core_fetch in H. crack; exact I. Qed.
  Lemma ct_rank_lt d n : nd n -> prec g d n -> ct_rank d < ct_rank n.
  Proof. intros Hn H. apply ct_needed in Hn. destruct n; crack; cbn in *; lia. Qed.

  Lemma ct_dom_needed n : ct_dom n -> nd n.
  Proof.
    assert (F : forall n, In n nt_core_fetch -> nd n) by (intros; apply needed_fetch; assumption).
    assert (B : before g GGrad GUp) by (eapply (before_read g GGrad GUp VGrad); [right; left; reflexivity|left; reflexivity]).
    intros H. destruct n; cbn in H; try (apply F; cbn; tauto).
    - apply (needed_before g _ GL (GGram i)); [apply F; cbn; tauto|]. apply before_data. apply in_map, in_seq. lia.
    - apply (needed_before g _ GUp GTtm); [apply F; cbn; tauto|]. eapply before_trans; [|exact B]. apply before_data. left. reflexivity.
    - apply (needed_before g _ GUp GGrad); [apply F; cbn; tauto|exact B].
  Qed.

  Lemma ct_resolved : resolved g nt_core_fetch ct_src ct_wr.
  Proof.
    split.
    - intros w v Hw W. destruct w; cbn in W; try discriminate; injection W as <-; cbn; try reflexivity; rewrite Nat.eqb_refl; reflexivity.
    - intros w v H. destruct v; cbn [ct_wr] in H; try discriminate; try (destruct (Nat.eqb_spec i N) as [E|E]; [rewrite E; clear E|discriminate H]); injection H as <-; (split; [apply ct_dom_needed; exact I|reflexivity]).
    - intros n v l w Hn I Hs. destruct n; cbn in I; try contradiction.
      + crack.
      + crack.
      + crack.
      + crack.
      + destruct I as [I|[]]. injection I as <- <-. cbn in Hs. injection Hs as <-. split; [reflexivity|]. eexists. split; [left; reflexivity|left; reflexivity].
      + destruct I as [I|[I|[I|[]]]]; injection I as <- <-; [discriminate Hs| |]; cbn in Hs; injection Hs as <-; (split; [reflexivity|]); eexists; (split; [left; reflexivity|left; reflexivity]).
    - intros n v l w Hn I Hs Hw W. apply ct_needed in Hn. right. destruct n; cbn in I; try contradiction.
      + cbn in Hn. destruct I as [I|[I|[]]]; injection I as <- <-; destruct w; cbn in W; try discriminate; injection W as W; lia.
      + destruct I as [I|[]]. injection I as <- <-. destruct w; cbn in W; try discriminate. apply before_ctrl. left. reflexivity.
      + destruct I as [I|[]]. injection I as <- <-. destruct w; cbn in W; discriminate.
      + apply in_map_iff in I. destruct I as (j & E & Hj). apply in_seq in Hj. injection E as <- <-. destruct w; cbn in W; try discriminate. injection W as W. lia.
      + destruct I as [I|[]]. injection I as <- <-. discriminate Hs.
      + destruct I as [I|[I|[I|[]]]]; injection I as <- <-; [destruct w; cbn in W; discriminate|discriminate Hs|discriminate Hs].
  Qed.

  Variables (s : nt_state T) (mem : var -> tensor T).
  Hypotheses (HA : length (q_A s) = N) (HL : length (q_L s) = N + 1) (HL0 : length (q_L0 s) = N + 1) (Hmem : nt_mem s mem).
  Notation sol := (solution g nt_core_fetch ct_src mem).

  Lemma mem_A i : i < N -> mem (VA i) = nth i (q_A s) dum.
  Proof. intros H. rewrite Hmem by discriminate. cbn. rewrite nth_snoc, HA. destruct (Nat.eqb_spec i N); [lia|reflexivity]. Qed.

  (** the equations of the core run *)
  Record ct_eqs (val : ntc -> tensor T) (gm : tensor T) : Prop := {
    cq_gram : forall i, i < N -> tf_matmul true false (nth i (q_A s) dum) (nth i (q_A s) dum) = Ok (val (GGram i));
    cq_l0 : val GL0 = scl (nth N (q_L s) n0);
    cq_l : exists l, max_single_value_mul svals (map (fun i => val (GGram i)) (seq 0 N)) SkNone = Ok l /\ val GL = scl l;
    cq_bsq : ttm gm (map (fun i => val (GGram i)) (seq 0 N)) None false SkNone = Ok (val GBsq);
    cq_ttm : ttm X (q_A s) None true SkNone = Ok (val GTtm);
    cq_grad : tf_bin nsub (val GBsq) (val GTtm) = Ok (val GGrad);
    cq_up : (do u <- tf_bin nsub gm (tf_map (fun x => ndiv x (unscl (val GL))) (val GGrad)); Ok (tf_map nrelu u)) = Ok (val GUp) }.

  Hypothesis HAm : length (q_Am s) = N.

  Lemma mem_gm : mem (VAm N) = q_gm s.
  Proof. rewrite Hmem by discriminate. cbn. rewrite nth_snoc, HAm, Nat.eqb_refl. reflexivity. Qed.

  Lemma ct_ttm_reads val : map (fun r => seen ct_src mem val GTtm (fst r)) (g_reads g GTtm) = q_A s.
  Proof.
    cbn [g_reads nt_core_graph]. rewrite map_map. rewrite <- (map_nth_seq (q_A s) dum), HA. apply map_ext_in. intros i Hi. apply in_seq in Hi. cbn [fst]. unfold seen. cbn. apply mem_A. lia.
  Qed.

  Lemma ct_kernel_l xs : g_kernel g GL xs [] = (do l <- max_single_value_mul svals xs SkNone; Ok (scl l)).
  Proof. destruct xs as [|? [|? [|? ?]]]; reflexivity. Qed.
  Lemma ct_kernel_bsq xs gm : g_kernel g GBsq xs [gm] = ttm gm xs None false SkNone.
  Proof. destruct xs as [|? [|? [|? ?]]]; reflexivity. Qed.
  Lemma ct_kernel_ttm rs : g_kernel g GTtm [] rs = ttm X rs None true SkNone.
  Proof. destruct rs as [|? [|? [|? ?]]]; reflexivity. Qed.

  Lemma ct_sol_iff val : sol val <-> ct_eqs val (q_gm s).
  Proof.
    split.
    - intros HS. split.
      + intros i Hi. pose proof (HS (GGram i) (ct_dom_needed (GGram i) Hi)) as E. cbn [g_kernel g_data g_reads nt_core_graph map fst] in E. unfold seen in E. cbn in E. rewrite mem_A in E by exact Hi. exact E.
      + pose proof (HS GL0 (ct_dom_needed GL0 I)) as E. cbn in E. unfold seen in E. cbn in E. injection E as E. rewrite <- E. rewrite Hmem by discriminate. reflexivity.
      + pose proof (HS GL (ct_dom_needed GL I)) as E. cbn [g_data g_reads nt_core_graph] in E. rewrite map_map in E. cbn [map] in E. rewrite ct_kernel_l in E.
        destruct (max_single_value_mul svals (map (fun i => val (GGram i)) (seq 0 N)) SkNone) as [l|]; [|discriminate]. injection E as E. exists l. auto.
      + pose proof (HS GBsq (ct_dom_needed GBsq I)) as E. cbn [g_data g_reads nt_core_graph] in E. rewrite map_map in E. cbn [map fst] in E. rewrite ct_kernel_bsq in E. unfold seen in E. cbn [ct_src] in E. rewrite mem_gm in E. exact E.
      + pose proof (HS GTtm (ct_dom_needed GTtm I)) as E. rewrite ct_ttm_reads in E. cbn [g_data nt_core_graph map] in E. rewrite ct_kernel_ttm in E. exact E.
      + exact (HS GGrad (ct_dom_needed GGrad I)).
      + pose proof (HS GUp (ct_dom_needed GUp I)) as E. cbn [g_kernel g_data g_reads nt_core_graph map fst] in E. unfold seen in E. cbn [ct_src] in E. rewrite mem_gm in E. exact E.
    - intros Q n Hn. apply ct_needed in Hn. destruct n.
      + cbn [g_kernel g_data g_reads nt_core_graph map fst]. unfold seen. cbn [ct_src]. rewrite mem_A by exact Hn. apply (cq_gram _ _ Q), Hn.
      + cbn. unfold seen. cbn. rewrite Hmem by discriminate. rewrite (cq_l0 _ _ Q). reflexivity.
      + cbn [g_data g_reads nt_core_graph]. rewrite map_map. cbn [map]. rewrite ct_kernel_l. destruct (cq_l _ _ Q) as (l & E & E'). rewrite E, E'. reflexivity.
      + cbn [g_data g_reads nt_core_graph]. rewrite map_map. cbn [map fst]. rewrite ct_kernel_bsq. unfold seen. cbn [ct_src]. rewrite mem_gm. apply (cq_bsq _ _ Q).
      + rewrite ct_ttm_reads. cbn [g_data nt_core_graph map]. rewrite ct_kernel_ttm. apply (cq_ttm _ _ Q).
      + exact (cq_grad _ _ Q).
      + cbn [g_kernel g_data g_reads nt_core_graph map fst]. unfold seen. cbn [ct_src]. rewrite mem_gm. exact (cq_up _ _ Q).
  Qed.

  Definition ct_result (val : ntc -> tensor T) : nt_state T :=
    mkNT (q_A s) (q_Am s) (q_A0 s) (val GUp) (q_gm s) (q_g0 s) (q_t s) (q_t0 s) (q_w s)
         (upd (q_L s) N (unscl (val GL))) (upd (q_L0 s) N (unscl (val GL0))).

  Lemma ct_grams val : (forall i, i < N -> tf_matmul true false (nth i (q_A s) dum) (nth i (q_A s) dum) = Ok (val (GGram i))) ->
    grams (q_A s) = Ok (map (fun i => val (GGram i)) (seq 0 N)).
  Proof.
    intros H. unfold grams. rewrite <- (map_nth_seq (q_A s) dum) at 1. rewrite HA, mapM_map. apply mapM_ok. intros i Hi. apply in_seq in Hi. apply H. lia.
  Qed.

  Lemma ct_sol_core val : sol val -> nt_core svals X s = Ok (ct_result val).
  Proof.
    intros HS. apply ct_sol_iff in HS. unfold nt_core. rewrite (ct_grams val (cq_gram _ _ HS)). cbn [bind].
    rewrite (pynth_nat _ N n0) by lia. cbn [bind]. destruct (cq_l _ _ HS) as (l & El & Ev). rewrite El. cbn [bind].
    rewrite (cq_bsq _ _ HS). cbn [bind]. rewrite (cq_ttm _ _ HS). cbn [bind]. rewrite (cq_grad _ _ HS). cbn [bind].
    pose proof (cq_up _ _ HS) as Eu. rewrite Ev in Eu. change (unscl (scl l)) with l in Eu.
    destruct (tf_bin nsub (q_gm s) (tf_map (fun x => ndiv x l) (val GGrad))) as [u|]; [|discriminate]. cbn [bind] in *. injection Eu as Eu. rewrite Eu.
    unfold ct_result. rewrite Ev, (cq_l0 _ _ HS). reflexivity.
  Qed.

  Lemma ct_core_sol out : nt_core svals X s = Ok out -> exists val, sol val.
  Proof.
    unfold nt_core. intros H. destruct (grams (q_A s)) as [AtA|] eqn:Eg; [|discriminate]. cbn [bind] in H.
    rewrite (pynth_nat _ N n0) in H by lia. cbn [bind] in H.
    assert (LA : length AtA = N) by (unfold grams in Eg; rewrite (mapM_length _ _ _ Eg); exact HA).
    destruct (max_single_value_mul svals AtA SkNone) as [l|] eqn:El; [|discriminate]. cbn [bind] in H.
    destruct (ttm (q_gm s) AtA None false SkNone) as [b|] eqn:Eb; [|discriminate]. cbn [bind] in H.
    destruct (ttm X (q_A s) None true SkNone) as [y|] eqn:Ey; [|discriminate]. cbn [bind] in H.
    destruct (tf_bin nsub b y) as [gr|] eqn:Er; [|discriminate]. cbn [bind] in H.
    destruct (tf_bin nsub (q_gm s) (tf_map (fun x => ndiv x l) gr)) as [u|] eqn:Eu; [|discriminate].
    exists (fun n => match n with GGram i => nth i AtA dum | GL0 => scl (nth N (q_L s) n0) | GL => scl l | GBsq => b | GTtm => y | GGrad => gr | GUp => tf_map nrelu u end).
    apply ct_sol_iff.
    assert (EA : map (fun i => nth i AtA dum) (seq 0 N) = AtA) by (rewrite <- LA; apply map_nth_seq).
    split; try assumption; try reflexivity.
    - intros i Hi. unfold grams in Eg. apply (mapM_nth _ _ _ i dum dum Eg). lia.
    - exists l. rewrite EA. auto.
    - rewrite EA. exact Eb.
    - change (unscl (scl l)) with l. rewrite Eu. reflexivity.
  Qed.

  Lemma ct_exec (E : execution g nt_core_fetch mem) : finished g E ->
    exists s', nt_core svals X s = Ok s' /\
      (forall v, v <> VBsq -> v <> VGrad -> final g E v (nt_vars s' v)) /\ fetched g E GUp (q_g s').
  Proof.
    intros HF. destruct (finished_solution g nt_core_fetch ct_src ct_wr mem ct_resolved E dum HF) as (val & Hv & HS).
    exists (ct_result val). split; [apply ct_sol_core, HS|]. pose proof (proj1 (ct_sol_iff val) HS) as Q.
    assert (Hnew : forall n v, ct_dom n -> g_writes g n = Some v -> final g E v (val n)).
    { intros n v Hn W. destruct (Hv n (ct_dom_needed n Hn)) as (R & Hx). eapply (final_new g nt_core_fetch E ct_src ct_wr ct_resolved n); [exact R|exact W|exact Hx]. }
    assert (Hold : forall v, v <> VBsq -> v <> VGrad -> (forall n, g_writes g n <> Some v) -> final g E v (nt_vars s v)).
    { intros v H1 H2 H. rewrite <- Hmem by assumption. apply (final_old g nt_core_fetch E). intros w _ W. exact (H w W). }
    split; [|cbn [ct_result q_g]; destruct (Hv GUp (ct_dom_needed GUp I)) as (R & Hx); eapply (fetched_ok g nt_core_fetch E ct_src ct_wr ct_resolved); assumption].
    intros v H1 H2. destruct v as [i|i|i| | |i|i|i| |]; try congruence;
      try (apply (Hold _ H1 H2); intros n W; destruct n; discriminate W).
    - destruct (Nat.eqb_spec i N) as [->|Hne].
      + replace (nt_vars (ct_result val) (VA N)) with (val GUp) by (cbn [nt_vars ct_result q_A q_g]; rewrite nth_snoc, HA, Nat.eqb_refl; reflexivity). apply Hnew; [exact I|reflexivity].
      + replace (nt_vars (ct_result val) (VA i)) with (nt_vars s (VA i)) by (cbn [nt_vars ct_result q_A q_g]; rewrite !nth_snoc, HA; destruct (Nat.eqb_spec i N); [contradiction|reflexivity]).
        apply (Hold _ H1 H2). intros n W. destruct n; try discriminate W. injection W as W. apply Hne. symmetry. exact W.
    - destruct (Nat.eqb_spec i N) as [->|Hne].
      + replace (nt_vars (ct_result val) (VL N)) with (val GL); [apply Hnew; [exact I|reflexivity]|]. cbn [nt_vars ct_result q_L]. rewrite nth_upd, Nat.eqb_refl, HL. destruct (Nat.ltb_spec N (N + 1)); [|lia].
        destruct (cq_l _ _ Q) as (l & _ & ->). reflexivity.
      + replace (nt_vars (ct_result val) (VL i)) with (nt_vars s (VL i)) by (cbn [nt_vars ct_result q_L]; rewrite nth_upd; destruct (Nat.eqb_spec i N); [contradiction|reflexivity]).
        apply (Hold _ H1 H2). intros n W. destruct n; try discriminate W. injection W as W. apply Hne. symmetry. exact W.
    - destruct (Nat.eqb_spec i N) as [->|Hne].
      + replace (nt_vars (ct_result val) (VL0 N)) with (val GL0); [apply Hnew; [exact I|reflexivity]|]. cbn [nt_vars ct_result q_L0]. rewrite nth_upd, Nat.eqb_refl, HL0. destruct (Nat.ltb_spec N (N + 1)); [|lia].
        rewrite (cq_l0 _ _ Q). reflexivity.
      + replace (nt_vars (ct_result val) (VL0 i)) with (nt_vars s (VL0 i)) by (cbn [nt_vars ct_result q_L0]; rewrite nth_upd; destruct (Nat.eqb_spec i N); [contradiction|reflexivity]).
        apply (Hold _ H1 H2). intros n W. destruct n; try discriminate W. injection W as W. apply Hne. symmetry. exact W.
  Qed.

  Lemma ct_no_failure out (E : execution g nt_core_fetch mem) n : nt_core svals X s = Ok out -> e_ran E n -> is_ok (e_val E n).
  Proof.
    intros H R. destruct (ct_core_sol out H) as (val & HS). exists (val n). eapply (solution_unique g nt_core_fetch ct_src ct_wr mem ct_resolved); eauto.
  Qed.

  Lemma ct_exists out : nt_core svals X s = Ok out -> exists E : execution g nt_core_fetch mem, finished g E.
  Proof.
    intros H. destruct (ct_core_sol out H) as (val & HS). eapply (solution_exists g nt_core_fetch ct_src ct_wr mem ct_resolved val ct_rank HS). exact ct_rank_lt.
  Qed.
End Core.

(** ** the factor run *)
Section Fac.
  Context {T : Type} {NM : Num T}.
  Variables (svals : tensor T -> list T) (X : tensor T).
  Notation N := (ndims X).
  Notation g := (nt_fact_graph svals X).
  Notation nd := (needed g (nt_fact_fetch X)).
  Notation dum := (mkT [] [] : tensor T).

  Definition fc_dom (n : ntf) : Prop :=
    match n with
    | FUnf m | FB m | FXB m | FBsq m | FG m | FL0 m | FL m | FA m => m < N
    | _ => True end.
  Definition fc_src (n : ntf) (v : var) : option ntf :=
    match n, v with
    | FB m, VA i => if i <? m then Some (FA i) else None
    | FA m, VL _ => Some (FL m)
    | FFull, VA i => if i <? N then Some (FA i) else None
    | _, _ => None end.
  Definition fc_wr (v : var) : option ntf :=
    match v with
    | VA i => if i <? N then Some (FA i) else None
    | VL i => if i <? N then Some (FL i) else None
    | VL0 i => if i <? N then Some (FL0 i) else None
    | Vt => Some FT
    | _ => None end.
  Definition fc_rank (n : ntf) : nat :=
    match n with
    | FUnf m | FB m | FL0 m => 10 * m + 11
    | FXB m | FBsq m => 10 * m + 12
    | FL m | FG m => 10 * m + 13
    | FA m => 10 * m + 14
    | FFull => 10 * N + 11
    | FT => 0
    | _ => 10 * N + 12 end.

  Lemma fc_prec_dom n d : fc_dom n -> prec g d n -> fc_dom d.
  Proof. intros Hn H. destruct n; crack; cbn in *; try lia; exact I. Qed.
  Lemma fc_needed n : nd n -> fc_dom n.
  Proof. apply needed_in; [|exact fc_prec_dom]. intros f H. unfold nt_fact_fetch in H. crack; cbn; try lia; exact I. Qed.
  Lemma fc_rank_lt d n : nd n -> prec g d n -> fc_rank d < fc_rank n.
  Proof. intros Hn H. apply fc_needed in Hn. destruct n; crack; cbn in *; lia. Qed.

  Lemma fc_up m : m < N -> nd (FA m).
  Proof. intros H. apply needed_fetch. unfold nt_fact_fetch. apply in_or_app. left. apply in_map, in_seq. lia. Qed.
  Lemma fg_fa m : before g (FG m) (FA m).
  Proof. apply before_data. left. reflexivity. Qed.
  Lemma fl_fa m : before g (FL m) (FA m).
  Proof. eapply (before_read g (FL m) (FA m) (VL m)); [right; left; reflexivity|left; reflexivity]. Qed.
  Lemma fl0_fl m : before g (FL0 m) (FL m).
  Proof. apply before_ctrl. left. reflexivity. Qed.
  Lemma fxb_fa m : before g (FXB m) (FA m).
  Proof. eapply before_trans; [|apply fg_fa]. apply before_data. right. left. reflexivity. Qed.
  Lemma fbsq_fa m : before g (FBsq m) (FA m).
  Proof. eapply before_trans; [|apply fg_fa]. apply before_data. left. reflexivity. Qed.
  Lemma fb_fa m : before g (FB m) (FA m).
  Proof. eapply before_trans; [|apply fbsq_fa]. apply before_data. left. reflexivity. Qed.
  Lemma fa_next m : before g (FA m) (FA (S m)).
  Proof. eapply before_trans; [|apply fb_fa]. apply before_ctrl. left. reflexivity. Qed.
  Lemma fa_fa i j : i <= j -> FA i = FA j \/ before g (FA i) (FA j).
  Proof. intros H. induction H as [|j H IH]; [auto|]. right. destruct IH as [->|IH]; [apply fa_next|]. eapply before_trans; [exact IH|apply fa_next]. Qed.

  Lemma fc_dom_needed n : fc_dom n -> nd n.
  Proof.
    assert (F : forall n, In n [FFull; FLoss; FObj; FRel] -> nd n).
    { intros n' H. apply needed_fetch. unfold nt_fact_fetch. rewrite !in_app_iff. auto. }
    intros H. destruct n; cbn in H; try (apply F; cbn; tauto).
    - eapply needed_before; [apply (fc_up m H)|]. eapply before_trans; [|apply fxb_fa]. apply before_data. left. reflexivity.
    - eapply needed_before; [apply (fc_up m H)|]. apply fb_fa.
    - eapply needed_before; [apply (fc_up m H)|]. apply fxb_fa.
    - eapply needed_before; [apply (fc_up m H)|]. apply fbsq_fa.
    - eapply needed_before; [apply (fc_up m H)|]. apply fg_fa.
    - eapply needed_before; [apply (fc_up m H)|]. eapply before_trans; [apply fl0_fl|apply fl_fa].
    - eapply needed_before; [apply (fc_up m H)|]. apply fl_fa.
    - apply fc_up, H.
    - apply needed_fetch. unfold nt_fact_fetch. rewrite !in_app_iff. cbn. tauto.
  Qed.

  Lemma fc_resolved : resolved g (nt_fact_fetch X) fc_src fc_wr.
  Proof.
    split.
    - intros w v Hw W. apply fc_needed in Hw. destruct w; cbn in W; try discriminate; injection W as <-; cbn in *; try reflexivity; destruct (Nat.ltb_spec m N); reflexivity || lia.
    - intros w v H. destruct v; cbn in H; try discriminate;
        try (destruct (Nat.ltb_spec i N) as [Hi|]; [|discriminate]); injection H as <-; (split; [apply fc_dom_needed; cbn; try exact I; lia|reflexivity]).
    - intros n v l w Hn I Hs. apply fc_needed in Hn.
      assert (Hsee : forall i m, i < m -> sees g (previous FA m) (FA i)).
      { intros i [|m] Him; [lia|]. exists (FA m). split; [left; reflexivity|]. apply fa_fa. lia. }
      destruct n; cbn in I; try contradiction.
      + destruct v as [j| | | | | | | | |]; try discriminate. cbn in Hs. destruct (Nat.ltb_spec j m) as [Hj|]; [|discriminate]. injection Hs as <-.
        split; [reflexivity|]. assert (l = previous FA m) by (crack; reflexivity). subst l. apply Hsee, Hj.
      + destruct I as [I|[]]. injection I as <- <-. discriminate Hs.
      + destruct I as [I|[]]. injection I as <- <-. discriminate Hs.
      + destruct I as [I|[I|[]]]; injection I as <- <-; [discriminate Hs|]. cbn in Hs. injection Hs as <-. split; [reflexivity|]. eexists. split; [left; reflexivity|left; reflexivity].
      + destruct v as [j| | | | | | | | |]; try discriminate. cbn in Hs. destruct (Nat.ltb_spec j N) as [Hj|]; [|discriminate]. injection Hs as <-.
        split; [reflexivity|]. destruct I as [I|I]; [injection I as <- <-; lia|]. apply in_map_iff in I. destruct I as (k & E & Hk). injection E as -> <-. eexists. split; [left; reflexivity|left; reflexivity].
      + destruct I as [I|[]]. injection I as <- <-. discriminate Hs.
    - intros n v l w Hn I Hs Hw W. apply fc_needed in Hn, Hw. right.
      destruct n; cbn in I; try contradiction.
      + assert (exists i, v = VA i) as (i & ->) by (crack; eauto). destruct w; cbn in W; try discriminate. injection W as ->. cbn in Hs. destruct (Nat.ltb_spec i m) as [|Hge]; [discriminate|].
        destruct (fa_fa m i Hge) as [<-|B]; [apply fb_fa|]. eapply before_trans; [apply fb_fa|exact B].
      + destruct I as [I|[]]. injection I as <- <-. destruct w; cbn in W; discriminate.
      + destruct I as [I|[]]. injection I as <- <-. destruct w; cbn in W; try discriminate. injection W as ->. apply fl0_fl.
      + destruct I as [I|[I|[]]]; injection I as <- <-; [destruct w; cbn in W; discriminate|discriminate Hs].
      + assert (exists i, v = VA i) as (i & ->) by (crack; eauto). destruct w; cbn in W; try discriminate. injection W as ->. cbn in Hs, Hw. destruct (Nat.ltb_spec i N); [discriminate|lia].
      + destruct I as [I|[]]. injection I as <- <-. destruct w; cbn in W; discriminate.
  Qed.

  Variables (s : nt_state T) (mem : var -> tensor T).
  Hypotheses (HA : length (q_A s) = N) (HAm : length (q_Am s) = N) (HL : length (q_L s) = N + 1) (HL0 : length (q_L0 s) = N + 1) (Hmem : nt_mem s mem).
  Notation sol := (solution g (nt_fact_fetch X) fc_src mem).

  Definition fc_at (val : ntf -> tensor T) (m : nat) : nt_state T :=
    mkNT (swept dum (q_A s) (fun i => val (FA i)) N m) (q_Am s) (q_A0 s) (q_g s) (q_gm s) (q_g0 s) (q_t s) (q_t0 s) (q_w s)
         (swept n0 (q_L s) (fun i => unscl (val (FL i))) (N + 1) m) (swept n0 (q_L0 s) (fun i => unscl (val (FL0 i))) (N + 1) m).

  Lemma fmem_A i : i < N -> mem (VA i) = nth i (q_A s) dum.
  Proof. intros H. rewrite Hmem by discriminate. cbn. rewrite nth_snoc, HA. destruct (Nat.eqb_spec i N); [lia|reflexivity]. Qed.
  Lemma fmem_Am i : i < N -> mem (VAm i) = nth i (q_Am s) dum.
  Proof. intros H. rewrite Hmem by discriminate. cbn. rewrite nth_snoc, HAm. destruct (Nat.eqb_spec i N); [lia|reflexivity]. Qed.
  Lemma fmem_g : mem (VA N) = q_g s.
  Proof. rewrite Hmem by discriminate. cbn. rewrite nth_snoc, HA, Nat.eqb_refl. reflexivity. Qed.

  Lemma fc_b_reads val m : m < N -> map (fun r => seen fc_src mem val (FB m) (fst r)) (g_reads g (FB m)) = q_g s :: skip_ (q_A (fc_at val m)) (SkInt (Z.of_nat m)).
  Proof.
    intros Hm. cbn [g_reads nt_fact_graph map fst]. f_equal.
    - unfold seen. cbn. destruct (Nat.ltb_spec N m); [lia|]. apply fmem_g.
    - cbn [fc_at q_A]. rewrite swept_skip, skipping_map, map_map. apply map_ext_in. intros i Hi. apply in_butlist in Hi. cbn [fst]. unfold seen. cbn. rewrite fmem_A by apply Hi. destruct (i <? m); reflexivity.
  Qed.

  Lemma fc_full_reads val : map (fun r => seen fc_src mem val FFull (fst r)) (g_reads g FFull) = q_g s :: q_A (fc_at val N).
  Proof.
    cbn [g_reads nt_fact_graph map fst]. f_equal.
    - unfold seen. cbn. destruct (Nat.ltb_spec N N); [lia|]. apply fmem_g.
    - rewrite map_map. cbn [fc_at q_A]. unfold swept. apply map_ext_in. intros i Hi. apply in_seq in Hi. cbn [fst]. unfold seen. cbn. destruct (Nat.ltb_spec i N); [reflexivity|lia].
  Qed.

  Lemma fc_kernel_b m core rs : g_kernel g (FB m) [] (core :: rs) = (do y <- ttm core (firstn m rs ++ [dum] ++ skipn m rs) None false (SkInt (Z.of_nat m)); unfold y (Z.of_nat m)).
  Proof. destruct rs as [|? [|? [|? ?]]]; reflexivity. Qed.
  Lemma fc_kernel_full core rs : g_kernel g FFull [] (core :: rs) = tt_extract core rs.
  Proof. destruct rs as [|? [|? [|? ?]]]; reflexivity. Qed.

  Record fc_eqs (val : ntf -> tensor T) (m : nat) : Prop := {
    fq_b : (do y <- ttm (q_g s) (q_A (fc_at val m)) None false (SkInt (Z.of_nat m)); unfold y (Z.of_nat m)) = Ok (val (FB m));
    fq_xb : tf_matmul false true (val (FUnf m)) (val (FB m)) = Ok (val (FXB m));
    fq_bsq : tf_matmul false true (val (FB m)) (val (FB m)) = Ok (val (FBsq m));
    fq_l0 : val (FL0 m) = scl (nth m (q_L s) n0);
    fq_l : val (FL m) = scl (tf_max (svals (val (FBsq m))));
    fq_g : (do p <- tf_matmul false false (nth m (q_Am s) dum) (val (FBsq m)); tf_bin nsub p (val (FXB m))) = Ok (val (FG m));
    fq_a : (do u <- tf_bin nsub (nth m (q_Am s) dum) (tf_map (fun x => ndiv x (unscl (val (FL m)))) (val (FG m))); Ok (tf_map nrelu u)) = Ok (val (FA m)) }.

  Lemma fc_sol_eqs val m : sol val -> m < N -> fc_eqs val m.
  Proof.
    intros HS Hm. split.
    - pose proof (HS (FB m) (fc_dom_needed (FB m) Hm)) as E. rewrite fc_b_reads in E by exact Hm. cbn [g_data nt_fact_graph map] in E. rewrite fc_kernel_b in E.
      rewrite (ttm_insert (q_g s) (q_A (fc_at val m)) m dum false) in E by (cbn [fc_at q_A]; rewrite swept_length; exact Hm). exact E.
    - exact (HS (FXB m) (fc_dom_needed (FXB m) Hm)).
    - exact (HS (FBsq m) (fc_dom_needed (FBsq m) Hm)).
    - pose proof (HS (FL0 m) (fc_dom_needed (FL0 m) Hm)) as E. cbn in E. unfold seen in E. cbn in E. injection E as E. rewrite <- E, Hmem by discriminate. reflexivity.
    - pose proof (HS (FL m) (fc_dom_needed (FL m) Hm)) as E. cbn in E. injection E as E. symmetry. exact E.
    - pose proof (HS (FG m) (fc_dom_needed (FG m) Hm)) as E. cbn [g_kernel g_data g_reads nt_fact_graph map fst] in E. unfold seen in E. cbn [fc_src] in E. rewrite fmem_Am in E by exact Hm. exact E.
    - pose proof (HS (FA m) (fc_dom_needed (FA m) Hm)) as E. cbn [g_kernel g_data g_reads nt_fact_graph map fst] in E. unfold seen in E. cbn [fc_src] in E. rewrite fmem_Am in E by exact Hm. exact E.
  Qed.

  Lemma fc_sol_mode val m : fc_eqs val m -> m < N -> nt_mode svals (map (fun m => val (FUnf m)) (seq 0 N)) m (fc_at val m) = Ok (fc_at val (S m)).
  Proof.
    intros Q Hm. unfold nt_mode. change (q_g (fc_at val m)) with (q_g s). change (q_Am (fc_at val m)) with (q_Am s).
    pose proof (fq_b _ _ Q) as Eb. destruct (ttm (q_g s) (q_A (fc_at val m)) None false (SkInt (Z.of_nat m))) as [y|]; [|discriminate]. cbn [bind] in *. rewrite Eb. cbn [bind].
    rewrite pynth_map_seq by exact Hm. cbn [bind]. rewrite (fq_xb _ _ Q). cbn [bind]. rewrite (fq_bsq _ _ Q). cbn [bind].
    rewrite (pynth_nat _ m dum) by lia. cbn [bind].
    pose proof (fq_g _ _ Q) as EG. destruct (tf_matmul false false (nth m (q_Am s) dum) (val (FBsq m))) as [p|]; [|discriminate]. cbn [bind] in *. rewrite EG. cbn [bind].
    cbn [fc_at q_A q_A0 q_gm q_g0 q_t q_t0 q_w q_L q_L0]. rewrite (pynth_nat _ m n0) by (rewrite swept_length; lia). cbn [bind].
    pose proof (fq_a _ _ Q) as EA. rewrite (fq_l _ _ Q) in EA. change (unscl (scl (tf_max (svals (val (FBsq m)))))) with (tf_max (svals (val (FBsq m)))) in EA.
    destruct (tf_bin nsub (nth m (q_Am s) dum) (tf_map (fun x => ndiv x (tf_max (svals (val (FBsq m))))) (val (FG m)))) as [u|]; [|discriminate]. cbn [bind] in *. injection EA as EA.
    rewrite swept_nth by lia. destruct (Nat.ltb_spec m m); [lia|]. unfold fc_at. do 2 f_equal.
    - rewrite EA. apply (swept_upd dum (q_A s) (fun i => val (FA i))). exact Hm.
    - rewrite <- (swept_upd n0 (q_L s) (fun i => unscl (val (FL i)))) by lia. rewrite (fq_l _ _ Q). reflexivity.
    - rewrite <- (swept_upd n0 (q_L0 s) (fun i => unscl (val (FL0 i)))) by lia. rewrite (fq_l0 _ _ Q). reflexivity.
  Qed.

  Lemma fc_at_0 val : fc_at val 0 = s.
  Proof. unfold fc_at. rewrite !swept_0 by assumption. destruct s. reflexivity. Qed.

  Definition fc_result (val : ntf -> tensor T) : nt_state T * tensor T * metrics T :=
    let s1 := fc_at val N in
    (mkNT (q_A s1) (q_Am s1) (q_A0 s1) (q_g s1) (q_gm s1) (q_g0 s1) (t_next (q_t0 s1)) (q_t0 s1) (q_w s1) (q_L s1) (q_L0 s1), val FFull,
     mkM (unscl (val FLoss)) (unscl (val FObj)) (unscl (val FRel))).

  Lemma fc_sol_step val : sol val -> nt_fact svals X s = Ok (fc_result val).
  Proof.
    intros HS. unfold nt_fact.
    rewrite (unfold_all_list X (fun m => val (FUnf m))) by (intros m Hm; exact (HS (FUnf m) (fc_dom_needed (FUnf m) Hm))). cbn [bind].
    pose proof (states_loop (nt_mode svals (map (fun m => val (FUnf m)) (seq 0 N))) (nt_modes svals (map (fun m => val (FUnf m)) (seq 0 N))) (fc_at val) (fun _ => eq_refl) (fun _ _ _ => eq_refl) N 0
                  (fun m Hm => fc_sol_mode val m (fc_sol_eqs val m HS (proj2 Hm)) (proj2 Hm))) as E.
    rewrite fc_at_0 in E. rewrite E. cbn [bind Nat.add].
    pose proof (HS FFull (fc_dom_needed FFull I)) as Ef. rewrite fc_full_reads in Ef. cbn [g_data nt_fact_graph map] in Ef. rewrite fc_kernel_full in Ef.
    cbv zeta. cbn [q_g q_A]. change (q_g (fc_at val N)) with (q_g s). rewrite Ef. cbn [bind].
    rewrite (metrics_nodes X (val FFull) (val FLoss) (val FObj) (val FRel)); [reflexivity| | |].
    - exact (HS FLoss (fc_dom_needed FLoss I)).
    - exact (HS FObj (fc_dom_needed FObj I)).
    - exact (HS FRel (fc_dom_needed FRel I)).
  Qed.

  Section Back.
    Variables (mats : list (tensor T)) (st : nat -> nt_state T) (full : tensor T) (mt : metrics T).
    Hypothesis Hmats : unfold_all X = Ok mats.
    Hypothesis Hst0 : st 0 = s.
    Hypothesis Hst : forall m, m < N -> nt_mode svals mats m (st m) = Ok (st (S m)).
    Hypothesis Hof : tt_extract (q_g s) (q_A (st N)) = Ok full.
    Hypothesis Hom : metrics_of X full = Ok mt.

    Let unfv m := nth m mats dum.
    Let bv m := okd (do y <- ttm (q_g s) (q_A (st m)) None false (SkInt (Z.of_nat m)); unfold y (Z.of_nat m)).
    Let xbv m := okd (tf_matmul false true (unfv m) (bv m)).
    Let bsqv m := okd (tf_matmul false true (bv m) (bv m)).
    Let gv m := okd (do p <- tf_matmul false false (nth m (q_Am s) dum) (bsqv m); tf_bin nsub p (xbv m)).

    Definition fc_back (n : ntf) : tensor T :=
      match n with
      | FUnf m => unfv m
      | FB m => bv m
      | FXB m => xbv m
      | FBsq m => bsqv m
      | FG m => gv m
      | FL0 m => scl (nth m (q_L s) n0)
      | FL m => scl (tf_max (svals (bsqv m)))
      | FA m => nth m (q_A (st (S m))) dum
      | FFull => full
      | FLoss => scl (m_loss mt)
      | FObj => scl (m_obj mt)
      | FRel => scl (m_rel mt)
      | FT => scl (t_next (q_t0 s)) end.

    Lemma fc_back_mode m : m < N -> st m = fc_at fc_back m -> fc_eqs fc_back m /\ st (S m) = fc_at fc_back (S m).
    Proof.
      intros Hm Eq.
      assert (HLs : length (q_A (st m)) = N) by (rewrite Eq; apply swept_length).
      destruct (unfold_all_ok X mats Hmats) as (Lm & Hu).
      assert (K : fc_eqs fc_back m).
      { pose proof (Hst m Hm) as H. unfold nt_mode in H.
        assert (EL : q_L (st m) = swept n0 (q_L s) (fun i => unscl (fc_back (FL i))) (N + 1) m) by (rewrite Eq; reflexivity).
        assert (EAm : q_Am (st m) = q_Am s) by (rewrite Eq; reflexivity).
        assert (Eg : q_g (st m) = q_g s) by (rewrite Eq; reflexivity). rewrite EAm, Eg in H.
        destruct (ttm (q_g s) (q_A (st m)) None false (SkInt (Z.of_nat m))) as [y|] eqn:Ey; cbn [bind] in H; [|discriminate].
        destruct (unfold y (Z.of_nat m)) as [b|] eqn:Eb; cbn [bind] in H; [|discriminate].
        assert (Ebv : bv m = b) by (unfold bv; rewrite Ey; cbn [bind]; rewrite Eb; reflexivity).
        rewrite (pynth_nat mats m dum) in H by lia. cbn [bind] in H. fold (unfv m) in H.
        destruct (tf_matmul false true (unfv m) b) as [xb|] eqn:Ex; cbn [bind] in H; [|discriminate].
        assert (Exv : xbv m = xb) by (unfold xbv; rewrite Ebv, Ex; reflexivity).
        destruct (tf_matmul false true b b) as [bq|] eqn:Eq2; cbn [bind] in H; [|discriminate].
        assert (Eqv : bsqv m = bq) by (unfold bsqv; rewrite Ebv, Eq2; reflexivity).
        rewrite (pynth_nat _ m dum) in H by lia. cbn [bind] in H.
        destruct (tf_matmul false false (nth m (q_Am s) dum) bq) as [p|] eqn:Ep; cbn [bind] in H; [|discriminate].
        destruct (tf_bin nsub p xb) as [gn|] eqn:Egn; cbn [bind] in H; [|discriminate].
        assert (Egv : gv m = gn) by (unfold gv; rewrite Eqv, Ep, Exv; cbn [bind]; rewrite Egn; reflexivity).
        rewrite EL, (pynth_nat _ m n0) in H by (rewrite swept_length; lia). cbn [bind] in H.
        destruct (tf_bin nsub (nth m (q_Am s) dum) (tf_map (fun x => ndiv x (tf_max (svals bq))) gn)) as [u|] eqn:Eu; cbn [bind] in H; [|discriminate].
        injection H as H.
        assert (EAv : nth m (q_A (st (S m))) dum = tf_map nrelu u).
        { rewrite <- H. cbn [q_A]. rewrite nth_upd, Nat.eqb_refl, HLs. destruct (Nat.ltb_spec m N); [reflexivity|lia]. }
        split; cbn [fc_back].
        - rewrite <- Eq, Ey. cbn [bind]. rewrite Ebv. exact Eb.
        - rewrite Ebv, Exv. exact Ex.
        - rewrite Ebv, Eqv. exact Eq2.
        - reflexivity.
        - reflexivity.
        - rewrite Eqv, Exv, Ep, Egv. exact Egn.
        - change (unscl (scl (tf_max (svals (bsqv m))))) with (tf_max (svals (bsqv m))). rewrite Eqv, Egv, EAv, Eu. reflexivity. }
      split; [exact K|]. pose proof (fc_sol_mode fc_back m K Hm) as E.
      replace (map (fun m => fc_back (FUnf m)) (seq 0 N)) with mats in E by (cbn [fc_back]; unfold unfv; rewrite <- Lm; symmetry; apply map_nth_seq).
      rewrite <- Eq, Hst in E by exact Hm. injection E as E. exact E.
    Qed.

    Lemma fc_back_at m : m <= N -> st m = fc_at fc_back m.
    Proof. induction m as [|m IH]; intros Hm; [rewrite Hst0, fc_at_0; reflexivity|]. apply fc_back_mode; [lia|apply IH; lia]. Qed.

    Lemma fc_back_solution : sol fc_back.
    Proof.
      intros n Hn. apply fc_needed in Hn.
      destruct (unfold_all_ok X mats Hmats) as (Lm & Hu). destruct (nodes_metrics _ _ _ Hom) as (HLo & HOb & HRe).
      assert (Q : forall m, m < N -> fc_eqs fc_back m) by (intros m Hm; apply fc_back_mode; [exact Hm|apply fc_back_at; lia]).
      destruct n; cbn in Hn.
      - apply Hu, Hn.
      - rewrite fc_b_reads by exact Hn. cbn [g_data nt_fact_graph map]. rewrite fc_kernel_b, (ttm_insert (q_g s) (q_A (fc_at fc_back m)) m dum false) by (cbn [fc_at q_A]; rewrite swept_length; exact Hn).
        exact (fq_b _ _ (Q m Hn)).
      - exact (fq_xb _ _ (Q m Hn)).
      - exact (fq_bsq _ _ (Q m Hn)).
      - cbn [g_kernel g_data g_reads nt_fact_graph map fst]. unfold seen. cbn [fc_src]. rewrite fmem_Am by exact Hn. exact (fq_g _ _ (Q m Hn)).
      - cbn. unfold seen. cbn. rewrite Hmem by discriminate. reflexivity.
      - reflexivity.
      - cbn [g_kernel g_data g_reads nt_fact_graph map fst]. unfold seen. cbn [fc_src]. rewrite fmem_Am by exact Hn. exact (fq_a _ _ (Q m Hn)).
      - rewrite fc_full_reads. cbn [g_data nt_fact_graph map]. rewrite fc_kernel_full, <- fc_back_at by lia. exact Hof.
      - exact HLo.
      - exact HOb.
      - exact HRe.
      - cbn. unfold seen. cbn. rewrite Hmem by discriminate. reflexivity.
    Qed.
  End Back.

  Lemma nt_modes_core mats l : forall a b, nt_modes svals mats l a = Ok b -> q_g b = q_g a.
  Proof.
    induction l as [|m l IH]; intros a b H; cbn in H; [congruence|]. destruct (nt_mode svals mats m a) as [a1|] eqn:E; [|discriminate]. cbn [bind] in H.
    rewrite (IH _ _ H). unfold nt_mode in E. mon E. injection E as <-. reflexivity.
  Qed.

  Lemma fc_step_sol out : nt_fact svals X s = Ok out -> exists val, sol val.
  Proof.
    unfold nt_fact. intros H. destruct (unfold_all X) as [mats|] eqn:Eu; [|discriminate]. cbn [bind] in H.
    destruct (nt_modes svals mats (seq 0 N) s) as [s1|] eqn:Em; [|discriminate]. cbn [bind q_A q_g] in H.
    destruct (loop_states (nt_mode svals mats) (nt_modes svals mats) (fun _ => eq_refl) (fun _ _ _ => eq_refl) N 0 s s1 Em) as (st & E0 & E1 & Hst). cbn [Nat.add] in E1, Hst.
    destruct (tt_extract (q_g s1) (q_A s1)) as [full|] eqn:Ef; [|discriminate]. cbn [bind] in H.
    destruct (metrics_of X full) as [m|] eqn:Emt; [|discriminate].
    eexists. eapply (fc_back_solution mats st full m); [exact Eu|exact E0| | |exact Emt].
    - intros k Hk. apply Hst. lia.
    - rewrite E1, <- (nt_modes_core mats _ _ _ Em). exact Ef.
  Qed.

  Lemma fc_exec (E : execution g (nt_fact_fetch X) mem) : finished g E ->
    exists s' full mt, nt_fact svals X s = Ok (s', full, mt) /\
      (forall v, v <> VBsq -> v <> VGrad -> final g E v (nt_vars s' v)) /\
      (forall m, m < N -> fetched g E (FA m) (nth m (q_A s') dum)) /\
      e_val E FFull = Ok full /\
      e_val E FLoss = Ok (scl (m_loss mt)) /\ e_val E FObj = Ok (scl (m_obj mt)) /\ e_val E FRel = Ok (scl (m_rel mt)).
  Proof.
    intros HF. destruct (finished_solution g (nt_fact_fetch X) fc_src fc_wr mem fc_resolved E dum HF) as (val & Hv & HS).
    pose proof (fc_sol_step val HS) as Es. unfold fc_result in Es. cbv zeta in Es.
    eexists _, _, _. split; [exact Es|]. pose proof (fun m Hm => fc_sol_eqs val m HS Hm) as Q.
    assert (Hnew : forall n v, fc_dom n -> g_writes g n = Some v -> final g E v (val n)).
    { intros n v Hn W. destruct (Hv n (fc_dom_needed n Hn)) as (R & Hx). eapply (final_new g (nt_fact_fetch X) E fc_src fc_wr fc_resolved n); [exact R|exact W|exact Hx]. }
    assert (Hold : forall v, v <> VBsq -> v <> VGrad -> (forall n, fc_dom n -> g_writes g n <> Some v) -> final g E v (nt_vars s v)).
    { intros v H1 H2 H. rewrite <- Hmem by assumption. apply (final_old g (nt_fact_fetch X) E). intros w Hw W. exact (H w (fc_needed w Hw) W). }
    split.
    { intros v H1 H2. destruct v as [i|i|i| | |i|i|i| |]; try congruence; cbn [nt_vars q_A q_Am q_A0 q_g q_gm q_g0 q_t q_t0 q_w q_L q_L0 fc_at];
        try (apply (Hold _ H1 H2); intros n _ W; destruct n; discriminate W).
      - destruct (Nat.lt_ge_cases i N) as [Hi|Hi].
        + rewrite nth_snoc, swept_length. destruct (Nat.eqb_spec i N); [lia|]. rewrite swept_all by exact Hi. apply Hnew; [exact Hi|reflexivity].
        + replace (nth i (swept dum (q_A s) (fun i => val (FA i)) N N ++ [q_g s]) dum) with (nt_vars s (VA i)).
          * apply (Hold _ H1 H2). intros n Hn W. destruct n; try discriminate W. injection W as ->. cbn in Hn. lia.
          * cbn. rewrite !nth_snoc, swept_length, HA. destruct (Nat.eqb_spec i N); [reflexivity|]. rewrite !nth_overflow; [reflexivity|rewrite swept_length; lia|lia].
      - replace (scl (t_next (q_t0 s))) with (val FT); [apply Hnew; [exact I|reflexivity]|].
        pose proof (HS FT (fc_dom_needed FT I)) as Et. cbn in Et. unfold seen in Et. cbn in Et. rewrite Hmem in Et by discriminate. injection Et as Et. symmetry. exact Et.
      - destruct (Nat.lt_ge_cases i N) as [Hi|Hi].
        + rewrite swept_nth by lia. destruct (Nat.ltb_spec i N); [|lia]. replace (scl (unscl (val (FL i)))) with (val (FL i)) by (rewrite (fq_l _ _ (Q i Hi)); reflexivity). apply Hnew; [exact Hi|reflexivity].
        + replace (scl (nth i (swept n0 (q_L s) (fun i => unscl (val (FL i))) (N + 1) N) n0)) with (nt_vars s (VL i)).
          * apply (Hold _ H1 H2). intros n Hn W. destruct n; try discriminate W. injection W as ->. cbn in Hn. lia.
          * cbn. f_equal. destruct (Nat.lt_ge_cases i (N + 1)) as [H|H]; [rewrite swept_nth by exact H; destruct (Nat.ltb_spec i N); [lia|reflexivity]|].
            rewrite !nth_overflow; [reflexivity|rewrite swept_length; lia|lia].
      - destruct (Nat.lt_ge_cases i N) as [Hi|Hi].
        + rewrite swept_nth by lia. destruct (Nat.ltb_spec i N); [|lia]. replace (scl (unscl (val (FL0 i)))) with (val (FL0 i)) by (rewrite (fq_l0 _ _ (Q i Hi)); reflexivity). apply Hnew; [exact Hi|reflexivity].
        + replace (scl (nth i (swept n0 (q_L0 s) (fun i => unscl (val (FL0 i))) (N + 1) N) n0)) with (nt_vars s (VL0 i)).
          * apply (Hold _ H1 H2). intros n Hn W. destruct n; try discriminate W. injection W as ->. cbn in Hn. lia.
          * cbn. f_equal. destruct (Nat.lt_ge_cases i (N + 1)) as [H|H]; [rewrite swept_nth by exact H; destruct (Nat.ltb_spec i N); [lia|reflexivity]|].
            rewrite !nth_overflow; [reflexivity|rewrite swept_length; lia|lia]. }
    split.
    { intros m Hm. cbn [q_A fc_at]. rewrite swept_all by exact Hm. destruct (Hv (FA m) (fc_up m Hm)) as (R & Hx). eapply (fetched_ok g (nt_fact_fetch X) E fc_src fc_wr fc_resolved); assumption. }
    cbn [m_loss m_obj m_rel].
    split; [apply Hv, fc_dom_needed; exact I|].
    pose proof (metrics_scl X (val FFull) _ _ _ (HS FLoss (fc_dom_needed FLoss I)) (HS FObj (fc_dom_needed FObj I)) (HS FRel (fc_dom_needed FRel I))) as (K1 & K2 & K3).
    rewrite <- K1, <- K2, <- K3. split; [|split]; apply Hv, fc_dom_needed; exact I.
  Qed.

  Lemma fc_no_failure out (E : execution g (nt_fact_fetch X) mem) n : nt_fact svals X s = Ok out -> e_ran E n -> is_ok (e_val E n).
  Proof.
    intros H R. destruct (fc_step_sol out H) as (val & HS). exists (val n). eapply (solution_unique g (nt_fact_fetch X) fc_src fc_wr mem fc_resolved); eauto.
  Qed.

  Lemma fc_exists out : nt_fact svals X s = Ok out -> exists E : execution g (nt_fact_fetch X) mem, finished g E.
  Proof.
    intros H. destruct (fc_step_sol out H) as (val & HS). eapply (solution_exists g (nt_fact_fetch X) fc_src fc_wr mem fc_resolved val fc_rank HS). exact fc_rank_lt.
  Qed.
End Fac.
