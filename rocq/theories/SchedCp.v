(** CP_ALS: every execution of the graph computes the sequential sweep. *)

From Coq Require Import ZArith List Bool Arith Relations Lia.
From Verif Require Import Num Py Tensor TensorFacts TF Ops Types Loss Fact TFFacts LayoutFacts TrainLemmas BcuFacts Sched SchedFacts Graphs SchedLists.
Import ListNotations.

Section Cp.
  Context {T : Type} {NM : Num T}.
  Variables (pinv : tensor T -> tensor T) (X : tensor T) (rank : nat).
  Notation N := (ndims X).
  Notation g := (cp_graph pinv X rank).
  Notation nd := (needed g (cp_fetch X)).

  Definition cp_dom (n : cpn) : Prop :=
    match n with
    | CUnf m | CKhat m | CXA m | CHad m | CPinv m | CNN m | CLam m | CUp m => m < N
    | CGram m i => m < N /\ i < N /\ i <> m
    | _ => True end.

  Definition cp_src (n : cpn) (v : var) : option cpn :=
    match n, v with
    | CGram m _, VA i | CKhat m, VA i => if i <? m then Some (CUp i) else None
    | CFull, VA i => Some (CUp i)
    | _, _ => None end.
  Definition cp_wr (v : var) : option cpn := match v with VA i => if i <? N then Some (CUp i) else None | _ => None end.
  Definition cp_rank (n : cpn) : nat :=
    match n with
    | CUnf _ => 0
    | CGram m _ | CKhat m => 10 * m + 11
    | CXA m | CHad m => 10 * m + 12
    | CPinv m => 10 * m + 13
    | CNN m => 10 * m + 14
    | CLam m => 10 * m + 15
    | CUp m => 10 * m + 16
    | CFull => 10 * N + 11
    | _ => 10 * N + 12 end.

  Hypothesis HN : 0 < N.

  Lemma cp_prec_dom n d : cp_dom n -> prec g d n -> cp_dom d.
  Proof. intros Hn H. destruct n; crack; cbn in *; try lia.
  Qed.

  Lemma cp_needed n : nd n -> cp_dom n.
  Proof.
    apply needed_in; [|exact cp_prec_dom]. intros f H. unfold cp_fetch in H. crack; cbn; lia.
  Qed.

  Lemma cp_rank_lt d n : nd n -> prec g d n -> cp_rank d < cp_rank n.
  Proof. intros Hn H. apply cp_needed in Hn. destruct n; crack; cbn in *; lia. Qed.

  Lemma cp_up m : m < N -> nd (CUp m).
  Proof. intros H. apply needed_fetch. unfold cp_fetch. apply in_or_app. left. apply in_map, in_seq. lia. Qed.

  Lemma nn_up m : before g (CNN m) (CUp m).
  Proof. apply before_data. left. reflexivity. Qed.
  Lemma xa_up m : before g (CXA m) (CUp m).
  Proof. eapply before_trans; [|apply nn_up]. apply before_data. left. reflexivity. Qed.
  Lemma had_up m : before g (CHad m) (CUp m).
  Proof. eapply before_trans; [|apply nn_up]. eapply before_trans; [apply (before_data g _ (CPinv m)); left; reflexivity|apply before_data; right; left; reflexivity]. Qed.
  Lemma gram_up m i : i < N -> i <> m -> before g (CGram m i) (CUp m).
  Proof. intros H1 H2. eapply before_trans; [|apply had_up]. apply before_data. cbn. apply in_skipping. eauto. Qed.
  Lemma khat_up m : before g (CKhat m) (CUp m).
  Proof. eapply before_trans; [|apply xa_up]. apply before_data. right. left. reflexivity. Qed.
  Lemma up_next m : before g (CUp m) (CUp (S m)).
  Proof. eapply before_trans; [|apply xa_up]. apply before_ctrl. left. reflexivity. Qed.
  Lemma up_up i j : i <= j -> CUp i = CUp j \/ before g (CUp i) (CUp j).
  Proof. intros H. induction H as [|j H IH]; [auto|]. right. destruct IH as [->|IH]; [apply up_next|]. eapply before_trans; [exact IH|apply up_next]. Qed.

  Lemma up_before n i m : before g n (CUp m) -> m <= i -> before g n (CUp i).
  Proof. intros H Hi. destruct (up_up m i Hi) as [<-|B]; [exact H|]. eapply before_trans; eauto. Qed.

  Lemma cp_dom_needed n : cp_dom n -> nd n.
  Proof.
    intros H. destruct n; cbn in H.
    - eapply needed_before; [apply (cp_up m H)|]. eapply before_trans; [|apply xa_up]. apply before_data. left. reflexivity.
    - destruct H as (H1 & H2 & H3). eapply needed_before; [apply (cp_up m H1)|]. apply gram_up; assumption.
    - eapply needed_before; [apply (cp_up m H)|]. apply khat_up.
    - eapply needed_before; [apply (cp_up m H)|]. apply xa_up.
    - eapply needed_before; [apply (cp_up m H)|]. apply had_up.
    - eapply needed_before; [apply (cp_up m H)|]. eapply before_trans; [|apply nn_up]. apply before_data. right. left. reflexivity.
    - eapply needed_before; [apply (cp_up m H)|]. apply nn_up.
    - eapply needed_before; [apply (cp_up m H)|]. apply before_data. right. left. reflexivity.
    - apply cp_up, H.
    - apply needed_fetch, in_or_app. right. cbn. tauto.
    - apply needed_fetch, in_or_app. right. cbn. tauto.
    - apply needed_fetch, in_or_app. right. cbn. tauto.
    - apply needed_fetch, in_or_app. right. cbn. tauto.
  Qed.

  Lemma cp_resolved : resolved g (cp_fetch X) cp_src cp_wr.
  Proof.
    split.
    - intros w v Hw W. apply cp_needed in Hw. destruct w; cbn in W; try discriminate. injection W as <-. cbn in *. destruct (Nat.ltb_spec m N); [reflexivity|lia].
    - intros w v H. destruct v; cbn in H; try discriminate. destruct (Nat.ltb_spec i N) as [Hi|]; [|discriminate]. injection H as <-. split; [apply cp_up, Hi|reflexivity].
    - intros n v l w Hn I Hs. apply cp_needed in Hn.
      assert (Hsee : forall i m, i < m -> sees g (previous CUp m) (CUp i)).
      { intros i [|m] Him; [lia|]. exists (CUp m). split; [left; reflexivity|]. apply up_up. lia. }
      destruct n; cbn in I; try contradiction.
      + destruct v as [j| | | | | | | | |]; try discriminate. cbn in Hs. destruct (Nat.ltb_spec j m) as [Hj|]; [|discriminate]. injection Hs as <-.
        split; [reflexivity|]. assert (l = previous CUp m) by (crack; reflexivity). subst l. apply Hsee, Hj.
      + destruct v as [j| | | | | | | | |]; try discriminate. cbn in Hs. destruct (Nat.ltb_spec j m) as [Hj|]; [|discriminate]. injection Hs as <-.
        split; [reflexivity|]. assert (l = previous CUp m) by (crack; reflexivity). subst l. apply Hsee, Hj.
      + crack. split; [reflexivity|]. eexists. split; [left; reflexivity|left; reflexivity].
    - intros n v l w Hn I Hs Hw W. apply cp_needed in Hn, Hw. right. destruct w; cbn in W; try discriminate. injection W as <-. cbn in Hw.
      destruct n; cbn in I; try contradiction.
      + assert (m = i) by (crack; congruence). subst i. cbn in Hs. destruct (Nat.ltb_spec m m0) as [|Hge]; [discriminate|].
        cbn in Hn. apply (up_before _ m m0); [apply gram_up; lia|lia].
      + cbn in Hs. destruct (Nat.ltb_spec m m0) as [|Hge]; [discriminate|]. apply (up_before _ m m0); [apply khat_up|lia].
      + discriminate Hs.
  Qed.

  (** the factors when mode m is updated *)
  Definition cp_at (A : list (tensor T)) (val : cpn -> tensor T) (m : nat) : list (tensor T) :=
    map (fun i => if i <? m then val (CUp i) else nth i A (mkT [] [])) (seq 0 N).

  Lemma cp_at_nth A val m i : i < N -> nth i (cp_at A val m) (mkT [] []) = if i <? m then val (CUp i) else nth i A (mkT [] []).
  Proof.
    intros H. unfold cp_at. set (f := fun i => _). rewrite (nth_indep _ _ (f 0)) by (rewrite map_length, seq_length; lia). rewrite map_nth, seq_nth by lia. reflexivity.
  Qed.

  Variable A : list (tensor T).
  Hypothesis HA : length A = N.

  Lemma cp_at_upd val m : m < N -> upd (cp_at A val m) m (val (CUp m)) = cp_at A val (S m).
  Proof.
    intros H. apply (nth_ext _ _ (mkT [] []) (mkT [] [])); [rewrite upd_length; unfold cp_at; rewrite !map_length; reflexivity|].
    intros j Hj. assert (Lj : j < N) by (rewrite upd_length in Hj; unfold cp_at in Hj; rewrite map_length, seq_length in Hj; exact Hj).
    rewrite nth_upd, !cp_at_nth by exact Lj. unfold cp_at. rewrite map_length, seq_length.
    destruct (Nat.eqb_spec j m) as [->|Hne]; cbn.
    - destruct (Nat.ltb_spec m N); [|lia]. cbn. destruct (Nat.ltb_spec m (S m)); [reflexivity|lia].
    - destruct (Nat.ltb_spec j m), (Nat.ltb_spec j (S m)); try lia; reflexivity.
  Qed.

  Lemma cp_at_0 val : cp_at A val 0 = A.
  Proof.
    apply (nth_ext _ _ (mkT [] []) (mkT [] [])); [unfold cp_at; rewrite map_length, seq_length; auto|].
    intros j Hj. assert (Lj : j < N) by (unfold cp_at in Hj; rewrite map_length, seq_length in Hj; exact Hj). rewrite cp_at_nth by exact Lj. reflexivity.
  Qed.

  Lemma cp_at_seen val m n i : (n = CKhat m \/ exists j, n = CGram m j) ->
    seen cp_src (cp_vars A) val n (VA i) = if i <? m then val (CUp i) else nth i A (mkT [] []).
  Proof. intros [->|(j & ->)]; unfold seen; cbn; destruct (i <? m); reflexivity. Qed.

  Lemma cp_khat_reads val m : map (fun r => seen cp_src (cp_vars A) val (CKhat m) (fst r)) (g_reads g (CKhat m)) = rev (skip_ (cp_at A val m) (SkInt (Z.of_nat m))).
  Proof.
    cbn [g_reads cp_graph]. rewrite map_rev. f_equal. unfold skipping. rewrite <- skip_map, map_map. f_equal. unfold cp_at. apply map_ext. intros i.
    cbn [fst]. apply (cp_at_seen val m). auto.
  Qed.

  Lemma cp_full_reads val : map (fun r => seen cp_src (cp_vars A) val CFull (fst r)) (g_reads g CFull) = cp_at A val N.
  Proof.
    cbn [g_reads cp_graph]. rewrite map_map. unfold cp_at. apply map_ext_in. intros i Hi. apply in_seq in Hi. cbn [fst]. unfold seen. cbn.
    destruct (Nat.ltb_spec i N); [reflexivity|lia].
  Qed.

  Definition cp_result (val : cpn -> tensor T) : cp_out T :=
    mkCP (cp_at A val N) (val (CLam (N - 1))) (val CFull) (mkM (unscl (val CLoss)) (unscl (val CObj)) (unscl (val CRel))).

  Hypothesis HM : forall M, In M A -> exists r c, shp M = [r; c].

  Lemma cp_sol_mode val m : solution g (cp_fetch X) cp_src (cp_vars A) val -> m < N ->
    cp_mode pinv (map (fun m => val (CUnf m)) (seq 0 N)) rank m (cp_at A val m) = Ok (cp_at A val (S m), val (CLam m)).
  Proof.
    intros HS Hm.
    assert (Hgram : forall i, i < N -> exists G, tf_matmul true false (nth i (cp_at A val m) (mkT [] [])) (nth i (cp_at A val m) (mkT [] [])) = Ok G /\ (i <> m -> G = val (CGram m i))).
    { intros i Hi. destruct (Nat.eq_dec i m) as [->|Hne].
      - rewrite cp_at_nth by exact Hm. destruct (Nat.ltb_spec m m); [lia|]. destruct (HM (nth m A (mkT [] []))) as (r & c & Es); [apply nth_In; lia|].
        destruct (gram_total _ r c Es) as (G & EG). exists G. split; [exact EG|]. congruence.
      - pose proof (HS (CGram m i) (cp_dom_needed (CGram m i) (conj Hm (conj Hi Hne)))) as E. cbn [g_kernel g_data g_reads cp_graph map fst] in E.
        rewrite (cp_at_seen val m) in E by eauto. exists (val (CGram m i)). rewrite cp_at_nth by exact Hi. auto. }
    pose (gr i := okd (tf_matmul true false (nth i (cp_at A val m) (mkT [] [])) (nth i (cp_at A val m) (mkT [] [])))).
    assert (Lat : forall k, length (cp_at A val k) = N) by (intros; unfold cp_at; rewrite map_length, seq_length; reflexivity).
    assert (Eg : grams (cp_at A val m) = Ok (map gr (seq 0 N))).
    { unfold grams. rewrite <- (map_nth_seq (cp_at A val m) (mkT [] [])) at 1. rewrite Lat, mapM_map. apply mapM_ok. intros i Hi. apply in_seq in Hi.
      destruct (Hgram i ltac:(lia)) as (G & EG & _). unfold gr. rewrite EG. reflexivity. }
    unfold cp_mode. rewrite Eg. cbn [bind].
    pose proof (HS (CKhat m) (cp_dom_needed (CKhat m) Hm)) as Ek. rewrite cp_khat_reads in Ek. cbn [g_kernel g_data cp_graph map] in Ek. rewrite khatri_skip.
    assert (Ek' : khatri (rev (skip_ (cp_at A val m) (SkInt (Z.of_nat m)))) SkNone false = Ok (val (CKhat m))).
    { destruct (rev (skip_ (cp_at A val m) (SkInt (Z.of_nat m)))) as [|? [|? [|? ?]]]; exact Ek. }
    rewrite Ek'. cbn [bind]. rewrite pynth_map_seq by exact Hm. cbn [bind].
    pose proof (HS (CXA m) (cp_dom_needed (CXA m) Hm)) as Ex. cbn [g_kernel g_data g_reads cp_graph map] in Ex. rewrite Ex. cbn [bind].
    pose proof (HS (CHad m) (cp_dom_needed (CHad m) Hm)) as Eh. cbn [g_kernel g_data g_reads cp_graph map] in Eh.
    assert (Eh' : hadamard (map gr (seq 0 N)) (SkInt (Z.of_nat m)) = Ok (val (CHad m))).
    { rewrite hadamard_skip, skip_map, skip_seq. rewrite <- Eh. unfold skipping at 1. rewrite skip_map, skip_seq, map_map.
      replace (map (fun x => val (CGram m x)) (butlist N m)) with (map gr (butlist N m)); [destruct (map gr (butlist N m)) as [|? [|? [|? ?]]]; reflexivity|].
      apply map_ext_in. intros i Hi. apply in_butlist in Hi. destruct (Hgram i (proj1 Hi)) as (G & EG & HG). unfold gr. rewrite EG. apply HG, Hi. }
    rewrite Eh'. cbn [bind].
    pose proof (HS (CPinv m) (cp_dom_needed (CPinv m) Hm)) as Ep. cbn [g_kernel g_data g_reads cp_graph map] in Ep. injection Ep as Ep.
    pose proof (HS (CNN m) (cp_dom_needed (CNN m) Hm)) as En. cbn [g_kernel g_data g_reads cp_graph map] in En. rewrite Ep, En. cbn [bind].
    pose proof (HS (CUnf m) (cp_dom_needed (CUnf m) Hm)) as Eu. cbn [g_kernel g_data g_reads cp_graph map] in Eu. rewrite (unfold_dim X _ m Hm Eu).
    pose proof (HS (CLam m) (cp_dom_needed (CLam m) Hm)) as El. cbn [g_kernel g_data g_reads cp_graph map] in El.
    destruct (pynth (shp X) (Z.of_nat m)) as [d|]; [|discriminate]. cbn [bind] in *. destruct (tf_reshape (val (CNN m)) [Z.of_nat d; Z.of_nat rank]) as [nr|]; [|discriminate]. cbn [bind] in *.
    injection El as El. rewrite El.
    pose proof (HS (CUp m) (cp_dom_needed (CUp m) Hm)) as Ea. cbn [g_kernel g_data g_reads cp_graph map] in Ea. rewrite Ea. cbn [bind].
    rewrite cp_at_upd by exact Hm. reflexivity.
  Qed.

  Lemma cp_sol_modes val mats s k lam : (forall m, m < N -> cp_mode pinv mats rank m (cp_at A val m) = Ok (cp_at A val (S m), val (CLam m))) -> s + k = N ->
    cp_modes pinv mats rank (seq s k) (cp_at A val s) lam = Ok (cp_at A val N, if k =? 0 then lam else val (CLam (N - 1))).
  Proof.
    intros H. revert s lam. induction k as [|k IH]; intros s lam Hs; cbn.
    - replace s with N by lia. reflexivity.
    - rewrite H by lia. cbn [bind fst snd]. rewrite IH by lia. destruct (Nat.eqb_spec k 0) as [->|]; [|reflexivity]. do 3 f_equal. f_equal. lia.
  Qed.

  Lemma cp_sol_step val : solution g (cp_fetch X) cp_src (cp_vars A) val -> cp_step pinv X rank A = Ok (cp_result val).
  Proof.
    intros HS. unfold cp_step.
    rewrite (unfold_all_list X (fun m => val (CUnf m))) by (intros m Hm; exact (HS (CUnf m) (cp_dom_needed (CUnf m) Hm))). cbn [bind].
    pose proof (cp_sol_modes val (map (fun m => val (CUnf m)) (seq 0 N)) 0 N (mkT [] []) (fun m Hm => cp_sol_mode val m HS Hm) eq_refl) as Em.
    rewrite cp_at_0 in Em. rewrite Em. destruct (Nat.eqb_spec N 0) as [|_]; [lia|]. cbn [bind].
    pose proof (HS CFull (cp_dom_needed CFull I)) as Ef. rewrite cp_full_reads in Ef. cbn [g_kernel g_data cp_graph map] in Ef.
    assert (Ef' : kt_extract (cp_at A val N) (mkT (shp (val (CLam (N - 1))) ++ [1]) (dat (val (CLam (N - 1))))) = Ok (val CFull)).
    { destruct (cp_at A val N) as [|? [|? [|? ?]]]; exact Ef. }
    rewrite Ef'. cbn [bind].
    rewrite (metrics_nodes X (val CFull) (val CLoss) (val CObj) (val CRel)); [reflexivity| | |].
    - exact (HS CLoss (cp_dom_needed CLoss I)).
    - exact (HS CObj (cp_dom_needed CObj I)).
    - exact (HS CRel (cp_dom_needed CRel I)).
  Qed.

  (** ** the other way: a sweep that succeeds solves the equations *)

  Lemma cp_modes_states mats k : forall s A0 lam A' lam', cp_modes pinv mats rank (seq s k) A0 lam = Ok (A', lam') ->
    exists st lm, st s = A0 /\ st (s + k) = A' /\ (forall m, s <= m < s + k -> cp_mode pinv mats rank m (st m) = Ok (st (S m), lm m)) /\
                  (0 < k -> lam' = lm (s + k - 1)).
  Proof.
    induction k as [|k IH]; intros s A0 lam A' lam' H; cbn in H.
    - injection H as <- <-. exists (fun _ => A0), (fun _ => lam). rewrite Nat.add_0_r. split; [reflexivity|]. split; [reflexivity|]. split; intros; lia.
    - destruct (cp_mode pinv mats rank s A0) as [(A1, l1)|] eqn:E; [|discriminate]. cbn [bind fst snd] in H.
      destruct (IH (S s) A1 l1 A' lam' H) as (st & lm & E0 & E1 & HM' & HL).
      exists (fun m => if m =? s then A0 else st m), (fun m => if m =? s then l1 else lm m). split; [rewrite Nat.eqb_refl; reflexivity|].
      split; [destruct (Nat.eqb_spec (s + S k) s); [lia|]; rewrite <- E1; f_equal; lia|]. split.
      + intros m Hm. destruct (Nat.eqb_spec m s) as [->|Hne].
        * destruct (Nat.eqb_spec (S s) s); [lia|]. rewrite E0. exact E.
        * destruct (Nat.eqb_spec (S m) s); [lia|]. apply HM'. lia.
      + intros _. destruct (Nat.eqb_spec (s + S k - 1) s) as [Hs|Hs].
        * assert (k = 0) by lia. subst k. cbn in H. congruence.
        * rewrite HL by lia. f_equal. lia.
  Qed.

  Section Back.
    Variables (mats : list (tensor T)) (st : nat -> list (tensor T)) (lm : nat -> tensor T) (out : cp_out T).
    Hypothesis Hmats : unfold_all X = Ok mats.
    Hypothesis Hst0 : st 0 = A.
    Hypothesis Hst : forall m, m < N -> cp_mode pinv mats rank m (st m) = Ok (st (S m), lm m).
    Hypothesis Hof : kt_extract (st N) (mkT (shp (lm (N - 1)) ++ [1]) (dat (lm (N - 1)))) = Ok (cp_full out).
    Hypothesis Hom : metrics_of X (cp_full out) = Ok (cp_met out).

    Let gramv m i := okd (tf_matmul true false (nth i (st m) (mkT [] [])) (nth i (st m) (mkT [] []))).
    Let unfv m := nth m mats (mkT [] []).
    Let khv m := okd (khatri (rev (skip_ (st m) (SkInt (Z.of_nat m)))) SkNone false).
    Let xav m := okd (tf_matmul false false (unfv m) (khv m)).
    Let hadv m := okd (hadamard (map (gramv m) (butlist N m)) SkNone).
    Let nnv m := okd (tf_matmul false false (xav m) (pinv (hadv m))).

    Definition cp_back (n : cpn) : tensor T :=
      match n with
      | CUnf m => unfv m
      | CGram m i => gramv m i
      | CKhat m => khv m
      | CXA m => xav m
      | CHad m => hadv m
      | CPinv m => pinv (hadv m)
      | CNN m => nnv m
      | CLam m => lm m
      | CUp m => nth m (st (S m)) (mkT [] [])
      | CFull => cp_full out
      | CLoss => scl (m_loss (cp_met out))
      | CObj => scl (m_obj (cp_met out))
      | CRel => scl (m_rel (cp_met out)) end.

    Lemma back_mode m : m < N -> length (st m) = N ->
      (forall i, i < N -> tf_matmul true false (nth i (st m) (mkT [] [])) (nth i (st m) (mkT [] [])) = Ok (gramv m i)) /\
      khatri (rev (skip_ (st m) (SkInt (Z.of_nat m)))) SkNone false = Ok (khv m) /\
      tf_matmul false false (unfv m) (khv m) = Ok (xav m) /\
      hadamard (map (gramv m) (butlist N m)) SkNone = Ok (hadv m) /\
      tf_matmul false false (xav m) (pinv (hadv m)) = Ok (nnv m) /\
      (do d <- pynth (shp X) (Z.of_nat m); do r <- tf_reshape (nnv m) [Z.of_nat d; Z.of_nat rank]; Ok (col_max r)) = Ok (lm m) /\
      exists new, tf_bin ndiv (nnv m) (lm m) = Ok new /\ st (S m) = upd (st m) m new.
    Proof.
      intros Hm HL. pose proof (Hst m Hm) as H. unfold cp_mode in H. rewrite khatri_skip in H.
      destruct (unfold_all_ok X mats Hmats) as (Lm & Hu).
      destruct (grams (st m)) as [AtA|] eqn:Eg; cbn [bind] in H; [|discriminate]. rewrite hadamard_skip in H.
      assert (Gi : forall i, i < N -> tf_matmul true false (nth i (st m) (mkT [] [])) (nth i (st m) (mkT [] [])) = Ok (gramv m i) /\ nth i AtA (mkT [] []) = gramv m i).
      { intros i Hi. unfold grams in Eg. pose proof (mapM_nth _ _ _ i (mkT [] []) (mkT [] []) Eg ltac:(lia)) as E. unfold gramv. rewrite E. auto. }
      assert (EA : skip_ AtA (SkInt (Z.of_nat m)) = map (gramv m) (butlist N m)).
      { assert (LA : length AtA = N) by (unfold grams in Eg; rewrite (mapM_length _ _ _ Eg); exact HL).
        rewrite <- (map_nth_seq AtA (mkT [] [])), LA, skip_map, skip_seq. apply map_ext_in. intros i Hi. apply in_butlist in Hi. apply Gi, Hi. }
      split; [intros i Hi; apply Gi, Hi|].
      unfold nnv, hadv, xav, khv. rewrite EA in H.
      destruct (khatri (rev (skip_ (st m) (SkInt (Z.of_nat m)))) SkNone false) as [kr|]; cbn [bind] in H; [|discriminate]. cbn [okd].
      rewrite (pynth_nat mats m (mkT [] [])) in H by lia. cbn [bind] in H. fold (unfv m) in H.
      destruct (tf_matmul false false (unfv m) kr) as [xa|]; cbn [bind] in H; [|discriminate].
      destruct (hadamard (map (gramv m) (butlist N m)) SkNone) as [hd|]; cbn [bind] in H; [|discriminate]. cbn [okd].
      destruct (tf_matmul false false xa (pinv hd)) as [nn|]; cbn [bind] in H; [|discriminate]. cbn [okd].
      rewrite (unfold_dim X (unfv m) m Hm (Hu m Hm)) in H. destruct (pynth (shp X) (Z.of_nat m)) as [d|]; cbn [bind] in H; [|discriminate].
      destruct (tf_reshape nn [Z.of_nat d; Z.of_nat rank]) as [nr|] eqn:Er; cbn [bind] in H; [|discriminate].
      destruct (tf_bin ndiv nn (col_max nr)) as [new|] eqn:En; cbn [bind] in H; [|discriminate]. injection H as H1 H2. cbn [bind].
      rewrite H2 in En. rewrite Er. cbn [bind]. repeat (split; [reflexivity|]). split; [congruence|]. exists new. auto.
    Qed.

    Lemma back_length m : m <= N -> length (st m) = N.
    Proof.
      induction m as [|m IH]; intros Hm; [rewrite Hst0; exact HA|]. destruct (back_mode m ltac:(lia) (IH ltac:(lia))) as (_ & _ & _ & _ & _ & _ & new & _ & ->).
      rewrite upd_length. apply IH. lia.
    Qed.

    Lemma back_nth i m : i < N -> m <= N -> nth i (st m) (mkT [] []) = if i <? m then cp_back (CUp i) else nth i A (mkT [] []).
    Proof.
      intros Hi. induction m as [|m IH]; intros Hm; [rewrite Hst0; reflexivity|].
      pose proof (back_length m ltac:(lia)) as L. destruct (back_mode m ltac:(lia) L) as (_ & _ & _ & _ & _ & _ & new & _ & Es).
      destruct (Nat.eq_dec i m) as [->|Hne]; [destruct (Nat.ltb_spec m (S m)); [reflexivity|lia]|].
      rewrite Es, nth_upd. destruct (Nat.eqb_spec i m); [contradiction|]. cbn [andb]. rewrite IH by lia.
      destruct (Nat.ltb_spec i m), (Nat.ltb_spec i (S m)); try lia; reflexivity.
    Qed.

    Lemma back_at m : m <= N -> cp_at A cp_back m = st m.
    Proof.
      intros Hm. apply (nth_ext _ _ (mkT [] []) (mkT [] [])); [unfold cp_at; rewrite map_length, seq_length, back_length by exact Hm; reflexivity|].
      intros i Hi. unfold cp_at in Hi. rewrite map_length, seq_length in Hi. rewrite cp_at_nth by exact Hi. symmetry. apply back_nth; assumption.
    Qed.

    Lemma back_solution : solution g (cp_fetch X) cp_src (cp_vars A) cp_back.
    Proof.
      intros n Hn. apply cp_needed in Hn.
      destruct (unfold_all_ok X mats Hmats) as (Lm & Hu). destruct (nodes_metrics _ _ _ Hom) as (HL & HO & HR).
      destruct n; cbn in Hn.
      - apply Hu, Hn.
      - destruct Hn as (Hm & Hi & Hne). destruct (back_mode m Hm (back_length m ltac:(lia))) as (HG & _).
        cbn [g_reads g_data cp_graph map fst]. rewrite (cp_at_seen cp_back m) by eauto. rewrite <- back_nth by lia. apply HG, Hi.
      - destruct (back_mode m Hn (back_length m ltac:(lia))) as (_ & HK & _). rewrite cp_khat_reads, back_at by lia. cbn [g_kernel g_data cp_graph map].
        destruct (rev (skip_ (st m) (SkInt (Z.of_nat m)))) as [|? [|? [|? ?]]]; exact HK.
      - apply (back_mode m Hn (back_length m ltac:(lia))).
      - destruct (back_mode m Hn (back_length m ltac:(lia))) as (_ & _ & _ & HH & _). cbn [g_kernel g_data g_reads cp_graph map]. rewrite skipping_map, map_map.
        cbn [cp_back]. change (fun x => gramv m x) with (gramv m). destruct (map (gramv m) (butlist N m)) as [|? [|? [|? ?]]]; exact HH.
      - reflexivity.
      - apply (back_mode m Hn (back_length m ltac:(lia))).
      - apply (back_mode m Hn (back_length m ltac:(lia))).
      - pose proof (back_length m ltac:(lia)) as L. destruct (back_mode m Hn L) as (_ & _ & _ & _ & _ & _ & new & Hnew & Es).
        cbn [g_kernel g_data g_reads cp_graph map cp_back]. rewrite Hnew. rewrite Es, nth_upd, Nat.eqb_refl, L. destruct (Nat.ltb_spec m N); [reflexivity|lia].
      - rewrite cp_full_reads, back_at by lia. cbn [g_kernel g_data cp_graph map]. destruct (st N) as [|? [|? [|? ?]]]; exact Hof.
      - exact HL.
      - exact HO.
      - exact HR.
    Qed.
  End Back.

  Lemma cp_step_sol out : cp_step pinv X rank A = Ok out -> exists val, solution g (cp_fetch X) cp_src (cp_vars A) val.
  Proof.
    unfold cp_step. intros H. destruct (unfold_all X) as [mats|] eqn:Eu; [|discriminate]. cbn [bind] in H.
    destruct (cp_modes pinv mats rank (seq 0 N) A (mkT [] [])) as [(A', lam)|] eqn:Em; [|discriminate]. cbn [bind] in H.
    destruct (cp_modes_states mats N 0 A (mkT [] []) A' lam Em) as (st & lm & E0 & E1 & Hst & HL). cbn in E1, HL. specialize (HL HN).
    destruct (kt_extract A' (mkT (shp lam ++ [1]) (dat lam))) as [full|] eqn:Ef; [|discriminate]. cbn [bind] in H.
    destruct (metrics_of X full) as [m|] eqn:Emt; [|discriminate]. injection H as <-. subst A' lam.
    eexists. eapply (back_solution mats st lm (mkCP (st N) (lm (N - 1)) full m)); [exact Eu|exact E0| |exact Ef|exact Emt].
    intros k Hk. apply Hst. lia.
  Qed.

  (** ** executions *)
  Lemma c46_exec (E : execution g (cp_fetch X) (cp_vars A)) : finished g E ->
    exists out, cp_step pinv X rank A = Ok out /\ length (cp_A out) = N /\
      (forall v, final g E v (cp_vars (cp_A out) v)) /\
      (forall m, m < N -> fetched g E (CUp m) (nth m (cp_A out) (mkT [] []))) /\
      e_val E (CLam (N - 1)) = Ok (cp_lam out) /\ e_val E CFull = Ok (cp_full out) /\
      e_val E CLoss = Ok (scl (m_loss (cp_met out))) /\ e_val E CObj = Ok (scl (m_obj (cp_met out))) /\ e_val E CRel = Ok (scl (m_rel (cp_met out))).
  Proof.
    intros HF. destruct (finished_solution g (cp_fetch X) cp_src cp_wr (cp_vars A) cp_resolved E (mkT [] []) HF) as (val & Hv & HS).
    exists (cp_result val). split; [apply cp_sol_step, HS|]. split; [cbn; unfold cp_at; rewrite map_length, seq_length; reflexivity|].
    assert (Hat : forall i, i < N -> nth i (cp_at A val N) (mkT [] []) = val (CUp i)) by (intros i Hi; rewrite cp_at_nth by exact Hi; destruct (Nat.ltb_spec i N); [reflexivity|lia]).
    assert (Hsc : forall n, needed g (cp_fetch X) n -> forall k (x : tensor T), e_val E n = Ok (val n) -> k = Ok (val n) -> (exists a, k = Ok (scl a)) -> e_val E n = Ok (scl (unscl (val n)))).
    { intros n _ k x H1 H2 (a & H3). rewrite H1. assert (val n = scl a) by congruence. rewrite H. reflexivity. }
    split.
    { intros v. destruct v as [i| | | | | | | | |]; try (apply (final_old g (cp_fetch X) E); intros w _ W; destruct w; discriminate W).
      destruct (Nat.lt_ge_cases i N) as [Hi|Hi].
      - cbn. rewrite Hat by exact Hi. destruct (Hv (CUp i) (cp_up i Hi)) as (R & Hx). eapply (final_new g (cp_fetch X) E cp_src cp_wr cp_resolved (CUp i)); [exact R|reflexivity|exact Hx].
      - replace (cp_vars (cp_A (cp_result val)) (VA i)) with (cp_vars A (VA i)).
        + apply (final_old g (cp_fetch X) E). intros w Hw W. apply cp_needed in Hw. destruct w; try discriminate W. injection W as ->. cbn in Hw. lia.
        + cbn. rewrite !nth_overflow; [reflexivity| |lia]. unfold cp_at. rewrite map_length, seq_length. lia. }
    split.
    { intros m Hm. cbn [cp_result cp_A]. rewrite Hat by exact Hm. destruct (Hv (CUp m) (cp_up m Hm)) as (R & Hx). eapply (fetched_ok g (cp_fetch X) E cp_src cp_wr cp_resolved); assumption. }
    cbn [cp_result cp_lam cp_full cp_met m_loss m_obj m_rel].
    split; [apply Hv, cp_dom_needed; cbn; lia|]. split; [apply Hv, cp_dom_needed; exact I|].
    split; [|split].
    - apply (Hsc CLoss (cp_dom_needed CLoss I) _ (mkT [] []) (proj2 (Hv CLoss (cp_dom_needed CLoss I))) (HS CLoss (cp_dom_needed CLoss I))). pose proof (HS CLoss (cp_dom_needed CLoss I)) as K.
      cbn in K |- *. unfold k_loss in *. mon K. cbn [bind]. eauto.
    - apply (Hsc CObj (cp_dom_needed CObj I) _ (mkT [] []) (proj2 (Hv CObj (cp_dom_needed CObj I))) (HS CObj (cp_dom_needed CObj I))). pose proof (HS CObj (cp_dom_needed CObj I)) as K.
      cbn in K |- *. unfold k_obj in *. mon K. cbn [bind]. eauto.
    - apply (Hsc CRel (cp_dom_needed CRel I) _ (mkT [] []) (proj2 (Hv CRel (cp_dom_needed CRel I))) (HS CRel (cp_dom_needed CRel I))). pose proof (HS CRel (cp_dom_needed CRel I)) as K.
      cbn in K |- *. unfold k_rel in *. mon K. cbn [bind]. eauto.
  Qed.

  Lemma c46_no_failure out (E : execution g (cp_fetch X) (cp_vars A)) n : cp_step pinv X rank A = Ok out -> e_ran E n -> is_ok (e_val E n).
  Proof.
    intros H R. destruct (cp_step_sol out H) as (val & HS). exists (val n). eapply (solution_unique g (cp_fetch X) cp_src cp_wr (cp_vars A) cp_resolved); eauto.
  Qed.

  Lemma c46_exists out : cp_step pinv X rank A = Ok out -> exists E : execution g (cp_fetch X) (cp_vars A), finished g E.
  Proof.
    intros H. destruct (cp_step_sol out H) as (val & HS). eapply (solution_exists g (cp_fetch X) cp_src cp_wr (cp_vars A) cp_resolved val cp_rank HS). exact cp_rank_lt.
  Qed.
End Cp.
