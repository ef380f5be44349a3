(** NCP_BCU: every execution of the training graph computes the sequential sweep. *)

From Coq Require Import ZArith List Bool Arith Relations Lia.
From Verif Require Import Num Py Tensor TensorFacts TF Ops Types Loss Fact TFFacts LayoutFacts TrainLemmas BcuFacts Sched SchedFacts Graphs SchedLists.
Import ListNotations.

Section Ncp.
  Context {T : Type} {NM : Num T}.
  Variables (svals : tensor T -> list T) (X : tensor T).
  Notation N := (ndims X).
  Notation g := (ncp_graph svals X).
  Notation nd := (needed g (ncp_fetch X)).
  Notation dum := (mkT [] [] : tensor T).

  Definition nc_dom (n : ncn) : Prop :=
    match n with
    | NGram m i => m < N /\ i < N /\ i <> m
    | NUnf m | NKhat m | NXA m | NHad m | NL0 m | NL m | NG m | NA m => m < N
    | _ => True end.
  Definition nc_src (n : ncn) (v : var) : option ncn :=
    match n, v with
    | NGram m _, VA i | NKhat m, VA i => if i <? m then Some (NA i) else None
    | NA m, VL _ => Some (NL m)
    | NFull, VA i => Some (NA i)
    | _, _ => None end.
  Definition nc_wr (v : var) : option ncn :=
    match v with
    | VA i => if i <? N then Some (NA i) else None
    | VL i => if i <? N then Some (NL i) else None
    | VL0 i => if i <? N then Some (NL0 i) else None
    | Vt => Some NT
    | _ => None end.
  Definition nc_rank (n : ncn) : nat :=
    match n with
    | NUnf m | NGram m _ | NKhat m | NL0 m => 10 * m + 11
    | NXA m | NHad m => 10 * m + 12
    | NL m | NG m => 10 * m + 13
    | NA m => 10 * m + 14
    | NFull => 10 * N + 11
    | NT => 0
    | _ => 10 * N + 12 end.

  Lemma nc_prec_dom n d : nc_dom n -> prec g d n -> nc_dom d.
  Proof. intros Hn H. destruct n; crack; cbn in *; try lia; exact I. Qed.

  Lemma nc_needed n : nd n -> nc_dom n.
  Proof. apply needed_in; [|exact nc_prec_dom]. intros f H. unfold ncp_fetch in H. crack; cbn; try lia; exact I. Qed.

  Lemma nc_rank_lt d n : nd n -> prec g d n -> nc_rank d < nc_rank n.
  Proof. intros Hn H. apply nc_needed in Hn. destruct n; crack; cbn in *; lia. Qed.

  Lemma nc_up m : m < N -> nd (NA m).
  Proof. intros H. apply needed_fetch. unfold ncp_fetch. apply in_or_app. left. apply in_map, in_seq. lia. Qed.

  Lemma ng_na m : before g (NG m) (NA m).
  Proof. apply before_data. left. reflexivity. Qed.
  Lemma nl_na m : before g (NL m) (NA m).
  Proof. eapply (before_read g (NL m) (NA m) (VL m)); [right; left; reflexivity|left; reflexivity]. Qed.
  Lemma nl0_nl m : before g (NL0 m) (NL m).
  Proof. apply before_ctrl. left. reflexivity. Qed.
  Lemma nxa_na m : before g (NXA m) (NA m).
  Proof. eapply before_trans; [|apply ng_na]. apply before_data. right. left. reflexivity. Qed.
  Lemma nhad_na m : before g (NHad m) (NA m).
  Proof. eapply before_trans; [|apply ng_na]. apply before_data. left. reflexivity. Qed.
  Lemma ngram_na m i : i < N -> i <> m -> before g (NGram m i) (NA m).
  Proof. intros H1 H2. eapply before_trans; [|apply nhad_na]. apply before_data. cbn. apply in_skipping. eauto. Qed.
  Lemma nkhat_na m : before g (NKhat m) (NA m).
  Proof. eapply before_trans; [|apply nxa_na]. apply before_data. right. left. reflexivity. Qed.
  Lemma na_next m : before g (NA m) (NA (S m)).
  Proof. eapply before_trans; [|apply nxa_na]. apply before_ctrl. left. reflexivity. Qed.
  Lemma na_na i j : i <= j -> NA i = NA j \/ before g (NA i) (NA j).
  Proof. intros H. induction H as [|j H IH]; [auto|]. right. destruct IH as [->|IH]; [apply na_next|]. eapply before_trans; [exact IH|apply na_next]. Qed.
  Lemma na_before n i m : before g n (NA m) -> m <= i -> before g n (NA i).
  Proof. intros H Hi. destruct (na_na m i Hi) as [<-|B]; [exact H|]. eapply before_trans; eauto. Qed.

  Lemma nc_dom_needed n : nc_dom n -> nd n.
  Proof.
    assert (F : forall n, In n [NFull; NLoss; NObj; NRel] -> nd n).
    { intros n' H. apply needed_fetch. unfold ncp_fetch. rewrite !in_app_iff. auto. }
    intros H. destruct n; cbn in H; try (apply F; cbn; tauto).
    - eapply needed_before; [apply (nc_up m H)|]. eapply before_trans; [|apply nxa_na]. apply before_data. left. reflexivity.
    - destruct H as (H1 & H2 & H3). eapply needed_before; [apply (nc_up m H1)|]. apply ngram_na; assumption.
    - eapply needed_before; [apply (nc_up m H)|]. apply nkhat_na.
    - eapply needed_before; [apply (nc_up m H)|]. apply nxa_na.
    - eapply needed_before; [apply (nc_up m H)|]. apply nhad_na.
    - eapply needed_before; [apply (nc_up m H)|]. eapply before_trans; [apply nl0_nl|apply nl_na].
    - eapply needed_before; [apply (nc_up m H)|]. apply nl_na.
    - eapply needed_before; [apply (nc_up m H)|]. apply ng_na.
    - apply nc_up, H.
    - apply needed_fetch. unfold ncp_fetch. rewrite !in_app_iff. cbn. tauto.
  Qed.

  Lemma nc_resolved : resolved g (ncp_fetch X) nc_src nc_wr.
  Proof.
    split.
    - intros w v Hw W. apply nc_needed in Hw. destruct w; cbn in W; try discriminate; injection W as <-; cbn in *; try reflexivity; destruct (Nat.ltb_spec m N); reflexivity || lia.
    - intros w v H. destruct v; cbn in H; try discriminate;
        try (destruct (Nat.ltb_spec i N) as [Hi|]; [|discriminate]); injection H as <-; (split; [apply nc_dom_needed; cbn; try exact I; lia|reflexivity]).
    - intros n v l w Hn I Hs. apply nc_needed in Hn.
      assert (Hsee : forall i m, i < m -> sees g (previous NA m) (NA i)).
      { intros i [|m] Him; [lia|]. exists (NA m). split; [left; reflexivity|]. apply na_na. lia. }
      destruct n; cbn in I; try contradiction.
      + destruct v as [j| | | | | | | | |]; try discriminate. cbn in Hs. destruct (Nat.ltb_spec j m) as [Hj|]; [|discriminate]. injection Hs as <-.
        split; [reflexivity|]. assert (l = previous NA m) by (crack; reflexivity). subst l. apply Hsee, Hj.
      + destruct v as [j| | | | | | | | |]; try discriminate. cbn in Hs. destruct (Nat.ltb_spec j m) as [Hj|]; [|discriminate]. injection Hs as <-.
        split; [reflexivity|]. assert (l = previous NA m) by (crack; reflexivity). subst l. apply Hsee, Hj.
      + destruct I as [I|[]]. injection I as <- <-. discriminate Hs.
      + destruct I as [I|[]]. injection I as <- <-. discriminate Hs.
      + destruct I as [I|[I|[]]]; injection I as <- <-; [discriminate Hs|]. cbn in Hs. injection Hs as <-. split; [reflexivity|]. eexists. split; [left; reflexivity|left; reflexivity].
      + crack. split; [reflexivity|]. eexists. split; [left; reflexivity|left; reflexivity].
      + destruct I as [I|[]]. injection I as <- <-. discriminate Hs.
    - intros n v l w Hn I Hs Hw W. apply nc_needed in Hn, Hw. right.
      destruct n; cbn in I; try contradiction.
      + assert (v = VA i) by (crack; congruence). subst v. destruct w; cbn in W; try discriminate. injection W as ->. cbn in Hs. destruct (Nat.ltb_spec i m) as [|Hge]; [discriminate|].
        cbn in Hn. apply (na_before _ i m); [apply ngram_na; lia|lia].
      + assert (exists i, v = VA i) as (i & ->) by (crack; eauto). destruct w; cbn in W; try discriminate. injection W as ->. cbn in Hs. destruct (Nat.ltb_spec i m) as [|Hge]; [discriminate|].
        apply (na_before _ i m); [apply nkhat_na|lia].
      + destruct I as [I|[]]. injection I as <- <-. destruct w; cbn in W; try discriminate. injection W as ->. apply nl0_nl.
      + destruct I as [I|[]]. injection I as <- <-. destruct w; cbn in W; discriminate.
      + destruct I as [I|[I|[]]]; injection I as <- <-; [destruct w; cbn in W; discriminate|discriminate Hs].
      + crack.
      + destruct I as [I|[]]. injection I as <- <-. destruct w; cbn in W; discriminate.
  Qed.

  Variable s : ncp_state T.
  Hypotheses (HA : length (n_A s) = N) (HAm : length (n_Am s) = N) (HL : length (n_L s) = N) (HL0 : length (n_L0 s) = N).
  Notation sol := (solution g (ncp_fetch X) nc_src (ncp_vars s)).

  Definition nc_at (val : ncn -> tensor T) (m : nat) : ncp_state T :=
    mkNCP (swept dum (n_A s) (fun i => val (NA i)) N m) (n_Am s) (n_A0 s) (n_t s) (n_t0 s) (n_w s)
          (swept n0 (n_L s) (fun i => unscl (val (NL i))) N m) (swept n0 (n_L0 s) (fun i => unscl (val (NL0 i))) N m).

  Definition nc_result (val : ncn -> tensor T) : ncp_state T * tensor T * metrics T :=
    let s1 := nc_at val N in
    (mkNCP (n_A s1) (n_Am s1) (n_A0 s1) (t_next (n_t0 s1)) (n_t0 s1) (n_w s1) (n_L s1) (n_L0 s1), val NFull,
     mkM (unscl (val NLoss)) (unscl (val NObj)) (unscl (val NRel))).

  Lemma nc_seen_A val m n i : (n = NKhat m \/ exists j, n = NGram m j) ->
    seen nc_src (ncp_vars s) val n (VA i) = if i <? m then val (NA i) else nth i (n_A s) dum.
  Proof. intros [->|(j & ->)]; unfold seen; cbn; destruct (i <? m); reflexivity. Qed.

  Lemma nc_khat_reads val m : map (fun r => seen nc_src (ncp_vars s) val (NKhat m) (fst r)) (g_reads g (NKhat m)) = rev (skip_ (n_A (nc_at val m)) (SkInt (Z.of_nat m))).
  Proof.
    cbn [g_reads ncp_graph]. rewrite map_rev. f_equal. cbn [nc_at n_A]. rewrite swept_skip, skipping_map, map_map. apply map_ext. intros i.
    cbn [fst]. apply (nc_seen_A val m). auto.
  Qed.

  Lemma nc_full_reads val : map (fun r => seen nc_src (ncp_vars s) val NFull (fst r)) (g_reads g NFull) = n_A (nc_at val N).
  Proof.
    cbn [g_reads ncp_graph]. rewrite map_map. cbn [nc_at n_A]. unfold swept. apply map_ext_in. intros i Hi. apply in_seq in Hi. cbn [fst]. unfold seen. cbn.
    destruct (Nat.ltb_spec i N); [reflexivity|lia].
  Qed.

  Lemma nc_kernel_khat m rs : g_kernel g (NKhat m) [] rs = khatri rs SkNone false.
  Proof. destruct rs as [|? [|? [|? ?]]]; reflexivity. Qed.
  Lemma nc_kernel_had m xs : g_kernel g (NHad m) xs [] = hadamard xs SkNone.
  Proof. destruct xs as [|? [|? [|? ?]]]; reflexivity. Qed.
  Lemma nc_kernel_full rs : g_kernel g NFull [] rs = (do lam <- ncp_ones rs; kt_extract rs lam).
  Proof. destruct rs as [|? [|? [|? ?]]]; reflexivity. Qed.

  Hypothesis HM : forall M, In M (n_A s) -> exists r c, shp M = [r; c].

  (** the equations for mode m and the sequential update *)
  Record nc_eqs (val : ncn -> tensor T) (m : nat) : Prop := {
    q_gram : forall i, i < N -> i <> m -> tf_matmul true false (nth i (n_A (nc_at val m)) dum) (nth i (n_A (nc_at val m)) dum) = Ok (val (NGram m i));
    q_khat : khatri (rev (skip_ (n_A (nc_at val m)) (SkInt (Z.of_nat m)))) SkNone false = Ok (val (NKhat m));
    q_xa : tf_matmul false false (val (NUnf m)) (val (NKhat m)) = Ok (val (NXA m));
    q_had : hadamard (map (fun i => val (NGram m i)) (butlist N m)) SkNone = Ok (val (NHad m));
    q_l0 : val (NL0 m) = scl (nth m (n_L s) n0);
    q_l : val (NL m) = scl (tf_max (svals (val (NHad m))));
    nq_g : (do p <- tf_matmul false false (nth m (n_Am s) dum) (val (NHad m)); tf_bin nsub p (val (NXA m))) = Ok (val (NG m));
    q_a : (do u <- tf_bin nsub (nth m (n_Am s) dum) (tf_map (fun x => ndiv x (unscl (val (NL m)))) (val (NG m))); Ok (tf_map nrelu u)) = Ok (val (NA m)) }.

  Lemma nc_sol_eqs val m : sol val -> m < N -> nc_eqs val m.
  Proof.
    intros HS Hm. split.
    - intros i Hi Hne. pose proof (HS (NGram m i) (nc_dom_needed (NGram m i) (conj Hm (conj Hi Hne)))) as E. cbn [g_kernel g_data g_reads ncp_graph map fst] in E.
      rewrite (nc_seen_A val m) in E by eauto. cbn [nc_at n_A]. rewrite swept_nth by exact Hi. exact E.
    - pose proof (HS (NKhat m) (nc_dom_needed (NKhat m) Hm)) as E. rewrite nc_khat_reads in E. cbn [g_data ncp_graph map] in E. rewrite nc_kernel_khat in E. exact E.
    - exact (HS (NXA m) (nc_dom_needed (NXA m) Hm)).
    - pose proof (HS (NHad m) (nc_dom_needed (NHad m) Hm)) as E. cbn [g_data g_reads ncp_graph] in E. rewrite skipping_map, map_map in E. cbn [map] in E. rewrite nc_kernel_had in E. exact E.
    - pose proof (HS (NL0 m) (nc_dom_needed (NL0 m) Hm)) as E. cbn in E. injection E as E. symmetry. exact E.
    - pose proof (HS (NL m) (nc_dom_needed (NL m) Hm)) as E. cbn in E. injection E as E. symmetry. exact E.
    - exact (HS (NG m) (nc_dom_needed (NG m) Hm)).
    - exact (HS (NA m) (nc_dom_needed (NA m) Hm)).
  Qed.

  Lemma nc_sol_mode val m : nc_eqs val m -> m < N ->
    ncp_mode svals (map (fun m => val (NUnf m)) (seq 0 N)) m (nc_at val m) = Ok (nc_at val (S m)).
  Proof.
    intros Q Hm.
    pose (gr i := okd (tf_matmul true false (nth i (n_A (nc_at val m)) dum) (nth i (n_A (nc_at val m)) dum))).
    assert (Eg : grams (n_A (nc_at val m)) = Ok (map gr (seq 0 N))).
    { unfold grams. rewrite <- (map_nth_seq (n_A (nc_at val m)) dum) at 1. cbn [nc_at n_A] in *. rewrite swept_length, mapM_map. apply mapM_ok. intros i Hi. apply in_seq in Hi. unfold gr.
      destruct (Nat.eq_dec i m) as [->|Hne]; [|cbn [nc_at n_A]; rewrite (q_gram _ _ Q) by lia; reflexivity].
      cbn [nc_at n_A]. rewrite swept_nth by exact Hm. destruct (Nat.ltb_spec m m); [lia|]. destruct (HM (nth m (n_A s) dum)) as (r & c & Es); [apply nth_In; lia|].
      destruct (gram_total _ r c Es) as (G & EG). rewrite EG. reflexivity. }
    unfold ncp_mode. rewrite Eg. cbn [bind]. rewrite khatri_skip, (q_khat _ _ Q). cbn [bind]. rewrite pynth_map_seq by exact Hm. cbn [bind]. rewrite (q_xa _ _ Q). cbn [bind].
    assert (Eh' : hadamard (map gr (seq 0 N)) (SkInt (Z.of_nat m)) = Ok (val (NHad m))).
    { rewrite hadamard_skip, skip_map, skip_seq. rewrite <- (q_had _ _ Q). f_equal. apply map_ext_in. intros i Hi. apply in_butlist in Hi. unfold gr. rewrite (q_gram _ _ Q) by apply Hi. reflexivity. }
    rewrite Eh'. cbn [bind nc_at n_L n_Am n_A n_A0 n_t n_t0 n_w n_L0]. rewrite (pynth_nat _ m n0) by (rewrite swept_length; exact Hm). cbn [bind].
    rewrite (pynth_nat _ m dum) by lia. cbn [bind].
    pose proof (nq_g _ _ Q) as EG. destruct (tf_matmul false false (nth m (n_Am s) dum) (val (NHad m))) as [p|]; [|discriminate]. cbn [bind] in *. rewrite EG. cbn [bind].
    pose proof (q_a _ _ Q) as EA. rewrite (q_l _ _ Q) in EA. cbn [unscl scl dat List.hd] in EA.
    replace (unscl (scl (tf_max (svals (val (NHad m)))))) with (tf_max (svals (val (NHad m)))) in EA by reflexivity.
    destruct (tf_bin nsub (nth m (n_Am s) dum) (tf_map (fun x => ndiv x (tf_max (svals (val (NHad m))))) (val (NG m)))) as [u|]; [|discriminate]. cbn [bind] in *. injection EA as EA.
    rewrite swept_nth by exact Hm. destruct (Nat.ltb_spec m m); [lia|]. unfold nc_at. do 2 f_equal.
    - rewrite EA. apply (swept_upd dum (n_A s) (fun i => val (NA i))). exact Hm.
    - rewrite <- (swept_upd n0 (n_L s) (fun i => unscl (val (NL i)))) by exact Hm. rewrite (q_l _ _ Q). reflexivity.
    - rewrite <- (swept_upd n0 (n_L0 s) (fun i => unscl (val (NL0 i)))) by exact Hm. rewrite (q_l0 _ _ Q). reflexivity.
  Qed.

  Lemma nc_at_0 val : nc_at val 0 = s.
  Proof. unfold nc_at. rewrite !swept_0 by assumption. destruct s. reflexivity. Qed.

  Lemma nc_sol_step val : sol val -> ncp_step svals X s = Ok (nc_result val).
  Proof.
    intros HS. unfold ncp_step.
    rewrite (unfold_all_list X (fun m => val (NUnf m))) by (intros m Hm; exact (HS (NUnf m) (nc_dom_needed (NUnf m) Hm))). cbn [bind].
    pose proof (states_loop (ncp_mode svals (map (fun m => val (NUnf m)) (seq 0 N))) (ncp_modes svals (map (fun m => val (NUnf m)) (seq 0 N))) (nc_at val) (fun _ => eq_refl) (fun _ _ _ => eq_refl) N 0
                  (fun m Hm => nc_sol_mode val m (nc_sol_eqs val m HS (proj2 Hm)) (proj2 Hm))) as E.
    rewrite nc_at_0 in E. rewrite E. cbn [bind Nat.add].
    pose proof (HS NFull (nc_dom_needed NFull I)) as Ef. rewrite nc_full_reads in Ef. cbn [g_data ncp_graph map] in Ef. rewrite nc_kernel_full in Ef.
    change (n_A (mkNCP (n_A (nc_at val N)) (n_Am (nc_at val N)) (n_A0 (nc_at val N)) (t_next (n_t0 (nc_at val N))) (n_t0 (nc_at val N)) (n_w (nc_at val N)) (n_L (nc_at val N)) (n_L0 (nc_at val N)))) with (n_A (nc_at val N)).
    destruct (ncp_ones (n_A (nc_at val N))) as [lam|]; [|discriminate]. cbn [bind] in *. rewrite Ef. cbn [bind].
    rewrite (metrics_nodes X (val NFull) (val NLoss) (val NObj) (val NRel)); [reflexivity| | |].
    - exact (HS NLoss (nc_dom_needed NLoss I)).
    - exact (HS NObj (nc_dom_needed NObj I)).
    - exact (HS NRel (nc_dom_needed NRel I)).
  Qed.

  (** ** the other way: a sweep that succeeds solves the equations *)
  Section Back.
    Variables (mats : list (tensor T)) (st : nat -> ncp_state T) (full : tensor T) (mt : metrics T).
    Hypothesis Hmats : unfold_all X = Ok mats.
    Hypothesis Hst0 : st 0 = s.
    Hypothesis Hst : forall m, m < N -> ncp_mode svals mats m (st m) = Ok (st (S m)).
    Hypothesis Hof : (do lam <- ncp_ones (n_A (st N)); kt_extract (n_A (st N)) lam) = Ok full.
    Hypothesis Hom : metrics_of X full = Ok mt.

    Let gramv m i := okd (tf_matmul true false (nth i (n_A (st m)) dum) (nth i (n_A (st m)) dum)).
    Let unfv m := nth m mats dum.
    Let khv m := okd (khatri (rev (skip_ (n_A (st m)) (SkInt (Z.of_nat m)))) SkNone false).
    Let xav m := okd (tf_matmul false false (unfv m) (khv m)).
    Let hadv m := okd (hadamard (map (gramv m) (butlist N m)) SkNone).
    Let gv m := okd (do p <- tf_matmul false false (nth m (n_Am s) dum) (hadv m); tf_bin nsub p (xav m)).

    Definition nc_back (n : ncn) : tensor T :=
      match n with
      | NUnf m => unfv m
      | NGram m i => gramv m i
      | NKhat m => khv m
      | NXA m => xav m
      | NHad m => hadv m
      | NL0 m => scl (nth m (n_L s) n0)
      | NL m => scl (tf_max (svals (hadv m)))
      | NG m => gv m
      | NA m => nth m (n_A (st (S m))) dum
      | NFull => full
      | NLoss => scl (m_loss mt)
      | NObj => scl (m_obj mt)
      | NRel => scl (m_rel mt)
      | NT => scl (t_next (n_t0 s)) end.

    Lemma nc_back_mode m : m < N -> st m = nc_at nc_back m -> nc_eqs nc_back m /\ st (S m) = nc_at nc_back (S m).
    Proof.
      intros Hm Eq.
      assert (HLs : length (n_A (st m)) = N) by (rewrite Eq; apply swept_length).
      destruct (unfold_all_ok X mats Hmats) as (Lm & Hu).
      assert (K : nc_eqs nc_back m).
      { pose proof (Hst m Hm) as H. unfold ncp_mode in H. rewrite khatri_skip in H.
        destruct (grams (n_A (st m))) as [AtA|] eqn:Eg; cbn [bind] in H; [|discriminate]. rewrite hadamard_skip in H.
        assert (Gi : forall i, i < N -> tf_matmul true false (nth i (n_A (st m)) dum) (nth i (n_A (st m)) dum) = Ok (gramv m i) /\ nth i AtA dum = gramv m i).
        { intros i Hi. unfold grams in Eg. pose proof (mapM_nth _ _ _ i dum dum Eg ltac:(lia)) as E. unfold gramv. rewrite E. auto. }
        assert (EA : skip_ AtA (SkInt (Z.of_nat m)) = map (gramv m) (butlist N m)).
        { assert (LA : length AtA = N) by (unfold grams in Eg; rewrite (mapM_length _ _ _ Eg); exact HLs).
          rewrite <- (map_nth_seq AtA dum), LA, skip_map, skip_seq. apply map_ext_in. intros i Hi. apply in_butlist in Hi. apply Gi, Hi. }
        rewrite EA in H.
        assert (EL : n_L (st m) = swept n0 (n_L s) (fun i => unscl (nc_back (NL i))) N m) by (rewrite Eq; reflexivity).
        assert (EAm : n_Am (st m) = n_Am s) by (rewrite Eq; reflexivity). rewrite EAm in H.
        destruct (khatri (rev (skip_ (n_A (st m)) (SkInt (Z.of_nat m)))) SkNone false) as [kr|] eqn:Ek; cbn [bind] in H; [|discriminate].
        assert (Ekv : khv m = kr) by (unfold khv; rewrite Ek; reflexivity).
        rewrite (pynth_nat mats m dum) in H by lia. cbn [bind] in H. fold (unfv m) in H.
        destruct (tf_matmul false false (unfv m) kr) as [xa|] eqn:Ex; cbn [bind] in H; [|discriminate].
        assert (Exv : xav m = xa) by (unfold xav; rewrite Ekv, Ex; reflexivity).
        destruct (hadamard (map (gramv m) (butlist N m)) SkNone) as [hd|] eqn:Eh; cbn [bind] in H; [|discriminate].
        assert (Ehv : hadv m = hd) by (unfold hadv; rewrite Eh; reflexivity).
        rewrite EL, (pynth_nat _ m n0) in H by (rewrite swept_length; exact Hm). cbn [bind] in H.
        rewrite (pynth_nat _ m dum) in H by lia. cbn [bind] in H.
        destruct (tf_matmul false false (nth m (n_Am s) dum) hd) as [p|] eqn:Ep; cbn [bind] in H; [|discriminate].
        destruct (tf_bin nsub p xa) as [gn|] eqn:Egn; cbn [bind] in H; [|discriminate].
        assert (Egv : gv m = gn) by (unfold gv; rewrite Ehv, Ep, Exv; cbn [bind]; rewrite Egn; reflexivity).
        destruct (tf_bin nsub (nth m (n_Am s) dum) (tf_map (fun x => ndiv x (tf_max (svals hd))) gn)) as [u|] eqn:Eu; cbn [bind] in H; [|discriminate].
        injection H as H.
        assert (EAv : nth m (n_A (st (S m))) dum = tf_map nrelu u).
        { rewrite <- H. cbn [n_A]. rewrite nth_upd, Nat.eqb_refl, HLs. destruct (Nat.ltb_spec m N); [reflexivity|lia]. }
        split; cbn [nc_back].
        - intros i Hi Hne. pose proof (f_equal n_A Eq) as Eq'. rewrite <- Eq. apply Gi, Hi.
        - rewrite <- Eq, Ekv. exact Ek.
        - rewrite Ekv, Exv. exact Ex.
        - change (fun i => gramv m i) with (gramv m). rewrite Ehv. exact Eh.
        - reflexivity.
        - reflexivity.
        - rewrite Ehv, Exv, Ep, Egv. exact Egn.
        - unfold unscl, scl. cbn [dat nth List.hd]. rewrite Ehv, Egv, EAv.
          match goal with |- (do u <- ?e; _) = _ => replace e with (Ok u : res (tensor T)) by (symmetry; exact Eu) end. reflexivity. }
      split; [exact K|]. pose proof (nc_sol_mode nc_back m K Hm) as E.
      replace (map (fun m => nc_back (NUnf m)) (seq 0 N)) with mats in E by (cbn [nc_back]; unfold unfv; rewrite <- Lm; symmetry; apply map_nth_seq).
      rewrite <- Eq, Hst in E by exact Hm. injection E as E. exact E.
    Qed.

    Lemma nc_back_at m : m <= N -> st m = nc_at nc_back m.
    Proof. induction m as [|m IH]; intros Hm; [rewrite Hst0, nc_at_0; reflexivity|]. apply nc_back_mode; [lia|apply IH; lia]. Qed.

    Lemma nc_back_solution : sol nc_back.
    Proof.
      intros n Hn. apply nc_needed in Hn.
      destruct (unfold_all_ok X mats Hmats) as (Lm & Hu). destruct (nodes_metrics _ _ _ Hom) as (HLo & HOb & HRe).
      assert (Q : forall m, m < N -> nc_eqs nc_back m) by (intros m Hm; apply nc_back_mode; [exact Hm|apply nc_back_at; lia]).
      destruct n; cbn in Hn.
      - apply Hu, Hn.
      - destruct Hn as (Hm & Hi & Hne). cbn [g_reads g_data g_kernel ncp_graph map fst]. rewrite (nc_seen_A nc_back m) by eauto.
        pose proof (q_gram _ _ (Q m Hm) i Hi Hne) as E. cbn [nc_at n_A] in E. rewrite swept_nth in E by exact Hi. exact E.
      - rewrite nc_khat_reads. cbn [g_data ncp_graph map]. rewrite nc_kernel_khat. apply (q_khat _ _ (Q m Hn)).
      - exact (q_xa _ _ (Q m Hn)).
      - cbn [g_data g_reads ncp_graph]. rewrite skipping_map, map_map. cbn [map]. rewrite nc_kernel_had. exact (q_had _ _ (Q m Hn)).
      - reflexivity.
      - reflexivity.
      - exact (nq_g _ _ (Q m Hn)).
      - exact (q_a _ _ (Q m Hn)).
      - rewrite nc_full_reads. cbn [g_data ncp_graph map]. rewrite nc_kernel_full, <- nc_back_at by lia. exact Hof.
      - exact HLo.
      - exact HOb.
      - exact HRe.
      - reflexivity.
    Qed.
  End Back.

  Lemma nc_step_sol out : ncp_step svals X s = Ok out -> exists val, sol val.
  Proof.
    unfold ncp_step. intros H. destruct (unfold_all X) as [mats|] eqn:Eu; [|discriminate]. cbn [bind] in H.
    destruct (ncp_modes svals mats (seq 0 N) s) as [s1|] eqn:Em; [|discriminate]. cbn [bind n_A] in H.
    destruct (loop_states (ncp_mode svals mats) (ncp_modes svals mats) (fun _ => eq_refl) (fun _ _ _ => eq_refl) N 0 s s1 Em) as (st & E0 & E1 & Hst). cbn [Nat.add] in E1, Hst.
    destruct (do lam <- ncp_ones (n_A s1); kt_extract (n_A s1) lam) as [full|] eqn:Ef.
    - destruct (ncp_ones (n_A s1)) as [lam|] eqn:El; [|discriminate]. cbn [bind] in H, Ef. rewrite Ef in H. cbn [bind] in H.
      destruct (metrics_of X full) as [m|] eqn:Emt; [|discriminate].
      eexists. eapply (nc_back_solution mats st full m); [exact Eu|exact E0| | |exact Emt].
      + intros k Hk. apply Hst. lia.
      + rewrite E1, El. exact Ef.
    - destruct (ncp_ones (n_A s1)) as [lam|] eqn:El; [|discriminate]. cbn [bind] in H, Ef. rewrite Ef in H. discriminate.
  Qed.

  Lemma nc_exec (E : execution g (ncp_fetch X) (ncp_vars s)) : finished g E ->
    exists s' full mt, ncp_step svals X s = Ok (s', full, mt) /\
      (forall v, final g E v (ncp_vars s' v)) /\
      (forall m, m < N -> fetched g E (NA m) (nth m (n_A s') dum)) /\
      e_val E NFull = Ok full /\
      e_val E NLoss = Ok (scl (m_loss mt)) /\ e_val E NObj = Ok (scl (m_obj mt)) /\ e_val E NRel = Ok (scl (m_rel mt)).
  Proof.
    intros HF. destruct (finished_solution g (ncp_fetch X) nc_src nc_wr (ncp_vars s) nc_resolved E dum HF) as (val & Hv & HS).
    pose proof (nc_sol_step val HS) as Es. unfold nc_result in Es. cbv zeta in Es.
    eexists _, _, _. split; [exact Es|].
    assert (Hnew : forall n v, nc_dom n -> g_writes g n = Some v -> final g E v (val n)).
    { intros n v Hn W. destruct (Hv n (nc_dom_needed n Hn)) as (R & Hx). eapply (final_new g (ncp_fetch X) E nc_src nc_wr nc_resolved n); [exact R|exact W|exact Hx]. }
    split.
    { intros v. destruct v as [i|i|i| | |i|i|i| |]; cbn [ncp_vars n_A n_Am n_A0 n_t n_t0 n_w n_L n_L0 nc_at];
        try (apply (final_old g (ncp_fetch X) E); intros w _ W; destruct w; discriminate W).
      - destruct (Nat.lt_ge_cases i N) as [Hi|Hi]; [rewrite swept_all by exact Hi; apply Hnew; [exact Hi|reflexivity]|].
        rewrite nth_overflow by (rewrite swept_length; lia). replace dum with (ncp_vars s (VA i)) by (cbn; apply nth_overflow; lia).
        apply (final_old g (ncp_fetch X) E). intros w Hw W. apply nc_needed in Hw. destruct w; try discriminate W. injection W as ->. cbn in Hw. lia.
      - replace (scl (t_next (n_t0 s))) with (val NT); [apply Hnew; [exact I|reflexivity]|].
        pose proof (HS NT (nc_dom_needed NT I)) as Et. cbn in Et. injection Et as Et. symmetry. exact Et.
      - destruct (Nat.lt_ge_cases i N) as [Hi|Hi].
        + rewrite swept_all by exact Hi. replace (scl (unscl (val (NL i)))) with (val (NL i)) by (rewrite (q_l _ _ (nc_sol_eqs val i HS Hi)); reflexivity). apply Hnew; [exact Hi|reflexivity].
        + rewrite nth_overflow by (rewrite swept_length; lia). replace (scl n0) with (ncp_vars s (VL i)) by (cbn; rewrite nth_overflow by lia; reflexivity).
          apply (final_old g (ncp_fetch X) E). intros w Hw W. apply nc_needed in Hw. destruct w; try discriminate W. injection W as ->. cbn in Hw. lia.
      - destruct (Nat.lt_ge_cases i N) as [Hi|Hi].
        + rewrite swept_all by exact Hi. replace (scl (unscl (val (NL0 i)))) with (val (NL0 i)) by (rewrite (q_l0 _ _ (nc_sol_eqs val i HS Hi)); reflexivity). apply Hnew; [exact Hi|reflexivity].
        + rewrite nth_overflow by (rewrite swept_length; lia). replace (scl n0) with (ncp_vars s (VL0 i)) by (cbn; rewrite nth_overflow by lia; reflexivity).
          apply (final_old g (ncp_fetch X) E). intros w Hw W. apply nc_needed in Hw. destruct w; try discriminate W. injection W as ->. cbn in Hw. lia. }
    split.
    { intros m Hm. cbn [n_A nc_at]. rewrite swept_all by exact Hm. destruct (Hv (NA m) (nc_up m Hm)) as (R & Hx). eapply (fetched_ok g (ncp_fetch X) E nc_src nc_wr nc_resolved); assumption. }
    cbn [m_loss m_obj m_rel].
    split; [apply Hv, nc_dom_needed; exact I|].
    pose proof (metrics_scl X (val NFull) _ _ _ (HS NLoss (nc_dom_needed NLoss I)) (HS NObj (nc_dom_needed NObj I)) (HS NRel (nc_dom_needed NRel I))) as (K1 & K2 & K3).
    rewrite <- K1, <- K2, <- K3. split; [|split]; apply Hv, nc_dom_needed; exact I.
  Qed.

  Lemma nc_no_failure out (E : execution g (ncp_fetch X) (ncp_vars s)) n : ncp_step svals X s = Ok out -> e_ran E n -> is_ok (e_val E n).
  Proof.
    intros H R. destruct (nc_step_sol out H) as (val & HS). exists (val n). eapply (solution_unique g (ncp_fetch X) nc_src nc_wr (ncp_vars s) nc_resolved); eauto.
  Qed.

  Lemma nc_exists out : ncp_step svals X s = Ok out -> exists E : execution g (ncp_fetch X) (ncp_vars s), finished g E.
  Proof.
    intros H. destruct (nc_step_sol out H) as (val & HS). eapply (solution_exists g (ncp_fetch X) nc_src nc_wr (ncp_vars s) nc_resolved val nc_rank HS). exact nc_rank_lt.
  Qed.
End Ncp.
