(** PITF: every execution of the graph computes one iteration of the sequential model. *)

From Coq Require Import ZArith List Bool Arith Relations Lia.
From Verif Require Import Num Py Tensor TF TFFacts TensorFacts PitfOps PitfFacts Sched SchedFacts SchedLists SpecSched SchedLemmas PitfGraph SpecPitfSched.
Import ListNotations.

Section Pitf.
  Context {T : Type} {NM : Num T}.
  Variables (shrink : tensor T -> T -> shmode -> res (tensor T)) (t : tensor T) (spl : sample) (spn : nat) (delt tao : T).
  Variable fetch : list pn.
  Hypothesis Hfetch : fetch = pitf_fetch_all \/ fetch = pitf_fetch_up.
  Notation g := (pitf_graph shrink t spl spn delt tao).
  Notation nd := (needed g fetch).
  Notation dum := (mkT [] [] : tensor T).

  Definition pi_dom (n : pn) : Prop := match n with PAd d | PSh d => d < 3 | _ => True end.
  Definition pi_src (n : pn) (v : pvar) : option pn := None.
  Definition pi_wr (v : pvar) : option pn := Some PUp.
  Definition pi_rank (n : pn) : nat :=
    match n with PAd _ => 1 | PSh _ => 2 | PE1 => 1 | PE2 => 3 | PE => 4 | PErate => 5 | PLoss => 5 | PNew => 5 | PUp => 6 end.

  Ltac cracp :=
    repeat match goal with
      | H : prec _ _ _ |- _ => destruct H as [H|[H|(? & ? & H & ?)]]; cbn in H
      | H : In _ (repeat _ _) |- _ => apply repeat_spec in H
      | H : (_, _) = (_, _) |- _ => injection H; clear H; intros
      | H : _ \/ _ |- _ => destruct H as [H|H]
      | H : False |- _ => destruct H
      | H : In _ [] |- _ => destruct H
      | H : ?x = _ |- _ => is_var x; subst x
      | H : _ = ?x |- _ => is_var x; subst x
      end.

  Lemma pi_prec_dom n d : pi_dom n -> prec g d n -> pi_dom d.
  Proof. intros Hn H. destruct n as [k|k| | | | | | |]; cracp; cbn in *; try lia; exact I. Qed.

  Lemma pi_needed n : nd n -> pi_dom n.
  Proof.
    apply needed_in; [|exact pi_prec_dom]. intros f H. destruct Hfetch as [-> | ->]; cbn in H; cracp; exact I.
  Qed.

  Lemma pi_rank_lt d n : nd n -> prec g d n -> pi_rank d < pi_rank n.
  Proof. intros Hn H. destruct n as [k|k| | | | | | |]; cracp; cbn in *; lia. Qed.

  Lemma pi_up : nd PUp.
  Proof. apply needed_fetch. destruct Hfetch as [-> | ->]; cbn; tauto. Qed.

  Lemma new_up : before g PNew PUp.
  Proof. apply before_data. left. reflexivity. Qed.
  Lemma e_up : before g PE PUp.
  Proof. eapply before_trans; [|exact new_up]. apply before_data. left. reflexivity. Qed.
  Lemma e1_up : before g PE1 PUp.
  Proof. eapply before_trans; [|exact e_up]. apply before_data. left. reflexivity. Qed.
  Lemma e2_up : before g PE2 PUp.
  Proof. eapply before_trans; [|exact e_up]. apply before_data. right. left. reflexivity. Qed.
  Lemma sh_up d : d < 3 -> before g (PSh d) PUp.
  Proof. intros H. eapply before_trans; [|exact e2_up]. apply before_data. destruct d as [|[|[|d]]]; cbn; [tauto..|lia]. Qed.
  Lemma ad_up d : d < 3 -> before g (PAd d) PUp.
  Proof. intros H. eapply before_trans; [|exact (sh_up d H)]. apply before_data. left. reflexivity. Qed.

  Lemma nd_up n : before g n PUp -> nd n.
  Proof. intros H. eapply needed_before; [exact pi_up|exact H]. Qed.

  Lemma pi_resolved : resolved g fetch pi_src pi_wr.
  Proof.
    split.
    - intros w v _ W. destruct w; cbn in W; try discriminate. reflexivity.
    - intros w v H. injection H as <-. split; [exact pi_up|destruct v; reflexivity].
    - intros n v l w _ _ Hs. discriminate Hs.
    - intros n v l w Hn I _ _ W. destruct w; cbn in W; try discriminate. right. apply pi_needed in Hn.
      destruct n as [k|k| | | | | | |]; cbn in I; try contradiction; [apply ad_up, Hn|exact new_up].
  Qed.

  Variable y : list T.
  Hypothesis Hy : length y = spn.
  Notation sol := (solution g fetch pi_src (pitf_vars y)).

  Lemma slices_same : slices (repeat (pvec y) spn) = y.
  Proof.
    unfold slices. rewrite repeat_length. apply nth_ext with (d := n0) (d' := n0).
    - rewrite map_length, seq_length. congruence.
    - intros i Hi. rewrite map_length, seq_length in Hi. rewrite nth_map_seq by exact Hi. cbn [Nat.add].
      rewrite (nth_indep _ dum (pvec y)) by (rewrite repeat_length; exact Hi). rewrite nth_repeat. reflexivity.
  Qed.

  Lemma pi_ad_reads val d : map (fun r => seen pi_src (pitf_vars y) val (PAd d) (fst r)) (g_reads g (PAd d)) = repeat (pvec y) spn.
  Proof. cbn [g_reads pitf_graph]. clear. induction spn as [|n IH]; [reflexivity|]. cbn [repeat map]. f_equal. exact IH. Qed.

  Lemma pi_kernel_ad d rs : g_kernel g (PAd d) [] rs = adjoint_operator spl (slices rs) (shp t) spn (Z.of_nat d).
  Proof. destruct rs; reflexivity. Qed.

  Definition pi_result (val : pn -> tensor T) : iter T :=
    mkI (val (PSh 0)) (val (PSh 1)) (val (PSh 2))
      (ndiv (vnorm (dat (val PE))) (vnorm (dat (val PE1))))
      (nsqrt (ndiv (lsum (map nsq (dat (val PE)))) (nofnat spn)))
      (vadd y (vscale delt (dat (val PE)))).

  Lemma pi_sol_iter val : sol val -> pitf_iter shrink t spl spn delt tao y = Ok (pi_result val) /\
    val PUp = pvec (it_y (pi_result val)) /\
    exists e1 e2, Pomega_tensor spl t spn = Ok e1 /\ Pomega_Pair spl (val (PSh 0)) (val (PSh 1)) (val (PSh 2)) (shp t) spn = Ok e2 /\
      val PE1 = pvec e1 /\ val PE2 = pvec e2.
  Proof.
    intros HS.
    assert (A : forall d, d < 3 -> adjoint_operator spl y (shp t) spn (Z.of_nat d) = Ok (val (PAd d))).
    { intros d Hd. pose proof (HS (PAd d) (nd_up _ (ad_up d Hd))) as E. rewrite pi_ad_reads in E. cbn [g_data pitf_graph map] in E.
      rewrite pi_kernel_ad, slices_same in E. exact E. }
    assert (B : forall d, d < 3 -> exists k s, pynth (shp t) (p_axis d) = Ok k /\ shrink (val (PAd d)) tao (p_mode d) = Ok s /\
                  tf_bin ndiv s (scalar (nsqrt (nofnat k))) = Ok (val (PSh d))).
    { intros d Hd. pose proof (HS (PSh d) (nd_up _ (sh_up d Hd))) as E. cbn [g_kernel g_data g_reads pitf_graph map] in E.
      destruct (pynth (shp t) (p_axis d)) as [k|]; [|discriminate]. cbn [bind] in E.
      destruct (shrink (val (PAd d)) tao (p_mode d)) as [s|] eqn:F; [|discriminate]. exists k, s. auto. }
    pose proof (HS PE1 (nd_up _ e1_up)) as E1. cbn [g_kernel g_data g_reads pitf_graph map] in E1.
    destruct (Pomega_tensor spl t spn) as [e1|] eqn:F1; [|discriminate]. cbn [bind] in E1. injection E1 as E1.
    pose proof (HS PE2 (nd_up _ e2_up)) as E2. cbn [g_kernel g_data g_reads pitf_graph map] in E2.
    destruct (Pomega_Pair spl (val (PSh 0)) (val (PSh 1)) (val (PSh 2)) (shp t) spn) as [e2|] eqn:F2; [|discriminate]. cbn [bind] in E2. injection E2 as E2.
    pose proof (HS PE (nd_up _ e_up)) as E. cbn [g_kernel g_data g_reads pitf_graph map] in E. injection E as E. rewrite <- E1, <- E2 in E. cbn [pvec dat] in E.
    pose proof (HS PNew (nd_up _ new_up)) as En. cbn [g_kernel g_data g_reads pitf_graph map] in En. injection En as En. cbn in En.
    pose proof (HS PUp pi_up) as Eu. cbn [g_kernel g_data g_reads pitf_graph map] in Eu. injection Eu as Eu.
    split; [|split; [rewrite <- Eu; symmetry; exact En|exists e1, e2; auto]].
    unfold pitf_iter, pi_result.
    destruct (B 0 ltac:(lia)) as (k2 & s0 & P2 & S0 & D0). destruct (B 1 ltac:(lia)) as (k0 & s1 & P0 & S1 & D1). destruct (B 2 ltac:(lia)) as (k1 & s2 & P1 & S2 & D2).
    cbn [p_axis p_mode] in *. rewrite P0, P1, P2. cbn [bind].
    pose proof (A 0 ltac:(lia)) as A0. pose proof (A 1 ltac:(lia)) as A1. pose proof (A 2 ltac:(lia)) as A2. cbn [Z.of_nat Pos.of_succ_nat Pos.succ] in *.
    rewrite A0, A1, A2. cbn [bind]. rewrite S0, S1, S2. cbn [bind]. rewrite D0, D1, D2. cbn [bind]. rewrite F1. cbn [bind]. rewrite F2. cbn [bind].
    rewrite <- E, <- E1. cbn [pvec dat]. reflexivity.
  Qed.

  Lemma pi_iter_sol it : pitf_iter shrink t spl spn delt tao y = Ok it -> exists val, sol val.
  Proof.
    unfold pitf_iter. cbv zeta. intros H.
    destruct (pynth (shp t) 0) as [s0|] eqn:P0; [|discriminate]. destruct (pynth (shp t) 1) as [s1|] eqn:P1; [|discriminate].
    destruct (pynth (shp t) 2) as [s2|] eqn:P2; [|discriminate]. cbn [bind] in H.
    destruct (adjoint_operator spl y (shp t) spn 0) as [a0|] eqn:A0; [|discriminate].
    destruct (adjoint_operator spl y (shp t) spn 1) as [a1|] eqn:A1; [|discriminate].
    destruct (adjoint_operator spl y (shp t) spn 2) as [a2|] eqn:A2; [|discriminate]. cbn [bind] in H.
    destruct (shrink a0 tao Complicated) as [X|] eqn:S0; [|discriminate]. destruct (shrink a1 tao Normal) as [Y|] eqn:S1; [|discriminate].
    destruct (shrink a2 tao Normal) as [Z|] eqn:S2; [|discriminate]. cbn [bind] in H.
    destruct (tf_bin ndiv X _) as [X'|] eqn:D0; [|discriminate]. destruct (tf_bin ndiv Y _) as [Y'|] eqn:D1; [|discriminate].
    destruct (tf_bin ndiv Z _) as [Z'|] eqn:D2; [|discriminate]. cbn [bind] in H.
    destruct (Pomega_tensor spl t spn) as [e1|] eqn:F1; [|discriminate]. cbn [bind] in H.
    destruct (Pomega_Pair spl X' Y' Z' (shp t) spn) as [e2|] eqn:F2; [|discriminate]. clear H.
    pose (e := vsub e1 e2).
    exists (fun n => match n with
              | PAd 0 => a0 | PAd 1 => a1 | PAd _ => a2
              | PSh 0 => X' | PSh 1 => Y' | PSh _ => Z'
              | PE1 => pvec e1 | PE2 => pvec e2 | PE => pvec e
              | PErate => pscl (ndiv (vnorm e) (vnorm e1))
              | PLoss => pscl (nsqrt (ndiv (lsum (map nsq e)) (nofnat spn)))
              | PNew | PUp => pvec (vadd y (vscale delt e)) end).
    intros n Hn. apply pi_needed in Hn. destruct n as [k|k| | | | | | |]; cbn in Hn; try reflexivity.
    - rewrite pi_ad_reads. cbn [g_data pitf_graph map]. rewrite pi_kernel_ad, slices_same. destruct k as [|[|[|k]]]; [exact A0|exact A1|exact A2|lia].
    - cbn [g_kernel g_data g_reads pitf_graph map]. destruct k as [|[|[|k]]]; [| | |lia]; cbn [p_axis p_mode].
      + rewrite P2. cbn [bind]. rewrite S0. exact D0.
      + rewrite P0. cbn [bind]. rewrite S1. exact D1.
      + rewrite P1. cbn [bind]. rewrite S2. exact D2.
    - cbn [g_kernel g_data g_reads pitf_graph map]. rewrite F1. reflexivity.
    - cbn [g_kernel g_data g_reads pitf_graph map]. rewrite F2. reflexivity.
  Qed.

  Lemma pi_exec (E : execution g fetch (pitf_vars y)) : finished g E ->
    exists it, pitf_iter shrink t spl spn delt tao y = Ok it /\ length (it_y it) = spn /\
      final g E Vy (pvec (it_y it)) /\ fetched g E PUp (pvec (it_y it)) /\
      (exists e2, Pomega_Pair spl (it_X it) (it_Y it) (it_Z it) (shp t) spn = Ok e2 /\ e_val E PE2 = Ok (pvec e2)) /\
      (fetch = pitf_fetch_all -> e_val E PErate = Ok (pscl (it_erate it)) /\ e_val E PLoss = Ok (pscl (it_loss it))).
  Proof.
    intros HF. destruct (finished_solution g fetch pi_src pi_wr (pitf_vars y) pi_resolved E dum HF) as (val & Hv & HS).
    destruct (pi_sol_iter val HS) as (Ei & Eu & e1 & e2 & F1 & F2 & V1 & V2). exists (pi_result val).
    destruct (Hv PUp pi_up) as (R & Hx). rewrite Eu in Hx.
    split; [exact Ei|]. split; [exact (iter_y_len _ _ _ _ _ _ _ _ Hy Ei)|].
    split; [eapply (final_new g fetch E pi_src pi_wr pi_resolved PUp); [exact R|reflexivity|exact Hx]|].
    split; [eapply (fetched_ok g fetch E pi_src pi_wr pi_resolved); assumption|].
    split. { exists e2. split; [exact F2|]. rewrite <- V2. apply Hv, nd_up, e2_up. }
    intros Hall.
    assert (N1 : nd PErate) by (apply needed_fetch; rewrite Hall; cbn; tauto). assert (N2 : nd PLoss) by (apply needed_fetch; rewrite Hall; cbn; tauto).
    split; [rewrite (proj2 (Hv PErate N1)), <- (HS PErate N1)|rewrite (proj2 (Hv PLoss N2)), <- (HS PLoss N2)]; reflexivity.
  Qed.

  Lemma pi_no_failure it (E : execution g fetch (pitf_vars y)) n : pitf_iter shrink t spl spn delt tao y = Ok it -> e_ran E n -> is_ok (e_val E n).
  Proof.
    intros H R. destruct (pi_iter_sol it H) as (val & HS). exists (val n). eapply (solution_unique g fetch pi_src pi_wr (pitf_vars y) pi_resolved); eauto.
  Qed.

  Lemma pi_exists it : pitf_iter shrink t spl spn delt tao y = Ok it -> exists E : execution g fetch (pitf_vars y), finished g E.
  Proof.
    intros H. destruct (pi_iter_sol it H) as (val & HS). eapply (solution_exists g fetch pi_src pi_wr (pitf_vars y) pi_resolved val pi_rank HS). exact pi_rank_lt.
  Qed.
End Pitf.

Section Sessions.
  Context {T : Type} {NM : Num T}.
  Variables (shrink : tensor T -> T -> shmode -> res (tensor T)) (t : tensor T) (spls : nat -> sample) (spn : nat) (delt tao : T).

  Lemma tf_loop_snoc n : forall (y : list T) j its, tf_loop shrink t spls spn delt tao y j n = (its, None) ->
    forall it, pitf_iter shrink t (spls (j + n)) spn delt tao (it_y (last its (mkI t t t n0 n0 y))) = Ok it ->
    tf_loop shrink t spls spn delt tao y j (S n) = (its ++ [it], None).
  Proof.
    induction n as [|n IH]; intros y j its H it Hi.
    - cbn in H. injection H as <-. cbn [last it_y] in Hi. rewrite Nat.add_0_r in Hi. cbn [tf_loop]. rewrite Hi. reflexivity.
    - cbn [tf_loop] in H. destruct (pitf_iter shrink t (spls j) spn delt tao y) as [i1|] eqn:E1; [|discriminate].
      destruct (tf_loop shrink t spls spn delt tao (it_y i1) (S j) n) as [r x] eqn:E2. injection H as <- ->.
      assert (Hi' : pitf_iter shrink t (spls (S j + n)) spn delt tao (it_y (last r (mkI t t t n0 n0 (it_y i1)))) = Ok it).
      { rewrite <- Hi. f_equal; [f_equal; lia|]. destruct r as [|r0 r] using rev_ind; [reflexivity|]. rewrite app_comm_cons, !last_last. reflexivity. }
      specialize (IH _ _ _ E2 it Hi'). cbn [tf_loop] in IH |- *. rewrite E1. rewrite IH. reflexivity.
  Qed.

  Lemma pitf_session_loop k mem : pitf_session shrink t spls spn delt tao k mem ->
    exists its, tf_loop shrink t spls spn delt tao (repeat n0 spn) 1 k = (its, None) /\
      mem Vy = pvec (it_y (last its (mkI t t t n0 n0 (repeat n0 spn)))) /\ length (it_y (last its (mkI t t t n0 n0 (repeat n0 spn)))) = spn.
  Proof.
    intros H. induction H as [|k mem fetch E mem' H IH Hf (HF & Hv)].
    - exists []. split; [reflexivity|]. split; [reflexivity|]. cbn. apply repeat_length.
    - destruct IH as (its & Hl & Hm & Ly). set (y := it_y (last its (mkI t t t n0 n0 (repeat n0 spn)))) in *.
      assert (Hmem : forall v, mem v = pitf_vars y v) by (intros []; exact Hm).
      destruct (pi_exec shrink t (spls (S k)) spn delt tao fetch Hf y Ly (exec_ext _ _ _ _ Hmem E) (exec_ext_finished _ _ _ _ Hmem E HF)) as (it & Ei & Li & Hfin & _).
      exists (its ++ [it]). split; [apply tf_loop_snoc; [exact Hl|exact Ei]|]. rewrite last_last. split; [|exact Li].
      apply (final_unique _ _ _ E Vy); [apply Hv|]. apply (exec_ext_final _ _ _ _ Hmem E), Hfin.
  Qed.
End Sessions.

Section Whole.
  Context {T : Type} {NM : Num T}.

  Lemma tf_loop_prefix shrink (t : tensor T) spls spn delt tao n : forall (y : list T) j its,
    tf_loop shrink t spls spn delt tao y j (S n) = (its, None) ->
    exists its' it, its = its' ++ [it] /\ tf_loop shrink t spls spn delt tao y j n = (its', None) /\
      pitf_iter shrink t (spls (j + n)) spn delt tao (it_y (last its' (mkI t t t n0 n0 y))) = Ok it.
  Proof.
    induction n as [|n IH]; intros y j its H.
    - cbn [tf_loop] in H. destruct (pitf_iter shrink t (spls j) spn delt tao y) as [it|] eqn:E; [|discriminate]. injection H as <-.
      exists [], it. rewrite Nat.add_0_r. cbn [tf_loop last it_y]. auto.
    - cbn [tf_loop] in H. destruct (pitf_iter shrink t (spls j) spn delt tao y) as [i1|] eqn:E; [|discriminate].
      change (match pitf_iter shrink t (spls (S j)) spn delt tao (it_y i1) with
              | Ok it => let (r, x) := tf_loop shrink t spls spn delt tao (it_y it) (S (S j)) n in (it :: r, x)
              | Raise e => ([], Some e) end) with (tf_loop shrink t spls spn delt tao (it_y i1) (S j) (S n)) in H.
      destruct (tf_loop shrink t spls spn delt tao (it_y i1) (S j) (S n)) as [r x] eqn:E2. injection H as <- ->.
      destruct (IH _ _ _ E2) as (its' & it & -> & Hl & Hi). exists (i1 :: its'), it. split; [reflexivity|].
      split; [cbn [tf_loop]; rewrite E, Hl; reflexivity|].
      rewrite <- Hi. f_equal; [f_equal; lia|]. destruct its' as [|r0 r] using rev_ind; [reflexivity|]. rewrite app_comm_cons, !last_last. reflexivity.
  Qed.

  Lemma pitf_session_exists shrink (t : tensor T) spls spn delt tao k its : tf_loop shrink t spls spn delt tao (repeat n0 spn) 1 k = (its, None) ->
    exists mem, pitf_session shrink t spls spn delt tao k mem.
  Proof.
    revert its. induction k as [|k IH]; intros its H; [eexists; constructor|].
    destruct (tf_loop_prefix _ _ _ _ _ _ _ _ _ _ H) as (its' & it & -> & Hl & Hi). destruct (IH _ Hl) as (mem & HS).
    destruct (pitf_session_loop _ _ _ _ _ _ _ _ HS) as (its2 & Hl2 & Hm & Ly). rewrite Hl in Hl2. injection Hl2 as <-.
    set (y := it_y (last its' (mkI t t t n0 n0 (repeat n0 spn)))) in *.
    assert (Hmem : forall v, pitf_vars y v = mem v) by (intros []; symmetry; exact Hm).
    destruct (pi_exists shrink t (spls (S k)) spn delt tao pitf_fetch_up (or_intror eq_refl) y Ly it Hi) as (E & HF).
    destruct (pi_exec shrink t (spls (S k)) spn delt tao pitf_fetch_up (or_intror eq_refl) y Ly E HF) as (it' & _ & _ & Hfin & _).
    exists (fun _ => pvec (it_y it')). eapply (pis_step _ _ _ _ _ _ k mem pitf_fetch_up (exec_ext _ _ _ _ Hmem E)); [exact HS|auto|].
    apply leaves_ext. split; [exact HF|]. intros []. exact Hfin.
  Qed.

  (** training as the session runs carry it out *)
  Lemma pitf_session_train svd (t : tensor T) spls delt0 tao0 spn vi steps o mem : (0 < steps)%Z -> (vi <> 0 \/ steps <= 2)%Z ->
    pitf_session (shrink_tf svd) t spls spn (pitf_delt delt0 spn (shp t)) (pitf_tao tao0 (shp t)) (Z.to_nat steps) mem ->
    exists o' y, pitf_train svd t spls delt0 tao0 spn vi steps o = (o', Ok tt) /\ po_vec o' = Some y /\ mem Vy = pvec y.
  Proof.
    intros Hs Hv H. destruct (pitf_session_loop _ _ _ _ _ _ _ _ H) as (its & Hl & Hm & _).
    unfold pitf_train. replace ((vi =? 0) && (2 <? steps))%Z%bool with false by (destruct (Z.eqb_spec vi 0), (Z.ltb_spec 2 steps); cbn; lia || reflexivity).
    rewrite Hl. destruct (Z.leb_spec steps 0); [lia|].
    destruct (Z.to_nat steps) as [|n] eqn:En; [lia|]. destruct (tf_loop_prefix _ _ _ _ _ _ _ _ _ _ Hl) as (its' & it & -> & _ & _).
    rewrite last_last in Hm. rewrite rev_app_distr. cbn [rev app]. eexists _, (it_y it). split; [reflexivity|]. split; [reflexivity|exact Hm].
  Qed.

  Lemma pitf_train_session svd (t : tensor T) spls delt0 tao0 spn vi steps o o' :
    pitf_train svd t spls delt0 tao0 spn vi steps o = (o', Ok tt) ->
    exists mem, pitf_session (shrink_tf svd) t spls spn (pitf_delt delt0 spn (shp t)) (pitf_tao tao0 (shp t)) (Z.to_nat steps) mem.
  Proof.
    unfold pitf_train. destruct ((vi =? 0) && (2 <? steps))%Z%bool eqn:Ec.
    - destruct (tf_loop _ _ _ _ _ _ _ _ _) as [its [e|]]; discriminate.
    - destruct (tf_loop _ _ _ _ _ _ _ _ _) as [its [e|]] eqn:El; [discriminate|]. intros _. eapply pitf_session_exists. exact El.
  Qed.
End Whole.
