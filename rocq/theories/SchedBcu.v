(** The update groups train_op1, train_op2 and other_init_op: every execution has the same effect. *)

From Coq Require Import ZArith List Bool Arith Relations Lia.
From Verif Require Import Num Py Tensor TensorFacts TF Ops Types Loss Fact TFFacts LayoutFacts TrainLemmas BcuFacts Sched SchedFacts Graphs SchedLists SchedNt.
Import ListNotations.

(** ** train_op1 *)
Section Accept.
  Context {T : Type} {NM : Num T}.
  Variables (order k : nat).
  Hypotheses (Ho : 0 < order) (Hk : order <= k).
  Notation g := (accept_graph (T := T) order).
  Notation nd := (needed g (accept_fetch k)).
  Notation dum := (mkT [] [] : tensor T).

  Definition ac_dom (n : acn) : Prop := match n with EwA m | EAm m | EA0 m => m < k | _ => True end.
  Definition ac_src (n : acn) (v : var) : option acn := match n, v with EAm m, Vw _ => Some (EwA m) | _, _ => None end.
  Definition ac_wr (v : var) : option acn :=
    match v with
    | Vw i => if i <? k then Some (EwA i) else None
    | VAm i => if i <? k then Some (EAm i) else None
    | VA0 i => if i <? k then Some (EA0 i) else None
    | Vt0 => Some ET0
    | _ => None end.
  Definition ac_rank (n : acn) : nat := match n with EW => 0 | EwA _ => 1 | EAm _ => 2 | _ => 3 end.

  Lemma ac_prec_dom n d : ac_dom n -> prec g d n -> ac_dom d.
  Proof. intros Hn H. destruct n; crack; cbn in *; try lia; exact I. Qed.
  Lemma ac_needed n : nd n -> ac_dom n.
  Proof. apply needed_in; [|exact ac_prec_dom]. intros f H. unfold accept_fetch in H. crack; cbn; try lia; exact I. Qed.
  Lemma ac_rank_lt d n : nd n -> prec g d n -> ac_rank d < ac_rank n.
  Proof. intros Hn H. apply ac_needed in Hn. destruct n; crack; cbn in *; lia. Qed.

  Lemma ew_am m : before g (EwA m) (EAm m).
  Proof. eapply (before_read g (EwA m) (EAm m) (Vw m)); [right; left; reflexivity|left; reflexivity]. Qed.
  Lemma am_a0 m : before g (EAm m) (EA0 m).
  Proof. apply before_ctrl. left. reflexivity. Qed.
  Lemma w_t0 : before g EW ET0.
  Proof.
    eapply before_trans; [|apply (before_ctrl g (EAm (order - 1))); left; reflexivity].
    eapply before_trans; [|apply ew_am]. apply before_data. left. reflexivity.
  Qed.

  Lemma ac_dom_needed n : ac_dom n -> nd n.
  Proof.
    assert (F : forall n, In n (accept_fetch k) -> nd n) by (intros; apply needed_fetch; assumption).
    intros H. unfold accept_fetch in F. destruct n; cbn in H.
    - apply (needed_before g _ ET0); [apply F; rewrite !in_app_iff; cbn; tauto|apply w_t0].
    - apply F. rewrite !in_app_iff. left. apply in_map, in_seq. lia.
    - apply F. rewrite !in_app_iff. right. left. apply in_map, in_seq. lia.
    - apply F. rewrite !in_app_iff. right. right. left. apply in_map, in_seq. lia.
    - apply F. rewrite !in_app_iff. cbn. tauto.
  Qed.

  Lemma ac_resolved : resolved g (accept_fetch k) ac_src ac_wr.
  Proof.
    split.
    - intros w v Hw W. apply ac_needed in Hw. destruct w; cbn in W; try discriminate; injection W as <-; cbn in *; try reflexivity; destruct (Nat.ltb_spec m k); reflexivity || lia.
    - intros w v H. destruct v; cbn in H; try discriminate;
        try (destruct (Nat.ltb_spec i k) as [Hi|]; [|discriminate H]); injection H as <-; (split; [apply ac_dom_needed; cbn; try exact I; lia|reflexivity]).
    - intros n v l w Hn I Hs. destruct n; cbn in I; try (crack; fail).
      destruct I as [I|[I|[I|[I|[]]]]]; injection I as <- <-; try discriminate Hs. cbn in Hs. injection Hs as <-. split; [reflexivity|]. eexists. split; [left; reflexivity|left; reflexivity].
    - intros n v l w Hn I Hs Hw W. destruct n; cbn in I.
      + destruct I as [I|[I|[]]]; injection I as <- <-; destruct w; cbn in W; try discriminate. right. apply w_t0.
      + destruct I as [I|[I|[]]]; injection I as <- <-; destruct w; cbn in W; discriminate.
      + destruct I as [I|[I|[I|[I|[]]]]]; injection I as <- <-; try discriminate Hs; destruct w; cbn in W; try discriminate. injection W as ->. right. apply am_a0.
      + destruct I as [I|[]]; injection I as <- <-; destruct w; cbn in W; discriminate.
      + destruct I as [I|[]]; injection I as <- <-; destruct w; cbn in W; discriminate.
  Qed.

  Variable mem : var -> tensor T.
  Notation sol := (solution g (accept_fetch k) ac_src mem).

  Definition ac_w (m : nat) : T :=
    nmin (ndiv (nsub (unscl (mem Vt0)) n1) (unscl (mem Vt))) (nsqrt (ndiv (unscl (mem (VL0 m))) (unscl (mem (VL m))))).
  Definition ac_new (am : nat -> tensor T) (v : var) : tensor T :=
    match v with
    | Vw m => if m <? k then scl (ac_w m) else mem v
    | VAm m => if m <? k then am m else mem v
    | VA0 m => if m <? k then mem (VA m) else mem v
    | Vt0 => mem Vt
    | _ => mem v end.

  Lemma ac_exec (E : execution g (accept_fetch k) mem) : finished g E ->
    exists am, (forall m, m < k -> extrapolate (ac_w m) (mem (VA m)) (mem (VA0 m)) = Ok (am m)) /\ forall v, final g E v (ac_new am v).
  Proof.
    intros HF. destruct (finished_solution g (accept_fetch k) ac_src ac_wr mem ac_resolved E dum HF) as (val & Hv & HS).
    assert (Hnew : forall n v, ac_dom n -> g_writes g n = Some v -> final g E v (val n)).
    { intros n v Hn W. destruct (Hv n (ac_dom_needed n Hn)) as (R & Hx). eapply (final_new g (accept_fetch k) E ac_src ac_wr ac_resolved n); [exact R|exact W|exact Hx]. }
    assert (Hw : val EW = scl (ndiv (nsub (unscl (mem Vt0)) n1) (unscl (mem Vt)))).
    { pose proof (HS EW (ac_dom_needed EW I)) as E1. cbn in E1. injection E1 as E1. symmetry. exact E1. }
    assert (HwA : forall m, m < k -> val (EwA m) = scl (ac_w m)).
    { intros m Hm. pose proof (HS (EwA m) (ac_dom_needed (EwA m) Hm)) as E1. cbn in E1. injection E1 as E1. rewrite <- E1, Hw. reflexivity. }
    exists (fun m => val (EAm m)). split.
    - intros m Hm. pose proof (HS (EAm m) (ac_dom_needed (EAm m) Hm)) as E1. cbn [g_kernel g_data g_reads accept_graph map fst] in E1. unfold seen in E1. cbn [ac_src] in E1.
      rewrite HwA in E1 by exact Hm. exact E1.
    - intros v. destruct v as [i|i|i| | |i|i|i| |]; cbn [ac_new]; try (apply (final_old g (accept_fetch k) E); intros w _ W; destruct w; discriminate W).
      + destruct (Nat.ltb_spec i k) as [Hi|Hi]; [apply (Hnew (EAm i)); [exact Hi|reflexivity]|].
        apply (final_old g (accept_fetch k) E). intros w Hn W. apply ac_needed in Hn. destruct w; try discriminate W. injection W as ->. cbn in Hn. lia.
      + destruct (Nat.ltb_spec i k) as [Hi|Hi].
        * replace (mem (VA i)) with (val (EA0 i)); [apply (Hnew (EA0 i)); [exact Hi|reflexivity]|]. pose proof (HS (EA0 i) (ac_dom_needed (EA0 i) Hi)) as E1. cbn in E1. injection E1 as E1. symmetry. exact E1.
        * apply (final_old g (accept_fetch k) E). intros w Hn W. apply ac_needed in Hn. destruct w; try discriminate W. injection W as ->. cbn in Hn. lia.
      + replace (mem Vt) with (val ET0); [apply (Hnew ET0); [exact I|reflexivity]|]. pose proof (HS ET0 (ac_dom_needed ET0 I)) as E1. cbn in E1. injection E1 as E1. symmetry. exact E1.
      + destruct (Nat.ltb_spec i k) as [Hi|Hi]; [rewrite <- HwA by exact Hi; apply (Hnew (EwA i)); [exact Hi|reflexivity]|].
        apply (final_old g (accept_fetch k) E). intros w Hn W. apply ac_needed in Hn. destruct w; try discriminate W. injection W as ->. cbn in Hn. lia.
  Qed.

  Lemma ac_sol am : (forall m, m < k -> extrapolate (ac_w m) (mem (VA m)) (mem (VA0 m)) = Ok (am m)) -> exists val, sol val.
  Proof.
    intros H. exists (fun n => match n with EW => scl (ndiv (nsub (unscl (mem Vt0)) n1) (unscl (mem Vt))) | EwA m => scl (ac_w m) | EAm m => am m | EA0 m => mem (VA m) | ET0 => mem Vt end).
    intros n Hn. apply ac_needed in Hn. destruct n; try reflexivity. apply (H m Hn).
  Qed.

  Lemma ac_no_failure am (E : execution g (accept_fetch k) mem) n :
    (forall m, m < k -> extrapolate (ac_w m) (mem (VA m)) (mem (VA0 m)) = Ok (am m)) -> e_ran E n -> is_ok (e_val E n).
  Proof.
    intros H R. destruct (ac_sol am H) as (val & HS). exists (val n). eapply (solution_unique g (accept_fetch k) ac_src ac_wr mem ac_resolved); eauto.
  Qed.
  Lemma ac_exists am : (forall m, m < k -> extrapolate (ac_w m) (mem (VA m)) (mem (VA0 m)) = Ok (am m)) -> exists E : execution g (accept_fetch k) mem, finished g E.
  Proof.
    intros H. destruct (ac_sol am H) as (val & HS). eapply (solution_exists g (accept_fetch k) ac_src ac_wr mem ac_resolved val ac_rank HS). exact ac_rank_lt.
  Qed.
End Accept.

Section AcceptState.
  Context {T : Type} {NM : Num T}.
  Notation dum := (mkT [] [] : tensor T).

  Lemma map3M_build {A B C D} (f : A -> B -> C -> res D) a b c (h : nat -> D) da db dc : length b = length a -> length c = length a ->
    (forall m, m < length a -> f (nth m a da) (nth m b db) (nth m c dc) = Ok (h m)) -> map3M f a b c = Ok (map h (seq 0 (length a))).
  Proof.
    intros Hb Hc H. unfold map3M. set (L := combine (combine a b) c). assert (LL : length L = length a) by (unfold L; rewrite !combine_length; lia).
    rewrite <- (map_nth_seq L (da, db, dc)), LL, mapM_map. apply mapM_ok. intros m Hm. apply in_seq in Hm. unfold L. rewrite !combine_nth by (rewrite ?combine_length; lia). cbn [fst snd]. apply H. lia.
  Qed.

  Lemma nth_map_lt {B C} (f : B -> C) l i d d' : i < length l -> nth i (map f l) d' = f (nth i l d).
  Proof. intros H. rewrite (nth_indep _ _ (f d)) by (rewrite map_length; exact H). apply map_nth. Qed.

  Lemma weights_nth t0 t L0 L m : length L0 = length L -> m < length L -> nth m (weights t0 t L0 L) n0 = nmin (ndiv (nsub t0 n1) t) (nsqrt (ndiv (nth m L0 n0) (nth m L n0))).
  Proof.
    intros H Hm. unfold weights. rewrite (nth_map_lt _ _ m (n0, n0)) by (rewrite combine_length; lia). rewrite combine_nth by exact H. reflexivity.
  Qed.
  Lemma weights_length t0 t L0 L : length L0 = length L -> length (weights (T := T) t0 t L0 L) = length L.
  Proof. intros H. unfold weights. rewrite map_length, combine_length. lia. Qed.

  Lemma nth_firstn {B} (l : list B) m j d : j < m -> nth j (firstn m l) d = nth j l d.
  Proof. revert m j. induction l as [|a l IH]; intros [|m] [|j] H; try reflexivity; try lia. cbn. apply IH. lia. Qed.

  Lemma cut_ltb {B} (l : list B) n i d x : length l = n -> (i < n -> x = nth i l d) -> (if i <? n then x else nth i l d) = nth i l d.
  Proof. intros H Hx. destruct (Nat.ltb_spec i n); auto. Qed.

  (** NCP_BCU *)
  Lemma ncp_accept_exec (N : nat) (s : ncp_state T) : 0 < N -> ncp_sized N s ->
    forall E : execution (accept_graph N) (accept_fetch N) (ncp_vars s), finished _ E ->
    exists s', ncp_accept s = Ok s' /\ forall v, final _ E v (ncp_vars s' v).
  Proof.
    intros HN (HA & HAm & HA0 & Hw & HL & HL0) E HF. destruct (ac_exec N N HN (le_n N) (ncp_vars s) E HF) as (am & Ham & Hf).
    unfold ncp_accept. set (ws := weights (n_t0 s) (n_t s) (n_L0 s) (n_L s)).
    assert (Lw : length ws = N) by (unfold ws; rewrite weights_length; congruence).
    assert (Ew : forall m, m < N -> nth m ws n0 = ac_w (ncp_vars s) m) by (intros m Hm; unfold ws; rewrite weights_nth by lia; reflexivity).
    rewrite (map3M_build extrapolate ws (n_A s) (n_A0 s) am n0 dum dum); [|lia|lia|]; [|intros m Hm; rewrite Ew by lia; apply Ham; lia].
    cbn [bind]. eexists. split; [reflexivity|]. intros v. specialize (Hf v). rewrite Lw.
    destruct v as [i|i|i| | |i|i|i| |]; cbn [ncp_vars n_A n_Am n_A0 n_t n_t0 n_w n_L n_L0 ac_new] in *; try exact Hf.
    - destruct (Nat.ltb_spec i N) as [Hi|Hi]; [rewrite nth_map_seq by exact Hi; exact Hf|]. rewrite nth_overflow in Hf by lia. rewrite nth_overflow by (rewrite map_length, seq_length; lia). exact Hf.
    - destruct (Nat.ltb_spec i N) as [Hi|Hi]; [exact Hf|]. rewrite nth_overflow in Hf by lia. rewrite nth_overflow by lia. exact Hf.
    - destruct (Nat.ltb_spec i N) as [Hi|Hi]; [rewrite Ew by exact Hi; exact Hf|]. rewrite nth_overflow in Hf by lia. rewrite nth_overflow by lia. exact Hf.
  Qed.

  Lemma ncp_accept_am (N : nat) (s s' : ncp_state T) : ncp_sized N s -> ncp_accept s = Ok s' ->
    exists am, forall m, m < N -> extrapolate (ac_w (ncp_vars s) m) (ncp_vars s (VA m)) (ncp_vars s (VA0 m)) = Ok (am m).
  Proof.
    intros (HA & HAm & HA0 & Hw & HL & HL0) H. unfold ncp_accept in H. set (ws := weights (n_t0 s) (n_t s) (n_L0 s) (n_L s)) in *.
    assert (Lw : length ws = N) by (unfold ws; rewrite weights_length; congruence).
    destruct (map3M extrapolate ws (n_A s) (n_A0 s)) as [l|] eqn:El; [|discriminate].
    destruct (map3M_nth extrapolate _ _ _ _ n0 dum dum dum El ltac:(congruence) ltac:(congruence)) as (Ll & Hl).
    exists (fun m => nth m l dum). intros m Hm. rewrite <- (Hl m) by lia. cbn. f_equal. unfold ws. rewrite weights_nth by lia. reflexivity.
  Qed.

  Lemma ncp_accept_no_failure (N : nat) (s s' : ncp_state T) : 0 < N -> ncp_sized N s -> ncp_accept s = Ok s' ->
    forall (E : execution (accept_graph N) (accept_fetch N) (ncp_vars s)) n, e_ran E n -> is_ok (e_val E n).
  Proof. intros HN HS H E n R. destruct (ncp_accept_am N s s' HS H) as (am & Ham). exact (ac_no_failure N N HN (le_n N) (ncp_vars s) am E n Ham R). Qed.
  Lemma ncp_accept_exists (N : nat) (s s' : ncp_state T) : 0 < N -> ncp_sized N s -> ncp_accept s = Ok s' ->
    exists E : execution (accept_graph N) (accept_fetch N) (ncp_vars s), finished _ E.
  Proof. intros HN HS H. destruct (ncp_accept_am N s s' HS H) as (am & Ham). exact (ac_exists N N HN (le_n N) (ncp_vars s) am Ham). Qed.

  (** NTUCKER_BCU *)
  Lemma nt_accept_exec (N : nat) (s : nt_state T) mem : 0 < N -> nt_sized N s -> nt_mem s mem ->
    forall E : execution (accept_graph N) (accept_fetch (N + 1)) mem, finished _ E ->
    exists s', nt_accept s = Ok s' /\ forall v, v <> VBsq -> v <> VGrad -> final _ E v (nt_vars s' v).
  Proof.
    intros HN (HA & HAm & HA0 & Hw & HL & HL0) Hmem E HF. destruct (ac_exec N (N + 1) HN ltac:(lia) mem E HF) as (am & Ham & Hf).
    assert (Mw : forall m, ac_w mem m = ac_w (nt_vars s) m) by (intros m; unfold ac_w; rewrite !Hmem by discriminate; reflexivity).
    unfold nt_accept. set (ws := weights (q_t0 s) (q_t s) (q_L0 s) (q_L s)).
    assert (Lw : length ws = N + 1) by (unfold ws; rewrite weights_length; congruence).
    assert (Ew : forall m, m < N + 1 -> nth m ws n0 = ac_w mem m) by (intros m Hm; rewrite Mw; unfold ws; rewrite weights_nth by lia; reflexivity).
    assert (Ham' : forall m, m < N -> extrapolate (nth m ws n0) (nth m (q_A s) dum) (nth m (q_A0 s) dum) = Ok (am m)).
    { intros m Hm. rewrite Ew, <- Ham by lia. rewrite !Hmem by discriminate. cbn. rewrite !nth_snoc, HA, HA0. destruct (Nat.eqb_spec m N); [lia|reflexivity]. }
    assert (Hgm : extrapolate (nth N ws n0) (q_g s) (q_g0 s) = Ok (am N)).
    { rewrite Ew, <- Ham by lia. rewrite !Hmem by discriminate. cbn. rewrite !nth_snoc, HA, HA0, Nat.eqb_refl. reflexivity. }
    assert (Lf : length (firstn (length (q_A s)) ws) = N) by (rewrite firstn_length, HA, Lw; lia).
    rewrite (map3M_build extrapolate (firstn (length (q_A s)) ws) (q_A s) (q_A0 s) am n0 dum dum); [|lia|lia|]; [|intros m Hm; rewrite nth_firstn by lia; apply Ham'; lia].
    cbn [bind]. rewrite HA, Hgm. cbn [bind]. eexists. split; [reflexivity|]. intros v H1 H2. specialize (Hf v). rewrite HA in Lf. rewrite Lf.
    assert (Hc : forall v (m : nat), v <> VBsq -> v <> VGrad -> N + 1 <= m -> mem v = nt_vars s v) by (intros; apply Hmem; assumption).
    destruct v as [i|i|i| | |i|i|i| |]; try congruence; cbn [nt_vars q_A q_Am q_A0 q_g q_gm q_g0 q_t q_t0 q_w q_L q_L0 ac_new] in *; try (rewrite Hmem in Hf by discriminate; exact Hf).
    - rewrite nth_snoc, map_length, seq_length. destruct (Nat.ltb_spec i (N + 1)) as [Hi|Hi].
      + destruct (Nat.eqb_spec i N) as [->|]; [exact Hf|]. rewrite nth_map_seq by lia. exact Hf.
      + destruct (Nat.eqb_spec i N); [lia|]. rewrite Hmem in Hf by discriminate. cbn in Hf. rewrite nth_overflow in Hf by (rewrite app_length; cbn; lia). rewrite nth_overflow by (rewrite map_length, seq_length; lia). exact Hf.
    - destruct (Nat.ltb_spec i (N + 1)) as [Hi|Hi]; rewrite Hmem in Hf by discriminate; [exact Hf|]. cbn in Hf. rewrite nth_overflow in Hf by (rewrite app_length; cbn; lia). rewrite nth_overflow by (rewrite app_length; cbn; lia). exact Hf.
    - destruct (Nat.ltb_spec i (N + 1)) as [Hi|Hi]; [rewrite Ew by exact Hi; exact Hf|]. rewrite Hmem in Hf by discriminate. cbn in Hf. rewrite nth_overflow in Hf by lia. rewrite nth_overflow by lia. exact Hf.
  Qed.

  Lemma nt_accept_am (N : nat) (s s' : nt_state T) mem : nt_sized N s -> nt_mem s mem -> nt_accept s = Ok s' ->
    exists am, forall m, m < N + 1 -> extrapolate (ac_w mem m) (mem (VA m)) (mem (VA0 m)) = Ok (am m).
  Proof.
    intros (HA & HAm & HA0 & Hw & HL & HL0) Hmem H. unfold nt_accept in H. set (ws := weights (q_t0 s) (q_t s) (q_L0 s) (q_L s)) in *.
    assert (Mw : forall m, ac_w mem m = ac_w (nt_vars s) m) by (intros m; unfold ac_w; rewrite !Hmem by discriminate; reflexivity).
    assert (Lw : length ws = N + 1) by (unfold ws; rewrite weights_length; congruence).
    assert (Ew : forall m, m < N + 1 -> nth m ws n0 = ac_w mem m) by (intros m Hm; rewrite Mw; unfold ws; rewrite weights_nth by lia; reflexivity).
    destruct (map3M extrapolate (firstn (length (q_A s)) ws) (q_A s) (q_A0 s)) as [l|] eqn:El; [|discriminate]. cbn [bind] in H.
    destruct (extrapolate (nth (length (q_A s)) ws n0) (q_g s) (q_g0 s)) as [gm|] eqn:Eg; [|discriminate].
    assert (Lf : length (firstn (length (q_A s)) ws) = N) by (rewrite firstn_length, HA, Lw; lia).
    destruct (map3M_nth extrapolate _ _ _ _ n0 dum dum dum El ltac:(congruence) ltac:(congruence)) as (Ll & Hl).
    exists (fun m => if m =? N then gm else nth m l dum). intros m Hm. rewrite !(Hmem (VA m)), !(Hmem (VA0 m)) by discriminate. cbn. rewrite !nth_snoc, HA, HA0, <- Ew by exact Hm.
    destruct (Nat.eqb_spec m N) as [->|Hne]; [rewrite HA in Eg; exact Eg|]. rewrite <- (Hl m) by lia. rewrite nth_firstn by lia. reflexivity.
  Qed.

  Lemma nt_accept_no_failure (N : nat) (s s' : nt_state T) mem : 0 < N -> nt_sized N s -> nt_mem s mem -> nt_accept s = Ok s' ->
    forall (E : execution (accept_graph N) (accept_fetch (N + 1)) mem) n, e_ran E n -> is_ok (e_val E n).
  Proof. intros HN HS HM H E n R. destruct (nt_accept_am N s s' mem HS HM H) as (am & Ham). exact (ac_no_failure N (N + 1) HN ltac:(lia) mem am E n Ham R). Qed.
  Lemma nt_accept_exists (N : nat) (s s' : nt_state T) mem : 0 < N -> nt_sized N s -> nt_mem s mem -> nt_accept s = Ok s' ->
    exists E : execution (accept_graph N) (accept_fetch (N + 1)) mem, finished _ E.
  Proof. intros HN HS HM H. destruct (nt_accept_am N s s' mem HS HM H) as (am & Ham). exact (ac_exists N (N + 1) HN ltac:(lia) mem am Ham). Qed.
End AcceptState.

(** ** train_op2 *)
Section Reject.
  Context {T : Type} {NM : Num T}.
  Variables (k : nat) (mem : var -> tensor T).
  Notation g := (reject_graph (T := T)).
  Notation dum := (mkT [] [] : tensor T).

  Definition rj_wr (v : var) : option nat := match v with VAm i => if i <? k then Some i else None | _ => None end.

  Lemma rj_needed n : needed g (reject_fetch k) n <-> n < k.
  Proof.
    split; [|intros H; apply needed_fetch, in_seq; lia]. apply (needed_in g (reject_fetch k) (fun n => n < k)).
    - intros f H. apply in_seq in H. lia.
    - intros m d _ H. destruct H as [[]|[[]|(v & l & [H|[]] & H')]]. injection H as <- <-. destruct H'.
  Qed.

  Lemma rj_resolved : resolved g (reject_fetch k) (fun _ _ => None) rj_wr.
  Proof.
    split.
    - intros w v Hw W. apply rj_needed in Hw. cbn in W. injection W as <-. cbn. destruct (Nat.ltb_spec w k); [reflexivity|lia].
    - intros w v H. destruct v; cbn in H; try discriminate. destruct (Nat.ltb_spec i k); [|discriminate]. injection H as <-. split; [apply rj_needed; assumption|reflexivity].
    - discriminate.
    - intros n v l w _ [I|[]] _ _ W. injection I as <- <-. discriminate W.
  Qed.

  Definition rj_new (v : var) : tensor T := match v with VAm m => if m <? k then mem (VA0 m) else mem v | _ => mem v end.

  Lemma rj_sol : solution g (reject_fetch k) (fun _ _ => None) mem (fun m => mem (VA0 m)).
  Proof. intros n _. reflexivity. Qed.

  Lemma rj_exec (E : execution g (reject_fetch k) mem) : finished g E -> forall v, final g E v (rj_new v).
  Proof.
    intros HF v.
    assert (Hold : (forall w, w < k -> g_writes g w <> Some v) -> final g E v (mem v)) by (intros H; apply (final_old g (reject_fetch k) E); intros w Hw; apply H, rj_needed, Hw).
    destruct v as [i|i|i| | |i|i|i| |]; cbn [rj_new]; try (apply Hold; discriminate).
    destruct (Nat.ltb_spec i k) as [Hi|Hi].
    - assert (Hn : needed g (reject_fetch k) i) by (apply rj_needed, Hi). destruct (HF i Hn) as (R & _).
      eapply (final_new g (reject_fetch k) E (fun _ _ => None) rj_wr rj_resolved i); [exact R|reflexivity|].
      exact (solution_unique g (reject_fetch k) (fun _ _ => None) rj_wr mem rj_resolved _ E rj_sol i R).
    - apply Hold. intros w Hw W. cbn in W. injection W as ->. lia.
  Qed.

  Lemma rj_no_failure (E : execution g (reject_fetch k) mem) n : e_ran E n -> is_ok (e_val E n).
  Proof. intros R. eexists. exact (solution_unique g (reject_fetch k) (fun _ _ => None) rj_wr mem rj_resolved _ E rj_sol n R). Qed.

  Lemma rj_exists : exists E : execution g (reject_fetch k) mem, finished g E.
  Proof.
    eapply (solution_exists g (reject_fetch k) (fun _ _ => None) rj_wr mem rj_resolved _ (fun _ => 0) rj_sol).
    intros d n _ H. destruct H as [[]|[[]|(v & l & [H|[]] & H')]]. injection H as <- <-. destruct H'.
  Qed.
End Reject.

Section RejectState.
  Context {T : Type} {NM : Num T}.

  Lemma ncp_reject_exec (N : nat) (s : ncp_state T) : ncp_sized N s ->
    forall E : execution reject_graph (reject_fetch N) (ncp_vars s), finished _ E -> forall v, final _ E v (ncp_vars (ncp_reject s) v).
  Proof.
    intros (HA & HAm & HA0 & _) E HF v. pose proof (rj_exec N (ncp_vars s) E HF v) as H.
    destruct v as [i|i|i| | |i|i|i| |]; cbn [ncp_vars n_A n_Am n_A0 n_t n_t0 n_w n_L n_L0 rj_new ncp_reject] in *; try exact H.
    destruct (Nat.ltb_spec i N) as [Hi|Hi]; [exact H|]. rewrite nth_overflow in H by lia. rewrite nth_overflow by lia. exact H.
  Qed.

  Lemma nt_reject_exec (N : nat) (s : nt_state T) mem : nt_sized N s -> nt_mem s mem ->
    forall E : execution reject_graph (reject_fetch (N + 1)) mem, finished _ E -> forall v, v <> VBsq -> v <> VGrad -> final _ E v (nt_vars (nt_reject s) v).
  Proof.
    intros (HA & HAm & HA0 & _) Hmem E HF v H1 H2. pose proof (rj_exec (N + 1) mem E HF v) as H.
    destruct v as [i|i|i| | |i|i|i| |]; try congruence; cbn [nt_vars q_A q_Am q_A0 q_g q_gm q_g0 q_t q_t0 q_w q_L q_L0 rj_new nt_reject] in *; try (rewrite Hmem in H by discriminate; exact H).
    destruct (Nat.ltb_spec i (N + 1)) as [Hi|Hi]; rewrite Hmem in H by discriminate; [exact H|]. cbn in H. rewrite nth_overflow in H by (rewrite app_length; cbn; lia). rewrite nth_overflow by (rewrite app_length; cbn; lia). exact H.
  Qed.
End RejectState.

(** ** other_init_op *)
Section Init.
  Context {T : Type} {NM : Num T}.
  Variables (pow : T -> T -> T) (X : tensor T) (k : nat) (mem : var -> tensor T).
  Notation g := (init_graph pow X k).

  Definition it_dom (n : inn) : Prop := match n with IA m | IA0 m | IAm m => m < k end.
  Definition it_src (n : inn) (v : var) : option inn := match n with IA _ => None | IA0 m | IAm m => Some (IA m) end.
  Definition it_wr (v : var) : option inn :=
    match v with
    | VA i => if i <? k then Some (IA i) else None
    | VA0 i => if i <? k then Some (IA0 i) else None
    | VAm i => if i <? k then Some (IAm i) else None
    | _ => None end.
  Definition it_rank (n : inn) : nat := match n with IA _ => 0 | _ => 1 end.

  Lemma it_prec n d : prec g d n -> exists m, (n = IA0 m \/ n = IAm m) /\ d = IA m.
  Proof. intros H. destruct n; crack; eauto. Qed.

  Lemma it_needed n : needed g (init_fetch k) n <-> it_dom n.
  Proof.
    split.
    - apply (needed_in g (init_fetch k) it_dom).
      + intros f H. unfold init_fetch in H. crack; cbn; lia.
      + intros m d Hm H. apply it_prec in H. destruct H as (j & [->| ->] & ->); exact Hm.
    - intros H. apply needed_fetch. unfold init_fetch. rewrite !in_app_iff. destruct n; cbn in H; [left|right; right|right; left]; apply in_map, in_seq; lia.
  Qed.

  Lemma it_resolved : resolved g (init_fetch k) it_src it_wr.
  Proof.
    split.
    - intros w v Hw W. apply it_needed in Hw. destruct w; cbn in *; injection W as <-; cbn; destruct (Nat.ltb_spec m k); reflexivity || lia.
    - intros w v H. destruct v; cbn in H; try discriminate; destruct (Nat.ltb_spec i k); try discriminate H; injection H as <-; (split; [apply it_needed; assumption|reflexivity]).
    - intros n v l w _ I Hs. destruct n; cbn in I, Hs; try discriminate; destruct I as [I|[]]; injection I as <- <-; injection Hs as <-; (split; [reflexivity|]); eexists; (split; [left; reflexivity|left; reflexivity]).
    - intros n v l w _ I Hs _ W. left. destruct n; cbn in Hs; try discriminate. destruct I as [I|[I|[]]]; injection I as <- <-; destruct w; cbn in W; try discriminate; injection W as ->; reflexivity.
  Qed.

  Definition it_val (n : inn) : tensor T := match n with IA m | IA0 m | IAm m => norm_init pow X k (mem (VA m)) end.
  Lemma it_sol : solution g (init_fetch k) it_src mem it_val.
  Proof. intros n _. destruct n; reflexivity. Qed.

  Definition it_new (v : var) : tensor T :=
    match v with VA m | VA0 m | VAm m => if m <? k then norm_init pow X k (mem (VA m)) else mem v | _ => mem v end.

  Lemma it_exec (E : execution g (init_fetch k) mem) : finished g E -> forall v, final g E v (it_new v).
  Proof.
    intros HF v.
    assert (Hnew : forall n v, it_dom n -> g_writes g n = Some v -> final g E v (it_val n)).
    { intros n v0 Hn W. apply it_needed in Hn. destruct (HF n Hn) as (R & _). eapply (final_new g (init_fetch k) E it_src it_wr it_resolved n); [exact R|exact W|].
      exact (solution_unique g (init_fetch k) it_src it_wr mem it_resolved _ E it_sol n R). }
    assert (Hold : (forall w, it_dom w -> g_writes g w <> Some v) -> final g E v (mem v)) by (intros H; apply (final_old g (init_fetch k) E); intros w Hw; apply H, it_needed, Hw).
    destruct v as [i|i|i| | |i|i|i| |]; cbn [it_new]; try (apply Hold; intros w _ W; destruct w; discriminate W).
    - destruct (Nat.ltb_spec i k) as [Hi|Hi]; [apply (Hnew (IA i)); [exact Hi|reflexivity]|]. apply Hold. intros w Hw W. destruct w; try discriminate W. injection W as ->. cbn in Hw. lia.
    - destruct (Nat.ltb_spec i k) as [Hi|Hi]; [apply (Hnew (IAm i)); [exact Hi|reflexivity]|]. apply Hold. intros w Hw W. destruct w; try discriminate W. injection W as ->. cbn in Hw. lia.
    - destruct (Nat.ltb_spec i k) as [Hi|Hi]; [apply (Hnew (IA0 i)); [exact Hi|reflexivity]|]. apply Hold. intros w Hw W. destruct w; try discriminate W. injection W as ->. cbn in Hw. lia.
  Qed.

  Lemma it_no_failure (E : execution g (init_fetch k) mem) n : e_ran E n -> is_ok (e_val E n).
  Proof. intros R. eexists. exact (solution_unique g (init_fetch k) it_src it_wr mem it_resolved _ E it_sol n R). Qed.

  Lemma it_exists : exists E : execution g (init_fetch k) mem, finished g E.
  Proof.
    eapply (solution_exists g (init_fetch k) it_src it_wr mem it_resolved _ it_rank it_sol).
    intros d n _ H. apply it_prec in H. destruct H as (m & [->| ->] & ->); cbn; lia.
  Qed.
End Init.

Section InitState.
  Context {T : Type} {NM : Num T}.
  Notation dum := (mkT [] [] : tensor T).

  Lemma ncp_init_exec pow (X : tensor T) rnd : length rnd = ndims X ->
    forall E : execution (init_graph pow X (ndims X)) (init_fetch (ndims X)) (ncp_drawn X rnd), finished _ E ->
    forall v, final _ E v (ncp_vars (ncp_init pow X rnd) v).
  Proof.
    intros HR E HF v. pose proof (it_exec pow X (ndims X) _ E HF v) as H.
    destruct v as [i|i|i| | |i|i|i| |]; try exact H;
      cbn [it_new] in H; cbn [ncp_vars ncp_init n_A n_Am n_A0]; (destruct (Nat.ltb_spec i (ndims X)) as [Hi|Hi];
      [rewrite (nth_map_lt _ rnd i dum) by lia; unfold ncp_drawn in H; cbn [ncp_vars n_A] in H; rewrite (nth_map_lt _ rnd i dum) in H by lia; exact H
      |unfold ncp_drawn in H; cbn [ncp_vars n_A n_Am n_A0] in H; rewrite nth_overflow in H by (rewrite map_length; lia); rewrite nth_overflow by (rewrite map_length; lia); exact H]).
  Qed.

  Lemma nt_init_exec pow (X : tensor T) rnd rndg mem : length rnd = ndims X -> nt_mem (nt_drawn_state X rnd rndg) mem ->
    forall E : execution (init_graph pow X (ndims X + 1)) (init_fetch (ndims X + 1)) mem, finished _ E ->
    forall v, v <> VBsq -> v <> VGrad -> final _ E v (nt_vars (nt_init pow X rnd rndg) v).
  Proof.
    intros HR Hmem E HF v H1 H2. pose proof (it_exec pow X (ndims X + 1) _ E HF v) as H.
    destruct v as [i|i|i| | |i|i|i| |]; try congruence; try (cbn [it_new] in H; rewrite Hmem in H by discriminate; exact H);
      cbn [it_new] in H; cbn [nt_vars nt_init q_A q_Am q_A0 q_g q_gm q_g0]; rewrite nth_snoc, map_length, HR; (destruct (Nat.ltb_spec i (ndims X + 1)) as [Hi|Hi];
      [rewrite (Hmem (VA i)) in H by discriminate; cbn [nt_vars nt_drawn_state q_A q_g] in H; rewrite nth_snoc, map_length, HR in H; destruct (Nat.eqb_spec i (ndims X)); [exact H|];
       rewrite (nth_map_lt _ rnd i dum) by lia; rewrite (nth_map_lt _ rnd i dum) in H by lia; exact H
      |rewrite Hmem in H by discriminate; cbn [nt_vars nt_drawn_state q_A q_Am q_A0 q_g q_gm q_g0] in H; destruct (Nat.eqb_spec i (ndims X)); [lia|];
       rewrite nth_overflow in H by (rewrite app_length, map_length; cbn; lia); rewrite nth_overflow by (rewrite map_length; lia); exact H]).
  Qed.
End InitState.
