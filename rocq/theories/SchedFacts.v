(** Executions of a graph in which every read is ordered with the write to the same variable. *)

From Coq Require Import List Arith Relations Lia.
From Verif Require Import Py Sched.
Import ListNotations.

Section Facts.
  Context {V node var : Type}.
  Variable g : graph V node var.
  Variable fetch : list node.

  Notation prec := (prec g).
  Notation before := (before g).
  Notation needed := (needed g fetch).

  Definition sees (l : list node) (w : node) : Prop := exists d, In d l /\ (w = d \/ before w d).

  (** src n v: the Assign node whose value n sees in v, None for the initial value *)
  Record resolved (src : node -> var -> option node) (wr : var -> option node) : Prop := mkRes {
    r_wr : forall w v, needed w -> g_writes g w = Some v -> wr v = Some w;
    r_rw : forall w v, wr v = Some w -> needed w /\ g_writes g w = Some v;
    r_new : forall n v l w, needed n -> In (v, l) (g_reads g n) -> src n v = Some w -> g_writes g w = Some v /\ sees l w;
    r_old : forall n v l w, needed n -> In (v, l) (g_reads g n) -> src n v = None -> needed w -> g_writes g w = Some v ->
            n = w \/ before n w }.

  Lemma needed_prec n d : needed n -> prec d n -> needed d.
  Proof.
    intros (f & Hf & H) Hd. exists f. split; [exact Hf|]. right. destruct H as [->|H]; [apply t_step; exact Hd|].
    eapply t_trans; [apply t_step; exact Hd|exact H].
  Qed.

  Lemma needed_before n d : needed n -> before d n -> needed d.
  Proof.
    intros Hn H. revert Hn. induction H as [x y H|x y z H1 IH1 H2 IH2]; intros Hn; [eapply needed_prec; eauto|]. apply IH1, IH2, Hn.
  Qed.

  Lemma needed_in (P : node -> Prop) : (forall f, In f fetch -> P f) -> (forall n d, P n -> prec d n -> P d) -> forall n, needed n -> P n.
  Proof.
    intros Hf Hc n (f & If & H). assert (Hb : forall x y, before x y -> P y -> P x).
    { intros x y B. induction B as [x y B|x y z B1 I1 B2 I2]; intros Hy; [eapply Hc; eauto|auto]. }
    destruct H as [->|H]; [auto|]. eapply Hb; eauto.
  Qed.

  Lemma needed_fetch f : In f fetch -> needed f.
  Proof. intros H. exists f. auto. Qed.

  Lemma before_step d n : prec d n -> before d n.
  Proof. apply t_step. Qed.
  Lemma before_data d n : In d (g_data g n) -> before d n.
  Proof. intros H. apply t_step. left. exact H. Qed.
  Lemma before_ctrl d n : In d (g_ctrl g n) -> before d n.
  Proof. intros H. apply t_step. right. left. exact H. Qed.
  Lemma before_read d n v l : In (v, l) (g_reads g n) -> In d l -> before d n.
  Proof. intros H H'. apply t_step. right. right. exists v, l. auto. Qed.
  Lemma before_trans a b c : before a b -> before b c -> before a c.
  Proof. apply t_trans. Qed.

  Section Exec.
    Context {init : var -> V} (E : execution g fetch init).

    Lemma ran_before n d : e_ran E n -> before d n -> e_ran E d /\ is_ok (e_val E d) /\ e_fin E d < e_fin E n.
    Proof.
      intros Hn H. revert Hn. induction H as [x y H|x y z H1 IH1 H2 IH2]; intros Hn; [apply (e_prec _ _ _ E); assumption|].
      destruct (IH2 Hn) as (Ry & Oy & Fy). destruct (IH1 Ry) as (Rx & Ox & Fx). split; [exact Rx|]. split; [exact Ox|]. lia.
    Qed.

    Lemma start_before n w v : e_ran E w -> g_writes g w = Some v -> before n w -> e_fin E n < e_start E w.
    Proof.
      intros Hw Wv H. assert (H' : exists y, (n = y \/ before n y) /\ prec y w).
      { apply clos_trans_tn1 in H. destruct H as [Hp|y z Hp Hr]; [exists n; auto|]. exists y. split; [right; apply clos_tn1_trans, Hr|exact Hp]. }
      destruct H' as (y & Hy & Hp). destruct (e_writes _ _ _ E w v Hw Wv) as (_ & HS & _). specialize (HS y Hp).
      destruct Hy as [->|Hy]; [exact HS|]. destruct (e_prec _ _ _ E w y Hw Hp) as (Ry & _ & _). destruct (ran_before y n Ry Hy) as (_ & _ & F). lia.
    Qed.

    Variables (src : node -> var -> option node) (wr : var -> option node).
    Hypothesis HR : resolved src wr.

    Lemma one_writer w w' v : e_ran E w -> e_ran E w' -> g_writes g w = Some v -> g_writes g w' = Some v -> w' = w.
    Proof.
      intros R R' W W'. pose proof (r_wr _ _ HR w v (e_needed _ _ _ E w R) W). pose proof (r_wr _ _ HR w' v (e_needed _ _ _ E w' R') W'). congruence.
    Qed.

    Lemma mem_new t v w x : e_ran E w -> g_writes g w = Some v -> e_val E w = Ok x -> e_fin E w <= t -> e_mem E t v = x.
    Proof.
      intros R W Hx Ht. apply (e_mem_new _ _ _ E t v w x R W Hx Ht). intros w' R' W'. left. exact (one_writer w w' v R R' W W').
    Qed.

    Lemma mem_unwritten t v : (forall w, needed w -> g_writes g w <> Some v) -> e_mem E t v = init v.
    Proof. intros H. apply (e_mem_old _ _ _ E). intros w R W. destruct (H w (e_needed _ _ _ E w R) W). Qed.

    Lemma fetched_ok w x : e_ran E w -> e_val E w = Ok x -> fetched g E w x.
    Proof. intros R Hx v t W Ht. eapply mem_new; eauto. Qed.

    Lemma final_new w v x : e_ran E w -> g_writes g w = Some v -> e_val E w = Ok x -> final g E v x.
    Proof. intros R W Hx. exists (e_fin E w). intros t Ht. eapply mem_new; eauto. Qed.

    Lemma final_old v : (forall w, needed w -> g_writes g w <> Some v) -> final g E v (init v).
    Proof. intros H. exists 0. intros t _. apply mem_unwritten, H. Qed.

    (** the value read *)
    Lemma read_value n k v l : e_ran E n -> nth_error (g_reads g n) k = Some (v, l) ->
      match src n v with
      | Some w => e_ran E w /\ e_val E w = Ok (e_mem E (e_read E n k) v) /\ e_fin E w < e_fin E n
      | None => e_mem E (e_read E n k) v = init v
      end.
    Proof.
      intros R Hk. assert (I : In (v, l) (g_reads g n)) by (eapply nth_error_In; exact Hk).
      assert (Lk : k < length (g_reads g n)) by (apply nth_error_Some; rewrite Hk; discriminate).
      pose proof (e_needed _ _ _ E n R) as Nn. pose proof (e_reads_before _ _ _ E n k R Lk) as Hrb.
      destruct (src n v) as [w|] eqn:Es.
      - destruct (r_new _ _ HR n v l w Nn I Es) as (W & d & Id & Hd). pose proof (e_reads_after _ _ _ E n k v l d R Hk Id) as Hra.
        assert (Pd : prec d n) by (right; right; exists v, l; auto).
        destruct (e_prec _ _ _ E n d R Pd) as (Rd & Od & Fd).
        assert (Hw : e_ran E w /\ is_ok (e_val E w) /\ e_fin E w <= e_fin E d).
        { destruct Hd as [->|Hd]; [auto|]. destruct (ran_before d w Rd Hd) as (A & B & C). split; [exact A|]. split; [exact B|]. lia. }
        destruct Hw as (Rw & (x & Ox) & Fw). split; [exact Rw|]. split; [|lia]. rewrite Ox. f_equal. symmetry. eapply mem_new; eauto. lia.
      - apply (e_mem_old _ _ _ E). intros w Rw W. destruct (r_old _ _ HR n v l w Nn I Es (e_needed _ _ _ E w Rw) W) as [<-|B].
        + destruct (e_writes _ _ _ E n v R W) as (_ & _ & H). specialize (H k Lk). lia.
        + pose proof (start_before n w v Rw W B). lia.
    Qed.

    Definition obs (n : node) : list V :=
      map (fun p => e_mem E (e_read E n (fst p)) (fst (snd p))) (combine (seq 0 (length (g_reads g n))) (g_reads g n)).

    Lemma obs_list (rho : var -> V) n : (forall k v l, nth_error (g_reads g n) k = Some (v, l) -> e_mem E (e_read E n k) v = rho v) ->
      obs n = map (fun r => rho (fst r)) (g_reads g n).
    Proof.
      intros H. unfold obs.
      assert (G : forall (L : list (var * list node)) s, (forall k v l, nth_error L k = Some (v, l) -> e_mem E (e_read E n (s + k)) v = rho v) ->
                map (fun p => e_mem E (e_read E n (fst p)) (fst (snd p))) (combine (seq s (length L)) L) = map (fun r => rho (fst r)) L).
      { intros L. induction L as [|(v, l) L IH]; intros s HL; [reflexivity|]. cbn. f_equal.
        - specialize (HL 0 v l eq_refl). rewrite Nat.add_0_r in HL. exact HL.
        - apply IH. intros k v' l' Hk. specialize (HL (S k) v' l' Hk). rewrite <- HL. f_equal. f_equal. lia. }
      apply (G (g_reads g n) 0). exact H.
    Qed.
  End Exec.

  (** values of all needed nodes that satisfy the equations of the graph *)
  Definition seen (src : node -> var -> option node) (init : var -> V) (val : node -> V) (n : node) (v : var) : V :=
    match src n v with Some w => val w | None => init v end.
  Definition solution (src : node -> var -> option node) (init : var -> V) (val : node -> V) : Prop :=
    forall n, needed n -> g_kernel g n (map val (g_data g n)) (map (fun r => seen src init val n (fst r)) (g_reads g n)) = Ok (val n).

  Section Sol.
    Variables (src : node -> var -> option node) (wr : var -> option node) (init : var -> V).
    Hypothesis HR : resolved src wr.

    Lemma map_Ok_inj (A B : Type) (f : A -> res B) (h : A -> B) l xs : map f l = map Ok xs -> (forall a, In a l -> f a = Ok (h a)) -> xs = map h l.
    Proof.
      revert xs. induction l as [|a l IH]; intros [|x xs] H Hf; try discriminate; [reflexivity|]. cbn in H. injection H as H1 H2.
      cbn. f_equal; [rewrite (Hf a (or_introl eq_refl)) in H1; congruence|]. apply IH; [exact H2|]. intros b Hb. apply Hf. right. exact Hb.
    Qed.

    (** a finished run solves the equations *)
    Lemma finished_solution (E : execution g fetch init) (d : V) : finished g E ->
      exists val, (forall n, needed n -> e_ran E n /\ e_val E n = Ok (val n)) /\ solution src init val.
    Proof.
      intros HF. pose (val n := match e_val E n with Ok x => x | Raise _ => d end). exists val.
      assert (Hv : forall n, needed n -> e_ran E n /\ e_val E n = Ok (val n)).
      { intros n Hn. destruct (HF n Hn) as (R & x & Hx). split; [exact R|]. unfold val. rewrite Hx. reflexivity. }
      split; [exact Hv|]. intros n Hn. destruct (Hv n Hn) as (R & Hx).
      destruct (e_result _ _ _ E n R) as (xs & Hxs & Hr). fold (obs E n) in Hr.
      rewrite <- Hx, Hr. f_equal.
      - symmetry. apply (map_Ok_inj _ _ (e_val E) val _ _ Hxs). intros a Ha. apply Hv. eapply needed_prec; [exact Hn|left; exact Ha].
      - symmetry. apply (obs_list E (seen src init val n)). intros k v l Hk. pose proof (read_value E src wr HR n k v l R Hk) as H.
        unfold seen. destruct (src n v) as [w|]; [|exact H]. destruct H as (Rw & Hw & _). unfold val. rewrite Hw. reflexivity.
    Qed.

    (** every run computes the solution and never fails *)
    Lemma solution_unique val (E : execution g fetch init) : solution src init val -> forall n, e_ran E n -> e_val E n = Ok (val n).
    Proof.
      intros HS. assert (G : forall k n, e_fin E n < k -> e_ran E n -> e_val E n = Ok (val n)).
      { induction k as [|k IH]; intros n Hk R; [lia|]. destruct (e_result _ _ _ E n R) as (xs & Hxs & Hr). fold (obs E n) in Hr.
        assert (X : xs = map val (g_data g n)).
        { apply (map_Ok_inj _ _ (e_val E) val _ _ Hxs). intros a Ha. destruct (e_prec _ _ _ E n a R (or_introl Ha)) as (Ra & _ & Fa). apply IH; [lia|exact Ra]. }
        assert (O : obs E n = map (fun r => seen src init val n (fst r)) (g_reads g n)).
        { apply (obs_list E (seen src init val n)). intros j v l Hj. pose proof (read_value E src wr HR n j v l R Hj) as H.
          unfold seen. destruct (src n v) as [w|]; [|exact H]. destruct H as (Rw & Hw & Fw). rewrite (IH w ltac:(lia) Rw) in Hw. congruence. }
        rewrite Hr, X, O. apply HS. exact (e_needed _ _ _ E n R). }
      intros n R. exact (G (S (e_fin E n)) n (Nat.lt_succ_diag_r _) R).
    Qed.

    (** and there is such a run *)
    Lemma solution_exists val rank : solution src init val -> (forall d n, needed n -> prec d n -> rank d < rank n) ->
      exists E : execution g fetch init, finished g E.
    Proof.
      intros HS Hrk.
      assert (Hb : forall d n, before d n -> needed n -> rank d < rank n).
      { intros d n H. induction H as [x y H|x y z H1 I1 H2 I2]; intros Hn; [auto|].
        specialize (I2 Hn). specialize (I1 (needed_before _ _ Hn H2)). lia. }
      assert (Hobs : forall n v l, needed n -> In (v, l) (g_reads g n) ->
        match wr v with Some w => if 3 * rank w + 2 <=? 3 * rank n then val w else init v | None => init v end = seen src init val n v).
      { intros n v l Hn I. unfold seen. destruct (src n v) as [w|] eqn:Es.
        - destruct (r_new _ _ HR n v l w Hn I Es) as (W & d & Id & Hd). assert (Pd : prec d n) by (right; right; exists v, l; auto).
          assert (B : before w n) by (destruct Hd as [->|Hd]; [apply t_step, Pd|eapply t_trans; [exact Hd|apply t_step, Pd]]).
          rewrite (r_wr _ _ HR w v (needed_before _ _ Hn B) W). specialize (Hb w n B Hn).
          destruct (Nat.leb_spec (3 * rank w + 2) (3 * rank n)); [reflexivity|lia].
        - destruct (wr v) as [w|] eqn:Ew; [|reflexivity]. destruct (r_rw _ _ HR w v Ew) as (Hw & W).
          assert (Hle : rank n <= rank w) by (destruct (r_old _ _ HR n v l w Hn I Es Hw W) as [<-|B]; [lia|specialize (Hb n w B Hw); lia]).
          destruct (Nat.leb_spec (3 * rank w + 2) (3 * rank n)); [lia|reflexivity]. }
      unshelve eexists (mkE g fetch init needed (fun n => Ok (val n)) (fun n => 3 * rank n + 2) (fun n _ => 3 * rank n) (fun n => 3 * rank n + 1)
        (fun t v => match wr v with
                    | Some w => if 3 * rank w + 2 <=? t then val w else init v
                    | None => init v end) _ _ _ _ _ _ _ _).
      - cbn beta. auto.
      - cbn beta. intros n d Hn Hd. split; [eapply needed_prec; eauto|]. split; [eexists; reflexivity|]. specialize (Hrk d n Hn Hd). lia.
      - cbn beta. intros n k v l d Hn Hk Hd. assert (prec d n) by (right; right; exists v, l; split; [eapply nth_error_In; exact Hk|exact Hd]). specialize (Hrk d n Hn H). lia.
      - cbn beta. intros. lia.
      - cbn beta. intros n v Hn W. split; [lia|]. split; [|intros; lia]. intros d Hd. specialize (Hrk d n Hn Hd). lia.
      - cbn beta. intros t v H. destruct (wr v) as [w|] eqn:Ew; [|reflexivity]. destruct (Nat.leb_spec (3 * rank w + 2) t) as [Hle|]; [|reflexivity].
        destruct (r_rw _ _ HR w v Ew) as (Hw & W). specialize (H w Hw W). lia.
      - cbn beta. intros t v w x Hw W Hx Ht _. rewrite (r_wr _ _ HR w v Hw W). destruct (Nat.leb_spec (3 * rank w + 2) t); [congruence|lia].
      - cbn beta. intros n Hn. exists (map val (g_data g n)). split; [rewrite map_map; reflexivity|].
        rewrite <- (HS n Hn). f_equal.
        assert (G : forall L s, incl L (g_reads g n) ->
          map (fun p : nat * (var * list node) => match wr (fst (snd p)) with Some w => if 3 * rank w + 2 <=? 3 * rank n then val w else init (fst (snd p)) | None => init (fst (snd p)) end) (combine (seq s (length L)) L) =
          map (fun r => seen src init val n (fst r)) L).
        { intros L. induction L as [|(v, l) L IH]; intros s HL; [reflexivity|]. cbn [length seq combine map fst snd]. f_equal; [apply (Hobs n v l Hn), HL; left; reflexivity|]. apply IH. intros x Hx. apply HL. right. exact Hx. }
        symmetry. apply G. apply incl_refl.
      - intros n Hn. split; [exact Hn|eexists; reflexivity].
    Qed.
  End Sol.
End Facts.
