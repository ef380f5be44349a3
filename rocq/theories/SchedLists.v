(** List facts for the graphs of Graphs.v. *)

From Coq Require Import ZArith List Bool Arith Relations Lia.
From Verif Require Import Num Py Tensor TensorFacts TF Ops Types Loss Fact TFFacts LayoutFacts TrainLemmas BcuFacts Sched SchedFacts Graphs.
Import ListNotations.

Section Lists.
  Lemma combine_map_r {A B C} (f : B -> C) (l : list A) (l' : list B) : combine l (map f l') = map (fun p => (fst p, f (snd p))) (combine l l').
  Proof. revert l'. induction l as [|a l IH]; intros [|b l']; try reflexivity. cbn. f_equal. apply IH. Qed.

  Lemma filter_map_comm {A B} (f : A -> B) p l : filter p (map f l) = map f (filter (fun x => p (f x)) l).
  Proof. induction l as [|a l IH]; [reflexivity|]. cbn. rewrite IH. destruct (p (f a)); reflexivity. Qed.

  Lemma skip_map {A B} (f : A -> B) l s : skip_ (map f l) s = map f (skip_ l s).
  Proof.
    destruct s as [|z|z]; [reflexivity| |]; unfold skip_, enumerate; rewrite map_length, combine_map_r, filter_map_comm, !map_map; apply map_ext; reflexivity.
  Qed.

  Lemma enumerate_seq n : enumerate (seq 0 n) = map (fun i => (i, i)) (seq 0 n).
  Proof.
    unfold enumerate. rewrite seq_length. generalize 0 as s. induction n as [|n IH]; intros s; [reflexivity|]. cbn. f_equal. apply IH.
  Qed.

  Definition butlist (n m : nat) : list nat := filter (fun i => negb (i =? m)) (seq 0 n).

  Lemma skip_seq n m : skip_ (seq 0 n) (SkInt (Z.of_nat m)) = butlist n m.
  Proof.
    unfold skip_, butlist. rewrite enumerate_seq, filter_map_comm, map_map. cbn [fst snd]. rewrite map_id. apply filter_ext. intros i.
    f_equal. unfold in_skip, zmem. cbn. rewrite orb_false_r. destruct (Nat.eqb_spec i m) as [->|]; [apply Z.eqb_refl|]. apply Z.eqb_neq. lia.
  Qed.

  Lemma skipping_map {A} n m (f : nat -> A) : skipping n m f = map f (butlist n m).
  Proof. unfold skipping. rewrite skip_map, skip_seq. reflexivity. Qed.

  Lemma in_butlist n m i : In i (butlist n m) <-> i < n /\ i <> m.
  Proof. unfold butlist. rewrite filter_In, in_seq, negb_true_iff, Nat.eqb_neq. lia. Qed.

  Lemma in_skipping {A} n m (f : nat -> A) x : In x (skipping n m f) <-> exists i, i < n /\ i <> m /\ x = f i.
  Proof.
    rewrite skipping_map, in_map_iff. split; [intros (i & <- & H)|intros (i & H1 & H2 & ->)].
    - apply in_butlist in H. exists i. tauto.
    - exists i. split; [reflexivity|]. apply in_butlist. auto.
  Qed.

  Lemma in_previous {A} (op : nat -> A) m x : In x (previous op m) <-> exists p, m = S p /\ x = op p.
  Proof.
    destruct m as [|p]; cbn; [split; [tauto|intros (p & H & _); discriminate]|]. split.
    - intros [<-|[]]. exists p. auto.
    - intros (q & H & ->). injection H as <-. auto.
  Qed.

  Lemma mapM_map_ok {A B} (f : A -> res B) (h : A -> B) l : (forall a, In a l -> f a = Ok (h a)) -> mapM f l = Ok (map h l).
  Proof.
    induction l as [|a l IH]; intros H; [reflexivity|]. cbn. rewrite (H a (or_introl eq_refl)). cbn.
    rewrite IH; [reflexivity|]. intros b Hb. apply H. right. exact Hb.
  Qed.

  Lemma mapM_nth {A B} (f : A -> res B) l l' i da db : mapM f l = Ok l' -> i < length l -> f (nth i l da) = Ok (nth i l' db).
  Proof.
    revert l' i. induction l as [|a l IH]; intros l' i H Hi; [cbn in Hi; lia|]. cbn in H.
    destruct (f a) as [b|] eqn:Ea; [|discriminate]. cbn in H. destruct (mapM f l) as [bs|] eqn:El; [|discriminate]. cbn in H. injection H as <-.
    destruct i as [|i]; cbn; [exact Ea|]. apply (IH bs i eq_refl). cbn in Hi. lia.
  Qed.
End Lists.

Global Arguments skipping : simpl never.
Global Arguments previous : simpl never.
Global Arguments Nat.ltb : simpl never.
Global Arguments Nat.mul : simpl never.

(** take a membership apart *)
Ltac crack :=
  repeat (cbn in *;
    match goal with
    | H : prec _ _ _ |- _ => destruct H as [H|[H|(? & ? & H & ?)]]
    | H : _ \/ _ |- _ => destruct H
    | H : False |- _ => destruct H
    | H : _ /\ _ |- _ => destruct H
    | H : In _ (skipping _ _ _) |- _ => apply in_skipping in H; destruct H as (? & ? & ? & H)
    | H : In _ (previous _ _) |- _ => apply in_previous in H; destruct H as (? & ? & H)
    | H : In _ (rev _) |- _ => apply in_rev in H
    | H : In _ (_ ++ _) |- _ => apply in_app_or in H
    | H : In _ (map _ (seq _ _)) |- _ => let I := fresh in apply in_map_iff in H; destruct H as (? & H & I); apply in_seq in I
    | H : In _ (map _ _) |- _ => apply in_map_iff in H; destruct H as (? & H & ?)
    | H : (_, _) = (_, _) |- _ => injection H; clear H; intros
    | H : Some _ = Some _ |- _ => injection H; clear H; intros
    | H : Some _ = None |- _ => discriminate H
    | H : None = Some _ |- _ => discriminate H
    | H : ?x = _ |- _ => is_var x; subst x
    | H : _ = ?x |- _ => is_var x; subst x
    end).

Section Unf.
  Context {T : Type} {NM : Num T}.

  Lemma unfold_dim (X u : tensor T) n : n < ndims X -> unfold X (Z.of_nat n) = Ok u -> dim u 0 = pynth (shp X) (Z.of_nat n).
  Proof.
    intros H Hu. destruct (Nat.eq_dec (nth n (shp X) 0) 0) as [E|E]; [rewrite unfold_err_zero in Hu by assumption; discriminate|].
    destruct (unfold_ok X n H E) as (u' & Eu & ((_ & Hs) & _)). rewrite Eu in Hu. injection Hu as ->.
    unfold dim. rewrite (pynth_nat (shp X) n 0 H). cbn in Hs. rewrite Hs, Nat.mul_1_r. reflexivity.
  Qed.

  Definition okd (r : res (tensor T)) : tensor T := match r with Ok t => t | Raise _ => mkT [] [] end.

  Lemma okd_ok r (t : tensor T) : r = Ok t -> r = Ok (okd r).
  Proof. intros ->. reflexivity. Qed.

  Lemma gram_total (a : tensor T) r c : shp a = [r; c] -> exists v, tf_matmul true false a a = Ok v.
  Proof. intros H. unfold tf_matmul. rewrite H, Nat.eqb_refl. eauto. Qed.

  Lemma unfold_all_ok (X : tensor T) mats : unfold_all X = Ok mats ->
    length mats = ndims X /\ forall m, m < ndims X -> unfold X (Z.of_nat m) = Ok (nth m mats (mkT [] [])).
  Proof.
    unfold unfold_all. intros H. pose proof (mapM_length _ _ _ H) as L. unfold zrange in L, H. rewrite map_length, seq_length in L. split; [exact L|].
    intros m Hm. rewrite mapM_map in H. pose proof (mapM_nth _ _ _ m 0 (mkT [] []) H) as E. rewrite seq_length, seq_nth in E by lia. apply E. lia.
  Qed.

  Lemma unfold_all_list (X : tensor T) (f : nat -> tensor T) : (forall m, m < ndims X -> unfold X (Z.of_nat m) = Ok (f m)) ->
    unfold_all X = Ok (map f (seq 0 (ndims X))).
  Proof.
    intros H. unfold unfold_all, zrange. rewrite mapM_map. apply mapM_ok. intros m Hm. apply H. apply in_seq in Hm. lia.
  Qed.

  Lemma nth_map_seq {B} (f : nat -> B) n m d : m < n -> nth m (map f (seq 0 n)) d = f m.
  Proof. intros H. rewrite (nth_indep _ _ (f 0)) by (rewrite map_length, seq_length; lia). rewrite map_nth, seq_nth by lia. reflexivity. Qed.

  Lemma pynth_map_seq {B} (f : nat -> B) n m : m < n -> pynth (map f (seq 0 n)) (Z.of_nat m) = Ok (f m).
  Proof. intros H. rewrite (pynth_nat _ m (f 0)) by (rewrite map_length, seq_length; lia). f_equal. apply nth_map_seq, H. Qed.

  (** metrics *)
  Lemma metrics_nodes (X full l o r : tensor T) : k_loss X full = Ok l -> k_obj X full = Ok o -> k_rel X full = Ok r ->
    metrics_of X full = Ok (mkM (unscl l) (unscl o) (unscl r)).
  Proof.
    unfold k_loss, k_obj, k_rel, metrics_of. intros Hl Ho Hr. mon Hl. cbn [bind]. mon Ho. cbn [bind]. cbn [bind] in Hr.
    injection Hl as <-. injection Ho as <-. injection Hr as <-. reflexivity.
  Qed.

  Lemma nodes_metrics (X full : tensor T) m : metrics_of X full = Ok m ->
    k_loss X full = Ok (scl (m_loss m)) /\ k_obj X full = Ok (scl (m_obj m)) /\ k_rel X full = Ok (scl (m_rel m)).
  Proof.
    unfold k_loss, k_obj, k_rel, metrics_of. intros H. mon H. cbn [bind]. injection H as <-. auto.
  Qed.

  Lemma khatri_skip (A : list (tensor T)) s : khatri A s true = khatri (rev (skip_ A s)) SkNone false.
  Proof. reflexivity. Qed.
  Lemma hadamard_skip (A : list (tensor T)) s : hadamard A s = hadamard (skip_ A s) SkNone.
  Proof. reflexivity. Qed.
End Unf.

(** ** a list with one entry left out and a dummy put back *)
Section Insert.
  Lemma skip_mid {A} (a b : list A) (d : A) : skip_ (a ++ d :: b) (SkInt (Z.of_nat (length a))) = a ++ b.
  Proof.
    unfold skip_, enumerate.
    assert (Hf : forall (L : list (nat * A)), filter (fun p => negb (in_skip (SkInt (Z.of_nat (length a))) (Z.of_nat (fst p)))) L = filter (fun p => negb (fst p =? length a)) L).
    { intros L. apply filter_ext. intros p. f_equal. unfold in_skip, zmem. cbn. rewrite orb_false_r.
      destruct (Nat.eqb_spec (fst p) (length a)) as [->|]; [apply Z.eqb_refl|apply Z.eqb_neq; lia]. }
    rewrite Hf. clear Hf.
    assert (Hb : forall (L : list A) s m, m < s -> map snd (filter (fun p => negb (fst p =? m)) (combine (seq s (length L)) L)) = L).
    { intros L. induction L as [|x L IH]; intros s m Hm; [reflexivity|]. cbn [length seq combine filter fst].
      destruct (Nat.eqb_spec s m); [lia|]. cbn [negb map snd]. f_equal. apply IH. lia. }
    assert (G : forall (a : list A) s, map snd (filter (fun p => negb (fst p =? s + length a)) (combine (seq s (length (a ++ d :: b))) (a ++ d :: b))) = a ++ b).
    { intros a0. induction a0 as [|x a0 IH]; intros s.
      - cbn [app length seq combine filter fst]. rewrite Nat.add_0_r, Nat.eqb_refl. cbn [negb]. apply Hb. lia.
      - cbn [app length seq combine filter fst]. destruct (Nat.eqb_spec s (s + S (length a0))); [lia|]. cbn [negb map snd]. f_equal.
        rewrite <- (IH (S s)). replace (S s + length a0) with (s + S (length a0)) by lia. reflexivity. }
    apply (G a 0).
  Qed.

  Lemma butlist_length n m : m < n -> length (butlist n m) = n - 1.
  Proof.
    intros H. unfold butlist.
    assert (E : seq 0 n = seq 0 m ++ m :: seq (S m) (n - m - 1)).
    { replace n with (m + (1 + (n - m - 1))) at 1 by lia. rewrite !seq_app. cbn [Nat.add seq app]. rewrite Nat.add_1_r. reflexivity. }
    rewrite E, filter_app. cbn [filter]. rewrite Nat.eqb_refl. cbn [negb].
    assert (F : forall a k, (m < a \/ a + k <= m) -> filter (fun i => negb (i =? m)) (seq a k) = seq a k).
    { intros a k. revert a. induction k as [|k IH]; intros a Ha; [reflexivity|]. cbn [seq filter]. destruct (Nat.eqb_spec a m); [lia|]. cbn [negb]. f_equal. apply IH. lia. }
    rewrite !F by lia.
    rewrite app_length, !seq_length. lia.
  Qed.

  Lemma skip_length {A} (l : list A) m : m < length l -> length (skip_ l (SkInt (Z.of_nat m))) = length l - 1.
  Proof.
    intros H. destruct l as [|d l0]; [cbn in H; lia|]. set (l := d :: l0) in *. rewrite <- (map_nth_seq l d), skip_map, skip_seq, !map_length, seq_length.
    apply butlist_length, H.
  Qed.

  Lemma insert_skip {A} (l : list A) m d : m < length l ->
    let r := skip_ l (SkInt (Z.of_nat m)) in
    length (firstn m r ++ [d] ++ skipn m r) = length l /\ skip_ (firstn m r ++ [d] ++ skipn m r) (SkInt (Z.of_nat m)) = r.
  Proof.
    intros H r. assert (Lr : length r = length l - 1) by (apply skip_length, H). clearbody r. assert (Lf : length (firstn m r) = m) by (rewrite firstn_length; lia). split.
    - rewrite !app_length, skipn_length, Lf, Lr. cbn [length]. lia.
    - cbn [app]. rewrite <- Lf at 3. rewrite skip_mid. apply firstn_skipn.
  Qed.

  Lemma ttm_insert {T} {NM : Num T} (t : tensor T) l m d tr : m < length l ->
    let r := skip_ l (SkInt (Z.of_nat m)) in
    ttm t (firstn m r ++ [d] ++ skipn m r) None tr (SkInt (Z.of_nat m)) = ttm t l None tr (SkInt (Z.of_nat m)).
  Proof.
    intros H r. destruct (insert_skip l m d H) as (E1 & E2). fold r in E1, E2. unfold ttm. rewrite E1, E2. reflexivity.
  Qed.
End Insert.

(** ** a list being updated entry by entry *)
Section Swept.
  Context {B : Type} (d : B).

  Definition swept (A : list B) (new : nat -> B) (n m : nat) : list B :=
    map (fun i => if i <? m then new i else nth i A d) (seq 0 n).

  Lemma swept_length A new n m : length (swept A new n m) = n.
  Proof. unfold swept. rewrite map_length, seq_length. reflexivity. Qed.

  Lemma swept_nth A new n m i : i < n -> nth i (swept A new n m) d = if i <? m then new i else nth i A d.
  Proof. intros H. unfold swept. apply (nth_map_seq (fun i => if i <? m then new i else nth i A d)), H. Qed.

  Lemma swept_all A new n i : i < n -> nth i (swept A new n n) d = new i.
  Proof. intros H. rewrite swept_nth by exact H. destruct (Nat.ltb_spec i n); [reflexivity|lia]. Qed.

  Lemma swept_upd A new n m : m < n -> upd (swept A new n m) m (new m) = swept A new n (S m).
  Proof.
    intros H. apply (nth_ext _ _ d d); [rewrite upd_length, !swept_length; reflexivity|].
    intros j Hj. rewrite upd_length, swept_length in Hj. rewrite nth_upd, !swept_nth, swept_length by exact Hj.
    destruct (Nat.eqb_spec j m) as [->|Hne]; cbn [andb].
    - destruct (Nat.ltb_spec m n); [|lia]. destruct (Nat.ltb_spec m (S m)); [reflexivity|lia].
    - destruct (Nat.ltb_spec j m), (Nat.ltb_spec j (S m)); try lia; reflexivity.
  Qed.

  Lemma swept_0 A new n : length A = n -> swept A new n 0 = A.
  Proof.
    intros H. apply (nth_ext _ _ d d); [rewrite swept_length; auto|]. intros j Hj. rewrite swept_length in Hj. rewrite swept_nth by exact Hj. reflexivity.
  Qed.

  Lemma swept_skip A new n m : skip_ (swept A new n m) (SkInt (Z.of_nat m)) = map (fun i => if i <? m then new i else nth i A d) (butlist n m).
  Proof. unfold swept. rewrite skip_map, skip_seq. reflexivity. Qed.

  (** a sequence of states in which step m replaces entry m *)
  Lemma swept_states A n (st : nat -> list B) : length A = n -> st 0 = A -> (forall m, m < n -> exists v, st (S m) = upd (st m) m v) ->
    forall m, m <= n -> st m = swept A (fun i => nth i (st (S i)) d) n m.
  Proof.
    intros HA H0 Hs. induction m as [|m IH]; intros Hm; [rewrite swept_0, H0 by exact HA; reflexivity|].
    rewrite <- swept_upd by lia. rewrite <- IH by lia. destruct (Hs m ltac:(lia)) as (v & E). rewrite E, nth_upd, Nat.eqb_refl.
    assert (L : length (st m) = n) by (rewrite IH by lia; apply swept_length). rewrite L. destruct (Nat.ltb_spec m n); [reflexivity|lia].
  Qed.
End Swept.

(** states of a loop that may fail *)
Lemma loop_states {St} (step : nat -> St -> res St) (loop : list nat -> St -> res St) :
  (forall s, loop [] s = Ok s) -> (forall m l s, loop (m :: l) s = bind (step m s) (loop l)) ->
  forall k s0 a b, loop (seq s0 k) a = Ok b ->
  exists st, st s0 = a /\ st (s0 + k) = b /\ forall m, s0 <= m < s0 + k -> step m (st m) = Ok (st (S m)).
Proof.
  intros Hn Hc. induction k as [|k IH]; intros s0 a b H.
  - cbn in H. rewrite Hn in H. injection H as <-. exists (fun _ => a). rewrite Nat.add_0_r. repeat split; try reflexivity. intros; lia.
  - cbn [seq] in H. rewrite Hc in H. destruct (step s0 a) as [a1|] eqn:E; [|discriminate]. cbn [bind] in H.
    destruct (IH (S s0) a1 b H) as (st & E0 & E1 & Hst). exists (fun m => if m =? s0 then a else st m).
    split; [rewrite Nat.eqb_refl; reflexivity|]. split.
    + destruct (Nat.eqb_spec (s0 + S k) s0); [lia|]. rewrite <- E1. f_equal. lia.
    + intros m Hm. destruct (Nat.eqb_spec m s0) as [->|Hne].
      * destruct (Nat.eqb_spec (S s0) s0); [lia|]. rewrite E0. exact E.
      * destruct (Nat.eqb_spec (S m) s0); [lia|]. apply Hst. lia.
Qed.

Lemma states_loop {St} (step : nat -> St -> res St) (loop : list nat -> St -> res St) (st : nat -> St) :
  (forall s, loop [] s = Ok s) -> (forall m l s, loop (m :: l) s = bind (step m s) (loop l)) ->
  forall k s0, (forall m, s0 <= m < s0 + k -> step m (st m) = Ok (st (S m))) -> loop (seq s0 k) (st s0) = Ok (st (s0 + k)).
Proof.
  intros Hn Hc. induction k as [|k IH]; intros s0 H; cbn [seq]; [rewrite Hn, Nat.add_0_r; reflexivity|].
  rewrite Hc, H by lia. cbn [bind]. rewrite IH by (intros; apply H; lia). do 2 f_equal. lia.
Qed.

Lemma metrics_scl {T} {NM : Num T} (X full l o r : tensor T) : k_loss X full = Ok l -> k_obj X full = Ok o -> k_rel X full = Ok r ->
  l = scl (unscl l) /\ o = scl (unscl o) /\ r = scl (unscl r).
Proof.
  unfold k_loss, k_obj, k_rel. intros Hl Ho Hr. mon Hl. mon Ho. mon Hr. injection Hl as <-. injection Ho as <-. injection Hr as <-. auto.
Qed.
