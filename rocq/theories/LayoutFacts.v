(** unfold, fold, t2mat, vectorize (C01-C07). *)

From Coq Require Import ZArith List Bool Arith Lia Permutation Sorted.
From Verif Require Import Num Py Tensor TF TensorFacts TFFacts Ops Spec.
Import ListNotations.

Lemma prod_nprod s : prod s = nprod s.
Proof. induction s; simpl; auto. Qed.

Lemma pick_gather ax l : pick ax l = gather 0 ax l.
Proof. reflexivity. Qed.

Lemma others_S n N : others n (S N) = others n N ++ (if Nat.eqb N n then [] else [N]).
Proof.
  unfold others. rewrite seq_S, filter_app. simpl. destruct (Nat.eqb N n); reflexivity.
Qed.

Lemma in_others n N k : In k (others n N) <-> k < N /\ k <> n.
Proof.
  unfold others. rewrite filter_In, in_seq, negb_true_iff, Nat.eqb_neq. lia.
Qed.

Lemma others_NoDup n N : NoDup (others n N).
Proof. apply NoDup_filter, seq_NoDup. Qed.

Lemma others_perm n N : n < N -> Permutation (n :: others n N) (seq 0 N).
Proof.
  intros H. apply NoDup_Permutation.
  - constructor; [rewrite in_others; lia | apply others_NoDup].
  - apply seq_NoDup.
  - intros x. simpl. rewrite in_others, in_seq. lia.
Qed.

Lemma kolda_perm n N : n < N -> Permutation (n :: rev (others n N)) (seq 0 N).
Proof.
  intros H. rewrite <- (others_perm n N H). apply perm_skip, Permutation_sym, Permutation_rev.
Qed.

Lemma gather_rev {A} (d : A) p l : gather d (rev p) l = rev (gather d p l).
Proof. apply map_rev. Qed.

Lemma gather_app {A} (d : A) p q l : gather d (p ++ q) l = gather d p l ++ gather d q l.
Proof. apply map_app. Qed.

(** reversed remaining axes: Kolda's column index *)
Lemma ravel_kolda s n idx : length idx = length s ->
  ravel (gather 0 (rev (others n (length s))) s) (gather 0 (rev (others n (length s))) idx)
  = kolda_col s n idx.
Proof.
  intros _. unfold kolda_col. rewrite !gather_rev.
  generalize (length s). intros N. induction N as [|N IH]; [reflexivity|].
  rewrite others_S. destruct (Nat.eqb N n).
  - rewrite app_nil_r. exact IH.
  - rewrite !gather_app, !rev_app_distr, map_app. simpl. rewrite IH.
    rewrite prod_rev. unfold nsum. rewrite fold_right_app. simpl.
    rewrite prod_nprod. change (nprod (gather 0 (others n N) s)) with (kolda_stride s n N).
    clear IH. rewrite Nat.add_0_r. generalize (nth N idx 0 * kolda_stride s n N). intros a.
    induction (map (fun k => nth k idx 0 * kolda_stride s n k) (others n N)) as [|x l IHl].
    + simpl. lia.
    + simpl. lia.
Qed.

Lemma ravel_rowmajor s : forall idx, length idx = length s -> ravel s idx = rowmajor s idx.
Proof.
  unfold rowmajor. induction s as [|d s IH]; intros [|i idx] H; try discriminate; [reflexivity|].
  simpl ravel. rewrite IH by (simpl in H; lia). simpl length. rewrite <- cons_seq, <- seq_shift, map_cons, map_map.
  simpl. rewrite prod_nprod. reflexivity.
Qed.

(** ** gen_perm *)

Lemma pyremove_not_in x l : ~ In x l -> pyremove x l = Raise ValueError.
Proof.
  induction l as [|y l IH]; simpl; intros H; [reflexivity|].
  destruct (Z.eqb_spec x y); [subst; tauto|]. rewrite IH by tauto. reflexivity.
Qed.

Lemma pyremove_nodup x l : NoDup l -> In x l ->
  pyremove x l = Ok (filter (fun y => negb (x =? y)%Z) l).
Proof.
  induction l as [|y l IH]; simpl; intros Hn Hin; [contradiction|].
  inversion Hn; subst. destruct (Z.eqb_spec x y) as [->|Hne]; simpl.
  - rewrite filter_all; [reflexivity|]. intros z Hz. destruct (Z.eqb_spec y z); [subst; contradiction | reflexivity].
  - destruct Hin as [->|Hin]; [congruence|]. rewrite IH by auto. reflexivity.
Qed.

Lemma filter_rev {A} (f : A -> bool) l : filter f (rev l) = rev (filter f l).
Proof.
  induction l as [|x l IH]; simpl; [reflexivity|].
  rewrite filter_app, IH. simpl. destruct (f x); simpl; [reflexivity | apply app_nil_r].
Qed.

Lemma filter_map {A B} (f : B -> bool) (g : A -> B) l :
  filter f (map g l) = map g (filter (fun a => f (g a)) l).
Proof. induction l as [|x l IH]; simpl; [reflexivity|]. destruct (f (g x)); simpl; congruence. Qed.

Lemma gen_perm_ok N n : n < N ->
  gen_perm N (Z.of_nat n) = Ok (map Z.of_nat (n :: rev (others n N))).
Proof.
  intros H. unfold gen_perm. rewrite pyremove_nodup.
  - unfold bind. rewrite filter_rev. unfold zrange. rewrite filter_map, <- map_rev. unfold others.
    rewrite (filter_ext _ (fun k => negb (Nat.eqb k n))); [reflexivity|].
    intros a. f_equal. destruct (Nat.eqb_spec a n), (Z.eqb_spec (Z.of_nat n) (Z.of_nat a)); lia.
  - apply NoDup_rev, NoDup_zrange.
  - rewrite <- in_rev. apply in_zrange. lia.
Qed.

Lemma gen_perm_err N z : (z < 0 \/ Z.of_nat N <= z)%Z -> gen_perm N z = Raise ValueError.
Proof.
  intros H. unfold gen_perm. rewrite pyremove_not_in; [reflexivity|].
  rewrite <- in_rev, in_zrange. lia.
Qed.

(** ** argsort (fold's back_perm) *)

Lemma insert_perm x l : Permutation (insert_by_snd x l) (x :: l).
Proof.
  induction l as [|y l IH]; simpl; [reflexivity|].
  destruct (snd x <=? snd y)%Z; [reflexivity|]. rewrite IH. apply perm_swap.
Qed.
Lemma sort_perm l : Permutation (sort_by_snd l) l.
Proof.
  induction l as [|x l IH]; simpl; [reflexivity|]. rewrite insert_perm. apply perm_skip, IH.
Qed.

Definition le_snd (a b : nat * Z) : Prop := (snd a <= snd b)%Z.

Lemma insert_sorted x l : StronglySorted le_snd l -> StronglySorted le_snd (insert_by_snd x l).
Proof.
  induction 1 as [|y l Hs IH Hall]; simpl; [repeat constructor|].
  destruct (Z.leb_spec (snd x) (snd y)).
  - constructor; [constructor; auto|]. constructor; [exact H|].
    eapply Forall_impl; [|exact Hall]. unfold le_snd. intros; lia.
  - constructor; [exact IH|]. eapply Permutation_Forall; [apply Permutation_sym, insert_perm|].
    constructor; [unfold le_snd; lia | exact Hall].
Qed.
Lemma sort_sorted l : StronglySorted le_snd (sort_by_snd l).
Proof. induction l as [|x l IH]; simpl; [constructor | apply insert_sorted, IH]. Qed.

Lemma sorted_perm_unique (l l' : list (nat * Z)) :
  StronglySorted le_snd l -> StronglySorted le_snd l' -> Permutation l l' ->
  NoDup (map snd l) -> l = l'.
Proof.
  revert l'. induction l as [|x l IH]; intros l' Hs Hs' Hp Hn.
  - apply Permutation_nil in Hp. auto.
  - destruct l' as [|y l']; [symmetry in Hp; apply Permutation_nil_cons in Hp; contradiction|].
    assert (x = y) as ->.
    { assert (Hx : In x (y :: l')) by (eapply Permutation_in; [exact Hp | left; auto]).
      assert (Hy : In y (x :: l)) by (eapply Permutation_in; [apply Permutation_sym, Hp | left; auto]).
      destruct Hx as [|Hx]; [auto|]. destruct Hy as [|Hy]; [auto|].
      inversion Hs as [|? ? Hs1 Hall]; subst. inversion Hs' as [|? ? Hs1' Hall']; subst.
      rewrite Forall_forall in Hall, Hall'. specialize (Hall _ Hy). specialize (Hall' _ Hx).
      unfold le_snd in *. exfalso. inversion Hn as [|? ? Hnot _]; subst. apply Hnot.
      replace (snd x) with (snd y) by lia. apply in_map; auto. }
    f_equal. inversion Hs; inversion Hs'; subst. apply IH; auto.
    + eapply Permutation_cons_inv; eauto.
    + inversion Hn; auto.
Qed.

Lemma enumerate_nth {A} (l : list A) k (d : A) dd : k < length l ->
  nth k (enumerate l) dd = (k, nth k l d).
Proof.
  intros H. unfold enumerate.
  assert (E : nth k (combine (seq 0 (length l)) l) (nth k (seq 0 (length l)) 0, nth k l d)
            = (nth k (seq 0 (length l)) 0, nth k l d)).
  { rewrite <- combine_nth with (y := d) (x := 0) by (apply seq_length).
    apply nth_indep. rewrite combine_length, seq_length. lia. }
  rewrite seq_nth in E by auto. simpl in E.
  rewrite nth_indep with (d' := (k, nth k l d)); [exact E|].
  rewrite combine_length, seq_length. lia.
Qed.

Lemma enumerate_length {A} (l : list A) : length (enumerate l) = length l.
Proof. unfold enumerate. rewrite combine_length, seq_length. lia. Qed.

Lemma enumerate_snd {A} (l : list A) : map snd (enumerate l) = l.
Proof.
  unfold enumerate. generalize 0. induction l as [|x l IH]; intros k; simpl; [reflexivity|].
  f_equal. apply IH.
Qed.

Lemma enumerate_eq {A} (l : list A) (d : A) :
  enumerate l = map (fun k => (k, nth k l d)) (seq 0 (length l)).
Proof.
  apply nth_ext with (d := (0, d)) (d' := (0, d)).
  - rewrite enumerate_length, map_length, seq_length. reflexivity.
  - intros k Hk. rewrite enumerate_length in Hk. rewrite enumerate_nth with (d := d) by auto.
    rewrite nth_map_lt with (da := 0) by (rewrite seq_length; auto).
    rewrite seq_nth by auto. reflexivity.
Qed.

(** sorting (position, axis) pairs by axis lists the inverse permutation *)
Lemma argsort_perm N p : Permutation p (seq 0 N) ->
  sort_by_snd (enumerate (map Z.of_nat p)) = map (fun a => (pos a p, Z.of_nat a)) (seq 0 N).
Proof.
  intros H. pose proof (perm_NoDup _ _ H) as Hn.
  apply sorted_perm_unique.
  - apply sort_sorted.
  - assert (G : forall k n, StronglySorted le_snd (map (fun a => (pos a p, Z.of_nat a)) (seq k n))).
    { intros k n. revert k. induction n as [|n IH]; intros k; simpl; constructor; auto.
      apply Forall_forall. intros x Hx. apply in_map_iff in Hx as (a & <- & Ha).
      apply in_seq in Ha. unfold le_snd. simpl. lia. }
    apply G.
  - rewrite sort_perm. rewrite (enumerate_eq _ 0%Z), map_length.
    transitivity (map (fun a => (pos a p, Z.of_nat a)) p).
    + replace (map (fun a => (pos a p, Z.of_nat a)) p)
        with (map (fun a => (pos a p, Z.of_nat a)) (map (fun i => nth i p 0) (seq 0 (length p))))
        by (rewrite map_nth_seq; reflexivity). rewrite map_map.
      erewrite map_ext_in; [reflexivity|]. intros k Hk. apply in_seq in Hk. simpl.
      rewrite pos_nth by (auto; lia). f_equal.
      rewrite nth_map_lt with (da := 0) by lia. reflexivity.
    + apply Permutation_map, H.
  - eapply Permutation_NoDup; [apply Permutation_map, Permutation_sym, sort_perm|].
    rewrite enumerate_snd. apply NoDup_map_inj; [intros; lia | auto].
Qed.

Section Layout.
  Context {T : Type} {N : Num T}.
  Implicit Types t : tensor T.

  (** transposing by r ++ c and reading the buffer as a matrix *)
  Definition as_matrix t (r c : list nat) (m : tensor T) : Prop :=
    is_mat m (prod (gather 0 r (shp t))) (prod (gather 0 c (shp t))) /\
    forall idx, valid (shp t) idx ->
      mget m (ravel (gather 0 r (shp t)) (gather 0 r idx))
             (ravel (gather 0 c (shp t)) (gather 0 c idx)) = get t idx.

  Lemma transpose_matrix t r c : Permutation (r ++ c) (seq 0 (ndims t)) ->
    exists tr, tf_transpose t (map Z.of_nat (r ++ c)) = Ok tr /\ wf tr /\
      prod (shp tr) = prod (gather 0 r (shp t)) * prod (gather 0 c (shp t)) /\
      as_matrix t r c (mkT [prod (gather 0 r (shp t)); prod (gather 0 c (shp t))] (dat tr)).
  Proof.
    intros H. destruct (transpose_ok t _ H) as (tr & Htr & Hw & Hs & Hg).
    exists tr. split; [exact Htr|]. split; [exact Hw|].
    assert (Hp : prod (shp tr) = prod (gather 0 r (shp t)) * prod (gather 0 c (shp t))).
    { rewrite Hs, gather_app, prod_app. reflexivity. }
    split; [exact Hp|]. split.
    - split; [|reflexivity]. unfold wf in *; simpl. rewrite Hw, Hp. lia.
    - intros idx Hv. rewrite <- (Hg idx Hv). unfold mget. apply get_reshape.
      rewrite ravel2, Hs, !gather_app. rewrite ravel_app by (rewrite !gather_length; reflexivity).
      reflexivity.
  Qed.

  (** such a matrix is determined *)
  Lemma as_matrix_unique t r c m m' : Permutation (r ++ c) (seq 0 (ndims t)) ->
    as_matrix t r c m -> as_matrix t r c m' -> m = m'.
  Proof.
    intros H [Hm Hg] [Hm' Hg']. eapply mat_ext; eauto. intros i j Hi Hj.
    set (sr := gather 0 r (shp t)) in *. set (sc := gather 0 c (shp t)) in *.
    assert (Hv : valid (gather 0 (r ++ c) (shp t)) (unravel sr i ++ unravel sc j)).
    { rewrite gather_app. apply valid_app; apply unravel_valid; auto. }
    destruct (gather_surj _ _ _ H Hv) as (idx & Hvi & E).
    rewrite gather_app in E. apply app_eq_app in E.
    assert (E2 : gather 0 r idx = unravel sr i /\ gather 0 c idx = unravel sc j).
    { assert (L : length (gather 0 r idx) = length (unravel sr i)).
      { rewrite gather_length. rewrite (valid_length _ _ (unravel_valid sr i Hi)). unfold sr.
        rewrite gather_length. reflexivity. }
      destruct E as (l & [[E1 E2]|[E1 E2]]); rewrite E1, app_length in L;
        assert (length l = 0) by lia; destruct l; try discriminate;
        rewrite app_nil_r in E1; simpl in E2; auto. }
    destruct E2 as [E1 E2]. specialize (Hg idx Hvi). specialize (Hg' idx Hvi).
    rewrite E1, E2, !ravel_unravel in Hg, Hg' by auto. congruence.
  Qed.

  Lemma prod_picks r c s : Permutation (r ++ c) (seq 0 (length s)) ->
    prod (gather 0 r s) * prod (gather 0 c s) = prod s.
  Proof.
    intros H. rewrite <- prod_app, <- gather_app. apply prod_perm, gather_perm, H.
  Qed.

  (** ** unfold *)

  Lemma unfold_ok t n : n < ndims t -> nth n (shp t) 0 <> 0 ->
    exists u, unfold t (Z.of_nat n) = Ok u /\
      as_matrix t [n] (rev (others n (ndims t))) u.
  Proof.
    intros Hn Hd. unfold unfold. rewrite gen_perm_ok by auto. unfold bind at 1.
    destruct (transpose_matrix t [n] (rev (others n (ndims t)))) as (tr & Htr & Hw & Hp & Hm).
    { apply kolda_perm; auto. }
    simpl app in Htr. rewrite Htr. unfold bind at 1.
    rewrite pynth_nat with (d := 0) by exact Hn. unfold bind.
    rewrite reshape_d_m1_ok with (k := prod (gather 0 (rev (others n (ndims t))) (shp t))); auto.
    - eexists; split; [reflexivity|]. simpl in Hm. rewrite Nat.mul_1_r in Hm. exact Hm.
    - rewrite Hp. simpl. lia.
  Qed.

  Lemma unfold_err_mode t z : (z < 0 \/ Z.of_nat (ndims t) <= z)%Z -> unfold t z = Raise ValueError.
  Proof. intros H. unfold unfold. rewrite gen_perm_err by auto. reflexivity. Qed.

  Lemma unfold_err_zero t n : n < ndims t -> nth n (shp t) 0 = 0 ->
    unfold t (Z.of_nat n) = Raise ValueError.
  Proof.
    intros Hn Hd. unfold unfold. rewrite gen_perm_ok by auto. unfold bind at 1.
    destruct (transpose_matrix t [n] (rev (others n (ndims t)))) as (tr & Htr & _).
    { apply kolda_perm; auto. }
    simpl app in Htr. rewrite Htr. unfold bind at 1.
    rewrite pynth_nat with (d := 0) by exact Hn. unfold bind. rewrite Hd.
    rewrite reshape_d_m1. reflexivity.
  Qed.

  Lemma as_matrix_kolda t n u : n < ndims t -> as_matrix t [n] (rev (others n (ndims t))) u ->
    is_mat u (nth n (shp t) 0) (nprod (pick (others n (ndims t)) (shp t))) /\
    forall idx, valid (shp t) idx -> mget u (nth n idx 0) (kolda_col (shp t) n idx) = get t idx.
  Proof.
    intros Hn [Hm Hg]. split.
    - rewrite gather_rev, prod_rev in Hm. simpl in Hm. rewrite Nat.mul_1_r in Hm.
      rewrite pick_gather, <- prod_nprod. exact Hm.
    - intros idx Hv. rewrite <- (Hg idx Hv). unfold ndims.
      rewrite ravel_kolda by (apply valid_length; auto). simpl. f_equal. lia.
  Qed.

  (** ** fold *)

  Lemma fold_ok (m : tensor T) n s : n < length s -> prod (shp m) = prod s -> wf m ->
    exists t, fold m (Z.of_nat n) s = Ok t /\ wf t /\ shp t = s /\
      forall idx, valid s idx ->
        get t idx = nth (ravel (gather 0 (n :: rev (others n (length s))) s)
                               (gather 0 (n :: rev (others n (length s))) idx)) (dat m) n0.
  Proof.
    intros Hn Hp Hw. set (p := n :: rev (others n (length s))).
    assert (HP : Permutation p (seq 0 (length s))) by (apply kolda_perm; auto).
    unfold fold. rewrite gen_perm_ok by auto. unfold bind at 1. fold p.
    rewrite mapM_map. rewrite (mapM_ok _ (fun a => nth a s 0)).
    2:{ intros a Ha. apply pynth_nat. apply (perm_in_lt _ _ HP a Ha). }
    unfold bind at 1. change (map (fun a => nth a s 0) p) with (gather 0 p s).
    rewrite reshape_ok by (rewrite (prod_perm _ _ (gather_perm 0 p s HP)); auto).
    unfold bind. rewrite argsort_perm with (N := length s) by auto. rewrite map_map. cbn [fst snd].
    set (q := map (fun a => pos a p) (seq 0 (length s))).
    replace (map (fun x => Z.of_nat (pos x p)) (seq 0 (length s))) with (map Z.of_nat q)
      by (unfold q; rewrite map_map; reflexivity).
    assert (Lp : length p = length s) by (rewrite (Permutation_length HP), seq_length; auto).
    assert (HQ : Permutation q (seq 0 (length s))).
    { transitivity (map (fun a => pos a p) p).
      - unfold q. apply Permutation_map, Permutation_sym, HP.
      - replace (map (fun a => pos a p) p)
          with (map (fun a => pos a p) (map (fun i => nth i p 0) (seq 0 (length p))))
          by (rewrite map_nth_seq; reflexivity). rewrite map_map, Lp.
        rewrite (map_ext_in _ (fun k => k)); [rewrite map_id; reflexivity|].
        intros k Hk. apply in_seq in Hk. apply pos_nth; [|lia].
        exact (perm_NoDup _ _ HP). }
    assert (G : forall l, length l = length s -> gather 0 q (gather 0 p l) = l).
    { intros l Hl. unfold gather at 1, q. rewrite map_map. rewrite <- Hl.
      apply scatter_gather. rewrite Hl. exact HP. }
    destruct (transpose_ok (mkT (gather 0 p s) (dat m)) q) as (t & Ht & Hwt & Hs & Hg).
    { change (Permutation q (seq 0 (length (gather 0 p s)))). rewrite gather_length, Lp. exact HQ. }
    exists t. split; [exact Ht|]. split; [exact Hwt|]. cbn [shp] in Hs. rewrite G in Hs by auto.
    split; [exact Hs|]. intros idx Hv.
    assert (Hv' : valid (gather 0 p s) (gather 0 p idx)).
    { apply gather_valid; auto. intros a Ha. apply (perm_in_lt _ _ HP a Ha). }
    specialize (Hg (gather 0 p idx) Hv'). rewrite G in Hg by (apply valid_length; auto).
    rewrite Hg. reflexivity.
  Qed.

  Lemma fold_err_mode (m : tensor T) z s : (z < 0 \/ Z.of_nat (length s) <= z)%Z ->
    fold m z s = Raise ValueError.
  Proof. intros H. unfold fold. rewrite gen_perm_err by auto. reflexivity. Qed.

  Lemma fold_err_size (m : tensor T) n s : n < length s -> prod (shp m) <> prod s ->
    fold m (Z.of_nat n) s = Raise ValueError.
  Proof.
    intros Hn Hp. set (p := n :: rev (others n (length s))).
    assert (HP : Permutation p (seq 0 (length s))) by (apply kolda_perm; auto).
    unfold fold. rewrite gen_perm_ok by auto. unfold bind at 1. fold p.
    rewrite mapM_map. rewrite (mapM_ok _ (fun a => nth a s 0)).
    2:{ intros a Ha. apply pynth_nat. apply (perm_in_lt _ _ HP a Ha). }
    unfold bind at 1. change (map (fun a => nth a s 0) p) with (gather 0 p s).
    rewrite reshape_nat. rewrite (prod_perm _ _ (gather_perm 0 p s HP)).
    destruct (Nat.eqb_spec (prod s) (prod (shp m))); [congruence | reflexivity].
  Qed.

  Lemma fold_unfold t n u : wf t -> n < ndims t ->
    unfold t (Z.of_nat n) = Ok u -> fold u (Z.of_nat n) (shp t) = Ok t.
  Proof.
    intros Hw Hn Hu.
    assert (Hd : nth n (shp t) 0 <> 0).
    { intros E. rewrite unfold_err_zero in Hu by auto. discriminate. }
    destruct (unfold_ok t n Hn Hd) as (u' & Hu' & [[Hwu Hs] Hg]).
    rewrite Hu in Hu'. injection Hu' as <-.
    set (c := rev (others n (ndims t))) in *.
    assert (HP : Permutation ([n] ++ c) (seq 0 (ndims t))) by (apply kolda_perm; auto).
    destruct (fold_ok u n (shp t)) as (t' & Ht' & Hwt & Hst & Hgt); auto.
    { pose proof (prod_picks [n] c (shp t) HP) as E. rewrite Hs. simpl in *. lia. }
    rewrite Ht'. f_equal. apply tensor_ext; auto. rewrite Hst.
    intros idx Hv. rewrite Hgt by auto. rewrite <- (Hg idx Hv).
    unfold mget, get. rewrite Hs. f_equal. rewrite ravel2. simpl. fold (ndims t). fold c. lia.
  Qed.

  Lemma unfold_fold (m : tensor T) n s t : n < length s -> nth n s 0 <> 0 ->
    is_mat m (nth n s 0) (nprod (pick (others n (length s)) s)) ->
    fold m (Z.of_nat n) s = Ok t -> unfold t (Z.of_nat n) = Ok m.
  Proof.
    intros Hn Hd [Hw Hs] Hf. set (c := rev (others n (length s))).
    assert (HP : Permutation ([n] ++ c) (seq 0 (length s))) by (apply kolda_perm; auto).
    assert (E : nprod (pick (others n (length s)) s) = prod (gather 0 c s)).
    { unfold c. rewrite gather_rev, prod_rev. reflexivity. }
    rewrite E in Hs. 
    destruct (fold_ok m n s Hn) as (t' & Ht' & Hwt & Hst & Hgt); auto.
    { pose proof (prod_picks [n] c s HP) as E'. rewrite Hs. simpl in *. lia. }
    rewrite Hf in Ht'. injection Ht' as <-.
    assert (Hnt : n < ndims t) by (unfold ndims; rewrite Hst; auto).
    destruct (unfold_ok t n Hnt) as (u & Hu & Ha); [rewrite Hst; auto|].
    rewrite Hu. f_equal. apply (as_matrix_unique t [n] (rev (others n (ndims t)))); auto.
    { apply kolda_perm; auto. }
    unfold ndims. rewrite Hst. fold c. split.
    - rewrite Hst. simpl. rewrite Nat.mul_1_r. split; auto.
    - rewrite Hst. intros idx Hv. rewrite Hgt by auto. unfold mget, get. rewrite Hs, ravel2.
      simpl. fold c. f_equal. lia.
  Qed.

  (** ** t2mat *)

  Lemma dims_ok t l : (forall a, In a l -> a < ndims t) ->
    mapM (dim t) (map Z.of_nat l) = Ok (gather 0 l (shp t)).
  Proof.
    intros H. rewrite mapM_map. apply mapM_ok. intros a Ha. apply pynth_nat. apply H; auto.
  Qed.

  Lemma perm_app_lt r c n : Permutation (r ++ c) (seq 0 n) ->
    (forall a, In a r -> a < n) /\ (forall a, In a c -> a < n).
  Proof.
    intros H. split; intros a Ha; apply (perm_in_lt _ _ H); apply in_or_app; auto.
  Qed.

  Lemma t2mat_core t r c : Permutation (r ++ c) (seq 0 (ndims t)) ->
    exists m, (do tr <- tf_transpose t (map Z.of_nat r ++ map Z.of_nat c);
               tf_reshape tr [Z.of_nat (prod (gather 0 r (shp t))); Z.of_nat (prod (gather 0 c (shp t)))])
              = Ok m /\ as_matrix t r c m.
  Proof.
    intros H. destruct (transpose_matrix t r c H) as (tr & Htr & Hw & Hp & Hm).
    rewrite <- map_app, Htr. unfold bind.
    pose proof (reshape_ok tr [prod (gather 0 r (shp t)); prod (gather 0 c (shp t))]) as E.
    simpl map in E. rewrite E by (rewrite Hp; simpl; lia).
    eexists; split; [reflexivity | exact Hm].
  Qed.

  Lemma t2mat_list t r c : Permutation (r ++ c) (seq 0 (ndims t)) ->
    exists m, t2mat t (AList (map Z.of_nat r)) (AList (map Z.of_nat c)) = Ok m /\ as_matrix t r c m.
  Proof.
    intros H. destruct (perm_app_lt r c _ H) as [Hr Hc].
    destruct (t2mat_core t r c H) as (m & Hm & Ha). exists m. split; auto.
    unfold t2mat, t2mat_full. rewrite dims_ok by auto. simpl. rewrite dims_ok by auto. simpl. exact Hm.
  Qed.

  Lemma t2mat_tuple t r c : Permutation (r ++ c) (seq 0 (ndims t)) ->
    exists m, t2mat t (ATuple (map Z.of_nat r)) (ATuple (map Z.of_nat c)) = Ok m /\ as_matrix t r c m.
  Proof.
    intros H. destruct (perm_app_lt r c _ H) as [Hr Hc].
    destruct (t2mat_core t r c H) as (m & Hm & Ha). exists m. split; auto.
    unfold t2mat, t2mat_full. rewrite dims_ok by auto. simpl. rewrite dims_ok by auto. simpl. exact Hm.
  Qed.

  Lemma t2mat_int_list t n c : Permutation (n :: c) (seq 0 (ndims t)) ->
    t2mat t (AInt (Z.of_nat n)) (AList (map Z.of_nat c)) =
    t2mat t (AList [Z.of_nat n]) (AList (map Z.of_nat c)).
  Proof.
    intros H. unfold t2mat, t2mat_full. simpl.
    destruct (dim t (Z.of_nat n)) as [d|e] eqn:E; simpl; [|reflexivity].
    rewrite Nat.mul_1_r. reflexivity.
  Qed.

  Lemma t2mat_int_int t n c : 
    t2mat t (AInt (Z.of_nat n)) (AInt (Z.of_nat c)) =
    t2mat t (AList [Z.of_nat n]) (AList [Z.of_nat c]).
  Proof.
    unfold t2mat, t2mat_full. simpl.
    destruct (dim t (Z.of_nat n)) as [d|e] eqn:E; simpl; [|reflexivity].
    destruct (Z.eqb_spec (Z.of_nat c) (-1)); [lia|]. simpl.
    destruct (dim t (Z.of_nat c)) as [d'|e] eqn:E'; simpl; [|reflexivity].
    rewrite !Nat.mul_1_r. reflexivity.
  Qed.

  Lemma t2mat_list_int t r c : 
    t2mat t (AList (map Z.of_nat r)) (AInt (Z.of_nat c)) =
    t2mat t (AList (map Z.of_nat r)) (AList [Z.of_nat c]).
  Proof.
    unfold t2mat, t2mat_full.
    destruct (mapM (dim t) (map Z.of_nat r)) as [d|e] eqn:E; simpl; [|reflexivity].
    destruct (Z.eqb_spec (Z.of_nat c) (-1)); [lia|]. simpl.
    destruct (dim t (Z.of_nat c)) as [d'|e] eqn:E'; simpl; [|reflexivity].
    rewrite !Nat.mul_1_r. reflexivity.
  Qed.

  (** all remaining axes, ascending *)
  Definition remaining (r : list nat) (n : nat) : list nat :=
    filter (fun k => negb (existsb (Nat.eqb k) r)) (seq 0 n).

  Lemma remaining_in r n k : In k (remaining r n) <-> k < n /\ ~ In k r.
  Proof.
    unfold remaining. rewrite filter_In, in_seq, negb_true_iff.
    split; intros [H1 H2]; (split; [lia|]).
    - intros Hin. assert (existsb (Nat.eqb k) r = true); [|congruence].
      apply existsb_exists. exists k. split; auto. apply Nat.eqb_refl.
    - destruct (existsb (Nat.eqb k) r) eqn:E; auto. apply existsb_exists in E as (x & Hx & E).
      apply Nat.eqb_eq in E. subst. contradiction.
  Qed.

  Lemma remaining_perm r n : NoDup r -> (forall a, In a r -> a < n) ->
    Permutation (r ++ remaining r n) (seq 0 n).
  Proof.
    intros Hn Hr. apply NoDup_Permutation.
    - apply NoDup_app_intro; auto.
      + apply NoDup_filter, seq_NoDup.
      + intros x Hx Hx'. apply remaining_in in Hx'. tauto.
    - apply seq_NoDup.
    - intros x. rewrite in_app_iff, remaining_in, in_seq. split.
      + intros [H|H]; [apply Hr in H; lia | lia].
      + intros H. destruct (in_dec Nat.eq_dec x r); auto. right. split; [lia | auto].
  Qed.

  Lemma zmem_of_nat k r : zmem (Z.of_nat k) (map Z.of_nat r) = existsb (Nat.eqb k) r.
  Proof.
    unfold zmem. induction r as [|x r IH]; simpl; [reflexivity|]. rewrite IH. f_equal.
    destruct (Nat.eqb_spec k x), (Z.eqb_spec (Z.of_nat k) (Z.of_nat x)); lia.
  Qed.

  Lemma remaining_z r n :
    filter (fun i => negb (zmem i (map Z.of_nat r))) (zrange n) = map Z.of_nat (remaining r n).
  Proof.
    unfold zrange. rewrite filter_map. unfold remaining. f_equal. apply filter_ext.
    intros k. rewrite zmem_of_nat. reflexivity.
  Qed.

  Lemma t2mat_m1 t r :
    t2mat t (AList (map Z.of_nat r)) (AInt (-1)) =
    t2mat t (AList (map Z.of_nat r)) (AList (map Z.of_nat (remaining r (ndims t)))).
  Proof.
    unfold t2mat, t2mat_full. destruct (mapM (dim t) (map Z.of_nat r)) as [ds|e]; simpl; [|reflexivity].
    rewrite remaining_z. reflexivity.
  Qed.

  Lemma t2mat_int_m1 t n :
    t2mat t (AInt (Z.of_nat n)) (AInt (-1)) =
    t2mat t (AList [Z.of_nat n]) (AList (map Z.of_nat (remaining [n] (ndims t)))).
  Proof.
    pose proof (t2mat_m1 t [n]) as E. simpl map in E at 1 2. rewrite <- E. clear E.
    unfold t2mat, t2mat_full. simpl. destruct (dim t (Z.of_nat n)) as [d|e] eqn:E; simpl; [|reflexivity].
    rewrite Nat.mul_1_r. reflexivity.
  Qed.

  (** ** vectorize *)
  Lemma vectorize_ok t : vectorize t = Ok (mkT [prod (shp t)] (dat t)).
  Proof. apply reshape_m1. Qed.
End Layout.

Section Layout2.
  Context {T : Type} {N : Num T}.
  Implicit Types t : tensor T.

  (** every cell of the matrix is the image of a multi-index *)
  Lemma as_matrix_surj t r c i j : Permutation (r ++ c) (seq 0 (ndims t)) ->
    i < prod (gather 0 r (shp t)) -> j < prod (gather 0 c (shp t)) ->
    exists idx, valid (shp t) idx /\
      ravel (gather 0 r (shp t)) (gather 0 r idx) = i /\
      ravel (gather 0 c (shp t)) (gather 0 c idx) = j.
  Proof.
    intros H Hi Hj.
    set (sr := gather 0 r (shp t)) in *. set (sc := gather 0 c (shp t)) in *.
    assert (Hv : valid (gather 0 (r ++ c) (shp t)) (unravel sr i ++ unravel sc j)).
    { rewrite gather_app. apply valid_app; apply unravel_valid; auto. }
    destruct (gather_surj _ _ _ H Hv) as (idx & Hvi & E).
    rewrite gather_app in E. apply app_eq_app in E.
    assert (E2 : gather 0 r idx = unravel sr i /\ gather 0 c idx = unravel sc j).
    { assert (L : length (gather 0 r idx) = length (unravel sr i)).
      { rewrite gather_length. rewrite (valid_length _ _ (unravel_valid sr i Hi)). unfold sr.
        rewrite gather_length. reflexivity. }
      destruct E as (l & [[E1 E2]|[E1 E2]]); rewrite E1, app_length in L;
        assert (length l = 0) by lia; destruct l; try discriminate;
        rewrite app_nil_r in E1; simpl in E2; auto. }
    destruct E2 as [E1 E2]. exists idx. split; auto. rewrite E1, E2, !ravel_unravel by auto. auto.
  Qed.

  Lemma c01 t n : wf t -> n < ndims t -> nth n (shp t) 0 <> 0 ->
    exists u, unfold t (Z.of_nat n) = Ok u /\
      is_mat u (nth n (shp t) 0) (nprod (pick (others n (ndims t)) (shp t))) /\
      forall idx, valid (shp t) idx ->
        mget u (nth n idx 0) (kolda_col (shp t) n idx) = get t idx.
  Proof.
    intros Hw Hn Hd. destruct (unfold_ok t n Hn Hd) as (u & Hu & Ha). exists u. split; auto.
    apply as_matrix_kolda; auto.
  Qed.

  Lemma c01_cells (s : list nat) n i j : n < length s ->
    i < nth n s 0 -> j < nprod (pick (others n (length s)) s) ->
    exists idx, valid s idx /\ nth n idx 0 = i /\ kolda_col s n idx = j.
  Proof.
    intros Hn Hi Hj.
    destruct (as_matrix_surj (mkT s (@nil T)) [n] (rev (others n (length s))) i j)
      as (idx & Hv & E1 & E2).
    - apply kolda_perm; auto.
    - simpl. lia.
    - rewrite gather_rev, prod_rev. exact Hj.
    - simpl shp in *. exists idx. split; auto. split.
      + simpl in E1. lia.
      + rewrite <- E2. symmetry. apply ravel_kolda. apply valid_length; auto.
  Qed.

  Lemma c03_unfold t z :
    ((exists u, unfold t z = Ok u) <->
     (0 <= z < Z.of_nat (ndims t))%Z /\ nth (Z.to_nat z) (shp t) 0 <> 0) /\
    ((z < 0 \/ Z.of_nat (ndims t) <= z)%Z -> unfold t z = Raise ValueError) /\
    ((0 <= z < Z.of_nat (ndims t))%Z -> nth (Z.to_nat z) (shp t) 0 = 0 ->
     unfold t z = Raise ValueError).
  Proof.
    assert (Z1 : (0 <= z < Z.of_nat (ndims t))%Z -> nth (Z.to_nat z) (shp t) 0 = 0 ->
     unfold t z = Raise ValueError).
    { intros Hz Hd. replace z with (Z.of_nat (Z.to_nat z)) by lia. apply unfold_err_zero; [lia | auto]. }
    split; [|split; [apply unfold_err_mode | exact Z1]]. split.
    - intros [u Hu]. destruct (Z.ltb_spec z 0); [rewrite unfold_err_mode in Hu by lia; discriminate|].
      destruct (Z.leb_spec (Z.of_nat (ndims t)) z); [rewrite unfold_err_mode in Hu by lia; discriminate|].
      split; [lia|]. intros E. rewrite Z1 in Hu by (auto; lia). discriminate.
    - intros [Hz Hd]. destruct (unfold_ok t (Z.to_nat z)) as (u & Hu & _); [lia | auto |].
      rewrite Z2Nat.id in Hu by lia. eauto.
  Qed.

  Lemma c03_fold (m : tensor T) z s : wf m ->
    ((exists u, fold m z s = Ok u) <->
     (0 <= z < Z.of_nat (length s))%Z /\ nprod s = length (dat m)) /\
    ((z < 0 \/ Z.of_nat (length s) <= z)%Z -> fold m z s = Raise ValueError) /\
    (nprod s <> length (dat m) -> fold m z s = Raise ValueError).
  Proof.
    intros Hw. unfold wf in Hw.
    assert (Z1 : nprod s <> length (dat m) -> fold m z s = Raise ValueError).
    { intros Hd. destruct (Z.ltb_spec z 0); [apply fold_err_mode; lia|].
      destruct (Z.leb_spec (Z.of_nat (length s)) z); [apply fold_err_mode; lia|].
      replace z with (Z.of_nat (Z.to_nat z)) by lia. apply fold_err_size; [lia|].
      rewrite Hw in Hd. intros E. apply Hd. rewrite E. reflexivity. }
    split; [|split; [apply fold_err_mode | exact Z1]]. split.
    - intros [u Hu]. destruct (Z.ltb_spec z 0); [rewrite fold_err_mode in Hu by lia; discriminate|].
      destruct (Z.leb_spec (Z.of_nat (length s)) z); [rewrite fold_err_mode in Hu by lia; discriminate|].
      split; [lia|]. destruct (Nat.eq_dec (nprod s) (length (dat m))); auto.
      rewrite Z1 in Hu by auto. discriminate.
    - intros [Hz Hd]. destruct (fold_ok m (Z.to_nat z) s) as (u & Hu & _); [lia | | auto |].
      + rewrite <- Hw, <- Hd. reflexivity.
      + rewrite Z2Nat.id in Hu by lia. eauto.
  Qed.

  Lemma as_matrix_placed t r c m : as_matrix t r c m <-> placed t r c m.
  Proof.
    unfold as_matrix, placed. split; intros [H1 H2]; (split; [exact H1|]); intros idx Hv.
    - rewrite <- (H2 idx Hv). rewrite <- !ravel_rowmajor by (unfold pick; rewrite !map_length; auto).
      reflexivity.
    - rewrite <- (H2 idx Hv). rewrite <- !ravel_rowmajor by (unfold pick; rewrite !map_length; auto).
      reflexivity.
  Qed.

  Lemma remaining_others n k : remaining [n] k = others n k.
  Proof.
    unfold remaining, others. apply filter_ext. intros a. simpl. rewrite orb_false_r. reflexivity.
  Qed.

  Lemma c06_kolda t n : n < ndims t -> nth n (shp t) 0 <> 0 ->
    t2mat t (AInt (Z.of_nat n)) (AList (map Z.of_nat (rev (others n (ndims t)))))
    = unfold t (Z.of_nat n).
  Proof.
    intros Hn Hd. destruct (unfold_ok t n Hn Hd) as (u & Hu & Ha). rewrite Hu.
    pose proof (kolda_perm n (ndims t) Hn) as HP.
    rewrite t2mat_int_list by auto.
    destruct (t2mat_list t [n] (rev (others n (ndims t))) HP) as (m & Hm & Hma).
    simpl map in Hm at 1. rewrite Hm. f_equal. exact (as_matrix_unique t [n] _ m u HP Hma Ha).
  Qed.

  Lemma t2mat_post t r c :
    fst (t2mat_full t r c) =
    match r, c with
    | AList l, AInt z =>
        if (z =? -1)%Z then r
        else match mapM (dim t) l with Ok _ => AList (l ++ [z]) | Raise _ => r end
    | _, _ => r
    end.
  Proof.
    unfold t2mat_full. destruct r as [z|l|l].
    - destruct (dim t z); simpl; [|reflexivity]. destruct c as [z'|l'|l']; simpl; auto.
      destruct (z' =? -1)%Z; simpl; reflexivity.
    - destruct (mapM (dim t) l); simpl.
      + destruct c as [z'|l'|l']; simpl; auto. destruct (z' =? -1)%Z; simpl; reflexivity.
      + destruct c as [z'|l'|l']; auto. destruct (z' =? -1)%Z; reflexivity.
    - destruct (mapM (dim t) l); simpl; [|reflexivity]. destruct c as [z'|l'|l']; simpl; auto.
      destruct (z' =? -1)%Z; simpl; reflexivity.
  Qed.

  (** k successive calls with the same argument objects: the results *)
  Fixpoint t2mat_calls t (r c : axarg) (k : nat) : list (res (tensor T)) :=
    match k with
    | 0 => []
    | S k' => let '(r', m) := t2mat_full t r c in m :: t2mat_calls t r' c k'
    end.

  Lemma t2mat_calls_const t r c k : fst (t2mat_full t r c) = r ->
    t2mat_calls t r c k = repeat (t2mat t r c) k.
  Proof.
    intros H. induction k as [|k IH]; simpl; [reflexivity|].
    unfold t2mat. destruct (t2mat_full t r c) as [r' m] eqn:E. simpl in *. subst r'.
    rewrite IH. unfold t2mat. rewrite E. reflexivity.
  Qed.

  Lemma c07_vectorize t : wf t ->
    exists v, vectorize t = Ok v /\ wf v /\ shp v = [nprod (shp t)] /\
      (forall idx, valid (shp t) idx -> get v [rowmajor (shp t) idx] = get t idx) /\
      vec_to_tensor v (map Z.of_nat (shp t)) = Ok t.
  Proof.
    intros Hw. exists (mkT [prod (shp t)] (dat t)). split; [apply vectorize_ok|].
    split; [unfold wf in *; simpl; lia|]. split; [reflexivity|]. split.
    - intros idx Hv. rewrite <- ravel_rowmajor by (apply valid_length; auto).
      unfold get; simpl. rewrite Nat.mul_1_r, Nat.add_0_r. reflexivity.
    - unfold vec_to_tensor. rewrite reshape_ok by (simpl; lia). cbn [dat]. rewrite tensor_eta. reflexivity.
  Qed.

  Lemma c07_vec (v : tensor T) n s : wf v -> shp v = [n] ->
    (nprod s = n -> exists t, vec_to_tensor v (map Z.of_nat s) = Ok t /\ wf t /\ shp t = s /\
                              vectorize t = Ok v) /\
    (nprod s <> n -> vec_to_tensor v (map Z.of_nat s) = Raise ValueError).
  Proof.
    intros Hw Hs. unfold vec_to_tensor. rewrite reshape_nat, Hs. change (prod s) with (nprod s). simpl prod.
    rewrite Nat.mul_1_r. split; intros H.
    - rewrite H, Nat.eqb_refl. eexists; split; [reflexivity|]. unfold wf in *; simpl.
      change (prod s) with (nprod s). rewrite Hw, Hs, H. simpl. rewrite Nat.mul_1_r.
      split; [auto|]. split; [auto|]. rewrite vectorize_ok. simpl.
      change (prod s) with (nprod s). rewrite H, <- Hs, tensor_eta. reflexivity.
    - destruct (Nat.eqb_spec (nprod s) n); [contradiction | reflexivity].
  Qed.
End Layout2.
