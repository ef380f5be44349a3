(** Lemmas about row-major layout. *)

From Coq Require Import ZArith List Bool Arith Lia Permutation.
From Verif Require Import Num Py Tensor TF.
Import ListNotations.

(** ** Lists *)

Lemma nth_flat_map_const {A B} (f : A -> list B) (l : list A) (m : nat) :
  (forall a, In a l -> length (f a) = m) ->
  forall i j da db, i < length l -> j < m ->
    nth (i * m + j) (flat_map f l) db = nth j (f (nth i l da)) db.
Proof.
  induction l as [|a l IH]; intros Hl i j da db Hi Hj; simpl in *; [lia|].
  assert (Ha : length (f a) = m) by (apply Hl; auto).
  destruct i as [|i].
  - simpl. rewrite app_nth1; [reflexivity | lia].
  - rewrite app_nth2 by (simpl; nia).
    replace (S i * m + j - length (f a)) with (i * m + j) by (simpl; nia).
    simpl. apply IH; auto; lia.
Qed.

Lemma length_flat_map_const {A B} (f : A -> list B) (l : list A) (m : nat) :
  (forall a, In a l -> length (f a) = m) -> length (flat_map f l) = length l * m.
Proof.
  induction l as [|a l IH]; intros Hl; simpl; [reflexivity|].
  rewrite app_length, IH by (intros; apply Hl; simpl; auto).
  rewrite (Hl a) by (simpl; auto). reflexivity.
Qed.

Lemma nth_map_lt {A B} (f : A -> B) (l : list A) (n : nat) (da : A) (db : B) :
  n < length l -> nth n (map f l) db = f (nth n l da).
Proof.
  intros H. rewrite (nth_indep (map f l) db (f da)) by (rewrite map_length; auto).
  apply map_nth.
Qed.

Lemma Forall2_len {A B} (P : A -> B -> Prop) l l' : Forall2 P l l' -> length l = length l'.
Proof. induction 1; simpl; auto. Qed.

Lemma Forall2_nth {A B} (P : A -> B -> Prop) (l : list A) (l' : list B) :
  Forall2 P l l' -> forall n da db, n < length l -> P (nth n l da) (nth n l' db).
Proof.
  induction 1; intros [|n] da db Hn; simpl in *; try lia; auto.
  apply IHForall2; lia.
Qed.

Lemma nth_Forall2 {A B} (P : A -> B -> Prop) (da : A) (db : B) (l : list A) :
  forall l', length l = length l' ->
  (forall n, n < length l -> P (nth n l da) (nth n l' db)) -> Forall2 P l l'.
Proof.
  induction l as [|a l IH]; intros [|b l'] Hl H; simpl in *; try discriminate; constructor.
  - apply (H 0); lia.
  - apply IH; [lia|]. intros n Hn. apply (H (S n)); lia.
Qed.

Lemma map_nth_seq {A} (l : list A) (d : A) : map (fun i => nth i l d) (seq 0 (length l)) = l.
Proof.
  apply nth_ext with (d := d) (d' := d).
  - rewrite map_length, seq_length. reflexivity.
  - intros n Hn. rewrite map_length, seq_length in Hn.
    rewrite nth_map_lt with (da := 0) by (rewrite seq_length; auto).
    rewrite seq_nth by auto. reflexivity.
Qed.

(** ** prod, ravel, indices *)

Lemma prod_app (a b : list nat) : prod (a ++ b) = prod a * prod b.
Proof. induction a; simpl; [lia | rewrite IHa; lia]. Qed.

Lemma prod_perm (a b : list nat) : Permutation a b -> prod a = prod b.
Proof. induction 1; simpl; lia. Qed.

Lemma prod_rev (a : list nat) : prod (rev a) = prod a.
Proof. apply prod_perm, Permutation_sym, Permutation_rev. Qed.

Lemma prod_pos (s : list nat) : (forall d, In d s -> 0 < d) -> 0 < prod s.
Proof.
  induction s as [|d s IH]; simpl; intros H; [lia|].
  assert (0 < d) by auto. assert (0 < prod s) by auto. nia.
Qed.

Lemma prod_zero_in (s : list nat) : prod s = 0 <-> In 0 s.
Proof.
  induction s as [|d s IH]; simpl; [lia|].
  split; intros H.
  - apply Nat.mul_eq_0 in H as [H|H]; [left; auto | right; apply IH; auto].
  - destruct H as [H|H]; [subst; lia|]. apply IH in H. lia.
Qed.

Lemma prod_firstn_skipn n s : prod s = prod (firstn n s) * prod (skipn n s).
Proof. rewrite <- prod_app, firstn_skipn. reflexivity. Qed.

Lemma valid_length s idx : valid s idx -> length idx = length s.
Proof. apply Forall2_len. Qed.

Lemma valid_nth s idx n : valid s idx -> n < length s -> nth n idx 0 < nth n s 0.
Proof.
  intros H Hn. apply (Forall2_nth lt idx s H).
  rewrite (valid_length _ _ H); auto.
Qed.

Lemma valid_app s1 s2 i1 i2 : valid s1 i1 -> valid s2 i2 -> valid (s1 ++ s2) (i1 ++ i2).
Proof. apply Forall2_app. Qed.

Lemma valid_app_inv s1 s2 idx :
  valid (s1 ++ s2) idx -> exists i1 i2, idx = i1 ++ i2 /\ valid s1 i1 /\ valid s2 i2.
Proof.
  intros H. unfold valid in H. apply Forall2_app_inv_r in H.
  destruct H as (i1 & i2 & H1 & H2 & ->). exists i1, i2. repeat split; auto.
Qed.

Lemma valid_rev s idx : valid s idx -> valid (rev s) (rev idx).
Proof.
  unfold valid. induction 1; simpl; [constructor|].
  apply Forall2_app; auto.
Qed.

Lemma ravel_lt s : forall idx, valid s idx -> ravel s idx < prod s.
Proof.
  induction s as [|d s IH]; intros idx H; inversion H; subst; simpl; [lia|].
  assert (Hr := IH _ H4). nia.
Qed.

Lemma ravel_app s1 : forall i1 s2 i2, length i1 = length s1 ->
  ravel (s1 ++ s2) (i1 ++ i2) = ravel s1 i1 * prod s2 + ravel s2 i2.
Proof.
  induction s1 as [|d s IH]; intros [|i i1] s2 i2 H; simpl in *; try discriminate; [lia|].
  rewrite IH by lia. rewrite prod_app. lia.
Qed.

Lemma ravel_inj s : forall i j, valid s i -> valid s j -> ravel s i = ravel s j -> i = j.
Proof.
  induction s as [|d s IH]; intros i j Hi Hj H; inversion Hi; inversion Hj; subst; auto.
  simpl in H.
  match goal with
  | A : Forall2 lt ?a s, B : Forall2 lt ?b s |- _ =>
      assert (Ha := ravel_lt _ _ A); assert (Hb := ravel_lt _ _ B);
      match goal with |- ?x :: _ = ?y :: _ =>
        assert (x = y) by nia; subst; f_equal; apply IH; auto; lia
      end
  end.
Qed.

Lemma length_indices s : length (indices s) = prod s.
Proof.
  induction s as [|d s IH]; simpl; [reflexivity|].
  rewrite length_flat_map_const with (m := prod s).
  - rewrite seq_length. reflexivity.
  - intros a _. rewrite map_length. auto.
Qed.

Lemma in_indices s : forall idx, In idx (indices s) <-> valid s idx.
Proof.
  induction s as [|d s IH]; intros idx; simpl.
  - split.
    + intros [<-|[]]. constructor.
    + intros H. inversion H. auto.
  - rewrite in_flat_map. split.
    + intros (i & Hi & Hin). apply in_seq in Hi. apply in_map_iff in Hin.
      destruct Hin as (r & <- & Hr). apply IH in Hr. constructor; [lia | exact Hr].
    + intros H. inversion H; subst. exists x. split; [apply in_seq; lia|].
      apply in_map. apply IH. auto.
Qed.

Lemma nth_indices s : forall idx d, valid s idx -> nth (ravel s idx) (indices s) d = idx.
Proof.
  induction s as [|n s IH]; intros idx d H; inversion H; subst; simpl; [reflexivity|].
  rewrite nth_flat_map_const with (m := prod s) (da := 0).
  - rewrite seq_nth by auto. simpl.
    rewrite nth_map_lt with (da := []) by (rewrite length_indices; apply ravel_lt; auto).
    rewrite IH by auto. reflexivity.
  - intros a _. rewrite map_length. apply length_indices.
  - rewrite seq_length; auto.
  - apply ravel_lt; auto.
Qed.

Lemma NoDup_map_cons {A} (x : A) (l : list (list A)) : NoDup l -> NoDup (map (cons x) l).
Proof.
  induction 1; simpl; constructor; auto.
  rewrite in_map_iff. intros (y & Hy & Hin). injection Hy as ->. auto.
Qed.

Lemma NoDup_app_intro {A} (l l' : list A) :
  NoDup l -> NoDup l' -> (forall x, In x l -> ~ In x l') -> NoDup (l ++ l').
Proof.
  induction 1 as [|a l Hn H IH]; simpl; auto; intros Hl' Hd.
  constructor.
  - rewrite in_app_iff. intros [?|?]; [auto | eapply Hd; eauto].
  - apply IH; auto.
Qed.

Lemma NoDup_indices s : NoDup (indices s).
Proof.
  induction s as [|d s IH]; simpl; [repeat constructor; auto|].
  assert (forall k n, NoDup (flat_map (fun i => map (cons i) (indices s)) (seq k n))) as H;
    [|apply H].
  intros k n. revert k. induction n as [|n IHn]; intros k; simpl; [constructor|].
  apply NoDup_app_intro; auto using NoDup_map_cons.
  intros x Hx Hx'. apply in_map_iff in Hx as (r & <- & _).
  apply in_flat_map in Hx' as (i & Hi & Hin). apply in_seq in Hi.
  apply in_map_iff in Hin as (r' & Hr & _). injection Hr as -> _. lia.
Qed.

(** the multi-index at offset k *)
Definition unravel (s : list nat) (k : nat) : list nat := nth k (indices s) [].

Lemma unravel_valid s k : k < prod s -> valid s (unravel s k).
Proof. intros H. apply in_indices. apply nth_In. rewrite length_indices; auto. Qed.

Lemma ravel_unravel s k : k < prod s -> ravel s (unravel s k) = k.
Proof.
  intros H. pose proof (unravel_valid s k H) as Hv.
  apply (proj1 (NoDup_nth (indices s) []) (NoDup_indices s)).
  - rewrite length_indices. apply ravel_lt; auto.
  - rewrite length_indices; auto.
  - rewrite nth_indices by auto. reflexivity.
Qed.

Lemma unravel_ravel s idx : valid s idx -> unravel s (ravel s idx) = idx.
Proof. intros. apply nth_indices; auto. Qed.

Lemma map_ravel_indices s : map (ravel s) (indices s) = seq 0 (prod s).
Proof.
  apply nth_ext with (d := 0) (d' := 0).
  - rewrite map_length, seq_length. apply length_indices.
  - intros n Hn. rewrite map_length, length_indices in Hn.
    rewrite nth_map_lt with (da := []) by (rewrite length_indices; auto).
    rewrite seq_nth by auto. apply (ravel_unravel s n Hn).
Qed.

Lemma indices_unravel s : indices s = map (unravel s) (seq 0 (prod s)).
Proof.
  unfold unravel. rewrite <- length_indices. symmetry. apply map_nth_seq.
Qed.

(** little-endian reading of a reversed index *)
Lemma ravel_rev s : forall idx, length idx = length s ->
  ravel (rev s) (rev idx) =
  fold_right Nat.add 0 (map (fun k => nth k idx 0 * prod (firstn k s)) (seq 0 (length s))).
Proof.
  assert (G : forall s idx, length idx = length s -> forall pre,
    prod pre * ravel (rev s) (rev idx) =
    fold_right Nat.add 0 (map (fun k => nth k idx 0 * prod (pre ++ firstn k s)) (seq 0 (length s)))).
  { clear. induction s as [|d s IH]; intros [|i idx] H pre; simpl in *; try discriminate.
    - lia.
    - rewrite ravel_app by (rewrite !rev_length; lia).
      rewrite <- seq_shift, map_map. simpl.
      assert (E := IH idx (eq_add_S _ _ H) (pre ++ [d])).
      rewrite prod_app in E. simpl in E.
      replace (map (fun x => nth x idx 0 * prod (pre ++ d :: firstn x s)) (seq 0 (length s)))
        with (map (fun k => nth k idx 0 * prod ((pre ++ [d]) ++ firstn k s)) (seq 0 (length s))).
      2:{ apply map_ext. intros k. rewrite <- app_assoc. reflexivity. }
      rewrite <- E. rewrite app_nil_r. lia. }
  intros idx H. specialize (G s idx H []). simpl in G. rewrite Nat.add_0_r in G. exact G.
Qed.

(** ** tensors *)
Section T.
  Context {T : Type} {N : Num T}.
  Implicit Types t : tensor T.

  Lemma wf_gen s f : wf (gen (T := T) s f).
  Proof. unfold wf, gen; simpl. rewrite map_length. apply length_indices. Qed.

  Lemma shp_gen s (f : list nat -> T) : shp (gen s f) = s.
  Proof. reflexivity. Qed.

  Lemma get_gen s f idx : valid s idx -> get (gen s f) idx = f idx.
  Proof.
    intros H. unfold get, gen; simpl.
    rewrite nth_map_lt with (da := []) by (rewrite length_indices; apply ravel_lt; auto).
    rewrite nth_indices; auto.
  Qed.

  Lemma tensor_eta t : mkT (shp t) (dat t) = t.
  Proof. destruct t; reflexivity. Qed.

  Lemma tensor_ext a b : wf a -> wf b -> shp a = shp b ->
    (forall idx, valid (shp a) idx -> get a idx = get b idx) -> a = b.
  Proof.
    intros Ha Hb Hs H. destruct a as [s da], b as [s' db]; simpl in *. subst s'.
    f_equal. unfold wf in *; simpl in *.
    apply nth_ext with (d := n0) (d' := n0); [congruence|].
    intros k Hk. rewrite Ha in Hk.
    specialize (H (unravel s k) (unravel_valid s k Hk)).
    unfold get in H; simpl in H. rewrite !ravel_unravel in H by auto. exact H.
  Qed.

  Lemma gen_get t : wf t -> gen (shp t) (get t) = t.
  Proof.
    intros H. apply tensor_ext; auto using wf_gen.
    intros idx Hi. apply get_gen; auto.
  Qed.

  Lemma gen_ext s (f g : list nat -> T) :
    (forall idx, valid s idx -> f idx = g idx) -> gen s f = gen s g.
  Proof.
    intros H. unfold gen. f_equal. apply map_ext_in. intros idx Hi. apply H, in_indices; auto.
  Qed.

  (** entry of a buffer read under another shape *)
  Lemma get_reshape s t idx idx' :
    ravel s idx' = ravel (shp t) idx -> get (mkT s (dat t)) idx' = get t idx.
  Proof. intros H. unfold get; simpl. rewrite H. reflexivity. Qed.

  Lemma dat_gen_get t : wf t -> dat t = map (get t) (indices (shp t)).
  Proof. intros H. rewrite <- (gen_get t H) at 1. reflexivity. Qed.

  (** matrices *)
  Lemma valid2 r c i j : i < r -> j < c -> valid [r; c] [i; j].
  Proof. intros. repeat constructor; auto. Qed.

  Lemma valid2_inv r c idx : valid [r; c] idx -> exists i j, idx = [i; j] /\ i < r /\ j < c.
  Proof.
    intros H. inversion H as [|i d l s Hi Hr]; subst. inversion Hr as [|j d' l' s' Hj Hr']; subst.
    inversion Hr'; subst. exists i, j. auto.
  Qed.

  Lemma mget_mgen r c f i j : i < r -> j < c -> mget (mgen (T := T) r c f) i j = f i j.
  Proof.
    intros. unfold mget, mgen. rewrite get_gen by (apply valid2; auto). reflexivity.
  Qed.

  Lemma is_mat_mgen r c f : is_mat (mgen (T := T) r c f) r c.
  Proof. split; [apply wf_gen | reflexivity]. Qed.

  Lemma mat_ext A B r c : is_mat A r c -> is_mat B r c ->
    (forall i j, i < r -> j < c -> mget A i j = mget B i j) -> A = B.
  Proof.
    intros [Ha Hsa] [Hb Hsb] H. apply tensor_ext; auto; [congruence|].
    rewrite Hsa. intros idx Hi. apply valid2_inv in Hi as (i & j & -> & Hi & Hj).
    apply H; auto.
  Qed.

  Lemma mgen_ext r c (f g : nat -> nat -> T) :
    (forall i j, i < r -> j < c -> f i j = g i j) -> mgen r c f = mgen r c g.
  Proof.
    intros H. apply gen_ext. intros idx Hv. apply valid2_inv in Hv as (i & j & -> & Hi & Hj).
    simpl. auto.
  Qed.

  Lemma mgen_mget A r c : is_mat A r c -> mgen r c (mget A) = A.
  Proof.
    intros H. apply mat_ext with (r := r) (c := c); auto using is_mat_mgen.
    intros. apply mget_mgen; auto.
  Qed.

  Lemma ravel2 r c i j : ravel [r; c] [i; j] = i * c + j.
  Proof. simpl. lia. Qed.
End T.
