(** The specification's sums and products agree with the model's. *)

From Coq Require Import ZArith List Bool Arith Lia Permutation.
From Verif Require Import Num Py Tensor TF TensorFacts TFFacts Sums Spec LayoutFacts.
Import ListNotations.

Section SpecFacts.
  Context {T : Type} {N : Num T}.

  Lemma lprod_listprod (l : list T) : lprod l = listprod l.
  Proof. induction l as [|x l IH]; [reflexivity|]. simpl. rewrite <- IH. reflexivity. Qed.
  Lemma lsum_listsum (l : list T) : lsum l = listsum l.
  Proof. induction l as [|x l IH]; [reflexivity|]. simpl. rewrite <- IH. reflexivity. Qed.

  Lemma bigsum_ext n (f g : nat -> T) : (forall i, i < n -> f i = g i) -> bigsum n f = bigsum n g.
  Proof. induction n as [|n IH]; intros H; simpl; [reflexivity|]. rewrite IH, H by auto. reflexivity. Qed.

  Lemma bigprod_ext n (f g : nat -> T) : (forall i, i < n -> f i = g i) -> bigprod n f = bigprod n g.
  Proof. induction n as [|n IH]; intros H; simpl; [reflexivity|]. rewrite IH, H by auto. reflexivity. Qed.

  Lemma msum_ext s : forall (f g : list nat -> T), (forall i, valid s i -> f i = g i) -> msum s f = msum s g.
  Proof.
    induction s as [|d s IH]; intros f g H; simpl.
    - apply H. constructor.
    - apply bigsum_ext. intros i Hi. apply IH. intros r Hr. apply H. constructor; auto.
  Qed.

  Context (RL : RingLaws T).
  Let RLu : ring_theory n0 n1 nadd nmul nsub nopp (@eq T) := RL.
  Add Ring TRing2 : RLu.

  Lemma sumn_bigsum n (f : nat -> T) : sumn n f = bigsum n f.
  Proof. induction n as [|n IH]; [reflexivity|]. rewrite (sumn_S RL), IH. reflexivity. Qed.

  Lemma isum_msum s : forall (f : list nat -> T), isum s f = msum s f.
  Proof.
    induction s as [|d s IH]; intros f.
    - apply isum_nil, RL.
    - rewrite (isum_cons RL). simpl. rewrite sumn_bigsum. apply bigsum_ext. intros i _. apply IH.
  Qed.

  Lemma lprod_bigprod (l : list T) : lprod l = bigprod (length l) (fun k => nth k l n0).
  Proof.
    assert (G : forall n, n <= length l -> bigprod n (fun k => nth k l n0) = lprod (firstn n l)).
    { induction n as [|n IH]; intros Hn; [reflexivity|].
      simpl bigprod. rewrite IH by lia.
      assert (E : firstn (S n) l = firstn n l ++ [nth n l n0]).
      { clear IH RLu. revert l Hn. induction n as [|n IH]; intros [|x l] Hn; simpl in *; try lia; [reflexivity|].
        f_equal. apply IH. lia. }
      rewrite E, (lprod_app RL). unfold lprod at 3. simpl. ring. }
    rewrite G by lia. rewrite firstn_all. reflexivity.
  Qed.
End SpecFacts.

Lemma index_of_pos a l : index_of a l = pos a l.
Proof. induction l as [|x l IH]; simpl; [reflexivity|]. rewrite IH. reflexivity. Qed.

Lemma free_axes_remaining ax n : free_axes ax n = remaining ax n.
Proof. reflexivity. Qed.

Lemma existsb_In a l : existsb (Nat.eqb a) l = true <-> In a l.
Proof.
  rewrite existsb_exists. split.
  - intros (x & Hx & E). apply Nat.eqb_eq in E. subst; auto.
  - intros H. exists a. split; auto. apply Nat.eqb_refl.
Qed.
Lemma existsb_nIn a l : existsb (Nat.eqb a) l = false <-> ~ In a l.
Proof. rewrite <- existsb_In. destruct (existsb (Nat.eqb a) l); split; congruence. Qed.

Lemma nth_map_seq {A} (f : nat -> A) n p d : p < n -> nth p (map f (seq 0 n)) d = f p.
Proof.
  intros H. rewrite nth_map_lt with (da := 0) by (rewrite seq_length; auto).
  rewrite seq_nth by auto. reflexivity.
Qed.

Section Merge.
  Variables (n : nat) (ax : list nat).
  Hypothesis (Hnd : NoDup ax) (Hlt : forall a, In a ax -> a < n).

  Lemma merge_length k i : length (merge n ax k i) = n.
  Proof. unfold merge. rewrite map_length, seq_length. reflexivity. Qed.

  Lemma merge_ax k i : length k = length ax -> pick ax (merge n ax k i) = k.
  Proof.
    intros Hk. apply nth_ext with (d := 0) (d' := 0).
    - unfold pick. rewrite map_length. auto.
    - intros j Hj. unfold pick in *. rewrite map_length in Hj.
      rewrite nth_map_lt with (da := 0) by auto.
      assert (Hin : In (nth j ax 0) ax) by (apply nth_In; auto).
      unfold merge. rewrite nth_map_seq by auto.
      rewrite (proj2 (existsb_In _ _) Hin). rewrite index_of_pos, pos_nth; auto.
  Qed.

  Lemma merge_free k i : length i = length (free_axes ax n) -> pick (free_axes ax n) (merge n ax k i) = i.
  Proof.
    intros Hk. apply nth_ext with (d := 0) (d' := 0).
    - unfold pick. rewrite map_length. auto.
    - intros j Hj. unfold pick in *. rewrite map_length in Hj.
      rewrite nth_map_lt with (da := 0) by auto.
      assert (Hin : In (nth j (free_axes ax n) 0) (free_axes ax n)) by (apply nth_In; auto).
      pose proof (proj1 (remaining_in _ _ _) Hin) as [H1 H2].
      unfold merge. rewrite nth_map_seq by auto.
      rewrite (proj2 (existsb_nIn _ _) H2). rewrite index_of_pos, pos_nth; auto.
      apply NoDup_filter, seq_NoDup.
  Qed.

  Lemma merge_valid s k i : length s = n -> valid (pick ax s) k -> valid (pick (free_axes ax n) s) i ->
    valid s (merge n ax k i).
  Proof.
    intros Hs Hk Hi. apply nth_Forall2 with (da := 0) (db := 0).
    - rewrite merge_length; auto.
    - rewrite merge_length. intros p Hp. unfold merge. rewrite nth_map_seq by auto.
      destruct (existsb (Nat.eqb p) ax) eqn:E.
      + apply existsb_In in E. rewrite index_of_pos.
        assert (V := valid_nth _ _ (pos p ax) Hk). unfold pick in V. rewrite map_length in V.
        specialize (V (pos_lt _ _ E)).
        rewrite (nth_map_lt (fun a => nth a s 0) ax (pos p ax) 0 0) in V by (apply pos_lt; auto).
        rewrite nth_pos in V; auto.
      + apply existsb_nIn in E. rewrite index_of_pos.
        assert (Hin : In p (free_axes ax n)) by (apply remaining_in; auto).
        assert (V := valid_nth _ _ (pos p (free_axes ax n)) Hi). unfold pick in V. rewrite map_length in V.
        specialize (V (pos_lt _ _ Hin)).
        rewrite (nth_map_lt (fun a => nth a s 0) _ (pos p (free_axes ax n)) 0 0) in V by (apply pos_lt; auto).
        rewrite nth_pos in V; auto.
  Qed.
End Merge.
