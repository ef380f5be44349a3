(** Real matrices as functions: products, Frobenius norm, orthonormal columns. *)

From Coq Require Import ZArith List Bool Arith Lia Reals Lra Psatz.
From Verif Require Import Num Py Tensor TensorFacts Sums RSums.
Import ListNotations.
Local Open Scope R_scope.

Definition mf := nat -> nat -> R.
Definition mm (k : nat) (A B : mf) : mf := fun i j => sumn k (fun l => A i l * B l j).
Definition tr (A : mf) : mf := fun i j => A j i.
Definition dot2 (m n : nat) (A B : mf) : R := sumn m (fun i => sumn n (fun j => A i j * B i j)).
Definition fro (m n : nat) (A : mf) : R := dot2 m n A A.
Definition meq (m n : nat) (A B : mf) : Prop := forall i j, (i < m)%nat -> (j < n)%nat -> A i j = B i j.
Definition delta (i j : nat) : R := if Nat.eqb i j then 1 else 0.
(** the k columns of the m x k matrix U are orthonormal *)
Definition ortho (m k : nat) (U : mf) : Prop := meq k k (mm m (tr U) U) delta.

Lemma sumnR_ext n (f g : nat -> R) : (forall i, (i < n)%nat -> f i = g i) -> sumn n f = sumn n g.
Proof. apply sumn_ext. Qed.
Lemma sumnR_ex m n (f : nat -> nat -> R) : sumn m (fun i => sumn n (fun j => f i j)) = sumn n (fun j => sumn m (fun i => f i j)).
Proof. apply (sumn_exchange RLR). Qed.
Lemma sumnR_delta n k (f : nat -> R) : (k < n)%nat -> sumn n (fun i => delta i k * f i) = f k.
Proof.
  intros H. rewrite <- (sumn_delta RLR n k f H). apply sumnR_ext. intros i Hi. unfold delta. Rn.
  destruct (Nat.eqb i k); lra.
Qed.
Lemma sumnR_delta' n k (f : nat -> R) : (k < n)%nat -> sumn n (fun i => f i * delta i k) = f k.
Proof. intros H. rewrite <- (sumnR_delta n k f H). apply sumnR_ext. intros. lra. Qed.
Lemma delta_sym i j : delta i j = delta j i.
Proof. unfold delta. rewrite Nat.eqb_sym. reflexivity. Qed.
Lemma sumnR_zero n (f : nat -> R) : (forall i, (i < n)%nat -> f i = 0) -> sumn n f = 0.
Proof. apply (sumn_zero RLR). Qed.
Lemma sumnR_const n (c : R) : sumn n (fun _ => c) = INR n * c.
Proof.
  induction n as [|n IH]; [rewrite sumn_0; Rn; simpl; lra|].
  rewrite (sumn_S RLR), IH, S_INR. Rn. lra.
Qed.

Lemma mm_assoc k1 k2 A B C i j : mm k2 (mm k1 A B) C i j = mm k1 A (mm k2 B C) i j.
Proof.
  unfold mm. erewrite sumnR_ext by (intros; symmetry; apply sumnR_scale_r).
  cbv beta. rewrite sumnR_ex. apply sumnR_ext. intros l Hl. rewrite <- sumnR_scale. apply sumnR_ext. intros. lra.
Qed.
Lemma mm_ext k A A' B B' i j : (forall l, (l < k)%nat -> A i l = A' i l) -> (forall l, (l < k)%nat -> B l j = B' l j) ->
  mm k A B i j = mm k A' B' i j.
Proof. intros H1 H2. unfold mm. apply sumnR_ext. intros l Hl. rewrite H1, H2; auto. Qed.
Lemma mm_delta_l m k A i j : (i < m)%nat -> m = k -> mm k delta A i j = A i j.
Proof.
  intros H <-. unfold mm. erewrite sumnR_ext; [apply (sumnR_delta m i (fun l => A l j) H)|].
  intros l Hl. cbv beta. rewrite delta_sym. reflexivity.
Qed.
Lemma mm_delta_r n A i j : (j < n)%nat -> mm n A delta i j = A i j.
Proof. intros H. unfold mm. apply (sumnR_delta' n j (fun l => A i l) H). Qed.
Lemma tr_mm k A B i j : tr (mm k A B) i j = mm k (tr B) (tr A) i j.
Proof. unfold tr, mm. apply sumnR_ext. intros. lra. Qed.
Lemma mm_sub_r k A B C i j : mm k A (fun a b => B a b - C a b) i j = mm k A B i j - mm k A C i j.
Proof. unfold mm. rewrite <- sumnR_sub. apply sumnR_ext. intros. lra. Qed.
Lemma mm_sub_l k A B C i j : mm k (fun a b => A a b - B a b) C i j = mm k A C i j - mm k B C i j.
Proof. unfold mm. rewrite <- sumnR_sub. apply sumnR_ext. intros. lra. Qed.

Lemma dot2_ext m n A A' B B' : meq m n A A' -> meq m n B B' -> dot2 m n A B = dot2 m n A' B'.
Proof. intros H1 H2. unfold dot2. apply sumnR_ext. intros. apply sumnR_ext. intros. rewrite H1, H2; auto. Qed.
Lemma fro_ext m n A A' : meq m n A A' -> fro m n A = fro m n A'.
Proof. intros H. apply dot2_ext; auto. Qed.
Lemma fro_nonneg m n A : 0 <= fro m n A.
Proof. apply sumnR_nonneg. intros. apply sumnR_nonneg. intros. nra. Qed.
Lemma fro_zero m n A : fro m n A = 0 -> meq m n A (fun _ _ => 0).
Proof.
  intros H i j Hi Hj. unfold fro, dot2 in H.
  pose proof (sumnR_zero_inv m _ (fun i Hi => sumnR_nonneg n (fun j => A i j * A i j) (fun j _ => Rle_0_sqr (A i j))) H i Hi) as H2.
  cbv beta in H2. pose proof (sumnR_zero_inv n _ (fun j _ => Rle_0_sqr (A i j)) H2 j Hj) as H3. cbv beta in H3.
  apply Rmult_integral in H3. tauto.
Qed.
Lemma dot2_sym m n A B : dot2 m n A B = dot2 m n B A.
Proof. unfold dot2. apply sumnR_ext. intros. apply sumnR_ext. intros. lra. Qed.
Lemma dot2_tr m n A B : dot2 m n A B = dot2 n m (tr A) (tr B).
Proof. unfold dot2, tr. apply sumnR_ex. Qed.
Lemma fro_tr m n A : fro m n A = fro n m (tr A).
Proof. apply dot2_tr. Qed.
Lemma dot2_sub_l m n A B C : dot2 m n (fun i j => A i j - B i j) C = dot2 m n A C - dot2 m n B C.
Proof.
  unfold dot2. rewrite <- sumnR_sub. apply sumnR_ext. intros. rewrite <- sumnR_sub. apply sumnR_ext. intros. lra.
Qed.
Lemma dot2_sub_r m n A B C : dot2 m n C (fun i j => A i j - B i j) = dot2 m n C A - dot2 m n C B.
Proof. rewrite !(dot2_sym m n C). apply dot2_sub_l. Qed.
Lemma dot2_add_l m n A B C : dot2 m n (fun i j => A i j + B i j) C = dot2 m n A C + dot2 m n B C.
Proof.
  unfold dot2. rewrite <- sumnR_add. apply sumnR_ext. intros. rewrite <- sumnR_add. apply sumnR_ext. intros. lra.
Qed.
Lemma dot2_scale_l m n c A B : dot2 m n (fun i j => c * A i j) B = c * dot2 m n A B.
Proof.
  unfold dot2. rewrite <- sumnR_scale. apply sumnR_ext. intros. rewrite <- sumnR_scale. apply sumnR_ext. intros. lra.
Qed.
Lemma dot2_zero_l m n B : dot2 m n (fun _ _ => 0) B = 0.
Proof. unfold dot2. apply sumnR_zero. intros. apply sumnR_zero. intros. lra. Qed.
Lemma fro_sub m n A B : fro m n (fun i j => A i j - B i j) = fro m n A - 2 * dot2 m n A B + fro m n B.
Proof. unfold fro. rewrite dot2_sub_l, !dot2_sub_r, (dot2_sym m n B A). lra. Qed.

(** <U A, B> = <A, U^T B> *)
Lemma dot2_adj m k n U A B : dot2 m n (mm k U A) B = dot2 k n A (mm m (tr U) B).
Proof.
  unfold dot2, mm, tr.
  transitivity (sumn m (fun i => sumn n (fun j => sumn k (fun l => U i l * A l j * B i j)))).
  - apply sumnR_ext. intros i Hi. apply sumnR_ext. intros j Hj. rewrite <- sumnR_scale_r. reflexivity.
  - transitivity (sumn m (fun i => sumn k (fun l => sumn n (fun j => U i l * A l j * B i j)))).
    + apply sumnR_ext. intros i Hi. apply sumnR_ex.
    + rewrite sumnR_ex. apply sumnR_ext. intros l Hl. rewrite sumnR_ex. apply sumnR_ext. intros j Hj.
      rewrite <- sumnR_scale. apply sumnR_ext. intros. lra.
Qed.
(** <A V, B> = <A, B V^T> *)
Lemma dot2_adj_r m k n A V B : dot2 m n (mm k A V) B = dot2 m k A (mm n B (tr V)).
Proof.
  rewrite dot2_tr. rewrite (dot2_ext n m _ (mm k (tr V) (tr A)) _ (tr B)); [|intros i j _ _; apply tr_mm|intros i j _ _; reflexivity].
  rewrite dot2_adj. rewrite (dot2_tr m k). apply dot2_ext; intros i j _ _; [reflexivity|].
  rewrite tr_mm. reflexivity.
Qed.

Lemma fro_ortho m k n U A : ortho m k U -> fro m n (mm k U A) = fro k n A.
Proof.
  intros H. unfold fro. rewrite dot2_adj. apply dot2_ext; [intros i j _ _; reflexivity|].
  intros i j Hi Hj. rewrite <- mm_assoc.
  rewrite (mm_ext k _ delta _ A); [apply (mm_delta_l k); auto| |auto]. intros l Hl. apply H; auto.
Qed.

(** square matrices with orthonormal columns have orthonormal rows *)
Lemma ortho_square n U : ortho n n U -> ortho n n (tr U).
Proof.
  intros H.
  assert (HU : meq n n (mm n U (mm n (tr U) U)) U).
  { intros i j Hi Hj. rewrite (mm_ext n U U _ delta); [apply mm_delta_r; auto|auto|]. intros l Hl. apply H; auto. }
  set (P := mm n U (tr U)).
  assert (HP : meq n n (mm n P P) P).
  { intros i j Hi Hj. unfold P. rewrite mm_assoc. apply mm_ext; auto. intros l Hl. rewrite <- mm_assoc.
    rewrite (mm_ext n _ delta _ (tr U)); [apply (mm_delta_l n); auto| |auto]. intros p Hp. apply H; auto. }
  assert (HS : forall i j, P i j = P j i).
  { intros i j. unfold P, mm, tr. apply sumnR_ext. intros. lra. }
  assert (Ht : sumn n (fun i => P i i) = INR n).
  { unfold P, mm, tr. rewrite sumnR_ex. rewrite (sumnR_ext n _ (fun _ => 1)); [rewrite sumnR_const; lra|].
    intros i Hi. specialize (H i i Hi Hi). unfold mm, tr, delta in H. rewrite Nat.eqb_refl in H. exact H. }
  assert (Hz : fro n n (fun i j => delta i j - P i j) = 0).
  { rewrite fro_sub.
    assert (E1 : fro n n delta = INR n).
    { unfold fro, dot2. rewrite (sumnR_ext n _ (fun _ => 1)); [rewrite sumnR_const; lra|].
      intros i Hi. rewrite (sumnR_ext n _ (fun j => delta i j * delta j i)) by (intros; rewrite (delta_sym i i0); reflexivity).
      rewrite sumnR_delta' by auto. unfold delta. rewrite Nat.eqb_refl. reflexivity. }
    assert (E2 : dot2 n n delta P = INR n).
    { rewrite <- Ht. unfold dot2. apply sumnR_ext. intros i Hi.
      rewrite (sumnR_ext n _ (fun j => delta j i * P i j)) by (intros; rewrite delta_sym; reflexivity).
      rewrite sumnR_delta; auto. }
    assert (E3 : fro n n P = INR n).
    { rewrite <- Ht. unfold fro, dot2. apply sumnR_ext. intros i Hi.
      rewrite <- (HP i i Hi Hi). unfold mm. apply sumnR_ext. intros j Hj. rewrite (HS j i). reflexivity. }
    rewrite E1, E2, E3. lra. }
  intros i j Hi Hj. pose proof (fro_zero _ _ _ Hz i j Hi Hj) as E. cbv beta in E.
  change (mm n (tr (tr U)) (tr U) i j) with (P i j). lra.
Qed.

(** sums over the diagonal *)
Lemma sumnR_diag_le n (f : nat -> R) k : (forall i, (i < n)%nat -> 0 <= f i) -> (k < n)%nat -> f k <= sumn n f.
Proof.
  intros H Hk. rewrite <- (sumnR_delta' n k f Hk). apply sumnR_le. intros i Hi. unfold delta.
  destruct (Nat.eqb i k); [lra|]. specialize (H i Hi). lra.
Qed.
