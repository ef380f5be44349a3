(** Finite sums of real numbers: order, Cauchy-Schwarz. *)

From Coq Require Import ZArith List Bool Arith Lia Permutation Reals Lra Psatz.
From Verif Require Import Num Py Tensor TensorFacts Sums.
Import ListNotations.
Local Open Scope R_scope.

(** expose the real operations *)
Ltac Rn := cbn [n0 n1 nadd nmul nsub nopp ndiv nsqrt nabs nltb neqb nofZ NumR] in *; unfold nsq in *; cbn [n0 n1 nadd nmul nsub nopp ndiv nsqrt nabs nltb neqb nofZ NumR] in *.

Definition RLR : RingLaws R := ringlaws_R.

Lemma nltb_R a b : @nltb R NumR a b = true <-> a < b.
Proof. Rn. destruct (Rlt_dec a b); split; intros; try discriminate; auto; contradiction. Qed.
Lemma nltb_R_false a b : @nltb R NumR a b = false <-> b <= a.
Proof. Rn. destruct (Rlt_dec a b); split; intros; try discriminate; auto; lra. Qed.
Lemma neqb_R a b : @neqb R NumR a b = true <-> a = b.
Proof. Rn. destruct (Req_EM_T a b); split; intros; try discriminate; auto; contradiction. Qed.
Lemma nmax_R (a b : R) : nmax a b = Rmax a b.
Proof.
  unfold nmax. destruct (nltb a b) eqn:E.
  - apply nltb_R in E. rewrite Rmax_right; lra.
  - apply nltb_R_false in E. rewrite Rmax_left; lra.
Qed.
Lemma nmin_R (a b : R) : nmin a b = Rmin a b.
Proof.
  unfold nmin. destruct (nltb b a) eqn:E.
  - apply nltb_R in E. rewrite Rmin_right; lra.
  - apply nltb_R_false in E. rewrite Rmin_left; lra.
Qed.
Lemma nrelu_R (a : R) : nrelu a = Rmax a 0.
Proof.
  unfold nrelu. destruct (nltb a n0) eqn:E.
  - apply nltb_R in E. Rn. rewrite Rmax_right; lra.
  - apply nltb_R_false in E. Rn. rewrite Rmax_left; lra.
Qed.

Section L.
  Context {A : Type}.
  Implicit Types (f g : A -> R) (l : list A).

  Lemma lsumR_cons x (l : list R) : lsum (x :: l) = x + lsum l. Proof. reflexivity. Qed.

  Lemma lsumR_nonneg l f : (forall a, In a l -> 0 <= f a) -> 0 <= lsum (map f l).
  Proof.
    induction l as [|a l IH]; intros H; [unfold lsum; simpl; Rn; lra|].
    cbn [map]. rewrite lsumR_cons. pose proof (H a (or_introl eq_refl)).
    assert (0 <= lsum (map f l)) by (apply IH; intros; apply H; simpl; auto). lra.
  Qed.

  Lemma lsumR_le l f g : (forall a, In a l -> f a <= g a) -> lsum (map f l) <= lsum (map g l).
  Proof.
    induction l as [|a l IH]; intros H; [apply Rle_refl|].
    cbn [map]. rewrite !lsumR_cons. pose proof (H a (or_introl eq_refl)).
    assert (lsum (map f l) <= lsum (map g l)) by (apply IH; intros; apply H; simpl; auto). lra.
  Qed.

  Lemma lsumR_zero_inv l f : (forall a, In a l -> 0 <= f a) -> lsum (map f l) = 0 ->
    forall a, In a l -> f a = 0.
  Proof.
    induction l as [|b l IH]; intros H E a Ha; [contradiction|].
    cbn [map] in E. rewrite lsumR_cons in E. pose proof (H b (or_introl eq_refl)).
    assert (H2 : 0 <= lsum (map f l)) by (apply lsumR_nonneg; intros; apply H; simpl; auto).
    assert (f b = 0) by lra. assert (lsum (map f l) = 0) by lra.
    destruct Ha as [<-|Ha]; auto. apply IH; auto. intros; apply H; simpl; auto.
  Qed.

  Lemma lsumR_scale l f c : lsum (map (fun a => c * f a) l) = c * lsum (map f l).
  Proof. apply (lsum_map_mul_l RLR). Qed.

  Lemma lsumR_cauchy l f g :
    (lsum (map (fun a => f a * g a) l))² <= lsum (map (fun a => (f a)²) l) * lsum (map (fun a => (g a)²) l).
  Proof.
    set (S := lsum (map (fun a => f a * g a) l)).
    set (F := lsum (map (fun a => (f a)²) l)). set (G := lsum (map (fun a => (g a)²) l)).
    assert (H : lsum (map (fun a => lsum (map (fun b => (f a * g b - f b * g a)²) l)) l) = 2 * (F * G - S²)).
    { transitivity (lsum (map (fun a => (f a)² * G - 2 * (f a * g a) * S + (g a)² * F) l)).
      - f_equal. apply map_ext. intros a.
        transitivity (lsum (map (fun b => (f a)² * (g b)² - (2 * (f a * g a)) * (f b * g b) + (g a)² * (f b)²) l)).
        + f_equal. apply map_ext. intros b. unfold Rsqr. ring.
        + rewrite (lsum_map_add RLR (fun b => (f a)² * (g b)² - (2 * (f a * g a)) * (f b * g b)) (fun b => (g a)² * (f b)²)).
          rewrite (lsum_map_sub RLR (fun b => (f a)² * (g b)²) (fun b => (2 * (f a * g a)) * (f b * g b))).
          rewrite !lsumR_scale. reflexivity.
      - rewrite (lsum_map_add RLR (fun a => (f a)² * G - 2 * (f a * g a) * S) (fun a => (g a)² * F)).
        rewrite (lsum_map_sub RLR (fun a => (f a)² * G) (fun a => 2 * (f a * g a) * S)).
        rewrite (lsum_map_mul_r RLR G (fun a => (f a)²)), (lsum_map_mul_r RLR F (fun a => (g a)²)).
        rewrite (lsum_map_mul_r RLR S (fun a => 2 * (f a * g a))).
        rewrite (lsumR_scale l (fun a => f a * g a) 2). fold S F G. Rn. unfold Rsqr. ring. }
    assert (0 <= 2 * (F * G - S²)).
    { rewrite <- H. apply lsumR_nonneg. intros a _. apply lsumR_nonneg. intros b _. apply Rle_0_sqr. }
    lra.
  Qed.
End L.

Lemma sumnR_nonneg n f : (forall i, (i < n)%nat -> 0 <= f i) -> 0 <= sumn n f.
Proof. intros H. apply lsumR_nonneg. intros i Hi. apply in_seq in Hi. apply H. lia. Qed.
Lemma sumnR_le n f g : (forall i, (i < n)%nat -> f i <= g i) -> sumn n f <= sumn n g.
Proof. intros H. apply lsumR_le. intros i Hi. apply in_seq in Hi. apply H. lia. Qed.
Lemma sumnR_zero_inv n f : (forall i, (i < n)%nat -> 0 <= f i) -> sumn n f = 0 -> forall i, (i < n)%nat -> f i = 0.
Proof.
  intros H E i Hi. apply (lsumR_zero_inv (seq 0 n) f); auto.
  - intros a Ha. apply in_seq in Ha. apply H. lia.
  - apply in_seq. lia.
Qed.
Lemma sumnR_cauchy n f g :
  (sumn n (fun i => f i * g i))² <= sumn n (fun i => (f i)²) * sumn n (fun i => (g i)²).
Proof. apply lsumR_cauchy. Qed.

Lemma isumR_nonneg s f : (forall i, valid s i -> 0 <= f i) -> 0 <= isum s f.
Proof. intros H. apply lsumR_nonneg. intros i Hi. apply H, in_indices, Hi. Qed.
Lemma isumR_le s f g : (forall i, valid s i -> f i <= g i) -> isum s f <= isum s g.
Proof. intros H. apply lsumR_le. intros i Hi. apply H, in_indices, Hi. Qed.
Lemma isumR_zero_inv s f : (forall i, valid s i -> 0 <= f i) -> isum s f = 0 -> forall i, valid s i -> f i = 0.
Proof.
  intros H E i Hi. apply (lsumR_zero_inv (indices s) f); auto.
  - intros a Ha. apply H, in_indices, Ha.
  - apply in_indices, Hi.
Qed.
Lemma isumR_cauchy s f g :
  (isum s (fun i => f i * g i))² <= isum s (fun i => (f i)²) * isum s (fun i => (g i)²).
Proof. apply lsumR_cauchy. Qed.

Lemma isumR_sub s f g : isum s (fun i => f i - g i) = isum s f - isum s g.
Proof. apply (lsum_map_sub RLR). Qed.
Lemma isumR_add s f g : isum s (fun i => f i + g i) = isum s f + isum s g.
Proof. apply (lsum_map_add RLR). Qed.
Lemma isumR_scale s c f : isum s (fun i => c * f i) = c * isum s f.
Proof. apply (lsum_map_mul_l RLR). Qed.
Lemma sumnR_sub n f g : sumn n (fun i => f i - g i) = sumn n f - sumn n g.
Proof. apply (lsum_map_sub RLR). Qed.
Lemma sumnR_add n f g : sumn n (fun i => f i + g i) = sumn n f + sumn n g.
Proof. apply (lsum_map_add RLR). Qed.
Lemma sumnR_scale n c f : sumn n (fun i => c * f i) = c * sumn n f.
Proof. apply (lsum_map_mul_l RLR). Qed.
Lemma sumnR_scale_r n c f : sumn n (fun i => f i * c) = sumn n f * c.
Proof. apply (lsum_map_mul_r RLR). Qed.
