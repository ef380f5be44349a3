(** Every real matrix has a spectral norm, so a [spectral] function exists (by the choice
    axiom of the standard library). *)

From Coq Require Import ZArith List Bool Arith Lia Reals Lra Psatz IndefiniteDescription.
From Verif Require Import Num Py Tensor TF TensorFacts TFFacts Sums Spec SpecR SpecFacts RSums MatR KronAlg SpecTucker MultiR MaxR SpecProx.
Import ListNotations.
Local Open Scope R_scope.

Lemma bigsum_nonneg n (f : nat -> R) : (forall i, (i < n)%nat -> 0 <= f i) -> 0 <= bigsum n f.
Proof. intros H. rewrite <- (sumn_bigsum RLR). apply sumnR_nonneg, H. Qed.

(** the Frobenius norm is a bound *)
Lemma stretch_fro (M : tensor R) : exists s, 0 <= s /\ stretches_at_most M s.
Proof.
  set (F := bigsum (nrows M) (fun i => bigsum (ncols M) (fun j => (mget M i j)²))).
  assert (HF : 0 <= F). { apply bigsum_nonneg. intros. apply bigsum_nonneg. intros. apply Rle_0_sqr. }
  exists (sqrt F). split; [apply sqrt_pos|]. intros x. rewrite Rsqr_sqrt by auto. unfold F.
  set (n := ncols M). set (Q := bigsum n (fun j => (x j)²)). rewrite <- !(sumn_bigsum RLR). rewrite Rmult_comm, <- sumnR_scale. apply sumnR_le. intros i Hi. unfold Q.
  rewrite <- !(sumn_bigsum RLR). rewrite Rmult_comm. pose proof (sumnR_cauchy n (fun j => mget M i j) x) as C. exact C.
Qed.

Lemma spectral_norm_exists (M : tensor R) : exists s, spectral_norm M s.
Proof.
  destruct (completeness (fun t => t <= 0 /\ stretches_at_most M (- t))) as (m & Hub & Hlub).
  - exists 0. intros t [Ht _]. exact Ht.
  - destruct (stretch_fro M) as (s & Hs & H). exists (- s). split; [lra|]. rewrite Ropp_involutive. exact H.
  - assert (Hm : m <= 0). { apply Hlub. intros t [Ht _]. exact Ht. }
    exists (- m). split; [lra|]. split.
    + intros x. set (y := bigsum _ _). set (z := bigsum _ (fun j => (x j)²)).
      assert (Hz : 0 <= z) by (apply bigsum_nonneg; intros; apply Rle_0_sqr).
      assert (G : forall t, t <= 0 /\ stretches_at_most M (- t) -> y <= t² * z). { intros t [_ H]. specialize (H x). rewrite <- Rsqr_neg in H. exact H. }
      rewrite <- Rsqr_neg. destruct (Rle_lt_dec y (m² * z)) as [L|L]; [exact L|exfalso].
      destruct (Req_dec z 0) as [Hz0|Hz0].
      { destruct (stretch_fro M) as (s & Hs & H). specialize (G (- s)). rewrite Hz0 in *. assert (y <= (- s)² * 0) by (apply G; split; [lra|rewrite Ropp_involutive; exact H]). lra. }
      (* every admissible t is below -sqrt(y/z) *)
      assert (Hy : 0 <= y / z). { apply Rmult_le_pos; [|left; apply Rinv_0_lt_compat; lra]. pose proof (Rle_0_sqr m). nra. }
      assert (B : m <= - sqrt (y / z)).
      { apply Hlub. intros t Ht. pose proof (G t Ht) as Gt. destruct Ht as [Ht _].
        assert (y / z <= t²). { apply (Rmult_le_reg_r z); [lra|]. unfold Rdiv. rewrite Rmult_assoc, Rinv_l, Rmult_1_r by auto. exact Gt. }
        apply sqrt_le_1_alt in H. rewrite Rsqr_neg in H. rewrite sqrt_Rsqr in H by lra. lra. }
      assert (y / z <= m²). { rewrite <- (Rsqr_sqrt (y / z)) by auto. rewrite (Rsqr_neg m). apply Rsqr_incr_1; [lra|apply sqrt_pos|lra]. }
      apply (Rmult_le_compat_r z) in H; [|auto]. unfold Rdiv in H. rewrite Rmult_assoc, Rinv_l, Rmult_1_r in H by auto. lra.
    + intros s' Hs' H. assert (- s' <= m); [|lra]. apply Hub. split; [lra|]. rewrite Ropp_involutive. exact H.
Qed.

Lemma spectral_exists : exists svals, spectral svals.
Proof.
  destruct (functional_choice (fun M s => spectral_norm M s) spectral_norm_exists) as (f & Hf).
  exists (fun M => [f M]). intros M _ _. exact (Hf M).
Qed.
