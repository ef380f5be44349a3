(** Every non-empty real matrix has a reduced singular value decomposition, so a left_svd
    function exists (by the choice axiom of the standard library). *)

From Coq Require Import ZArith List Bool Arith Lia Reals Lra Psatz IndefiniteDescription.
From Verif Require Import Num Py Tensor TF TensorFacts TFFacts Sums Spec SpecR SpecFacts RSums MatR KronAlg SpecTucker MultiR MaxR Spectral TuckerFacts.
Import ListNotations.
Local Open Scope R_scope.

Lemma ortho_orthonormal m k (U : mf) : ortho m k U -> orthonormal (mgen m k U).
Proof.
  intros H p q Hp Hq. change (nrows (mgen m k U)) with m. change (ncols (mgen m k U)) with k in Hp, Hq.
  rewrite <- (sumn_bigsum RLR). specialize (H p q Hp Hq). unfold mm, tr in H. unfold delta in H. rewrite <- H. apply sumnR_ext.
  intros i Hi. rewrite !mget_mgen by auto. reflexivity.
Qed.

Lemma svd_exists (M : tensor R) : matrix M -> exists U s W, thin_svd M U s W.
Proof.
  intros HM. set (m := nrows M). set (n := ncols M).
  assert (G : exists U W s, ortho m (Nat.min m n) U /\ ortho n (Nat.min m n) W /\
    (forall p, (p < Nat.min m n)%nat -> 0 <= s p) /\ (forall p q, (p <= q)%nat -> (q < Nat.min m n)%nat -> s q <= s p) /\
    forall i j, (i < m)%nat -> (j < n)%nat -> mget M i j = sumn (Nat.min m n) (fun p => U i p * s p * W j p)).
  { destruct (le_ge_dec m n) as [H|H].
    - rewrite Nat.min_l by auto. apply (svd_wide m n (mget M) H).
    - rewrite Nat.min_r by auto. destruct (svd_wide n m (fun i j => mget M j i) H) as (U & W & s & H1 & H2 & H3 & H4 & H5).
      exists W, U, s. repeat (split; [auto|]). intros i j Hi Hj. rewrite (H5 j i) by auto. apply sumnR_ext. intros. ring. }
  destruct G as (U & W & s & H1 & H2 & H3 & H4 & H5). set (k := Nat.min m n) in *.
  exists (mgen m k U), s, (mgen n k W). unfold thin_svd. fold m n k.
  split; [split; [apply wf_gen|reflexivity]|]. split; [split; [apply wf_gen|reflexivity]|].
  split; [apply ortho_orthonormal; auto|]. split; [apply ortho_orthonormal; auto|]. split; [auto|]. split; [auto|].
  intros i j Hi Hj. rewrite <- (sumn_bigsum RLR). rewrite H5 by auto. apply sumnR_ext. intros p Hp. rewrite !mget_mgen by auto. reflexivity.
Qed.

Lemma left_svd_exists : exists svdU, left_svd svdU.
Proof.
  destruct (functional_choice (fun M U : tensor R => matrix M -> exists s W, thin_svd M U s W)) as (f & Hf).
  - intros M. assert (D : {shp M = [nrows M; ncols M]} + {shp M <> [nrows M; ncols M]}) by (apply list_eq_dec; apply Nat.eq_dec).
    destruct D as [D|D]; [destruct (Nat.eq_dec (length (dat M)) (prod (shp M))) as [D2|D2]|].
    + destruct (svd_exists M) as (U & s & W & HU); [split; auto|]. exists U. eauto.
    + exists M. intros [W _]. contradiction.
    + exists M. intros [_ W]. contradiction.
  - exists f. intros M HM _ _. auto.
Qed.
