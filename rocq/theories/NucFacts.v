(** Sums of singular values: duality with the spectral norm, and the minimisation solved by
    soft-thresholding singular values.  Matrices as functions. *)

From Coq Require Import Arith Lia Reals Lra Psatz.
From Verif Require Import Num Sums RSums MatR KronAlg SvdFacts.
Local Open Scope R_scope.

(** sum_p U_ip d_p W_pj *)
Definition lin (k : nat) (U : mf) (d : nat -> R) (W : mf) : mf := fun i j => sumn k (fun p => U i p * d p * W p j).

Section Dot.
  Variables (r c k : nat) (U W : mf).

  Lemma dot2_lin d Z : dot2 r c (lin k U d W) Z = sumn k (fun p => d p * sumn r (fun i => sumn c (fun j => U i p * W p j * Z i j))).
  Proof.
    unfold dot2, lin.
    transitivity (sumn r (fun i => sumn k (fun p => sumn c (fun j => d p * (U i p * W p j * Z i j))))).
    - apply sumnR_ext. intros i Hi. rewrite sumnR_ex. apply sumnR_ext. intros j Hj. rewrite <- sumnR_scale_r. apply sumnR_ext. intros; ring.
    - rewrite sumnR_ex. apply sumnR_ext. intros p Hp. rewrite <- sumnR_scale. apply sumnR_ext. intros i Hi. rewrite <- sumnR_scale. reflexivity.
  Qed.

  Lemma pair_lin k' U' d' W' p : sumn r (fun i => sumn c (fun j => U i p * W p j * lin k' U' d' W' i j)) =
    sumn k' (fun q => d' q * (sumn r (fun i => U i p * U' i q) * sumn c (fun j => W p j * W' q j))).
  Proof.
    unfold lin.
    transitivity (sumn r (fun i => sumn k' (fun q => sumn c (fun j => (d' q * (U i p * U' i q)) * (W p j * W' q j))))).
    - apply sumnR_ext. intros i Hi. rewrite sumnR_ex. apply sumnR_ext. intros j Hj. rewrite <- sumnR_scale. apply sumnR_ext. intros; ring.
    - rewrite sumnR_ex. apply sumnR_ext. intros q Hq.
      transitivity (sumn r (fun i => (d' q * (U i p * U' i q)) * sumn c (fun j => W p j * W' q j))).
      + apply sumnR_ext. intros i Hi. rewrite sumnR_scale. reflexivity.
      + rewrite sumnR_scale_r, sumnR_scale. ring.
  Qed.

  Hypotheses (HU : ortho r k U) (HW : ortho c k (tr W)).

  Lemma HU' p q : (p < k)%nat -> (q < k)%nat -> sumn r (fun i => U i p * U i q) = delta p q.
  Proof. intros Hp Hq. exact (HU p q Hp Hq). Qed.
  Lemma HW' p q : (p < k)%nat -> (q < k)%nat -> sumn c (fun j => W p j * W q j) = delta p q.
  Proof. intros Hp Hq. exact (HW p q Hp Hq). Qed.

  Lemma pair_same e p : (p < k)%nat -> sumn r (fun i => sumn c (fun j => U i p * W p j * lin k U e W i j)) = e p.
  Proof.
    intros Hp. rewrite pair_lin. rewrite (sumnR_ext k _ (fun q => e q * delta q p)).
    - apply sumnR_delta'. auto.
    - intros q Hq. rewrite HU', HW' by auto. rewrite (delta_sym q p). unfold delta. destruct (Nat.eqb p q); ring.
  Qed.

  Lemma dot2_same d e : dot2 r c (lin k U d W) (lin k U e W) = sumn k (fun p => d p * e p).
  Proof. rewrite dot2_lin. apply sumnR_ext. intros p Hp. rewrite pair_same by auto. reflexivity. Qed.

  Lemma bessel_col (x : nat -> R) : sumn k (fun p => (sumn r (fun i => U i p * x i))²) <= sumn r (fun i => (x i)²).
  Proof.
    pose proof (bessel r k 1 U (fun i _ => x i) HU) as B. unfold fro, dot2, mm, tr in B.
    rewrite (sumnR_ext k _ (fun p => (sumn r (fun i => U i p * x i))²)) in B.
    - rewrite (sumnR_ext r _ (fun i => (x i)²)) in B; [exact B|]. intros i Hi. rewrite (sumn_S RLR), sumn_0. Rn. unfold Rsqr. lra.
    - intros p Hp. rewrite (sumn_S RLR), sumn_0. Rn. unfold Rsqr. lra.
  Qed.
  Lemma bessel_row (x : nat -> R) : sumn k (fun p => (sumn c (fun j => W p j * x j))²) <= sumn c (fun j => (x j)²).
  Proof.
    pose proof (bessel c k 1 (tr W) (fun i _ => x i) HW) as B. unfold fro, dot2, mm, tr in B.
    rewrite (sumnR_ext k _ (fun p => (sumn c (fun i => W p i * x i))²)) in B.
    - rewrite (sumnR_ext c _ (fun i => (x i)²)) in B; [exact B|]. intros i Hi. rewrite (sumn_S RLR), sumn_0. Rn. unfold Rsqr. lra.
    - intros p Hp. rewrite (sumn_S RLR), sumn_0. Rn. unfold Rsqr. lra.
  Qed.
End Dot.

(** <U diag(d) W, Z> <= tau * (sum of the singular values of Z) for 0 <= d <= tau *)
Lemma trace_duality r c k U W k' U' s' W' d tau :
  ortho r k U -> ortho c k (tr W) -> ortho r k' U' -> ortho c k' (tr W') ->
  0 <= tau -> (forall p, (p < k)%nat -> 0 <= d p <= tau) -> (forall q, (q < k')%nat -> 0 <= s' q) ->
  dot2 r c (lin k U d W) (lin k' U' s' W') <= tau * sumn k' s'.
Proof.
  intros HU HW HU' HW' Ht Hd Hs. rewrite dot2_lin.
  rewrite (sumnR_ext k _ (fun p => sumn k' (fun q => s' q * (d p * (sumn r (fun i => U i p * U' i q) * sumn c (fun j => W p j * W' q j)))))).
  2:{ intros p Hp. rewrite pair_lin, <- sumnR_scale. apply sumnR_ext. intros; ring. }
  rewrite sumnR_ex, <- sumnR_scale. apply sumnR_le. intros q Hq. rewrite sumnR_scale.
  rewrite (Rmult_comm tau). apply Rmult_le_compat_l; [auto|].
  apply Rle_trans with (tau * (/2 * (sumn k (fun p => (sumn r (fun i => U i p * U' i q))²) + sumn k (fun p => (sumn c (fun j => W p j * W' q j))²)))).
  - rewrite <- sumnR_add, <- !sumnR_scale. apply sumnR_le. intros p Hp.
    set (a := sumn r _). set (b := sumn c _). destruct (Hd p Hp) as [H1 H2].
    pose proof (Rle_0_sqr (a - b)) as Q1. pose proof (Rle_0_sqr (a + b)) as Q2. unfold Rsqr in *.
    destruct (Rle_lt_dec 0 (a * b)) as [Hab|Hab]; nra.
  - pose proof (bessel_col r k U HU (fun i => U' i q)) as B1. pose proof (bessel_row c k W HW (fun j => W' q j)) as B2. cbv beta in B1, B2.
    assert (E1 : sumn r (fun i => (U' i q)²) = 1).
    { etransitivity; [|transitivity (delta q q); [exact (HU' q q Hq Hq)|unfold delta; rewrite Nat.eqb_refl; reflexivity]]. reflexivity. }
    assert (E2 : sumn c (fun j => (W' q j)²) = 1).
    { etransitivity; [|transitivity (delta q q); [exact (HW' q q Hq Hq)|unfold delta; rewrite Nat.eqb_refl; reflexivity]]. reflexivity. }
    rewrite E1 in B1. rewrite E2 in B2. nra.
Qed.

(** the sum of the singular values depends on the matrix only *)
Lemma nuc_le r c k U s W k' U' s' W' :
  ortho r k U -> ortho c k (tr W) -> ortho r k' U' -> ortho c k' (tr W') ->
  (forall q, (q < k')%nat -> 0 <= s' q) -> meq r c (lin k U s W) (lin k' U' s' W') -> sumn k s <= sumn k' s'.
Proof.
  intros HU HW HU' HW' Hs HE.
  assert (E : dot2 r c (lin k U (fun _ => 1) W) (lin k U s W) = sumn k s).
  { rewrite dot2_same by auto. apply sumnR_ext. intros; ring. }
  rewrite <- E, (dot2_ext r c _ (lin k U (fun _ => 1) W) _ (lin k' U' s' W')); [|intros i j Hi Hj; reflexivity|exact HE].
  rewrite <- (Rmult_1_l (sumn k' s')). apply trace_duality; auto; intros; lra.
Qed.

(** soft-thresholding the singular values: the minimiser, with the quadratic gap *)
Section Shrink.
  Variables (r c k : nat) (U W : mf) (s : nat -> R) (tau : R).
  Hypotheses (HU : ortho r k U) (HW : ortho c k (tr W)) (Hs : forall p, (p < k)%nat -> 0 <= s p) (Ht : 0 <= tau).
  Let x := fun p => Rmax 0 (s p - tau).
  Let C := lin k U s W.
  Let X := lin k U x W.

  Lemma resid_lin i j : C i j - X i j = lin k U (fun p => s p - x p) W i j.
  Proof. unfold C, X, lin. rewrite <- sumnR_sub. apply sumnR_ext. intros; ring. Qed.

  Lemma x_bounds p : (p < k)%nat -> 0 <= s p - x p <= tau /\ (s p - x p) * x p = tau * x p.
  Proof.
    intros Hp. unfold x. specialize (Hs p Hp). destruct (Rle_lt_dec (s p - tau) 0).
    - rewrite Rmax_left by lra. split; [lra|ring].
    - rewrite Rmax_right by lra. split; [lra|ring].
  Qed.

  Lemma shrink_dual k' U' s' W' : ortho r k' U' -> ortho c k' (tr W') -> (forall q, (q < k')%nat -> 0 <= s' q) ->
    dot2 r c (fun i j => C i j - X i j) (lin k' U' s' W') <= tau * sumn k' s'.
  Proof.
    intros HU' HW' Hs'. rewrite (dot2_ext r c _ (lin k U (fun p => s p - x p) W) _ (lin k' U' s' W')).
    - apply trace_duality; auto. intros p Hp. apply x_bounds; auto.
    - intros i j _ _. apply resid_lin.
    - intros i j _ _. reflexivity.
  Qed.

  Lemma shrink_tight : dot2 r c (fun i j => C i j - X i j) X = tau * sumn k x.
  Proof.
    rewrite (dot2_ext r c _ (lin k U (fun p => s p - x p) W) _ X).
    - unfold X. rewrite dot2_same by auto. rewrite <- sumnR_scale. apply sumnR_ext. intros p Hp. apply x_bounds; auto.
    - intros i j _ _. apply resid_lin.
    - intros i j _ _. reflexivity.
  Qed.

  Lemma shrink_min k' U' s' W' Z : ortho r k' U' -> ortho c k' (tr W') -> (forall q, (q < k')%nat -> 0 <= s' q) ->
    meq r c Z (lin k' U' s' W') ->
    tau * sumn k x + /2 * fro r c (fun i j => X i j - C i j) + /2 * fro r c (fun i j => Z i j - X i j)
      <= tau * sumn k' s' + /2 * fro r c (fun i j => Z i j - C i j).
  Proof.
    intros HU' HW' Hs' HZ. pose proof (shrink_dual k' U' s' W' HU' HW' Hs') as D. pose proof shrink_tight as T.
    rewrite (dot2_ext r c _ (fun i j => C i j - X i j) _ Z) in D.
    2:{ intros i j _ _; reflexivity. }
    2:{ intros i j Hi Hj. symmetry. apply HZ; auto. }
    rewrite !fro_sub. rewrite !dot2_sub_l in *. rewrite (dot2_sym r c Z C), (dot2_sym r c Z X), (dot2_sym r c X C) in *.
    unfold fro in *. lra.
  Qed.
End Shrink.

(** soft-thresholding a number *)
Lemma soft_min d tau z (x := if Rlt_dec tau d then d - tau else if Rlt_dec d (- tau) then d + tau else 0) : 0 <= tau ->
  tau * Rabs x + /2 * (x - d)² + /2 * (z - x)² <= tau * Rabs z + /2 * (z - d)².
Proof.
  intros Ht. unfold x. unfold Rabs. destruct (Rlt_dec tau d); [|destruct (Rlt_dec d (- tau))];
    repeat (destruct Rcase_abs); unfold Rsqr; nra.
Qed.
