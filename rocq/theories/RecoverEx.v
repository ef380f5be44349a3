(** Concrete cases for C83 - C85. *)

From Coq Require Import ZArith List Bool Arith Lia Reals Lra Psatz.
From Verif Require Import Num Py Tensor TF TensorFacts TFFacts Sums Spec SpecR SpecFacts RSums MatR KronAlg SvdFacts
  PitfOps SpecPitf PitfFacts SpecRecover NucFacts ShrinkFacts ReaderFacts RecoverFacts DualAscent ConvFacts.
Import ListNotations.
Local Open Scope R_scope.

(** ** one entry: too large a step *)
Definition t85 : tensor R := mkT [1; 1; 1]%nat [5].
Definition sp85 : sample := mkS [0%nat] [0%nat] [0%nat].
Definition m1 (z : R) : tensor R := mgen 1 1 (fun _ _ => z).

Lemma sqrt_INR1 : sqrt (INR 1) = 1. Proof. simpl INR. apply sqrt_1. Qed.
Lemma in85 : sample_in 1 1 1 1 sp85.
Proof. split; [simpl; lia|]. split; [simpl; lia|]. split; [simpl; lia|]. intros i Hi. assert (i = 0%nat) by lia. subst. simpl. lia. Qed.
Lemma dis85 : sample_distinct 1 sp85.
Proof. split; [|split]; intros i j Hi Hj; intros; lia. Qed.
Lemma thr85 : threshold 1 1 1 1 = 1. Proof. unfold threshold. change (1 * 1 * 1)%nat with 1%nat. rewrite sqrt_INR1. ring. Qed.
Lemma stp85 : step_size 2 1 1 1 1 = 2. Proof. unfold step_size. change (1 * 1 * 1)%nat with 1%nat. rewrite sqrt_INR1. simpl INR. field. Qed.

Lemma ok85 z : ok3 1 1 1 (m1 z, m1 0, m1 0).
Proof.
  split; [apply is_mat_mgen|]. split; [apply is_mat_mgen|]. split; [apply is_mat_mgen|]. split.
  - intros j j' Hj Hj'. change (ncols (t1 (m1 z, m1 0, m1 0))) with 1%nat in *. assert (j = 0%nat) by lia. assert (j' = 0%nat) by lia. subst. reflexivity.
  - split; intros j Hj; cbn [t2 t3 fst snd] in *; change (ncols (m1 0)) with 1%nat in Hj; unfold m1; rewrite col_sum_mgen by auto; apply sumnR_zero; auto.
Qed.

Lemma ok85_inv v : ok3 1 1 1 v -> v = (m1 (mget (t1 v) 0 0), m1 0, m1 0).
Proof.
  intros (HA & HB & HC & eA & cB & cC). destruct v as [[A B] C]. cbn [t1 t2 t3 fst snd] in *. f_equal; [f_equal|].
  - apply (mat_ext _ _ 1 1); [auto|apply is_mat_mgen|]. intros i j Hi Hj. unfold m1. rewrite mget_mgen by auto. replace i with 0%nat by lia. replace j with 0%nat by lia. reflexivity.
  - apply (mat_ext _ _ 1 1); [auto|apply is_mat_mgen|]. intros i j Hi Hj. unfold m1. rewrite mget_mgen by auto. replace i with 0%nat by lia. replace j with 0%nat by lia.
    destruct (is_mat_rc B 1 1 HB) as (_ & _ & _ & Ec & _). specialize (cB 0%nat ltac:(rewrite Ec; lia)). rewrite (col_sum_R B 1 1 0 HB) in cB. unfold sumn in cB. simpl in cB. Rn. lra.
  - apply (mat_ext _ _ 1 1); [auto|apply is_mat_mgen|]. intros i j Hi Hj. unfold m1. rewrite mget_mgen by auto. replace i with 0%nat by lia. replace j with 0%nat by lia.
    destruct (is_mat_rc C 1 1 HC) as (_ & _ & _ & Ec & _). specialize (cC 0%nat ltac:(rewrite Ec; lia)). rewrite (col_sum_R C 1 1 0 HC) in cC. unfold sumn in cC. simpl in cC. Rn. lra.
Qed.

Lemma nuc0 : nuclear (m1 0) 0.
Proof.
  destruct (nuclear_exists (m1 0) 1 1 (is_mat_mgen _ _ _)) as (n & Hn). pose proof (nuclear_scale (m1 0) 1 1 0 n (is_mat_mgen _ _ _) (Rle_refl 0) Hn) as K.
  rewrite Rmult_0_l in K. replace (tscale 1 1 0 (m1 0)) with (m1 0) in K; [exact K|]. apply mgen_ext. intros. ring.
Qed.

Lemma pen85 svd z : full_svd svd -> cost3 svd 1 1 1 1 (m1 z, m1 0, m1 0) = Rabs z + /2 * (z * z).
Proof.
  intros Hsvd. unfold cost3. rewrite sqrt_INR1. cbn [t1 t2 t3 fst snd].
  assert (P1 : pen svd Complicated 1 1 (m1 z) = Rabs z).
  { apply (penalty_unique Complicated (m1 z) 1 1); [apply is_mat_mgen|apply pen_ok; [auto|apply is_mat_mgen]|].
    exists (m1 0), 0. split; [|split; [exact nuc0|]].
    - split; [apply is_mat_mgen|]. change (nrows (m1 z)) with 1%nat. change (ncols (m1 z)) with 1%nat. intros i j Hi Hj. unfold m1. rewrite !mget_mgen, col_sum_mgen by auto.
      unfold sumn. simpl. Rn. field.
    - change (nrows (m1 z)) with 1%nat. change (ncols (m1 z)) with 1%nat. change (1 * 1)%nat with 1%nat. rewrite sqrt_INR1.
      rewrite (total_sum (m1 z) 1 1 (is_mat_mgen _ _ _)). unfold sumn. cbn [seq map]. unfold m1. rewrite col_sum_mgen by auto. unfold sumn. simpl. Rn. rewrite !Rplus_0_r. field. }
  assert (P2 : pen svd Normal 1 1 (m1 0) = 0).
  { apply (penalty_unique Normal (m1 0) 1 1); [apply is_mat_mgen|apply pen_ok; [auto|apply is_mat_mgen]|exact nuc0]. }
  rewrite P1, P2. unfold sq3. cbn [t1 t2 t3 fst snd].
  assert (F : forall a, sqfro (m1 a) = a * a).
  { intros a. rewrite (sqfro_fro (m1 a) 1 1 (is_mat_mgen _ _ _)). unfold fro, dot2, sumn. cbn [seq map]. unfold m1. rewrite !mget_mgen by auto. simpl. Rn. ring. }
  rewrite !F. field.
Qed.

Lemma fit85 z : fit3 sp85 1 1 1 (m1 z, m1 0, m1 0) 0 = z.
Proof.
  unfold fit3, fit, interaction, ia, ib, ic. cbn [sp85 sp_a sp_b sp_c nth t1 t2 t3 fst snd]. unfold m1. rewrite !mget_mgen by auto. rewrite sqrt_INR1. field.
Qed.

(** the value of the iteration: y thresholded at 1 *)
Lemma x85 svd y : full_svd svd -> 1 <= y 0%nat -> fit3 sp85 1 1 1 (xmap svd t85 sp85 1 2 1 y) 0 = y 0%nat - 1.
Proof.
  intros Hsvd Hy. destruct (xmap_facts svd t85 sp85 1 1 1 1 2 1 Hsvd eq_refl ltac:(lia) ltac:(lia) ltac:(lia) in85 ltac:(lra) y) as (it & _ & _ & Ho & _).
  pose proof (ok85_inv _ Ho) as Ex. set (x := mget (t1 (xmap svd t85 sp85 1 2 1 y)) 0 0) in *. rewrite Ex, fit85.
  pose proof (opt3 svd t85 sp85 1 1 1 1 2 1 Hsvd eq_refl ltac:(lia) ltac:(lia) ltac:(lia) in85 ltac:(lra) dis85 y _ (ok85 (y 0%nat - 1))) as K.
  rewrite Ex, !(pen85 svd _ Hsvd) in K. unfold vd, sumn in K. cbn [seq map] in K. rewrite !fit85 in K. unfold lsum in K. cbn [fold_right] in K. Rn.
  assert (D : dist3 (m1 (y 0%nat - 1), m1 0, m1 0) (m1 x, m1 0, m1 0) = (y 0%nat - 1 - x) * (y 0%nat - 1 - x)).
  { unfold dist3. cbn [t1 t2 t3 fst snd]. rewrite !(sqdiff_fro (m1 _) (m1 _) 1 1 (is_mat_mgen _ _ _)). unfold fro, dot2, sumn. cbn [seq map]. unfold m1. rewrite !mget_mgen by auto. simpl. Rn. ring. }
  rewrite D in K. rewrite (Rabs_right (y 0%nat - 1)) in K by lra. pose proof (Rle_abs x) as A. set (a := y 0%nat) in *. set (b := Rabs x) in *. 
  assert (Q : (a - 1 - x) * (a - 1 - x) <= 0) by nra. assert (a - 1 - x = 0) by nra. lra.
Qed.
Lemma x85_0 svd y : full_svd svd -> y 0%nat = 0 -> fit3 sp85 1 1 1 (xmap svd t85 sp85 1 2 1 y) 0 = 0.
Proof.
  intros Hsvd Hy. destruct (xmap_facts svd t85 sp85 1 1 1 1 2 1 Hsvd eq_refl ltac:(lia) ltac:(lia) ltac:(lia) in85 ltac:(lra) y) as (it & _ & _ & Ho & _).
  pose proof (ok85_inv _ Ho) as Ex. set (x := mget (t1 (xmap svd t85 sp85 1 2 1 y)) 0 0) in *. rewrite Ex, fit85.
  pose proof (opt3 svd t85 sp85 1 1 1 1 2 1 Hsvd eq_refl ltac:(lia) ltac:(lia) ltac:(lia) in85 ltac:(lra) dis85 y _ (ok85 0)) as K.
  rewrite Ex, !(pen85 svd _ Hsvd) in K. unfold vd, sumn in K. cbn [seq map] in K. rewrite !fit85 in K. unfold lsum in K. cbn [fold_right] in K. Rn.
  pose proof (dist_pos 1 1 1 _ _ (ok85 0) (ok85 x)) as D. rewrite Hy, Rabs_R0 in K. pose proof (Rabs_pos x). nra.
Qed.

Lemma obs85 : obs t85 sp85 0 = 5. Proof. reflexivity. Qed.

Lemma y85 svd : full_svd svd -> forall k, (yseq svd t85 sp85 1 1 1 1 2 1 (S (2 * k)) 0 = 10 /\ yseq svd t85 sp85 1 1 1 1 2 1 (S (S (2 * k))) 0 = 2).
Proof.
  intros Hsvd. assert (St : forall k, yseq svd t85 sp85 1 1 1 1 2 1 (S k) 0 =
    yseq svd t85 sp85 1 1 1 1 2 1 k 0 + 2 * (5 - fit3 sp85 1 1 1 (xmap svd t85 sp85 1 2 1 (yseq svd t85 sp85 1 1 1 1 2 1 k)) 0)) by reflexivity.
  assert (N : forall k, yseq svd t85 sp85 1 1 1 1 2 1 k 0 = 10 -> yseq svd t85 sp85 1 1 1 1 2 1 (S k) 0 = 2).
  { intros k E. rewrite St, (x85 svd _ Hsvd) by lra. rewrite E. ring. }
  assert (N' : forall k, yseq svd t85 sp85 1 1 1 1 2 1 k 0 = 2 -> yseq svd t85 sp85 1 1 1 1 2 1 (S k) 0 = 10).
  { intros k E. rewrite St, (x85 svd _ Hsvd) by lra. rewrite E. ring. }
  assert (B : yseq svd t85 sp85 1 1 1 1 2 1 1 0 = 10).
  { rewrite St, (x85_0 svd _ Hsvd) by reflexivity. change (yseq svd t85 sp85 1 1 1 1 2 1 0 0) with 0. ring. }
  induction k as [|k [IH1 IH2]]; [split; auto|]. replace (2 * S k)%nat with (S (S (2 * k))) by lia. split; auto.
Qed.

Lemma loss85 svd k : full_svd svd -> (1 <= k)%nat -> it_loss (itk svd t85 sp85 1 1 1 1 2 1 k) = 4.
Proof.
  intros Hsvd Hk. destruct (itk_facts svd t85 sp85 1 1 1 1 2 1 Hsvd eq_refl ltac:(lia) ltac:(lia) ltac:(lia) in85 ltac:(lra) k) as (_ & _ & _ & _ & EL & Hl).
  unfold vd, sumn in EL. cbn [seq map] in EL. unfold lsum in EL. cbn [fold_right] in EL. unfold res in EL. rewrite obs85 in EL. simpl INR in EL. Rn.
  assert (E : yseq svd t85 sp85 1 1 1 1 2 1 k 0 = 10 \/ yseq svd t85 sp85 1 1 1 1 2 1 k 0 = 2).
  { destruct (Nat.Even_or_Odd k) as [[j Hj]|[j Hj]].
    - right. replace k with (S (S (2 * (j - 1)))) by lia. apply y85; auto.
    - left. replace k with (S (2 * j)) by lia. apply y85; auto. }
  rewrite (x85 svd _ Hsvd) in EL by (destruct E as [-> | ->]; lra). set (l := it_loss _) in *. unfold Rsqr in EL.
  assert (l * l = 16) by (destruct E as [E|E]; rewrite E in EL; lra). nra.
Qed.

(** the loss never falls below 4, although some matrices fit the tensor exactly *)
Theorem c85_step_refuted : exists svd t spl, full_svd svd /\ shp t = [1; 1; 1]%nat /\ sample_in 1 1 1 1 spl /\ sample_distinct 1 spl /\
  0 < step_size 2 1 1 1 1 /\ (exists A B C, interaction_matrices 1 1 1 A B C /\ matches t spl 1 1 1 1 A B C) /\
  freedom 1 1 1 1 <> 0%Z /\
  forall steps, (2 <= steps)%Z -> exists y it If Ef Rf, exact_recovery svd t spl 1 2 1 1 steps = Ok (y, it, If, Ef, Rf) /\ it_loss it = 4.
Proof.
  destruct full_svd_exists as (svd & Hsvd). exists svd, t85, sp85. split; [exact Hsvd|]. split; [reflexivity|]. split; [exact in85|]. split; [exact dis85|].
  split; [rewrite stp85; lra|]. split.
  { exists (m1 5), (m1 0), (m1 0). split; [exact (ok85 5)|]. intros l Hl. assert (l = 0%nat) by lia. subst l. exact (fit85 5). }
  split; [discriminate|]. intros steps Hst.
  pose proof (recovery_runs svd t85 sp85 1 1 1 1 2 1 Hsvd eq_refl ltac:(lia) ltac:(lia) ltac:(lia) in85 ltac:(lra) 1 steps ltac:(discriminate) ltac:(lia)) as R.
  cbv zeta in R. rewrite stp85, thr85 in R. eexists _, _, _, _, _. split; [exact R|]. apply loss85; [auto|lia].
Qed.

(** ** two samples of a 2 x 2 x 2 tensor: the hypotheses of the convergence theorem *)
Definition t85b : tensor R := mkT [2; 2; 2]%nat [1; 2; 3; 4; 5; 6; 7; 1].
Definition sp85b : sample := mkS [0; 1]%nat [0; 1]%nat [0; 1]%nat.
Definition A85b : tensor R := mgen 2 2 (fun i j => if Nat.eqb i j then sqrt 2 else 0).
Definition Z85b : tensor R := mgen 2 2 (fun _ _ => 0).


Lemma hyp85b : shp t85b = [2; 2; 2]%nat /\ sample_in 2 2 2 2 sp85b /\ sample_distinct 2 sp85b /\ small_step (step_size 1 2 2 2 2) 2 2 2 /\
  interaction_matrices 2 2 2 A85b Z85b Z85b /\ matches t85b sp85b 2 2 2 2 A85b Z85b Z85b.
Proof.
  assert (S2 : 0 < sqrt 2) by (apply sqrt_lt_R0; lra). assert (S22 : sqrt 2 * sqrt 2 = 2) by (apply sqrt_sqrt; lra).
  split; [reflexivity|]. split; [|split; [|split; [|split]]].
  - split; [simpl; lia|]. split; [simpl; lia|]. split; [simpl; lia|]. intros i Hi. destruct i as [|[|i]]; simpl; lia.
  - assert (D : positions_distinct 2 [0; 1]%nat [0; 1]%nat).
    { intros i j Hi Hj. destruct i as [|[|i]]; destruct j as [|[|j]]; simpl; lia. }
    split; [exact D|]. split; exact D.
  - unfold small_step, step_size. change (2 * 2 * 2)%nat with 8%nat.
    assert (S8 : sqrt (INR 8) = 2 * sqrt 2).
    { replace (INR 8) with ((2 * 2) * 2) by (simpl; ring). rewrite sqrt_mult by lra. rewrite sqrt_square by lra. reflexivity. }
    rewrite S8. simpl INR. replace (1 * (1 + 1) / (2 * sqrt 2)) with (/ sqrt 2) by (field; lra). split; [apply Rinv_0_lt_compat; auto|].
    replace (1 / (1 + 1) + 1 / (1 + 1) + 1 / (1 + 1)) with (3/2) by field. apply Rmult_lt_reg_l with (sqrt 2); [auto|]. rewrite <- Rmult_assoc, Rinv_r by lra.
    assert (3 / 4 < sqrt 2) by nra. lra.
  - split; [apply is_mat_mgen|]. split; [apply is_mat_mgen|]. split; [apply is_mat_mgen|]. split.
    + intros j j' Hj Hj'. change (ncols A85b) with 2%nat in *. unfold A85b. rewrite !col_sum_mgen by auto. unfold sumn, lsum. cbn [seq map fold_right].
      destruct j as [|[|j]]; destruct j' as [|[|j']]; try lia; simpl; Rn; ring.
    + split; intros j Hj; change (ncols Z85b) with 2%nat in Hj; unfold Z85b; rewrite col_sum_mgen by auto; apply sumnR_zero; auto.
  - intros l Hl. unfold interaction, A85b, Z85b. assert (E2 : INR 2 = 2) by (simpl; ring). rewrite E2.
    destruct l as [|[|l]]; [| |lia]; cbn [sp85b sp_a sp_b sp_c nth]; rewrite !mget_mgen by auto; cbn [Nat.eqb]; unfold get; simpl; field; lra.
Qed.

Lemma A85b_nz : A85b <> Z85b.
Proof.
  intros E. assert (K : mget A85b 0 0 = mget Z85b 0 0) by (rewrite E; reflexivity). unfold A85b, Z85b in K. rewrite !mget_mgen in K by lia. cbn [Nat.eqb] in K.
  assert (0 < sqrt 2) by (apply sqrt_lt_R0; lra). lra.
Qed.
Lemma cov85 : sample_covers 1 1 1 1 sp85.
Proof. intros a b c Ha Hb Hc. exists 0%nat. cbn. lia. Qed.
Lemma pen_M61 : penalty Normal M61 6.
Proof. exists U61, [4; 2; 0], W61. split; [exact svd_M61|]. simpl. Rn. ring. Qed.
