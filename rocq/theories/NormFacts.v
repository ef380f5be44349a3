(** max_single_value_mul (C21) and operator-norm bounds of Kronecker products. *)

From Coq Require Import ZArith List Bool Arith Lia Permutation Reals Lra Psatz.
From Verif Require Import SpecR Num Py Tensor TF TensorFacts TFFacts Sums RSums Ops Spec LayoutFacts SpecFacts EinsumFacts MulFacts KronFacts KronAlg SkipFacts.
Import ListNotations.

Section Red.
  Context {T : Type} {N : Num T} (RL : RingLaws T).

  Lemma reduceM_mul (l : list T) : forall x, reduceM (fun a b => Ok (nmul a b)) x l = Ok (nmul x (listprod l)).
  Proof.
    induction l as [|y l IH]; intros x; simpl.
    - rewrite (Ring_theory.Rmul_comm RL), (Ring_theory.Rmul_1_l RL). reflexivity.
    - rewrite IH. rewrite (Ring_theory.Rmul_assoc RL). reflexivity.
  Qed.

  Lemma max_single_ok svals (l : list (tensor T)) s : without (skipset s) l <> [] ->
    max_single_value_mul svals l s = Ok (listprod (map (fun m => tf_max (svals m)) (without (skipset s) l))).
  Proof.
    intros Hne. unfold max_single_value_mul. rewrite skip_without.
    destruct (without (skipset s) l) as [|x r]; [congruence|]. simpl. apply reduceM_mul.
  Qed.

  Lemma max_single_nil svals (l : list (tensor T)) s : without (skipset s) l = [] ->
    max_single_value_mul svals l s = Raise TypeError.
  Proof. intros E. unfold max_single_value_mul. rewrite skip_without, E. reflexivity. Qed.
End Red.

Local Open Scope R_scope.

Notation norm_bound := stretches_at_most.

Lemma tf_max_R (l : list R) : l <> [] -> In (tf_max l) l /\ forall x, In x l -> x <= tf_max l.
Proof.
  destruct l as [|x l]; [congruence|]. intros _. simpl tf_max.
  assert (G : forall l x, (fold_left nmax l x = x \/ In (fold_left nmax l x) l) /\
                          x <= fold_left nmax l x /\ forall y, In y l -> y <= fold_left nmax l x).
  { clear. induction l as [|y l IH]; intros x; simpl; [split; [auto|split; [lra|tauto]]|].
    destruct (IH (nmax x y)) as (H1 & H2 & H3). rewrite nmax_R in *.
    pose proof (Rmax_l x y). pose proof (Rmax_r x y).
    split; [|split].
    - destruct H1 as [E|Hin]; [|auto]. rewrite E. unfold Rmax. destruct (Rle_dec x y); auto.
    - lra.
    - intros z [<-|Hz]; [lra|auto]. }
  destruct (G l x) as (H1 & H2 & H3). split.
  - simpl. destruct H1; auto.
  - intros y [<-|Hy]; auto.
Qed.

Lemma sumn_prod2 (f : nat -> R) m n : sumn (m * n) f = sumn m (fun i => sumn n (fun j => f (i * n + j)%nat)).
Proof.
  pose proof (sumn_isum [m; n] f) as H. cbn [prod] in H. rewrite Nat.mul_1_r in H. rewrite H.
  rewrite (isum_cons RLR). apply sumn_ext. intros i _. rewrite (isum_cons RLR). apply sumn_ext. intros j _.
  rewrite (isum_nil RLR). rewrite ravel2. reflexivity.
Qed.

Lemma norm_bound_sumn (M : tensor R) sigma : norm_bound M sigma <-> forall x,
    sumn (nrows M) (fun i => (sumn (ncols M) (fun j => mget M i j * x j))²)
    <= sigma² * sumn (ncols M) (fun j => (x j)²).
Proof.
  unfold norm_bound. split; intros H x; specialize (H x); rewrite ?(sumn_bigsum RLR) in *.
  - erewrite bigsum_ext; [exact H|]. intros i Hi. cbv beta. rewrite (sumn_bigsum RLR). reflexivity.
  - erewrite bigsum_ext; [exact H|]. intros i Hi. cbv beta. rewrite (sumn_bigsum RLR). reflexivity.
Qed.

Lemma kron2_norm (A B K : tensor R) sa sb : matrix A -> matrix B -> is_kron [A; B] K ->
  norm_bound A sa -> norm_bound B sb -> norm_bound K (sa * sb).
Proof.
  intros MA MB HK HA HB. pose proof (proj1 (norm_bound_sumn _ _) HA) as HA'. pose proof (proj1 (norm_bound_sumn _ _) HB) as HB'. clear HA HB. rename HA' into HA. rename HB' into HB. apply (proj2 (norm_bound_sumn _ _)).
  destruct (matrix_is_mat _ _ _ (proj1 HK)) as (_ & Rr & Cc).
  cbn [map nprod fold_right] in Rr, Cc. unfold nprod in Rr, Cc. simpl in Rr, Cc.
  rewrite Nat.mul_1_r in Rr, Cc.
  intros x. rewrite Rr, Cc.
  set (m := nrows A) in *. set (n := nrows B) in *. set (p := ncols A) in *. set (q := ncols B) in *.
  assert (G : forall i1 i2 j1 j2, (i1 < m)%nat -> (i2 < n)%nat -> (j1 < p)%nat -> (j2 < q)%nat ->
     mget K (i1 * n + i2) (j1 * q + j2) = mget A i1 j1 * mget B i2 j2).
  { intros i1 i2 j1 j2 H1 H2 H3 H4.
    pose proof (is_kron_ravel _ _ HK [i1; i2] [j1; j2]) as G. cbn [map] in G. rewrite !ravel2 in G.
    fold n q in G. rewrite G by (apply valid2; auto). unfold mat_at. cbn [length bigprod nth]. Rn. ring. }
  rewrite !sumn_prod2.
  set (y := fun j1 i2 => sumn q (fun j2 => mget B i2 j2 * x (j1 * q + j2)%nat)).
  apply Rle_trans with (sumn m (fun i1 => sumn n (fun i2 => (sumn p (fun j1 => mget A i1 j1 * y j1 i2))²))).
  { right. apply sumn_ext. intros i1 H1. apply sumn_ext. intros i2 H2. f_equal.
    rewrite sumn_prod2. apply sumn_ext. intros j1 H3. unfold y. rewrite <- sumnR_scale.
    apply sumn_ext. intros j2 H4. rewrite G by auto. ring. }
  rewrite (sumn_exchange RLR).
  apply Rle_trans with (sumn n (fun i2 => sa² * sumn p (fun j1 => (y j1 i2)²))).
  { apply sumnR_le. intros i2 _. apply (HA (fun j1 => y j1 i2)). }
  rewrite sumnR_scale. rewrite Rsqr_mult, Rmult_assoc. apply Rmult_le_compat_l; [apply Rle_0_sqr|].
  rewrite (sumn_exchange RLR). rewrite <- sumnR_scale. apply sumnR_le. intros j1 _.
  apply (HB (fun j2 => x (j1 * q + j2)%nat)).
Qed.

Lemma kron_single (A K : tensor R) : matrix A -> is_kron [A] K -> K = A.
Proof.
  intros MA HK. apply (mat_ext _ _ (nrows A) (ncols A)); auto.
  - destruct HK as [HK _]. cbn [map nprod fold_right] in HK. unfold nprod in HK. simpl in HK. rewrite !Nat.mul_1_r in HK. exact HK.
  - intros i j Hi Hj. pose proof (is_kron_ravel _ _ HK [i] [j]) as G. cbn [map ravel prod] in G.
    rewrite !Nat.mul_1_r, !Nat.add_0_r in G. rewrite G by (repeat constructor; auto).
    unfold mat_at. cbn [length bigprod nth]. Rn. ring.
Qed.

(** the model kron exists only up to 13 factors; the relation holds for every list *)
Definition kron_of (l : list (tensor R)) : tensor R :=
  mgen (nprod (map nrows l)) (nprod (map ncols l)) (fun a b =>
    bigprod (length l) (fun k => mget (mat_at l k) (nth k (unravel (map nrows l) a) 0%nat) (nth k (unravel (map ncols l) b) 0%nat))).
Lemma kron_of_ok l : is_kron l (kron_of l).
Proof.
  apply is_kron_intro; [apply is_mat_mgen|]. intros i j Hi Hj. unfold kron_of.
  rewrite mget_mgen by (apply ravel_lt; auto). rewrite !unravel_ravel by auto. reflexivity.
Qed.

Lemma kron_norm (l : list (tensor R)) : forall K (sig : tensor R -> R), l <> [] -> (forall M, In M l -> matrix M) ->
  (forall M, In M l -> norm_bound M (sig M)) -> is_kron l K -> norm_bound K (listprod (map sig l)).
Proof.
  induction l as [|A l IH]; intros K sig Hne Hm Hb HK; [congruence|].
  destruct l as [|B l].
  - rewrite (kron_single A K) by (auto; apply Hm; simpl; auto). simpl. Rn. rewrite Rmult_1_r. apply Hb. simpl; auto.
  - change (A :: B :: l) with ([A] ++ (B :: l)) in HK.
    pose proof (kron_assoc RLR [A] (B :: l) (kron_of [A]) (kron_of (B :: l)) K (kron_of_ok _) (kron_of_ok _) HK) as H2.
    rewrite (kron_single A (kron_of [A])) in H2 by (auto using kron_of_ok; apply Hm; simpl; auto).
    change (listprod (map sig (A :: B :: l))) with (sig A * listprod (map sig (B :: l))).
    eapply kron2_norm; [| |exact H2| |].
    + apply Hm; simpl; auto.
    + apply (matrix_is_mat _ _ _ (proj1 (kron_of_ok (B :: l)))).
    + apply Hb; simpl; auto.
    + apply IH; [discriminate| | |apply kron_of_ok].
      * intros; apply Hm; simpl; auto.
      * intros; apply Hb; simpl; auto.
Qed.

(** quadratic form bound *)
Lemma norm_bound_quad (K : tensor R) s (x : nat -> R) : 0 <= s -> nrows K = ncols K -> norm_bound K s ->
  bigsum (nrows K) (fun i => x i * bigsum (ncols K) (fun j => mget K i j * x j)) <= s * bigsum (ncols K) (fun j => (x j)²).
Proof.
  intros Hs Hsq H. specialize (H x).
  set (q := bigsum (nrows K) (fun i => x i * bigsum (ncols K) (fun j => mget K i j * x j))).
  set (X := bigsum (ncols K) (fun j => (x j)²)) in *.
  set (Y := bigsum (nrows K) (fun i => (bigsum (ncols K) (fun j => mget K i j * x j))²)) in *.
  assert (Hq : q² <= X * Y).
  { unfold q, X, Y. rewrite <- Hsq. rewrite <- !(sumn_bigsum RLR).
    apply sumnR_cauchy. }
  assert (HX : 0 <= X). { unfold X. rewrite <- (sumn_bigsum RLR). apply sumnR_nonneg. intros; apply Rle_0_sqr. }
  assert (Hq2 : q² <= (s * X)²). { unfold Rsqr in *. nra. }
  apply Rsqr_incr_0_var; [exact Hq2|]. nra.
Qed.
