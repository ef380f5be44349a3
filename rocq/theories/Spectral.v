(** Orthonormal completion, the spectral decomposition of a positive semidefinite
    matrix and the reduced singular value decomposition exist. *)

From Coq Require Import ZArith List Bool Arith Lia Reals Lra Psatz.
From Verif Require Import Num Py Tensor TensorFacts Sums RSums MatR MaxR.
Import ListNotations.
Local Open Scope R_scope.

Definition col (U : mf) (p : nat) : vec := fun i => U i p.
Definition addcol (U : mf) (k : nat) (v : vec) : mf := fun i p => if Nat.eqb p k then v i else U i p.

Lemma sumnR_pos_ex n (f : nat -> R) : 0 < sumn n f -> exists i, (i < n)%nat /\ 0 < f i.
Proof.
  induction n as [|n IH]; intros H.
  - rewrite sumn_0 in H. Rn. lra.
  - rewrite sumnRS in H. destruct (Rle_lt_dec (f n) 0) as [Hf|Hf].
    + destruct IH as (i & Hi & Hp); [lra|]. exists i. split; auto.
    + exists n. split; auto.
Qed.

Lemma ortho_col n k U p q : ortho n k U -> (p < k)%nat -> (q < k)%nat -> dotv n (col U p) (col U q) = delta p q.
Proof. intros H Hp Hq. apply H; auto. Qed.

Lemma ortho_fro n k U : ortho n k U -> fro n n (fun i j => delta i j - mm k U (tr U) i j) = INR n - INR k.
Proof.
  intros H. rewrite fro_sub. set (P := mm k U (tr U)).
  assert (Ht : sumn n (fun i => P i i) = INR k).
  { unfold P, mm, tr. rewrite sumnR_ex. rewrite (sumnR_ext k _ (fun _ => 1)); [rewrite sumnR_const; lra|].
    intros i Hi. specialize (H i i Hi Hi). unfold mm, tr, delta in H. rewrite Nat.eqb_refl in H. exact H. }
  assert (E1 : fro n n delta = INR n).
  { unfold fro, dot2. rewrite (sumnR_ext n _ (fun _ => 1)); [rewrite sumnR_const; lra|].
    intros i Hi. rewrite (sumnR_ext n _ (fun j => delta i j * delta j i)) by (intros; rewrite (delta_sym i i0); reflexivity).
    rewrite sumnR_delta' by auto. unfold delta. rewrite Nat.eqb_refl. reflexivity. }
  assert (E2 : dot2 n n delta P = INR k).
  { rewrite <- Ht. unfold dot2. apply sumnR_ext. intros i Hi.
    rewrite (sumnR_ext n _ (fun j => delta j i * P i j)) by (intros; rewrite delta_sym; reflexivity).
    rewrite sumnR_delta; auto. }
  assert (E3 : fro n n P = INR k).
  { unfold P. rewrite (fro_ortho n k n U (tr U) H). rewrite <- Ht. unfold fro, dot2, P, mm, tr. rewrite sumnR_ex. reflexivity. }
  rewrite E1, E2, E3. lra.
Qed.

Lemma ortho_le n k U : ortho n k U -> (k <= n)%nat.
Proof.
  intros H. pose proof (ortho_fro n k U H) as E. pose proof (fro_nonneg n n (fun i j => delta i j - mm k U (tr U) i j)).
  apply INR_le. lra.
Qed.

Lemma complete1 n k U : ortho n k U -> (k < n)%nat -> exists v, dotv n v v = 1 /\ forall p, (p < k)%nat -> dotv n v (col U p) = 0.
Proof.
  intros H Hk. pose proof (ortho_fro n k U H) as E. assert (Hp : 0 < INR n - INR k) by (pose proof (lt_INR k n Hk); lra).
  rewrite <- E in Hp. destruct (sumnR_pos_ex n _ Hp) as (i & Hi & Hr). cbv beta in Hr.
  set (r := fun j => delta i j - mm k U (tr U) i j) in *. change (0 < dotv n r r) in Hr.
  assert (Ho : forall p, (p < k)%nat -> dotv n r (col U p) = 0).
  { intros p Hpk. unfold r, dotv, col. rewrite (sumnR_ext n _ (fun j => delta j i * U j p - mm k U (tr U) i j * U j p)).
    2:{ intros j Hj. rewrite (delta_sym i j). ring. }
    rewrite sumnR_sub, sumnR_delta by auto.
    change (sumn n (fun j => mm k U (tr U) i j * U j p)) with (mm n (mm k U (tr U)) U i p). rewrite mm_assoc.
    rewrite (mm_ext k U U _ delta); [rewrite mm_delta_r by auto; lra|auto|]. intros l Hl. apply H; auto. }
  exists (fun j => / sqrt (dotv n r r) * r j). split.
  - rewrite dotv_scale_l, dotv_scale_r. pose proof (sqrt_lt_R0 _ Hr). rewrite <- (sqrt_sqrt (dotv n r r)) at 3 by lra. field. lra.
  - intros p Hpk. rewrite dotv_scale_l, Ho by auto. lra.
Qed.

Lemma ortho_addcol n k U v : ortho n k U -> dotv n v v = 1 -> (forall p, (p < k)%nat -> dotv n v (col U p) = 0) ->
  ortho n (S k) (addcol U k v).
Proof.
  intros H Hv Ho p q Hp Hq. change (dotv n (col (addcol U k v) p) (col (addcol U k v) q) = delta p q).
  unfold col, addcol. destruct (Nat.eqb_spec p k) as [->|Np], (Nat.eqb_spec q k) as [->|Nq].
  - change (dotv n v v = delta k k). unfold delta. rewrite Nat.eqb_refl. exact Hv.
  - change (dotv n v (col U q) = delta k q). rewrite Ho by lia. unfold delta. destruct (Nat.eqb_spec k q); [lia|reflexivity].
  - change (dotv n (col U p) v = delta p k). rewrite dotv_sym, Ho by lia. unfold delta. destruct (Nat.eqb_spec p k); [lia|reflexivity].
  - change (dotv n (col U p) (col U q) = delta p q). apply H; lia.
Qed.

Lemma complete n k U : ortho n k U -> forall d, (k + d <= n)%nat -> exists U', ortho n (k + d) U' /\ forall p i, (p < k)%nat -> U' i p = U i p.
Proof.
  intros H. induction d as [|d IH]; intros Hd.
  - exists U. rewrite Nat.add_0_r. auto.
  - destruct IH as (U' & H1 & H2); [lia|]. destruct (complete1 n (k + d) U' H1 ltac:(lia)) as (v & Hv & Ho).
    exists (addcol U' (k + d) v). split.
    + rewrite Nat.add_succ_r. apply ortho_addcol; auto.
    + intros p i Hp. unfold addcol. destruct (Nat.eqb_spec p (k + d)); [lia|auto].
Qed.

Definition symm (n : nat) (S : mf) : Prop := forall i j, (i < n)%nat -> (j < n)%nat -> S i j = S j i.
Definition psd (n : nat) (S : mf) : Prop := forall y, 0 <= dotv n y (mv n S y).

Lemma mv_ext n S x x' i : (forall j, (j < n)%nat -> x j = x' j) -> mv n S x i = mv n S x' i.
Proof. intros H. apply sumnR_ext. intros j Hj. rewrite H; auto. Qed.

Lemma quad_zero n S : symm n S -> (forall y, dotv n y (mv n S y) = 0) -> meq n n S (fun _ _ => 0).
Proof.
  intros Hs H.
  assert (B : forall x y, dotv n x (mv n S y) = 0).
  { intros x y. pose proof (H (fun i => x i + y i)) as E.
    rewrite (dotv_ext n _ (fun i => x i + y i) _ (fun i => mv n S x i + mv n S y i)) in E; auto; [|intros; apply mv_add].
    rewrite dotv_add_l, !dotv_add_r, (H x), (H y) in E. rewrite <- (mv_sym n S y x Hs), (dotv_sym n (mv n S y) x) in E. lra. }
  intros i j Hi Hj. pose proof (dotv_zero n _ (B (mv n S (fun l => delta l j)) (fun l => delta l j)) i Hi) as E.
  unfold mv in E. rewrite sumnR_delta' in E by auto. exact E.
Qed.

Lemma rank1_quad n (S : mf) x y : dotv n y (mv n (fun i j => S i j - x i * x j) y) = dotv n y (mv n S y) - dotv n x y * dotv n x y.
Proof.
  rewrite (dotv_ext n y y _ (fun i => mv n S y i + (- dotv n x y) * x i)); auto.
  - rewrite dotv_add_r, dotv_scale_r, (dotv_sym n y x). ring.
  - intros i Hi. unfold mv, dotv. rewrite (sumnR_ext n _ (fun j => S i j * y j - x i * (x j * y j))) by (intros; ring).
    rewrite sumnR_sub, sumnR_scale. ring.
Qed.
Lemma rank1_mv n (S : mf) x y i : mv n (fun i j => S i j - x i * x j) y i = mv n S y i - x i * dotv n x y.
Proof.
  unfold mv, dotv. rewrite (sumnR_ext n _ (fun j => S i j * y j - x i * (x j * y j))) by (intros; ring).
  rewrite sumnR_sub, sumnR_scale. ring.
Qed.

Lemma peel n : forall d S U p, (p + d = n)%nat -> symm n S -> psd n S -> ortho n p U ->
  (forall q i, (q < p)%nat -> (i < n)%nat -> mv n S (col U q) i = 0) ->
  exists k U' lam, (p <= k <= n)%nat /\ ortho n k U' /\ (forall q i, (q < p)%nat -> U' i q = U i q) /\
    (forall q, (p <= q < k)%nat -> 0 < lam q) /\ (forall q r, (p <= q <= r)%nat -> (r < k)%nat -> lam r <= lam q) /\
    (forall C, (forall y, dotv n y (mv n S y) <= C * dotv n y y) -> forall q, (p <= q < k)%nat -> lam q <= C) /\
    (forall i j, (i < n)%nat -> (j < n)%nat -> S i j = sumn k (fun q => if Nat.ltb q p then 0 else lam q * U' i q * U' j q)).
Proof.
  induction d as [|d IH]; intros S U p Hpd Hs Hp Ho Hk.
  - assert (p = n) by lia. subst p. exists n, U, (fun _ => 0). repeat (split; [first [lia|auto|intros; lia]|]).
    intros i j Hi Hj. rewrite sumnR_zero by (intros q Hq; destruct (Nat.ltb_spec q n); [reflexivity|lia]).
    rewrite <- (mm_delta_r n S i j Hj). apply ortho_square in Ho.
    rewrite (mm_ext n S S delta (mm n U (tr U))); [|auto|intros l Hl; symmetry; apply Ho; auto].
    rewrite <- mm_assoc. apply sumnR_zero. intros l Hl. pose proof (Hk l i Hl Hi) as E. change (mm n S U i l) with (mv n S (col U l) i). rewrite E. lra.
  - destruct (pen_max n S) as (x & Hx). pose proof (pen_grad n S x Hs Hx) as Hg. pose proof (pen_top n S x Hs Hx) as Ht.
    set (c := dotv n x x) in *. destruct (Req_dec c 0) as [Hc|Hc].
    + assert (Z : meq n n S (fun _ _ => 0)).
      { apply quad_zero; auto. intros y. specialize (Ht y). specialize (Hp y). rewrite Hc in Ht. lra. }
      exists p, U, (fun _ => 0). repeat (split; [first [lia|auto|intros; lia]|]). intros i j Hi Hj. rewrite Z by auto.
      rewrite sumnR_zero; [reflexivity|]. intros q Hq. destruct (Nat.ltb_spec q p); [reflexivity|lia].
    + assert (Hc0 : 0 < c) by (pose proof (dotv_nonneg n x); fold c in H; lra). pose proof (sqrt_lt_R0 c Hc0) as Hsq.
      assert (Hss : sqrt c * sqrt c = c) by (apply sqrt_sqrt; lra).
      set (v := fun i => / sqrt c * x i).
      assert (Hv1 : dotv n v v = 1). { unfold v. rewrite dotv_scale_l, dotv_scale_r. fold c. rewrite <- Hss at 3. field. lra. }
      assert (Hxo : forall q, (q < p)%nat -> dotv n x (col U q) = 0).
      { intros q Hq. assert (E : c * dotv n x (col U q) = 0).
        { rewrite <- dotv_scale_l. rewrite (dotv_ext n _ (mv n S x) _ (col U q)); auto; [|intros; symmetry; auto].
          rewrite (mv_sym n S x (col U q) Hs). apply sumnR_zero. intros i Hi. rewrite Hk by auto. lra. }
        apply Rmult_integral in E. tauto. }
      assert (Hvo : forall q, (q < p)%nat -> dotv n v (col U q) = 0) by (intros q Hq; unfold v; rewrite dotv_scale_l, Hxo by auto; lra).
      set (T := fun i j => S i j - x i * x j).
      assert (HTle : forall y, dotv n y (mv n T y) <= dotv n y (mv n S y)) by (intros y; unfold T; rewrite rank1_quad; nra).
      destruct (IH T (addcol U p v) (Datatypes.S p)) as (k & U' & lam & K1 & K2 & K3 & K4 & K5 & K6 & K7).
      * lia.
      * intros i j Hi Hj. unfold T. rewrite (Hs i j) by auto. ring.
      * intros y. unfold T. rewrite rank1_quad. set (a := dotv n x y). pose proof (Hp (fun i => y i + (- (a / c)) * x i)) as E.
        rewrite (dotv_ext n _ (fun i => y i + - (a / c) * x i) _ (fun i => mv n S y i + - (a / c) * (c * x i))) in E; auto.
        2:{ intros i Hi. rewrite mv_add, mv_scale, Hg by auto. reflexivity. }
        rewrite dotv_add_l, !dotv_add_r, !dotv_scale_l, !dotv_scale_r in E.
        rewrite (dotv_sym n y x) in E. fold c a in E.
        assert (E2 : dotv n x (mv n S y) = c * a).
        { rewrite <- (mv_sym n S x y Hs). rewrite (dotv_ext n _ (fun i => c * x i) _ y) by auto. rewrite dotv_scale_l. reflexivity. }
        rewrite E2 in E.
        eapply Rle_trans; [exact E|]. apply Req_le. field. lra.
      * apply ortho_addcol; auto.
      * intros q i Hq Hi. unfold T. rewrite rank1_mv. destruct (Nat.eq_dec q p) as [->|Nq].
        -- assert (E : forall j, col (addcol U p v) p j = / sqrt c * x j) by (intros j; unfold col, addcol; rewrite Nat.eqb_refl; reflexivity).
           rewrite (mv_ext n S _ (fun j => / sqrt c * x j)) by auto.
           rewrite (dotv_ext n x x _ (fun j => / sqrt c * x j)) by auto. rewrite mv_scale, dotv_scale_r, Hg by auto. fold c. ring.
        -- assert (E : forall j, col (addcol U p v) q j = col U q j) by (intros j; unfold col, addcol; destruct (Nat.eqb_spec q p); [lia|reflexivity]).
           rewrite (mv_ext n S _ (col U q)) by auto. rewrite (dotv_ext n x x _ (col U q)) by auto. rewrite Hk, Hxo by (auto; lia). ring.
      * assert (Kp : forall i, U' i p = v i) by (intros i; rewrite K3 by lia; unfold addcol; rewrite Nat.eqb_refl; reflexivity).
        exists k, U', (fun q => if Nat.eqb q p then c else lam q). split; [lia|]. split; [exact K2|]. split.
        { intros q i Hq. rewrite K3 by lia. unfold addcol. destruct (Nat.eqb_spec q p); [lia|reflexivity]. }
        split. { intros q Hq. destruct (Nat.eqb_spec q p); [auto|apply K4; lia]. }
        split. { intros q r Hq Hr. destruct (Nat.eqb_spec r p) as [->|Nr].
          - destruct (Nat.eqb_spec q p); [lra|lia].
          - destruct (Nat.eqb_spec q p); [|apply K5; lia]. apply K6; [|lia]. intros y. specialize (HTle y). specialize (Ht y). lra. }
        split. { intros C HC q Hq. destruct (Nat.eqb_spec q p).
          - specialize (HC v). rewrite Hv1 in HC. rewrite (dotv_ext n v v _ (fun i => c * v i)) in HC; auto.
            + rewrite dotv_scale_r, Hv1 in HC. lra.
            + intros i Hi. unfold v. rewrite mv_scale, Hg by auto. ring.
          - apply K6; [|lia]. intros y. specialize (HTle y). specialize (HC y). lra. }
        intros i j Hi Hj. replace (S i j) with (T i j + x i * x j) by (unfold T; ring). rewrite K7 by auto.
        rewrite <- (sumnR_delta k p (fun _ => x i * x j)) by lia. rewrite <- sumnR_add. apply sumnR_ext. intros q Hq.
        unfold delta. destruct (Nat.eqb_spec q p) as [->|Nq].
        -- rewrite !Kp. destruct (Nat.ltb_spec p (Datatypes.S p)); [|lia]. destruct (Nat.ltb_spec p p); [lia|]. unfold v.
           rewrite <- Hss at 1. field. lra.
        -- destruct (Nat.ltb_spec q (Datatypes.S p)), (Nat.ltb_spec q p); try lia; lra.
Qed.

(** ** a real matrix with no more rows than columns has a reduced singular value decomposition *)
Lemma svd_wide m n (M : mf) : (m <= n)%nat -> exists U W s, ortho m m U /\ ortho n m W /\
  (forall p, (p < m)%nat -> 0 <= s p) /\ (forall p q, (p <= q)%nat -> (q < m)%nat -> s q <= s p) /\
  forall i j, (i < m)%nat -> (j < n)%nat -> M i j = sumn m (fun p => U i p * s p * W j p).
Proof.
  intros Hmn. set (S := mm n M (tr M)).
  assert (HMv : forall x y, dotv m x (mv m S y) = dotv n (fun j => sumn m (fun i => M i j * x i)) (fun j => sumn m (fun i => M i j * y i))).
  { intros x y. unfold dotv, mv, S, mm, tr.
    transitivity (sumn m (fun i => sumn n (fun j => sumn m (fun l => M i j * x i * (M l j * y l))))).
    - apply sumnR_ext. intros i Hi. rewrite <- sumnR_scale. erewrite sumnR_ext by (intros; rewrite <- sumnR_scale_r, <- sumnR_scale; reflexivity).
      rewrite sumnR_ex. apply sumnR_ext. intros j Hj. apply sumnR_ext. intros l Hl. ring.
    - rewrite sumnR_ex. apply sumnR_ext. intros j Hj. rewrite <- sumnR_scale_r. apply sumnR_ext. intros i Hi. apply sumnR_scale. }
  assert (Hs : symm m S). { intros i j _ _. unfold S, mm, tr. apply sumnR_ext. intros. ring. }
  assert (Hp : psd m S). { intros y. rewrite HMv. apply dotv_nonneg. }
  destruct (peel m m S (fun _ _ => 0) 0) as (k & U0 & lam & K1 & K2 & _ & K4 & K5 & _ & K7); auto.
  { intros p q Hp0. lia. } { intros q i Hq. lia. }
  assert (K8 : forall i j, (i < m)%nat -> (j < m)%nat -> S i j = sumn k (fun q => lam q * U0 i q * U0 j q)) by (intros; rewrite K7; auto).
  destruct (complete m k U0 K2 (m - k) ltac:(lia)) as (U & HU & EU). replace (k + (m - k))%nat with m in HU by lia.
  set (mu := fun p (j : nat) => sumn m (fun i => M i j * U i p)).
  assert (Hmu : forall p q, (p < m)%nat -> (q < m)%nat -> dotv n (mu p) (mu q) = if (Nat.ltb p k && Nat.eqb p q)%bool then lam p else 0).
  { intros p q Hpm Hqm. transitivity (dotv m (col U p) (mv m S (col U q))); [symmetry; apply HMv|].
    assert (E : forall i, (i < m)%nat -> mv m S (col U q) i = if Nat.ltb q k then lam q * U i q else 0).
    { intros i Hi. unfold mv. rewrite (sumnR_ext m _ (fun j => sumn k (fun r => lam r * U i r * (U j r * U j q)))).
      2:{ intros j Hj. rewrite K8 by auto. rewrite <- sumnR_scale_r. apply sumnR_ext. intros r Hr. unfold col. rewrite (EU r i), (EU r j) by auto. ring. }
      rewrite sumnR_ex. rewrite (sumnR_ext k _ (fun r => lam r * U i r * delta r q)).
      2:{ intros r Hr. rewrite sumnR_scale. f_equal. apply HU; lia. }
      destruct (Nat.ltb_spec q k).
      - apply (sumnR_delta' k q (fun r => lam r * U i r)); auto.
      - apply sumnR_zero. intros r Hr. unfold delta. destruct (Nat.eqb_spec r q); [lia|lra]. }
    rewrite (dotv_ext m _ (col U p) _ (fun i => if Nat.ltb q k then lam q * U i q else 0)) by auto.
    destruct (Nat.ltb_spec q k) as [Hq|Hq].
    - rewrite dotv_scale_r. fold (col U q). rewrite (ortho_col m m U p q HU) by auto. unfold delta.
      destruct (Nat.eqb_spec p q) as [->|N]; [|rewrite andb_false_r; lra]. destruct (Nat.ltb_spec q k); [simpl; lra|lia].
    - unfold dotv. rewrite (sumnR_zero m) by (intros; lra). destruct (Nat.ltb_spec p k), (Nat.eqb_spec p q); try lia; reflexivity. }
  assert (Hsq : forall p, (p < k)%nat -> 0 < sqrt (lam p) /\ sqrt (lam p) * sqrt (lam p) = lam p).
  { intros p Hpk. assert (0 < lam p) by (apply K4; lia). split; [apply sqrt_lt_R0; auto|apply sqrt_sqrt; lra]. }
  assert (HW0 : ortho n k (fun j p => / sqrt (lam p) * mu p j)).
  { intros p q Hpk Hqk. change (dotv n (fun j => / sqrt (lam p) * mu p j) (fun j => / sqrt (lam q) * mu q j) = delta p q).
    rewrite dotv_scale_l, dotv_scale_r, Hmu by lia. destruct (Nat.ltb_spec p k); [|lia]. unfold delta. cbn [andb].
    destruct (Nat.eqb_spec p q) as [->|N]; [|lra]. destruct (Hsq q Hqk) as [H1 H2]. rewrite <- H2 at 3. field. lra. }
  destruct (complete n k _ HW0 (m - k) ltac:(lia)) as (W & HW & EW). replace (k + (m - k))%nat with m in HW by lia.
  exists U, W, (fun p => if Nat.ltb p k then sqrt (lam p) else 0). split; [exact HU|]. split; [exact HW|]. split.
  { intros p Hpm. destruct (Nat.ltb_spec p k); [apply sqrt_pos|lra]. } split.
  { intros p q Hpq Hqm. destruct (Nat.ltb_spec q k), (Nat.ltb_spec p k); try lia; [|apply sqrt_pos|lra].
    apply sqrt_le_1_alt. apply K5; lia. }
  intros i j Hi Hj. pose proof (ortho_square m U HU) as HT.
  assert (E : M i j = sumn m (fun p => U i p * mu p j)).
  { rewrite <- (mm_delta_l m m M i j Hi eq_refl). rewrite (mm_ext m delta (mm m U (tr U)) M M); [|intros l Hl; symmetry; apply HT; auto|auto].
    rewrite mm_assoc. unfold mm at 1. apply sumnR_ext. intros p Hpm. f_equal. unfold mm, tr, mu. apply sumnR_ext. intros. ring. }
  rewrite E. apply sumnR_ext. intros p Hpm. destruct (Nat.ltb_spec p k) as [Hpk|Hpk].
  - rewrite EW by auto. destruct (Hsq p Hpk) as [H1 _]. field. lra.
  - assert (Z : dotv n (mu p) (mu p) = 0). { rewrite Hmu by auto. destruct (Nat.ltb_spec p k); [lia|reflexivity]. }
    rewrite (dotv_zero n _ Z j Hj). ring.
Qed.
