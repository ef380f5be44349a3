(** Lipschitz functions on a box attain their maximum; the quadratic form of a
    symmetric matrix, penalised by the fourth power of the length, has a global maximum. *)

From Coq Require Import ZArith List Bool Arith Lia Reals Lra Psatz.
From Verif Require Import Num Py Tensor TensorFacts Sums RSums MatR.
Import ListNotations.
Local Open Scope R_scope.

Definition vec := nat -> R.
Definition inbox (B : R) (n : nat) (x : vec) : Prop := forall i, (i < n)%nat -> - B <= x i <= B.
Definition dist1 (n : nat) (x y : vec) : R := sumn n (fun i => Rabs (x i - y i)).
Definition lip (B : R) (n : nat) (L : R) (F : vec -> R) : Prop :=
  forall x y, inbox B n x -> inbox B n y -> Rabs (F x - F y) <= L * dist1 n x y.
Definition upd (x : vec) (k : nat) (t : R) : vec := fun i => if Nat.eqb i k then t else x i.

Lemma sumnRS n (f : nat -> R) : sumn (S n) f = sumn n f + f n.
Proof. rewrite (sumn_S RLR). reflexivity. Qed.

Lemma dist1_nonneg n x y : 0 <= dist1 n x y.
Proof. apply sumnR_nonneg. intros. apply Rabs_pos. Qed.

Lemma dist1_upd n x y t s : dist1 (S n) (upd x n t) (upd y n s) = dist1 n x y + Rabs (t - s).
Proof.
  unfold dist1. rewrite sumnRS. unfold upd at 3 4. rewrite Nat.eqb_refl. f_equal. apply sumnR_ext. intros i Hi. unfold upd.
  destruct (Nat.eqb_spec i n); [lia|reflexivity].
Qed.

Lemma inbox_upd B n x t : inbox B n x -> - B <= t <= B -> inbox B (S n) (upd x n t).
Proof. intros H Ht i Hi. unfold upd. destruct (Nat.eqb_spec i n); [auto|apply H; lia]. Qed.

Definition clamp (B t : R) : R := Rmax (- B) (Rmin t B).
Lemma clamp_in B t : 0 <= B -> - B <= clamp B t <= B.
Proof. intros H. unfold clamp, Rmax, Rmin. destruct (Rle_dec t B); destruct (Rle_dec _ _); lra. Qed.
Lemma clamp_id B t : - B <= t <= B -> clamp B t = t.
Proof. intros H. unfold clamp, Rmax, Rmin. destruct (Rle_dec t B); destruct (Rle_dec _ _); lra. Qed.
Lemma clamp_lip B t s : 0 <= B -> Rabs (clamp B t - clamp B s) <= Rabs (t - s).
Proof.
  intros H. unfold clamp, Rmax, Rmin. destruct (Rle_dec t B), (Rle_dec s B);
  repeat destruct (Rle_dec _ _); unfold Rabs; repeat destruct (Rcase_abs _); lra.
Qed.

Lemma lip_cont L (g : R -> R) : (forall s t, Rabs (g s - g t) <= L * Rabs (s - t)) -> forall c, continuity_pt g c.
Proof.
  intros H c e He. exists (e / (Rabs L + 1)). pose proof (Rabs_pos L) as HL. split.
  - apply Rlt_gt. apply Rmult_lt_0_compat; [lra|]. apply Rinv_0_lt_compat. lra.
  - intros x [_ Hx]. unfold dist in *. simpl in *. unfold R_dist in *. eapply Rle_lt_trans; [apply H|].
    apply Rle_lt_trans with ((Rabs L + 1) * Rabs (x - c)).
    + apply Rmult_le_compat_r; [apply Rabs_pos|]. pose proof (Rle_abs L). lra.
    + apply Rmult_lt_compat_l with (r := Rabs L + 1) in Hx; [|lra]. replace ((Rabs L + 1) * (e / (Rabs L + 1))) with e in Hx by (field; lra). lra.
Qed.

Lemma box_max B : 0 <= B -> forall n F L, 0 <= L -> lip B n L F -> exists x, inbox B n x /\ forall y, inbox B n y -> F y <= F x.
Proof.
  intros HB. induction n as [|n IH]; intros F L HL HF.
  - exists (fun _ => 0). split; [intros i Hi; lia|]. intros y Hy. specialize (HF y (fun _ => 0) Hy ltac:(intros i Hi; lia)).
    unfold dist1 in HF. rewrite sumn_0 in HF. Rn. rewrite Rmult_0_r in HF. pose proof (Rle_abs (F y - F (fun _ => 0))). lra.
  - set (G := fun (t : R) (x : vec) => F (upd x n t)).
    assert (HG : forall s t x y, - B <= s <= B -> - B <= t <= B -> inbox B n x -> inbox B n y ->
      Rabs (G s x - G t y) <= L * (dist1 n x y + Rabs (s - t))).
    { intros s t x y Hs Ht Hx Hy. rewrite <- (dist1_upd n x y s t). apply HF; apply inbox_upd; auto. }
    assert (HM : forall t, - B <= t <= B -> exists x, inbox B n x /\ forall y, inbox B n y -> G t y <= G t x).
    { intros t Ht. apply (IH (G t) L HL). intros x y Hx Hy. pose proof (HG t t x y Ht Ht Hx Hy) as E.
      replace (t - t) with 0 in E by lra. rewrite Rabs_R0, Rplus_0_r in E. exact E. }
    set (E := fun (t : R) (v : R) => exists x, inbox B n x /\ v = G (clamp B t) x).
    assert (Hb : forall t, bound (E t)).
    { intros t. destruct (HM (clamp B t) (clamp_in B t HB)) as (x & Hx & Hm). exists (G (clamp B t) x). intros v (y & Hy & ->). auto. }
    assert (H0 : inbox B n (fun _ => 0)) by (intros i Hi; lra).
    assert (Hn : forall t, exists v, E t v) by (intros t; exists (G (clamp B t) (fun _ => 0)); exists (fun _ => 0); auto).
    set (g := fun t => proj1_sig (completeness (E t) (Hb t) (Hn t))).
    assert (Hg : forall t, is_lub (E t) (g t)) by (intros t; apply (proj2_sig (completeness (E t) (Hb t) (Hn t)))).
    assert (Hle : forall s t, g s <= g t + L * Rabs (s - t)).
    { intros s t. apply (Hg s). intros v (x & Hx & ->).
      pose proof (clamp_in B s HB) as Cs. pose proof (clamp_in B t HB) as Ct.
      pose proof (HG (clamp B s) (clamp B t) x x Cs Ct Hx Hx) as E1.
      assert (E2 : G (clamp B t) x <= g t) by (apply (Hg t); exists x; auto).
      assert (E3 : dist1 n x x = 0). { apply sumnR_zero. intros i Hi. replace (x i - x i) with 0 by lra. apply Rabs_R0. }
      rewrite E3, Rplus_0_l in E1. pose proof (Rle_abs (G (clamp B s) x - G (clamp B t) x)).
      pose proof (Rmult_le_compat_l L _ _ HL (clamp_lip B s t HB)). lra. }
    assert (Hlip : forall s t, Rabs (g s - g t) <= L * Rabs (s - t)).
    { intros s t. pose proof (Hle s t). pose proof (Hle t s) as Q. rewrite (Rabs_minus_sym t s) in Q. unfold Rabs at 1. destruct (Rcase_abs _); lra. }
    destruct (continuity_ab_maj g (- B) B ltac:(lra) (fun c _ => lip_cont L g Hlip c)) as (t & Hmax & Ht).
    destruct (HM t Ht) as (x & Hx & Hm). exists (upd x n t). split; [apply inbox_upd; auto|]. intros y Hy.
    assert (Hyn : - B <= y n <= B) by (apply Hy; lia).
    assert (Hyb : inbox B n y) by (intros i Hi; apply Hy; lia).
    assert (E1 : F y = G (y n) y).
    { apply Rminus_diag_uniq. assert (Hu : inbox B (S n) (upd y n (y n))) by (apply inbox_upd; auto).
      pose proof (HF y (upd y n (y n)) Hy Hu) as Q. assert (Z : dist1 (S n) y (upd y n (y n)) = 0).
      { apply sumnR_zero. intros i Hi. unfold upd. destruct (Nat.eqb_spec i n); [subst|]; (rewrite Rminus_diag_eq; [apply Rabs_R0|reflexivity]). }
      rewrite Z, Rmult_0_r in Q. unfold G. unfold Rabs in Q. destruct (Rcase_abs _) in Q; lra. }
    rewrite E1. apply Rle_trans with (g (y n)).
    + apply (Hg (y n)). exists y. split; auto. rewrite clamp_id; auto.
    + eapply Rle_trans; [apply Hmax; auto|]. apply (Hg t). intros v (z & Hz & ->). rewrite clamp_id by auto. apply Hm. auto.
Qed.

(** ** bounded Lipschitz functions *)
Definition blip (B : R) (n : nat) (F : vec -> R) : Prop :=
  exists C L, 0 <= C /\ 0 <= L /\ (forall x, inbox B n x -> Rabs (F x) <= C) /\ lip B n L F.

Lemma blip_const B n c : blip B n (fun _ => c).
Proof.
  exists (Rabs c), 0. pose proof (Rabs_pos c). repeat split; try lra. - intros; lra.
  - intros x y _ _. replace (c - c) with 0 by lra. rewrite Rabs_R0. lra.
Qed.
Lemma blip_coord B n i : 0 <= B -> (i < n)%nat -> blip B n (fun x => x i).
Proof.
  intros HB Hi. exists B, 1. repeat split; try lra.
  - intros x Hx. specialize (Hx i Hi). unfold Rabs. destruct (Rcase_abs _); lra.
  - intros x y _ _. rewrite Rmult_1_l. apply (sumnR_diag_le n (fun i => Rabs (x i - y i)) i); auto. intros; apply Rabs_pos.
Qed.
Lemma blip_add B n F G : blip B n F -> blip B n G -> blip B n (fun x => F x + G x).
Proof.
  intros (C & L & H1 & H2 & H3 & H4) (D & M & K1 & K2 & K3 & K4). exists (C + D), (L + M). repeat split; try lra.
  - intros x Hx. eapply Rle_trans; [apply Rabs_triang|]. specialize (H3 x Hx). specialize (K3 x Hx). lra.
  - intros x y Hx Hy. replace (F x + G x - (F y + G y)) with ((F x - F y) + (G x - G y)) by lra.
    eapply Rle_trans; [apply Rabs_triang|]. specialize (H4 x y Hx Hy). specialize (K4 x y Hx Hy). lra.
Qed.
Lemma blip_mul B n F G : blip B n F -> blip B n G -> blip B n (fun x => F x * G x).
Proof.
  intros (C & L & H1 & H2 & H3 & H4) (D & M & K1 & K2 & K3 & K4). exists (C * D), (C * M + L * D).
  assert (0 <= C * D) by (apply Rmult_le_pos; auto). assert (0 <= C * M + L * D) by (assert (0 <= C * M) by (apply Rmult_le_pos; auto); assert (0 <= L * D) by (apply Rmult_le_pos; auto); lra).
  repeat split; auto.
  - intros x Hx. rewrite Rabs_mult. apply Rmult_le_compat; auto using Rabs_pos.
  - intros x y Hx Hy. replace (F x * G x - F y * G y) with (F x * (G x - G y) + (F x - F y) * G y) by ring.
    eapply Rle_trans; [apply Rabs_triang|]. rewrite !Rabs_mult.
    apply Rle_trans with (C * (M * dist1 n x y) + L * dist1 n x y * D); [|apply Req_le; ring].
    apply Rplus_le_compat; apply Rmult_le_compat; auto using Rabs_pos.
Qed.
Lemma blip_sumn B n k (F : nat -> vec -> R) : (forall i, (i < k)%nat -> blip B n (F i)) -> blip B n (fun x => sumn k (fun i => F i x)).
Proof.
  induction k as [|k IH]; intros H.
  - destruct (blip_const B n 0) as (C & L & H1 & H2 & H3 & H4). exists C, L. repeat split; auto.
  - destruct (blip_add B n (fun x => sumn k (fun i => F i x)) (F k)) as (C & L & H1 & H2 & H3 & H4).
    + apply IH. intros. apply H. lia.
    + apply H. lia.
    + exists C, L. repeat split; auto.
      * intros x Hx. rewrite sumnRS. auto.
      * intros x y Hx Hy. rewrite !sumnRS. auto.
Qed.

(** ** vectors *)
Definition dotv (n : nat) (x y : vec) : R := sumn n (fun i => x i * y i).
Definition mv (n : nat) (S : mf) (x : vec) : vec := fun i => sumn n (fun j => S i j * x j).

Lemma dotv_sym n x y : dotv n x y = dotv n y x.
Proof. apply sumnR_ext. intros. lra. Qed.
Lemma dotv_ext n x x' y y' : (forall i, (i < n)%nat -> x i = x' i) -> (forall i, (i < n)%nat -> y i = y' i) -> dotv n x y = dotv n x' y'.
Proof. intros H1 H2. apply sumnR_ext. intros i Hi. rewrite H1, H2; auto. Qed.
Lemma dotv_add_l n x y z : dotv n (fun i => x i + y i) z = dotv n x z + dotv n y z.
Proof. unfold dotv. rewrite <- sumnR_add. apply sumnR_ext. intros. lra. Qed.
Lemma dotv_scale_l n c x y : dotv n (fun i => c * x i) y = c * dotv n x y.
Proof. unfold dotv. rewrite <- sumnR_scale. apply sumnR_ext. intros. lra. Qed.
Lemma dotv_add_r n x y z : dotv n z (fun i => x i + y i) = dotv n z x + dotv n z y.
Proof. rewrite !(dotv_sym n z). apply dotv_add_l. Qed.
Lemma dotv_scale_r n c x y : dotv n y (fun i => c * x i) = c * dotv n y x.
Proof. rewrite !(dotv_sym n y). apply dotv_scale_l. Qed.
Lemma dotv_nonneg n x : 0 <= dotv n x x.
Proof. apply sumnR_nonneg. intros. nra. Qed.
Lemma dotv_zero n x : dotv n x x = 0 -> forall i, (i < n)%nat -> x i = 0.
Proof.
  intros H i Hi. pose proof (sumnR_zero_inv n (fun i => x i * x i) ltac:(intros; nra) H i Hi) as E. cbv beta in E. nra.
Qed.
Lemma mv_add n S x y i : mv n S (fun j => x j + y j) i = mv n S x i + mv n S y i.
Proof. unfold mv. rewrite <- sumnR_add. apply sumnR_ext. intros. lra. Qed.
Lemma mv_scale n S c x i : mv n S (fun j => c * x j) i = c * mv n S x i.
Proof. unfold mv. rewrite <- sumnR_scale. apply sumnR_ext. intros. lra. Qed.
Lemma mv_sym n (S : mf) x y : (forall i j, (i < n)%nat -> (j < n)%nat -> S i j = S j i) -> dotv n (mv n S x) y = dotv n x (mv n S y).
Proof.
  intros H. unfold dotv, mv. erewrite sumnR_ext by (intros; symmetry; apply sumnR_scale_r). cbv beta. rewrite sumnR_ex.
  apply sumnR_ext. intros j Hj. rewrite <- sumnR_scale. apply sumnR_ext. intros i Hi. rewrite (H i j) by auto. lra.
Qed.

Definition pen (n : nat) (S : mf) (x : vec) : R := dotv n x (mv n S x) - / 2 * (dotv n x x * dotv n x x).

Lemma blip_pen B n S : 0 <= B -> blip B n (pen n S).
Proof.
  intros HB.
  assert (Hd : blip B n (fun x => dotv n x x)). { apply blip_sumn. intros. apply blip_mul; apply blip_coord; auto. }
  destruct (blip_add B n (fun x => dotv n x (mv n S x)) (fun x => - / 2 * (dotv n x x * dotv n x x))) as (C & L & H).
  - apply blip_sumn. intros i Hi. apply blip_mul; [apply blip_coord; auto|]. apply blip_sumn. intros j Hj.
    apply blip_mul; [apply blip_const|apply blip_coord; auto].
  - apply blip_mul; [apply blip_const|]. apply blip_mul; auto.
  - exists C, L. destruct H as (H1 & H2 & H3 & H4). repeat split; auto.
    + intros x Hx. unfold pen. replace (_ - _) with (dotv n x (mv n S x) + - / 2 * (dotv n x x * dotv n x x)) by lra. auto.
    + intros x y Hx Hy. unfold pen. specialize (H4 x y Hx Hy). cbv beta in H4.
      match goal with |- Rabs ?a <= _ => match type of H4 with Rabs ?b <= _ => replace a with b by lra end end. auto.
Qed.

Lemma quad_bound n S : exists C, 0 <= C /\ forall x, dotv n x (mv n S x) <= C * dotv n x x.
Proof.
  exists (sumn n (fun i => sumn n (fun j => Rabs (S i j)))). split.
  { apply sumnR_nonneg. intros. apply sumnR_nonneg. intros. apply Rabs_pos. }
  intros x. unfold dotv at 1, mv. rewrite <- sumnR_scale_r. apply sumnR_le. intros i Hi. rewrite <- sumnR_scale, <- sumnR_scale_r.
  apply sumnR_le. intros j Hj.
  assert (E1 : x i * x i <= dotv n x x) by (apply (sumnR_diag_le n (fun i => x i * x i) i); auto; intros; nra).
  assert (E2 : x j * x j <= dotv n x x) by (apply (sumnR_diag_le n (fun i => x i * x i) j); auto; intros; nra).
  apply Rle_trans with (Rabs (S i j) * Rabs (x i * x j)).
  - rewrite <- Rabs_mult. eapply Rle_trans; [apply Rle_abs|]. apply Req_le. f_equal. ring.
  - apply Rmult_le_compat_l; [apply Rabs_pos|]. unfold Rabs. destruct (Rcase_abs _); nra.
Qed.

Lemma pen_max n S : exists x, forall y, pen n S y <= pen n S x.
Proof.
  destruct (quad_bound n S) as (C & HC & HQ). set (B := 2 * C + 1). assert (HB : 0 <= B) by (unfold B; lra).
  destruct (blip_pen B n S HB) as (D & L & _ & HL & _ & HF). destruct (box_max B HB n _ L HL HF) as (x & Hx & Hm).
  assert (H0 : 0 <= pen n S x).
  { apply Rle_trans with (pen n S (fun _ => 0)); [|apply Hm; intros i Hi; lra]. apply Req_le. symmetry. unfold pen.
    assert (E : forall y, dotv n (fun _ => 0) y = 0) by (intros; apply sumnR_zero; intros; lra). rewrite !E. lra. }
  exists x. intros y.
  destruct (Rle_lt_dec (dotv n y y) (B * B)) as [Hy|Hy].
  - apply Hm. intros i Hi. assert (E : y i * y i <= dotv n y y) by (apply (sumnR_diag_le n (fun i => y i * y i) i); auto; intros; nra).
    assert (E2 : y i * y i <= B * B) by lra. split; nra.
  - eapply Rle_trans; [|exact H0]. unfold pen. specialize (HQ y). pose proof (dotv_nonneg n y) as Hp.
    assert (B * B >= 2 * C) by (unfold B; nra). assert (dotv n y y * dotv n y y >= 2 * C * dotv n y y) by nra. lra.
Qed.

(** a polynomial without constant term that is never positive has no linear term *)
Lemma poly_flat a b c d : (forall t, a * t + b * (t * t) + c * (t * t * t) + d * (t * t * (t * t)) <= 0) -> a = 0.
Proof.
  intros H. destruct (Req_dec a 0) as [E|E]; [auto|exfalso].
  set (K := Rabs b + Rabs c + Rabs d). assert (HK : 0 <= K) by (pose proof (Rabs_pos b); pose proof (Rabs_pos c); pose proof (Rabs_pos d); unfold K; lra).
  assert (G : forall t, Rabs t <= 1 -> a * t <= K * (t * t)).
  { intros t Ht. specialize (H t). assert (Hs : 0 <= t * t) by nra. assert (Ht' : -1 <= t <= 1) by (unfold Rabs in Ht; destruct (Rcase_abs t); lra).
    assert (H1 : - b * (t * t) <= Rabs b * (t * t)) by (apply Rmult_le_compat_r; auto; unfold Rabs; destruct (Rcase_abs b); lra).
    assert (H2 : - c * (t * t * t) <= Rabs c * (t * t)).
    { replace (- c * (t * t * t)) with ((- c * t) * (t * t)) by ring. apply Rmult_le_compat_r; auto. unfold Rabs. destruct (Rcase_abs c); nra. }
    assert (H3 : - d * (t * t * (t * t)) <= Rabs d * (t * t)).
    { replace (- d * (t * t * (t * t))) with ((- d * (t * t)) * (t * t)) by ring. apply Rmult_le_compat_r; auto. assert (t * t <= 1) by nra. unfold Rabs. destruct (Rcase_abs d); nra. }
    unfold K. lra. }
  set (s := / (K + Rabs a + 1)). pose proof (Rabs_pos a) as Ha. assert (Hs : 0 < s) by (apply Rinv_0_lt_compat; lra).
  assert (Hs1 : s * (K + Rabs a + 1) = 1) by (apply Rinv_l; lra).
  assert (Hks : K * s < 1). { assert (0 <= Rabs a * s) by (apply Rmult_le_pos; lra). lra. }
  specialize (G (a * s)). assert (Hb : Rabs (a * s) <= 1).
  { rewrite Rabs_mult, (Rabs_right s) by lra. assert (0 <= K * s) by (apply Rmult_le_pos; lra). lra. }
  specialize (G Hb). assert (Haa : 0 < a * a) by nra.
  assert (Q : a * a * s * (1 - K * s) <= 0) by lra. assert (0 < a * a * s) by nra. nra.
Qed.

(** at the maximum S x = |x|^2 x *)
Lemma pen_grad n S x : (forall i j, (i < n)%nat -> (j < n)%nat -> S i j = S j i) -> (forall y, pen n S y <= pen n S x) ->
  forall i, (i < n)%nat -> mv n S x i = dotv n x x * x i.
Proof.
  intros Hsym Hm. set (q := dotv n x x) in *. set (g := fun i => mv n S x i + - q * x i).
  set (xg := dotv n x g). set (gg := dotv n g g).
  assert (E : 2 * gg = 0).
  { apply (poly_flat _ (dotv n g (mv n S g) - (2 * xg * xg + q * gg)) (- (2 * xg * gg)) (- / 2 * (gg * gg))). intros t.
    specialize (Hm (fun i => x i + t * g i)). unfold pen in Hm. fold q in Hm.
    assert (E1 : dotv n (fun i => x i + t * g i) (fun i => x i + t * g i) = q + 2 * t * xg + t * t * gg).
    { rewrite dotv_add_l, !dotv_add_r, !dotv_scale_l, !dotv_scale_r. rewrite (dotv_sym n g x). unfold q, xg, gg. ring. }
    assert (E2 : dotv n (fun i => x i + t * g i) (mv n S (fun i => x i + t * g i)) =
      dotv n x (mv n S x) + 2 * t * dotv n g (mv n S x) + t * t * dotv n g (mv n S g)).
    { rewrite (dotv_ext n _ (fun i => x i + t * g i) _ (fun i => mv n S x i + t * mv n S g i)); auto.
      2:{ intros i Hi. rewrite mv_add, mv_scale. reflexivity. }
      rewrite dotv_add_l, !dotv_add_r, !dotv_scale_l, !dotv_scale_r.
      rewrite <- (mv_sym n S x g Hsym), (dotv_sym n (mv n S x) g). ring. }
    assert (E3 : dotv n g (mv n S x) = gg + q * xg).
    { unfold gg. rewrite (dotv_ext n g g (mv n S x) (fun i => g i + q * x i)); auto.
      - rewrite dotv_add_r, dotv_scale_r. unfold xg. rewrite (dotv_sym n g x). reflexivity.
      - intros i Hi. unfold g. ring. }
    rewrite E1, E2, E3 in Hm. fold q. nra. }
  assert (Hg : gg = 0) by lra. intros i Hi. pose proof (dotv_zero n g Hg i Hi) as Z. unfold g in Z. lra.
Qed.

(** and |x|^2 is at least every Rayleigh quotient *)
Lemma pen_top n S x : (forall i j, (i < n)%nat -> (j < n)%nat -> S i j = S j i) -> (forall y, pen n S y <= pen n S x) ->
  forall y, dotv n y (mv n S y) <= dotv n x x * dotv n y y.
Proof.
  intros Hsym Hm y. pose proof (pen_grad n S x Hsym Hm) as Hg. set (q := dotv n x x) in *.
  assert (Hq : 0 <= q) by apply dotv_nonneg. pose proof (dotv_nonneg n y) as Hy.
  destruct (Req_dec (dotv n y y) 0) as [Z|Z].
  { rewrite Z, Rmult_0_r. apply Req_le. apply sumnR_zero. intros i Hi. rewrite (dotv_zero n y Z i Hi). lra. }
  assert (Ex : pen n S x = / 2 * (q * q)).
  { unfold pen. rewrite (dotv_ext n x x _ (fun i => q * x i)) by auto. rewrite dotv_scale_r. fold q. lra. }
  set (a := dotv n y (mv n S y)). destruct (Rle_lt_dec a 0) as [Ha|Ha]; [nra|].
  (* take the multiple of y with squared length a / |y|^2 *)
  set (l := dotv n y y) in *. set (t := sqrt (a / l) / sqrt l).
  assert (Hl : 0 < l) by lra. assert (Hal : 0 < a / l) by (apply Rdiv_lt_0_compat; lra).
  assert (Ht : t * t = a / (l * l)).
  { unfold t. replace (sqrt (a / l) / sqrt l * (sqrt (a / l) / sqrt l)) with ((sqrt (a / l) * sqrt (a / l)) / (sqrt l * sqrt l)) by (field; apply Rgt_not_eq, sqrt_lt_R0; lra).
    rewrite !sqrt_sqrt by lra. field. lra. }
  specialize (Hm (fun i => t * y i)). rewrite Ex in Hm. unfold pen in Hm.
  assert (E1 : dotv n (fun i => t * y i) (fun i => t * y i) = a / l).
  { rewrite dotv_scale_l, dotv_scale_r. fold l. rewrite <- Rmult_assoc, Ht. field. lra. }
  assert (E2 : dotv n (fun i => t * y i) (mv n S (fun i => t * y i)) = a / l * (a / l)).
  { rewrite (dotv_ext n _ (fun i => t * y i) _ (fun i => t * mv n S y i)); auto.
    - rewrite dotv_scale_l, dotv_scale_r. fold a. rewrite <- Rmult_assoc, Ht. field. lra.
    - intros i Hi. apply mv_scale. }
  rewrite E1, E2 in Hm. assert (Hsq : a / l * (a / l) <= q * q) by lra.
  assert (Hle : a / l <= q) by nra. apply Rmult_le_compat_r with (r := l) in Hle; [|lra].
  replace (a / l * l) with a in Hle by (field; lra). exact Hle.
Qed.
