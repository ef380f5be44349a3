(** Dual ascent on finitely many equality constraints: the general argument behind C85. *)

From Coq Require Import List Bool Arith Lia Reals Lra Psatz Classical IndefiniteDescription.
From Verif Require Import Num Py Tensor TF Sums RSums MatR Spectral.
Import ListNotations.
Local Open Scope R_scope.

Definition vd (m : nat) (f g : nat -> R) : R := sumn m (fun l => f l * g l).

Lemma vd_sym m f g : vd m f g = vd m g f. Proof. apply sumnR_ext. intros; ring. Qed.
Lemma vd_ext m f f' g g' : (forall l, (l < m)%nat -> f l = f' l) -> (forall l, (l < m)%nat -> g l = g' l) -> vd m f g = vd m f' g'.
Proof. intros H H'. apply sumnR_ext. intros l Hl. rewrite H, H' by auto. reflexivity. Qed.
Lemma vd_lin_r m f g h a b : vd m f (fun l => a * g l + b * h l) = a * vd m f g + b * vd m f h.
Proof. unfold vd. rewrite <- !sumnR_scale, <- sumnR_add. apply sumnR_ext. intros; ring. Qed.
Lemma vd_lin_l m f g h a b : vd m (fun l => a * g l + b * h l) f = a * vd m g f + b * vd m h f.
Proof. rewrite vd_sym, vd_lin_r, (vd_sym m f g), (vd_sym m f h). reflexivity. Qed.
Lemma vd_pos m f : 0 <= vd m f f. Proof. apply sumnR_nonneg. intros. apply Rle_0_sqr. Qed.
Lemma vd_sub_sub m f f' g g' : vd m (fun l => f l - f' l) (fun l => g l - g' l) = vd m f g - vd m f g' - vd m f' g + vd m f' g'.
Proof. unfold vd. rewrite <- !sumnR_sub, <- sumnR_add. apply sumnR_ext. intros; ring. Qed.
Lemma vd_sub_l m f f' g : vd m (fun l => f l - f' l) g = vd m f g - vd m f' g.
Proof. unfold vd. rewrite <- !sumnR_sub. apply sumnR_ext. intros; ring. Qed.
Lemma vd_zero_l m g : vd m (fun _ => 0) g = 0. Proof. apply sumnR_zero. intros; ring. Qed.
Lemma vd_cauchy m f g : (vd m f g)² <= vd m f f * vd m g g. Proof. exact (sumnR_cauchy m f g). Qed.

(** ** orthonormal bases of subspaces *)
Section Basis.
  Variables (m : nat) (P : (nat -> R) -> Prop).
  Hypotheses (P0 : P (fun _ => 0)) (PL : forall f g a, P f -> P g -> P (fun l => f l + a * g l))
    (PE : forall f g, (forall l, (l < m)%nat -> f l = g l) -> P f -> P g).

  Definition fam (r : nat) (u : nat -> nat -> R) : Prop :=
    (forall i, (i < r)%nat -> P (u i)) /\ forall i j, (i < r)%nat -> (j < r)%nat -> vd m (u i) (u j) = delta i j.

  Definition proj (r : nat) (u : nat -> nat -> R) (y : nat -> R) (l : nat) : R := sumn r (fun i => vd m y (u i) * u i l).

  Lemma P_sum r u c : (forall i, (i < r)%nat -> P (u i)) -> P (fun l => sumn r (fun i => c i * u i l)).
  Proof.
    induction r as [|r IH]; intros H.
    - apply (PE (fun _ => 0)); [|exact P0]. intros. symmetry. exact (sumn_0 (N := NumR) _).
    - apply (PE (fun l => sumn r (fun i => c i * u i l) + c r * u r l)); [intros; rewrite (sumn_S RLR); reflexivity|].
      apply PL; [apply IH; intros; apply H; lia|apply H; lia].
  Qed.

  Lemma proj_in r u y i : fam r u -> (i < r)%nat -> vd m (proj r u y) (u i) = vd m y (u i).
  Proof.
    intros [_ Ho] Hi. unfold proj, vd at 1. rewrite (sumnR_ext m _ (fun l => sumn r (fun j => vd m y (u j) * (u j l * u i l)))).
    - rewrite (sumnR_ex m r). rewrite (sumnR_ext r _ (fun j => vd m y (u j) * delta j i)).
      + apply sumnR_delta'. auto.
      + intros j Hj. rewrite sumnR_scale. f_equal. apply (Ho j i); auto.
    - intros l Hl. rewrite <- sumnR_scale_r. apply sumnR_ext. intros; ring.
  Qed.

  Lemma proj_norm r u y : fam r u -> vd m (proj r u y) (proj r u y) = sumn r (fun i => (vd m y (u i))²).
  Proof.
    intros F. unfold proj at 2, vd at 1. rewrite (sumnR_ext m _ (fun l => sumn r (fun j => vd m y (u j) * (proj r u y l * u j l)))).
    - rewrite (sumnR_ex m r). apply sumnR_ext. intros j Hj. rewrite sumnR_scale.
      change (sumn m (fun l => proj r u y l * u j l)) with (vd m (proj r u y) (u j)). rewrite proj_in by auto. reflexivity.
    - intros l Hl. rewrite <- sumnR_scale. apply sumnR_ext. intros; ring.
  Qed.

  Lemma proj_y r u y : fam r u -> vd m y (proj r u y) = sumn r (fun i => (vd m y (u i))²).
  Proof.
    intros F. unfold proj, vd at 1. rewrite (sumnR_ext m _ (fun l => sumn r (fun j => vd m y (u j) * (y l * u j l)))).
    - rewrite (sumnR_ex m r). apply sumnR_ext. intros j Hj. rewrite sumnR_scale. reflexivity.
    - intros l Hl. rewrite <- sumnR_scale. apply sumnR_ext. intros; ring.
  Qed.

  Lemma fam_bessel r u y : fam r u -> sumn r (fun i => (vd m y (u i))²) <= vd m y y.
  Proof.
    intros F. pose proof (vd_pos m (fun l => y l - proj r u y l)) as H. rewrite vd_sub_sub in H.
    rewrite (vd_sym m (proj r u y) y), (proj_y r u y F), (proj_norm r u y F) in H. lra.
  Qed.

  Lemma fam_small r u : fam r u -> (r <= m)%nat.
  Proof.
    intros F. apply INR_le. destruct F as [FP Fo].
    replace (INR r) with (sumn r (fun i => vd m (u i) (u i))).
    2:{ rewrite (sumnR_ext r _ (fun _ => 1)); [rewrite sumnR_const; ring|]. intros i Hi. rewrite Fo by auto. unfold delta. rewrite Nat.eqb_refl. reflexivity. }
    unfold vd. rewrite (sumnR_ex r m). replace (INR m) with (sumn m (fun _ => 1)) by (rewrite sumnR_const; ring).
    apply sumnR_le. intros l Hl. pose proof (fam_bessel r u (fun l' => delta l' l) (conj FP Fo)) as B.
    assert (E : forall f, vd m (fun l' => delta l' l) f = f l).
    { intros f. unfold vd. apply (sumnR_delta m l). auto. }
    rewrite E in B. unfold delta in B at 2. rewrite Nat.eqb_refl in B.
    rewrite (sumnR_ext r _ (fun i => (u i l)²)) in B by (intros; rewrite E; reflexivity). exact B.
  Qed.

  Lemma fam_extend r u y : fam r u -> P y -> (exists l, (l < m)%nat /\ y l <> proj r u y l) -> exists v, fam (S r) v.
  Proof.
    intros F Hy (l0 & Hl0 & Hne). set (z := fun l => y l - proj r u y l). pose proof (vd_pos m z) as Hz.
    assert (Hz' : 0 < vd m z z).
    { destruct (Req_dec (vd m z z) 0) as [E|E]; [|lra]. exfalso. apply Hne.
      pose proof (sumnR_zero_inv m (fun l => z l * z l) ltac:(intros; apply Rle_0_sqr) E l0 Hl0) as H. cbv beta in H.
      assert (z l0 = 0) by nra. unfold z in *. lra. }
    set (n := sqrt (vd m z z)). assert (Hn : 0 < n) by (apply sqrt_lt_R0; auto). assert (Enn : n * n = vd m z z) by (apply sqrt_sqrt; auto).
    destruct F as [FP Fo].
    assert (Pz : P z).
    { apply (PE (fun l => y l + (-1) * proj r u y l)); [intros; unfold z; ring|]. apply PL; auto. apply P_sum; auto. }
    assert (Oz : forall i, (i < r)%nat -> vd m z (u i) = 0).
    { intros i Hi. unfold z. rewrite vd_sub_l, (proj_in r u y i (conj FP Fo) Hi). ring. }
    exists (fun i => if Nat.eqb i r then (fun l => / n * z l) else u i). split.
    - intros i Hi. destruct (Nat.eqb_spec i r) as [->|Hir]; [|apply FP; lia].
      apply (PE (fun l => 0 + / n * z l)); [intros; ring|]. exact (PL (fun _ => 0) z (/ n) P0 Pz).
    - assert (S1 : forall a f g, vd m (fun l => a * f l) g = a * vd m f g).
      { intros a f g. unfold vd. rewrite <- sumnR_scale. apply sumnR_ext. intros; ring. }
      intros i j Hi Hj. destruct (Nat.eqb_spec i r) as [->|Hir]; destruct (Nat.eqb_spec j r) as [->|Hjr].
      + rewrite S1, vd_sym, S1, <- Enn. unfold delta. rewrite Nat.eqb_refl. field. lra.
      + rewrite S1, Oz by lia. unfold delta. destruct (Nat.eqb_spec r j); [lia|ring].
      + rewrite vd_sym, S1, Oz by lia. unfold delta. destruct (Nat.eqb_spec i r); [lia|ring].
      + apply Fo; lia.
  Qed.

  Lemma basis : exists r u, fam r u /\ forall y, P y -> forall l, (l < m)%nat -> y l = proj r u y l.
  Proof.
    assert (G : forall d r u, fam r u -> (m - r = d)%nat -> exists r u, fam r u /\ forall y, P y -> forall l, (l < m)%nat -> y l = proj r u y l).
    { induction d as [d IH] using lt_wf_ind. intros r u F Hd.
      destruct (classic (forall y, P y -> forall l, (l < m)%nat -> y l = proj r u y l)) as [H|H]; [exists r, u; auto|].
      apply not_all_ex_not in H. destruct H as (y & H). apply imply_to_and in H. destruct H as (Hy & H).
      apply not_all_ex_not in H. destruct H as (l & H). apply imply_to_and in H. destruct H as (Hl & H).
      destruct (fam_extend r u y F Hy) as (v & Fv); [exists l; auto|]. pose proof (fam_small _ _ Fv). apply (IH (m - S r)%nat) with (r := S r) (u := v); auto. lia. }
    apply (G (m - 0)%nat 0%nat (fun _ _ => 0)); [|lia]. split; intros; lia.
  Qed.
End Basis.

(** ** bounded sequences of vectors have a convergent subsequence *)
Lemma bounded_cluster (y : nat -> R) C : (forall n, Rabs (y n) <= C) -> exists l, forall eps N, 0 < eps -> exists n, (N <= n)%nat /\ Rabs (y n - l) < eps.
Proof.
  intros H. destruct (Bolzano_Weierstrass y (fun x => - C <= x <= C)) as (l & Hl).
  - apply compact_P3.
  - intros n. specialize (H n). unfold Rabs in H. destruct (Rcase_abs (y n)); lra.
  - exists l. intros eps N He. destruct (Hl (disc l (mkposreal eps He)) N) as (n & Hn & Hd).
    + exists (mkposreal eps He). intros x Hx. exact Hx.
    + exists n. split; [lia|exact Hd].
Qed.

Lemma subseq (y : nat -> R) C : (forall n, Rabs (y n) <= C) -> exists l (phi : nat -> nat),
  (forall n, (n <= phi n)%nat) /\ forall eps, 0 < eps -> exists N, forall n, (N <= n)%nat -> Rabs (y (phi n) - l) < eps.
Proof.
  intros H. destruct (bounded_cluster y C H) as (l & Hl). exists l.
  destruct (functional_choice (fun N n => (N <= n)%nat /\ Rabs (y n - l) < / (INR N + 1))) as (phi & Hphi).
  { intros N. apply Hl. apply Rinv_0_lt_compat. pose proof (pos_INR N). lra. }
  exists phi. split; [intros; apply Hphi|]. intros eps He. destruct (archimed_cor1 eps He) as (N & HN & HN0). exists N. intros n Hn.
  eapply Rlt_trans; [apply Hphi|]. eapply Rle_lt_trans; [|exact HN]. apply Rinv_le_contravar; [apply lt_0_INR; auto|]. apply le_INR in Hn. lra.
Qed.

Lemma vec_cluster m : forall (y : nat -> nat -> R) C, (forall n l, (l < m)%nat -> Rabs (y n l) <= C) -> exists ys (phi : nat -> nat),
  (forall n, (n <= phi n)%nat) /\ forall eps, 0 < eps -> exists N, forall n l, (N <= n)%nat -> (l < m)%nat -> Rabs (y (phi n) l - ys l) < eps.
Proof.
  induction m as [|m IH]; intros y C H.
  - exists (fun _ => 0), (fun n => n). split; [auto|]. intros. exists 0%nat. intros; lia.
  - destruct (subseq (fun n => y n m) C) as (l & phi & Hphi & Hc); [intros; apply H; lia|].
    destruct (IH (fun n => y (phi n)) C) as (ys & psi & Hpsi & Hcs); [intros; apply H; lia|].
    exists (fun k => if Nat.eqb k m then l else ys k), (fun n => phi (psi n)). split; [intros n; specialize (Hphi (psi n)); specialize (Hpsi n); lia|].
    intros eps He. destruct (Hc eps He) as (N1 & H1). destruct (Hcs eps He) as (N2 & H2). exists (N1 + N2)%nat. intros n k Hn Hk.
    destruct (Nat.eqb_spec k m) as [->|Hk']; [apply H1; specialize (Hpsi n); lia|apply H2; lia].
Qed.

(** ** terms of a bounded series of non-negative terms tend to zero *)
Lemma series_terms (a : nat -> R) B : (forall n, 0 <= a n) -> (forall n, sumn n a <= B) -> forall eps, 0 < eps -> exists N, forall n, (N <= n)%nat -> a n < eps.
Proof.
  intros Ha HB eps He.
  assert (G : Un_growing (fun n => sumn n a)).
  { intros n. rewrite (sumn_S RLR). specialize (Ha n). Rn. lra. }
  assert (HU : has_ub (fun n => sumn n a)).
  { exists B. intros x (n & ->). apply HB. }
  destruct (growing_cv _ G HU) as (l & Hl). assert (C : Cauchy_crit (fun n => sumn n a)) by (apply CV_Cauchy; exists l; exact Hl).
  destruct (C eps He) as (N & HN). exists N. intros n Hn. specialize (HN (S n) n ltac:(lia) ltac:(lia)). unfold R_dist in HN.
  rewrite (sumn_S RLR) in HN. Rn. replace (sumn n a + a n - sumn n a) with (a n) in HN by ring. rewrite Rabs_right in HN; auto. specialize (Ha n). lra.
Qed.

(** ** the ascent *)
Section Dual.
  Variables (V : Type) (ok : V -> Prop) (cost : V -> R) (fitv : V -> nat -> R) (dist : V -> V -> R) (ob : nat -> R) (m : nat) (dl L : R)
    (x : (nat -> R) -> V).
  Hypotheses (Hok : forall y, ok (x y)) (Hcost : forall v, ok v -> 0 <= cost v)
    (Hd0 : forall v w, ok v -> ok w -> 0 <= dist v w) (Hds : forall v w, ok v -> ok w -> dist v w = dist w v)
    (Hopt : forall y v, ok v -> cost (x y) - vd m (fitv (x y)) y + /2 * dist v (x y) <= cost v - vd m (fitv v) y)
    (Hlip : forall v w, ok v -> ok w -> vd m (fun l => fitv v l - fitv w l) (fun l => fitv v l - fitv w l) <= L * dist v w)
    (Hgrow : forall b v w a rho, ok b -> ok v -> ok w -> exists B, forall u, ok u -> dist b u <= rho ->
       exists z, ok z /\ cost z <= B /\ forall l, (l < m)%nat -> fitv z l = fitv u l + a * (fitv v l - fitv w l))
    (HL : 0 <= L) (Hdl : 0 < dl) (HdL : dl * L < 2).

  Definition res (y : nat -> R) (l : nat) : R := ob l - fitv (x y) l.
  Definition next (y : nat -> R) (l : nat) : R := y l + dl * res y l.
  Fixpoint yk (k : nat) : nat -> R := match k with 0%nat => fun _ => 0 | S k' => next (yk k') end.
  Definition xk (k : nat) : V := x (yk k).

  Lemma firm y y' : dist (x y) (x y') <= vd m (fun l => fitv (x y) l - fitv (x y') l) (fun l => y l - y' l).
  Proof.
    pose proof (Hopt y (x y') (Hok y')) as H1. pose proof (Hopt y' (x y) (Hok y)) as H2.
    rewrite (Hds (x y') (x y)) in H1 by auto. rewrite vd_sub_sub. lra.
  Qed.

  (** the step does not expand the distance of dual vectors *)
  Lemma contract y y' :
    vd m (fun l => next y l - next y' l) (fun l => next y l - next y' l) <=
    vd m (fun l => y l - y' l) (fun l => y l - y' l) - dl * (2 - dl * L) * dist (x y) (x y').
  Proof.
    set (e := fun l => y l - y' l). set (d := fun l => fitv (x y) l - fitv (x y') l).
    rewrite (vd_ext m _ (fun l => 1 * e l + (- dl) * d l) _ (fun l => 1 * e l + (- dl) * d l)).
    2,3: intros l Hl; unfold next, res, e, d; ring.
    rewrite vd_lin_r, !vd_lin_l. pose proof (firm y y') as F. fold e d in F. pose proof (Hlip (x y) (x y') (Hok y) (Hok y')) as K. fold d in K.
    rewrite (vd_sym m e d) in *. set (D := dist (x y) (x y')) in *. set (dd := vd m d d) in *. set (de := vd m d e) in *. nra.
  Qed.

  Lemma lip_dual y y' : let d := fun l => fitv (x y) l - fitv (x y') l in vd m d d <= L * L * vd m (fun l => y l - y' l) (fun l => y l - y' l).
  Proof.
    cbv zeta. set (e := fun l => y l - y' l). set (d := fun l => fitv (x y) l - fitv (x y') l).
    pose proof (firm y y') as F. fold e d in F. pose proof (Hlip (x y) (x y') (Hok y) (Hok y')) as K. fold d in K.
    pose proof (vd_cauchy m d e) as C. pose proof (vd_pos m d) as P1. pose proof (vd_pos m e) as P2. unfold Rsqr in C.
    set (p := vd m d e) in *. set (f := vd m d d) in *. set (g := vd m e e) in *. pose proof (Hd0 (x y) (x y') (Hok y) (Hok y')) as D0.
    assert (Kp : f <= L * p) by nra. destruct (Req_dec f 0) as [->|Hf]; [apply Rmult_le_pos; nra|].
    assert (0 < f) by lra. apply Rmult_le_reg_l with f; [auto|].
    assert (f * f <= L * p * (L * p)) by (apply Rmult_le_compat; lra). nra.
  Qed.

  Definition gap (k : nat) : R := cost (xk k) + vd m (res (yk k)) (yk k).

  Lemma gap_le k v : ok v -> (forall l, (l < m)%nat -> fitv v l = ob l) -> gap k + /2 * dist v (xk k) <= cost v.
  Proof.
    intros Hv Hf. pose proof (Hopt (yk k) v Hv) as H. unfold gap, xk, res. rewrite vd_sub_l.
    rewrite (vd_ext m (fitv v) ob (yk k) (yk k) Hf) in H by auto. lra.
  Qed.

  Lemma gap_step k : gap k + dl * (2 - dl * L) / 2 * vd m (res (yk k)) (res (yk k)) <= gap (S k).
  Proof.
    set (v := xk (S k)). pose proof (Hopt (yk k) v (Hok _)) as H. fold (xk k) in H.
    unfold gap. fold v. set (r := res (yk k)). set (d := fun l => fitv v l - fitv (xk k) l).
    assert (Er : forall l, res (yk (S k)) l = 1 * r l + (-1) * d l).
    { intros l. unfold res, r, d, res, v, xk. ring. }
    assert (Ey : forall l, yk (S k) l = 1 * yk k l + dl * r l) by (intros l; cbn [yk]; unfold next, r; ring).
    rewrite (vd_ext m (res (yk (S k))) (fun l => 1 * r l + (-1) * d l) (yk (S k)) (fun l => 1 * yk k l + dl * r l)) by auto.
    rewrite vd_lin_r, !vd_lin_l.
    assert (Ed : vd m d (yk k) = vd m (fitv v) (yk k) - vd m (fitv (xk k)) (yk k)) by (unfold d; apply vd_sub_l).
    pose proof (Hlip v (xk k) (Hok _) (Hok _)) as K. fold d in K. pose proof (vd_cauchy m d r) as C. pose proof (vd_pos m r) as P1. pose proof (vd_pos m d) as P2.
    pose proof (vd_pos m (fun l => 1 * d l + (- (dl * L)) * r l)) as P3. rewrite vd_lin_r, !vd_lin_l, (vd_sym m r d) in P3.
    set (D := dist v (xk k)) in *. set (dr := vd m d r) in *. set (rr := vd m r r) in *. set (dd := vd m d d) in *. unfold Rsqr in C.
    assert (Q : dl * dr <= /2 * D + /2 * dl * dl * L * rr).
    { pose proof (Hd0 v (xk k) (Hok _) (Hok _)) as D0. fold D in D0.
      destruct (Rle_dec dr 0) as [Hn|Hn]; [assert (0 <= dl * dl * L * rr) by (apply Rmult_le_pos; [|auto]; nra); nra|].
      assert (C2 : dr * dr <= L * D * rr) by nra.
      (* (dl dr)^2 <= D * (dl^2 L rr) <= ((D + dl^2 L rr)/2)^2 *)
      set (w := dl * dl * L * rr). assert (0 <= w) by (unfold w; apply Rmult_le_pos; [nra|auto]).
      assert (C3 : (dl * dr) * (dl * dr) <= D * w) by (unfold w; nra).
      replace (/2 * dl * dl * L * rr) with (/2 * w) by (unfold w; ring).
      apply Rnot_lt_le. intros Hlt. assert ((/2 * D + /2 * w) * (/2 * D + /2 * w) < dl * dr * (dl * dr)) by (apply Rmult_le_0_lt_compat; lra).
      pose proof (Rle_0_sqr (D - w)) as S0. unfold Rsqr in S0. nra. }
    lra.
  Qed.

  Lemma gap_0 : 0 <= gap 0.
  Proof.
    unfold gap. cbn [yk]. rewrite vd_sym, vd_zero_l. pose proof (Hcost (xk 0) (Hok _)). lra.
  Qed.

  Lemma gap_mono k : 0 <= gap k.
  Proof.
    induction k as [|k IH]; [exact gap_0|]. pose proof (gap_step k) as H. pose proof (vd_pos m (res (yk k))).
    assert (0 <= dl * (2 - dl * L) / 2 * vd m (res (yk k)) (res (yk k))) by (apply Rmult_le_pos; [nra|auto]). lra.
  Qed.

  (** the residuals are square summable *)
  Theorem res_sum v : ok v -> (forall l, (l < m)%nat -> fitv v l = ob l) -> forall n,
    dl * (2 - dl * L) / 2 * sumn n (fun k => vd m (res (yk k)) (res (yk k))) <= cost v.
  Proof.
    intros Hv Hf n. assert (G : dl * (2 - dl * L) / 2 * sumn n (fun k => vd m (res (yk k)) (res (yk k))) <= gap n - gap 0).
    { induction n as [|n IH]; [rewrite sumn_0; Rn; lra|]. rewrite (sumn_S RLR). pose proof (gap_step n). Rn. lra. }
    pose proof (gap_le n v Hv Hf). pose proof gap_0. pose proof (Hd0 v (xk n) Hv (Hok _)). lra.
  Qed.

  (** the dual vectors stay bounded *)
  Definition Sp (f : nat -> R) : Prop := exists v w, ok v /\ ok w /\ forall l, (l < m)%nat -> f l = fitv v l - fitv w l.

  Lemma comb u v w a : ok u -> ok v -> ok w -> exists z, ok z /\ forall l, (l < m)%nat -> fitv z l = fitv u l + a * (fitv v l - fitv w l).
  Proof.
    intros Hu Hv Hw. destruct (Hgrow u v w a (dist u u) Hu Hv Hw) as (B & H). destruct (H u Hu (Rle_refl _)) as (z & Hz & _ & Hf). exists z. auto.
  Qed.

  Lemma Sp_lin f g a : Sp f -> Sp g -> Sp (fun l => f l + a * g l).
  Proof.
    intros (v & w & Hv & Hw & Hf) (v' & w' & Hv' & Hw' & Hg). destruct (comb v v' w' a Hv Hv' Hw') as (z & Hz & Hzf).
    exists z, w. split; [auto|]. split; [auto|]. intros l Hl. rewrite Hf, Hg, Hzf by auto. ring.
  Qed.
  Lemma Sp_0 : Sp (fun _ => 0).
  Proof. exists (x (fun _ => 0)), (x (fun _ => 0)). split; [apply Hok|]. split; [apply Hok|]. intros; ring. Qed.
  Lemma Sp_ext f g : (forall l, (l < m)%nat -> f l = g l) -> Sp f -> Sp g.
  Proof. intros E (v & w & Hv & Hw & Hf). exists v, w. split; [auto|]. split; [auto|]. intros l Hl. rewrite <- E by auto. auto. Qed.

  Section Feasible.
    Variable v0 : V.
    Hypotheses (Hv0 : ok v0) (Hf0 : forall l, (l < m)%nat -> fitv v0 l = ob l).

    Lemma yk_Sp k : Sp (yk k).
    Proof.
      induction k as [|k IH]; [exact Sp_0|]. apply (Sp_ext (fun l => yk k l + dl * (fitv v0 l - fitv (xk k) l))).
      - intros l Hl. cbn [yk]. unfold next, res, xk. rewrite Hf0 by auto. reflexivity.
      - apply (Sp_lin (yk k) (fun l => fitv v0 l - fitv (xk k) l) dl IH). exists v0, (xk k). split; [auto|]. split; [apply Hok|auto].
    Qed.

    Lemma coord_bounded u : Sp u -> exists B, forall k, Rabs (vd m (yk k) u) <= B.
    Proof.
      intros (v & w & Hv & Hw & Hu).
      destruct (Hgrow v0 v w 1 (2 * cost v0) Hv0 Hv Hw) as (B1 & G1). destruct (Hgrow v0 v w (-1) (2 * cost v0) Hv0 Hv Hw) as (B2 & G2).
      exists (Rmax B1 B2). intros k.
      assert (Hr : dist v0 (xk k) <= 2 * cost v0) by (pose proof (gap_le k v0 Hv0 Hf0); pose proof (gap_mono k); lra).
      destruct (G1 (xk k) (Hok _) Hr) as (z1 & Hz1 & C1 & F1). destruct (G2 (xk k) (Hok _) Hr) as (z2 & Hz2 & C2 & F2).
      pose proof (Hopt (yk k) z1 Hz1) as O1. pose proof (Hopt (yk k) z2 Hz2) as O2. fold (xk k) in O1, O2.
      pose proof (Hd0 z1 (xk k) Hz1 (Hok _)). pose proof (Hd0 z2 (xk k) Hz2 (Hok _)). pose proof (Hcost (xk k) (Hok _)).
      rewrite (vd_ext m (fitv z1) (fun l => 1 * fitv (xk k) l + 1 * u l) (yk k) (yk k)) in O1.
      2: intros l Hl; rewrite F1, Hu by auto; ring. 2: reflexivity.
      rewrite (vd_ext m (fitv z2) (fun l => 1 * fitv (xk k) l + (-1) * u l) (yk k) (yk k)) in O2.
      2: intros l Hl; rewrite F2, Hu by auto; ring. 2: reflexivity.
      rewrite vd_lin_l in O1, O2. rewrite (vd_sym m (yk k) u). pose proof (Rmax_l B1 B2). pose proof (Rmax_r B1 B2).
      apply Rabs_le. lra.
    Qed.

    Lemma fin_bound (r : nat) (Q : nat -> R -> Prop) : (forall i, (i < r)%nat -> exists B, Q i B) -> (forall i B B', B <= B' -> Q i B -> Q i B') ->
      exists B, forall i, (i < r)%nat -> Q i B.
    Proof.
      intros H Hm. induction r as [|r IH]; [exists 0; intros; lia|]. destruct IH as (B & HB); [intros; apply H; lia|]. destruct (H r ltac:(lia)) as (B' & HB').
      exists (Rmax B B'). intros i Hi. destruct (Nat.eq_dec i r) as [->|]; [apply (Hm r B'); auto; apply Rmax_r|]. apply (Hm i B); [apply Rmax_l|]. apply HB. lia.
    Qed.

    Lemma sumn_abs n (f : nat -> R) : Rabs (sumn n f) <= sumn n (fun i => Rabs (f i)).
    Proof.
      induction n as [|n IH]; [rewrite !sumn_0; Rn; rewrite Rabs_R0; lra|]. rewrite !(sumn_S RLR). eapply Rle_trans; [apply Rabs_triang|]. Rn. lra.
    Qed.

    Lemma yk_bounded : exists C, forall k l, (l < m)%nat -> Rabs (yk k l) <= C.
    Proof.
      destruct (basis m Sp Sp_0 Sp_lin Sp_ext) as (r & u & [FP Fo] & Hb).
      destruct (fin_bound r (fun i B => forall k, Rabs (vd m (yk k) (u i)) <= B)) as (B & HB).
      - intros i Hi. apply coord_bounded. apply FP; auto.
      - intros i B B' Hle H k. eapply Rle_trans; [apply H|exact Hle].
      - destruct (fin_bound m (fun l C => forall k, Rabs (yk k l) <= C)) as (C & HC).
        + intros l Hl. exists (sumn r (fun i => B * Rabs (u i l))). intros k. rewrite (Hb (yk k) (yk_Sp k) l Hl). unfold proj.
          eapply Rle_trans; [apply sumn_abs|]. apply sumnR_le. intros i Hi. rewrite Rabs_mult. apply Rmult_le_compat_r; [apply Rabs_pos|auto].
        + intros l C C' Hle H k. eapply Rle_trans; [apply H|exact Hle].
        + exists C. intros k l Hl. apply HC; auto.
    Qed.

    (** some dual vector has no residual *)
    Theorem dual_exists : exists ys, forall l, (l < m)%nat -> res ys l = 0.
    Proof.
      destruct yk_bounded as (C & HC). destruct (vec_cluster m yk C HC) as (ys & phi & Hphi & Hcv). exists ys.
      assert (Hrs : forall eps, 0 < eps -> exists N, forall n, (N <= n)%nat -> vd m (res (yk n)) (res (yk n)) < eps).
      { assert (Hp : 0 < dl * (2 - dl * L) / 2) by nra.
        apply (series_terms _ (cost v0 / (dl * (2 - dl * L) / 2))); [intros; apply vd_pos|]. intros n. pose proof (res_sum v0 Hv0 Hf0 n) as H.
        apply Rmult_le_reg_l with (dl * (2 - dl * L) / 2); [auto|]. replace (dl * (2 - dl * L) / 2 * (cost v0 / (dl * (2 - dl * L) / 2))) with (cost v0) by (field; nra).
        exact H. }
      assert (Z : vd m (res ys) (res ys) <= 0).
      { apply Rnot_lt_le. intros Hpos. set (E := vd m (res ys) (res ys)) in *.
        destruct (Hrs (E / 8) ltac:(lra)) as (N1 & H1). set (K := 4 * (L * L * INR m) + 1).
        assert (HK : 0 < K) by (unfold K; pose proof (pos_INR m); nra).
        set (eps := Rmin 1 (E / (2 * K))). assert (HE : 0 < E / (2 * K)) by (apply Rdiv_lt_0_compat; lra).
        assert (He : 0 < eps) by (apply Rmin_glb_lt; lra).
        destruct (Hcv eps He) as (N2 & H2). set (n := (N1 + N2)%nat). specialize (H1 (phi n) ltac:(specialize (Hphi n); unfold n in *; lia)).
        specialize (fun l => H2 n l ltac:(unfold n; lia)). set (y := yk (phi n)) in *.
        set (d := fun l => fitv (x y) l - fitv (x ys) l). pose proof (lip_dual y ys) as Ld. cbv zeta in Ld. fold d in Ld.
        assert (Hee : vd m (fun l => y l - ys l) (fun l => y l - ys l) <= INR m * eps).
        { rewrite <- sumnR_const. apply sumnR_le. intros l Hl. specialize (H2 l Hl). assert (eps <= 1) by apply Rmin_l.
          replace ((y l - ys l) * (y l - ys l)) with (Rabs (y l - ys l) * Rabs (y l - ys l)); [pose proof (Rabs_pos (y l - ys l)); nra|].
          rewrite <- Rabs_mult. apply Rabs_right. apply Rle_ge. apply Rle_0_sqr. }
        assert (Hd2 : E <= 2 * vd m (res y) (res y) + 2 * vd m d d).
        { unfold E. rewrite (vd_ext m (res ys) (fun l => 1 * res y l + 1 * d l) (res ys) (fun l => 1 * res y l + 1 * d l)).
          2,3: intros l Hl; unfold res, d; ring.
          rewrite vd_lin_r, !vd_lin_l, (vd_sym m d (res y)). pose proof (vd_pos m (fun l => res y l - d l)) as P. rewrite vd_sub_sub, (vd_sym m d (res y)) in P. lra. }
        assert (eps <= E / (2 * K)) by apply Rmin_r.
        assert (Hb : K * eps <= E / 2).
        { replace (E / 2) with (K * (E / (2 * K))) by (field; lra). apply Rmult_le_compat_l; lra. }
        assert (2 * vd m d d <= 2 * (L * L * (INR m * eps))) by (assert (0 <= L * L) by nra; nra).
        assert (2 * (L * L * (INR m * eps)) <= K * eps / 2) by (unfold K; nra). lra. }
      intros l Hl. assert (E0 : vd m (res ys) (res ys) = 0) by (pose proof (vd_pos m (res ys)); lra).
      pose proof (sumnR_zero_inv m (fun l => res ys l * res ys l) ltac:(intros; apply Rle_0_sqr) E0 l Hl) as H. cbv beta in H. nra.
    Qed.
  End Feasible.

  (** a dual vector with no residual: the minimiser, reached in the limit *)
  Section Fixed.
    Variable ys : nat -> R.
    Hypothesis Hys : forall l, (l < m)%nat -> res ys l = 0.

    Theorem fixed_opt v : ok v -> (forall l, (l < m)%nat -> fitv v l = ob l) -> cost (x ys) + /2 * dist v (x ys) <= cost v.
    Proof.
      intros Hv Hf. pose proof (Hopt ys v Hv) as H. rewrite (vd_ext m (fitv v) (fitv (x ys)) ys ys) in H; [lra| |reflexivity].
      intros l Hl. rewrite Hf by auto. specialize (Hys l Hl). unfold res in Hys. lra.
    Qed.

    Theorem fixed_sum n : dl * (2 - dl * L) * sumn n (fun k => dist (xk k) (x ys)) <= vd m ys ys.
    Proof.
      assert (G : dl * (2 - dl * L) * sumn n (fun k => dist (xk k) (x ys)) + vd m (fun l => yk n l - ys l) (fun l => yk n l - ys l) <= vd m ys ys).
      { induction n as [|n IH].
        - rewrite sumn_0. Rn. cbn [yk]. rewrite (vd_ext m _ (fun l => -1 * ys l + 0 * ys l) _ (fun l => -1 * ys l + 0 * ys l)).
          2,3: intros; ring. rewrite vd_lin_r, vd_lin_l. lra.
        - rewrite (sumn_S RLR). pose proof (contract (yk n) ys) as C. fold (xk n) in C. cbn [yk].
          rewrite (vd_ext m (fun l => next (yk n) l - next ys l) (fun l => next (yk n) l - ys l) _ (fun l => next (yk n) l - ys l)) in C.
          2,3: intros l Hl; unfold next at 2; rewrite Hys by auto; ring. Rn. lra. }
      pose proof (vd_pos m (fun l => yk n l - ys l)). lra.
    Qed.

    Theorem fixed_limit eps : 0 < eps -> exists N, forall n, (N <= n)%nat -> dist (xk n) (x ys) < eps.
    Proof.
      assert (Hp : 0 < dl * (2 - dl * L)) by nra. apply (series_terms _ (vd m ys ys / (dl * (2 - dl * L)))); [intros; apply Hd0; apply Hok|].
      intros n. pose proof (fixed_sum n) as H. apply Rmult_le_reg_l with (dl * (2 - dl * L)); [auto|].
      replace (dl * (2 - dl * L) * (vd m ys ys / (dl * (2 - dl * L)))) with (vd m ys ys) by (field; nra). exact H.
    Qed.
  End Fixed.
End Dual.
