(** The rounding errors of IEEE binary arithmetic (SpecFloat). *)

From Coq Require Import ZArith Reals List Bool SpecFloat Lia Lra.
From Verif Require Import Num SpecRound.
Import ListNotations.
Local Open Scope R_scope.

Notation b2 e := (powerRZ 2 e).

Lemma b2_pos e : 0 < b2 e.
Proof. apply powerRZ_lt. lra. Qed.
Lemma b2_add a b : b2 (a + b) = b2 a * b2 b.
Proof. apply powerRZ_add. lra. Qed.
Lemma b2_int n : (0 <= n)%Z -> b2 n = IZR (2 ^ n).
Proof.
  intros H. rewrite <- (Z2Nat.id n H). generalize (Z.to_nat n). clear. intros n.
  rewrite <- pow_powerRZ, pow_IZR. reflexivity.
Qed.
Lemma b2_le a b : (a <= b)%Z -> b2 a <= b2 b.
Proof.
  intros H. replace b with (a + (b - a))%Z by lia. rewrite b2_add. rewrite <- (Rmult_1_r (b2 a)) at 1. apply Rmult_le_compat_l; [apply Rlt_le, b2_pos|].
  rewrite b2_int by lia. apply IZR_le. pose proof (Z.pow_pos_nonneg 2 (b - a)). lia.
Qed.
Lemma b2_half e : b2 (e - 1) = b2 e / 2.
Proof. replace (e - 1)%Z with (e + - (1))%Z by lia. rewrite b2_add. change (b2 (- (1))) with (/ (2 * 1)). lra. Qed.
Lemma b2_neg e : b2 e * b2 (- e) = 1.
Proof. rewrite <- b2_add. replace (e + - e)%Z with 0%Z by lia. reflexivity. Qed.

(** ** digits *)
Lemma digits_bounds p : (2 ^ (Zpos (digits2_pos p) - 1) <= Zpos p < 2 ^ Zpos (digits2_pos p))%Z.
Proof.
  induction p as [p IH|p IH|]; cbn [digits2_pos]; [| |cbn; lia].
  all: rewrite Pos2Z.inj_succ; replace (Z.succ (Zpos (digits2_pos p)) - 1)%Z with (Z.succ (Zpos (digits2_pos p) - 1)) by lia.
  all: rewrite !Z.pow_succ_r by lia; lia.
Qed.
Lemma digits_le z n : (0 <= n)%Z -> (0 <= z < 2 ^ n)%Z -> (Zdigits2 z <= n)%Z.
Proof.
  intros Hn [H0 H]. destruct z as [|p|p]; [exact Hn| |lia]. cbn [Zdigits2]. pose proof (digits_bounds p) as [L _].
  destruct (Z_lt_le_dec n (Zpos (digits2_pos p))) as [K|K]; [|exact K]. exfalso.
  assert (2 ^ n <= 2 ^ (Zpos (digits2_pos p) - 1))%Z by (apply Z.pow_le_mono_r; lia). lia.
Qed.
Lemma digits_ge z n : (0 < n)%Z -> (2 ^ (n - 1) <= z)%Z -> (n <= Zdigits2 z)%Z.
Proof.
  intros Hn H. assert (0 < z)%Z by (pose proof (Z.pow_pos_nonneg 2 (n - 1)); lia). destruct z as [|p|p]; try lia. cbn [Zdigits2].
  pose proof (digits_bounds p) as [_ U]. destruct (Z_lt_le_dec (Zpos (digits2_pos p)) n) as [K|K]; [|exact K]. exfalso.
  assert (2 ^ Zpos (digits2_pos p) <= 2 ^ (n - 1))%Z by (apply Z.pow_le_mono_r; lia). lia.
Qed.
Lemma digits_lt z : (0 <= z)%Z -> (z < 2 ^ Zdigits2 z)%Z.
Proof. destruct z as [|p|p]; intros H; [cbn; lia| |lia]. apply digits_bounds. Qed.
Lemma digits_low z : (0 < z)%Z -> (2 ^ (Zdigits2 z - 1) <= z)%Z.
Proof. destruct z as [|p|p]; intros H; try lia. apply digits_bounds. Qed.
Lemma digits_nonneg z : (0 <= Zdigits2 z)%Z.
Proof. destruct z; cbn; lia. Qed.

(** ** the record of the discarded bits *)
Definition locates (mrs : shr_record) (x : R) : Prop :=
  let m := IZR (shr_m mrs) in
  match shr_r mrs, shr_s mrs with
  | false, false => x = m
  | false, true => m < x < m + / 2
  | true, false => x = m + / 2
  | true, true => m + / 2 < x < m + 1
  end.
Lemma shr_1_locates mrs x : (0 <= shr_m mrs)%Z -> locates mrs x -> locates (shr_1 mrs) (x / 2) /\ (shr_m (shr_1 mrs) = shr_m mrs / 2)%Z.
Proof.
  destruct mrs as [m r s]. cbn [shr_m]. intros Hm H. destruct m as [|[p|p|]|p]; [| | | |lia].
  - split; [|reflexivity]. unfold locates in *. cbn in *. destruct r, s; cbn; lra.
  - split; [|cbn [shr_1 shr_m]; rewrite (Pos2Z.inj_xI p); replace (2 * Zpos p + 1)%Z with (1 + Zpos p * 2)%Z by lia; rewrite Z.div_add by lia; reflexivity].
    unfold locates in *. cbn [shr_1 shr_m shr_r shr_s] in *. rewrite (Pos2Z.inj_xI p), plus_IZR, mult_IZR in H. destruct r, s; cbn; lra.
  - split; [|cbn [shr_1 shr_m]; rewrite (Pos2Z.inj_xO p), Z.mul_comm, Z.div_mul by lia; reflexivity].
    unfold locates in *. cbn [shr_1 shr_m shr_r shr_s] in *. rewrite (Pos2Z.inj_xO p), mult_IZR in H. destruct r, s; cbn; lra.
  - split; [|reflexivity]. unfold locates in *. cbn in *. destruct r, s; cbn; lra.
Qed.
Lemma iter_pos_shr p : forall mrs x, (0 <= shr_m mrs)%Z -> locates mrs x ->
  locates (iter_pos shr_1 p mrs) (x * b2 (- Zpos p)) /\ (shr_m (iter_pos shr_1 p mrs) = shr_m mrs / 2 ^ Zpos p)%Z.
Proof.
  induction p as [p IH|p IH|]; intros mrs x H0 H.
  - cbn [iter_pos]. destruct (shr_1_locates mrs x H0 H) as [A1 A2].
    assert (N1 : (0 <= shr_m (shr_1 mrs))%Z) by (rewrite A2; apply Z.div_pos; lia).
    destruct (IH _ _ N1 A1) as [B1 B2]. assert (N2 : (0 <= shr_m (iter_pos shr_1 p (shr_1 mrs)))%Z) by (rewrite B2; apply Z.div_pos; lia).
    destruct (IH _ _ N2 B1) as [C1 C2]. split.
    + replace (x * b2 (- Zpos p~1)) with (x / 2 * b2 (- Zpos p) * b2 (- Zpos p)); [exact C1|]. rewrite (Pos2Z.inj_xI p).
      replace (- (2 * Zpos p + 1))%Z with (- Zpos p + - Zpos p - 1)%Z by lia. rewrite b2_half, b2_add. lra.
    + rewrite C2, B2, A2, !Z.div_div by lia. f_equal. rewrite (Pos2Z.inj_xI p), Z.pow_add_r, Z.pow_twice_r by lia. lia.
  - cbn [iter_pos]. destruct (IH _ _ H0 H) as [B1 B2]. assert (N2 : (0 <= shr_m (iter_pos shr_1 p mrs))%Z) by (rewrite B2; apply Z.div_pos; lia).
    destruct (IH _ _ N2 B1) as [C1 C2]. split.
    + replace (x * b2 (- Zpos p~0)) with (x * b2 (- Zpos p) * b2 (- Zpos p)); [exact C1|]. rewrite (Pos2Z.inj_xO p).
      replace (- (2 * Zpos p))%Z with (- Zpos p + - Zpos p)%Z by lia. rewrite b2_add. lra.
    + rewrite C2, B2, !Z.div_div by lia. f_equal. rewrite (Pos2Z.inj_xO p), Z.pow_twice_r. lia.
  - cbn [iter_pos]. destruct (shr_1_locates mrs x H0 H) as [A1 A2]. split; [|exact A2]. replace (x * b2 (- (1))) with (x / 2); [exact A1|]. change (b2 (- (1))) with (/ (2 * 1)). lra.
Qed.

Definition rne (mrs : shr_record) : Z := round_nearest_even (shr_m mrs) (loc_of_shr_record mrs).
Lemma rne_near mrs x : locates mrs x -> Rabs (IZR (rne mrs) - x) <= / 2 /\ (shr_m mrs <= rne mrs <= shr_m mrs + 1)%Z.
Proof.
  destruct mrs as [m r s]. unfold locates, rne. cbn [shr_m shr_r shr_s]. intros H.
  destruct r, s; cbn [loc_of_shr_record round_nearest_even shr_m].
  - rewrite plus_IZR. split; [apply Rabs_le; lra|lia].
  - destruct (Z.even m); [|rewrite plus_IZR]; (split; [apply Rabs_le; lra|lia]).
  - split; [apply Rabs_le; lra|lia].
  - split; [apply Rabs_le; lra|lia].
Qed.
Lemma rne_int mrs z : locates mrs (IZR z) -> rne mrs = z.
Proof.
  destruct mrs as [m r s]. unfold locates, rne. cbn [shr_m shr_r shr_s]. intros H.
  assert (C : forall a b, a < IZR z < b -> a = IZR m -> b <= IZR m + 1 -> False).
  { intros a b K -> L. destruct K as [K1 K2]. apply lt_IZR in K1. assert (IZR z < IZR (m + 1)) as K3 by (rewrite plus_IZR; lra). apply lt_IZR in K3. lia. }
  destruct r, s; cbn [loc_of_shr_record round_nearest_even shr_m].
  - exfalso. apply (C (IZR m) (IZR m + 1)); lra.
  - exfalso. apply (C (IZR m) (IZR m + 1)); lra.
  - exfalso. apply (C (IZR m) (IZR m + 1)); lra.
  - apply eq_IZR in H. lia.
Qed.

(** ** binary_round_aux *)
Section Format.
Variables prec emax : Z.
Hypothesis Hp : (1 < prec)%Z.
Hypothesis Hpe : (2 * prec < emax)%Z.
Notation fexp32 := (fexp prec emax).
Notation emin := (3 - emax - prec)%Z.
Notation f_multiple := (f_multiple prec emax).
Notation u32 := (unit_roundoff prec).
Notation eta32 := (underflow_unit prec emax).
Lemma fexp_max e : fexp32 e = Z.max (e - prec) emin.
Proof. reflexivity. Qed.

Lemma second_shift r e : (0 <= r <= 2 ^ prec)%Z -> (emin <= e)%Z ->
  let '(mrs, e2) := shr_fexp prec emax r e loc_Exact in
  (0 <= shr_m mrs)%Z /\ (e <= e2 <= e + 1)%Z /\ IZR (shr_m mrs) * b2 e2 = IZR r * b2 e.
Proof.
  intros Hr He. unfold shr_fexp. cbn [shr_record_of_loc]. rewrite fexp_max.
  destruct (Z.eq_dec r (2 ^ prec)) as [->|Hn].
  - assert (Ed : Zdigits2 (2 ^ prec) = (prec + 1)%Z).
    { pose proof (Z.pow_pos_nonneg 2 prec ltac:(lia) ltac:(lia)). apply Z.le_antisymm.
      - apply digits_le; [lia|]. rewrite Z.pow_add_r by lia. change (2 ^ 1)%Z with 2%Z. lia.
      - apply digits_ge; [lia|]. replace (prec + 1 - 1)%Z with prec by lia. lia. }
    rewrite Ed. replace (Z.max (prec + 1 + e - prec) emin - e)%Z with 1%Z by lia. cbn [shr iter_pos].
    destruct (shr_1_locates {| shr_m := 2 ^ prec; shr_r := false; shr_s := false |} (IZR (2 ^ prec))) as [_ E]; [cbn; lia|reflexivity|]. rewrite E. cbn [shr_m].
    assert (E2 : (2 ^ prec = 2 ^ (prec - 1) * 2)%Z) by (replace prec with (prec - 1 + 1)%Z at 1 by lia; rewrite Z.pow_add_r by lia; reflexivity). rewrite E2, Z.div_mul by lia.
    pose proof (Z.pow_pos_nonneg 2 (prec - 1) ltac:(lia) ltac:(lia)). split; [lia|]. split; [lia|]. rewrite b2_add, mult_IZR. change (b2 1) with (2 * 1). lra.
  - pose proof (digits_le r prec ltac:(lia) ltac:(lia)) as D.
    destruct (Z.max (Zdigits2 r + e - prec) emin - e)%Z eqn:E; [|lia|]; cbn [shr shr_m]; (split; [lia|]; split; [lia|reflexivity]).
Qed.

Lemma aux_spec s mx ex lx x : (0 <= mx)%Z -> locates (shr_record_of_loc mx lx) x ->
  let e' := Z.max ex (fexp32 (Zdigits2 mx + ex)) in
  exists r, (0 <= r)%Z /\ Rabs (IZR r - x * b2 (ex - e')) <= / 2 /\
    (forall z, x * b2 (ex - e') = IZR z -> r = z) /\
    let y := binary_round_aux prec emax s mx ex lx in
    f_multiple y /\ (f_finite y -> f_val y = (if s then -1 else 1) * (IZR r * b2 e')) /\
    ((e' < emax - prec)%Z -> f_finite y).
Proof.
  intros Hm HL. cbn zeta. set (D := (Zdigits2 mx + ex)%Z).
  assert (S1 : exists mrs, shr_fexp prec emax mx ex lx = (mrs, Z.max ex (fexp32 D)) /\ (0 <= shr_m mrs < 2 ^ prec)%Z /\ locates mrs (x * b2 (ex - Z.max ex (fexp32 D)))).
  { assert (Hm' : shr_m (shr_record_of_loc mx lx) = mx) by (destruct lx as [|[]]; reflexivity).
    unfold shr_fexp. fold D. rewrite fexp_max. pose proof (digits_lt mx Hm) as DL. pose proof (digits_nonneg mx) as DN.
    destruct (Z.max (D - prec) emin - ex)%Z as [|p|p] eqn:E.
    - exists (shr_record_of_loc mx lx). cbn [shr]. replace (Z.max ex (Z.max (D - prec) emin)) with ex by lia. split; [reflexivity|]. rewrite Hm'. split.
      + split; [exact Hm|]. apply Z.lt_le_trans with (2 ^ Zdigits2 mx)%Z; [exact DL|]. apply Z.pow_le_mono_r; lia.
      + replace (ex - ex)%Z with 0%Z by lia. cbn. rewrite Rmult_1_r. exact HL.
    - exists (iter_pos shr_1 p (shr_record_of_loc mx lx)). cbn [shr]. replace (Z.max ex (Z.max (D - prec) emin)) with (ex + Zpos p)%Z by lia. split; [reflexivity|].
      destruct (iter_pos_shr p (shr_record_of_loc mx lx) x) as [A1 A2]; [lia|exact HL|]. rewrite A2, Hm'. split.
      + split; [apply Z.div_pos; lia|]. apply Z.div_lt_upper_bound; [lia|]. rewrite <- Z.pow_add_r by lia.
        apply Z.lt_le_trans with (2 ^ Zdigits2 mx)%Z; [exact DL|]. apply Z.pow_le_mono_r; lia.
      + replace (ex - (ex + Zpos p))%Z with (- Zpos p)%Z by lia. exact A1.
    - exists (shr_record_of_loc mx lx). cbn [shr]. replace (Z.max ex (Z.max (D - prec) emin)) with ex by lia. split; [reflexivity|]. rewrite Hm'. split.
      + split; [exact Hm|]. apply Z.lt_le_trans with (2 ^ Zdigits2 mx)%Z; [exact DL|]. apply Z.pow_le_mono_r; lia.
      + replace (ex - ex)%Z with 0%Z by lia. cbn. rewrite Rmult_1_r. exact HL. }
  destruct S1 as (mrs & E1 & Hb & Hl). set (e' := Z.max ex (fexp32 D)) in *.
  destruct (rne_near mrs _ Hl) as [N1 N2]. exists (rne mrs). split; [lia|]. split; [exact N1|]. split; [intros z Hz; rewrite Hz in Hl; apply rne_int, Hl|].
  unfold binary_round_aux. rewrite E1. fold (rne mrs).
  assert (He : (emin <= e')%Z) by (unfold e'; rewrite fexp_max; lia).
  pose proof (second_shift (rne mrs) e' ltac:(lia) He) as S2. destruct (shr_fexp prec emax (rne mrs) e' loc_Exact) as [mrs2 e2]. destruct S2 as (P1 & P2 & P3).
  destruct (shr_m mrs2) as [|q|q] eqn:Eq; [| |lia].
  - cbn [f_multiple f_finite f_val]. split; [exact I|]. split; [intros _; rewrite <- P3; lra|auto].
  - destruct (Zle_bool e2 (emax - prec)) eqn:Eo.
    + cbn [f_multiple f_finite f_val]. split; [lia|]. split; [intros _; rewrite <- P3; lra|auto].
    + cbn [f_multiple f_finite f_val]. split; [exact I|]. split; [intros []|]. intros K. exfalso.
      pose proof (Zle_cases e2 (emax - prec)) as C. rewrite Eo in C. lia.
Qed.

(** ** the error of one rounding *)
Lemma fexp_mono a b : (a <= b)%Z -> (fexp32 a <= fexp32 b)%Z.
Proof. rewrite !fexp_max. lia. Qed.

Lemma x_low mx lx x : (0 < mx)%Z -> locates (shr_record_of_loc mx lx) x -> b2 (Zdigits2 mx - 1) <= x.
Proof.
  intros H L. assert (IZR mx <= x). { destruct lx as [|[]]; unfold locates in L; cbn in L; lra. }
  pose proof (digits_low mx H) as D. apply IZR_le in D. rewrite <- b2_int in D; [lra|].
  destruct mx; try lia. cbn [Zdigits2]. lia.
Qed.
Lemma x_nonneg mx lx x : (0 <= mx)%Z -> locates (shr_record_of_loc mx lx) x -> 0 <= x.
Proof. intros H L. apply IZR_le in H. destruct lx as [|[]]; unfold locates in L; cbn in L; lra. Qed.

Lemma sign_abs (s : bool) a b : Rabs ((if s then -1 else 1) * a - (if s then -1 else 1) * b) = Rabs (a - b).
Proof. destruct s; [|f_equal; lra]. rewrite <- Rabs_Ropp. f_equal. lra. Qed.

Lemma scale_err r x e' k : Rabs (IZR r - x * b2 (k - e')) <= / 2 -> Rabs (IZR r * b2 e' - x * b2 k) <= b2 (e' - 1).
Proof.
  intros H. rewrite b2_half. unfold Rdiv. rewrite (Rmult_comm (b2 e') (/ 2)). replace (IZR r * b2 e' - x * b2 k) with ((IZR r - x * b2 (k - e')) * b2 e').
  - rewrite Rabs_mult, (Rabs_pos_eq (b2 e')) by apply Rlt_le, b2_pos. apply Rmult_le_compat_r; [apply Rlt_le, b2_pos|exact H].
  - replace k with ((k - e') + e')%Z at 2 by lia. rewrite b2_add. ring.
Qed.

Lemma aux_error s mx ex lx x : (0 <= mx)%Z -> locates (shr_record_of_loc mx lx) x ->
  lx = loc_Exact \/ (ex <= fexp32 (Zdigits2 mx + ex))%Z ->
  let y := binary_round_aux prec emax s mx ex lx in
  f_multiple y /\ (f_finite y -> Rabs (f_val y - (if s then -1 else 1) * (x * b2 ex)) <= u32 * (x * b2 ex) + eta32).
Proof.
  intros Hm HL HX. destruct (aux_spec s mx ex lx x Hm HL) as (r & R0 & R1 & R2 & R3 & R4 & _). cbn zeta in *.
  split; [exact R3|]. intros F. rewrite (R4 F). clear R3 R4 F. set (e' := Z.max ex (fexp32 (Zdigits2 mx + ex))) in *.
  rewrite sign_abs.
  pose proof (x_nonneg mx lx x Hm HL) as X0. pose proof (b2_pos ex) as B0.
  assert (U0 : 0 < u32) by apply b2_pos. assert (E0 : 0 < eta32) by apply b2_pos.
  assert (XX : 0 <= x * b2 ex) by (apply Rmult_le_pos; lra).
  assert (UX : 0 <= u32 * (x * b2 ex)) by (apply Rmult_le_pos; lra).
  apply scale_err in R1.
  destruct (Z_lt_le_dec (fexp32 (Zdigits2 mx + ex)) ex) as [C|C].
  - destruct HX as [->|HX]; [|lia]. assert (e' = ex) by lia. unfold locates in HL. cbn in HL.
    assert (r = mx). { apply R2. rewrite HL. replace (ex - e')%Z with 0%Z by lia. cbn. lra. }
    subst r. rewrite H. rewrite HL. rewrite Rminus_diag_eq by reflexivity. rewrite Rabs_R0. rewrite <- HL. lra.
  - assert (He : e' = fexp32 (Zdigits2 mx + ex)) by lia. rewrite fexp_max in He.
    destruct (Z_le_dec e' emin) as [K|K].
    + apply Rle_trans with (b2 (e' - 1)); [exact R1|]. apply Rle_trans with eta32; [apply b2_le; lia|lra].
    + assert (0 < mx)%Z. { destruct (Z.eq_dec mx 0) as [Z0|]; [|lia]. subst mx. cbn [Zdigits2] in *. rewrite fexp_max in C. lia. }
      apply Rle_trans with (b2 (e' - 1)); [exact R1|]. apply Rle_trans with (u32 * (x * b2 ex)); [|lra].
      replace (e' - 1)%Z with (- prec + ((Zdigits2 mx - 1) + ex))%Z by lia. rewrite !b2_add. fold u32.
      apply Rmult_le_compat_l; [lra|]. apply Rmult_le_compat_r; [lra|]. apply (x_low mx lx x H HL).
Qed.

(** an exact integer of at most 2^prec stays *)
Lemma b2_lt_inv a b : b2 a <= b2 b -> (a <= b)%Z.
Proof.
  intros H. destruct (Z_le_dec a b); [assumption|]. exfalso. assert (b2 (b + 1) <= b2 a) by (apply b2_le; lia).
  rewrite b2_add in H0. change (b2 1) with (2 * 1) in H0. pose proof (b2_pos b). lra.
Qed.
Lemma aux_int s mx ex z : (0 < mx)%Z -> IZR mx * b2 ex = IZR z -> (z <= 2 ^ prec)%Z ->
  let y := binary_round_aux prec emax s mx ex loc_Exact in
  f_multiple y /\ f_finite y /\ f_val y = (if s then -1 else 1) * IZR z.
Proof.
  intros Hm HX Hz. assert (HL : locates (shr_record_of_loc mx loc_Exact) (IZR mx)) by reflexivity.
  destruct (aux_spec s mx ex loc_Exact (IZR mx) ltac:(lia) HL) as (r & R0 & R1 & R2 & R3 & R4 & R5). cbn zeta in *.
  set (e' := Z.max ex (fexp32 (Zdigits2 mx + ex))) in *.
  assert (Z24 : IZR z <= b2 prec) by (rewrite b2_int by lia; apply IZR_le; exact Hz).
  assert (E1 : (ex <= prec)%Z).
  { apply b2_lt_inv. rewrite <- HX in Z24. apply Rle_trans with (IZR mx * b2 ex); [|exact Z24].
    rewrite <- (Rmult_1_l (b2 ex)) at 1. apply Rmult_le_compat_r; [apply Rlt_le, b2_pos|]. apply IZR_le. lia. }
  pose proof (x_low mx loc_Exact (IZR mx) Hm HL) as XL.
  assert (DL : b2 (Zdigits2 mx - 1 + ex) <= IZR z). { rewrite <- HX, b2_add. apply Rmult_le_compat_r; [apply Rlt_le, b2_pos|exact XL]. }
  assert (E2 : (Zdigits2 mx + ex <= prec + 1)%Z). { assert (Zdigits2 mx - 1 + ex <= prec)%Z; [|lia]. apply b2_lt_inv. lra. }
  assert (He : (e' <= prec)%Z) by (unfold e'; rewrite fexp_max; lia).
  assert (F : f_finite (binary_round_aux prec emax s mx ex loc_Exact)) by (apply R5; lia).
  split; [exact R3|]. split; [exact F|]. rewrite (R4 F). f_equal. rewrite <- HX.
  assert (XE : IZR mx * b2 (ex - e') * b2 e' = IZR mx * b2 ex). { rewrite Rmult_assoc, <- b2_add. do 2 f_equal. lia. }
  rewrite <- XE. f_equal.
  assert (Q : exists k, IZR mx * b2 (ex - e') = IZR k).
  { destruct (Z_le_dec e' 0) as [K|K].
    - exists (z * 2 ^ (- e'))%Z. rewrite mult_IZR, <- b2_int by lia. rewrite <- HX, Rmult_assoc, <- b2_add. do 2 f_equal. 
    - destruct (Z.eq_dec e' ex) as [->|N].
      + exists mx. replace (ex - ex)%Z with 0%Z by lia. cbn. lra.
      + assert (H1 : e' = 1%Z) by (unfold e' in *; rewrite fexp_max in *; lia).
        assert (H2 : (Zdigits2 mx + ex = prec + 1)%Z) by (unfold e' in *; rewrite fexp_max in *; lia).
        exists (2 ^ (prec - 1))%Z. rewrite <- b2_int by lia. rewrite H1. replace (ex - 1)%Z with (ex + -1)%Z by lia. rewrite b2_add, <- Rmult_assoc, HX.
        replace (IZR z) with (b2 prec). { rewrite <- b2_add. f_equal. } replace (Zdigits2 mx - 1 + ex)%Z with prec in DL by lia. lra. }
  destruct Q as [k Hk]. rewrite (R2 k Hk). symmetry. exact Hk.
Qed.

(** ** normalisation *)
Lemma shl_align_spec mx ex e' : let '(m, e) := shl_align mx ex e' in
  e = Z.min ex e' /\ (Zpos m = Zpos mx * 2 ^ (ex - Z.min ex e'))%Z.
Proof.
  unfold shl_align. destruct (e' - ex)%Z as [|p|p] eqn:E.
  - replace (Z.min ex e') with ex by lia. split; [reflexivity|]. rewrite Z.sub_diag. lia.
  - replace (Z.min ex e') with ex by lia. split; [reflexivity|]. rewrite Z.sub_diag. lia.
  - replace (Z.min ex e') with e' by lia. split; [reflexivity|]. replace (ex - e')%Z with (Zpos p) by lia.
    rewrite Zpower.shift_pos_correct. change (2 ^ Zpos p)%Z with (Z.pow_pos 2 p). lia.
Qed.
Lemma digits_shift z k : (0 < z)%Z -> (0 <= k)%Z -> (Zdigits2 (z * 2 ^ k) = Zdigits2 z + k)%Z.
Proof.
  intros Hz Hk. pose proof (digits_low z Hz). pose proof (digits_lt z ltac:(lia)). pose proof (digits_nonneg z) as D0.
  assert (D1 : (0 < Zdigits2 z)%Z) by (destruct z; cbn; lia). pose proof (Z.pow_pos_nonneg 2 k ltac:(lia) Hk) as P.
  apply Z.le_antisymm.
  - apply digits_le; [lia|]. rewrite Z.pow_add_r by lia. split; [lia|]. apply Z.mul_lt_mono_pos_r; assumption.
  - apply digits_ge; [lia|]. replace (Zdigits2 z + k - 1)%Z with (Zdigits2 z - 1 + k)%Z by lia. rewrite Z.pow_add_r by lia. apply Z.mul_le_mono_nonneg_r; lia.
Qed.

Lemma round_norm s mx ex : exists mz ez, binary_round prec emax s mx ex = binary_round_aux prec emax s (Zpos mz) ez loc_Exact /\
  (Zdigits2 (Zpos mz) + ez = Zdigits2 (Zpos mx) + ex)%Z /\ ez = Z.min ex (fexp32 (Zdigits2 (Zpos mx) + ex)) /\ IZR (Zpos mz) * b2 ez = IZR (Zpos mx) * b2 ex.
Proof.
  unfold binary_round. change (Zpos (digits2_pos mx)) with (Zdigits2 (Zpos mx)). pose proof (shl_align_spec mx ex (fexp32 (Zdigits2 (Zpos mx) + ex))) as H.
  destruct (shl_align mx ex (fexp32 (Zdigits2 (Zpos mx) + ex))) as [mz ez]. destruct H as [H1 H2]. exists mz, ez. split; [reflexivity|].
  rewrite H2, digits_shift by lia. split; [lia|]. split; [exact H1|]. rewrite mult_IZR, <- b2_int, Rmult_assoc, <- b2_add by lia. do 2 f_equal. lia.
Qed.
Lemma round_error s mx ex : (emin <= ex)%Z ->
  let y := binary_round prec emax s mx ex in
  let x := IZR (Zpos mx) * b2 ex in
  f_multiple y /\ (f_finite y -> Rabs (f_val y - (if s then -1 else 1) * x) <= u32 * x).
Proof.
  intros Hex. cbn zeta. destruct (round_norm s mx ex) as (mz & ez & -> & HD & He & HV).
  assert (HL : locates (shr_record_of_loc (Zpos mz) loc_Exact) (IZR (Zpos mz))) by reflexivity.
  destruct (aux_spec s (Zpos mz) ez loc_Exact _ ltac:(lia) HL) as (r & R0 & R1 & R2 & R3 & R4 & _). cbn zeta in *.
  split; [exact R3|]. intros F. rewrite (R4 F), <- HV. rewrite sign_abs. rewrite HD in *. set (D := (Zdigits2 (Zpos mx) + ex)%Z) in *.
  assert (E' : Z.max ez (fexp32 D) = fexp32 D) by lia. rewrite E' in *. clear E' R3 R4 F.
  apply scale_err in R1.
  assert (U0 : 0 < u32) by apply b2_pos. pose proof (b2_pos ez) as B0.
  assert (X0 : 0 <= IZR (Zpos mz) * b2 ez) by (apply Rmult_le_pos; [apply IZR_le; lia|lra]).
  destruct (Z_le_dec emin (D - prec)) as [K|K].
  - apply Rle_trans with (b2 (fexp32 D - 1)); [exact R1|]. rewrite fexp_max. replace (Z.max (D - prec) emin - 1)%Z with (- prec + ((Zdigits2 (Zpos mz) - 1) + ez))%Z by lia.
    rewrite !b2_add. fold u32. apply Rmult_le_compat_l; [lra|]. apply Rmult_le_compat_r; [lra|]. apply (x_low (Zpos mz) loc_Exact); [lia|exact HL].
  - assert (FE : fexp32 D = emin%Z) by (rewrite fexp_max; lia). rewrite FE in *. assert (ez = emin%Z) by lia. subst ez.
    assert (r = Zpos mz). { apply R2. rewrite H. replace (emin - emin)%Z with 0%Z by lia. cbn. lra. }
    rewrite H, H0, Rminus_diag_eq by reflexivity. rewrite Rabs_R0. apply Rmult_le_pos; [lra|]. rewrite <- H. exact X0.
Qed.
Lemma round_int s mx ex z : IZR (Zpos mx) * b2 ex = IZR z -> (z <= 2 ^ prec)%Z ->
  let y := binary_round prec emax s mx ex in f_multiple y /\ f_finite y /\ f_val y = (if s then -1 else 1) * IZR z.
Proof.
  intros H1 H2. cbn zeta. destruct (round_norm s mx ex) as (mz & ez & -> & _ & _ & HV). apply aux_int; [lia|rewrite HV; exact H1|exact H2].
Qed.

Lemma normalize_error m e sz : (emin <= e)%Z ->
  let y := binary_normalize prec emax m e sz in
  f_multiple y /\ (f_finite y -> Rabs (f_val y - IZR m * b2 e) <= u32 * Rabs (IZR m * b2 e)).
Proof.
  intros He. cbn zeta. destruct m as [|p|p]; cbn [binary_normalize].
  - split; [exact I|]. intros _. cbn [f_val]. rewrite Rmult_0_l, Rminus_0_r, Rabs_R0. lra.
  - destruct (round_error false p e He) as [A B]. cbn zeta in *. split; [exact A|]. intros F. specialize (B F). rewrite Rmult_1_l in B.
    rewrite (Rabs_pos_eq (IZR (Zpos p) * b2 e)); [exact B|]. apply Rmult_le_pos; [apply IZR_le; lia|apply Rlt_le, b2_pos].
  - destruct (round_error true p e He) as [A B]. cbn zeta in *. split; [exact A|]. intros F. specialize (B F).
    change (Zneg p) with (- Zpos p)%Z. rewrite opp_IZR. replace (- IZR (Zpos p) * b2 e) with (-1 * (IZR (Zpos p) * b2 e)) by ring.
    assert (P : 0 < IZR (Zpos p) * b2 e) by (apply Rmult_lt_0_compat; [apply IZR_lt; lia|apply b2_pos]).
    rewrite (Rabs_left (-1 * (IZR (Zpos p) * b2 e))) by lra. lra.
Qed.
Lemma normalize_int m e sz z : IZR m * b2 e = IZR z -> (Z.abs z <= 2 ^ prec)%Z ->
  let y := binary_normalize prec emax m e sz in f_multiple y /\ f_finite y /\ f_val y = IZR z.
Proof.
  intros H1 H2. cbn zeta. destruct m as [|p|p]; cbn [binary_normalize].
  - split; [exact I|]. split; [exact I|]. cbn [f_val]. rewrite <- H1. ring.
  - destruct (round_int false p e z H1 ltac:(lia)) as (A & B & C). cbn zeta in *. split; [exact A|]. split; [exact B|]. rewrite C. ring.
  - change (Zneg p) with (- Zpos p)%Z in H1. rewrite opp_IZR in H1.
    destruct (round_int true p e (- z)) as (A & B & C); [rewrite opp_IZR, <- H1; ring|lia|]. cbn zeta in *. split; [exact A|]. split; [exact B|]. rewrite C, opp_IZR. ring.
Qed.

(** ** the operations *)
Lemma cond_opp_IZR s z : IZR (cond_Zopp s z) = (if s then -1 else 1) * IZR z.
Proof. destruct s; cbn [cond_Zopp]; [rewrite opp_IZR|]; lra. Qed.

Lemma add_spec x y : f_multiple x -> f_multiple y ->
  let z := SFadd prec emax x y in
  f_multiple z /\ (f_finite z -> f_finite x /\ f_finite y /\ Rabs (f_val z - (f_val x + f_val y)) <= u32 * Rabs (f_val x + f_val y)) /\
  (forall a b, f_finite x -> f_finite y -> f_val x = IZR a -> f_val y = IZR b -> (Z.abs (a + b) <= 2 ^ prec)%Z -> f_finite z /\ f_val z = IZR (a + b)).
Proof.
  intros Mx My. cbn zeta. assert (U0 : 0 < u32) by apply b2_pos.
  assert (S0 : forall a, Rabs (a - a) <= u32 * Rabs a). { intros a. rewrite Rminus_diag_eq by reflexivity. rewrite Rabs_R0. apply Rmult_le_pos; [lra|apply Rabs_pos]. }
  destruct x as [sx|sx| |sx mx ex], y as [sy|sy| |sy my ey]; cbn [SFadd f_finite f_multiple] in *.
  all: try match goal with |- context [Bool.eqb ?a ?b] => destruct (Bool.eqb a b) end; cbn [f_finite f_multiple f_val]; try rewrite !Rplus_0_l; try rewrite !Rplus_0_r.
  all: try (split; [exact I || assumption|split; intros; contradiction]; fail).
  all: try (split; [exact I || assumption|split; [intros _; split; [exact I|split; [exact I|apply S0]]|intros a b _ _ H1 H2 _; split; [exact I|rewrite plus_IZR, <- H1, <- H2; lra]]]; fail).
  pose proof (shl_align_spec mx ex (Z.min ex ey)) as A1. pose proof (shl_align_spec my ey (Z.min ex ey)) as A2.
  destruct (shl_align mx ex (Z.min ex ey)) as [mx' ex']. destruct (shl_align my ey (Z.min ex ey)) as [my' ey']. cbn [fst].
  destruct A1 as [_ A1]. destruct A2 as [_ A2]. replace (Z.min ex (Z.min ex ey)) with (Z.min ex ey) in A1 by lia. replace (Z.min ey (Z.min ex ey)) with (Z.min ex ey) in A2 by lia.
  set (ez := Z.min ex ey) in *.
  assert (V : IZR (cond_Zopp sx (Zpos mx') + cond_Zopp sy (Zpos my')) * b2 ez = (if sx then -1 else 1) * IZR (Zpos mx) * b2 ex + (if sy then -1 else 1) * IZR (Zpos my) * b2 ey).
  { rewrite plus_IZR, !cond_opp_IZR, A1, A2, !mult_IZR, <- !b2_int by lia. rewrite Rmult_plus_distr_r, !Rmult_assoc, <- !b2_add.
    replace (ex - ez + ez)%Z with ex by lia. replace (ey - ez + ez)%Z with ey by lia. ring. }
  destruct (normalize_error (cond_Zopp sx (Zpos mx') + cond_Zopp sy (Zpos my')) ez false ltac:(lia)) as [B1 B2]. cbn zeta in *. rewrite V in B2.
  split; [exact B1|]. split.
  - intros F. split; [exact I|]. split; [exact I|]. exact (B2 F).
  - intros a b _ _ H1 H2 H3. rewrite H1, H2, <- plus_IZR in V. destruct (normalize_int _ _ false _ V H3) as (_ & C1 & C2). auto.
Qed.

Lemma opp_val x : f_val (SFopp x) = - f_val x.
Proof. destruct x as [s|s| |s m e]; cbn [SFopp f_val]; try lra. destruct s; cbn [negb]; lra. Qed.
Lemma opp_finite x : f_finite (SFopp x) <-> f_finite x.
Proof. destruct x; cbn; tauto. Qed.
Lemma opp_multiple x : f_multiple (SFopp x) <-> f_multiple x.
Proof. destruct x; cbn; tauto. Qed.
Lemma abs_val x : f_val (SFabs x) = Rabs (f_val x).
Proof.
  destruct x as [s|s| |s m e]; cbn [SFabs f_val]; try (rewrite Rabs_R0; reflexivity). rewrite !Rabs_mult, (Rabs_pos_eq (b2 e)) by apply Rlt_le, b2_pos.
  rewrite (Rabs_pos_eq (IZR (Zpos m))) by (apply IZR_le; lia). replace (Rabs (if s then -1 else 1)) with 1; [reflexivity|]. destruct s; [rewrite Rabs_left by lra|rewrite Rabs_pos_eq by lra]; lra.
Qed.
Lemma abs_finite x : f_finite (SFabs x) <-> f_finite x.
Proof. destruct x; cbn; tauto. Qed.
Lemma abs_multiple x : f_multiple (SFabs x) <-> f_multiple x.
Proof. destruct x; cbn; tauto. Qed.

Lemma sub_add x y : SFsub prec emax x y = SFadd prec emax x (SFopp y).
Proof.
  destruct x as [sx|sx| |sx mx ex], y as [sy|sy| |sy my ey]; cbn [SFsub SFadd SFopp]; try reflexivity.
  f_equal. unfold Z.sub. f_equal. destruct sy; reflexivity.
Qed.
Lemma sub_spec x y : f_multiple x -> f_multiple y ->
  let z := SFsub prec emax x y in
  f_multiple z /\ (f_finite z -> f_finite x /\ f_finite y /\ Rabs (f_val z - (f_val x - f_val y)) <= u32 * Rabs (f_val x - f_val y)) /\
  (forall a b, f_finite x -> f_finite y -> f_val x = IZR a -> f_val y = IZR b -> (Z.abs (a - b) <= 2 ^ prec)%Z -> f_finite z /\ f_val z = IZR (a - b)).
Proof.
  intros Mx My. cbn zeta. rewrite sub_add. destruct (add_spec x (SFopp y) Mx (proj2 (opp_multiple y) My)) as (A & B & C). cbn zeta in *.
  rewrite opp_val, opp_finite in *. split; [exact A|]. split; [exact B|]. intros a b Fx Fy Va Vb H. apply (C a (- b)%Z); [exact Fx|apply opp_finite; exact Fy|exact Va| |exact H]. rewrite opp_IZR, <- Vb. reflexivity || apply opp_val.
Qed.

Lemma mul_spec x y :
  let z := SFmul prec emax x y in
  f_multiple z /\ (f_finite z -> f_finite x /\ f_finite y /\ Rabs (f_val z - f_val x * f_val y) <= u32 * Rabs (f_val x * f_val y) + eta32) /\
  (forall a b, f_finite x -> f_finite y -> f_val x = IZR a -> f_val y = IZR b -> (Z.abs (a * b) <= 2 ^ prec)%Z -> f_finite z /\ f_val z = IZR (a * b)).
Proof.
  cbn zeta. assert (U0 : 0 < u32) by apply b2_pos. assert (E0 : 0 < eta32) by apply b2_pos.
  destruct x as [sx|sx| |sx mx ex], y as [sy|sy| |sy my ey]; cbn [SFmul f_finite f_multiple] in *.
  all: cbn [f_finite f_multiple f_val]; try rewrite !Rmult_0_l; try rewrite !Rmult_0_r.
  all: try (split; [exact I|split; intros; contradiction]; fail).
  all: try (split; [exact I|split; [intros _; split; [exact I|split; [exact I|rewrite Rminus_0_r, Rabs_R0; lra]]|intros a b _ _ H1 H2 _; split; [exact I|rewrite mult_IZR, <- H1, <- H2; lra]]]; fail).
  assert (W : (if sx then -1 else 1) * IZR (Zpos mx) * b2 ex * ((if sy then -1 else 1) * IZR (Zpos my) * b2 ey) = (if xorb sx sy then -1 else 1) * (IZR (Zpos (mx * my)) * b2 (ex + ey))).
  { rewrite Pos2Z.inj_mul, mult_IZR, b2_add. destruct sx, sy; cbn [xorb]; ring. }
  assert (P : 0 < IZR (Zpos (mx * my)) * b2 (ex + ey)) by (apply Rmult_lt_0_compat; [apply IZR_lt; lia|apply b2_pos]).
  destruct (aux_error (xorb sx sy) (Zpos (mx * my)) (ex + ey) loc_Exact (IZR (Zpos (mx * my))) ltac:(lia) eq_refl (or_introl eq_refl)) as [A B]. cbn zeta in *.
  split; [exact A|]. rewrite W. split.
  - intros F. split; [exact I|]. split; [exact I|]. replace (Rabs ((if xorb sx sy then -1 else 1) * (IZR (Zpos (mx * my)) * b2 (ex + ey)))) with (IZR (Zpos (mx * my)) * b2 (ex + ey)); [exact (B F)|].
    destruct (xorb sx sy); [rewrite Rabs_left; lra|rewrite Rabs_pos_eq; lra].
  - intros a b _ _ H1 H2 H3. rewrite H1, H2, <- mult_IZR in W. destruct (xorb sx sy) eqn:E.
    + destruct (aux_int true (Zpos (mx * my)) (ex + ey) (- (a * b))) as (_ & C1 & C2); [lia|rewrite opp_IZR; lra|lia|]. cbn zeta in *. split; [exact C1|]. rewrite C2, opp_IZR. lra.
    + destruct (aux_int false (Zpos (mx * my)) (ex + ey) (a * b)) as (_ & C1 & C2); [lia|lra|lia|]. cbn zeta in *. split; [exact C1|]. rewrite C2. lra.
Qed.

(** ** division *)
Lemma new_location_spec m2 m : (0 < m2)%Z ->
  locates (shr_record_of_loc (m / m2) (new_location m2 (m mod m2))) (IZR m / IZR m2).
Proof.
  intros H. pose proof (Z.mod_pos_bound m m2 H) as B. pose proof (Z.div_mod m m2 ltac:(lia)) as E. set (q := (m / m2)%Z) in *. set (k := (m mod m2)%Z) in *.
  assert (H' : 0 < IZR m2) by (apply IZR_lt; exact H).
  assert (V : IZR m / IZR m2 = IZR q + IZR k / IZR m2). { rewrite E, plus_IZR, mult_IZR. field. lra. }
  rewrite V. unfold new_location, new_location_even, new_location_odd.
  assert (Lt0 : (0 < k)%Z -> 0 < IZR k / IZR m2). { intros Hk. apply Rdiv_lt_0_compat; [apply IZR_lt; exact Hk|exact H']. }
  assert (L1 : IZR k / IZR m2 < 1). { apply Rmult_lt_reg_r with (IZR m2); [exact H'|]. unfold Rdiv. rewrite Rmult_assoc, Rinv_l, Rmult_1_r, Rmult_1_l by lra. apply IZR_lt. lia. }
  assert (LH : (2 * k < m2)%Z -> IZR k / IZR m2 < / 2).
  { intros Hk. apply IZR_lt in Hk. rewrite mult_IZR in Hk. apply Rmult_lt_reg_r with (IZR m2); [exact H'|]. unfold Rdiv. rewrite Rmult_assoc, Rinv_l, Rmult_1_r by lra. lra. }
  assert (GH : (m2 < 2 * k)%Z -> / 2 < IZR k / IZR m2).
  { intros Hk. apply IZR_lt in Hk. rewrite mult_IZR in Hk. apply Rmult_lt_reg_r with (IZR m2); [exact H'|]. unfold Rdiv. rewrite (Rmult_assoc (IZR k)), Rinv_l, Rmult_1_r by lra. lra. }
  assert (EH : (2 * k = m2)%Z -> IZR k / IZR m2 = / 2).
  { intros Hk. apply (f_equal IZR) in Hk. rewrite mult_IZR in Hk. rewrite <- Hk. field. lra. }
  destruct (Z.even m2) eqn:Ev; destruct (Zeq_bool k 0) eqn:K; [apply Zeq_bool_eq in K|apply Zeq_bool_neq in K|apply Zeq_bool_eq in K|apply Zeq_bool_neq in K].
  - rewrite K. unfold locates. cbn. unfold Rdiv. rewrite Rmult_0_l. lra.
  - specialize (Lt0 ltac:(lia)). destruct (Z.compare_spec (2 * k) m2) as [C|C|C]; unfold locates; cbn; [rewrite EH by exact C|specialize (LH C)|specialize (GH C)]; lra.
  - rewrite K. unfold locates. cbn. unfold Rdiv. rewrite Rmult_0_l. lra.
  - specialize (Lt0 ltac:(lia)). assert (Od : Z.odd m2 = true) by (rewrite <- Z.negb_even, Ev; reflexivity). apply Z.odd_spec in Od. destruct Od as [h Od].
    destruct (Z.compare_spec (2 * k + 1) m2) as [C|C|C]; unfold locates; cbn; [specialize (LH ltac:(lia))|specialize (LH ltac:(lia))|specialize (GH ltac:(lia))]; lra.
Qed.

Lemma div_core m1 e1 m2 e2 : (0 < m1)%Z -> (0 < m2)%Z ->
  let '(q, e', l) := SFdiv_core_binary prec emax m1 e1 m2 e2 in
  exists x, (0 <= q)%Z /\ locates (shr_record_of_loc q l) x /\ (e' <= fexp32 (Zdigits2 q + e'))%Z /\
    x * b2 e' = (IZR m1 * b2 e1) / (IZR m2 * b2 e2).
Proof.
  intros H1 H2. unfold SFdiv_core_binary. set (D := (Zdigits2 m1 + e1 - (Zdigits2 m2 + e2))%Z). set (e' := Z.min (fexp32 D) (e1 - e2)).
  set (s := (e1 - e2 - e')%Z). assert (Hs : (0 <= s)%Z) by lia.
  assert (Em : match s with Z0 => m1 | Zpos _ => Z.shiftl m1 s | Zneg _ => 0%Z end = (m1 * 2 ^ s)%Z).
  { destruct s eqn:E; [change (2 ^ 0)%Z with 1%Z; lia|rewrite Z.shiftl_mul_pow2 by lia; reflexivity|lia]. }
  rewrite Em.
  assert (DE : Z.div_eucl (m1 * 2 ^ s) m2 = (m1 * 2 ^ s / m2, (m1 * 2 ^ s) mod m2)%Z).
  { unfold Z.div, Z.modulo. destruct (Z.div_eucl (m1 * 2 ^ s) m2). reflexivity. }
  rewrite DE. pose proof (Z.pow_pos_nonneg 2 s ltac:(lia) Hs) as Ps.
  exists (IZR (m1 * 2 ^ s) / IZR m2). assert (P1 : (0 < m1 * 2 ^ s)%Z) by (apply Z.mul_pos_pos; lia). split; [apply Z.div_pos; lia|]. split; [apply new_location_spec, H2|]. split.
  - pose proof (digits_low m1 H1) as L1. pose proof (digits_lt m2 ltac:(lia)) as U2. pose proof (digits_nonneg m2). assert (0 < Zdigits2 m1)%Z by (destruct m1; cbn; lia).
    destruct (Z_le_dec (Zdigits2 m1 + s - Zdigits2 m2) 0) as [K|K].
    + assert (e' <= emin)%Z. { assert (D <= e')%Z by lia. assert (e' <= fexp32 D)%Z by lia. rewrite fexp_max in *. lia. } rewrite fexp_max. lia.
    + assert (G : (Zdigits2 m1 + s - Zdigits2 m2 <= Zdigits2 (m1 * 2 ^ s / m2))%Z).
      { apply digits_ge; [lia|]. apply Z.div_le_lower_bound; [lia|]. set (k := (Zdigits2 m1 + s - Zdigits2 m2 - 1)%Z).
        assert (0 < 2 ^ k)%Z by (apply Z.pow_pos_nonneg; lia).
        apply Z.le_trans with (2 ^ (Zdigits2 m2) * 2 ^ k)%Z; [apply Z.mul_le_mono_nonneg_r; lia|]. rewrite <- Z.pow_add_r by lia.
        replace (Zdigits2 m2 + k)%Z with (Zdigits2 m1 - 1 + s)%Z by lia. rewrite Z.pow_add_r by lia. apply Z.mul_le_mono_nonneg_r; lia. }
      apply Z.le_trans with (fexp32 D); [lia|]. apply fexp_mono. lia.
  - assert (0 < IZR m2) by (apply IZR_lt; exact H2). pose proof (b2_pos e2). rewrite mult_IZR, <- b2_int by lia.
    replace (b2 e1) with (b2 s * (b2 e2 * b2 e')). { field. lra. } rewrite <- !b2_add. f_equal. lia.
Qed.

Lemma div_spec x y : f_finite x -> f_finite y ->
  let z := SFdiv prec emax x y in
  f_multiple z /\ (f_finite z -> f_val y <> 0 /\ Rabs (f_val z - f_val x / f_val y) <= u32 * Rabs (f_val x / f_val y) + eta32).
Proof.
  intros Fx Fy. cbn zeta. assert (U0 : 0 < u32) by apply b2_pos. assert (E0 : 0 < eta32) by apply b2_pos.
  destruct x as [sx|sx| |sx mx ex], y as [sy|sy| |sy my ey]; cbn [SFdiv f_finite f_multiple f_val] in *; try contradiction; try (split; [exact I|intros []]; fail).
  - split; [exact I|]. intros _. split.
    + apply Rmult_integral_contrapositive_currified; [|apply Rgt_not_eq, b2_pos]. apply Rmult_integral_contrapositive_currified; [destruct sy; lra|apply IZR_neq; lia].
    + unfold Rdiv. rewrite Rmult_0_l, Rminus_0_r, Rabs_R0. lra.
  - pose proof (div_core (Zpos mx) ex (Zpos my) ey ltac:(lia) ltac:(lia)) as C. destruct (SFdiv_core_binary prec emax (Zpos mx) ex (Zpos my) ey) as [[q e'] l].
    destruct C as (t & C1 & C2 & C3 & C4). destruct (aux_error (xorb sx sy) q e' l t C1 C2 (or_intror C3)) as [A B]. cbn zeta in *. rewrite C4 in B.
    assert (Px : 0 < IZR (Zpos mx) * b2 ex) by (apply Rmult_lt_0_compat; [apply IZR_lt; lia|apply b2_pos]).
    assert (Py : 0 < IZR (Zpos my) * b2 ey) by (apply Rmult_lt_0_compat; [apply IZR_lt; lia|apply b2_pos]).
    rewrite !Rmult_assoc. set (X := IZR (Zpos mx) * b2 ex) in *. set (Y := IZR (Zpos my) * b2 ey) in *. clearbody X Y.
    assert (Q : 0 < X / Y) by (apply Rdiv_lt_0_compat; assumption).
    split; [exact A|]. intros F. specialize (B F). split; [destruct sy; lra|].
    replace ((if sx then -1 else 1) * X / ((if sy then -1 else 1) * Y)) with ((if xorb sx sy then -1 else 1) * (X / Y)) by (destruct sx, sy; cbn [xorb]; field; lra).
    replace (Rabs ((if xorb sx sy then -1 else 1) * (X / Y))) with (X / Y); [exact B|]. destruct (xorb sx sy); [rewrite Rabs_left; lra|rewrite Rabs_pos_eq; lra].
Qed.

(** ** square root *)
Lemma sqrt_core m e : (0 < m)%Z ->
  let '(q, e', l) := SFsqrt_core_binary prec emax m e in
  exists x, (0 <= q)%Z /\ locates (shr_record_of_loc q l) x /\ (e' <= fexp32 (Zdigits2 q + e'))%Z /\ x * b2 e' = sqrt (IZR m * b2 e).
Proof.
  intros H. unfold SFsqrt_core_binary. set (e' := Z.min (fexp32 (Z.div2 (Zdigits2 m + e + 1))) (Z.div2 e)). set (s := (e - 2 * e')%Z).
  assert (Hs : (0 <= s)%Z). { pose proof (Z.div2_odd e). destruct (Z.odd e); cbn [Z.b2z] in *; lia. }
  assert (Em : match s with Z0 => m | Zpos _ => Z.shiftl m s | Zneg _ => 0%Z end = (m * 2 ^ s)%Z).
  { destruct s eqn:E; [change (2 ^ 0)%Z with 1%Z; lia|rewrite Z.shiftl_mul_pow2 by lia; reflexivity|lia]. }
  rewrite Em. pose proof (Z.pow_pos_nonneg 2 s ltac:(lia) Hs) as Ps. assert (P1 : (0 < m * 2 ^ s)%Z) by (apply Z.mul_pos_pos; lia).
  pose proof (Z.sqrtrem_spec (m * 2 ^ s) ltac:(lia)) as S. pose proof (Z.sqrt_nonneg (m * 2 ^ s)) as Q0. rewrite <- Z.sqrtrem_sqrt in Q0.
  destruct (Z.sqrtrem (m * 2 ^ s)) as [q r]. cbn [fst] in Q0. destruct S as [S1 S2].
  exists (sqrt (IZR (m * 2 ^ s))). split; [exact Q0|]. split; [|split].
  - assert (Q0' : 0 <= IZR q) by (apply IZR_le; exact Q0). destruct (Zeq_bool r 0) eqn:R; [apply Zeq_bool_eq in R|apply Zeq_bool_neq in R].
    + rewrite S1, R, Z.add_0_r, mult_IZR. unfold locates. cbn. apply sqrt_square. exact Q0'.
    + assert (R1 : 1 <= IZR r) by (apply (IZR_le 1); lia). assert (R2 : IZR r <= 2 * IZR q) by (rewrite <- mult_IZR; apply IZR_le; lia).
      rewrite S1, plus_IZR, mult_IZR. set (Q := IZR q) in *. set (Rr := IZR r) in *.
      assert (L : Q < sqrt (Q * Q + Rr)). { rewrite <- (sqrt_square Q Q0') at 1. apply sqrt_lt_1; nra. }
      destruct (Zle_bool r q) eqn:C.
      * apply Zle_bool_imp_le, IZR_le in C. fold Q Rr in C. unfold locates. cbn. fold Q. split; [exact L|]. rewrite <- (sqrt_square (Q + / 2)) by lra. apply sqrt_lt_1; nra.
      * assert (C' : (q + 1 <= r)%Z) by (pose proof (Zle_cases r q) as Z0; rewrite C in Z0; lia). apply IZR_le in C'. rewrite plus_IZR in C'. fold Q Rr in C'. unfold locates. cbn. fold Q. split.
        -- rewrite <- (sqrt_square (Q + / 2)) by lra. apply sqrt_lt_1; nra.
        -- rewrite <- (sqrt_square (Q + 1)) by lra. apply sqrt_lt_1; nra.
  - apply Z.le_trans with (fexp32 (Z.div2 (Zdigits2 m + e + 1))); [lia|]. apply fexp_mono.
    assert (D0 : (0 < Zdigits2 m)%Z) by (destruct m; cbn; lia). rewrite Z.div2_div.
    replace (Zdigits2 m + e + 1)%Z with (Zdigits2 m + s + 1 + e' * 2)%Z by lia. rewrite Z.div_add by lia. apply Z.add_le_mono_r.
    set (k := ((Zdigits2 m + s + 1) / 2)%Z). assert (K1 : (2 * k <= Zdigits2 m + s + 1)%Z) by (apply Z.mul_div_le; lia).
    assert (K0 : (0 < k)%Z) by (apply Z.div_str_pos; lia).
    apply digits_ge; [exact K0|].
    assert (G : (2 ^ (k - 1) * 2 ^ (k - 1) <= m * 2 ^ s)%Z).
    { rewrite <- Z.pow_add_r by lia. apply Z.le_trans with (2 ^ (Zdigits2 m - 1 + s))%Z; [apply Z.pow_le_mono_r; lia|]. rewrite Z.pow_add_r by lia.
      apply Z.mul_le_mono_nonneg_r; [lia|apply digits_low, H]. }
    pose proof (Z.pow_pos_nonneg 2 (k - 1) ltac:(lia) ltac:(lia)). destruct (Z_le_dec (2 ^ (k - 1)) q) as [|N]; [assumption|]. exfalso. assert (q + 1 <= 2 ^ (k - 1))%Z by lia. nia.
  - rewrite mult_IZR, <- b2_int by lia. rewrite <- (sqrt_square (b2 e')) at 1 by apply Rlt_le, b2_pos. rewrite <- sqrt_mult.
    + f_equal. rewrite Rmult_assoc, <- !b2_add. do 2 f_equal. lia.
    + apply Rmult_le_pos; [apply IZR_le; lia|apply Rlt_le, b2_pos].
    + apply Rlt_le, Rmult_lt_0_compat; apply b2_pos.
Qed.

Lemma sqrt_spec x : f_finite x ->
  let z := SFsqrt prec emax x in
  f_multiple z /\ (f_finite z -> 0 <= f_val x /\ Rabs (f_val z - sqrt (f_val x)) <= u32 * sqrt (f_val x) + eta32).
Proof.
  intros Fx. cbn zeta. assert (U0 : 0 < u32) by apply b2_pos. assert (E0 : 0 < eta32) by apply b2_pos.
  destruct x as [sx|sx| |sx mx ex]; cbn [SFsqrt f_finite f_val] in *; try contradiction.
  - split; [exact I|]. intros _. rewrite sqrt_0, Rminus_0_r, Rabs_R0. lra.
  - destruct sx; [split; [exact I|intros []]|]. pose proof (sqrt_core (Zpos mx) ex ltac:(lia)) as C. destruct (SFsqrt_core_binary prec emax (Zpos mx) ex) as [[q e'] l].
    destruct C as (t & C1 & C2 & C3 & C4). destruct (aux_error false q e' l t C1 C2 (or_intror C3)) as [A B]. cbn zeta in *. rewrite C4, Rmult_1_l in B. rewrite Rmult_1_l.
    split; [exact A|]. intros F. split; [apply Rmult_le_pos; [apply IZR_le; lia|apply Rlt_le, b2_pos]|exact (B F)].
Qed.

(** a quotient that is a number of the format, at most 1, is not rounded *)
Lemma aux_repr s mx ex lx x k j : (0 <= mx)%Z -> locates (shr_record_of_loc mx lx) x ->
  lx = loc_Exact \/ (ex <= fexp32 (Zdigits2 mx + ex))%Z ->
  x * b2 ex = IZR k * b2 j -> (0 < k < 2 ^ prec)%Z -> (emin <= j)%Z -> x * b2 ex <= 1 ->
  let y := binary_round_aux prec emax s mx ex lx in
  f_finite y /\ f_val y = (if s then -1 else 1) * (x * b2 ex).
Proof.
  intros Hm HL HX HV Hk Hj H1. destruct (aux_spec s mx ex lx x Hm HL) as (r & R0 & R1 & R2 & R3 & R4 & R5). cbn zeta in *.
  set (e' := Z.max ex (fexp32 (Zdigits2 mx + ex))) in *. pose proof (digits_nonneg mx) as D0.
  assert (DL : (0 < mx)%Z -> b2 (Zdigits2 mx - 1 + ex) <= x * b2 ex).
  { intros Hm'. rewrite b2_add. apply Rmult_le_compat_r; [apply Rlt_le, b2_pos|]. apply (x_low mx lx x Hm' HL). }
  assert (E0 : (e' <= 0)%Z).
  { unfold e'. rewrite fexp_max in *. destruct (Z.eq_dec mx 0) as [E|N].
    - subst mx. cbn [Zdigits2] in *. destruct HX as [->|HX]; [|lia]. unfold locates in HL. cbn in HL. exfalso.
      rewrite HL, Rmult_0_l in HV. assert (0 < IZR k * b2 j) by (apply Rmult_lt_0_compat; [apply IZR_lt; lia|apply b2_pos]). lra.
    - assert (Dp : (Zdigits2 mx - 1 + ex <= 0)%Z). { apply b2_lt_inv. apply Rle_trans with (x * b2 ex); [apply DL; lia|exact H1]. }
      assert (0 < Zdigits2 mx)%Z by (destruct mx; cbn; lia). lia. }
  assert (Fy : f_finite (binary_round_aux prec emax s mx ex lx)) by (apply R5; lia).
  split; [exact Fy|]. rewrite (R4 Fy). f_equal.
  assert (XE : x * b2 (ex - e') * b2 e' = x * b2 ex). { rewrite Rmult_assoc, <- b2_add. do 2 f_equal. lia. }
  rewrite <- XE. f_equal.
  assert (Q : exists q, x * b2 (ex - e') = IZR q).
  { destruct (Z_le_dec e' j) as [K|K].
    - exists (k * 2 ^ (j - e'))%Z. rewrite mult_IZR, <- b2_int by lia. apply Rmult_eq_reg_r with (b2 e'); [|apply Rgt_not_eq, b2_pos].
      rewrite XE, HV, Rmult_assoc, <- b2_add. do 2 f_equal. lia.
    - destruct (Z_le_dec ex (fexp32 (Zdigits2 mx + ex))) as [C|C].
      + exfalso. assert (E1 : e' = fexp32 (Zdigits2 mx + ex)) by lia. rewrite fexp_max in E1, C. destruct (Z.eq_dec mx 0) as [E|N]; [subst mx; cbn [Zdigits2] in *; lia|].
        specialize (DL ltac:(lia)). rewrite HV in DL. assert (IZR k * b2 j < b2 prec * b2 j). { apply Rmult_lt_compat_r; [apply b2_pos|]. rewrite b2_int by lia. apply IZR_lt. lia. }
        rewrite <- b2_add in H. assert (Zdigits2 mx - 1 + ex < prec + j)%Z; [|lia]. assert (L : b2 (Zdigits2 mx - 1 + ex) < b2 (prec + j)) by lra.
        destruct (Z_lt_le_dec (Zdigits2 mx - 1 + ex) (prec + j)) as [|G]; [assumption|]. apply b2_le in G. lra.
      + destruct HX as [->|HX]; [|lia]. exists mx. unfold locates in HL. cbn in HL. assert (e' = ex) by lia. rewrite H, HL. replace (ex - ex)%Z with 0%Z by lia. cbn. lra. }
  destruct Q as [q Hq]. rewrite (R2 q Hq). symmetry. exact Hq.
Qed.
Lemma div_repr x y k j : f_finite x -> f_finite y -> 0 < f_val x -> 0 < f_val y -> f_val x / f_val y = IZR k * b2 j ->
  (0 < k < 2 ^ prec)%Z -> (emin <= j)%Z -> f_val x / f_val y <= 1 ->
  f_finite (SFdiv prec emax x y) /\ f_val (SFdiv prec emax x y) = f_val x / f_val y.
Proof.
  intros Fx Fy Px Py HV Hk Hj H1. destruct x as [sx|sx| |sx mx ex], y as [sy|sy| |sy my ey]; cbn [f_finite f_val] in *; try contradiction; try lra.
  assert (Ax : 0 < IZR (Zpos mx) * b2 ex) by (apply Rmult_lt_0_compat; [apply IZR_lt; lia|apply b2_pos]).
  assert (Ay : 0 < IZR (Zpos my) * b2 ey) by (apply Rmult_lt_0_compat; [apply IZR_lt; lia|apply b2_pos]).
  destruct sx; [lra|]. destruct sy; [lra|]. rewrite !Rmult_1_l in *. cbn [SFdiv xorb].
  pose proof (div_core (Zpos mx) ex (Zpos my) ey ltac:(lia) ltac:(lia)) as C. destruct (SFdiv_core_binary prec emax (Zpos mx) ex (Zpos my) ey) as [[q e'] l].
  destruct C as (t & C1 & C2 & C3 & C4). rewrite <- C4 in *. destruct (aux_repr false q e' l t k j C1 C2 (or_intror C3) HV Hk Hj H1) as [A B]. cbn zeta in *.
  rewrite Rmult_1_l in B. split; [exact A|exact B].
Qed.

End Format.
