(** Exact recovery of pairwise interaction tensors: the iterates, what a small loss says
    about them, fixed points and convergence (C82, C83, C85). *)

From Coq Require Import ZArith List Bool Arith Lia Reals Lra Psatz.
From Verif Require Import Num Py Tensor TF TensorFacts TFFacts Sums Spec SpecR SpecFacts RSums MatR KronAlg SvdFacts
  PitfOps SpecPitf PitfFacts SpecRecover NucFacts ShrinkFacts ReaderFacts.
Import ListNotations.
Local Open Scope R_scope.

(** ** the interaction map is an isometry on the matrices with equal / zero column sums *)
Section Iso.
  Variables (s0 s1 s2 : nat).
  Hypotheses (H0 : (0 < s0)%nat) (H1 : (0 < s1)%nat) (H2 : (0 < s2)%nat).

  Definition sum3 (f : nat -> nat -> nat -> R) : R := sumn s0 (fun i => sumn s1 (fun j => sumn s2 (fun k => f i j k))).

  Lemma sum3_add f g : sum3 (fun i j k => f i j k + g i j k) = sum3 f + sum3 g.
  Proof.
    unfold sum3. rewrite <- sumnR_add. apply sumnR_ext. intros i Hi. rewrite <- sumnR_add. apply sumnR_ext. intros j Hj. apply sumnR_add.
  Qed.
  Lemma sum3_scale c f : sum3 (fun i j k => c * f i j k) = c * sum3 f.
  Proof.
    unfold sum3. rewrite <- sumnR_scale. apply sumnR_ext. intros i Hi. rewrite <- sumnR_scale. apply sumnR_ext. intros j Hj. apply sumnR_scale.
  Qed.
  Lemma sum3_ext f g : (forall i j k, (i < s0)%nat -> (j < s1)%nat -> (k < s2)%nat -> f i j k = g i j k) -> sum3 f = sum3 g.
  Proof. intros H. unfold sum3. apply sumnR_ext. intros i Hi. apply sumnR_ext. intros j Hj. apply sumnR_ext. intros k Hk. auto. Qed.

  Definition intf (A B C : mf) (i j k : nat) : R := A i j / sqrt (INR s2) + B j k / sqrt (INR s0) + C k i / sqrt (INR s1).

  Lemma sq_pos n : (0 < n)%nat -> 0 < sqrt (INR n) /\ sqrt (INR n) * sqrt (INR n) = INR n.
  Proof. intros H. apply lt_0_INR in H. split; [apply sqrt_lt_R0; auto|apply sqrt_sqrt; lra]. Qed.

  Lemma iso A B C m : (forall j, (j < s1)%nat -> sumn s0 (fun i => A i j) = m) ->
    (forall k, (k < s2)%nat -> sumn s1 (fun j => B j k) = 0) -> (forall i, (i < s0)%nat -> sumn s2 (fun k => C k i) = 0) ->
    sum3 (fun i j k => (intf A B C i j k)²) = fro s0 s1 A + fro s1 s2 B + fro s2 s0 C.
  Proof.
    intros hA hB hC. destruct (sq_pos s0 H0) as [p0 q0]. destruct (sq_pos s1 H1) as [p1 q1]. destruct (sq_pos s2 H2) as [p2 q2].
    set (r0 := sqrt (INR s0)) in *. set (r1 := sqrt (INR s1)) in *. set (r2 := sqrt (INR s2)) in *.
    rewrite (sum3_ext _ (fun i j k => ((/ INR s2 * (A i j * A i j) + / INR s0 * (B j k * B j k)) + / INR s1 * (C k i * C k i)) +
      ((2 / (r0 * r2) * (A i j * B j k) + 2 / (r0 * r1) * (B j k * C k i)) + 2 / (r1 * r2) * (A i j * C k i)))).
    2:{ intros i j k _ _ _. unfold intf, Rsqr. fold r0 r1 r2. rewrite <- q0, <- q1, <- q2. field. lra. }
    rewrite !sum3_add, !sum3_scale.
    assert (EA : sum3 (fun i j k => A i j * A i j) = INR s2 * fro s0 s1 A).
    { unfold sum3, fro, dot2. rewrite <- sumnR_scale. apply sumnR_ext. intros i Hi. rewrite <- sumnR_scale. apply sumnR_ext. intros j Hj. apply sumnR_const. }
    assert (EB : sum3 (fun i j k => B j k * B j k) = INR s0 * fro s1 s2 B).
    { unfold sum3, fro, dot2. rewrite sumnR_const. reflexivity. }
    assert (EC : sum3 (fun i j k => C k i * C k i) = INR s1 * fro s2 s0 C).
    { unfold sum3, fro, dot2. rewrite (sumnR_ex s2 s0), <- sumnR_scale. apply sumnR_ext. intros i Hi. rewrite sumnR_const. reflexivity. }
    assert (EAB : sum3 (fun i j k => A i j * B j k) = 0).
    { unfold sum3. rewrite sumnR_ex. transitivity (sumn s1 (fun j => m * sumn s2 (fun k => B j k))).
      - apply sumnR_ext. intros j Hj. rewrite <- (hA j Hj), <- sumnR_scale_r. apply sumnR_ext. intros i Hi. apply sumnR_scale.
      - rewrite sumnR_scale, sumnR_ex. rewrite sumnR_zero; [ring|]. intros k Hk. apply hB; auto. }
    assert (EBC : sum3 (fun i j k => B j k * C k i) = 0).
    { unfold sum3. apply sumnR_zero. intros i Hi. rewrite sumnR_ex. apply sumnR_zero. intros k Hk. rewrite sumnR_scale_r, hB by auto. ring. }
    assert (EAC : sum3 (fun i j k => A i j * C k i) = 0).
    { unfold sum3. apply sumnR_zero. intros i Hi. apply sumnR_zero. intros j Hj. rewrite sumnR_scale, hC by auto. ring. }
    rewrite EA, EB, EC, EAB, EBC, EAC. field. repeat split; try lra; apply not_0_INR; lia.
  Qed.
End Iso.

Lemma vadd_map {A} (f g : A -> R) l : vadd (map f l) (map g l) = map (fun x => f x + g x) l.
Proof. unfold vadd. induction l as [|a l IH]; [reflexivity|]. cbn [map combine fst snd]. f_equal. exact IH. Qed.
Lemma vsub_map {A} (f g : A -> R) l : vsub (map f l) (map g l) = map (fun x => f x - g x) l.
Proof. unfold vsub. induction l as [|a l IH]; [reflexivity|]. cbn [map combine fst snd]. f_equal. exact IH. Qed.
Lemma lsum_seq (f : nat -> R) n : lsum (map f (seq 0 n)) = sumn n f.
Proof. reflexivity. Qed.

(** ** one iteration *)
Section Step.
  Variables (svd : tensor R -> tensor R * list R * tensor R) (t : tensor R) (spl : sample) (s0 s1 s2 spn : nat) (delt tau : R).
  Hypotheses (Hsvd : full_svd svd) (Hs : shp t = [s0; s1; s2]) (H0 : (0 < s0)%nat) (H1 : (0 < s1)%nat) (H2 : (0 < s2)%nat)
    (Hin : sample_in s0 s1 s2 spn spl) (Ht : 0 <= tau).

  Definition ia l := nth l (sp_a spl) 0%nat.
  Definition ib l := nth l (sp_b spl) 0%nat.
  Definition ic l := nth l (sp_c spl) 0%nat.
  (** the observed and the fitted value of sample l *)
  Definition obs (l : nat) : R := get t [ia l; ib l; ic l].
  Definition fit (X Y Z : tensor R) (l : nat) : R := interaction s0 s1 s2 X Y Z (ia l) (ib l) (ic l).

  Lemma in_ab : positions_in spn s0 s1 (sp_a spl) (sp_b spl).
  Proof. destruct Hin as (La & Lb & Lc & H). split; [auto|]. split; [auto|]. intros l Hl. destruct (H l Hl) as (? & ? & ?). auto. Qed.
  Lemma in_bc : positions_in spn s1 s2 (sp_b spl) (sp_c spl).
  Proof. destruct Hin as (La & Lb & Lc & H). split; [auto|]. split; [auto|]. intros l Hl. destruct (H l Hl) as (? & ? & ?). auto. Qed.
  Lemma in_ca : positions_in spn s2 s0 (sp_c spl) (sp_a spl).
  Proof. destruct Hin as (La & Lb & Lc & H). split; [auto|]. split; [auto|]. intros l Hl. destruct (H l Hl) as (? & ? & ?). auto. Qed.

  Lemma ax0 : axes_of 0 0 1 2. Proof. left. auto. Qed.
  Lemma ax1 : axes_of 1 1 2 0. Proof. right. left. auto. Qed.
  Lemma ax2 : axes_of 2 2 0 1. Proof. right. right. auto. Qed.

  Lemma obs_ok : Pomega_tensor spl t spn = Ok (map obs (seq 0 spn)).
  Proof.
    unfold Pomega_tensor. apply mapM_ok. intros l Hl. apply in_seq in Hl. destruct Hin as (La & Lb & Lc & H). destruct (H l) as (Ha & Hb & Hc); [lia|].
    rewrite (pynth_nat (sp_a spl) l 0%nat), (pynth_nat (sp_b spl) l 0%nat), (pynth_nat (sp_c spl) l 0%nat) by lia. cbn [bind].
    rewrite Hs. cbn [length Nat.eqb andb]. replace (zvalid [s0; s1; s2] _) with true; [reflexivity|]. symmetry. apply zvalid_spec. repeat constructor; cbn [fst snd]; fold (ia l) (ib l) (ic l) in *; lia.
  Qed.

  Lemma fit_ok (X Y Z : tensor R) : is_mat X s0 s1 -> is_mat Y s1 s2 -> is_mat Z s2 s0 ->
    Pomega_Pair spl X Y Z (shp t) spn = Ok (map (fit X Y Z) (seq 0 spn)).
  Proof.
    intros HX HY HZ. rewrite Hs. unfold Pomega_Pair.
    rewrite (Pomega_mat_ok spl X [s0; s1; s2] spn 0 0 1 2 ax0 eq_refl HX in_ab). cbn [bind].
    rewrite (Pomega_mat_ok spl Y [s0; s1; s2] spn 1 1 2 0 ax1 eq_refl HY in_bc). cbn [bind].
    rewrite (Pomega_mat_ok spl Z [s0; s1; s2] spn 2 2 0 1 ax2 eq_refl HZ in_ca). cbn [bind].
    rewrite !vadd_map. reflexivity.
  Qed.

  Definition resid (it : iter R) (l : nat) : R := obs l - fit (it_X it) (it_Y it) (it_Z it) l.

  Lemma step_facts (y : list R) : length y = spn -> exists A1 A2 A3 S1 S2 S3 it,
    adjoint_operator spl y (shp t) spn 0 = Ok A1 /\ adjoint_operator spl y (shp t) spn 1 = Ok A2 /\ adjoint_operator spl y (shp t) spn 2 = Ok A3 /\
    is_mat A1 s0 s1 /\ is_mat A2 s1 s2 /\ is_mat A3 s2 s0 /\
    shrink_np svd A1 tau Complicated = Ok S1 /\ shrink_np svd A2 tau Normal = Ok S2 /\ shrink_np svd A3 tau Normal = Ok S3 /\
    pitf_iter (shrink_np svd) t spl spn delt tau y = Ok it /\
    it_X it = mgen s0 s1 (fun i j => mget S1 i j / sqrt (INR s2)) /\
    it_Y it = mgen s1 s2 (fun i j => mget S2 i j / sqrt (INR s0)) /\
    it_Z it = mgen s2 s0 (fun i j => mget S3 i j / sqrt (INR s1)) /\
    it_y it = map (fun l => nth l y 0 + delt * resid it l) (seq 0 spn) /\
    it_loss it = sqrt (sumn spn (fun l => (resid it l)²) / INR spn) /\
    it_erate it = sqrt (sumn spn (fun l => (resid it l)²)) / sqrt (sumn spn (fun l => (obs l)²)).
  Proof.
    intros Hy.
    destruct (c60_adj spl y [s0; s1; s2] spn 0 0 1 2 ax0 eq_refl ltac:(lia) in_ab) as (A1 & E1 & HA1 & _). cbn [nth] in HA1.
    destruct (c60_adj spl y [s0; s1; s2] spn 1 1 2 0 ax1 eq_refl ltac:(lia) in_bc) as (A2 & E2 & HA2 & _). cbn [nth] in HA2.
    destruct (c60_adj spl y [s0; s1; s2] spn 2 2 0 1 ax2 eq_refl ltac:(lia) in_ca) as (A3 & E3 & HA3 & _). cbn [nth] in HA3.
    destruct (c84_min svd A1 tau s0 s1 Complicated Hsvd HA1 H0 H1 Ht) as (S1 & p1 & F1 & HS1 & _).
    destruct (c84_min svd A2 tau s1 s2 Normal Hsvd HA2 H1 H2 Ht) as (S2 & p2 & F2 & HS2 & _).
    destruct (c84_min svd A3 tau s2 s0 Normal Hsvd HA3 H2 H0 Ht) as (S3 & p3 & F3 & HS3 & _).
    set (X := mgen s0 s1 (fun i j => mget S1 i j / sqrt (INR s2))). set (Y := mgen s1 s2 (fun i j => mget S2 i j / sqrt (INR s0))).
    set (Z := mgen s2 s0 (fun i j => mget S3 i j / sqrt (INR s1))).
    assert (HX : is_mat X s0 s1) by apply is_mat_mgen. assert (HY : is_mat Y s1 s2) by apply is_mat_mgen. assert (HZ : is_mat Z s2 s0) by apply is_mat_mgen.
    pose proof (fit_ok X Y Z HX HY HZ) as EF. rewrite Hs in EF.
    eexists A1, A2, A3, S1, S2, S3, _. rewrite Hs.
    split; [exact E1|]. split; [exact E2|]. split; [exact E3|]. split; [exact HA1|]. split; [exact HA2|]. split; [exact HA3|].
    split; [exact F1|]. split; [exact F2|]. split; [exact F3|].
    assert (EI : pitf_iter (shrink_np svd) t spl spn delt tau y = Ok (
      let e := vsub (map obs (seq 0 spn)) (map (fit X Y Z) (seq 0 spn)) in
      mkI X Y Z (ndiv (vnorm e) (vnorm (map obs (seq 0 spn)))) (nsqrt (ndiv (lsum (map nsq e)) (nofnat spn))) (vadd y (vscale delt e)))).
    { unfold pitf_iter. rewrite Hs. change (pynth [s0; s1; s2] 0) with (Ok s0). change (pynth [s0; s1; s2] 1) with (Ok s1). change (pynth [s0; s1; s2] 2) with (Ok s2).
      cbn [bind]. rewrite E1, E2, E3. cbn [bind]. rewrite F1, F2, F3. cbn [bind].
      rewrite (mat_scalar ndiv S1 _ s0 s1 (proj2 HS1)). cbn [bind]. rewrite (mat_scalar ndiv S2 _ s1 s2 (proj2 HS2)). cbn [bind].
      rewrite (mat_scalar ndiv S3 _ s2 s0 (proj2 HS3)). cbn [bind].
      rewrite obs_ok. cbn [bind].
      assert (EX : mgen s0 s1 (fun i j => ndiv (mget S1 i j) (nsqrt (nofnat s2))) = X) by (rewrite nofnat_R; reflexivity).
      assert (EY : mgen s1 s2 (fun i j => ndiv (mget S2 i j) (nsqrt (nofnat s0))) = Y) by (rewrite nofnat_R; reflexivity).
      assert (EZ : mgen s2 s0 (fun i j => ndiv (mget S3 i j) (nsqrt (nofnat s1))) = Z) by (rewrite nofnat_R; reflexivity).
      rewrite EX, EY, EZ, EF. reflexivity. }
    split; [exact EI|]. cbv zeta. cbn [it_X it_Y it_Z it_y it_loss it_erate]. split; [reflexivity|]. split; [reflexivity|]. split; [reflexivity|].
    rewrite vsub_map. unfold resid. cbn [it_X it_Y it_Z it_y it_loss it_erate].
    assert (EN : forall f : nat -> R, vnorm (map f (seq 0 spn)) = sqrt (sumn spn (fun l => (f l)²))).
    { intros f. unfold vnorm. rewrite map_map. reflexivity. }
    split; [|split].
    - replace y with (map (fun l => nth l y 0) (seq 0 spn)) at 1 by (rewrite <- Hy; apply map_nth_seq).
      unfold vscale. rewrite map_map. rewrite (vadd_map (fun l => nth l y 0)). reflexivity.
    - rewrite nofnat_R, map_map. reflexivity.
    - rewrite !EN. reflexivity.
  Qed.
End Step.

(** ** sums over samples *)
Lemma ind_sum r (f : nat -> R) a : (a < r)%nat -> f a = sumn r (fun i => delta i a * f i).
Proof. intros H. symmetry. apply sumnR_delta. auto. Qed.

Lemma cover_le s0 s1 s2 m spl (g : nat -> nat -> nat -> R) : sample_in s0 s1 s2 m spl -> sample_covers s0 s1 s2 m spl ->
  (forall i j k, 0 <= g i j k) -> sum3 s0 s1 s2 g <= sumn m (fun l => g (ia spl l) (ib spl l) (ic spl l)).
Proof.
  intros (_ & _ & _ & Hin) Hc Hg.
  rewrite (sumnR_ext m _ (fun l => sumn s0 (fun i => sumn s1 (fun j => sumn s2 (fun k => delta i (ia spl l) * (delta j (ib spl l) * (delta k (ic spl l) * g i j k))))))).
  2:{ intros l Hl. destruct (Hin l Hl) as (Ha & Hb & Hcc). fold (ia spl l) in Ha. fold (ib spl l) in Hb. fold (ic spl l) in Hcc.
      rewrite (ind_sum s0 (fun i => g i (ib spl l) (ic spl l)) (ia spl l) Ha). apply sumnR_ext. intros i Hi.
      rewrite (ind_sum s1 (fun j => g i j (ic spl l)) (ib spl l) Hb), <- sumnR_scale. apply sumnR_ext. intros j Hj.
      rewrite (ind_sum s2 (fun k => g i j k) (ic spl l) Hcc), <- !sumnR_scale. reflexivity. }
  unfold sum3. rewrite (sumnR_ex m s0). apply sumnR_le. intros i Hi. rewrite (sumnR_ex m s1). apply sumnR_le. intros j Hj. rewrite (sumnR_ex m s2). apply sumnR_le. intros k Hk.
  destruct (Hc i j k Hi Hj Hk) as (l & Hl & <- & <- & <-).
  refine (Rle_trans _ _ _ _ (sumnR_diag_le m _ l _ Hl)); cbv beta.
  - unfold delta. fold (ia spl l) (ib spl l) (ic spl l). rewrite !Nat.eqb_refl. rewrite !Rmult_1_l. apply Rle_refl.
  - intros l' _. unfold delta. repeat destruct (Nat.eqb _ _); rewrite ?Rmult_0_l, ?Rmult_1_l, ?Rmult_0_r; try apply Rle_refl; auto.
Qed.

Lemma distinct_le r c m (la lb : list nat) (f : nat -> nat -> R) : positions_in m r c la lb -> positions_distinct m la lb ->
  (forall i j, 0 <= f i j) -> sumn m (fun l => f (nth l la 0%nat) (nth l lb 0%nat)) <= sumn r (fun i => sumn c (fun j => f i j)).
Proof.
  intros (_ & _ & Hin) Hd Hf. set (a := fun l => nth l la 0%nat) in *. set (b := fun l => nth l lb 0%nat) in *.
  rewrite (sumnR_ext m _ (fun l => sumn r (fun i => sumn c (fun j => delta i (a l) * (delta j (b l) * f i j))))).
  2:{ intros l Hl. destruct (Hin l Hl) as (Ha & Hb). fold (a l) in Ha. fold (b l) in Hb. fold (a l) (b l).
      rewrite (ind_sum r (fun i => f i (b l)) (a l) Ha). apply sumnR_ext. intros i Hi.
      rewrite (ind_sum c (fun j => f i j) (b l) Hb), <- sumnR_scale. reflexivity. }
  rewrite (sumnR_ex m r). apply sumnR_le. intros i Hi. rewrite (sumnR_ex m c). apply sumnR_le. intros j Hj.
  destruct (nat_search (fun k => a k = i /\ b k = j)) with (m := m) as [(k & Hk & Ha & Hb)|Hno].
  - intros k. destruct (Nat.eq_dec (a k) i); destruct (Nat.eq_dec (b k) j); auto; right; tauto.
  - rewrite (sumnR_single m k); auto.
    + rewrite Ha, Hb. unfold delta. rewrite !Nat.eqb_refl. lra.
    + intros l Hl Hne. unfold delta. destruct (Nat.eqb_spec i (a l)); [|ring]. destruct (Nat.eqb_spec j (b l)); [|ring].
      exfalso. apply Hne. apply Hd; auto; fold (a l) (b l) (a k) (b k); congruence.
  - rewrite sumnR_zero; [auto|]. intros l Hl. specialize (Hno l Hl). unfold delta.
    destruct (Nat.eqb_spec i (a l)); [|ring]. destruct (Nat.eqb_spec j (b l)); [|ring]. exfalso. apply Hno. auto.
Qed.

(** ** the matrices of an iteration *)
Lemma col_sum_div (M : tensor R) r c q j : is_mat M r c -> (j < c)%nat -> col_sum (mgen r c (fun i j => mget M i j / q)) j = col_sum M j / q.
Proof.
  intros HM Hj. rewrite col_sum_mgen by auto. rewrite (col_sum_R M r c j HM). unfold Rdiv. rewrite sumnR_scale_r. reflexivity.
Qed.
Lemma centred_div (M : tensor R) r c q : is_mat M r c -> centred M -> centred (mgen r c (fun i j => mget M i j / q)).
Proof.
  intros HM Hc j Hj. unfold ncols in Hj. rewrite shp_mgen in Hj. cbn [nth] in Hj. rewrite col_sum_div by auto.
  rewrite Hc; [unfold Rdiv; ring|]. destruct (is_mat_rc M r c HM) as (_ & _ & _ & -> & _). auto.
Qed.
Lemma equal_div (M : tensor R) r c q : is_mat M r c -> equal_sums M -> equal_sums (mgen r c (fun i j => mget M i j / q)).
Proof.
  intros HM Hc j j' Hj Hj'. unfold ncols in Hj, Hj'. rewrite shp_mgen in Hj, Hj'. cbn [nth] in Hj, Hj'. rewrite !col_sum_div by auto.
  rewrite (Hc j j'); [reflexivity| |]; destruct (is_mat_rc M r c HM) as (_ & _ & _ & -> & _); auto.
Qed.

Lemma iso_diff s0 s1 s2 A B C A' B' C' : (0 < s0)%nat -> (0 < s1)%nat -> (0 < s2)%nat ->
  interaction_matrices s0 s1 s2 A B C -> interaction_matrices s0 s1 s2 A' B' C' ->
  sum3 s0 s1 s2 (fun i j k => (interaction s0 s1 s2 A B C i j k - interaction s0 s1 s2 A' B' C' i j k)²) = sqdiff A A' + sqdiff B B' + sqdiff C C'.
Proof.
  intros H0 H1 H2 (HA & HB & HC & eA & cB & cC) (HA' & HB' & HC' & eA' & cB' & cC').
  rewrite (sqdiff_fro A A' s0 s1 HA), (sqdiff_fro B B' s1 s2 HB), (sqdiff_fro C C' s2 s0 HC).
  rewrite <- (iso s0 s1 s2 H0 H1 H2 _ _ _ (total A / INR s1 - total A' / INR s1)).
  - apply sum3_ext. intros i j k _ _ _. f_equal. unfold intf, interaction, Rdiv. ring.
  - intros j Hj. rewrite sumnR_sub, <- (col_sum_R A s0 s1 j HA), <- (col_sum_R A' s0 s1 j HA').
    rewrite (equal_sums_col A s0 s1 j), (equal_sums_col A' s0 s1 j) by auto. reflexivity.
  - intros k Hk. rewrite sumnR_sub, <- (col_sum_R B s1 s2 k HB), <- (col_sum_R B' s1 s2 k HB').
    rewrite cB, cB'; [ring| |]; [destruct (is_mat_rc B' _ _ HB') as (_ & _ & _ & -> & _)|destruct (is_mat_rc B _ _ HB) as (_ & _ & _ & -> & _)]; auto.
  - intros k Hk. rewrite sumnR_sub, <- (col_sum_R C s2 s0 k HC), <- (col_sum_R C' s2 s0 k HC').
    rewrite cC, cC'; [ring| |]; [destruct (is_mat_rc C' _ _ HC') as (_ & _ & _ & -> & _)|destruct (is_mat_rc C _ _ HC) as (_ & _ & _ & -> & _)]; auto.
Qed.

Lemma sqdiff_nonneg (A B : tensor R) r c : is_mat A r c -> 0 <= sqdiff A B.
Proof. intros HA. rewrite (sqdiff_fro A B r c HA). apply fro_nonneg. Qed.
Lemma sqdiff_zero (A B : tensor R) r c : is_mat A r c -> is_mat B r c -> sqdiff A B = 0 -> A = B.
Proof.
  intros HA HB E. rewrite (sqdiff_fro A B r c HA) in E. apply fro_zero in E. apply (mat_ext _ _ r c); auto. intros i j Hi Hj.
  specialize (E i j Hi Hj). cbv beta in E. lra.
Qed.

(** the matrices are determined by the interactions *)
Theorem c83_unique s0 s1 s2 A B C A' B' C' : (0 < s0)%nat -> (0 < s1)%nat -> (0 < s2)%nat ->
  interaction_matrices s0 s1 s2 A B C -> interaction_matrices s0 s1 s2 A' B' C' ->
  (forall i j k, (i < s0)%nat -> (j < s1)%nat -> (k < s2)%nat -> interaction s0 s1 s2 A B C i j k = interaction s0 s1 s2 A' B' C' i j k) ->
  A = A' /\ B = B' /\ C = C'.
Proof.
  intros H0 H1 H2 HM HM' HE. pose proof (iso_diff s0 s1 s2 A B C A' B' C' H0 H1 H2 HM HM') as I.
  rewrite (sum3_ext _ _ _ _ (fun _ _ _ => 0)) in I by (intros; rewrite HE by auto; unfold Rsqr; ring).
  assert (E0 : sum3 s0 s1 s2 (fun _ _ _ => 0) = 0).
  { unfold sum3. apply sumnR_zero. intros. apply sumnR_zero. intros. apply sumnR_zero. auto. }
  rewrite E0 in I. destruct HM as (HA & HB & HC & _). destruct HM' as (HA' & HB' & HC' & _).
  pose proof (sqdiff_nonneg A A' _ _ HA). pose proof (sqdiff_nonneg B B' _ _ HB). pose proof (sqdiff_nonneg C C' _ _ HC).
  split; [|split]; eapply sqdiff_zero; eauto; lra.
Qed.

Theorem c83_isometry s0 s1 s2 A B C : (0 < s0)%nat -> (0 < s1)%nat -> (0 < s2)%nat -> interaction_matrices s0 s1 s2 A B C ->
  bigsum s0 (fun i => bigsum s1 (fun j => bigsum s2 (fun k => (interaction s0 s1 s2 A B C i j k)²))) = sqfro A + sqfro B + sqfro C.
Proof.
  intros H0 H1 H2 (HA & HB & HC & eA & cB & cC).
  rewrite (sqfro_fro A s0 s1 HA), (sqfro_fro B s1 s2 HB), (sqfro_fro C s2 s0 HC).
  rewrite <- (iso s0 s1 s2 H0 H1 H2 _ _ _ (total A / INR s1)).
  - rewrite bigsumR. apply sumnR_ext. intros i Hi. rewrite bigsumR. apply sumnR_ext. intros j Hj. apply bigsumR.
  - intros j Hj. rewrite <- (col_sum_R A s0 s1 j HA). apply (equal_sums_col A s0 s1 j); auto.
  - intros k Hk. rewrite <- (col_sum_R B s1 s2 k HB). apply cB. destruct (is_mat_rc B _ _ HB) as (_ & _ & _ & -> & _). auto.
  - intros k Hk. rewrite <- (col_sum_R C s2 s0 k HC). apply cC. destruct (is_mat_rc C _ _ HC) as (_ & _ & _ & -> & _). auto.
Qed.

Section Run.
  Variables (svd : tensor R -> tensor R * list R * tensor R) (t : tensor R) (spl : sample) (s0 s1 s2 spn : nat) (delt tau : R).
  Hypotheses (Hsvd : full_svd svd) (Hs : shp t = [s0; s1; s2]) (H0 : (0 < s0)%nat) (H1 : (0 < s1)%nat) (H2 : (0 < s2)%nat)
    (Hin : sample_in s0 s1 s2 spn spl) (Ht : 0 <= tau).
  Notation res_ it := (resid t spl s0 s1 s2 it).
  Notation step y := (pitf_iter (shrink_np svd) t spl spn delt tau y).

  Theorem c83_step (y : list R) it : length y = spn -> step y = Ok it ->
    interaction_matrices s0 s1 s2 (it_X it) (it_Y it) (it_Z it) /\
    INR spn * (it_loss it)² = sumn spn (fun l => (res_ it l)²) /\
    forall A B C, interaction_matrices s0 s1 s2 A B C ->
      (forall i j k, (i < s0)%nat -> (j < s1)%nat -> (k < s2)%nat -> get t [i; j; k] = interaction s0 s1 s2 A B C i j k) ->
      sample_covers s0 s1 s2 spn spl ->
      sqdiff (it_X it) A + sqdiff (it_Y it) B + sqdiff (it_Z it) C <= INR spn * (it_loss it)².
  Proof.
    intros Hy E. destruct (step_facts svd t spl s0 s1 s2 spn delt tau Hsvd Hs H0 H1 H2 Hin Ht y Hy) as
      (A1 & A2 & A3 & S1 & S2 & S3 & it' & E1 & E2 & E3 & HA1 & HA2 & HA3 & F1 & F2 & F3 & E' & EX & EY & EZ & Ey & El & Er).
    rewrite E in E'. injection E' as <-.
    destruct (c84_min svd A1 tau s0 s1 Complicated Hsvd HA1 H0 H1 Ht) as (S1' & p1 & G1 & HS1 & C1 & _). rewrite F1 in G1. injection G1 as <-.
    destruct (c84_min svd A2 tau s1 s2 Normal Hsvd HA2 H1 H2 Ht) as (S2' & p2 & G2 & HS2 & C2 & _). rewrite F2 in G2. injection G2 as <-.
    destruct (c84_min svd A3 tau s2 s0 Normal Hsvd HA3 H2 H0 Ht) as (S3' & p3 & G3 & HS3 & C3 & _). rewrite F3 in G3. injection G3 as <-.
    assert (HM : interaction_matrices s0 s1 s2 (it_X it) (it_Y it) (it_Z it)).
    { rewrite EX, EY, EZ. split; [apply is_mat_mgen|]. split; [apply is_mat_mgen|]. split; [apply is_mat_mgen|].
      split; [apply equal_div; auto|]. split; apply centred_div; auto. }
    assert (EL : INR spn * (it_loss it)² = sumn spn (fun l => (res_ it l)²)).
    { destruct (Nat.eq_dec spn 0) as [-> |Hn]; [rewrite sumn_0; simpl; Rn; ring|]. rewrite El. rewrite Rsqr_sqrt.
      - field. apply not_0_INR. auto.
      - apply Rmult_le_pos; [apply sumnR_nonneg; intros; apply Rle_0_sqr|]. left. apply Rinv_0_lt_compat, lt_0_INR. lia. }
    split; [exact HM|]. split; [exact EL|]. intros A B C HABC Htt Hcov. rewrite EL.
    rewrite <- (iso_diff s0 s1 s2 _ _ _ A B C H0 H1 H2 HM HABC).
    eapply Rle_trans; [apply (cover_le s0 s1 s2 spn spl); auto; intros; apply Rle_0_sqr|].
    apply sumnR_le. intros l Hl. destruct Hin as (_ & _ & _ & Hi). destruct (Hi l Hl) as (Ha & Hb & Hc).
    unfold resid, obs, fit. rewrite Htt by assumption. right. fold (ia spl l) (ib spl l) (ic spl l).
    unfold Rsqr. ring.
  Qed.
End Run.
