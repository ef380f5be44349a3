(** PITF_np.exact_recovery: optimality of fixed points and convergence (C85). *)

From Coq Require Import ZArith List Bool Arith Lia Reals Lra Psatz.
From Verif Require Import Num Py Tensor TF TensorFacts TFFacts Sums Spec SpecR SpecFacts RSums MatR KronAlg SvdFacts
  PitfOps SpecPitf PitfFacts SpecRecover NucFacts ShrinkFacts ReaderFacts RecoverFacts DualAscent.
Import ListNotations.
Local Open Scope R_scope.

(** ** scaling a matrix scales its penalty *)
Definition tscale (r c : nat) (a : R) (Z : tensor R) : tensor R := mgen r c (fun i j => a * mget Z i j).

Lemma nuclear_scale (Z : tensor R) r c a n : is_mat Z r c -> 0 <= a -> nuclear Z n -> nuclear (tscale r c a Z) (a * n).
Proof.
  intros HZ Ha (U & s & W & (r' & c' & HZ' & HU & HW & Hl & [Hn Hd] & HE) & ->).
  destruct (is_mat_unique Z r c r' c' HZ HZ') as [-> ->].
  exists U, (map (Rmult a) s), W. rewrite map_length. split.
  - exists r, c. split; [apply is_mat_mgen|]. split; [exact HU|]. split; [exact HW|]. rewrite map_length. split; [exact Hl|]. split; [split|].
    + intros x Hx. apply in_map_iff in Hx. destruct Hx as (z & <- & Hz). apply Rmult_le_pos; auto.
    + intros i j Hij Hj. rewrite map_length in Hj. rewrite !nth_map0 by lia. apply Rmult_le_compat_l; auto.
    + intros i j Hi Hj. unfold tscale. rewrite mget_mgen by auto. rewrite HE by auto. rewrite !bigsumR, <- sumnR_scale. apply sumnR_ext.
      intros k Hk. rewrite nth_map0 by auto. ring.
  - rewrite !bigsumR, <- sumnR_scale. apply sumnR_ext. intros k Hk. rewrite nth_map0 by auto. reflexivity.
Qed.

Lemma tscale_col (Z : tensor R) r c a j : is_mat Z r c -> (j < c)%nat -> col_sum (tscale r c a Z) j = a * col_sum Z j.
Proof. intros HZ Hj. unfold tscale. rewrite col_sum_mgen by auto. rewrite (col_sum_R Z r c j HZ). apply sumnR_scale. Qed.

Lemma tscale_total (Z : tensor R) r c a : is_mat Z r c -> total (tscale r c a Z) = a * total Z.
Proof.
  intros HZ. rewrite (total_sum (tscale r c a Z) r c (is_mat_mgen r c _)), (total_sum Z r c HZ), <- sumnR_scale. apply sumnR_ext. intros. apply tscale_col; auto.
Qed.

Lemma penalty_scale mode (Z : tensor R) r c a p : is_mat Z r c -> 0 <= a -> penalty mode Z p -> penalty mode (tscale r c a Z) (a * p).
Proof.
  intros HZ Ha. destruct mode; cbn [penalty]; [apply nuclear_scale; auto|].
  intros (Zc & n & [HZc HE] & Hn & ->). destruct (is_mat_rc Z r c HZ) as (_ & _ & Er & Ec & _). rewrite Er, Ec in *.
  exists (tscale r c a Zc), (a * n). change (nrows (tscale r c a Z)) with r. change (ncols (tscale r c a Z)) with c. split; [|split].
  - split; [apply is_mat_mgen|]. change (nrows (tscale r c a Z)) with r. change (ncols (tscale r c a Z)) with c. intros i j Hi Hj.
    rewrite (tscale_col Z r c a j) by auto. unfold tscale. rewrite !mget_mgen by auto. rewrite HE by auto. unfold Rdiv. ring.
  - apply nuclear_scale; auto.
  - rewrite (tscale_total Z r c a HZ), Rabs_mult, (Rabs_right a) by lra. unfold Rdiv. ring.
Qed.

Lemma admissible_scale mode (Z : tensor R) r c a : is_mat Z r c -> admissible mode Z -> admissible mode (tscale r c a Z).
Proof.
  intros HZ. destruct (is_mat_rc Z r c HZ) as (_ & _ & _ & Ec & _). destruct mode; cbn [admissible].
  - intros H j Hj. change (ncols (tscale r c a Z)) with c in Hj. rewrite (tscale_col Z r c) by auto. rewrite H by (rewrite Ec; auto). ring.
  - intros H j j' Hj Hj'. change (ncols (tscale r c a Z)) with c in Hj, Hj'. rewrite !(tscale_col Z r c) by auto. rewrite (H j j'); rewrite ?Ec; auto.
Qed.

(** ** one matrix of an iteration: X = shrink(A) / q *)
Section Block.
  Variables (svd : tensor R -> tensor R * list R * tensor R) (r c : nat) (mode : shmode) (tau q : R).
  Hypotheses (Hsvd : full_svd svd) (Hr : (0 < r)%nat) (Hc : (0 < c)%nat) (Ht : 0 <= tau) (Hq : 0 < q).

  Lemma mget_q (S : tensor R) i j : (i < r)%nat -> (j < c)%nat -> mget S i j = q * mget (mgen r c (fun i j => mget S i j / q)) i j.
  Proof. intros Hi Hj. rewrite mget_mgen by auto. field. lra. Qed.

  Lemma block_opt (A S X X' : tensor R) p p' : is_mat A r c -> shrink_np svd A tau mode = Ok S -> X = mgen r c (fun i j => mget S i j / q) ->
    is_mat X' r c -> admissible mode X' -> penalty mode X p -> penalty mode X' p' ->
    (tau / q * p + /2 * sqfro X - mdot X A / q) + /2 * sqdiff X' X <= tau / q * p' + /2 * sqfro X' - mdot X' A / q.
  Proof.
    intros HA ES EX HX' HaX' Hp Hp'. destruct (c84_min svd A tau r c mode Hsvd HA Hr Hc Ht) as (S' & pS & ES' & HS & HaS & HpS & Hmin).
    rewrite ES in ES'. injection ES' as <-. assert (HX : is_mat X r c) by (rewrite EX; apply is_mat_mgen).
    assert (EXs : X = tscale r c (/ q) S).
    { rewrite EX. apply mgen_ext. intros i j Hi Hj. unfold Rdiv. ring. }
    assert (Eq : 0 <= / q) by (left; apply Rinv_0_lt_compat; auto).
    assert (Ep : p = / q * pS).
    { apply (penalty_unique mode X r c); auto. rewrite EXs. apply penalty_scale; auto. }
    assert (HZ : is_mat (tscale r c q X') r c) by apply is_mat_mgen.
    specialize (Hmin (tscale r c q X') (q * p') HZ (admissible_scale mode X' r c q HX' HaX') (penalty_scale mode X' r c q p' HX' ltac:(lra) Hp')).
    rewrite (sqdiff_fro S A r c HS), (sqdiff_fro _ S r c HZ), (sqdiff_fro _ A r c HZ) in Hmin.
    rewrite (sqfro_fro X r c HX), (sqfro_fro X' r c HX'), (sqdiff_fro X' X r c HX'), (mdot_dot2 X A r c HX), (mdot_dot2 X' A r c HX').
    assert (Q1 : fro r c (fun i j => mget S i j - mget A i j) = q * q * fro r c (mget X) - 2 * q * dot2 r c (mget X) (mget A) + fro r c (mget A)).
    { rewrite (fro_ext r c _ (fun i j => q * mget X i j - mget A i j)).
      - rewrite (fro_sub r c (fun i j => q * mget X i j)). unfold fro at 1. rewrite dot2_scale_l, (dot2_sym r c (fun i j => mget X i j) (fun i j => q * mget X i j)), dot2_scale_l.
        rewrite (dot2_scale_l r c q (fun i j => mget X i j) (fun i j => mget A i j)). unfold fro. change (fun i j => mget X i j) with (mget X). change (fun i j => mget A i j) with (mget A). ring.
      - intros i j Hi Hj. rewrite EX, <- (mget_q S i j) by auto. reflexivity. }
    assert (Q2 : fro r c (fun i j => mget (tscale r c q X') i j - mget A i j) = q * q * fro r c (mget X') - 2 * q * dot2 r c (mget X') (mget A) + fro r c (mget A)).
    { rewrite (fro_ext r c _ (fun i j => q * mget X' i j - mget A i j)).
      - rewrite (fro_sub r c (fun i j => q * mget X' i j)). unfold fro at 1. rewrite dot2_scale_l, (dot2_sym r c (fun i j => mget X' i j) (fun i j => q * mget X' i j)), dot2_scale_l.
        rewrite (dot2_scale_l r c q (fun i j => mget X' i j) (fun i j => mget A i j)). unfold fro. change (fun i j => mget X' i j) with (mget X'). change (fun i j => mget A i j) with (mget A). ring.
      - intros i j Hi Hj. unfold tscale. rewrite mget_mgen by auto. reflexivity. }
    assert (Q3 : fro r c (fun i j => mget (tscale r c q X') i j - mget S i j) = q * q * fro r c (fun i j => mget X' i j - mget X i j)).
    { rewrite (fro_ext r c _ (fun i j => q * (mget X' i j - mget X i j))).
      - unfold fro. rewrite dot2_scale_l, (dot2_sym r c (fun i j => mget X' i j - mget X i j) (fun i j => q * (mget X' i j - mget X i j))), dot2_scale_l. ring.
      - intros i j Hi Hj. unfold tscale. rewrite mget_mgen by auto. rewrite (mget_q S i j) by auto. rewrite <- EX. ring. }
    rewrite Q1, Q2, Q3 in Hmin. rewrite Ep. change (fun i j => mget X i j) with (mget X). change (fun i j => mget X' i j) with (mget X').
    set (fX := fro r c (mget X)) in *. set (fX' := fro r c (mget X')) in *. set (D := fro r c (fun i j => mget X' i j - mget X i j)) in *.
    set (dX := dot2 r c (mget X) (mget A)) in *. set (dX' := dot2 r c (mget X') (mget A)) in *. set (fA := fro r c (mget A)) in *.
    assert (Hqq : 0 < q * q) by nra. apply Rmult_le_reg_l with (q * q); [exact Hqq|].
    replace (q * q * (tau / q * (/ q * pS) + / 2 * fX - dX / q + / 2 * D)) with (tau * pS + /2 * (q * q * fX - 2 * q * dX) + /2 * (q * q * D)) by (field; lra).
    replace (q * q * (tau / q * p' + / 2 * fX' - dX' / q)) with (tau * (q * p') + /2 * (q * q * fX' - 2 * q * dX')) by (field; lra).
    lra.
  Qed.
End Block.

(** ** size of a penalty *)
Lemma nuclear_bound (Z : tensor R) r c n : is_mat Z r c -> nuclear Z n -> 0 <= n <= INR r + fro r c (mget Z).
Proof.
  intros HZ (U & s & W & HS & ->). destruct (svd_mf Z U W s r c HZ HS) as (HU & HW & Hs & HE). cbv zeta in *. rewrite bigsumR.
  assert (Hk : (length s <= r)%nat).
  { destruct HS as (r' & c' & HZ' & _ & _ & Hl & _). destruct (is_mat_unique Z r c r' c' HZ HZ') as [-> ->]. rewrite Hl. apply Nat.le_min_l. }
  split; [apply sumnR_nonneg; auto|].
  rewrite (fro_ext r c (mget Z) _ HE). unfold fro. rewrite (dot2_same r c (length s) (mget U) (mget W) HU HW).
  eapply Rle_trans with (sumn (length s) (fun _ => 1) + sumn (length s) (fun p => nth p s 0 * nth p s 0)).
  - rewrite <- sumnR_add. apply sumnR_le. intros p Hp. pose proof (Rle_0_sqr (nth p s 0 - 1)) as Q. unfold Rsqr in Q. specialize (Hs p Hp). nra.
  - apply Rplus_le_compat_r. rewrite sumnR_const. apply le_INR in Hk. lra.
Qed.

Lemma penalty_bound mode (Z : tensor R) r c p : is_mat Z r c -> (0 < r)%nat -> (0 < c)%nat -> admissible mode Z -> penalty mode Z p ->
  0 <= p <= INR r + 1 + sqfro Z.
Proof.
  intros HZ Hr Hc Ha Hp. rewrite (sqfro_fro Z r c HZ). change (fun i j => mget Z i j) with (mget Z). destruct mode; cbn [penalty admissible] in *.
  - destruct (nuclear_bound Z r c p HZ Hp). lra.
  - destruct Hp as (Zc & n & HM & Hn & ->). destruct (is_mat_rc Z r c HZ) as (_ & _ & Er & Ec & _). rewrite Er, Ec.
    destruct (minus_means_central Z r c HZ) as (C & EC & HC & _ & Hu). apply Hu in HM. subst Zc.
    destruct (nuclear_bound C r c n HC Hn) as [N0 N1]. destruct (sq_size r c Hr Hc) as [Hq Hqq]. set (q := sqrt (INR (r * c))) in *.
    assert (H0 : is_mat (mgen r c (fun _ _ => 0)) r c) by apply is_mat_mgen.
    destruct (c59 _ r c H0) as (C0 & EC0 & HC0 & HE0 & _).
    assert (Z0 : forall j, (j < c)%nat -> col_sum (mgen r c (fun _ _ => 0)) j = 0) by (intros j Hj; rewrite col_sum_mgen by auto; apply sumnR_zero; auto).
    pose proof (equal_dist Z (mgen r c (fun _ _ => 0)) C C0 r c HZ H0 Ha Hr Hc EC EC0) as D. cbv zeta in D. fold q in D.
    assert (T0 : total (mgen r c (fun _ _ => 0)) = 0) by (rewrite (total_sum _ r c H0); apply sumnR_zero; auto). rewrite T0 in D.
    rewrite (sumnR_zero c (fun j => (col_sum (mgen r c (fun _ _ => 0)) j / INR r)²)) in D by (intros j Hj; rewrite Z0 by auto; unfold Rsqr, Rdiv; ring).
    rewrite (fro_ext r c _ (mget Z)) in D by (intros i j Hi Hj; rewrite mget_mgen by auto; ring).
    rewrite (fro_ext r c (fun i j => mget C i j - mget C0 i j) (mget C)) in D by (intros i j Hi Hj; rewrite HE0, mget_mgen, Z0 by auto; unfold Rdiv; ring).
    rewrite D. set (tq := total Z / q) in *.
    assert (Et : Rabs (total Z) / q = Rabs tq).
    { unfold tq, Rdiv. rewrite Rabs_mult. rewrite (Rabs_right (/ q)); [reflexivity|]. apply Rle_ge. left. apply Rinv_0_lt_compat; auto. }
    rewrite Et. pose proof (Rabs_pos tq) as A0. pose proof (Rle_0_sqr (Rabs tq - 1)) as A1. unfold Rsqr in A1.
    assert (A2 : (tq - 0 / q)² = Rabs tq * Rabs tq).
    { rewrite <- Rabs_mult. unfold Rsqr, Rdiv. rewrite Rmult_0_l, Rminus_0_r. symmetry. apply Rabs_right, Rle_ge, Rle_0_sqr. }
    rewrite A2. assert (A3 : (0 / q)² = 0) by (unfold Rsqr, Rdiv; ring). rewrite A3. split; [lra|]. nra.
Qed.

(** ** sums of matrices *)
Definition lcomb (r c : nat) (a : R) (u v w : tensor R) : tensor R := mgen r c (fun i j => mget u i j + a * (mget v i j - mget w i j)).

Lemma lcomb_col r c a (u v w : tensor R) j : is_mat u r c -> is_mat v r c -> is_mat w r c -> (j < c)%nat ->
  col_sum (lcomb r c a u v w) j = col_sum u j + a * (col_sum v j - col_sum w j).
Proof.
  intros Hu Hv Hw Hj. unfold lcomb. rewrite col_sum_mgen by auto. rewrite (col_sum_R u r c j Hu), (col_sum_R v r c j Hv), (col_sum_R w r c j Hw).
  rewrite sumnR_add, sumnR_scale, sumnR_sub. reflexivity.
Qed.
Lemma lcomb_adm mode r c a (u v w : tensor R) : is_mat u r c -> is_mat v r c -> is_mat w r c -> admissible mode u -> admissible mode v -> admissible mode w ->
  admissible mode (lcomb r c a u v w).
Proof.
  intros Hu Hv Hw. destruct (is_mat_rc u r c Hu) as (_ & _ & _ & Eu & _). destruct (is_mat_rc v r c Hv) as (_ & _ & _ & Ev & _). destruct (is_mat_rc w r c Hw) as (_ & _ & _ & Ew & _).
  destruct mode; cbn [admissible]; unfold centred, equal_sums; rewrite Eu, Ev, Ew; change (ncols (lcomb r c a u v w)) with c.
  - intros Cu Cv Cw j Hj. rewrite lcomb_col, Cu, Cv, Cw by auto. ring.
  - intros Cu Cv Cw j j' Hj Hj'. rewrite !lcomb_col by auto. rewrite (Cu j j'), (Cv j j'), (Cw j j') by auto. reflexivity.
Qed.
Lemma lcomb_size r c a (b u v w : tensor R) : is_mat b r c -> is_mat u r c -> is_mat v r c -> is_mat w r c ->
  sqfro (lcomb r c a u v w) <= 3 * sqfro b + 3 * sqdiff b u + 3 * (a * a) * sqdiff v w.
Proof.
  intros Hb Hu Hv Hw. rewrite (sqfro_fro (lcomb r c a u v w) r c (is_mat_mgen r c _)), (sqfro_fro b r c Hb), (sqdiff_fro b u r c Hb), (sqdiff_fro v w r c Hv).
  unfold fro, dot2. rewrite <- !sumnR_scale, <- !sumnR_add. apply sumnR_le. intros i Hi. rewrite <- !sumnR_scale, <- !sumnR_add. apply sumnR_le. intros j Hj.
  unfold lcomb. rewrite mget_mgen by auto. set (p := mget b i j). set (q := mget u i j). set (e := mget v i j - mget w i j).
  set (s := a * e). replace (3 * (a * a) * (e * e)) with (3 * (s * s)) by (unfold s; ring).
  pose proof (Rle_0_sqr (p + (p - q))) as Q1. pose proof (Rle_0_sqr (p - s)) as Q2. pose proof (Rle_0_sqr ((p - q) + s)) as Q3. unfold Rsqr in *. nra.
Qed.

(** ** the setting of C85 *)
Definition trip : Type := tensor R * tensor R * tensor R.
Definition t1 (v : trip) : tensor R := fst (fst v).
Definition t2 (v : trip) : tensor R := snd (fst v).
Definition t3 (v : trip) : tensor R := snd v.

Section Conv.
  Variables (svd : tensor R -> tensor R * list R * tensor R) (t : tensor R) (spl : sample) (s0 s1 s2 spn : nat) (delt tau : R).
  Hypotheses (Hsvd : full_svd svd) (Hs : shp t = [s0; s1; s2]) (H0 : (0 < s0)%nat) (H1 : (0 < s1)%nat) (H2 : (0 < s2)%nat)
    (Hin : sample_in s0 s1 s2 spn spl) (Ht : 0 <= tau) (Hdis : sample_distinct spn spl).
  Notation step y := (pitf_iter (shrink_np svd) t spl spn delt tau y).
  Notation fit_ := (fit spl s0 s1 s2).
  Notation obs_ := (obs t spl).

  Definition ok3 (v : trip) : Prop := interaction_matrices s0 s1 s2 (t1 v) (t2 v) (t3 v).
  Definition fit3 (v : trip) (l : nat) : R := fit_ (t1 v) (t2 v) (t3 v) l.
  Definition dist3 (v w : trip) : R := sqdiff (t1 v) (t1 w) + sqdiff (t2 v) (t2 w) + sqdiff (t3 v) (t3 w).
  Definition sq3 (v : trip) : R := sqfro (t1 v) + sqfro (t2 v) + sqfro (t3 v).
  Definition nucv (Z : tensor R) : R := let '(_, s, _) := svd Z in sumn (length s) (fun k => nth k s 0).
  Definition pen (mode : shmode) (r c : nat) (Z : tensor R) : R :=
    match mode with
    | Normal => nucv Z
    | Complicated => nucv (mgen r c (fun i j => mget Z i j - col_sum Z j / INR r)) + Rabs (total Z) / sqrt (INR (r * c))
    end.
  Definition cost3 (v : trip) : R :=
    tau / sqrt (INR s2) * pen Complicated s0 s1 (t1 v) + tau / sqrt (INR s0) * pen Normal s1 s2 (t2 v) +
    tau / sqrt (INR s1) * pen Normal s2 s0 (t3 v) + /2 * sq3 v.
  Definition Lc : R := / INR s0 + / INR s1 + / INR s2.
  Definition xmap (y : nat -> R) : trip :=
    match step (map y (seq 0 spn)) with Ok it => (it_X it, it_Y it, it_Z it) | Raise _ => (mgen 0 0 (fun _ _ => 0), mgen 0 0 (fun _ _ => 0), mgen 0 0 (fun _ _ => 0)) end.

  Lemma nucv_ok Z r c : is_mat Z r c -> nuclear Z (nucv Z).
  Proof.
    intros HZ. unfold nucv. destruct (svd Z) as [[U s] W] eqn:E. exists U, s, W. split; [apply (Hsvd Z r c U s W HZ E)|]. symmetry. apply bigsumR.
  Qed.
  Lemma pen_ok mode Z r c : is_mat Z r c -> penalty mode Z (pen mode r c Z).
  Proof.
    intros HZ. destruct mode; cbn [penalty pen]; [apply (nucv_ok Z r c HZ)|]. destruct (is_mat_rc Z r c HZ) as (_ & _ & Er & Ec & _). rewrite Er, Ec.
    exists (mgen r c (fun i j => mget Z i j - col_sum Z j / INR r)), (nucv (mgen r c (fun i j => mget Z i j - col_sum Z j / INR r))). split; [|split].
    - split; rewrite Er, Ec; [apply is_mat_mgen|]. intros i j Hi Hj. rewrite mget_mgen by auto. reflexivity.
    - apply (nucv_ok _ r c). apply is_mat_mgen.
    - reflexivity.
  Qed.

  Lemma pairing (y : list R) A1 A2 A3 X Y Z : length y = spn ->
    adjoint_operator spl y (shp t) spn 0 = Ok A1 -> adjoint_operator spl y (shp t) spn 1 = Ok A2 -> adjoint_operator spl y (shp t) spn 2 = Ok A3 ->
    is_mat X s0 s1 -> is_mat Y s1 s2 -> is_mat Z s2 s0 ->
    mdot X A1 / sqrt (INR s2) + mdot Y A2 / sqrt (INR s0) + mdot Z A3 / sqrt (INR s1) = sumn spn (fun l => fit_ X Y Z l * nth l y 0).
  Proof.
    intros Hy E1 E2 E3 HX HY HZ. rewrite Hs in E1, E2, E3. destruct Hdis as (Da & Db & Dc).
    pose proof (in_ab spl s0 s1 s2 spn Hin) as Iab. pose proof (in_bc spl s0 s1 s2 spn Hin) as Ibc. pose proof (in_ca spl s0 s1 s2 spn Hin) as Ica.
    assert (G : forall M d r c o A, axes_of d r c o -> is_mat M (nth r [s0; s1; s2] 0%nat) (nth c [s0; s1; s2] 0%nat) -> (0 < nth o [s0; s1; s2] 0)%nat ->
      positions_in spn (nth r [s0; s1; s2] 0%nat) (nth c [s0; s1; s2] 0%nat) (sp_pick spl r) (sp_pick spl c) -> positions_distinct spn (sp_pick spl r) (sp_pick spl c) ->
      adjoint_operator spl y [s0; s1; s2] spn d = Ok A ->
      mdot M A / sqrt (INR (nth o [s0; s1; s2] 0%nat)) = sumn spn (fun l => mget M (nth l (sp_pick spl r) 0%nat) (nth l (sp_pick spl c) 0%nat) / sqrt (INR (nth o [s0; s1; s2] 0%nat)) * nth l y 0)).
    { intros M d r c o A Hax HM Ho Hp Hdd EA.
      destruct (c60_scaled spl M y [s0; s1; s2] spn d r c o Hax eq_refl ltac:(lia) Ho HM Hp Hdd) as (p & A' & Ep & EA' & _ & _ & Q).
      rewrite EA in EA'. injection EA' as <-. rewrite (Pomega_mat_ok spl M [s0; s1; s2] spn d r c o Hax eq_refl HM Hp) in Ep. injection Ep as <-.
      destruct (sq_pos (nth o [s0; s1; s2] 0%nat) Ho) as [Hq _]. rewrite <- Q. unfold Rdiv at 1. rewrite Rmult_comm, <- Rmult_assoc, Rinv_l, Rmult_1_l by lra.
      unfold vdot. rewrite bigsumR. apply sumnR_ext. intros l Hl. f_equal.
      exact (nth_map_seq (fun i => mget M (nth i (sp_pick spl r) 0%nat) (nth i (sp_pick spl c) 0%nat) / sqrt (INR (nth o [s0; s1; s2] 0%nat))) spn l 0 Hl). }
    pose proof (G X 0%Z 0%nat 1%nat 2%nat A1 ax0 HX H2 Iab Da E1) as P1. pose proof (G Y 1%Z 1%nat 2%nat 0%nat A2 ax1 HY H0 Ibc Db E2) as P2.
    pose proof (G Z 2%Z 2%nat 0%nat 1%nat A3 ax2 HZ H1 Ica Dc E3) as P3. cbn [nth sp_pick] in P1, P2, P3. rewrite P1, P2, P3, <- !sumnR_add. apply sumnR_ext.
    intros l Hl. unfold fit, interaction, ia, ib, ic. ring.
  Qed.

  Lemma xmap_facts (y : nat -> R) : exists it, step (map y (seq 0 spn)) = Ok it /\ xmap y = (it_X it, it_Y it, it_Z it) /\
    ok3 (xmap y) /\ it_y it = map (fun l => y l + delt * (obs_ l - fit3 (xmap y) l)) (seq 0 spn) /\
    it_loss it = sqrt (sumn spn (fun l => (obs_ l - fit3 (xmap y) l)²) / INR spn) /\
    INR spn * (it_loss it)² = sumn spn (fun l => (obs_ l - fit3 (xmap y) l)²).
  Proof.
    assert (Hy : length (map y (seq 0 spn)) = spn) by (rewrite map_length, seq_length; reflexivity).
    destruct (step_facts svd t spl s0 s1 s2 spn delt tau Hsvd Hs H0 H1 H2 Hin Ht _ Hy) as
      (A1 & A2 & A3 & S1 & S2 & S3 & it & E1 & E2 & E3 & HA1 & HA2 & HA3 & F1 & F2 & F3 & E & EX & EY & EZ & Ey & El & Er).
    exists it. split; [exact E|]. assert (Ex : xmap y = (it_X it, it_Y it, it_Z it)) by (unfold xmap; rewrite E; reflexivity). split; [exact Ex|].
    destruct (c83_step svd t spl s0 s1 s2 spn delt tau Hsvd Hs H0 H1 H2 Hin Ht _ it Hy E) as (HM & EL & _).
    unfold ok3, fit3. rewrite Ex. cbn [t1 t2 t3 fst snd]. split; [exact HM|]. split; [|split; [exact El|exact EL]].
    rewrite Ey. apply map_ext_in. intros l Hl. apply in_seq in Hl. rewrite (nth_map_seq y spn l 0) by lia. reflexivity.
  Qed.

  Lemma cost_ok v : ok3 v -> 0 <= cost3 v <= (tau / sqrt (INR s2) * (INR s0 + 1) + tau / sqrt (INR s0) * (INR s1 + 1) + tau / sqrt (INR s1) * (INR s2 + 1))
    + (tau / sqrt (INR s2) + tau / sqrt (INR s0) + tau / sqrt (INR s1) + /2) * sq3 v.
  Proof.
    intros (HA & HB & HC & eA & cB & cC).
    assert (P : forall n, (0 < n)%nat -> 0 <= tau / sqrt (INR n)).
    { intros n Hn. destruct (sq_pos n Hn) as [Hq _]. apply Rmult_le_pos; auto. left. apply Rinv_0_lt_compat; auto. }
    pose proof (P s2 H2) as P2. pose proof (P s0 H0) as P0. pose proof (P s1 H1) as P1.
    pose proof (penalty_bound Complicated _ s0 s1 _ HA H0 H1 eA (pen_ok Complicated _ _ _ HA)) as B1.
    pose proof (penalty_bound Normal _ s1 s2 _ HB H1 H2 cB (pen_ok Normal _ _ _ HB)) as B2.
    pose proof (penalty_bound Normal _ s2 s0 _ HC H2 H0 cC (pen_ok Normal _ _ _ HC)) as B3.
    assert (N : forall Z r c, is_mat Z r c -> 0 <= sqfro Z) by (intros Z r c HZ; rewrite (sqfro_fro Z r c HZ); apply fro_nonneg).
    pose proof (N _ _ _ HA) as N1. pose proof (N _ _ _ HB) as N2. pose proof (N _ _ _ HC) as N3.
    unfold cost3, sq3. set (a := tau / sqrt (INR s2)) in *. set (b := tau / sqrt (INR s0)) in *. set (e := tau / sqrt (INR s1)) in *.
    set (pa := pen Complicated s0 s1 (t1 v)) in *. set (pb := pen Normal s1 s2 (t2 v)) in *. set (pc := pen Normal s2 s0 (t3 v)) in *.
    set (fa := sqfro (t1 v)) in *. set (fb := sqfro (t2 v)) in *. set (fc := sqfro (t3 v)) in *.
    assert (0 <= a * pa) by nra. assert (0 <= b * pb) by nra. assert (0 <= e * pc) by nra.
    assert (a * pa <= a * (INR s0 + 1 + fa)) by (apply Rmult_le_compat_l; lra).
    assert (b * pb <= b * (INR s1 + 1 + fb)) by (apply Rmult_le_compat_l; lra).
    assert (e * pc <= e * (INR s2 + 1 + fc)) by (apply Rmult_le_compat_l; lra).
    assert (0 <= a * (fb + fc)) by nra. assert (0 <= b * (fa + fc)) by nra. assert (0 <= e * (fa + fb)) by nra. split; nra.
  Qed.

  Lemma dist_pos v w : ok3 v -> ok3 w -> 0 <= dist3 v w.
  Proof.
    intros (HA & HB & HC & _) _. unfold dist3. pose proof (sqdiff_nonneg _ (t1 w) _ _ HA). pose proof (sqdiff_nonneg _ (t2 w) _ _ HB). pose proof (sqdiff_nonneg _ (t3 w) _ _ HC). lra.
  Qed.
  Lemma dist_sym v w : ok3 v -> ok3 w -> dist3 v w = dist3 w v.
  Proof.
    intros (HA & HB & HC & _) (HA' & HB' & HC' & _). unfold dist3. rewrite (sqdiff_sym (t1 v) (t1 w) s0 s1), (sqdiff_sym (t2 v) (t2 w) s1 s2), (sqdiff_sym (t3 v) (t3 w) s2 s0); auto.
  Qed.

  Lemma opt3 y v : ok3 v -> cost3 (xmap y) - vd spn (fit3 (xmap y)) y + /2 * dist3 v (xmap y) <= cost3 v - vd spn (fit3 v) y.
  Proof.
    intros (HA & HB & HC & eA & cB & cC). assert (Hy : length (map y (seq 0 spn)) = spn) by (rewrite map_length, seq_length; reflexivity).
    destruct (step_facts svd t spl s0 s1 s2 spn delt tau Hsvd Hs H0 H1 H2 Hin Ht _ Hy) as
      (A1 & A2 & A3 & S1 & S2 & S3 & it & E1 & E2 & E3 & HA1 & HA2 & HA3 & F1 & F2 & F3 & E & EX & EY & EZ & Ey & El & Er).
    assert (Ex : xmap y = (it_X it, it_Y it, it_Z it)) by (unfold xmap; rewrite E; reflexivity).
    assert (MX : is_mat (it_X it) s0 s1) by (rewrite EX; apply is_mat_mgen). assert (MY : is_mat (it_Y it) s1 s2) by (rewrite EY; apply is_mat_mgen).
    assert (MZ : is_mat (it_Z it) s2 s0) by (rewrite EZ; apply is_mat_mgen).
    destruct (sq_pos s0 H0) as [Q0 _]. destruct (sq_pos s1 H1) as [Q1 _]. destruct (sq_pos s2 H2) as [Q2 _].
    pose proof (block_opt svd s0 s1 Complicated tau _ Hsvd H0 H1 Ht Q2 A1 S1 (it_X it) (t1 v) _ _ HA1 F1 EX HA eA (pen_ok Complicated _ _ _ MX) (pen_ok Complicated _ _ _ HA)) as B1.
    pose proof (block_opt svd s1 s2 Normal tau _ Hsvd H1 H2 Ht Q0 A2 S2 (it_Y it) (t2 v) _ _ HA2 F2 EY HB cB (pen_ok Normal _ _ _ MY) (pen_ok Normal _ _ _ HB)) as B2.
    pose proof (block_opt svd s2 s0 Normal tau _ Hsvd H2 H0 Ht Q1 A3 S3 (it_Z it) (t3 v) _ _ HA3 F3 EZ HC cC (pen_ok Normal _ _ _ MZ) (pen_ok Normal _ _ _ HC)) as B3.
    pose proof (pairing _ A1 A2 A3 _ _ _ Hy E1 E2 E3 MX MY MZ) as P1. pose proof (pairing _ A1 A2 A3 _ _ _ Hy E1 E2 E3 HA HB HC) as P2.
    assert (V1 : vd spn (fit3 (xmap y)) y = sumn spn (fun l => fit_ (it_X it) (it_Y it) (it_Z it) l * nth l (map y (seq 0 spn)) 0)).
    { apply sumnR_ext. intros l Hl. rewrite (nth_map_seq y spn l 0 Hl), Ex. reflexivity. }
    assert (V2 : vd spn (fit3 v) y = sumn spn (fun l => fit_ (t1 v) (t2 v) (t3 v) l * nth l (map y (seq 0 spn)) 0)).
    { apply sumnR_ext. intros l Hl. rewrite (nth_map_seq y spn l 0 Hl). reflexivity. }
    rewrite V1, V2, <- P1, <- P2. rewrite Ex. unfold cost3, dist3, sq3. cbn [t1 t2 t3 fst snd]. lra.
  Qed.

  Lemma lip3 v w : ok3 v -> ok3 w -> vd spn (fun l => fit3 v l - fit3 w l) (fun l => fit3 v l - fit3 w l) <= Lc * dist3 v w.
  Proof.
    intros (HA & HB & HC & _) (HA' & HB' & HC' & _). destruct Hdis as (Da & Db & Dc).
    destruct (sq_pos s0 H0) as [Q0 R0]. destruct (sq_pos s1 H1) as [Q1 R1]. destruct (sq_pos s2 H2) as [Q2 R2].
    set (fa := fun i j => (mget (t1 v) i j - mget (t1 w) i j)²). set (fb := fun i j => (mget (t2 v) i j - mget (t2 w) i j)²). set (fc := fun i j => (mget (t3 v) i j - mget (t3 w) i j)²).
    pose proof (distinct_le s0 s1 spn _ _ fa (in_ab spl s0 s1 s2 spn Hin) Da ltac:(intros; apply Rle_0_sqr)) as La.
    pose proof (distinct_le s1 s2 spn _ _ fb (in_bc spl s0 s1 s2 spn Hin) Db ltac:(intros; apply Rle_0_sqr)) as Lb.
    pose proof (distinct_le s2 s0 spn _ _ fc (in_ca spl s0 s1 s2 spn Hin) Dc ltac:(intros; apply Rle_0_sqr)) as Lcc.
    unfold dist3. rewrite (sqdiff_fro _ (t1 w) s0 s1 HA), (sqdiff_fro _ (t2 w) s1 s2 HB), (sqdiff_fro _ (t3 w) s2 s0 HC).
    change (fro s0 s1 (fun i j => mget (t1 v) i j - mget (t1 w) i j)) with (sumn s0 (fun i => sumn s1 (fun j => fa i j))).
    change (fro s1 s2 (fun i j => mget (t2 v) i j - mget (t2 w) i j)) with (sumn s1 (fun i => sumn s2 (fun j => fb i j))).
    change (fro s2 s0 (fun i j => mget (t3 v) i j - mget (t3 w) i j)) with (sumn s2 (fun i => sumn s0 (fun j => fc i j))).
    assert (HL : 0 <= Lc) by (unfold Lc; repeat apply Rplus_le_le_0_compat; left; apply Rinv_0_lt_compat, lt_0_INR; auto).
    eapply Rle_trans; [|apply Rmult_le_compat_l; [exact HL|apply Rplus_le_compat; [apply Rplus_le_compat; [exact La|exact Lb]|exact Lcc]]].
    rewrite <- !sumnR_add, <- sumnR_scale. apply sumnR_le. intros l Hl. unfold fit3, fit, interaction, fa, fb, fc, ia, ib, ic.
    set (p := mget (t1 v) (nth l (sp_a spl) 0%nat) (nth l (sp_b spl) 0%nat)). set (p' := mget (t1 w) (nth l (sp_a spl) 0%nat) (nth l (sp_b spl) 0%nat)).
    set (q := mget (t2 v) (nth l (sp_b spl) 0%nat) (nth l (sp_c spl) 0%nat)). set (q' := mget (t2 w) (nth l (sp_b spl) 0%nat) (nth l (sp_c spl) 0%nat)).
    set (r := mget (t3 v) (nth l (sp_c spl) 0%nat) (nth l (sp_a spl) 0%nat)). set (r' := mget (t3 w) (nth l (sp_c spl) 0%nat) (nth l (sp_a spl) 0%nat)).
    assert (EL : Lc = / sqrt (INR s0) * / sqrt (INR s0) + / sqrt (INR s1) * / sqrt (INR s1) + / sqrt (INR s2) * / sqrt (INR s2)).
    { unfold Lc. rewrite <- R0 at 1. rewrite <- R1 at 1. rewrite <- R2 at 1. rewrite !Rinv_mult. reflexivity. }
    rewrite EL. clear EL. set (i0 := / sqrt (INR s0)). set (i1 := / sqrt (INR s1)). set (i2 := / sqrt (INR s2)).
    unfold Rdiv. fold i0 i1 i2. replace (p * i2 + q * i0 + r * i1 - (p' * i2 + q' * i0 + r' * i1)) with ((p - p') * i2 + (q - q') * i0 + (r - r') * i1) by ring.
    set (d := p - p'). set (e := q - q'). set (f := r - r').
    pose proof (Rle_0_sqr (d * i0 - e * i2)) as S1. pose proof (Rle_0_sqr (d * i1 - f * i2)) as S2. pose proof (Rle_0_sqr (e * i1 - f * i0)) as S3. unfold Rsqr in *. nra.
  Qed.

  Lemma grow3 b v w a rho : ok3 b -> ok3 v -> ok3 w -> exists B, forall u, ok3 u -> dist3 b u <= rho ->
    exists z, ok3 z /\ cost3 z <= B /\ forall l, (l < spn)%nat -> fit3 z l = fit3 u l + a * (fit3 v l - fit3 w l).
  Proof.
    intros (HAb & HBb & HCb & eAb & cBb & cCb) (HAv & HBv & HCv & eAv & cBv & cCv) (HAw & HBw & HCw & eAw & cBw & cCw).
    set (K1 := tau / sqrt (INR s2) * (INR s0 + 1) + tau / sqrt (INR s0) * (INR s1 + 1) + tau / sqrt (INR s1) * (INR s2 + 1)).
    set (K2 := tau / sqrt (INR s2) + tau / sqrt (INR s0) + tau / sqrt (INR s1) + /2).
    assert (HK2 : 0 <= K2).
    { assert (P : forall n, (0 < n)%nat -> 0 <= tau / sqrt (INR n)).
      { intros n Hn. destruct (sq_pos n Hn) as [Hq _]. apply Rmult_le_pos; auto. left. apply Rinv_0_lt_compat; auto. }
      unfold K2. pose proof (P s2 H2). pose proof (P s0 H0). pose proof (P s1 H1). lra. }
    exists (K1 + K2 * (3 * sq3 b + 3 * rho + 3 * (a * a) * dist3 v w)). intros u (HAu & HBu & HCu & eAu & cBu & cCu) Hr.
    set (z := (lcomb s0 s1 a (t1 u) (t1 v) (t1 w), lcomb s1 s2 a (t2 u) (t2 v) (t2 w), lcomb s2 s0 a (t3 u) (t3 v) (t3 w))). exists z.
    assert (Hz : ok3 z).
    { unfold ok3, z. cbn [t1 t2 t3 fst snd]. split; [apply is_mat_mgen|]. split; [apply is_mat_mgen|]. split; [apply is_mat_mgen|].
      split; [apply (lcomb_adm Complicated); auto|]. split; apply (lcomb_adm Normal); auto. }
    split; [exact Hz|]. split.
    - eapply Rle_trans; [apply (proj2 (cost_ok z Hz))|]. fold K1 K2. apply Rplus_le_compat_l, Rmult_le_compat_l; [exact HK2|].
      unfold sq3 at 1, z. cbn [t1 t2 t3 fst snd]. pose proof (lcomb_size s0 s1 a (t1 b) (t1 u) (t1 v) (t1 w) HAb HAu HAv HAw) as L1.
      pose proof (lcomb_size s1 s2 a (t2 b) (t2 u) (t2 v) (t2 w) HBb HBu HBv HBw) as L2. pose proof (lcomb_size s2 s0 a (t3 b) (t3 u) (t3 v) (t3 w) HCb HCu HCv HCw) as L3.
      unfold dist3 in *. unfold sq3, t1, t2, t3 in *. set (k := a * a) in *. nra.
    - intros l Hl. destruct Hin as (_ & _ & _ & Hi). destruct (Hi l Hl) as (Ha & Hb & Hc). unfold fit3, fit, interaction, z. cbn [t1 t2 t3 fst snd].
      unfold lcomb, ia, ib, ic. rewrite !mget_mgen by assumption. unfold Rdiv. ring.
  Qed.

  (** the iterates *)
  Definition yseq : nat -> nat -> R := yk trip fit3 obs_ delt xmap.
  Definition itk (k : nat) : iter R :=
    match step (map (yseq k) (seq 0 spn)) with Ok it => it | Raise _ => mkI (mgen 0 0 (fun _ _ => 0)) (mgen 0 0 (fun _ _ => 0)) (mgen 0 0 (fun _ _ => 0)) 0 0 [] end.

  Lemma itk_facts k : step (map (yseq k) (seq 0 spn)) = Ok (itk k) /\ xmap (yseq k) = (it_X (itk k), it_Y (itk k), it_Z (itk k)) /\ ok3 (xmap (yseq k)) /\
    it_y (itk k) = map (yseq (S k)) (seq 0 spn) /\
    INR spn * (it_loss (itk k))² = vd spn (res trip fit3 obs_ xmap (yseq k)) (res trip fit3 obs_ xmap (yseq k)) /\ 0 <= it_loss (itk k).
  Proof.
    destruct (xmap_facts (yseq k)) as (it & E & Ex & Ho & Ey & El & EL).
    assert (Ei : itk k = it) by (unfold itk; rewrite E; reflexivity). rewrite Ei. split; [exact E|]. split; [exact Ex|]. split; [exact Ho|]. split; [exact Ey|].
    split; [exact EL|]. rewrite El. apply sqrt_pos.
  Qed.

  Lemma run_ok n : forall k, np_loop (shrink_np svd) t spl spn delt tau (map (yseq k) (seq 0 spn)) n = Ok (map itk (seq k n)).
  Proof.
    induction n as [|n IH]; intros k; [reflexivity|]. destruct (itk_facts k) as (E & _ & _ & Ey & _). cbn [np_loop]. rewrite E. cbn [bind].
    rewrite Ey, IH. reflexivity.
  Qed.
End Conv.

Lemma repeat_map_seq (n : nat) : repeat (@n0 R NumR) n = map (fun _ => 0) (seq 0 n).
Proof. generalize 0%nat. induction n as [|n IH]; intros k; [reflexivity|]. cbn [repeat seq map]. rewrite (IH (S k)). reflexivity. Qed.

Section Recovery.
  Variables (svd : tensor R -> tensor R * list R * tensor R) (t : tensor R) (spl : sample) (s0 s1 s2 spn : nat) (delt0 tao0 : R).
  Hypotheses (Hsvd : full_svd svd) (Hs : shp t = [s0; s1; s2]) (H0 : (0 < s0)%nat) (H1 : (0 < s1)%nat) (H2 : (0 < s2)%nat)
    (Hin : sample_in s0 s1 s2 spn spl) (Ht : 0 <= tao0).
  Notation delt := (step_size delt0 spn s0 s1 s2).
  Notation tau := (threshold tao0 s0 s1 s2).
  Notation it_ := (itk svd t spl s0 s1 s2 spn delt tau).
  Notation y_ := (yseq svd t spl s0 s1 s2 spn delt tau).

  Lemma tau_pos : 0 <= tau. Proof. apply Rmult_le_pos; [auto|apply sqrt_pos]. Qed.
  Lemma delt_eq : pitf_delt delt0 spn (shp t) = delt.
  Proof. unfold pitf_delt, step_size. rewrite Hs, !nofnat_R. cbn [prod fold_right]. do 3 f_equal. unfold prod. cbn [fold_right]. rewrite Nat.mul_1_r, Nat.mul_assoc. reflexivity. Qed.
  Lemma tau_eq : pitf_tao tao0 (shp t) = tau.
  Proof. unfold pitf_tao, threshold. rewrite Hs, !nofnat_R. do 3 f_equal. unfold prod. cbn [fold_right]. rewrite Nat.mul_1_r, Nat.mul_assoc. reflexivity. Qed.

  Theorem recovery_runs rank steps : freedom rank s0 s1 s2 <> 0%Z -> (0 < steps)%Z ->
    let n := Z.to_nat steps in
    exact_recovery svd t spl rank delt0 tao0 spn steps =
      Ok (map (y_ n) (seq 0 spn), it_ (n - 1)%nat, seq 0 n, map (fun k => it_erate (it_ k)) (seq 0 n), map (fun k => it_loss (it_ k)) (seq 0 n)).
  Proof.
    intros Hf Hst n. unfold exact_recovery. rewrite delt_eq, tau_eq, Hs. cbv zeta. fold (freedom rank s0 s1 s2).
    apply Z.eqb_neq in Hf. rewrite Hf. rewrite repeat_map_seq.
    change (map (fun _ => 0) (seq 0 spn)) with (map (y_ 0%nat) (seq 0 spn)).
    rewrite (run_ok svd t spl s0 s1 s2 spn delt tau Hsvd Hs H0 H1 H2 Hin tau_pos (Z.to_nat steps) 0%nat). fold n. cbn [bind].
    assert (Hn : n = S (n - 1)) by (unfold n; lia). rewrite Hn at 1. rewrite seq_S, map_app, rev_app_distr. cbn [map rev app Nat.add].
    destruct (itk_facts svd t spl s0 s1 s2 spn delt tau Hsvd Hs H0 H1 H2 Hin tau_pos (n - 1)) as (_ & _ & _ & Ey & _).
    rewrite Ey, <- Hn, map_length, seq_length, !map_map. reflexivity.
  Qed.

  (** a covering sample and no error left: the matrices are found *)
  Theorem c83_run rank steps y it If Ef Rf : exact_recovery svd t spl rank delt0 tao0 spn steps = Ok (y, it, If, Ef, Rf) ->
    interaction_matrices s0 s1 s2 (it_X it) (it_Y it) (it_Z it) /\ (exists Rf', Rf = Rf' ++ [it_loss it]) /\ 0 <= it_loss it /\
    forall A B C, interaction_matrices s0 s1 s2 A B C ->
      (forall i j k, (i < s0)%nat -> (j < s1)%nat -> (k < s2)%nat -> get t [i; j; k] = interaction s0 s1 s2 A B C i j k) ->
      sample_covers s0 s1 s2 spn spl ->
      sqdiff (it_X it) A + sqdiff (it_Y it) B + sqdiff (it_Z it) C <= INR spn * (it_loss it)².
  Proof.
    intros E. destruct (c63_np svd t spl rank delt0 tao0 spn steps y it If Ef Rf E) as (Hst & _).
    assert (Hf : freedom rank s0 s1 s2 <> 0%Z).
    { intros Hf. unfold exact_recovery in E. rewrite Hs in E. cbv zeta in E. fold (freedom rank s0 s1 s2) in E. rewrite Hf in E. discriminate. }
    pose proof (recovery_runs rank steps Hf Hst) as R. cbv zeta in R. rewrite E in R. injection R as -> -> -> -> ->. set (n := Z.to_nat steps).
    destruct (itk_facts svd t spl s0 s1 s2 spn delt tau Hsvd Hs H0 H1 H2 Hin tau_pos (n - 1)) as (E' & _ & _ & _ & _ & Hl).
    assert (Hy : length (map (y_ (n - 1)%nat) (seq 0 spn)) = spn) by (rewrite map_length, seq_length; reflexivity).
    destruct (c83_step svd t spl s0 s1 s2 spn delt tau Hsvd Hs H0 H1 H2 Hin tau_pos _ _ Hy E') as (HM & _ & HC).
    split; [exact HM|]. split; [|split; [exact Hl|exact HC]]. exists (map (fun k => it_loss (it_ k)) (seq 0 (n - 1))).
    assert (Hn : n = S (n - 1)) by (unfold n; lia). rewrite Hn at 1. rewrite seq_S, map_app. reflexivity.
  Qed.

  Section Small.
    Hypotheses (Hdis : sample_distinct spn spl) (Hsm : small_step delt s0 s1 s2).
    Notation L := (Lc s0 s1 s2).
    Lemma dl_pos : 0 < delt. Proof. apply Hsm. Qed.
    Lemma L_pos : 0 <= L. Proof. unfold Lc. repeat apply Rplus_le_le_0_compat; left; apply Rinv_0_lt_compat, lt_0_INR; auto. Qed.
    Lemma dL : delt * L < 2. Proof. destruct Hsm as [_ H]. unfold Lc. unfold Rdiv in H. rewrite !Rmult_1_l in H. exact H. Qed.
    Notation sq_ := (xmap svd t spl spn delt tau).
    Notation ok_ := (ok3 s0 s1 s2).
    Notation fit_ := (fit3 spl s0 s1 s2).
    Notation cost_ := (cost3 svd s0 s1 s2 tau).
    Let Hok y : ok_ (sq_ y) := let (it, H) := xmap_facts svd t spl s0 s1 s2 spn delt tau Hsvd Hs H0 H1 H2 Hin tau_pos y in proj1 (proj2 (proj2 H)).
    Let Hcost v : ok_ v -> 0 <= cost_ v.
    Proof. intros Hv. apply (cost_ok svd s0 s1 s2 tau Hsvd H0 H1 H2 tau_pos v Hv). Qed.
    Let Hopt := opt3 svd t spl s0 s1 s2 spn delt tau Hsvd Hs H0 H1 H2 Hin tau_pos Hdis.
    Let Hlip := lip3 spl s0 s1 s2 spn H0 H1 H2 Hin Hdis.
    Let Hgrow := grow3 svd spl s0 s1 s2 spn tau Hsvd H0 H1 H2 Hin tau_pos.

    Lemma cost_rel A B C c : is_mat A s0 s1 -> is_mat B s1 s2 -> is_mat C s2 s0 -> recovery_cost tau s0 s1 s2 A B C c -> c = cost_ (A, B, C).
    Proof.
      intros HA HB HC (a & b & e & Pa & Pb & Pc & ->). unfold cost3, sq3. cbn [t1 t2 t3 fst snd].
      rewrite (penalty_unique Complicated A s0 s1 a (pen svd Complicated s0 s1 A) HA Pa (pen_ok svd Hsvd Complicated A s0 s1 HA)).
      rewrite (penalty_unique Normal B s1 s2 b (pen svd Normal s1 s2 B) HB Pb (pen_ok svd Hsvd Normal B s1 s2 HB)).
      rewrite (penalty_unique Normal C s2 s0 e (pen svd Normal s2 s0 C) HC Pc (pen_ok svd Hsvd Normal C s2 s0 HC)). reflexivity.
    Qed.
    Lemma cost_rel' A B C : is_mat A s0 s1 -> is_mat B s1 s2 -> is_mat C s2 s0 -> recovery_cost tau s0 s1 s2 A B C (cost_ (A, B, C)).
    Proof.
      intros HA HB HC. exists (pen svd Complicated s0 s1 A), (pen svd Normal s1 s2 B), (pen svd Normal s2 s0 C).
      split; [apply (pen_ok svd Hsvd Complicated A s0 s1 HA)|]. split; [apply (pen_ok svd Hsvd Normal B s1 s2 HB)|]. split; [apply (pen_ok svd Hsvd Normal C s2 s0 HC)|]. reflexivity.
    Qed.

    Theorem c85_losses rank steps y it If Ef Rf A B C c : exact_recovery svd t spl rank delt0 tao0 spn steps = Ok (y, it, If, Ef, Rf) ->
      interaction_matrices s0 s1 s2 A B C -> matches t spl spn s0 s1 s2 A B C -> recovery_cost tau s0 s1 s2 A B C c ->
      delt * (2 - delt * (1 / INR s0 + 1 / INR s1 + 1 / INR s2)) / 2 * (INR spn * bigsum (length Rf) (fun k => (nth k Rf 0)²)) <= c.
    Proof.
      intros E HI HM Hc. destruct (c63_np svd t spl rank delt0 tao0 spn steps y it If Ef Rf E) as (Hst & _).
      assert (Hf : freedom rank s0 s1 s2 <> 0%Z).
      { intros Hf. unfold exact_recovery in E. rewrite Hs in E. cbv zeta in E. fold (freedom rank s0 s1 s2) in E. rewrite Hf in E. discriminate. }
      pose proof (recovery_runs rank steps Hf Hst) as R. cbv zeta in R. rewrite E in R. injection R as -> -> -> -> ->. set (n := Z.to_nat steps).
      destruct HI as (HA & HB & HC & HI'). rewrite (cost_rel A B C c HA HB HC Hc).
      pose proof (res_sum trip ok_ cost_ fit_ dist3 (obs t spl) spn delt L sq_ Hok Hcost (dist_pos s0 s1 s2) Hopt Hlip L_pos dl_pos (A, B, C) (conj HA (conj HB (conj HC HI'))) HM n) as G.
      eapply Rle_trans; [|exact G]. right. f_equal; [unfold Lc; unfold Rdiv; rewrite !Rmult_1_l; reflexivity|].
      rewrite map_length, seq_length, bigsumR, <- sumnR_scale. apply sumnR_ext. intros k Hk.
      rewrite (nth_map_seq (fun k => it_loss (it_ k)) n k 0 Hk).
      destruct (itk_facts svd t spl s0 s1 s2 spn delt tau Hsvd Hs H0 H1 H2 Hin tau_pos k) as (_ & _ & _ & _ & EL & _). exact EL.
    Qed.

    Theorem c85_converges : (exists A B C, interaction_matrices s0 s1 s2 A B C /\ matches t spl spn s0 s1 s2 A B C) ->
      exists X Y Z c, interaction_matrices s0 s1 s2 X Y Z /\ matches t spl spn s0 s1 s2 X Y Z /\ recovery_cost tau s0 s1 s2 X Y Z c /\
        (forall A B C c', interaction_matrices s0 s1 s2 A B C -> matches t spl spn s0 s1 s2 A B C -> recovery_cost tau s0 s1 s2 A B C c' ->
           c + /2 * (sqdiff A X + sqdiff B Y + sqdiff C Z) <= c') /\
        forall eps, 0 < eps -> exists N, forall rank steps, freedom rank s0 s1 s2 <> 0%Z -> (Z.of_nat N <= steps)%Z ->
          exists y it If Ef Rf, exact_recovery svd t spl rank delt0 tao0 spn steps = Ok (y, it, If, Ef, Rf) /\
            sqdiff (it_X it) X + sqdiff (it_Y it) Y + sqdiff (it_Z it) Z < eps /\ it_loss it < eps.
    Proof.
      intros (A & B & C & HI & HM).
      destruct (dual_exists trip ok_ cost_ fit_ dist3 (obs t spl) spn delt L sq_ Hok Hcost (dist_pos s0 s1 s2) (dist_sym s0 s1 s2) Hopt Hlip Hgrow L_pos dl_pos dL (A, B, C) HI HM) as (ys & Hys).
      set (v := sq_ ys). exists (t1 v), (t2 v), (t3 v), (cost_ v). pose proof (Hok ys) as Hv. fold v in Hv. pose proof Hv as (HX & HY & HZ & _).
      assert (Ev : (t1 v, t2 v, t3 v) = v) by (destruct v as [[? ?] ?]; reflexivity).
      split; [exact Hv|]. split.
      { intros l Hl. specialize (Hys l Hl). unfold res in Hys. fold v in Hys. unfold fit3, fit, obs in Hys. unfold ia, ib, ic in Hys. lra. }
      split; [pose proof (cost_rel' _ _ _ HX HY HZ) as K; rewrite Ev in K; exact K|]. split.
      { intros A' B' C' c' HI' HM' Hc'. pose proof HI' as (HA & HB & HC & _). rewrite (cost_rel A' B' C' c' HA HB HC Hc').
        exact (fixed_opt trip ok_ cost_ fit_ dist3 (obs t spl) spn sq_ Hopt ys Hys (A', B', C') HI' HM'). }
      intros eps He.
      destruct (fixed_limit trip ok_ cost_ fit_ dist3 (obs t spl) spn delt L sq_ Hok (dist_pos s0 s1 s2) (dist_sym s0 s1 s2) Hopt Hlip dl_pos dL ys Hys eps He) as (N1 & HN1).
      assert (Hn : (0 < spn)%nat).
      { destruct (Nat.eq_dec spn 0) as [E0|]; [|lia]. exfalso. pose proof dl_pos as P. unfold step_size in P. rewrite E0 in P. simpl INR in P. unfold Rdiv in P. rewrite Rmult_0_r, Rmult_0_l in P. lra. }
      pose proof (lt_0_INR spn Hn) as In.
      set (e2 := eps * eps * INR spn / (L + 1)). assert (He2 : 0 < e2).
      { unfold e2. pose proof L_pos. apply Rdiv_lt_0_compat; [|lra]. apply Rmult_lt_0_compat; [nra|auto]. }
      destruct (fixed_limit trip ok_ cost_ fit_ dist3 (obs t spl) spn delt L sq_ Hok (dist_pos s0 s1 s2) (dist_sym s0 s1 s2) Hopt Hlip dl_pos dL ys Hys e2 He2) as (N2 & HN2).
      exists (S (N1 + N2)). intros rank steps Hf Hst. set (n := Z.to_nat steps).
      eexists _, (it_ (n - 1)%nat), _, _, _. split; [apply (recovery_runs rank steps Hf); lia|].
      destruct (itk_facts svd t spl s0 s1 s2 spn delt tau Hsvd Hs H0 H1 H2 Hin tau_pos (n - 1)) as (_ & Ex & Ho & _ & EL & Hl).
      specialize (HN1 (n - 1)%nat ltac:(unfold n; lia)). specialize (HN2 (n - 1)%nat ltac:(unfold n; lia)). unfold xk in HN1, HN2.
      change (yk trip fit_ (obs t spl) delt sq_ (n - 1)) with (y_ (n - 1)%nat) in HN1, HN2. fold v in HN1, HN2. split.
      { rewrite Ex in HN1. exact HN1. }
      pose proof (Hlip _ _ Ho Hv) as K.
      rewrite (vd_ext spn (res trip fit_ (obs t spl) sq_ (y_ (n - 1)%nat)) (fun l => -1 * (fit_ (sq_ (y_ (n - 1)%nat)) l - fit_ v l) + 0 * 0) _ (fun l => -1 * (fit_ (sq_ (y_ (n - 1)%nat)) l - fit_ v l) + 0 * 0)) in EL.
      2,3: intros l Hl'; specialize (Hys l Hl'); unfold res in *; fold v in Hys; lra.
      rewrite (vd_lin_r spn _ (fun l => fit_ (sq_ (y_ (n - 1)%nat)) l - fit_ v l) (fun _ => 0)), !(vd_lin_l spn _ (fun l => fit_ (sq_ (y_ (n - 1)%nat)) l - fit_ v l) (fun _ => 0)) in EL.
      set (F := vd spn (fun l => fit_ (sq_ (y_ (n - 1)%nat)) l - fit_ v l) (fun l => fit_ (sq_ (y_ (n - 1)%nat)) l - fit_ v l)) in *.
      rewrite (vd_sym spn _ (fun _ => 0)), !vd_zero_l in EL. set (D := dist3 (sq_ (y_ (n - 1)%nat)) v) in *. pose proof L_pos as LP.
      assert (HF : F < eps * eps * INR spn).
      { assert (D0 : 0 <= D) by (apply (dist_pos s0 s1 s2); auto). eapply Rle_lt_trans with ((L + 1) * D); [nra|].
        replace (eps * eps * INR spn) with ((L + 1) * e2) by (unfold e2; field; lra). apply Rmult_lt_compat_l; lra. }
      assert (Hq : (it_loss (it_ (n - 1)%nat))² < eps²).
      { apply Rmult_lt_reg_l with (INR spn); [auto|]. rewrite EL. unfold Rsqr. lra. }
      apply Rsqr_incrst_0; lra.
    Qed.
  End Small.
End Recovery.

Theorem c84_penalty mode (Z : tensor R) r c : is_mat Z r c -> (0 < r)%nat -> (0 < c)%nat -> admissible mode Z ->
  exists p, penalty mode Z p /\ 0 <= p /\ forall p', penalty mode Z p' -> p' = p.
Proof.
  intros HZ Hr Hc Ha. destruct (penalty_exists mode Z r c HZ) as (p & Hp). exists p. split; [exact Hp|].
  split; [apply (penalty_bound mode Z r c p HZ Hr Hc Ha Hp)|]. intros p' Hp'. apply (penalty_unique mode Z r c); auto.
Qed.

Theorem c83_runs svd (t : tensor R) spl s0 s1 s2 spn delt0 tao0 : full_svd svd -> shp t = [s0; s1; s2] ->
  (0 < s0)%nat -> (0 < s1)%nat -> (0 < s2)%nat -> sample_in s0 s1 s2 spn spl -> 0 <= tao0 ->
  exists (ys : nat -> list R) (its : nat -> iter R), forall rank steps, freedom rank s0 s1 s2 <> 0%Z -> (0 < steps)%Z ->
    let n := Z.to_nat steps in
    exact_recovery svd t spl rank delt0 tao0 spn steps =
      Ok (ys n, its (n - 1)%nat, seq 0 n, map (fun k => it_erate (its k)) (seq 0 n), map (fun k => it_loss (its k)) (seq 0 n)).
Proof.
  intros Hsvd Hs H0 H1 H2 Hin Ht.
  exists (fun n => map (yseq svd t spl s0 s1 s2 spn (step_size delt0 spn s0 s1 s2) (threshold tao0 s0 s1 s2) n) (seq 0 spn)). eexists.
  intros rank steps Hf Hst n. exact (recovery_runs svd t spl s0 s1 s2 spn delt0 tao0 Hsvd Hs H0 H1 H2 Hin Ht rank steps Hf Hst).
Qed.
