(** HOSVD of data whose modes are listed in another order. *)

From Coq Require Import ZArith List Bool Arith Lia Permutation Reals Lra.
From Verif Require Import Num Py Tensor TF TensorFacts TFFacts Sums Ops Types Loss Fact Train Spec SpecR LayoutFacts SpecFacts TtmFacts Matricize
  KronFacts RSums MatR KronAlg NormFacts LossFacts SpecTucker MultiR SvdFacts TuckerFacts TuckerRun TuckerLemmas AlsLemmas QuasiOpt
  SpecScale SpecProx SpecSym SymFacts SpecGauge GaugeAlg GaugeFacts SpecModes.
From Verif Require SvdExists.
Import ListNotations.
Local Open Scope R_scope.

Lemma gather_replace p k v (l : list nat) : NoDup p -> (k < length p)%nat -> (nth k p 0 < length l)%nat -> (forall a, In a p -> (a < length l)%nat) ->
  gather 0%nat p (replace (nth k p 0%nat) v l) = replace k v (gather 0%nat p l).
Proof.
  intros Hd Hk Hl Hp. apply nth_ext with (d := 0%nat) (d' := 0%nat); [rewrite replace_length, !gather_length; reflexivity|].
  intros j Hj. rewrite gather_length in Hj. rewrite nth_replace by (rewrite gather_length; exact Hk). unfold gather. rewrite !(nth_map_lt _ _ _ 0%nat) by exact Hj.
  rewrite nth_replace by exact Hl.
  destruct (Nat.eqb_spec (nth j p 0%nat) (nth k p 0%nat)) as [E|E]; destruct (Nat.eqb_spec j k) as [F|F]; auto.
  - exfalso. apply F. apply (NoDup_nth p 0%nat); auto.
  - subst. contradiction.
Qed.

Lemma gram_isum (X M : tensor R) n i j : (n < ndims X)%nat -> (i < nth n (shp X) 0)%nat -> (j < nth n (shp X) 0)%nat -> unfold X (Z.of_nat n) = Ok M ->
  sumn (rest n (shp X)) (fun l => mget M i l * mget M j l)
  = isum (replace n 1%nat (shp X)) (fun idx => get X (replace n i idx) * get X (replace n j idx)).
Proof.
  intros Hn Hi Hj EM. apply unfold_mat in EM as [[_ HM] _]; [|exact Hn|lia]. unfold ndims in *. symmetry.
  transitivity (isum (replace n 1%nat (shp X)) (fun idx => (fun (_ l : nat) => mget M i l * mget M j l) (nth n idx 0%nat)
    (ravel (gather 0%nat (cax n (length (replace n 1%nat (shp X)))) (replace n 1%nat (shp X))) (gather 0%nat (cax n (length (replace n 1%nat (shp X)))) idx)))).
  - apply isum_ext. intros idx Hv. rewrite replace_length, gather_others. pose proof (valid_length _ _ Hv) as HL. rewrite replace_length in HL.
    assert (V : forall a, (a < nth n (shp X) 0)%nat -> mget M a (ravel (gather 0%nat (cax n (length (shp X))) (shp X)) (gather 0%nat (cax n (length (shp X))) idx)) = get X (replace n a idx)).
    { intros a Ha.
      assert (Hva : valid (shp X) (replace n a idx)).
      { apply nth_Forall2 with (da := 0%nat) (db := 0%nat); [rewrite replace_length; exact HL|]. intros q Hq. rewrite replace_length in Hq. rewrite nth_replace by lia.
        destruct (Nat.eqb_spec q n) as [->|Hqn]; [exact Ha|]. pose proof (valid_nth _ _ q Hv) as Q. rewrite replace_length, nth_replace_ne in Q by exact Hqn. apply Q. lia. }
      specialize (HM _ Hva). rewrite <- HL, gather_others, HL in HM.
      replace (ravel (gather 0%nat [n] (shp X)) (gather 0%nat [n] (replace n a idx))) with a in HM; [exact HM|].
      unfold gather. cbn [map ravel prod]. rewrite nth_replace by (rewrite HL; exact Hn). rewrite Nat.eqb_refl. lia. }
    rewrite !V by assumption. reflexivity.
  - rewrite (isum_unfold (replace n 1%nat (shp X)) n (fun _ l => mget M i l * mget M j l)) by (rewrite replace_length; exact Hn).
    rewrite nth_replace by exact Hn. rewrite Nat.eqb_refl, rest_replace. rewrite (sumn_S RLR). unfold sumn at 1. cbn [seq map]. unfold lsum. cbn [fold_right fold_left]. Rn. ring.
Qed.

Section Run.
  Variables (svdU svdU' : tensor R -> tensor R) (X Y : tensor R) (p ranks : list nat).
  Hypothesis HS : left_svd svdU.
  Hypothesis HS' : left_svd svdU'.
  Hypothesis HX : wf X.
  Hypothesis Hne : nonempty (shp X).
  Hypothesis Hp : mode_order p (ndims X).
  Hypothesis HY : reordered p X Y.
  Hypothesis Hlen : (ndims X <= length ranks)%nat.
  Hypothesis Hord : (0 < ndims X <= 13)%nat.
  Let N := ndims X.
  Let s := shp X.

  Lemma p_len : length p = N. Proof. rewrite (Permutation_length Hp), seq_length. reflexivity. Qed.
  Lemma p_lt a : In a p -> (a < N)%nat. Proof. apply (perm_in_lt _ _ Hp). Qed.
  Lemma p_nd : NoDup p. Proof. apply (perm_NoDup _ _ Hp). Qed.
  Lemma p_nth k : (k < N)%nat -> (nth k p 0 < N)%nat. Proof. intros Hk. apply p_lt, nth_In. rewrite p_len. exact Hk. Qed.
  Lemma Y_shp : shp Y = gather 0%nat p s. Proof. apply HY. Qed.
  Lemma Y_nd : ndims Y = N. Proof. unfold ndims. rewrite Y_shp, gather_length. apply p_len. Qed.
  Lemma Y_at k : (k < N)%nat -> nth k (shp Y) 0%nat = nth (nth k p 0%nat) s 0%nat.
  Proof. intros Hk. rewrite Y_shp. unfold gather. rewrite nth_map_lt with (da := 0%nat) by (rewrite p_len; exact Hk). reflexivity. Qed.
  Lemma Y_get idx : valid s idx -> get Y (gather 0%nat p idx) = get X idx. Proof. intros H. destruct HY as (_ & _ & E). apply E, H. Qed.
  Lemma Y_ne : nonempty (shp Y).
  Proof. rewrite Y_shp. apply Forall_forall. intros d Hd. apply in_map_iff in Hd as (a & <- & Ha). apply (proj1 (Forall_forall _ _) Hne), nth_In, p_lt, Ha. Qed.
  Lemma reindex (f : list nat -> R) : isum (shp Y) f = isum s (fun idx => f (gather 0%nat p idx)).
  Proof. rewrite Y_shp. symmetry. apply (isum_gather RLR). exact Hp. Qed.
  Lemma valid_Y idx : valid (shp Y) idx -> exists jdx, valid s jdx /\ gather 0%nat p jdx = idx.
  Proof. rewrite Y_shp. intros H. apply (gather_surj p s idx Hp H). Qed.

  Lemma rest_Y k : (k < N)%nat -> rest k (shp Y) = rest (nth k p 0%nat) s.
  Proof.
    intros Hk. pose proof (p_nth k Hk) as Hn.
    assert (E : forall (l : list nat) n, (n < length l)%nat -> prod (replace n 1%nat l) = rest n l).
    { intros l n Hl. rewrite <- (rest_replace n l 1%nat), rest_prod, replace_length.
      rewrite <- (prod_perm _ _ (gather_perm 0%nat (n :: cax n (length l)) (replace n 1%nat l) ltac:(rewrite replace_length; apply (kolda_perm n _ Hl)))).
      unfold gather at 1. cbn [map prod]. rewrite nth_replace by exact Hl. rewrite Nat.eqb_refl. fold (gather 0%nat (cax n (length l)) (replace n 1%nat l)). lia. }
    rewrite <- E by (fold (ndims Y); rewrite Y_nd; exact Hk). rewrite <- E by exact Hn.
    rewrite Y_shp, <- gather_replace; [|apply p_nd|rewrite p_len; exact Hk|exact Hn|exact p_lt].
    apply prod_perm, gather_perm. rewrite replace_length. exact Hp.
  Qed.

  Lemma gram_Y k M M' : (k < N)%nat -> unfold X (Z.of_nat (nth k p 0%nat)) = Ok M -> unfold Y (Z.of_nat k) = Ok M' ->
    forall i j, (i < nth (nth k p 0) s 0)%nat -> (j < nth (nth k p 0) s 0)%nat ->
    sumn (rest (nth k p 0%nat) s) (fun l => mget M' i l * mget M' j l) = sumn (rest (nth k p 0%nat) s) (fun l => mget M i l * mget M j l).
  Proof.
    intros Hk EM EM' i j Hi Hj. pose proof (p_nth k Hk) as Hn. pose proof (gram_isum X M (nth k p 0%nat) i j Hn Hi Hj EM) as G. fold s in G. rewrite G.
    rewrite <- (rest_Y k Hk). rewrite (gram_isum Y M' k i j); [|rewrite Y_nd; exact Hk|rewrite Y_at by exact Hk; exact Hi|rewrite Y_at by exact Hk; exact Hj|exact EM'].
    rewrite Y_shp, <- gather_replace; [|apply p_nd|rewrite p_len; exact Hk|exact Hn|exact p_lt].
    rewrite <- (isum_gather RLR p (replace (nth k p 0%nat) 1%nat s)) by (rewrite replace_length; exact Hp).
    apply isum_ext. intros idx Hv. pose proof (valid_length _ _ Hv) as HL. rewrite replace_length in HL.
    assert (V : forall a, (a < nth (nth k p 0) s 0)%nat -> get Y (replace k a (gather 0%nat p idx)) = get X (replace (nth k p 0%nat) a idx)).
    { intros a Ha. rewrite <- gather_replace; [|apply p_nd|rewrite p_len; exact Hk|rewrite HL; exact Hn|rewrite HL; exact p_lt]. apply Y_get.
      apply nth_Forall2 with (da := 0%nat) (db := 0%nat); [rewrite replace_length; exact HL|]. intros q Hq. rewrite replace_length in Hq. rewrite nth_replace by (rewrite HL; exact Hn).
      destruct (Nat.eqb_spec q (nth k p 0%nat)) as [->|Hqn]; [exact Ha|]. pose proof (valid_nth _ _ q Hv) as Q. rewrite replace_length, nth_replace_ne in Q by exact Hqn. apply Q. lia. }
    rewrite !V by assumption. reflexivity.
  Qed.

  Lemma factor_span k M M' : (k < N)%nat -> unfold X (Z.of_nat (nth k p 0%nat)) = Ok M -> unfold Y (Z.of_nat k) = Ok M' ->
    gap_at M (Nat.min (nth (nth k p 0%nat) ranks 0%nat) (Nat.min (nrows M) (ncols M))) ->
    same_span (fun i => i) (leading (svdU M) (nth (nth k p 0%nat) ranks 0%nat)) (leading (svdU' M') (nth (nth k p 0%nat) ranks 0%nat)).
  Proof.
    intros Hk EM EM' Hgap. pose proof (p_nth k Hk) as Hn. set (n := nth k p 0%nat) in *.
    assert (H0 : nth n s 0%nat <> 0%nat) by (apply nonempty_nth; auto).
    pose proof (gram_Y k M M' Hk EM EM') as G. fold n in G.
    pose proof EM as EM1. apply unfold_mat in EM1 as [_ EM1]; auto. destruct (matrix_is_mat _ _ _ EM1) as (Hm & Hr & Hc).
    pose proof EM' as EM2. apply unfold_mat in EM2 as [_ EM2]; [|rewrite Y_nd; exact Hk|rewrite Y_at by exact Hk; exact H0].
    rewrite Y_at, rest_Y in EM2 by exact Hk. destruct (matrix_is_mat _ _ _ EM2) as (Hm' & Hr' & Hc').
    assert (R0 : rest n s <> 0%nat) by (apply rest_nonzero; auto).
    destruct (HS M Hm) as (t & W & Hs); [rewrite Hr; auto|rewrite Hc; auto|].
    destruct (HS' M' Hm') as (t' & W' & Hs'); [rewrite Hr'; auto|rewrite Hc'; auto|].
    refine (leading_same X (fun _ i => i) _ n M M' (svdU M) (svdU' M') W W' t t' _ Hn _ _ _ Hs Hs' Hgap).
    - intros a _. split; auto.
    - rewrite Hc. exact EM1.
    - rewrite Hc. exact EM2.
    - rewrite Hc. exact G.
  Qed.

  (** the full tensor entry by entry *)
  Lemma full_entry (Z : tensor R) rk A idx : wf Z -> factor_state Z rk A -> valid (shp Z) idx ->
    get (tucker_tensor (project Z A) A) idx
    = isum (shp Z) (fun j => get Z j * bigprod (ndims Z) (fun k => outer (mat_at A k) (nth k idx 0%nat) (nth k j 0%nat))).
  Proof.
    intros HZ HA Hv. rewrite (full_onto Z HZ rk A HA).
    pose (P := map (fun k => gram_of (mtrans (mat_at A k))) (seq 0 (ndims Z))).
    assert (LP : length P = ndims Z) by (unfold P; rewrite map_length, seq_length; reflexivity).
    assert (PA : forall k, (k < ndims Z)%nat -> mat_at P k = gram_of (mtrans (mat_at A k))).
    { intros k Hk. unfold mat_at at 1, P. rewrite nth_map_seq with (d := mkT [] []) by exact Hk. reflexivity. }
    assert (SA : forall k, (k < ndims Z)%nat -> nrows (mat_at A k) = nth k (shp Z) 0%nat) by (intros k Hk; apply (A_fits Z rk A HA k Hk)).
    replace (map (fun k => (gram_of (mtrans (mat_at A k)), k)) (seq 0 (ndims Z))) with (combine P (seq 0 (length P))).
    2:{ rewrite (combine_nth_map P _ (mkT [] []) 0%nat) by (rewrite seq_length; auto). rewrite LP. apply map_ext_in. intros k Hk. apply in_seq in Hk.
        rewrite seq_nth by lia. cbn [Nat.add]. f_equal. apply PA. lia. }
    rewrite (mode_products_tucker RLR); [|exact HZ|exact LP|].
    - unfold tucker_tensor. rewrite get_gen.
      + rewrite <- (isum_msum RLR). apply isum_ext. intros j Hj. rewrite LP. apply (f_equal (Rmult (get Z j))). apply bigprod_ext. intros k Hk. rewrite PA by exact Hk.
        apply mget_gramT; rewrite SA by exact Hk; [apply (valid_nth _ _ k Hv Hk)|apply (valid_nth _ _ k Hj Hk)].
      + replace (map nrows P) with (shp Z); [exact Hv|]. apply nth_ext with (d := 0%nat) (d' := 0%nat); [rewrite map_length; symmetry; exact LP|]. intros k Hk.
        rewrite nth_map_lt with (da := mkT [] []) by (rewrite LP; exact Hk). fold (mat_at P k). rewrite PA by exact Hk. symmetry. exact (SA k Hk).
    - intros k Hk. rewrite LP in Hk. rewrite PA by exact Hk. split; [split; [apply wf_gen|reflexivity]|]. exact (SA k Hk).
  Qed.

  Lemma fitted_Y k : (k < N)%nat -> nth k (fitted (shp Y) (pick p ranks)) 0%nat = nth (nth k p 0%nat) (fitted s ranks) 0%nat.
  Proof.
    intros Hk. unfold fitted. rewrite nth_map_seq with (d := 0%nat) by (fold (ndims Y); rewrite Y_nd; exact Hk).
    rewrite nth_map_seq with (d := 0%nat) by (apply p_nth; exact Hk). rewrite Y_at, rest_Y by exact Hk. f_equal.
    unfold pick. rewrite nth_map_lt with (da := 0%nat) by (rewrite p_len; exact Hk). reflexivity.
  Qed.

  Lemma hosvd_modes : hosvd_gaps X ranks -> exists o o', hosvd svdU X (map Z.of_nat ranks) = Ok o /\ hosvd svdU' Y (map Z.of_nat (pick p ranks)) = Ok o' /\
    length (tu_A o) = ndims X /\ length (tu_A o') = ndims X /\
    (forall k, (k < ndims X)%nat -> same_span (fun i => i) (mat_at (tu_A o) (nth k p 0%nat)) (mat_at (tu_A o') k)) /\
    shp (tu_core o') = pick p (shp (tu_core o)) /\ sqlen (tu_core o') = sqlen (tu_core o) /\
    reordered p (tu_full o) (tu_full o') /\ tu_loss o' = tu_loss o.
  Proof.
    intros Hgap. destruct (hosvd_ok svdU X ranks HS HX Hne Hlen Hord) as (o & Eo & F1 & F2 & F3 & F4).
    assert (LR : length (pick p ranks) = ndims X) by (unfold pick; rewrite map_length; apply p_len).
    destruct (hosvd_ok svdU' Y (pick p ranks) HS' (proj1 HY) Y_ne) as (o' & Eo' & G1 & G2 & G3 & G4); [rewrite Y_nd, LR; unfold N; lia|rewrite Y_nd; exact Hord|].
    exists o, o'. split; [exact Eo|]. split; [exact Eo'|]. split; [apply F1|]. split; [rewrite (proj1 G1); apply Y_nd|].
    assert (SP : forall k, (k < N)%nat -> same_span (fun i => i) (mat_at (tu_A o) (nth k p 0%nat)) (mat_at (tu_A o') k)).
    { intros k Hk. destruct (F4 _ (p_nth k Hk)) as (M & EM & ->). destruct (G4 k) as (M' & EM' & ->); [rewrite Y_nd; exact Hk|].
      replace (nth k (pick p ranks) 0%nat) with (nth (nth k p 0%nat) ranks 0%nat) by (unfold pick; rewrite nth_map_lt with (da := 0%nat) by (rewrite p_len; exact Hk); reflexivity).
      apply factor_span; auto. apply (Hgap _ M (p_nth k Hk) EM). }
    split; [exact SP|].
    assert (SF : shp (tu_full o) = s) by (rewrite F3, F2; apply (full_shape X _ _ F1)).
    assert (SF' : shp (tu_full o') = shp Y) by (rewrite G3, G2; apply (full_shape Y _ _ G1)).
    assert (RF : reordered p (tu_full o) (tu_full o')).
    { split; [rewrite G3; apply wf_gen|]. split; [rewrite SF', SF; apply Y_shp|]. rewrite SF. intros idx Hv.
      assert (HvY : valid (shp Y) (gather 0%nat p idx)) by (rewrite Y_shp; apply gather_valid; [exact p_lt|exact Hv]).
      change (pick p idx) with (gather 0%nat p idx). rewrite G3, G2, F3, F2.
      rewrite (full_entry Y _ _ _ (proj1 HY) G1 HvY), (full_entry X _ _ _ HX F1 Hv), reindex. apply isum_ext. intros j Hj. rewrite Y_get by exact Hj. f_equal.
      rewrite Y_nd. rewrite <- (lprod_seq RLR (ndims X) (fun k => outer (mat_at (tu_A o) k) (nth k idx 0%nat) (nth k j 0%nat))).
      rewrite <- (lprod_perm RLR _ _ (Permutation_map (fun k => outer (mat_at (tu_A o) k) (nth k idx 0%nat) (nth k j 0%nat)) Hp)).
      rewrite (lprod_list_bigprod RLR), p_len. apply bigprod_ext. intros k Hk.
      unfold gather. rewrite !nth_map_lt with (da := 0%nat) by (rewrite p_len; exact Hk). destruct (SP k Hk) as (_ & _ & E).
      pose proof (p_nth k Hk) as Hn. destruct (A_fits X _ _ F1 _ Hn) as (_ & SA & _). apply E; rewrite SA; apply valid_nth; assumption. }
    split; [|split; [|split; [exact RF|]]].
    - apply nth_ext with (d := 0%nat) (d' := 0%nat).
      + rewrite G2. fold (ndims (project Y (tu_A o'))). rewrite (core_ndims Y _ _ G1), Y_nd. unfold pick. rewrite map_length. symmetry. apply p_len.
      + intros k Hk. rewrite G2 in Hk. fold (ndims (project Y (tu_A o'))) in Hk. rewrite (core_ndims Y _ _ G1), Y_nd in Hk. rewrite G2, (core_shape Y _ _ G1) by (rewrite Y_nd; exact Hk).
        rewrite fitted_Y by exact Hk. unfold pick. rewrite nth_map_lt with (da := 0%nat) by (rewrite p_len; exact Hk). rewrite F2, (core_shape X _ _ F1) by (apply p_nth; exact Hk). reflexivity.
    - rewrite G2, F2, <- (dot_full Y _ (proj1 HY) _ G1), <- (dot_full X _ HX _ F1). unfold tdot. rewrite reindex. apply isum_ext. intros j Hj.
      rewrite Y_get by exact Hj. f_equal. rewrite <- G2, <- G3, <- F2, <- F3. destruct RF as (_ & _ & RF). apply RF. rewrite SF. exact Hj.
    - assert (L : rmse_ignore_zero X (tu_full o) = Ok (tu_loss o)).
      { unfold hosvd in Eo. apply bind_ok in Eo as (A & _ & E). apply bind_ok in E as (g & _ & E). apply bind_ok in E as (f & _ & E). apply bind_ok in E as (l & E1 & E). injection E as <-. exact E1. }
      assert (L' : rmse_ignore_zero Y (tu_full o') = Ok (tu_loss o')).
      { unfold hosvd in Eo'. apply bind_ok in Eo' as (A & _ & E). apply bind_ok in E as (g & _ & E). apply bind_ok in E as (f & _ & E). apply bind_ok in E as (l & E1 & E). injection E as <-. exact E1. }
      destruct RF as (_ & _ & RF). rewrite SF in RF.
      rewrite (rmse_iz_ok RLR neqbR_eq) in L by (auto; symmetry; exact SF). rewrite (rmse_iz_ok RLR neqbR_eq) in L' by (try apply HY; symmetry; exact SF').
      rewrite <- !(isum_msum RLR) in L, L'. rewrite !reindex in L'.
      match type of L with Ok (nsqrt (ndiv ?a ?b)) = _ => match type of L' with Ok (nsqrt (ndiv ?c ?d)) = _ => assert (E1 : c = a); [|assert (E2 : d = b)] end end.
      + apply isum_ext. intros j Hj. rewrite Y_get by exact Hj. pose proof (RF j Hj) as Q. change (pick p j) with (gather 0%nat p j) in Q. rewrite Q. reflexivity.
      + apply isum_ext. intros j Hj. rewrite Y_get by exact Hj. reflexivity.
      + rewrite E1, E2, L in L'. injection L' as ->. reflexivity.
  Qed.
End Run.

(** tf.transpose lists the modes in another order *)
Lemma transpose_reordered (X Y : tensor R) p : mode_order p (ndims X) -> tf_transpose X (map Z.of_nat p) = Ok Y -> reordered p X Y.
Proof.
  intros H E. destruct (transpose_ok X p H) as (r & Er & Wr & Sr & Gr). rewrite E in Er. injection Er as <-. split; [exact Wr|]. split; [exact Sr|]. exact Gr.
Qed.

(** ** An example: 2 x 3 data *)
Definition X23 : tensor R := mkT [2; 3]%nat [2; 0; 0; 0; 1; 0].
Definition X32 : tensor R := mkT [3; 2]%nat [2; 0; 0; 1; 0; 0].
Definition W32 : tensor R := mkT [3; 2]%nat [1; 0; 0; 1; 0; 0].
Definition i22 : tensor R := mkT [2; 2]%nat [1; 0; 0; 1].
Definition s21 (q : nat) : R := match q with O => 2 | S _ => 1 end.
Lemma i22_ortho : orthonormal i22.
Proof. intros i j Hi Hj. cbn in Hi, Hj. destruct i as [|[|i]]; try lia; destruct j as [|[|j]]; try lia; unfold mget, get; cbn; Rn; lra. Qed.
Lemma W32_ortho : orthonormal W32.
Proof. intros i j Hi Hj. cbn in Hi, Hj. destruct i as [|[|i]]; try lia; destruct j as [|[|j]]; try lia; unfold mget, get; cbn; Rn; lra. Qed.
Lemma X23_svd : thin_svd X23 i22 s21 W32.
Proof.
  unfold thin_svd. change (Nat.min (nrows X23) (ncols X23)) with 2%nat. split; [split; reflexivity|]. split; [split; reflexivity|]. split; [apply i22_ortho|]. split; [apply W32_ortho|].
  split; [intros [|q] _; unfold s21; lra|]. split; [intros [|q] [|r] H _; unfold s21; try lra; lia|].
  intros i j Hi Hj. cbn in Hi, Hj. destruct i as [|[|i]]; try lia; destruct j as [|[|[|j]]]; try lia; unfold mget, get; cbn; Rn; lra.
Qed.
Lemma X32_svd : thin_svd X32 W32 s21 i22.
Proof.
  unfold thin_svd. change (Nat.min (nrows X32) (ncols X32)) with 2%nat. split; [split; reflexivity|]. split; [split; reflexivity|]. split; [apply W32_ortho|]. split; [apply i22_ortho|].
  split; [intros [|q] _; unfold s21; lra|]. split; [intros [|q] [|r] H _; unfold s21; try lra; lia|].
  intros i j Hi Hj. cbn in Hi, Hj. destruct i as [|[|[|i]]]; try lia; destruct j as [|[|j]]; try lia; unfold mget, get; cbn; Rn; lra.
Qed.
Lemma X23_gaps : hosvd_gaps X23 [1; 1]%nat.
Proof.
  intros n M Hn EM. destruct n as [|[|n]]; [| |cbn in Hn; lia]; cbn in EM; injection EM as <-.
  - change (gap_at X23 1). right. exists i22, s21, W32. split; [apply X23_svd|]. split; [intros [|q] _; unfold s21; lra|].
    intros q r Hq Hr _. assert (q = 0)%nat by lia. subst q. destruct r; [lia|unfold s21; lra].
  - change (gap_at X32 1). right. exists W32, s21, i22. split; [apply X32_svd|]. split; [intros [|q] _; unfold s21; lra|].
    intros q r Hq Hr _. assert (q = 0)%nat by lia. subst q. destruct r; [lia|unfold s21; lra].
Qed.
Lemma ex107 : wf X23 /\ nonempty (shp X23) /\ mode_order [1; 0]%nat (ndims X23) /\ reordered [1; 0]%nat X23 X32 /\ hosvd_gaps X23 [1; 1]%nat /\
  exists svdU, left_svd svdU.
Proof.
  split; [reflexivity|]. split; [repeat constructor; discriminate|]. split; [apply perm_swap|]. split; [|split; [apply X23_gaps|]].
  - apply transpose_reordered; [apply perm_swap|reflexivity].
  - destruct SvdExists.left_svd_exists as (u & H). exists u. exact H.
Qed.
