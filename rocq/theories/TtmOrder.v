(** ttm with mode 0 skipped only succeeds for orders 2 to 13. *)

From Coq Require Import ZArith List Bool Arith Lia.
From Verif Require Import Num Py Tensor TF TensorFacts TFFacts Sums Ops Spec LayoutFacts SpecFacts EinsumFacts MulFacts KronFacts KronAlg TtmFacts SkipFacts.
Import ListNotations.

Lemma ttm_skip0_order {T} {NT : Num T} (X Y : tensor T) mats tr : length mats = ndims X ->
  ttm X mats None tr (SkInt 0) = Ok Y -> 2 <= ndims X <= 13.
Proof.
  intros HL H. rewrite ttm_skip in H by discriminate. rewrite HL, Nat.min_id in H.
  set (ax := kept (skipset (SkInt 0)) (ndims X)) in *.
  assert (Hax : forall a, In a ax <-> 0 < a < ndims X).
  { intros a. unfold ax, kept. rewrite filter_In, in_seq. unfold skipset, zmem. simpl existsb. destruct a as [|a]; simpl; split; intros; try lia; try (split; [lia|reflexivity]). }
  assert (H26 : ndims X <= 26).
  { unfold ttm in H. simpl skip_ in H. cbv zeta iota in H. apply bind_ok in H as (tops & Ht & H). apply bind_ok in H as (mops & Hm & H). apply bind_ok in H as (tgt & Htg & H).
    destruct (Nat.eq_dec (ndims X) 0) as [E0|E0]; [lia|].
    apply einsum_ok_inv in H as (Hlow & _). pose proof (mapM_length _ _ _ Ht) as Lt. rewrite zrange_length in Lt.
    apply mapM_inv in Ht. pose proof (Forall2_nth _ _ _ Ht 0 0%Z 0%Z) as E. rewrite zrange_length in E. specialize (E ltac:(lia)). cbv beta in E. unfold pychr in E.
    destruct (_ && _)%bool in E; [|discriminate]. assert (E' : (122 - Z.of_nat (ndims X) + 1 + nth 0 (zrange (ndims X)) 0)%Z = nth 0 tops 0%Z) by congruence. clear E. unfold zrange in E'. rewrite nth_map_seq in E' by lia.
    assert (Hl : lower (nth 0 tops 0%Z) = true) by (apply (Hlow tops); [left; reflexivity|apply nth_In; lia]).
    rewrite <- E' in Hl. unfold lower in Hl. apply andb_true_iff in Hl as [Hl _]. apply Z.leb_le in Hl. lia. }
  assert (H2 : 2 <= ndims X).
  { pose proof (ttm_inv _ _ _ _ _ H) as (Hne & _). destruct ax as [|a l] eqn:E; [contradiction Hne; reflexivity|].
    assert (0 < a < ndims X) by (apply Hax; left; reflexivity). lia. }
  split; [exact H2|].
  rewrite ttm_einsum in H; [|lia| |intros a Ha; apply Hax in Ha; lia].
  2: { intros E. assert (In 1 ax) by (apply Hax; lia). rewrite E in *. contradiction. }
  apply einsum_ok_inv in H as (_ & _ & _ & _ & _ & Hnd & Hout & _).
  destruct (Nat.le_gt_cases (ndims X) 13) as [Hle|Hgt]; [exact Hle|]. exfalso.
  assert (Hinb : forall i, inb i ax = Nat.ltb 0 i && Nat.ltb i (ndims X)).
  { intros i. destruct (inb i ax) eqn:E.
    - unfold inb in E. apply existsb_exists in E as (a & Ha & E). apply Nat.eqb_eq in E. subst a. apply Hax in Ha.
      symmetry. apply andb_true_iff. rewrite !Nat.ltb_lt. exact Ha.
    - destruct (Nat.ltb 0 i && Nat.ltb i (ndims X)) eqn:E'; [|reflexivity]. apply andb_true_iff in E' as [E1 E2]. apply Nat.ltb_lt in E1, E2.
      rewrite <- E. unfold inb. apply existsb_exists. exists i. split; [apply Hax; lia|apply Nat.eqb_refl]. }
  destruct (Nat.eq_dec (ndims X) 26) as [E26|E26].
  - assert (Hin : In (mat_labels X tr 1) (map (tl X) (seq 0 (ndims X)) :: map (mat_labels X tr) ax)) by (right; apply in_map, Hax; lia).
    apply Hnd in Hin. unfold mat_labels, tl, ml in Hin. rewrite E26 in Hin. destruct tr; inversion Hin as [|x l K _]; apply K; left; lia.
  - unfold target in Hout. rewrite (NoDup_nth _ 0%Z) in Hout. rewrite map_length, seq_length in Hout.
    specialize (Hout 0 (26 - ndims X) ltac:(lia) ltac:(lia)). rewrite !nth_map_seq in Hout by lia. rewrite !Hinb in Hout.
    change (Nat.ltb 0 0) with false in Hout. cbn [andb] in Hout.
    replace (Nat.ltb 0 (26 - ndims X) && Nat.ltb (26 - ndims X) (ndims X)) with true in Hout.
    + unfold tl, ml in Hout. assert (0 = 26 - ndims X) by (apply Hout; lia). lia.
    + symmetry. apply andb_true_iff. rewrite !Nat.ltb_lt. lia.
Qed.
