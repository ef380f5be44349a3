(** _skip and its callers (C20), ttm's calling conventions and errors (C11-C13). *)

From Coq Require Import ZArith List Bool Arith Lia Permutation.
From Verif Require Import Num Py Tensor TF TensorFacts TFFacts Sums Ops Spec LayoutFacts SpecFacts EinsumFacts MulFacts KronFacts KronAlg TtmFacts.
Import ListNotations.

Lemma in_skip_set s i : in_skip s i = existsb (Z.eqb i) (skipset s).
Proof. destruct s; reflexivity. Qed.

Lemma skip_without {A} (l : list A) s : skip_ l s = without (skipset s) l.
Proof.
  rewrite skip_keep. unfold without.
  assert (G : forall k, keep_from k (in_skip s) l = without_from (Z.of_nat k) (skipset s) l).
  { induction l as [|x l IH]; intros k; simpl; [reflexivity|].
    rewrite in_skip_set. replace (Z.of_nat k + 1)%Z with (Z.of_nat (S k)) by lia. rewrite IH. reflexivity. }
  apply (G 0).
Qed.

Lemma without_nth {A} (drop : list Z) (l : list A) d :
  without drop l = map (fun k => nth k l d) (kept drop (length l)).
Proof.
  unfold without, kept.
  assert (G : forall l k, without_from (Z.of_nat k) drop l =
     map (fun j => nth (j - k) l d) (filter (fun j => negb (existsb (Z.eqb (Z.of_nat j)) drop)) (seq k (length l)))).
  { clear l. induction l as [|x l IH]; intros k; simpl; [reflexivity|].
    replace (Z.of_nat k + 1)%Z with (Z.of_nat (S k)) by lia. rewrite IH.
    assert (E : map (fun j => nth (j - S k) l d) (filter (fun j => negb (existsb (Z.eqb (Z.of_nat j)) drop)) (seq (S k) (length l)))
              = map (fun j => nth (j - k) (x :: l) d) (filter (fun j => negb (existsb (Z.eqb (Z.of_nat j)) drop)) (seq (S k) (length l)))).
    { apply map_ext_in. intros j Hj. apply filter_In in Hj as [Hj _]. apply in_seq in Hj.
      replace (j - k) with (S (j - S k)) by lia. reflexivity. }
    rewrite E. destruct (existsb (Z.eqb (Z.of_nat k)) drop); simpl; [reflexivity|].
    rewrite Nat.sub_diag. reflexivity. }
  etransitivity; [apply (G l 0)|]. apply map_ext. intros j. rewrite Nat.sub_0_r. reflexivity.
Qed.

Lemma without_none {A} (drop : list Z) (l : list A) :
  (forall z, In z drop -> (z < 0 \/ Z.of_nat (length l) <= z)%Z) -> without drop l = l.
Proof.
  intros H. destruct l as [|a0 l0]; [reflexivity|]. rewrite (without_nth drop (a0 :: l0) a0).
  unfold kept. rewrite filter_all; [apply map_nth_seq|].
  intros k Hk. apply in_seq in Hk. apply negb_true_iff. apply not_true_is_false. intros E.
  apply existsb_exists in E as (z & Hz & E). apply Z.eqb_eq in E. apply H in Hz. subst z. simpl in *. lia.
Qed.

Lemma kept_lt drop n k : In k (kept drop n) -> k < n.
Proof. intros H. apply filter_In in H as [H _]. apply in_seq in H. lia. Qed.
Lemma kept_NoDup drop n : NoDup (kept drop n).
Proof. apply NoDup_filter, seq_NoDup. Qed.

Section Ttm.
  Context {T : Type} {N : Num T}.

  Lemma ttm_none (X : tensor T) mats tr :
    ttm X mats None tr SkNone = ttm X mats (Some (map Z.of_nat (seq 0 (length mats)))) tr SkNone.
  Proof. reflexivity. Qed.

  Lemma zrange_filter_skip s n :
    filter (fun i => negb (in_skip s i)) (zrange n) = map Z.of_nat (kept (skipset s) n).
  Proof.
    unfold zrange, kept. rewrite filter_map. f_equal. apply filter_ext. intros k. rewrite in_skip_set. reflexivity.
  Qed.

  Lemma ttm_skip (X : tensor T) mats tr s : s <> SkNone ->
    ttm X mats None tr s =
    ttm X (without (skipset s) mats) (Some (map Z.of_nat (kept (skipset s) (Nat.min (ndims X) (length mats))))) tr SkNone.
  Proof.
    intros Hs. unfold ttm. rewrite skip_without. simpl (skip_ _ SkNone).
    destruct s; [congruence| |]; cbv zeta; rewrite (zrange_filter_skip _ (Nat.min (ndims X) (length mats))); reflexivity.
  Qed.

  Lemma ttm_both (X : tensor T) mats ax tr s : s <> SkNone -> ttm X mats (Some ax) tr s = Raise ValueError.
  Proof. destruct s; [congruence| |]; reflexivity. Qed.

  (** *** inversion: what a successful call implies, for arbitrary integer axes *)
  Lemma set_targets_inv tgt ax : forall r, set_targets tgt 97 ax = Ok r ->
    length r = length tgt /\ forall a, In a ax -> (- Z.of_nat (length tgt) <= a < Z.of_nat (length tgt))%Z.
  Proof.
    revert tgt. induction ax as [|a ax IH]; intros tgt r H; cbn [set_targets] in H.
    - injection H as <-. split; [reflexivity|]. intros a [].
    - apply bind_ok in H as (t' & H1 & H2). unfold set_pynth in H1.
      destruct (((0 <=? _) && _)%Z%bool) eqn:E in H1; [|discriminate]. injection H1 as <-.
      apply IH in H2 as [HL H2]. rewrite set_nth_length in HL, H2. split; auto. intros b [<-|Hb]; [|apply H2; auto].
      apply andb_true_iff in E as [E1 E2]. apply Z.leb_le in E1. apply Z.ltb_lt in E2.
      destruct (Z.ltb_spec a 0); lia.
  Qed.

  Lemma ttm_inv (X : tensor T) mats (ax : list Z) tr r :
    ttm X mats (Some ax) tr SkNone = Ok r ->
    ax <> [] /\ length mats = length ax /\
    (forall a, In a ax -> (0 <= a < Z.of_nat (ndims X))%Z) /\
    (forall k, k < length ax -> exists rr cc, shp (mat_at mats k) = [rr; cc] /\
       (if tr then rr else cc) = nth (Z.to_nat (nth k ax 0%Z)) (shp X) 0).
  Proof.
    intros H. unfold ttm in H. simpl skip_ in H. cbv zeta iota in H.
    apply bind_ok in H as (tops & Ht & H). apply bind_ok in H as (mops & Hm & H).
    apply bind_ok in H as (tgt & Htg & H).
    pose proof (mapM_length _ _ _ Ht) as Lt. rewrite zrange_length in Lt.
    pose proof (mapM_length _ _ _ Hm) as Lm.
    apply set_targets_inv in Htg as [Ltg Htg]. rewrite Lt in Htg.
    apply einsum_ok_inv in H as (Hlow & _ & Hnil & Hcnt & Hrank & _ & _ & _ & Hdims).
    assert (Hne : ax <> []).
    { intros ->. simpl in Lm. destruct mops; [|discriminate]. apply (Hnil []); simpl; auto. }
    assert (Emo : match mops with [] => [[]] | _ => mops end = mops).
    { destruct mops; [|reflexivity]. simpl in Lm. destruct ax; [congruence|discriminate]. }
    rewrite Emo in *.
    simpl in Hcnt. assert (Hlen : length mats = length ax) by lia.
    (* the operand strings *)
    assert (Hmo : forall k, k < length ax -> nth k mops [] =
       if tr then [(122 - Z.of_nat (ndims X) + 1 + nth k ax 0)%Z; (97 + nth k ax 0)%Z]
       else [(97 + nth k ax 0)%Z; (122 - Z.of_nat (ndims X) + 1 + nth k ax 0)%Z]).
    { intros k Hk. apply mapM_inv in Hm. pose proof (Forall2_nth _ _ _ Hm k 0%Z [] Hk) as E.
      cbv beta in E. apply bind_ok in E as (c1 & E1 & E). apply bind_ok in E as (c2 & E2 & E).
      injection E as <-. unfold pychr in E1, E2.
      destruct (_ && _)%bool in E1; [|discriminate]. destruct (_ && _)%bool in E2; [|discriminate].
      injection E1 as <-. injection E2 as <-. reflexivity. }
    assert (Hto : forall i, i < ndims X -> nth i tops 0%Z = (122 - Z.of_nat (ndims X) + 1 + Z.of_nat i)%Z).
    { intros i Hi. apply mapM_inv in Ht. pose proof (Forall2_nth _ _ _ Ht i 0%Z 0%Z) as E.
      rewrite zrange_length in E. specialize (E Hi). cbv beta in E. unfold pychr in E.
      destruct (_ && _)%bool in E; [|discriminate]. injection E as <-. unfold zrange. rewrite nth_map_seq by auto. reflexivity. }
    assert (Hax : forall a, In a ax -> (0 <= a < Z.of_nat (ndims X))%Z).
    { intros a Ha. specialize (Htg a Ha). split; [|lia].
      apply (In_nth _ _ 0%Z) in Ha as (k & Hk & <-).
      assert (lower (97 + nth k ax 0)%Z = true) as Hl.
      { apply (Hlow (nth k mops [])).
        - right. apply nth_In. lia.
        - rewrite Hmo by auto. destruct tr; cbn [In]; auto. }
      unfold lower in Hl. apply andb_true_iff in Hl as [Hl _]. apply Z.leb_le in Hl. lia. }
    split; [exact Hne|]. split; [exact Hlen|]. split; [exact Hax|].
    intros k Hk.
    assert (Hp : In (nth k mops [], mat_at mats k) (combine (tops :: mops) (X :: mats))).
    { simpl. right. rewrite (combine_nth_map mops mats [] (mkT [] [])) by lia.
      apply in_map_iff. exists k. split; [reflexivity|]. apply in_seq. lia. }
    pose proof (Hrank _ Hp) as Hr. cbn [fst snd] in Hr. unfold ndims in Hr.
    assert (Hlen2 : length (nth k mops []) = 2) by (rewrite Hmo by auto; destruct tr; reflexivity).
    rewrite Hlen2 in Hr. destruct (shp (mat_at mats k)) as [|rr [|cc [|? ?]]] eqn:Es; simpl in Hr; try lia.
    exists rr, cc. split; [reflexivity|].
    assert (Ha : (0 <= nth k ax 0%Z < Z.of_nat (ndims X))%Z) by (apply Hax, nth_In; auto).
    set (a := nth k ax 0%Z) in *.
    apply (Hdims (122 - Z.of_nat (ndims X) + 1 + a)%Z).
    - unfold einsum_dims. apply in_concat. exists (combine (nth k mops []) (shp (mat_at mats k))). split.
      + apply in_map_iff. exists (nth k mops [], mat_at mats k). split; [reflexivity|exact Hp].
      + rewrite Es, Hmo by auto. fold a. destruct tr; cbn [combine In]; auto.
    - unfold einsum_dims. apply in_concat. exists (combine tops (shp X)). split.
      + apply in_map_iff. exists (tops, X). split; [reflexivity|]. simpl; auto.
      + rewrite (combine_nth_map tops (shp X) 0%Z 0) by (unfold ndims in Lt; lia).
        apply in_map_iff. exists (Z.to_nat a). split; [|apply in_seq; lia].
        rewrite Hto by lia. rewrite Z2Nat.id by lia. reflexivity.
  Qed.

  (** the only errors *)
  Lemma ttm_err (X : tensor T) mats ax tr e : (forall a, In a ax -> a < ndims X) ->
    ttm X mats (Some (map Z.of_nat ax)) tr SkNone = Raise e -> e = ValueError.
  Proof.
    intros Ha H. unfold ttm in H. simpl skip_ in H. cbv zeta iota in H.
    assert (Hc : forall z e', pychr z = Raise e' -> e' = ValueError).
    { intros z e'. unfold pychr. destruct (_ && _)%bool; congruence. }
    assert (HmM : forall A B (f : A -> res B) l e', (forall a e', f a = Raise e' -> e' = ValueError) -> mapM f l = Raise e' -> e' = ValueError).
    { intros A B f l e' Hf. induction l as [|x l IH]; simpl; [discriminate|].
      destruct (f x) eqn:E; simpl; [|intros H0; injection H0 as <-; eapply Hf; eauto].
      destruct (mapM f l) eqn:E2; simpl; [discriminate|]. intros H0. injection H0 as <-. auto. }
    destruct (mapM (fun i => pychr (122 - Z.of_nat (ndims X) + 1 + i)) (zrange (ndims X))) as [tops|e1] eqn:E1;
      cbn [bind] in H; [|injection H as <-; refine (HmM _ _ _ _ _ _ E1); intros; eapply Hc; eauto].
    match type of H with bind ?m _ = _ => destruct m as [mops|e2] eqn:E2 end; cbn [bind] in H.
    2: { injection H as <-. refine (HmM _ _ _ _ _ _ E2). intros z e'. cbv beta.
         destruct (pychr (122 - Z.of_nat (ndims X) + 1 + z)) as [c1|x1] eqn:P1; cbn [bind]; [|intros H; injection H as <-; eapply Hc; eauto].
         destruct (pychr (97 + z)) as [c2|x2] eqn:P2; cbn [bind]; [discriminate|]. intros H; injection H as <-; eapply Hc; eauto. }
    assert (E1' : tops = map (tl X) (seq 0 (ndims X))).
    { apply mapM_inv in E1. apply nth_ext with (d := 0%Z) (d' := 0%Z).
      - rewrite length_map_seq. rewrite <- (Forall2_len _ _ _ E1). apply zrange_length.
      - intros i Hi. rewrite <- (Forall2_len _ _ _ E1), zrange_length in Hi.
        pose proof (Forall2_nth _ _ _ E1 i 0%Z 0%Z) as E. rewrite zrange_length in E. specialize (E Hi).
        cbv beta in E. unfold pychr in E. destruct (_ && _)%bool in E; [|discriminate]. injection E as <-.
        unfold zrange. rewrite !nth_map_seq by auto. reflexivity. }
    rewrite E1', (set_targets_ok X) in H by auto. cbn [bind] in H.
    eapply einsum_res; eauto.
  Qed.
End Ttm.

Section TtmRing.
  Context {T : Type} {N : Num T} (RL : RingLaws T).

  (** C13, exact domain when the labels do not clash *)
  Lemma ttm_domain (X : tensor T) mats ax tr : wf X -> NoDup ax -> (forall M, In M mats -> wf M) ->
    (forall a, In a ax -> a < ndims X) -> ndims X <= 13 ->
    ((exists r, ttm X mats (Some (map Z.of_nat ax)) tr SkNone = Ok r) <->
     (ax <> [] /\ length mats = length ax /\
      forall k, k < length ax -> exists rr cc, shp (mat_at mats k) = [rr; cc] /\
        (if tr then rr else cc) = nth (nth k ax 0) (shp X) 0)) /\
    ((~ exists r, ttm X mats (Some (map Z.of_nat ax)) tr SkNone = Ok r) ->
     ttm X mats (Some (map Z.of_nat ax)) tr SkNone = Raise ValueError).
  Proof.
    intros Hw Hnd Hwm Hax Hord. split; [split|].
    - intros (r & Hr). apply ttm_inv in Hr as (H1 & H2 & _ & H4). rewrite map_length in *.
      split; [destruct ax; [simpl in H1; congruence | discriminate]|]. split; auto.
      intros k Hk. destruct (H4 k Hk) as (rr & cc & Hs & E). exists rr, cc. split; auto.
      rewrite E. rewrite nth_map_lt with (da := 0) by auto. rewrite Nat2Z.id. reflexivity.
    - intros (Hne & Hlen & Hfit). eexists. apply ttm_ok; auto.
      + intros a Ha. apply Hax in Ha. lia.
      + intros k Hk. destruct (Hfit k Hk) as (rr & cc & Hs & E). unfold matrix, is_mat, nrows, ncols. rewrite Hs. simpl.
        split; [split; [apply Hwm, nth_In; lia | reflexivity] | exact E].
    - intros Hno. destruct (ttm X mats (Some (map Z.of_nat ax)) tr SkNone) as [r|e] eqn:E.
      + exfalso. apply Hno. eauto.
      + f_equal. eapply ttm_err; eauto.
  Qed.

  Lemma combine_fst_perm {A B} (l1 l2 : list A) (m1 m2 : list B) :
    length l1 = length m1 -> length l2 = length m2 ->
    Permutation (combine l1 m1) (combine l2 m2) -> Permutation m1 m2.
  Proof.
    intros L1 L2 H. apply (Permutation_map snd) in H.
    assert (G : forall (l : list A) (m : list B), length l = length m -> map snd (combine l m) = m).
    { clear. induction l as [|x l IH]; intros [|y m] H; simpl in *; try discriminate; [reflexivity|]. f_equal. apply IH. lia. }
    rewrite !G in H by auto. exact H.
  Qed.

  (** C12 *)
  Lemma ttm_perm (X : tensor T) (mats : list (tensor T)) (ax : list nat) (mats' : list (tensor T)) (ax' : list nat) (tr : bool) : wf X -> NoDup ax -> ax <> [] -> ndims X <= 13 ->
    (forall a, In a ax -> a < ndims X) -> length mats = length ax -> length mats' = length ax' ->
    (forall k, k < length ax -> matrix (mat_at mats k) /\
      (if tr then nrows (mat_at mats k) else ncols (mat_at mats k)) = nth (nth k ax 0) (shp X) 0) ->
    Permutation (combine mats ax) (combine mats' ax') ->
    ttm X mats (Some (map Z.of_nat ax)) tr SkNone = ttm X mats' (Some (map Z.of_nat ax')) tr SkNone.
  Proof.
    intros Hw Hnd Hne Hord Hax L1 L2 Hfit HP.
    pose proof (combine_fst_perm _ _ _ _ L1 L2 HP) as HPax.
    assert (Hax' : forall a, In a ax' -> a < ndims X).
    { intros a Ha. apply Hax. eapply Permutation_in; [apply Permutation_sym, HPax|auto]. }
    assert (Hfit' : forall k, k < length ax' -> matrix (mat_at mats' k) /\
      (if tr then nrows (mat_at mats' k) else ncols (mat_at mats' k)) = nth (nth k ax' 0) (shp X) 0).
    { intros k Hk. assert (Hin : In (mat_at mats' k, nth k ax' 0) (combine mats ax)).
      { eapply Permutation_in; [apply Permutation_sym, HP|].
        rewrite (combine_nth_map mats' ax' (mkT [] []) 0 L2). apply in_map_iff. exists k. split; [reflexivity|].
        apply in_seq. lia. }
      rewrite (combine_nth_map mats ax (mkT [] []) 0 L1) in Hin. apply in_map_iff in Hin as (j & E & Hj).
      apply in_seq in Hj. injection E as E1 E2. destruct (Hfit j ltac:(lia)) as [H1 H2].
      unfold mat_at in *. rewrite E1, E2 in *. auto. }
    rewrite (ttm_ok RL) with (ax := ax); auto.
    2: { intros a Ha. apply Hax in Ha. lia. }
    rewrite (ttm_ok RL) with (ax := ax'); auto.
    - f_equal. apply (mode_products_perm RL); auto.
      + apply Permutation_map, HP.
      + rewrite pairs_snd; auto.
      + intros p Hp. eapply pairs_fit in Hp; eauto.
    - eapply Permutation_NoDup; eauto.
    - intros a Ha. apply Hax' in Ha. lia.
    - intros ->. apply Permutation_sym, Permutation_nil in HPax. congruence.
  Qed.
End TtmRing.
