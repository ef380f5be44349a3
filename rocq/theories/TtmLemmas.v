(** The property theorems of PropsTtm.v in the form stated there. *)

From Coq Require Import ZArith List Bool Arith Lia Permutation.
From Verif Require Import Num Py Tensor TF TensorFacts TFFacts Sums Ops Spec LayoutFacts SpecFacts EinsumFacts MulFacts KronFacts KronAlg TtmFacts SkipFacts.
Import ListNotations.

Section L.
  Context {T : Type} {N : Num T}.

  Lemma c11_gen : RingLaws T -> forall (X : tensor T) (mats : list (tensor T)) (ax : list nat) (tr : bool),
    wf X -> ax <> [] -> NoDup ax -> (forall a, In a ax -> a < ndims X /\ a + ndims X < 26) ->
    length mats = length ax ->
    (forall k, k < length ax -> matrix (mat_at mats k) /\
       (if tr then nrows (mat_at mats k) else ncols (mat_at mats k)) = nth (nth k ax 0) (shp X) 0) ->
    ttm X mats (Some (map Z.of_nat ax)) tr SkNone =
    Ok (mode_products X (combine (if tr then map mtrans mats else mats) ax)).
  Proof.
    intros RL X mats ax tr HX Hne Hnd Hax Hlen Hfit.
    rewrite (ttm_ok RL); auto; try (intros a Ha; apply Hax in Ha; lia).
    f_equal. f_equal. clear -Hlen. revert ax Hlen. induction mats as [|m mats IH]; intros [|a ax] H; try discriminate.
    - destruct tr; reflexivity.
    - simpl in H. injection H as H. specialize (IH ax H). destruct tr; cbn [map combine fst snd] in *; f_equal; auto.
  Qed.

  Lemma c11 : RingLaws T -> forall (X : tensor T) (mats : list (tensor T)) (ax : list nat) (tr : bool),
    wf X -> ndims X <= 13 -> ax <> [] -> NoDup ax -> (forall a, In a ax -> a < ndims X) ->
    length mats = length ax ->
    (forall k, k < length ax -> matrix (mat_at mats k) /\
       (if tr then nrows (mat_at mats k) else ncols (mat_at mats k)) = nth (nth k ax 0) (shp X) 0) ->
    ttm X mats (Some (map Z.of_nat ax)) tr SkNone =
    Ok (mode_products X (combine (if tr then map mtrans mats else mats) ax)).
  Proof.
    intros RL X mats ax tr HX Hord Hne Hnd Hax Hlen Hfit. apply c11_gen; auto.
    intros a Ha. apply Hax in Ha. lia.
  Qed.

  Lemma c11_default : RingLaws T -> forall (X : tensor T) (mats : list (tensor T)) (tr : bool),
    wf X -> ndims X <= 13 -> mats <> [] -> length mats <= ndims X ->
    (forall k, k < length mats -> matrix (mat_at mats k) /\
       (if tr then nrows (mat_at mats k) else ncols (mat_at mats k)) = nth k (shp X) 0) ->
    ttm X mats None tr SkNone =
    Ok (mode_products X (combine (if tr then map mtrans mats else mats) (seq 0 (length mats)))).
  Proof.
    intros RL X mats tr HX Hord Hne Hl Hfit. rewrite ttm_none. apply c11; auto.
    - destruct mats; [congruence|discriminate].
    - apply seq_NoDup.
    - intros a Ha. apply in_seq in Ha. lia.
    - rewrite seq_length. reflexivity.
    - rewrite seq_length. intros k Hk. rewrite seq_nth by auto. apply Hfit; auto.
  Qed.

  Lemma c11_skip : RingLaws T -> forall (X : tensor T) (mats : list (tensor T)) (tr : bool) (s : skiparg),
    wf X -> ndims X <= 13 -> s <> SkNone -> length mats <= ndims X ->
    kept (skipset s) (length mats) <> [] ->
    (forall k, In k (kept (skipset s) (length mats)) -> matrix (mat_at mats k) /\
       (if tr then nrows (mat_at mats k) else ncols (mat_at mats k)) = nth k (shp X) 0) ->
    exists r, ttm X mats None tr s = Ok r /\
      r = mode_products X (combine (if tr then map mtrans (without (skipset s) mats) else without (skipset s) mats)
                                   (kept (skipset s) (length mats))) /\
      forall k, k < ndims X -> In (Z.of_nat k) (skipset s) \/ length mats <= k -> nth k (shp r) 0 = nth k (shp X) 0.
  Proof.
    intros RL X mats tr s HX Hord Hs Hl Hne Hfit.
    assert (Lk : length (without (skipset s) mats) = length (kept (skipset s) (length mats))).
    { rewrite (without_nth _ _ (mkT [] [])), map_length. reflexivity. }
    rewrite ttm_skip by auto. rewrite Nat.min_r by auto.
    rewrite c11; auto.
    - eexists; split; [reflexivity|]. split; [reflexivity|]. intros k Hk Hd.
      rewrite shp_mode_products. apply rshape_out.
      assert (G : forall (l : list (tensor T)) (m : list nat), length l = length m -> map snd (combine l m) = m).
      { clear. induction l as [|x l IH]; intros [|y m] H; simpl in *; try discriminate; [reflexivity|]. f_equal. apply IH. lia. }
      rewrite G by (destruct tr; rewrite ?map_length; auto).
      unfold kept. rewrite filter_In, in_seq, negb_true_iff. intros [H1 H2].
      destruct Hd as [Hd|Hd]; [|lia]. apply not_true_iff_false in H2. apply H2. apply existsb_exists.
      exists (Z.of_nat k). split; auto. apply Z.eqb_refl.
    - apply kept_NoDup.
    - intros a Ha. apply kept_lt in Ha. lia.
    - intros k Hk. specialize (Hfit (nth k (kept (skipset s) (length mats)) 0) (nth_In _ _ Hk)).
      replace (mat_at (without (skipset s) mats) k) with (mat_at mats (nth k (kept (skipset s) (length mats)) 0)); auto.
      unfold mat_at. rewrite (without_nth _ _ (mkT [] [])). rewrite nth_map_lt with (da := 0) by auto. reflexivity.
  Qed.

  (** what [mode_products] means entry by entry for one matrix *)
  Lemma mode_product_entry (X M : tensor T) (n : nat) idx : n < ndims X ->
    valid (replace n (nrows M) (shp X)) idx ->
    get (mode_product X M n) idx = bigsum (ncols M) (fun k => nmul (get X (replace n k idx)) (mget M (nth n idx 0) k)).
  Proof. intros Hn Hv. unfold mode_product. rewrite get_gen by auto. reflexivity. Qed.

  Lemma c13_bad : forall (X : tensor T) (mats : list (tensor T)) (ax : list nat) (tr : bool),
    (forall a, In a ax -> a < ndims X) ->
    (ax = [] \/ length mats <> length ax \/
     exists k, k < length ax /\ forall rr cc, shp (mat_at mats k) = [rr; cc] ->
       (if tr then rr else cc) <> nth (nth k ax 0) (shp X) 0) ->
    ttm X mats (Some (map Z.of_nat ax)) tr SkNone = Raise ValueError.
  Proof.
    intros X mats ax tr Hax Hbad.
    destruct (ttm X mats (Some (map Z.of_nat ax)) tr SkNone) as [r|e] eqn:E.
    - exfalso. apply ttm_inv in E as (H1 & H2 & _ & H4). rewrite map_length in *.
      destruct Hbad as [->|[Hl|(k & Hk & Hno)]]; [auto|auto|].
      destruct (H4 k Hk) as (rr & cc & Hs & Ef). apply (Hno rr cc Hs). rewrite Ef.
      rewrite nth_map_lt with (da := 0) by auto. rewrite Nat2Z.id. reflexivity.
    - f_equal. eapply ttm_err; eauto.
  Qed.

  Lemma c13_range : forall (X : tensor T) (mats : list (tensor T)) (ax : list Z) (tr : bool) (a : Z) r,
    In a ax -> (a < 0 \/ Z.of_nat (ndims X) <= a)%Z -> ttm X mats (Some ax) tr SkNone <> Ok r.
  Proof.
    intros X mats ax tr a r Ha Hr E. apply ttm_inv in E as (_ & _ & H & _). apply H in Ha. lia.
  Qed.
End L.

(** order 14: the label of matrix axis 12 is the label of tensor axis 0 *)
Definition c13X : tensor Z := mkT (2 :: repeat 1 13) [5; 7]%Z.
Definition c13M : list (tensor Z) :=
  mkT [1; 2] [1; 10]%Z :: repeat (mkT [1; 1] [1]%Z) 11 ++ [mkT [2; 1] [3; 4]%Z; mkT [1; 1] [1]%Z].

Lemma c13_refuted : exists (X : tensor Z) (mats : list (tensor Z)) r,
  wf X /\ length mats = ndims X /\
  (forall k, k < length mats -> matrix (mat_at mats k) /\ ncols (mat_at mats k) = nth k (shp X) 0) /\
  ttm X mats None false SkNone = Ok r /\
  r <> mode_products X (combine mats (seq 0 (length mats))).
Proof.
  exists c13X, c13M. eexists. split; [reflexivity|]. split; [reflexivity|]. split; [|split].
  - intros k Hk. do 14 (destruct k as [|k]; [repeat split; reflexivity|]). simpl in Hk. lia.
  - vm_compute. reflexivity.
  - vm_compute. discriminate.
Qed.

Lemma c70_refuted : exists (X M1 M2 : tensor Z) r,
  wf X /\ matrix M1 /\ matrix M2 /\ ncols M1 = 2 /\ ncols M2 = nrows M1 /\ shp X = [2] /\
  ttm X [M1; M2] (Some [0; 0]%Z) false SkNone = Ok r /\
  r <> mode_products X [(M1, 0); (M2, 0)].
Proof.
  exists (mkT [2] [1; 2]%Z), (mkT [2; 2] [1; 2; 3; 4]%Z), (mkT [2; 2] [1; 0; 5; 1]%Z). eexists.
  split; [reflexivity|]. split; [split; reflexivity|]. split; [split; reflexivity|].
  split; [reflexivity|]. split; [reflexivity|]. split; [reflexivity|].
  split; [vm_compute; reflexivity|]. vm_compute. discriminate.
Qed.
