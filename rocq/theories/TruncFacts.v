(** HOSVD with smaller ranks is a truncation of HOSVD with larger ranks (C112). *)

From Coq Require Import ZArith List Bool Arith Lia Reals Lra.
From Verif Require Import Num Py Tensor TF TensorFacts TFFacts Sums Ops OpsLemmas Types Loss Fact Train Spec SpecR SpecFacts RSums MatR MultiR KronAlg TtmFacts NormFacts LossFacts SvdFacts
  SpecTrain TrainLemmas SpecTucker TuckerFacts TuckerRun TuckerLemmas QuasiOpt SliceFacts SpecData DataRecover SpecTrunc.
Import ListNotations.
Local Open Scope R_scope.

(** ** sums over a corner *)
Lemma inside_cons d s i r : inside (d :: s) (i :: r) = (Nat.ltb i d && inside s r)%bool.
Proof. reflexivity. Qed.
Lemma corner_isum : forall s s', Forall2 le s s' -> forall f, isum s' (fun i => if inside s i then f i else 0) = isum s f.
Proof.
  induction 1 as [|d d' s s' Hd Hs IH]; intros f; [rewrite !(isum_nil RLR); reflexivity|].
  rewrite !(isum_cons RLR). replace d' with (d + (d' - d))%nat by lia. rewrite sumn_split.
  replace (sumn (d' - d) _) with 0.
  - rewrite Rplus_0_r. apply sumn_ext. intros i Hi. rewrite <- IH. apply isum_ext. intros r _. rewrite inside_cons. apply Nat.ltb_lt in Hi. rewrite Hi. reflexivity.
  - symmetry. rewrite (sumn_ext _ _ (fun _ => n0)); [apply (sumn_zero RLR); reflexivity|]. intros i _. apply (isum_zero RLR). intros r _. rewrite inside_cons.
    replace (Nat.ltb (d + i) d) with false by (symmetry; apply Nat.ltb_ge; lia). reflexivity.
Qed.
Lemma inside_valid s s' i : Forall2 le s s' -> valid s i -> valid s' i /\ inside s i = true.
Proof.
  intros H. revert i. induction H as [|d d' s s' Hd Hs IH]; intros i Hv; inversion Hv as [|x y xs ys Hx Hxs]; subst; [split; [constructor|reflexivity]|].
  destruct (IH _ Hxs) as [K1 K2]. split; [constructor; [lia|exact K1]|]. rewrite inside_cons, K2. apply Nat.ltb_lt in Hx. rewrite Hx. reflexivity.
Qed.
Lemma isum_split s (p : list nat -> bool) f : isum s f = isum s (fun i => if p i then f i else 0) + isum s (fun i => if p i then 0 else f i).
Proof. rewrite <- (isum_add RLR). apply isum_ext. intros i _. destruct (p i); Rn; lra. Qed.

(** ** two states with the same leading columns *)
Section Trunc.
  Variable X : tensor R.
  Variables ra rb : list nat.
  Variables A B : list (tensor R).
  Hypothesis HA : factor_state X ra A.
  Hypothesis HB : factor_state X rb B.
  Hypothesis Hab : forall n, (n < ndims X)%nat -> (nth n ra 0 <= nth n rb 0)%nat.
  Hypothesis Hcol : forall n i j, (n < ndims X)%nat -> (i < nth n (shp X) 0)%nat -> (j < nth n ra 0)%nat -> mget (mat_at A n) i j = mget (mat_at B n) i j.
  Let sa := shp (project X A).
  Let sb := shp (project X B).

  Lemma tr_le : Forall2 le sa sb.
  Proof.
    assert (La : length sa = ndims X) by apply (core_ndims X ra A HA). assert (Lb : length sb = ndims X) by apply (core_ndims X rb B HB).
    assert (G : forall n, (n < ndims X)%nat -> (nth n sa 0 <= nth n sb 0)%nat).
    { intros n Hn. unfold sa, sb. rewrite (core_shape X ra A HA n Hn), (core_shape X rb B HB n Hn). apply Hab, Hn. }
    rewrite <- La in G, Lb. clearbody sa sb. clear - G Lb. revert sb Lb G. induction sa as [|x l IH]; intros [|y l'] Lb G; try discriminate; constructor.
    - apply (G 0%nat). cbn. lia.
    - apply IH; [cbn in Lb; lia|]. intros n Hn. apply (G (S n)). cbn. lia.
  Qed.
  Lemma tr_nth idx k : valid sa idx -> (k < ndims X)%nat -> (nth k idx 0 < nth k ra 0)%nat.
  Proof. intros Hv Hk. rewrite <- (core_shape X ra A HA k Hk). apply (valid_nth _ _ k Hv). pose proof (core_ndims X ra A HA) as L. unfold ndims in L at 1. unfold sa. rewrite L. exact Hk. Qed.
  Lemma tr_nrows k : (k < ndims X)%nat -> nrows (mat_at A k) = nth k (shp X) 0%nat /\ nrows (mat_at B k) = nth k (shp X) 0%nat /\ ncols (mat_at A k) = nth k ra 0%nat /\ ncols (mat_at B k) = nth k rb 0%nat.
  Proof. intros Hk. destruct (matrix_is_mat _ _ _ (proj1 (proj2 HA k Hk))) as (_ & E1 & E2). destruct (matrix_is_mat _ _ _ (proj1 (proj2 HB k Hk))) as (_ & E3 & E4). auto. Qed.

  Lemma tr_core idx : valid sa idx -> get (project X A) idx = get (project X B) idx.
  Proof.
    intros Hv. pose proof (proj1 (inside_valid _ _ _ tr_le Hv)) as Hv'. unfold sa, sb in Hv, Hv'. rewrite !project_plt in *. rewrite (proj1 HA) in *. rewrite (proj1 HB) in *.
    assert (Q : forall k, In k (seq 0 (ndims X)) -> (k < ndims X)%nat) by (intros k Hk; apply in_seq in Hk; lia).
    rewrite !(get_mode_products RLR) by (rewrite ?snd_plt, <- ?shp_mode_products; auto using seq_NoDup; intros p Hp; first [apply (fs_plts X ra A _ p HA Q Hp)|apply (fs_plts X rb B _ p HB Q Hp)]).
    rewrite !snd_plt. apply esum_ext; [|apply seq_NoDup|trivial]. intros e He. f_equal. f_equal. unfold plt. rewrite !map_map. apply map_ext_in. intros k Hk. cbn [fst snd].
    pose proof (Q k Hk) as Hk'. destruct (tr_nrows k Hk') as (E1 & E2 & E3 & E4). pose proof (He k Hk) as Hek.
    assert (Hj : (nth k idx 0 < nth k ra 0)%nat) by (apply tr_nth; [unfold sa; rewrite project_plt, (proj1 HA); exact Hv|exact Hk']). pose proof (Hab k Hk').
    rewrite !mget_mtrans by lia. apply Hcol; assumption.
  Qed.
  Lemma tr_energy : sqlen (project X B) = sqlen (project X A) + energy_outside sa (project X B).
  Proof.
    unfold sqlen, energy_outside. rewrite <- !(isum_msum RLR). rewrite (isum_split _ (inside sa)). f_equal. fold sb. rewrite (corner_isum sa sb tr_le). fold sa. apply isum_ext.
    intros i Hi. rewrite (tr_core i Hi). reflexivity.
  Qed.
  Lemma tr_full : tucker_tensor (project X A) A = tucker_tensor (corner sa (project X B)) B.
  Proof.
    assert (Es : map nrows A = map nrows B).
    { apply nth_ext with (d := 0%nat) (d' := 0%nat); rewrite !map_length; [rewrite (proj1 HA), (proj1 HB); reflexivity|]. intros k Hk. rewrite (proj1 HA) in Hk.
      rewrite !(nth_map_lt nrows _ _ (mkT [] [])) by (rewrite ?(proj1 HA), ?(proj1 HB); exact Hk). destruct (tr_nrows k Hk) as (E1 & E2 & _). unfold mat_at in *. congruence. }
    unfold tucker_tensor. rewrite Es. apply gen_ext. intros i Hi. rewrite <- !(isum_msum RLR). cbn [shp corner gen]. fold sa sb.
    transitivity (isum sa (fun j => get (project X B) j * bigprod (length B) (fun k => mget (mat_at B k) (nth k i 0%nat) (nth k j 0%nat)))).
    - apply isum_ext. intros j Hj. rewrite (tr_core j Hj). rewrite (proj1 HA), (proj1 HB). Rn. f_equal. apply bigprod_ext. intros k Hk. apply Hcol; [exact Hk| |apply tr_nth; assumption].
      pose proof (valid_nth _ _ k Hi) as Q. rewrite map_length, (proj1 HB) in Q. specialize (Q Hk). rewrite (nth_map_lt nrows _ _ (mkT [] [])) in Q by (rewrite (proj1 HB); exact Hk).
      destruct (tr_nrows k Hk) as (_ & E2 & _). unfold mat_at in E2. lia.
    - rewrite <- (corner_isum sa sb tr_le). apply isum_ext. intros j Hj. unfold corner. rewrite get_gen by exact Hj. destruct (inside sa j); Rn; ring.
  Qed.
End Trunc.

Lemma nth_fitted s ranks n : (n < length s)%nat -> nth n (fitted s ranks) 0%nat = Nat.min (nth n ranks 0%nat) (Nat.min (nth n s 0%nat) (rest n s)).
Proof. intros Hn. unfold fitted. rewrite (nth_map_lt _ _ _ 0%nat) by (rewrite seq_length; exact Hn). rewrite seq_nth by exact Hn. reflexivity. Qed.

Section Hosvd.
  Variable svdU : tensor R -> tensor R.
  Variable X : tensor R.
  Variables ranks ranks' : list nat.
  Hypothesis HS : left_svd svdU.
  Hypothesis HX : wf X.
  Hypothesis Hne : nonempty (shp X).
  Hypothesis Hord : (0 < ndims X <= 13)%nat.
  Hypothesis Hl : (ndims X <= length ranks)%nat.
  Hypothesis Hl' : (ndims X <= length ranks')%nat.
  Hypothesis Hle : forall n, (n < ndims X)%nat -> (nth n ranks 0 <= nth n ranks' 0)%nat.

  Lemma c112_hosvd : exists o o', hosvd svdU X (map Z.of_nat ranks) = Ok o /\ hosvd svdU X (map Z.of_nat ranks') = Ok o' /\
    first_columns ranks (tu_A o) (tu_A o') /\
    (forall idx, valid (shp (tu_core o)) idx -> valid (shp (tu_core o')) idx /\ get (tu_core o) idx = get (tu_core o') idx) /\
    tu_full o = tucker_tensor (corner (shp (tu_core o)) (tu_core o')) (tu_A o') /\
    sqdist X (tu_full o) = sqdist X (tu_full o') + energy_outside (shp (tu_core o)) (tu_core o').
  Proof.
    destruct (hosvd_ok svdU X ranks HS HX Hne Hl Hord) as (o & E & HA & K2 & K3 & K4). destruct (hosvd_ok svdU X ranks' HS HX Hne Hl' Hord) as (o' & E' & HB & L2 & L3 & L4).
    destruct (c55_hosvd svdU X ranks o HS HX Hne Hord Hl E) as (_ & _ & D). destruct (c55_hosvd svdU X ranks' o' HS HX Hne Hord Hl' E') as (_ & _ & D').
    exists o, o'. split; [exact E|]. split; [exact E'|].
    assert (Hab : forall n, (n < ndims X)%nat -> (nth n (fitted (shp X) ranks) 0 <= nth n (fitted (shp X) ranks') 0)%nat).
    { intros n Hn. rewrite !nth_fitted by exact Hn. specialize (Hle n Hn). lia. }
    assert (Hcol : forall n i j, (n < ndims X)%nat -> (i < nth n (shp X) 0)%nat -> (j < nth n (fitted (shp X) ranks) 0)%nat -> mget (mat_at (tu_A o) n) i j = mget (mat_at (tu_A o') n) i j).
    { intros n i j Hn Hi Hj. pose proof (tr_nrows X _ _ _ _ HA HB n Hn) as (E1 & E2 & E3 & E4). pose proof (Hab n Hn).
      destruct (K4 n Hn) as (M & EM & Q). destruct (L4 n Hn) as (M' & EM' & Q'). rewrite EM in EM'. injection EM' as <-. rewrite Q, Q' in *.
      unfold leading in *. cbn in E1, E2, E3, E4. unfold nrows, ncols in *. cbn in E1, E2, E3, E4. rewrite !mget_mgen by (unfold nrows, ncols; lia). reflexivity. }
    split.
    { split; [rewrite (proj1 HA), (proj1 HB); reflexivity|]. rewrite (proj1 HB). intros n Hn. pose proof (tr_nrows X _ _ _ _ HA HB n Hn) as (E1 & E2 & E3 & E4). split.
      - replace (nrows (mat_at (tu_A o') n)) with (nth n (shp X) 0%nat) by congruence. replace (Nat.min (nth n ranks 0%nat) (ncols (mat_at (tu_A o') n))) with (nth n (fitted (shp X) ranks) 0%nat); [apply HA, Hn|].
        rewrite E4, !nth_fitted by exact Hn. specialize (Hle n Hn). lia.
      - intros i j Hi Hj. rewrite E1 in Hi. rewrite E3 in Hj. apply Hcol; assumption. }
    rewrite K2, L2. split.
    { intros idx Hv. split; [apply (inside_valid _ _ _ (tr_le X _ _ _ _ HA HB Hab) Hv)|apply (tr_core X _ _ _ _ HA HB Hab Hcol idx Hv)]. }
    split; [rewrite K3, K2; apply (tr_full X _ _ _ _ HA HB Hab Hcol)|].
    rewrite D, D', K2, L2. rewrite (tr_energy X _ _ _ _ HA HB Hab Hcol). ring.
  Qed.
End Hosvd.

Lemma corner_nonneg s g : 0 <= energy_outside s g.
Proof. unfold energy_outside. rewrite <- (isum_msum RLR). apply isumR_nonneg. intros i _. destruct (inside s i); [lra|apply Rle_0_sqr]. Qed.

(** the published model of HOSVD.train *)
Lemma hosvd_published_all svdU (X : tensor R) w o rnd steps o' h ranks id : o_built o = Some (ranks, id) -> hosvd_train svdU X w o rnd steps = (o', Ok h) ->
  exists q, hosvd svdU X ranks = Ok q /\ p_factors (o_pub o') = Some (tu_A q) /\ p_aux (o_pub o') = Some (tu_core q) /\ p_full (o_pub o') = Some (tu_full q).
Proof.
  intros Hb H. apply train_ok in H as (rank' & id' & p & p' & Hb' & _ & _ & H & ->). rewrite Hb in Hb'. injection Hb' as <- <-.
  unfold hosvd_body in H. destruct (hosvd svdU X ranks) as [q|]; [|discriminate]. destruct (forallb _ _); [|discriminate]. injection H as <- <-. exists q. repeat split; reflexivity.
Qed.

Lemma c112_train svdU (X : tensor R) ranks ranks' w1 o1 r1 n1 o1' h1 id1 w2 o2 r2 n2 o2' h2 id2 : left_svd svdU -> wf X -> nonempty (shp X) -> (0 < ndims X <= 13)%nat ->
  (ndims X <= length ranks)%nat -> (ndims X <= length ranks')%nat -> (forall n, (n < ndims X)%nat -> (nth n ranks 0 <= nth n ranks' 0)%nat) ->
  o_built o1 = Some (map Z.of_nat ranks, id1) -> o_built o2 = Some (map Z.of_nat ranks', id2) ->
  hosvd_train svdU X w1 o1 r1 n1 = (o1', Ok h1) -> hosvd_train svdU X w2 o2 r2 n2 = (o2', Ok h2) ->
  exists A g F A' g' F', p_factors (o_pub o1') = Some A /\ p_aux (o_pub o1') = Some g /\ p_full (o_pub o1') = Some F /\
    p_factors (o_pub o2') = Some A' /\ p_aux (o_pub o2') = Some g' /\ p_full (o_pub o2') = Some F' /\
    first_columns ranks A A' /\ (forall idx, valid (shp g) idx -> valid (shp g') idx /\ get g idx = get g' idx) /\
    F = tucker_tensor (corner (shp g) g') A' /\ sqdist X F = sqdist X F' + energy_outside (shp g) g' /\ sqdist X F' <= sqdist X F.
Proof.
  intros HS HX Hne Hord Hl Hl' Hle B1 B2 T1 T2. destruct (hosvd_published_all _ _ _ _ _ _ _ _ _ _ B1 T1) as (q & E1 & P1 & P2 & P3). destruct (hosvd_published_all _ _ _ _ _ _ _ _ _ _ B2 T2) as (q' & E2 & Q1 & Q2 & Q3).
  destruct (c112_hosvd svdU X ranks ranks' HS HX Hne Hord Hl Hl' Hle) as (o & o' & K1 & K2 & K3 & K4 & K5 & K6). rewrite E1 in K1. injection K1 as <-. rewrite E2 in K2. injection K2 as <-.
  do 6 eexists. do 6 (split; [eassumption|]). split; [exact K3|]. split; [exact K4|]. split; [exact K5|]. split; [exact K6|]. rewrite K6. pose proof (corner_nonneg (shp (tu_core q)) (tu_core q')). lra.
Qed.

Lemma c112_hooi svdU (X : tensor R) ranks ranks' w1 o1 r1 n1 o1' h1 id1 w2 o2 r2 n2 o2' h2 args id2 : left_svd svdU -> wf X -> nonempty (shp X) -> nonempty ranks' -> length ranks' = ndims X ->
  (ndims X <= length ranks)%nat -> (forall n, (n < ndims X)%nat -> (nth n ranks 0 <= nth n ranks' 0)%nat) ->
  o_built o1 = Some (map Z.of_nat ranks, id1) -> o_built o2 = Some ((args, map Z.of_nat ranks'), id2) ->
  hosvd_train svdU X w1 o1 r1 n1 = (o1', Ok h1) -> hooi_train svdU X w2 o2 r2 n2 = (o2', Ok h2) ->
  exists F F', p_full (o_pub o1') = Some F /\ p_full (o_pub o2') = Some F' /\ sqdist X F' <= sqdist X F.
Proof.
  intros HS HX Hne Hr Hl' Hl Hle B1 B2 T1 T2. destruct (hosvd_published_all _ _ _ _ _ _ _ _ _ _ B1 T1) as (q & E1 & P1 & P2 & P3).
  destruct (hooi_published _ _ _ _ _ _ _ _ _ _ _ B2 T2) as (A0 & os & ob & Hi & Hrn & Hin & Q & _).
  pose proof (hooi_train_order _ _ _ _ _ _ _ _ _ _ _ B2 T2) as Ho.
  destruct (c112_hosvd svdU X ranks ranks' HS HX Hne ltac:(lia) Hl ltac:(lia) Hle) as (o & o' & K1 & K2 & _ & _ & _ & K6). rewrite E1 in K1. injection K1 as <-.
  exists (tu_full q), (ob_full ob). split; [exact P3|]. split; [exact Q|]. pose proof (hooi_run_hosvd svdU X ranks' HS HX Hne Hr Hl' A0 os o' Hi K2 Hrn ob Hin) as D.
  rewrite K6. pose proof (corner_nonneg (shp (tu_core q)) (tu_core o')). lra.
Qed.
