(** Slices of the cores of HOSVD and HOOI. *)

From Coq Require Import ZArith List Bool Arith Lia Permutation Reals Lra Psatz.
From Verif Require Import Num Py Tensor TF TensorFacts TFFacts Sums Ops Types Loss Fact Train Spec SpecR LayoutFacts SpecFacts MulFacts TtmFacts SkipFacts TtmLemmas Matricize
  KronFacts RSums MatR KronAlg LossFacts SpecTrain TrainFacts TrainLemmas BcuFacts SpecTucker SpecBcu SpecProx NtFacts AlsFacts MultiR SvdFacts TuckerFacts TuckerRun TuckerLemmas QuasiOpt SpecSlice.
Import ListNotations.
Local Open Scope R_scope.

(** the matrix unit *)
Definition unit_mat (d a b : nat) : tensor R := mgen d d (fun i j => delta i a * delta j b).

Lemma slice_tdot (Z : tensor R) n a b : (n < ndims Z)%nat -> (a < nth n (shp Z) 0)%nat -> (b < nth n (shp Z) 0)%nat ->
  slice_dot n a b Z = tdot Z (mode_product Z (unit_mat (nth n (shp Z) 0%nat) a b) n).
Proof.
  intros Hn Ha Hb. set (d := nth n (shp Z) 0%nat) in *. unfold slice_dot. rewrite <- (isum_msum RLR).
  rewrite (tdot_at Z _ n Hn). apply isum_ext. intros idx Hv. fold d.
  assert (Hl : (n < length idx)%nat) by (rewrite (valid_length _ _ Hv), replace_length; exact Hn).
  transitivity (sumn d (fun k => get Z (replace n k idx) * get Z (replace n b idx) * delta k a)).
  - rewrite sumnR_delta' by exact Ha. reflexivity.
  - apply sumnR_ext. intros k Hk.
    assert (Hvk : valid (replace n d (shp Z)) (replace n k idx)) by (apply valid_replace1; auto).
    rewrite get_mp by (change (nrows (unit_mat d a b)) with d; exact Hvk).
    change (ncols (unit_mat d a b)) with d. rewrite nth_replace_eq by exact Hl.
    rewrite (sumnR_ext d _ (fun l => (get Z (replace n l idx) * delta k a) * delta l b)).
    + rewrite sumnR_delta' by exact Hb. Rn. ring.
    + intros l Hl'. rewrite replace_replace. unfold unit_mat. rewrite mget_mgen by auto. Rn. ring.
Qed.

(** through the unfolding *)
Lemma slice_unfold (Z M : tensor R) n a b : (n < ndims Z)%nat -> (a < nth n (shp Z) 0)%nat -> (b < nth n (shp Z) 0)%nat ->
  unfold Z (Z.of_nat n) = Ok M -> slice_dot n a b Z = sumn (rest n (shp Z)) (fun j => mget M a j * mget M b j).
Proof.
  intros Hn Ha Hb HM. rewrite slice_tdot by auto. set (d := nth n (shp Z) 0%nat) in *.
  assert (H0 : d <> 0%nat) by lia.
  assert (HsY : shp (mode_product Z (unit_mat d a b) n) = shp Z).
  { unfold mode_product. rewrite shp_gen. change (nrows (unit_mat d a b)) with d. apply replace_nth. }
  destruct (unfold_ok (mode_product Z (unit_mat d a b) n) n) as (M' & HM' & _); [unfold ndims; rewrite HsY; exact Hn|rewrite HsY; exact H0|].
  rewrite (tdot_unfold Z _ M M' n) by auto. fold d. unfold dot2.
  rewrite (sumnR_ext d _ (fun i => sumn (rest n (shp Z)) (fun j => mget M i j * mget M b j) * delta i a)).
  - rewrite sumnR_delta' by exact Ha. reflexivity.
  - intros i Hi. rewrite <- sumnR_scale_r. apply sumnR_ext. intros j Hj.
    rewrite (mp_unfold Z (unit_mat d a b) M M' n Hn H0 H0 eq_refl HM HM' i j Hi Hj). fold d. unfold mm.
    rewrite (sumnR_ext d _ (fun k => (delta i a * mget M k j) * delta k b)).
    + rewrite sumnR_delta' by exact Hb. Rn. ring.
    + intros k Hk. unfold unit_mat. rewrite mget_mgen by auto. Rn. ring.
Qed.

(** slices after projecting on leading singular vectors *)
Lemma slice_svd (X M U W : tensor R) s r n a b : (n < ndims X)%nat -> nth n (shp X) 0%nat <> 0%nat -> unfold X (Z.of_nat n) = Ok M ->
  thin_svd M U s W -> (a < ncols (leading U r))%nat -> (b < ncols (leading U r))%nat ->
  slice_dot n a b (mode_product X (mtrans (leading U r)) n) = if Nat.eqb a b then (s a)² else 0.
Proof.
  intros Hn H0 HM Hs Ha Hb. set (V := leading U r) in *. set (Y := mode_product X (mtrans V) n).
  pose proof (unfold_mat X M n Hn H0 HM) as [_ Hmm]. destruct (matrix_is_mat _ _ _ Hmm) as (Mm & Mr & Mc).
  destruct (svd_U _ _ _ _ Hs) as (U1 & U2 & U3).
  assert (HsY : shp Y = replace n (ncols V) (shp X)) by reflexivity.
  assert (HnY : (n < ndims Y)%nat) by (unfold ndims; rewrite HsY, replace_length; exact Hn).
  assert (HdY : nth n (shp Y) 0%nat = ncols V) by (rewrite HsY, nth_replace_eq; auto).
  destruct (unfold_ok Y n HnY) as (M' & HM' & _); [lia|].
  rewrite (slice_unfold Y M' n a b) by (rewrite ?HdY; auto). rewrite HsY, rest_replace.
  assert (HVr : nrows V = nth n (shp X) 0%nat) by (change (nrows V) with (nrows U); congruence).
  assert (HVc : (ncols V <= Nat.min (nrows M) (ncols M))%nat) by (change (ncols V) with (Nat.min r (ncols U)); lia).
  assert (E : forall c j, (c < ncols V)%nat -> (j < rest n (shp X))%nat -> mget M' c j = s c * mget W j c).
  { intros c j Hc Hj. rewrite (mp_unfold X (mtrans V) M M' n Hn H0 ltac:(change (nrows (mtrans V)) with (ncols V); lia) HVr HM HM' c j Hc Hj).
    unfold mm. rewrite <- Mr.
    rewrite (sumnR_ext (nrows M) _ (fun i => sumn (Nat.min (nrows M) (ncols M)) (fun p => (s p * mget W j p) * (mget U i c * mget U i p)))).
    - rewrite sumnR_ex. rewrite (sumnR_ext _ _ (fun p => (s p * mget W j p) * delta p c)).
      + rewrite sumnR_delta' by lia. reflexivity.
      + intros p Hp. rewrite sumnR_scale. pose proof (svd_HU _ _ _ _ Hs c p ltac:(lia) Hp) as G. unfold mm, tr in G. rewrite G. rewrite delta_sym. reflexivity.
    - intros i Hi. rewrite mget_mtrans by (auto; change (nrows V) with (nrows U); congruence).
      unfold V, leading. rewrite mget_mgen by (auto; congruence).
      rewrite (svd_HM _ _ _ _ Hs i j Hi) by (rewrite Mc; exact Hj). rewrite <- sumnR_scale. apply sumnR_ext. intros p Hp. Rn. ring. }
  rewrite (sumnR_ext _ _ (fun j => (s a * s b) * (mget W j a * mget W j b))).
  - rewrite sumnR_scale. pose proof (svd_HW _ _ _ _ Hs a b ltac:(lia) ltac:(lia)) as G. unfold mm, tr in G. rewrite Mc in G. rewrite G.
    unfold delta. destruct (Nat.eqb_spec a b) as [->|]; [unfold Rsqr; Rn; ring|Rn; ring].
  - intros j Hj. rewrite !E by auto. Rn. ring.
Qed.

(** orthonormal factors in the other modes keep the slices *)
Lemma slice_mps (G : tensor R) A n ks a b : wf G -> (n < ndims G)%nat -> NoDup ks -> ~ In n ks -> (a < nth n (shp G) 0)%nat -> (b < nth n (shp G) 0)%nat ->
  (forall k, In k ks -> pair_fits (shp G) (mat_at A k, k) /\ orthonormal (mat_at A k)) ->
  slice_dot n a b (mode_products G (pl A ks)) = slice_dot n a b G.
Proof.
  intros HG Hn Hnd Hin Ha Hb Hf. set (Y := mode_products G (pl A ks)).
  assert (HnY : ndims Y = ndims G) by (unfold ndims, Y; rewrite shp_mode_products; apply rshape_length).
  assert (HdY : nth n (shp Y) 0%nat = nth n (shp G) 0%nat) by (unfold Y; rewrite shp_mode_products; apply rshape_out; rewrite snd_pl; exact Hin).
  rewrite !slice_tdot by (rewrite ?HnY, ?HdY; auto). rewrite HdY. set (E := unit_mat _ a b).
  assert (EQ : mode_product Y E n = mode_products (mode_product G E n) (pl A ks)).
  { change (mode_products (mode_product G E n) (pl A ks)) with (mode_products G ((E, n) :: pl A ks)).
    replace (mode_product Y E n) with (mode_products G (pl A ks ++ [(E, n)])) by (unfold Y, mode_products; rewrite fold_left_app; reflexivity).
    symmetry. apply (mode_products_perm RLR); [exact HG|apply Permutation_cons_append|..].
    - cbn [map snd]. rewrite snd_pl. constructor; auto.
    - intros p [<-|Hp].
      + split; [|split]; cbn [fst snd]; [exact Hn|apply (matrix_is_mat _ _ _ (is_mat_mgen _ _ _))|reflexivity].
      + unfold pl in Hp. apply in_map_iff in Hp as (k & <- & Hk). apply Hf, Hk. }
  rewrite EQ. assert (HsE : shp (mode_product G E n) = shp G) by (unfold mode_product; rewrite shp_gen; change (nrows E) with (nth n (shp G) 0%nat); apply replace_nth).
  assert (HF : forall p, In p (pl A ks) -> pair_fits (shp G) p /\ orthonormal (fst p)).
  { intros p Hp. unfold pl in Hp. apply in_map_iff in Hp as (k & <- & Hk). apply Hf, Hk. }
  unfold Y. rewrite tdot_mps.
  - rewrite mps_ortho; [reflexivity|apply wf_gen|rewrite snd_pl; exact Hnd|]. rewrite HsE. exact HF.
  - rewrite snd_pl. exact Hnd.
  - intros p Hp. apply HF, Hp.
  - rewrite shp_mode_products, HsE. reflexivity.
Qed.

(** a slice as a tensor *)
Definition row_mat (d a : nat) : tensor R := mgen 1 d (fun _ j => delta j a).
Lemma slice_sqlen (Z : tensor R) n a : (n < ndims Z)%nat -> (a < nth n (shp Z) 0)%nat ->
  slice_dot n a a Z = sqlen (mode_product Z (row_mat (nth n (shp Z) 0%nat) a) n).
Proof.
  intros Hn Ha. set (d := nth n (shp Z) 0%nat) in *. unfold slice_dot, sqlen. unfold mode_product at 1. rewrite shp_gen. change (nrows (row_mat d a)) with 1%nat.
  apply msum_ext. intros idx Hv. rewrite get_mp by exact Hv. change (ncols (row_mat d a)) with d.
  assert (H0 : nth n idx 0%nat = 0%nat).
  { pose proof (valid_nth _ _ n Hv) as G. rewrite replace_length, nth_replace_eq in G by exact Hn. specialize (G Hn). lia. }
  rewrite H0. rewrite (sumnR_ext d _ (fun k => get Z (replace n k idx) * delta k a)).
  - rewrite sumnR_delta' by exact Ha. unfold Rsqr. Rn. reflexivity.
  - intros k Hk. unfold row_mat. rewrite mget_mgen by (auto; lia). reflexivity.
Qed.

(** projecting the other modes shortens the slices *)
Lemma slice_shrink (D : tensor R) A n ks a : wf D -> (n < ndims D)%nat -> NoDup ks -> ~ In n ks -> (a < nth n (shp D) 0)%nat ->
  (forall k, In k ks -> (k < ndims D)%nat /\ matrix (mat_at A k) /\ nrows (mat_at A k) = nth k (shp D) 0%nat /\ orthonormal (mat_at A k)) ->
  slice_dot n a a (mode_products D (plt A ks)) <= slice_dot n a a D.
Proof.
  intros HD Hn Hnd Hin Ha Hf. set (Y := mode_products D (plt A ks)).
  assert (HnY : ndims Y = ndims D) by (unfold ndims, Y; rewrite shp_mode_products; apply rshape_length).
  assert (HdY : nth n (shp Y) 0%nat = nth n (shp D) 0%nat) by (unfold Y; rewrite shp_mode_products; apply rshape_out; rewrite snd_plt; exact Hin).
  rewrite !slice_sqlen by (rewrite ?HnY, ?HdY; auto). rewrite HdY. set (E := row_mat _ a).
  assert (EQ : mode_product Y E n = mode_products (mode_product D E n) (plt A ks)).
  { change (mode_products (mode_product D E n) (plt A ks)) with (mode_products D ((E, n) :: plt A ks)).
    replace (mode_product Y E n) with (mode_products D (plt A ks ++ [(E, n)])) by (unfold Y, mode_products; rewrite fold_left_app; reflexivity).
    symmetry. apply (mode_products_perm RLR); [exact HD|apply Permutation_cons_append|..].
    - cbn [map snd]. rewrite snd_plt. constructor; auto.
    - intros p [<-|Hp].
      + split; [|split]; cbn [fst snd]; [exact Hn|apply (matrix_is_mat _ _ _ (is_mat_mgen _ _ _))|reflexivity].
      + unfold plt in Hp. apply in_map_iff in Hp as (k & <- & Hk). destruct (Hf k Hk) as (F1 & F2 & F3 & _). split; [exact F1|]. split; [apply matrix_mtrans|exact F3]. }
  rewrite EQ. apply mps_shrink; [exact Hnd|]. intros k Hk. destruct (Hf k Hk) as (F1 & F2 & F3 & F4).
  unfold ndims, mode_product. rewrite shp_gen, replace_length. split; [exact F1|]. split; [exact F2|]. split; [|exact F4].
  rewrite nth_replace_ne; [exact F3|]. intros ->. contradiction.
Qed.

Lemma others_NoDup n N : NoDup (others n N). Proof. apply NoDup_filter, seq_NoDup. Qed.
Lemma not_others n N : ~ In n (others n N). Proof. intros H. apply in_others in H. lia. Qed.

(** the projection with mode n first *)
Lemma core_first (X : tensor R) ranks A n : wf X -> factor_state X ranks A -> (n < ndims X)%nat ->
  project X A = mode_products (mode_product X (mtrans (mat_at A n)) n) (plt A (others n (ndims X))).
Proof.
  intros HX HA Hn. rewrite (core_plt X ranks A HA).
  change (mode_products (mode_product X (mtrans (mat_at A n)) n) (plt A (others n (ndims X)))) with (mode_products X (plt A (n :: others n (ndims X)))).
  apply (mode_products_perm RLR); auto.
  - apply Permutation_map. rewrite <- (kolda_perm n _ Hn). apply perm_skip. symmetry. apply Permutation_rev.
  - rewrite snd_plt. apply seq_NoDup.
  - intros p Hp. apply (fs_plts X ranks A (seq 0 (ndims X))); auto. intros k Hk. apply in_seq in Hk. lia.
Qed.

Section HosvdSlices.
  Variables (svdU : tensor R -> tensor R) (X : tensor R) (ranks : list nat) (o : tucker_out R).
  Hypothesis HS : left_svd svdU.
  Hypothesis HX : wf X.
  Hypothesis Hne : nonempty (shp X).
  Hypothesis Hord : (0 < ndims X <= 13)%nat.
  Hypothesis Hlen : (ndims X <= length ranks)%nat.
  Hypothesis Ho : hosvd svdU X (map Z.of_nat ranks) = Ok o.
  Variables (n : nat) (M W : tensor R) (s : nat -> R).
  Hypothesis Hn : (n < ndims X)%nat.
  Hypothesis HM : unfold X (Z.of_nat n) = Ok M.
  Hypothesis Hs : thin_svd M (svdU M) s W.

  Lemma hs_parts : factor_state X (fitted (shp X) ranks) (tu_A o) /\ tu_core o = project X (tu_A o) /\ tu_full o = tucker_tensor (tu_core o) (tu_A o) /\
    mat_at (tu_A o) n = leading (svdU M) (nth n ranks 0%nat) /\ ncols (leading (svdU M) (nth n ranks 0%nat)) = nth n (fitted (shp X) ranks) 0%nat.
  Proof.
    destruct (hosvd_ok svdU X ranks HS HX Hne Hlen Hord) as (o' & E & H1 & H2 & H3 & H4). rewrite Ho in E. injection E as <-.
    destruct (H4 n Hn) as (M' & HM' & HA'). rewrite HM in HM'. injection HM' as <-. split; [auto|]. split; [auto|]. split; [auto|]. split; [auto|].
    rewrite <- HA'. apply (A_fits X _ _ H1 n Hn).
  Qed.

  Lemma hosvd_slice_le a : (a < nth n (fitted (shp X) ranks) 0)%nat -> slice_dot n a a (tu_core o) <= (s a)².
  Proof.
    intros Ha. destruct hs_parts as (H1 & H2 & H3 & H4 & H5).
    assert (H0 : nth n (shp X) 0%nat <> 0%nat) by (apply nonempty_nth; auto).
    rewrite H2, (core_first X _ _ n HX H1 Hn).
    set (Y := mode_product X (mtrans (mat_at (tu_A o) n)) n).
    assert (HsY : shp Y = replace n (nth n (fitted (shp X) ranks) 0%nat) (shp X)).
    { unfold Y. rewrite H4. unfold mode_product. rewrite shp_gen. change (nrows (mtrans (leading (svdU M) (nth n ranks 0%nat)))) with (ncols (leading (svdU M) (nth n ranks 0%nat))). rewrite H5. reflexivity. }
    apply Rle_trans with (slice_dot n a a Y).
    - apply slice_shrink; auto using others_NoDup, not_others.
      + apply wf_gen.
      + unfold ndims. rewrite HsY, replace_length. exact Hn.
      + rewrite HsY, nth_replace_eq; auto.
      + intros k Hk. apply in_others in Hk as [Hk Hkn]. destruct (A_fits X _ _ H1 k Hk) as (F1 & F2 & F3). unfold ndims. rewrite HsY, replace_length.
        split; [exact Hk|]. split; [exact F1|]. split; [rewrite nth_replace_ne by auto; exact F2|]. apply H1, Hk.
    - unfold Y. rewrite H4. rewrite (slice_svd X M (svdU M) W s _ n a a) by (auto; rewrite H5; exact Ha). rewrite Nat.eqb_refl. apply Rle_refl.
  Qed.

  Lemma hosvd_slices a b : tu_full o = X -> (a < nth n (fitted (shp X) ranks) 0)%nat -> (b < nth n (fitted (shp X) ranks) 0)%nat ->
    slice_dot n a b (tu_core o) = if Nat.eqb a b then (s a)² else 0.
  Proof.
    intros Hx Ha Hb. destruct hs_parts as (H1 & H2 & H3 & H4 & H5).
    assert (H0 : nth n (shp X) 0%nat <> 0%nat) by (apply nonempty_nth; auto).
    assert (HL : length (fitted (shp X) ranks) = ndims X) by (unfold fitted; rewrite map_length, seq_length; reflexivity).
    pose proof (state_tucker X _ _ H1 HL) as HT.
    assert (Hc : core_like (fitted (shp X) ranks) (tu_core o)).
    { rewrite H2. split; [apply (core_wf X _ HX _ H1)|apply (proj_shape' X _ _ HT X eq_refl)]. }
    set (A := tu_A o) in *. set (G := tu_core o) in *.
    set (Y := mode_products G (pl A (others n (ndims X)))).
    assert (HnG : ndims G = ndims X) by (unfold ndims; rewrite (proj2 Hc); exact HL).
    assert (HF : forall k, In k (others n (ndims X)) -> pair_fits (shp G) (mat_at A k, k) /\ orthonormal (mat_at A k)).
    { intros k Hk. apply in_others in Hk as [Hk _]. split; [apply (core_fits X _ A HT G k Hc Hk)|apply H1, Hk]. }
    rewrite <- (slice_mps G A n (others n (ndims X)) a b); auto using others_NoDup, not_others.
    - fold Y. assert (E : Y = mode_product X (mtrans (mat_at A n)) n).
      { rewrite <- Hx at 1. rewrite H3. rewrite (tk_mode X _ G A n HT Hc Hn). fold Y. symmetry. apply mp_ortho.
        - unfold Y. apply wf_mode_products, Hc.
        - unfold Y, ndims. rewrite shp_mode_products, rshape_length. fold (ndims G). lia.
        - unfold Y. rewrite shp_mode_products, rshape_out by (rewrite snd_pl; apply not_others). rewrite (proj2 Hc), H4. exact H5.
        - apply H1, Hn. }
      rewrite E, H4. apply (slice_svd X M (svdU M) W s); auto; rewrite H5; auto.
    - apply Hc.
    - lia.
    - rewrite (proj2 Hc). exact Ha.
    - rewrite (proj2 Hc). exact Hb.
  Qed.
End HosvdSlices.

Lemma project_but_plt (X : tensor R) A n : project_but n X A = mode_products X (plt A (others n (length A))).
Proof. reflexivity. Qed.

(** the slices of a tensor make up its energy *)
Lemma slices_total (Z : tensor R) n : (n < ndims Z)%nat -> sqlen Z = bigsum (nth n (shp Z) 0%nat) (fun a => slice_dot n a a Z).
Proof.
  intros Hn. rewrite sqlen_tdot, (tdot_at Z Z n Hn). rewrite <- (sumn_bigsum RLR). unfold slice_dot.
  rewrite (sumnR_ext (nth n (shp Z) 0%nat) (fun a => msum _ _) (fun a => isum (replace n 1%nat (shp Z)) (fun i => get Z (replace n a i) * get Z (replace n a i)))).
  - transitivity (isum (replace n 1%nat (shp Z)) (fun r => isum [nth n (shp Z) 0%nat] (fun k => get Z (replace n (nth 0 k 0%nat) r) * get Z (replace n (nth 0 k 0%nat) r)))).
    + apply isum_ext. intros idx _. rewrite (isum_cons RLR). apply sumnR_ext. intros k Hk. rewrite (isum_nil RLR). reflexivity.
    + rewrite (isum_exchange RLR), (isum_cons RLR). apply sumnR_ext. intros k Hk. rewrite (isum_nil RLR). reflexivity.
  - intros a Ha. rewrite <- (isum_msum RLR). reflexivity.
Qed.

(** the last mode of a HOOI step *)
Lemma hooi_slices svdU (X : tensor R) ranks A o : left_svd svdU -> wf X -> nonempty (shp X) -> nonempty ranks -> length ranks = ndims X ->
  factor_state X ranks A -> hooi_step svdU X (map Z.of_nat ranks) A = Ok o ->
  let n := (ndims X - 1)%nat in
  exists M W s, unfold (project_but n X (ho_A o)) (Z.of_nat n) = Ok M /\ thin_svd M (svdU M) s W /\
    (forall a b, (a < nth n ranks 0)%nat -> (b < nth n ranks 0)%nat -> slice_dot n a b (ho_core o) = if Nat.eqb a b then (s a)² else 0) /\
    sqdist X (ho_full o) = sqlen X - bigsum (nth n ranks 0%nat) (fun a => (s a)²).
Proof.
  intros HS HX Hne Hrk Hlen HA E n. pose proof (hooi_step_order svdU X (map Z.of_nat ranks) A o (proj1 HA) E) as Hord.
  assert (Hn : (n < ndims X)%nat) by (unfold n; lia).
  destruct (hooi_step_ok svdU X ranks HS HX Hne Hrk Hlen Hord A o HA E) as (H1 & H2 & H3 & _).
  unfold hooi_step in E. apply bind_ok in E as (A' & E1 & E). apply bind_ok in E as (g' & E2 & E). apply bind_ok in E as (f & E3 & E). apply bind_ok in E as (m & E4 & E).
  injection E as <-. cbn [ho_A ho_core ho_full] in *.
  destruct (hooi_modes_mixed svdU X ranks HS HX Hne Hrk Hlen Hord (ndims X) 0%nat A A' eq_refl HA E1) as (_ & _ & Hm). destruct (Hm n ltac:(lia)) as [H4 H5].
  pose proof (lenA X ranks A HA) as LA. pose proof (lenA X ranks A' H1) as LA'.
  assert (EA : mixed (S n) A' A = A') by (replace (S n) with (length A) by (rewrite LA; unfold n; lia); apply mixed_all; lia).
  rewrite EA in H5. destruct (hooi_mode_cases svdU X ranks HS HX Hne Hrk Hlen Hord _ n H4 Hn) as (M & HM & EM). rewrite EM in H5.
  destruct (Nat.leb_spec (nth n ranks 0%nat) (Nat.min (nth n (shp X) 0%nat) (rest n ranks))) as [L|L]; [|discriminate]. injection H5 as H5.
  assert (HAn : mat_at A' n = leading (svdU M) (nth n ranks 0%nat)).
  { rewrite <- H5. apply upd_here. rewrite mixed_length by lia. rewrite LA. exact Hn. }
  assert (HP : project_but n X A' = mode_products X (plt (mixed n A' A) (others n (ndims X)))).
  { rewrite project_but_plt, LA'. f_equal. unfold plt. apply map_ext_in. intros k Hk. apply in_others in Hk. rewrite <- H5 at 1. rewrite upd_other by lia. reflexivity. }
  destruct (partial_shape X ranks Hlen Hord _ n H4 Hn) as (Y1 & Y2 & Y3). rewrite <- HP in HM, Y1, Y2, Y3. set (Y := project_but n X A') in *.
  assert (H0 : nth n (shp Y) 0%nat <> 0%nat) by (rewrite Y2; apply nonempty_nth; auto).
  pose proof (unfold_mat Y M n ltac:(lia) H0 HM) as [_ HM2]. rewrite Y2, Y3 in HM2.
  destruct (matrix_is_mat _ _ _ HM2) as (Mm & Mr & Mc).
  destruct (HS M Mm) as (s & W & Hs); [rewrite Mr; apply nonempty_nth; auto|rewrite Mc; apply rest_nonzero; auto|].
  exists M, W, s. split; [exact HM|]. split; [exact Hs|].
  assert (Hc : ncols (leading (svdU M) (nth n ranks 0%nat)) = nth n ranks 0%nat) by (rewrite <- HAn; apply (A_fits X ranks A' H1 n Hn)).
  assert (EC : g' = mode_product Y (mtrans (leading (svdU M) (nth n ranks 0%nat))) n).
  { rewrite H2, (core_last X ranks HX A' H1 n Hn), HAn. unfold Y. rewrite project_but_plt, LA'. reflexivity. }
  assert (G : forall a b, (a < nth n ranks 0)%nat -> (b < nth n ranks 0)%nat -> slice_dot n a b g' = if Nat.eqb a b then (s a)² else 0).
  { intros a b Ha Hb. rewrite EC. apply (slice_svd Y M (svdU M) W s); auto; rewrite ?Hc; auto. lia. }
  split; [exact G|]. rewrite H3, H2. rewrite (energy X ranks HX A' H1), <- H2. f_equal. f_equal.
  rewrite (slices_total g' n) by (rewrite H2, (core_ndims X ranks A' H1); exact Hn).
  rewrite H2 at 1. rewrite (core_shape X ranks A' H1 n Hn). rewrite <- !(sumn_bigsum RLR). apply sumnR_ext. intros a Ha. rewrite G by auto. rewrite Nat.eqb_refl. reflexivity.
Qed.

(** the published core *)
Lemma hosvd_published_core svdU (X : tensor R) w o rnd steps o' h ranks id : o_built o = Some (ranks, id) -> hosvd_train svdU X w o rnd steps = (o', Ok h) ->
  exists q, hosvd svdU X ranks = Ok q /\ p_aux (o_pub o') = Some (tu_core q) /\ p_full (o_pub o') = Some (tu_full q).
Proof.
  intros Hb H. apply train_ok in H as (rank' & id' & p & p' & Hb' & _ & _ & H & ->). rewrite Hb in Hb'. injection Hb' as <- <-.
  unfold hosvd_body in H. destruct (hosvd svdU X ranks) as [q|]; [|discriminate]. destruct (forallb _ _); [|discriminate]. injection H as <- <-. exists q. repeat split; reflexivity.
Qed.

Lemma hosvd_slices_train svdU (X : tensor R) w o rnd steps o' h ranks id : left_svd svdU -> wf X -> nonempty (shp X) -> (0 < ndims X <= 13)%nat -> (ndims X <= length ranks)%nat ->
  o_built o = Some (map Z.of_nat ranks, id) -> hosvd_train svdU X w o rnd steps = (o', Ok h) ->
  (forall k, (k < ndims X)%nat -> (Nat.min (nth k (shp X) 0) (rest k (shp X)) <= nth k ranks 0)%nat) ->
  exists G, p_aux (o_pub o') = Some G /\ forall n M s W, (n < ndims X)%nat -> unfold X (Z.of_nat n) = Ok M -> thin_svd M (svdU M) s W ->
    forall a b, (a < Nat.min (nth n (shp X) 0) (rest n (shp X)))%nat -> (b < Nat.min (nth n (shp X) 0) (rest n (shp X)))%nat ->
      slice_dot n a b G = if Nat.eqb a b then (s a)² else 0.
Proof.
  intros HS HX Hne Hord Hlen Hb Ht Hr. destruct (hosvd_published_core _ _ _ _ _ _ _ _ _ _ Hb Ht) as (q & E & Ec & _).
  exists (tu_core q). split; [exact Ec|]. intros n M s W Hn HM Hs a b Ha Hb'.
  assert (HF : nth n (fitted (shp X) ranks) 0%nat = Nat.min (nth n (shp X) 0%nat) (rest n (shp X))) by (rewrite nth_fitted by exact Hn; specialize (Hr n Hn); lia).
  apply (hosvd_slices svdU X ranks q HS HX Hne Hord Hlen E n M W s Hn HM Hs); rewrite ?HF; auto.
  apply (c56_hosvd svdU X ranks q); auto.
Qed.

(** the core HOOI publishes *)
Lemma hooi_slices_train svdU (X : tensor R) w o rnd steps o' h args ranks id : left_svd svdU -> wf X -> nonempty (shp X) -> nonempty ranks ->
  length ranks = ndims X -> o_built o = Some ((args, map Z.of_nat ranks), id) -> hooi_train svdU X w o rnd steps = (o', Ok h) ->
  let n := (ndims X - 1)%nat in
  exists A G M W s, p_factors (o_pub o') = Some A /\ p_aux (o_pub o') = Some G /\ unfold (project_but n X A) (Z.of_nat n) = Ok M /\ thin_svd M (svdU M) s W /\
    forall a b, (a < nth n ranks 0)%nat -> (b < nth n ranks 0)%nat -> slice_dot n a b G = if Nat.eqb a b then (s a)² else 0.
Proof.
  intros HS HX Hne Hrk Hl Hb H n. apply train_ok in H as ([args' rank'] & id' & p & p' & Hb' & _ & _ & H & ->).
  rewrite Hb in Hb'. injection Hb' as <- <- <-.
  bodies H. apply als_body_ok in H as (s0 & os & Hi & (st & H0 & Hr) & Hh & [Hn Hs] & (_ & _ & Hf & Hfull) & _). cbn [fst snd] in *.
  destruct (last_obs os Hn) as [ob Ho]. destruct (Hf _ Ho) as [F1 F2].
  assert (HA : factor_state X ranks (st 0%nat)).
  { rewrite H0. apply (hooi_init_state svdU X ranks HS Hne Hl). exact Hi. }
  assert (HF : forall k o, nth_error os k = Some o -> factor_state X ranks (st k) ->
    exists q, hooi_step svdU X (map Z.of_nat ranks) (st k) = Ok q /\ st (S k) = ho_A q /\ o = mkObs (ho_A q) (Some (ho_core q)) (ho_full q) (ho_met q)).
  { intros k o1 Ek Hk. specialize (Hr k o1 Ek). unfold hooi_run in Hr.
    destruct (hooi_step svdU X (map Z.of_nat ranks) (st k)) as [q|] eqn:Eq; [|discriminate]. cbn [bind] in Hr. injection Hr as E1 E2.
    exists q. auto. }
  assert (HFk : forall k, (k <= length os)%nat -> factor_state X ranks (st k)).
  { induction k as [|k IH]; intros Hk; auto. destruct (nth_error os k) as [o1|] eqn:E1; [|apply nth_error_None in E1; lia].
    destruct (HF k o1 E1 (IH ltac:(lia))) as (q & Eq & -> & _). apply (c54_hooi_step svdU X ranks (st k)); auto. apply IH. lia. }
  assert (HFl := HFk (length os - 1)%nat ltac:(lia)).
  destruct (HF _ _ Ho HFl) as (q & Eq & _ & ->). cbn [ob_factors ob_aux] in F1, F2.
  destruct (hooi_slices svdU X ranks _ q HS HX Hne Hrk Hl HFl Eq) as (M & W & s & G1 & G2 & G3 & _).
  exists (ho_A q), (ho_core q), M, W, s. split; [exact F1|]. split; [apply F2; reflexivity|]. auto.
Qed.
