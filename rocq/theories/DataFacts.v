(** Lemmas about the synthetic data generators (C65). *)

From Coq Require Import ZArith List Bool Arith Lia Reals Lra.
From Verif Require Import Num Py Tensor TF Ops Types DataGen Spec SpecTypes TensorFacts TFFacts Sums SpecFacts RSums TypeFacts BcuFacts.
Import ListNotations.
Local Open Scope R_scope.

Lemma nnR_clip (t : tensor R) : nnR (clip0 t).
Proof.
  intros x Hx. unfold clip0, tf_map in Hx. cbn [dat] in Hx. apply in_map_iff in Hx. destruct Hx as (y & <- & _).
  rewrite nmax_R. apply Rmax_l.
Qed.
Lemma nnR_noise m (t : tensor R) : nnR (noise_of m t).
Proof.
  intros x Hx. unfold noise_of, tf_map in Hx. cbn [dat] in Hx. apply in_map_iff in Hx. destruct Hx as (y & <- & _).
  rewrite nmax_R. apply Rmax_l.
Qed.
Lemma nnR_map f (t : tensor R) : (forall x, 0 <= x -> 0 <= f x) -> nnR t -> nnR (tf_map f t).
Proof.
  intros Hf Ht x Hx. unfold tf_map in Hx. cbn [dat] in Hx. apply in_map_iff in Hx. destruct Hx as (y & <- & Hy). auto.
Qed.

Lemma bigsum_nonneg n (f : nat -> R) : (forall i, (i < n)%nat -> 0 <= f i) -> 0 <= bigsum n f.
Proof. intros H. rewrite <- (sumn_bigsum RLR). apply sumnR_nonneg. auto. Qed.
Lemma bigprod_nonneg n (f : nat -> R) : (forall i, (i < n)%nat -> 0 <= f i) -> 0 <= bigprod n f.
Proof.
  induction n as [|n IH]; intros H; cbn [bigprod]; Rn; [lra|]. apply Rmult_le_pos; auto.
Qed.
Lemma msum_nonneg s : forall (f : list nat -> R), (forall i, 0 <= f i) -> 0 <= msum s f.
Proof. induction s as [|d s IH]; intros f H; cbn [msum]; auto. apply bigsum_nonneg. intros. apply IH. auto. Qed.

Lemma nnR_mat_at U k : (forall M, In M U -> nnR M) -> forall i j, 0 <= mget (mat_at U k) i j.
Proof.
  intros H i j. unfold mat_at, mget. destruct (lt_dec k (length U)) as [Hk|Hk].
  - apply nnR_get, H, nth_In. auto.
  - rewrite nth_overflow by lia. unfold get. cbn [shp dat ravel]. destruct (0%nat); cbn; lra.
Qed.

Lemma nnR_cp r lam U : nnR lam -> (forall M, In M U -> nnR M) -> nnR (cp_tensor r lam U).
Proof.
  intros Hl HU. apply nnR_gen. intros i. apply bigsum_nonneg. intros k _. Rn. apply Rmult_le_pos; [apply nnR_get; auto|].
  apply bigprod_nonneg. intros. apply nnR_mat_at; auto.
Qed.
Lemma nnR_tucker G U : nnR G -> (forall M, In M U -> nnR M) -> nnR (tucker_tensor G U).
Proof.
  intros Hl HU. apply nnR_gen. intros i. apply msum_nonneg. intros j. Rn. apply Rmult_le_pos; [apply nnR_get; auto|].
  apply bigprod_nonneg. intros. apply nnR_mat_at; auto.
Qed.

Lemma nnR_add (A B t : tensor R) : nnR A -> nnR B -> shp A = shp B -> tf_bin nadd A B = Ok t -> nnR t.
Proof.
  intros HA HB Hs. rewrite bin_same by auto. intros E. injection E as <-. apply nnR_gen. intros i. Rn.
  pose proof (nnR_get A i HA). pose proof (nnR_get B i HB). lra.
Qed.

Lemma map_seq_nth (l : list nat) : map (fun ii => nth ii l 0%nat) (seq 0 (length l)) = l.
Proof. apply map_nth_seq. Qed.

Section C65.
  Variable cast : dtype -> R -> R.
  Hypothesis Hcast : forall x, 0 <= x -> 0 <= cast F32 x.

  (** the noisy tensor: shape N_list, entry = reconstruction + clipped noise *)
  Lemma add_noise N_list (M randn : tensor R) mn : shp M = N_list -> nnR M ->
    shp randn = N_list ->
    exists t, tf_bin nadd M (noise_of mn randn) = Ok t /\ shp t = N_list /\ nnR t.
  Proof.
    intros HM Hn Hr. assert (Hs : shp M = shp (noise_of mn randn)) by (cbn; congruence).
    exists (gen (shp M) (fun idx => nadd (get M idx) (get (noise_of mn randn) idx))).
    pose proof (bin_same nadd M (noise_of mn randn) Hs) as E. split; [exact E|]. split; [exact HM|].
    eapply nnR_add; [| | |exact E]; auto. apply nnR_noise.
  Qed.

  Lemma c65_cp N_list r (rand : nat -> tensor R) (randn : tensor R) mn :
    N_list <> [] -> (length N_list <= 25)%nat ->
    (forall ii, (ii < length N_list)%nat -> is_mat (rand ii) (nth ii N_list 0%nat) r) -> shp randn = N_list ->
    exists t, synthetic_data_cp cast N_list rand randn mn = Ok t /\ shp t = N_list /\ forall x, In x (dat t) -> 0 <= x.
  Proof.
    intros Hne Hl Hm Hr. unfold synthetic_data_cp.
    set (U := map (fun ii => mkArr NP F64 (clip0 (rand ii))) (seq 0 (length N_list))).
    assert (HUl : length U = length N_list) by (unfold U; rewrite map_length, seq_length; reflexivity).
    destruct (c25_np cast RLR U None r) as (k & E1 & E2).
    - intros E. apply Hne. apply length_zero_iff_nil. rewrite <- HUl, E. reflexivity.
    - intros a Ha. unfold U in Ha. apply in_map_iff in Ha. destruct Ha as (ii & <- & _). reflexivity.
    - intros a Ha. unfold U in Ha. apply in_map_iff in Ha. destruct Ha as (ii & <- & Hii). apply in_seq in Hii.
      destruct (Hm ii ltac:(lia)) as [Hw Hs]. cbn [a_t]. unfold matrix, nrows, ncols, clip0, tf_map. cbn [shp]. rewrite Hs. cbn [nth].
      split; [|reflexivity]. split; [|reflexivity]. unfold wf in *. cbn [shp dat]. rewrite map_length, Hs in *. exact Hw.
    - reflexivity.
    - rewrite E1. cbn [bind]. rewrite E2. destruct (Nat.ltb_spec 25 (length U)); [lia|]. cbn [bind snd].
      destruct (add_noise N_list (cp_tensor r (weights_column r None) (map (fun a => tf_map (cast F32) (a_t a)) U)) randn mn) as (t & Et & Hs & Hn); auto.
      + cbn. unfold U. rewrite !map_map. cbn [a_t]. rewrite <- (map_seq_nth N_list) at 2. apply map_ext_in. intros ii Hii. apply in_seq in Hii.
        unfold nrows, clip0, tf_map. cbn [shp]. destruct (Hm ii ltac:(lia)) as [_ ->]. reflexivity.
      + apply nnR_cp.
        * cbn [weights_column]. apply nnR_gen. intros _. Rn. lra.
        * intros M HM. apply in_map_iff in HM. destruct HM as (a & <- & Ha). apply nnR_map; auto.
          unfold U in Ha. apply in_map_iff in Ha. destruct Ha as (ii & <- & _). apply nnR_clip.
      + exists t. auto.
  Qed.

  Lemma c65_cp_limit N_list r (rand : nat -> tensor R) (randn : tensor R) mn :
    (25 < length N_list)%nat ->
    (forall ii, (ii < length N_list)%nat -> is_mat (rand ii) (nth ii N_list 0%nat) r) ->
    synthetic_data_cp cast N_list rand randn mn = Raise ValueError.
  Proof.
    intros Hl Hm. unfold synthetic_data_cp.
    set (U := map (fun ii => mkArr NP F64 (clip0 (rand ii))) (seq 0 (length N_list))).
    assert (HUl : length U = length N_list) by (unfold U; rewrite map_length, seq_length; reflexivity).
    destruct (c25_np cast RLR U None r) as (k & E1 & E2).
    - intros E. rewrite E in HUl. cbn [length] in HUl. lia.
    - intros a Ha. unfold U in Ha. apply in_map_iff in Ha. destruct Ha as (ii & <- & _). reflexivity.
    - intros a Ha. unfold U in Ha. apply in_map_iff in Ha. destruct Ha as (ii & <- & Hii). apply in_seq in Hii.
      destruct (Hm ii ltac:(lia)) as [Hw Hs]. cbn [a_t]. unfold matrix, nrows, ncols, clip0, tf_map. cbn [shp]. rewrite Hs. cbn [nth].
      split; [|reflexivity]. split; [|reflexivity]. unfold wf in *. cbn [shp dat]. rewrite map_length, Hs in *. exact Hw.
    - reflexivity.
    - rewrite E1. cbn [bind]. rewrite E2. destruct (Nat.ltb_spec 25 (length U)); [reflexivity|lia].
  Qed.
End C65.

Lemma c65_tucker N_list ranks (randg : tensor R) (rand : nat -> tensor R) (randn : tensor R) mn :
  N_list <> [] -> (length N_list <= 13)%nat -> length ranks = length N_list -> wf randg -> shp randg = ranks ->
  (forall ii, (ii < length N_list)%nat -> is_mat (rand ii) (nth ii N_list 0%nat) (nth ii ranks 0%nat)) -> shp randn = N_list ->
  exists t, synthetic_data_tucker N_list randg rand randn mn = Ok t /\ shp t = N_list /\ forall x, In x (dat t) -> 0 <= x.
Proof.
  intros Hne Hl Hlr Hwg Hsg Hm Hr. unfold synthetic_data_tucker.
  set (U := map (fun ii => mkArr NP F64 (clip0 (rand ii))) (seq 0 (length N_list))).
  assert (HUl : length U = length N_list) by (unfold U; rewrite map_length, seq_length; reflexivity).
  assert (HUt : map a_t U = map (fun ii => clip0 (rand ii)) (seq 0 (length N_list))) by (unfold U; rewrite map_map; reflexivity).
  rewrite (c28 RLR (mkArr NP F64 (clip0 randg)) U F64).
  - cbn [bind snd a_t].
    destruct (add_noise N_list (tucker_tensor (clip0 randg) (map a_t U)) randn mn) as (t & Et & Hs & Hn); auto.
    + cbn. rewrite HUt, map_map. rewrite <- (map_seq_nth N_list) at 2. apply map_ext_in. intros ii Hii. apply in_seq in Hii.
      unfold nrows, clip0, tf_map. cbn [shp]. destruct (Hm ii ltac:(lia)) as [_ ->]. reflexivity.
    + apply nnR_tucker; [apply nnR_clip|]. intros M HM. rewrite HUt in HM. apply in_map_iff in HM. destruct HM as (ii & <- & _). apply nnR_clip.
    + exists t. auto.
  - intros E. apply Hne. apply length_zero_iff_nil. rewrite <- HUl, E. reflexivity.
  - reflexivity.
  - intros a Ha. unfold U in Ha. apply in_map_iff in Ha. destruct Ha as (ii & <- & _). reflexivity.
  - left. intros a Ha. unfold U in Ha. apply in_map_iff in Ha. destruct Ha as (ii & <- & _). reflexivity.
  - apply wf_map. exact Hwg.
  - unfold ndims, clip0, tf_map. cbn [a_t shp]. rewrite Hsg, Hlr. auto.
  - unfold ndims, clip0, tf_map. cbn [a_t shp]. rewrite ?Hsg, ?Hlr, ?HUl. auto.
  - intros k Hk. rewrite HUl in Hk. rewrite HUt. unfold mat_at. rewrite nth_map_seq by auto. destruct (Hm k Hk) as [Hw Hs].
    unfold matrix, nrows, ncols, clip0, tf_map. cbn [a_t shp]. rewrite Hs, Hsg. cbn [nth]. split; [|reflexivity].
    split; [|reflexivity]. unfold wf in *. cbn [shp dat]. rewrite map_length, Hs in *. exact Hw.
Qed.

(** order 14: the letters of the core's first axes and of the last factors' rows coincide *)
Lemma c65_tucker_14 : let one := fun s => mkT s [1] in let ranks := (2 :: repeat 1 13)%nat in
  synthetic_data_tucker (repeat 1%nat 14) (mkT ranks [1; 1])
    (fun ii => if Nat.eqb ii 0 then mkT [1; 2]%nat [1; 1] else one [1; 1]%nat) (one (repeat 1%nat 14)) (1/10) = Raise ValueError.
Proof. vm_compute. reflexivity. Qed.
