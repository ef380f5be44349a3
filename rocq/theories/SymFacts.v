(** Tensors with relabelled indices (C101). *)

From Coq Require Import ZArith List Bool Arith Lia Permutation Reals Lra.
From Verif Require Import Num Py Tensor TF TensorFacts TFFacts Sums Ops OpsLemmas Types Loss Fact Train Spec SpecR LayoutFacts SpecFacts MulFacts TtmFacts SkipFacts TtmLemmas Matricize
  KronFacts RSums MatR KronAlg NormFacts SpecTucker MultiR SvdFacts TuckerFacts TuckerRun TuckerLemmas SpecCp SpecBcu BcuFacts SpecTrain TrainLemmas LossFacts CpFacts AlsFacts AlsLemmas SpecSym.
Import ListNotations.

(** ** sums in another order *)
Definition perm1 (n : nat) (p : nat -> nat) : Prop :=
  (forall i, i < n -> p i < n) /\ (forall i j, i < n -> j < n -> p i = p j -> i = j).
Lemma perm1_perm n p : perm1 n p -> Permutation (map p (seq 0 n)) (seq 0 n).
Proof.
  intros [H1 H2]. apply NoDup_Permutation_bis.
  - assert (G : forall l, (forall i, In i l -> i < n) -> NoDup l -> NoDup (map p l)).
    { induction l as [|a l IH]; intros K D; cbn; [constructor|]. inversion D; subst. constructor; [|apply IH; auto; intros; apply K; right; auto].
      intros Hin. apply in_map_iff in Hin as (b & E & Hb). apply H2 in E; [subst; contradiction|apply K; right; auto|apply K; left; auto]. }
    apply G; [intros i Hi; apply in_seq in Hi; lia|apply seq_NoDup].
  - rewrite map_length. lia.
  - intros x Hx. apply in_map_iff in Hx as (i & <- & Hi). apply in_seq in Hi. apply in_seq. pose proof (H1 i ltac:(lia)). lia.
Qed.
Lemma perm1_onto n p j : perm1 n p -> j < n -> exists i, i < n /\ p i = j.
Proof.
  intros H Hj. assert (K : In j (map p (seq 0 n))) by (eapply Permutation_in; [apply Permutation_sym, perm1_perm, H|apply in_seq; lia]).
  apply in_map_iff in K as (i & E & Hi). apply in_seq in Hi. exists i. split; [lia|exact E].
Qed.
Lemma perm1_id n : perm1 n (fun i => i). Proof. split; auto. Qed.

Section Sums.
  Context {T : Type} {NT : Num T} (RL : RingLaws T).
  Lemma sumn_perm n p (f : nat -> T) : perm1 n p -> sumn n (fun i => f (p i)) = sumn n f.
  Proof. intros H. unfold sumn. rewrite <- (map_map p f). apply (lsum_perm RL), Permutation_map, perm1_perm, H. Qed.

  Lemma moved_cons sg i r : moved sg (i :: r) = sg 0 i :: moved (fun k => sg (S k)) r.
  Proof. unfold moved. cbn [length seq map nth]. f_equal. rewrite <- seq_shift, map_map. reflexivity. Qed.
  Lemma relabelling_cons d s sg : relabelling (d :: s) sg -> perm1 d (sg 0) /\ relabelling s (fun k => sg (S k)).
  Proof. intros H. split; [apply (H 0); cbn; lia|]. intros k Hk. apply (H (S k)). cbn. lia. Qed.
  Lemma isum_moved s : forall sg (f : list nat -> T), relabelling s sg -> isum s (fun idx => f (moved sg idx)) = isum s f.
  Proof.
    induction s as [|d s IH]; intros sg f H; [rewrite !(isum_nil RL); reflexivity|]. apply relabelling_cons in H as [H1 H2]. rewrite !(isum_cons RL).
    rewrite <- (sumn_perm d (sg 0) (fun i => isum s (fun r => f (i :: r))) H1). apply sumn_ext. intros i _.
    rewrite <- (IH (fun k => sg (S k)) (fun r => f (sg 0 i :: r)) H2). apply isum_ext. intros r _. rewrite moved_cons. reflexivity.
  Qed.
End Sums.

(** ** indices *)
Lemma moved_length sg idx : length (moved sg idx) = length idx.
Proof. unfold moved. rewrite map_length, seq_length. reflexivity. Qed.
Lemma nth_moved sg idx k : k < length idx -> nth k (moved sg idx) 0 = sg k (nth k idx 0).
Proof. intros H. unfold moved. rewrite nth_map_lt with (da := 0) by (rewrite seq_length; exact H). rewrite seq_nth by exact H. reflexivity. Qed.
Lemma moved_valid s sg idx : relabelling s sg -> valid s idx -> valid s (moved sg idx).
Proof.
  intros H Hv. pose proof (valid_length _ _ Hv) as L. apply nth_Forall2 with (da := 0) (db := 0); [rewrite moved_length; exact L|].
  intros k Hk. rewrite moved_length in Hk. rewrite nth_moved by exact Hk. apply (H k); [lia|]. apply (valid_nth _ _ k Hv). lia.
Qed.
Definition set_sg (sg : nat -> nat -> nat) (n : nat) (p : nat -> nat) : nat -> nat -> nat := fun k => if Nat.eqb k n then p else sg k.
Lemma moved_replace sg p n i idx : moved sg (replace n i idx) = replace n (sg n i) (moved (set_sg sg n p) idx).
Proof.
  apply nth_ext with (d := 0) (d' := 0); [rewrite moved_length, !replace_length, moved_length; reflexivity|].
  intros k Hk. rewrite moved_length in Hk. rewrite nth_moved by exact Hk. rewrite replace_length in Hk.
  destruct (Nat.eq_dec k n) as [->|E].
  - rewrite !nth_replace_eq by (rewrite ?moved_length; exact Hk). reflexivity.
  - rewrite !nth_replace_ne by exact E. rewrite nth_moved by exact Hk. unfold set_sg. destruct (Nat.eqb_spec k n); [contradiction|reflexivity].
Qed.
Lemma moved_ext sg sg' idx : (forall k, k < length idx -> sg k (nth k idx 0) = sg' k (nth k idx 0)) -> moved sg idx = moved sg' idx.
Proof. intros H. unfold moved. apply map_ext_in. intros k Hk. apply in_seq in Hk. apply H. lia. Qed.
Lemma relabelling_set s sg n d p : relabelling s sg -> perm1 d p -> relabelling (replace n d s) (set_sg sg n p).
Proof.
  intros H Hp k Hk. rewrite replace_length in Hk. unfold set_sg. destruct (Nat.eqb_spec k n) as [->|E].
  - rewrite nth_replace, Nat.eqb_refl by exact Hk. exact Hp.
  - rewrite nth_replace_ne by exact E. apply H, Hk.
Qed.

(** ** tensors *)
Section Rel.
  Context {T : Type} {NT : Num T}.
  Lemma shp_relabel sg (X : tensor T) : shp (relabel sg X) = shp X. Proof. reflexivity. Qed.
  Lemma wf_relabel sg (X : tensor T) : wf (relabel sg X). Proof. apply wf_gen. Qed.
  Lemma get_relabel sg (X : tensor T) idx : valid (shp X) idx -> get (relabel sg X) idx = get X (moved sg idx).
  Proof. intros H. unfold relabel. rewrite get_gen by exact H. reflexivity. Qed.
  Lemma rows_mat sg k (A : tensor T) r c : is_mat A r c -> is_mat (relabel_rows sg k A) r c.
  Proof. intros [_ H]. unfold relabel_rows, nrows, ncols. rewrite H. apply is_mat_mgen. Qed.
  Lemma mget_rows sg k (A : tensor T) i q : i < nrows A -> q < ncols A -> mget (relabel_rows sg k A) i q = mget A (sg k i) q.
  Proof. intros H1 H2. unfold relabel_rows. rewrite mget_mgen by assumption. reflexivity. Qed.
  Lemma nrows_rows sg k (A : tensor T) : nrows (relabel_rows sg k A) = nrows A. Proof. reflexivity. Qed.
  Lemma ncols_rows sg k (A : tensor T) : ncols (relabel_rows sg k A) = ncols A. Proof. reflexivity. Qed.
  Lemma rf_length sg (A : list (tensor T)) : length (relabel_factors sg A) = length A.
  Proof. unfold relabel_factors. rewrite map_length, seq_length. reflexivity. Qed.
  Lemma rf_at sg (A : list (tensor T)) k : k < length A -> mat_at (relabel_factors sg A) k = relabel_rows sg k (mat_at A k).
  Proof.
    intros H. unfold relabel_factors. unfold mat_at at 1. rewrite nth_map_lt with (da := 0) by (rewrite seq_length; exact H). rewrite seq_nth by exact H. reflexivity.
  Qed.
  Lemma rf_replace sg n (B : tensor T) (A : list (tensor T)) : relabel_factors sg (replace n B A) = replace n (relabel_rows sg n B) (relabel_factors sg A).
  Proof.
    apply nth_ext with (d := mkT [] []) (d' := mkT [] []); [rewrite rf_length, !replace_length, rf_length; reflexivity|].
    intros k Hk. rewrite rf_length in Hk. fold (mat_at (relabel_factors sg (replace n B A)) k). rewrite rf_at by exact Hk. rewrite replace_length in Hk. unfold mat_at at 1.
    destruct (Nat.eq_dec k n) as [->|E].
    - rewrite !nth_replace, Nat.eqb_refl by (rewrite ?rf_length; exact Hk). reflexivity.
    - rewrite !nth_replace_ne by exact E. fold (mat_at (relabel_factors sg A) k). rewrite rf_at by exact Hk. reflexivity.
  Qed.

  Lemma is_mat_dims (A : tensor T) r c : is_mat A r c -> nrows A = r /\ ncols A = c.
  Proof. intros [_ H]. unfold nrows, ncols. rewrite H. split; reflexivity. Qed.
End Rel.

Local Open Scope R_scope.

(** ** distances *)
Section Metrics.
  Variables (X F : tensor R) (sg : nat -> nat -> nat).
  Hypothesis HX : wf X.
  Hypothesis HF : wf F.
  Hypothesis Hs : shp F = shp X.
  Hypothesis Hsg : relabelling (shp X) sg.

  Lemma msum_relabel (f : list nat -> R) (g : list nat -> R) : (forall idx, valid (shp X) idx -> g idx = f (moved sg idx)) -> msum (shp X) g = msum (shp X) f.
  Proof. intros H. rewrite <- !(isum_msum RLR). rewrite <- (isum_moved RLR (shp X) sg f Hsg). apply isum_ext, H. Qed.
  Lemma norm_relabel : tf_norm (relabel sg X) = tf_norm X.
  Proof. rewrite !tf_norm_R by (auto using wf_relabel). f_equal. apply msum_relabel. intros idx Hv. rewrite get_relabel by exact Hv. reflexivity. Qed.
  Lemma metrics_relabel : metrics_of (relabel sg X) (relabel sg F) = metrics_of X F.
  Proof.
    unfold metrics_of. rewrite !(rmse_iz_ok RLR neqbR_eq) by (auto using wf_relabel). cbn [bind].
    rewrite !bin_same by (rewrite ?shp_relabel; auto). cbn [bind]. rewrite norm_relabel, !norm_gen. rewrite shp_relabel.
    assert (E : forall (f g : list nat -> R), (forall idx, valid (shp X) idx -> g idx = f (moved sg idx)) -> isum (shp F) g = isum (shp F) f).
    { intros f g H. rewrite Hs, !(isum_msum RLR). apply msum_relabel, H. }
    rewrite (E (fun i => (nsub (get F i) (get X i))²) (fun i => (nsub (get (relabel sg F) i) (get (relabel sg X) i))²)).
    - do 4 f_equal; apply msum_relabel; intros idx Hv; rewrite ?get_relabel by (rewrite ?Hs; exact Hv); reflexivity.
    - intros idx Hv. rewrite !get_relabel by (rewrite ?Hs; exact Hv). reflexivity.
  Qed.
End Metrics.

(** ** CP: the quantities of one mode update *)
Section Cp.
  Variables (X : tensor R) (r : nat) (sg : nat -> nat -> nat).
  Hypothesis Hsg : relabelling (shp X) sg.
  Let N := ndims X.

  Lemma rf_factors A : cp_factors X r A -> cp_factors (relabel sg X) r (relabel_factors sg A).
  Proof.
    intros [HL HA]. split; [rewrite rf_length; exact HL|]. intros k Hk. change (ndims (relabel sg X)) with (ndims X) in Hk. rewrite rf_at by (rewrite HL; exact Hk). apply rows_mat, HA, Hk.
  Qed.
  Lemma sg_perm k : (k < N)%nat -> perm1 (nth k (shp X) 0%nat) (sg k).
  Proof. apply Hsg. Qed.

  Lemma but_relabel A n idx q : cp_factors X r A -> (q < r)%nat -> length idx = N -> (forall k, (k < N)%nat -> k <> n -> (nth k idx 0 < nth k (shp X) 0)%nat) ->
    but (relabel_factors sg A) n idx q = but A n (moved (set_sg sg n (fun i => i)) idx) q.
  Proof.
    intros [HL HA] Hq Hl Hv. unfold but. rewrite rf_length. f_equal. apply map_ext_in. intros k Hk. apply in_others in Hk as [K1 K2]. rewrite HL in K1.
    destruct (is_mat_dims _ _ _ (HA k K1)) as [D1 D2]. rewrite rf_at by lia. rewrite mget_rows by (rewrite ?D1, ?D2; auto). rewrite nth_moved by (rewrite Hl; exact K1).
    unfold set_sg. destruct (Nat.eqb_spec k n); [contradiction|reflexivity].
  Qed.
  Lemma mttkrp_relabel A n : cp_factors X r A -> (n < N)%nat -> mttkrp (relabel sg X) r (relabel_factors sg A) n = relabel_rows sg n (mttkrp X r A n).
  Proof.
    intros HA Hn. apply mat_ext with (r := nth n (shp X) 0%nat) (c := r); [apply is_mat_mgen|apply rows_mat, is_mat_mgen|]. intros i q Hi Hq.
    rewrite mget_rows by assumption. unfold mttkrp. rewrite !mget_mgen by (auto; apply (sg_perm n Hn); exact Hi). cbn [shp relabel gen].
    rewrite <- !(isum_msum RLR).
    rewrite <- (isum_moved RLR (replace n 1%nat (shp X)) (set_sg sg n (fun i => i)) (fun idx => get X (replace n (sg n i) idx) * but A n idx q)) by (apply relabelling_set; [exact Hsg|apply perm1_id]).
    apply isum_ext. intros idx Hv. pose proof (valid_length _ _ Hv) as L. rewrite replace_length in L.
    assert (Hv' : valid (shp X) (replace n i idx)) by (rewrite <- (replace_nth n (shp X)); apply valid_replace1; auto).
    rewrite get_relabel by exact Hv'. rewrite (moved_replace sg (fun i => i)). f_equal. apply but_relabel; auto.
    intros k Hk Hkn. rewrite <- (nth_replace_ne n 1%nat (shp X) 0%nat k Hkn). apply (valid_nth _ _ k Hv). rewrite replace_length. exact Hk.
  Qed.
  Lemma bigsum_perm n p (f : nat -> R) : perm1 n p -> bigsum n (fun i => f (p i)) = bigsum n f.
  Proof. intros H. rewrite <- !(sumn_bigsum RLR). apply (sumn_perm RLR), H. Qed.
  Lemma gram_relabel A n : cp_factors X r A -> gram_but r (relabel_factors sg A) n = gram_but r A n.
  Proof.
    intros [HL HA]. unfold gram_but, mgen. apply gen_ext. intros idx Hv. apply valid2_inv in Hv as (p & q & -> & Hp & Hq). cbn [nth]. rewrite rf_length. f_equal.
    apply map_ext_in. intros k Hk. apply in_others in Hk as [K1 K2]. rewrite HL in K1. rewrite rf_at by lia. destruct (is_mat_dims _ _ _ (HA k K1)) as [D1 D2].
    rewrite nrows_rows, D1. rewrite <- (bigsum_perm _ (sg k) (fun i => mget (mat_at A k) i p * mget (mat_at A k) i q)) by (apply sg_perm, K1).
    apply bigsum_ext. intros i Hi. rewrite !mget_rows by (rewrite ?D1, ?D2; auto). reflexivity.
  Qed.
  Lemma cp_tensor_relabel lam A : cp_factors X r A -> cp_tensor r lam (relabel_factors sg A) = relabel sg (cp_tensor r lam A).
  Proof.
    intros HA. assert (E : map nrows A = shp X).
    { apply nth_ext with (d := 0%nat) (d' := 0%nat); rewrite map_length; [apply (proj1 HA)|]. intros k Hk. rewrite (nth_map_lt nrows A k (mkT [] [])) by exact Hk. apply (fac_mat X r A HA). rewrite <- (proj1 HA). exact Hk. }
    assert (E' : map nrows (relabel_factors sg A) = map nrows A).
    { apply nth_ext with (d := 0%nat) (d' := 0%nat); rewrite !map_length; rewrite ?rf_length; [reflexivity|]. intros k Hk.
      rewrite !(nth_map_lt nrows _ k (mkT [] [])) by (rewrite ?rf_length; exact Hk). fold (mat_at (relabel_factors sg A) k). rewrite rf_at by exact Hk. reflexivity. }
    unfold cp_tensor at 1. unfold relabel. rewrite E'. change (shp (cp_tensor r lam A)) with (map nrows A). apply gen_ext. intros idx Hv.
    pose proof Hv as Hv0. rewrite E in Hv0. unfold cp_tensor. rewrite get_gen by (rewrite E; apply moved_valid; assumption).
    apply bigsum_ext. intros q Hq. f_equal. rewrite rf_length. apply bigprod_ext. intros k Hk. destruct HA as [HL HA]. rewrite HL in Hk. destruct (is_mat_dims _ _ _ (HA k Hk)) as [D1 D2].
    rewrite rf_at by lia. pose proof (valid_length _ _ Hv0) as L. rewrite mget_rows; [|rewrite D1; apply (valid_nth _ _ k Hv0); exact Hk|rewrite D2; exact Hq].
    rewrite nth_moved by (rewrite L; exact Hk). reflexivity.
  Qed.
End Cp.
