(** Rotated data: projections, unfoldings and leading singular vectors. *)

From Coq Require Import ZArith List Bool Arith Lia Permutation Reals Lra.
From Verif Require Import Num Py Tensor TF TensorFacts TFFacts Sums Ops OpsLemmas Types Loss Fact Train Spec SpecR LayoutFacts SpecFacts MulFacts TtmFacts SkipFacts TtmLemmas Matricize
  KronFacts RSums MatR KronAlg NormFacts SpecTucker MultiR SvdFacts TuckerFacts TuckerRun TuckerLemmas SpecTrain TrainLemmas LossFacts AlsLemmas SpecProx NtFacts
  SpecScale SpecSym SymFacts SymTrain SymBcu SpecGauge GaugeAlg GaugeFacts SpecRot.
Import ListNotations.
Local Open Scope R_scope.

Definition prodm (A B : tensor R) : tensor R := mgen (nrows A) (ncols B) (fun i j => sumn (ncols A) (fun k => mget A i k * mget B k j)).
Lemma prodm_matrix A B : matrix (prodm A B). Proof. split; [apply wf_gen|reflexivity]. Qed.
Lemma mget_prodm A B i j : (i < nrows A)%nat -> (j < ncols B)%nat -> mget (prodm A B) i j = mm (ncols A) (mget A) (mget B) i j.
Proof. intros. unfold prodm. rewrite mget_mgen by assumption. reflexivity. Qed.

(** ** lists of products in the same modes *)
Lemma snd_pl_of (F : nat -> tensor R) ks : map snd (pl_of F ks) = ks.
Proof. unfold pl_of. rewrite map_map. apply map_id. Qed.
Lemma mps_mps (F G : nat -> tensor R) ks : forall Z : tensor R, wf Z -> NoDup ks ->
  (forall k, In k ks -> (k < ndims Z)%nat /\ matrix (F k) /\ ncols (F k) = nth k (shp Z) 0%nat /\ matrix (G k) /\ ncols (G k) = nrows (F k)) ->
  mode_products (mode_products Z (pl_of F ks)) (pl_of G ks) = mode_products Z (pl_of (fun k => prodm (G k) (F k)) ks).
Proof.
  induction ks as [|k ks IH]; intros Z HZ Hn H; [reflexivity|]. inversion Hn as [|? ? Hk Hn']; subst. destruct (H k (or_introl eq_refl)) as (H1 & H2 & H3 & H4 & H5).
  unfold pl_of. cbn [map]. fold (pl_of F ks) (pl_of G ks) (pl_of (fun k => prodm (G k) (F k)) ks).
  change (mode_products Z ((F k, k) :: pl_of F ks)) with (mode_products (mode_product Z (F k) k) (pl_of F ks)).
  change (mode_products Z ((prodm (G k) (F k), k) :: pl_of (fun k => prodm (G k) (F k)) ks)) with (mode_products (mode_product Z (prodm (G k) (F k)) k) (pl_of (fun k => prodm (G k) (F k)) ks)).
  set (Z1 := mode_product Z (F k) k).
  change (mode_products (mode_product (mode_products Z1 (pl_of F ks)) (G k) k) (pl_of G ks) = mode_products (mode_product Z (prodm (G k) (F k)) k) (pl_of (fun k => prodm (G k) (F k)) ks)).
  assert (D : forall j, In j ks -> j <> k) by (intros j Hj ->; contradiction).
  assert (E : mode_product (mode_products Z1 (pl_of F ks)) (G k) k = mode_products (mode_product Z (prodm (G k) (F k)) k) (pl_of F ks)).
  { transitivity (mode_products Z1 (pl_of F ks ++ [(G k, k)])); [unfold mode_products; rewrite fold_left_app; reflexivity|].
    rewrite (mode_products_perm RLR Z1 _ ((G k, k) :: pl_of F ks)).
    - change (mode_products (mode_product Z1 (G k) k) (pl_of F ks) = mode_products (mode_product Z (prodm (G k) (F k)) k) (pl_of F ks)). f_equal. unfold Z1.
      apply mp_mp; auto. intros i j Hi Hj. rewrite mget_prodm by assumption. reflexivity.
    - apply wf_gen.
    - rewrite Permutation_app_comm. reflexivity.
    - rewrite map_app, snd_pl_of. cbn [map snd]. apply (Permutation_NoDup (l := k :: ks)); [rewrite Permutation_app_comm; reflexivity|exact Hn].
    - intros p Hp. apply in_app_iff in Hp as [Hp|[<-|[]]].
      + apply in_map_iff in Hp as (j & <- & Hj). destruct (H j (or_intror Hj)) as (J1 & J2 & J3 & _). unfold Z1. cbn [shp gen mode_product].
        apply pair_fits_replace; [split; [exact J1|split; assumption]|apply D, Hj].
      + unfold Z1. split; [cbn [shp gen mode_product fst snd]; rewrite replace_length; exact H1|]. split; [exact H4|]. cbn [shp gen mode_product fst snd].
        rewrite nth_replace_eq by exact H1. exact H5. }
  rewrite E. apply IH; auto; [apply wf_gen|]. intros j Hj. destruct (H j (or_intror Hj)) as (J1 & J2 & J3 & J4 & J5).
  split; [unfold ndims; cbn [shp gen mode_product]; rewrite replace_length; exact J1|]. split; [exact J2|]. split; [|split; assumption].
  cbn [shp gen mode_product]. rewrite nth_replace_ne by (apply D, Hj). exact J3.
Qed.

(** ** one orthogonal matrix *)
Section One.
  Variables (I : nat) (Q : tensor R).
  Hypothesis HQ : is_mat Q I I.
  Hypothesis HO : orthonormal Q.
  Lemma Q_rc : matrix Q /\ nrows Q = I /\ ncols Q = I. Proof. apply (matrix_is_mat _ _ _ HQ). Qed.
  Lemma Q_cols : ortho I I (mget Q). Proof. destruct Q_rc as (_ & E1 & E2). rewrite <- E1 at 1. rewrite <- E2. apply orthonormal_ortho, HO. Qed.
  Lemma Q_rows : ortho I I (tr (mget Q)). Proof. apply ortho_square, Q_cols. Qed.
  (** Q^T A *)
  Definition back (A : tensor R) : tensor R := prodm (mtrans Q) A.
  Lemma back_rc A : nrows (back A) = I /\ ncols (back A) = ncols A. Proof. split; [exact (proj2 (proj2 Q_rc))|reflexivity]. Qed.
  Lemma mget_back A i j : (i < I)%nat -> (j < ncols A)%nat -> mget (back A) i j = sumn I (fun a => mget Q a i * mget A a j).
  Proof.
    intros Hi Hj. destruct Q_rc as (_ & E1 & E2). unfold back. rewrite mget_prodm by (auto; change (nrows (mtrans Q)) with (ncols Q); rewrite E2; exact Hi).
    unfold mm. change (ncols (mtrans Q)) with (nrows Q). rewrite E1. apply sumnR_ext. intros a Ha. rewrite mget_mtrans by lia. reflexivity.
  Qed.
  Lemma back_ortho A : matrix A -> nrows A = I -> orthonormal A -> orthonormal (back A).
  Proof.
    intros HA HR H. apply orthonormal_ortho in H. rewrite HR in H. apply orthonormal_ortho. destruct (back_rc A) as [-> ->]. intros p q Hp Hq. rewrite <- (H p q Hp Hq).
    transitivity (mm I (tr (mm I (tr (mget Q)) (mget A))) (mm I (tr (mget Q)) (mget A)) p q).
    - apply mm_ext; intros l Hl; unfold tr; [rewrite mget_back by assumption; reflexivity|rewrite mget_back by assumption; reflexivity].
    - transitivity (mm I (mm I (tr (mget A)) (mget Q)) (mm I (tr (mget Q)) (mget A)) p q).
      { apply mm_ext; intros l Hl; [|reflexivity]. unfold mm, tr. apply sumnR_ext. intros; lra. }
      rewrite mm_assoc. apply mm_ext; intros l Hl; [reflexivity|]. rewrite <- mm_assoc.
      transitivity (mm I delta (mget A) l q); [|apply (mm_delta_l I); auto]. apply mm_ext; intros c Hc; [|reflexivity]. apply (Q_rows l c Hl Hc).
  Qed.
  Lemma outer_back A a b : nrows A = I -> (a < I)%nat -> (b < I)%nat -> outer (back A) a b = mm I (tr (mget Q)) (mm I (outer A) (mget Q)) a b.
  Proof.
    intros HR Ha Hb. unfold outer at 1. destruct (back_rc A) as [_ ->]. rewrite <- (sumn_bigsum RLR).
    transitivity (sumn (ncols A) (fun p => sumn I (fun i => sumn I (fun j => mget Q i a * mget Q j b * (mget A i p * mget A j p))))).
    - apply sumnR_ext. intros p Hp. rewrite !mget_back by assumption. rewrite <- sumnR_scale_r. apply sumnR_ext. intros i _. rewrite <- sumnR_scale. apply sumnR_ext. intros; lra.
    - rewrite sumnR_ex. unfold mm, tr. apply sumnR_ext. intros i Hi. rewrite sumnR_ex, <- sumnR_scale. apply sumnR_ext. intros j Hj.
      unfold outer. rewrite <- (sumn_bigsum RLR), sumnR_scale. lra.
  Qed.
  Lemma mm_l (M : mf) m i j : (i < I)%nat -> (j < m)%nat -> mm I (tr (mget Q)) (mm I (mget Q) M) i j = M i j.
  Proof. intros Hi Hj. rewrite <- mm_assoc. transitivity (mm I delta M i j); [|apply (mm_delta_l I); auto]. apply mm_ext; intros l Hl; [apply (Q_cols i l Hi Hl)|reflexivity]. Qed.
  Lemma mm_l' (M : mf) m i j : (i < I)%nat -> (j < m)%nat -> mm I (mget Q) (mm I (tr (mget Q)) M) i j = M i j.
  Proof. intros Hi Hj. rewrite <- mm_assoc. transitivity (mm I delta M i j); [|apply (mm_delta_l I); auto]. apply mm_ext; intros l Hl; [apply (Q_rows i l Hi Hl)|reflexivity]. Qed.
  Lemma mm_r (M : mf) i j : (j < I)%nat -> mm I (mm I M (tr (mget Q))) (mget Q) i j = M i j.
  Proof. intros Hj. rewrite mm_assoc. transitivity (mm I M delta i j); [|apply mm_delta_r; auto]. apply mm_ext; intros l Hl; [reflexivity|apply (Q_cols l j Hl Hj)]. Qed.
  Lemma mm_r' (M : mf) i j : (j < I)%nat -> mm I (mm I M (mget Q)) (tr (mget Q)) i j = M i j.
  Proof. intros Hj. rewrite mm_assoc. transitivity (mm I M delta i j); [|apply mm_delta_r; auto]. apply mm_ext; intros l Hl; [reflexivity|apply (Q_rows l j Hl Hj)]. Qed.

  Lemma turned_mm A A' : nrows A = I -> turned_span Q A A' <-> nrows A' = I /\ ncols A' = ncols A /\ meq I I (outer A') (mm I (mget Q) (mm I (outer A) (tr (mget Q)))).
  Proof.
    intros HR. unfold turned_span. rewrite HR.
    assert (E : forall i j, bigsum I (fun a => bigsum I (fun b => mget Q i a * outer A a b * mget Q j b)) = mm I (mget Q) (mm I (outer A) (tr (mget Q))) i j).
    { intros i j. rewrite <- (sumn_bigsum RLR). unfold mm, tr. apply sumnR_ext. intros a _. rewrite <- (sumn_bigsum RLR), <- sumnR_scale. apply sumnR_ext. intros; lra. }
    split; intros (H1 & H2 & H3); (split; [exact H1|]); (split; [exact H2|]); intros i j Hi Hj; [rewrite <- E|rewrite E]; apply H3; assumption.
  Qed.
  Lemma turned_back A A' : nrows A = I -> nrows A' = I -> turned_span Q A A' <-> same_span (fun i => i) A (back A').
  Proof.
    intros HR HR'. rewrite turned_mm by exact HR. unfold same_span. destruct (back_rc A') as [-> ->]. rewrite HR.
    split; intros (H1 & H2 & H3); (split; [congruence|]); (split; [exact H2|]); intros i j Hi Hj.
    - rewrite outer_back by assumption. transitivity (mm I (tr (mget Q)) (mm I (mm I (mget Q) (mm I (outer A) (tr (mget Q)))) (mget Q)) i j).
      + apply mm_ext; intros l Hl; [reflexivity|]. apply mm_ext; intros c Hc; [|reflexivity]. apply H3; assumption.
      + transitivity (mm I (tr (mget Q)) (mm I (mget Q) (outer A)) i j); [|apply (mm_l _ I); assumption].
        apply mm_ext; intros l Hl; [reflexivity|]. rewrite mm_assoc. apply mm_ext; intros c Hc; [reflexivity|]. apply mm_r. exact Hj.
    - symmetry. transitivity (mm I (mget Q) (mm I (mm I (tr (mget Q)) (mm I (outer A') (mget Q))) (tr (mget Q))) i j).
      + apply mm_ext; intros l Hl; [reflexivity|]. apply mm_ext; intros c Hc; [|reflexivity]. rewrite <- outer_back by assumption. symmetry. apply H3; assumption.
      + transitivity (mm I (mget Q) (mm I (tr (mget Q)) (outer A')) i j); [|apply (mm_l' _ I); assumption].
        apply mm_ext; intros l Hl; [reflexivity|]. rewrite mm_assoc. apply mm_ext; intros c Hc; [reflexivity|]. apply mm_r'. exact Hj.
  Qed.
  (** the projectors *)
  Lemma turned_gram A A' : nrows A = I -> nrows A' = I -> turned_span Q A A' -> prodm (gram_of (mtrans A')) Q = prodm Q (gram_of (mtrans A)).
  Proof.
    intros HR HR' H. apply turned_mm in H as (_ & _ & H); [|exact HR]. destruct Q_rc as (_ & E1 & E2).
    apply mat_ext with (r := I) (c := I); [split; [apply wf_gen|]|split; [apply wf_gen|]|].
    - unfold prodm, mgen. rewrite shp_gen. change (nrows (gram_of (mtrans A'))) with (nrows A'). rewrite HR', E2. reflexivity.
    - unfold prodm, mgen. rewrite shp_gen. change (ncols (gram_of (mtrans A))) with (nrows A). rewrite HR, E1. reflexivity.
    - intros i j Hi Hj. rewrite !mget_prodm; try (change (nrows (gram_of (mtrans A'))) with (nrows A')); try (change (ncols (gram_of (mtrans A))) with (nrows A)); try lia.
      change (ncols (gram_of (mtrans A'))) with (nrows A'). rewrite E2, HR'.
      transitivity (mm I (mm I (mget Q) (mm I (outer A) (tr (mget Q)))) (mget Q) i j).
      + apply mm_ext; intros l Hl; [|reflexivity]. rewrite mget_gramT by (rewrite HR'; assumption). apply H; assumption.
      + rewrite mm_assoc. apply mm_ext; intros l Hl; [reflexivity|]. rewrite mm_r by exact Hj. symmetry. apply mget_gramT; rewrite HR; assumption.
  Qed.
  Lemma mtrans_back A : nrows A = I -> mtrans (back A) = prodm (mtrans A) Q.
  Proof.
    intros HR. destruct Q_rc as (_ & E1 & E2). destruct (back_rc A) as [B1 B2].
    apply mat_ext with (r := ncols A) (c := I); [split; [apply wf_gen|]|split; [apply wf_gen|]|].
    - unfold mtrans, mgen. rewrite shp_gen, B1, B2. reflexivity.
    - unfold prodm, mgen. rewrite shp_gen. change (nrows (mtrans A)) with (ncols A). rewrite E2. reflexivity.
    - intros i j Hi Hj. rewrite mget_mtrans by (rewrite ?B1, ?B2; assumption). rewrite mget_back by assumption. rewrite mget_prodm by (rewrite ?E2; assumption).
      unfold mm. change (ncols (mtrans A)) with (nrows A). rewrite HR. apply sumnR_ext. intros a Ha. rewrite mget_mtrans by lia. lra.
  Qed.
  Lemma back_leading U r : nrows U = I -> leading (back U) r = back (leading U r).
  Proof.
    intros HR. destruct (back_rc U) as [B1 B2]. destruct (back_rc (leading U r)) as [C1 C2].
    apply mat_ext with (r := I) (c := Nat.min r (ncols U)); [split; [apply wf_gen|]|split; [apply wf_gen|]|].
    - unfold leading, mgen. rewrite shp_gen, B1, B2. reflexivity.
    - unfold back, prodm, mgen. rewrite shp_gen. change (nrows (mtrans Q)) with (ncols Q). rewrite (proj2 (proj2 Q_rc)). reflexivity.
    - intros i j Hi Hj. unfold leading at 1. rewrite mget_mgen by (rewrite ?B1, ?B2; assumption). rewrite !mget_back; try assumption; try (change (ncols (leading U r)) with (Nat.min r (ncols U))); try lia.
      apply sumnR_ext. intros a Ha. f_equal. unfold leading. rewrite mget_mgen by lia. reflexivity.
  Qed.
  (** a singular value decomposition of Q^T M *)
  Lemma back_svd M U s W : matrix M -> nrows M = I -> thin_svd M U s W -> thin_svd (back M) (back U) s W.
  Proof.
    intros HM HR H. destruct (svd_U M U W s H) as (U1 & U2 & U3). pose proof (svd_HM M U W s H) as E. destruct H as (_ & HW & HU & HWo & S1 & S2 & _).
    destruct (back_rc M) as [B1 B2]. unfold thin_svd. rewrite B1, B2, <- HR. split; [|split; [exact HW|split; [|split; [exact HWo|split; [exact S1|split; [exact S2|]]]]]].
    - split; [apply wf_gen|]. unfold back, prodm, mgen. rewrite shp_gen. change (nrows (mtrans Q)) with (ncols Q). rewrite (proj2 (proj2 Q_rc)), U3, HR. reflexivity.
    - apply back_ortho; auto. lia.
    - intros i j Hi Hj. rewrite mget_back by lia. rewrite <- (sumn_bigsum RLR).
      transitivity (sumn I (fun a => sumn (Nat.min (nrows M) (ncols M)) (fun p => mget Q a i * mget U a p * (s p * mget W j p)))).
      + apply sumnR_ext. intros a Ha. rewrite (E a j) by lia. rewrite <- sumnR_scale. apply sumnR_ext. intros; lra.
      + rewrite sumnR_ex. apply sumnR_ext. intros p Hp. rewrite sumnR_scale_r. rewrite mget_back by lia. lra.
  Qed.
End One.

(** ** every mode *)
Section Rot.
  Variables (X : tensor R) (Q : list (tensor R)).
  Hypothesis HX : wf X.
  Hypothesis HQ : rotation (shp X) Q.
  Let N := ndims X.
  Let I n := nth n (shp X) 0%nat.

  Lemma rot_len : length Q = N. Proof. apply HQ. Qed.
  Lemma rot_mat k : (k < N)%nat -> is_mat (mat_at Q k) (I k) (I k). Proof. intros Hk. apply (proj2 HQ k Hk). Qed.
  Lemma rot_on k : (k < N)%nat -> orthonormal (mat_at Q k). Proof. intros Hk. apply (proj2 HQ k Hk). Qed.
  Lemma rot_rc k : (k < N)%nat -> matrix (mat_at Q k) /\ nrows (mat_at Q k) = I k /\ ncols (mat_at Q k) = I k.
  Proof. intros Hk. apply (Q_rc (I k)), rot_mat, Hk. Qed.
  Lemma pl_pl_of ks : pl Q ks = pl_of (mat_at Q) ks. Proof. reflexivity. Qed.
  Lemma rot_pl (Z : tensor R) : wf Z -> shp Z = shp X -> rotated Q Z = mode_products Z (pl Q (seq 0 N)).
  Proof.
    intros HZ ES. unfold rotated. rewrite <- (mode_products_tucker RLR); [|exact HZ|rewrite rot_len; unfold N, ndims; rewrite ES; reflexivity|].
    - f_equal. unfold pl. rewrite (combine_nth_map Q _ (mkT [] []) 0%nat) by (rewrite seq_length; auto). rewrite rot_len. apply map_ext_in. intros k Hk. apply in_seq in Hk.
      rewrite seq_nth by lia. reflexivity.
    - intros k Hk. rewrite rot_len in Hk. rewrite ES. split; apply rot_rc, Hk.
  Qed.
  Lemma rot_shp (Z : tensor R) : shp (rotated Q Z) = shp X.
  Proof.
    unfold rotated, tucker_tensor. rewrite shp_gen. apply nth_ext with (d := 0%nat) (d' := 0%nat); [rewrite map_length; apply rot_len|].
    intros k Hk. rewrite map_length, rot_len in Hk. rewrite nth_map_lt with (da := mkT [] []) by (rewrite rot_len; exact Hk). apply (rot_rc k Hk).
  Qed.
  Lemma rot_wf (Z : tensor R) : wf (rotated Q Z). Proof. apply wf_gen. Qed.
  Lemma rot_ndims (Z : tensor R) : ndims (rotated Q Z) = N. Proof. unfold ndims. rewrite rot_shp. reflexivity. Qed.

  (** products with some of the matrices keep inner products *)
  Lemma rot_some_tdot ks (Y Z : tensor R) : wf Y -> wf Z -> shp Y = shp Z -> NoDup ks -> (forall k, In k ks -> (k < ndims Y)%nat /\ (k < N)%nat /\ nth k (shp Y) 0%nat = I k) ->
    tdot (mode_products Y (pl Q ks)) (mode_products Z (pl Q ks)) = tdot Y Z.
  Proof.
    intros HY HZ ES Hd H.
    assert (F : forall p, In p (pl Q ks) -> pair_fits (shp Y) p /\ orthonormal (fst p)).
    { intros p Hp. apply in_map_iff in Hp as (k & <- & Hk). destruct (H k Hk) as (H1 & H2 & H3). destruct (rot_rc k H2) as (R1 & R2 & R3).
      split; [split; [exact H1|split; [exact R1|cbn [fst snd]; rewrite H3; exact R3]]|apply rot_on, H2]. }
    rewrite (tdot_mps (pl Q ks) Y); [|rewrite snd_pl; exact Hd|apply F|rewrite shp_mode_products, ES; reflexivity].
    rewrite (mps_ortho (pl Q ks) Z HZ); [reflexivity|rewrite snd_pl; exact Hd|rewrite <- ES; exact F].
  Qed.
  Lemma rot_tdot (Y Z : tensor R) : wf Y -> wf Z -> shp Y = shp X -> shp Z = shp X -> tdot (rotated Q Y) (rotated Q Z) = tdot Y Z.
  Proof.
    intros HY HZ E1 E2. rewrite !rot_pl by assumption. apply rot_some_tdot; auto; [congruence|apply seq_NoDup|]. intros k Hk. apply in_seq in Hk.
    unfold ndims. rewrite E1. fold (ndims X). fold N. repeat split; lia.
  Qed.
  Lemma rot_dist (F : tensor R) : wf F -> shp F = shp X -> sqdist (rotated Q X) (rotated Q F) = sqdist X F.
  Proof. intros HF ES. rewrite !sqdist_expand by (rewrite ?rot_shp; auto). rewrite !sqlen_tdot, !rot_tdot by auto. reflexivity. Qed.
  Lemma rot_dist' (F : tensor R) : wf F -> shp F = shp X -> sqdist (rotated Q F) (rotated Q X) = sqdist F X.
  Proof. intros HF ES. rewrite !sqdist_expand by (rewrite ?rot_shp; auto). rewrite !sqlen_tdot, !rot_tdot by auto. reflexivity. Qed.
  Lemma rot_sqlen : sqlen (rotated Q X) = sqlen X. Proof. rewrite !sqlen_tdot. apply rot_tdot; auto. Qed.

  (** projections of the rotated data *)
  Definition pulled (F : nat -> tensor R) (k : nat) : tensor R := back (mat_at Q k) (F k).
  Lemma pull F ks : NoDup ks -> (forall k, In k ks -> (k < N)%nat /\ matrix (F k) /\ nrows (F k) = I k) ->
    exists r, NoDup r /\ (forall k, In k r -> (k < N)%nat /\ ~ In k ks) /\
    mode_products (rotated Q X) (tl_of F ks) = mode_products (mode_products X (tl_of (pulled F) ks)) (pl Q r).
  Proof.
    intros Hd H. pose (r := filter (fun k => if in_dec Nat.eq_dec k ks then false else true) (seq 0 N)).
    assert (R1 : NoDup r) by (apply NoDup_filter, seq_NoDup).
    assert (R2 : forall k, In k r <-> (k < N)%nat /\ ~ In k ks).
    { intros k. unfold r. rewrite filter_In, in_seq. destruct (in_dec Nat.eq_dec k ks); split; intros [A B]; try discriminate; try contradiction; repeat split; auto; lia. }
    exists r. split; [exact R1|]. split; [intros k Hk; apply R2, Hk|].
    assert (P : Permutation (seq 0 N) (ks ++ r)).
    { apply NoDup_Permutation; [apply seq_NoDup| |].
      - apply NoDup_app_intro; [exact Hd|exact R1|]. intros k Hk Hr. apply R2 in Hr. tauto.
      - intros k. rewrite in_app_iff, R2, in_seq. split; [intros L; destruct (in_dec Nat.eq_dec k ks); [left; assumption|right; split; [lia|assumption]]|].
        intros [L|[L _]]; [apply H in L; lia|lia]. }
    assert (FQ : forall p, In p (pl Q (seq 0 N)) -> pair_fits (shp X) p).
    { intros p Hp. apply in_map_iff in Hp as (k & <- & Hk). apply in_seq in Hk. destruct (rot_rc k ltac:(lia)) as (Q1 & Q2 & Q3). split; [cbn [snd]; unfold N, ndims in Hk; lia|]. split; assumption. }
    rewrite rot_pl by auto. rewrite (mode_products_perm RLR X (pl Q (seq 0 N)) (pl Q (ks ++ r))); [|exact HX|apply Permutation_map, P|rewrite snd_pl; apply seq_NoDup|exact FQ].
    set (Z := mode_products X (pl Q ks)).
    assert (SZ : forall k, (k < N)%nat -> nth k (shp Z) 0%nat = I k).
    { intros k Hk. unfold Z. rewrite shp_mode_products. destruct (in_dec Nat.eq_dec k ks) as [i|i].
      - rewrite (rshape_in _ _ (mat_at Q k) k); [apply (rot_rc k Hk)|rewrite snd_pl; exact Hd|apply in_map_iff; exists k; auto|exact Hk].
      - apply rshape_out. rewrite snd_pl. exact i. }
    assert (NZ : length (shp Z) = N) by (unfold Z; rewrite shp_mode_products, rshape_length; reflexivity).
    transitivity (mode_products Z (pl Q r ++ tl_of F ks)).
    { unfold Z, pl, mode_products. rewrite map_app, !fold_left_app. reflexivity. }
    rewrite (mode_products_perm RLR Z _ (tl_of F ks ++ pl Q r)).
    - unfold mode_products at 1. rewrite fold_left_app. change (mode_products (mode_products Z (tl_of F ks)) (pl Q r) = mode_products (mode_products X (tl_of (pulled F) ks)) (pl Q r)).
      f_equal. unfold Z. change (tl_of F ks) with (pl_of (fun k => mtrans (F k)) ks). change (pl Q ks) with (pl_of (mat_at Q) ks). rewrite mps_mps; auto.
      + f_equal. unfold tl_of, pl_of. apply map_ext_in. intros k Hk. destruct (H k Hk) as (H1 & H2 & H3). unfold pulled. rewrite (mtrans_back (I k)); auto. apply rot_mat, H1.
      + intros k Hk. destruct (H k Hk) as (H1 & H2 & H3). destruct (rot_rc k H1) as (Q1 & Q2 & Q3). split; [exact H1|]. split; [exact Q1|]. split; [exact Q3|].
        split; [apply matrix_mtrans|]. change (nrows (F k) = nrows (mat_at Q k)). congruence.
    - unfold Z. apply wf_mode_products, HX.
    - apply Permutation_app_comm.
    - rewrite map_app, snd_pl, snd_tl. apply (Permutation_NoDup (l := ks ++ r)); [apply Permutation_app_comm|]. apply (Permutation_NoDup P), seq_NoDup.
    - intros p Hp. apply in_app_iff in Hp as [Hp|Hp]; apply in_map_iff in Hp as (k & <- & Hk).
      + apply R2 in Hk as [Hk _]. destruct (rot_rc k Hk) as (Q1 & Q2 & Q3). split; [cbn [snd]; rewrite NZ; exact Hk|]. split; [exact Q1|]. cbn [fst snd]. rewrite SZ by exact Hk. exact Q3.
      + destruct (H k Hk) as (H1 & H2 & H3). split; [cbn [snd]; rewrite NZ; exact H1|]. split; [apply matrix_mtrans|]. cbn [fst snd]. rewrite SZ by exact H1. exact H3.
  Qed.
  Lemma rot_energy F ks : NoDup ks -> (forall k, In k ks -> (k < N)%nat /\ matrix (F k) /\ nrows (F k) = I k) ->
    sqlen (mode_products (rotated Q X) (tl_of F ks)) = sqlen (mode_products X (tl_of (pulled F) ks)).
  Proof.
    intros Hd H. destruct (pull F ks Hd H) as (r & R1 & R2 & ->). rewrite !sqlen_tdot. apply rot_some_tdot; auto; try apply wf_mode_products, HX.
    intros k Hk. apply R2 in Hk as [H1 H2]. unfold ndims. rewrite shp_mode_products, rshape_length. split; [exact H1|]. split; [exact H1|]. apply rshape_out. rewrite snd_tl. exact H2.
  Qed.

  (** families of matrices for X and for the rotated data *)
  Definition rfam (F F' : nat -> tensor R) (ks : list nat) : Prop :=
    forall k, In k ks -> (k < N)%nat /\ matrix (F k) /\ matrix (F' k) /\ nrows (F k) = I k /\ nrows (F' k) = I k /\ turned_span (mat_at Q k) (F k) (F' k).
  Lemma id_ok : relabelling (shp X) (fun _ i => i). Proof. intros k _. split; auto. Qed.
  Lemma rfam_fam F F' ks : rfam F F' ks -> fam X (fun _ i => i) F (pulled F') ks.
  Proof.
    intros H k Hk. destruct (H k Hk) as (H1 & H2 & H3 & H4 & H5 & H6). split; [exact H1|]. split; [exact H2|]. split; [apply prodm_matrix|]. split; [exact H4|].
    apply (turned_back (I k)); auto; [apply rot_mat, H1|apply rot_on, H1].
  Qed.
  Lemma rot_energies F F' ks : NoDup ks -> rfam F F' ks -> sqlen (mode_products (rotated Q X) (tl_of F' ks)) = sqlen (mode_products X (tl_of F ks)).
  Proof.
    intros Hd H. rewrite rot_energy; [|exact Hd|intros k Hk; destruct (H k Hk) as (? & _ & ? & _ & ? & _); auto].
    rewrite <- (relabel_id X HX) at 1. apply (energy_relabel X (fun _ i => i) HX id_ok); [exact Hd|]. apply rfam_fam, H.
  Qed.
  Lemma rot_shps F F' ks : NoDup ks -> rfam F F' ks -> shp (mode_products (rotated Q X) (tl_of F' ks)) = shp (mode_products X (tl_of F ks)).
  Proof.
    intros Hd H. rewrite !shp_mode_products, rot_shp. apply nth_ext with (d := 0%nat) (d' := 0%nat); [rewrite !rshape_length; reflexivity|]. intros k Hk. rewrite rshape_length in Hk.
    destruct (in_dec Nat.eq_dec k ks) as [i|i].
    - rewrite (rshape_in (tl_of F ks) (shp X) (mtrans (F k)) k), (rshape_in (tl_of F' ks) (shp X) (mtrans (F' k)) k); rewrite ?snd_tl; auto; try (apply in_map_iff; exists k; auto).
      destruct (H k i) as (_ & _ & _ & _ & _ & (_ & E & _)). exact E.
    - rewrite !rshape_out by (rewrite snd_tl; exact i). reflexivity.
  Qed.
  Lemma rot_gram F F' ks n M M' : NoDup ks -> ~ In n ks -> (n < N)%nat -> I n <> 0%nat -> rfam F F' ks ->
    unfold (mode_products X (tl_of F ks)) (Z.of_nat n) = Ok M -> unfold (mode_products (rotated Q X) (tl_of F' ks)) (Z.of_nat n) = Ok M' ->
    is_mat M (I n) (ncols M) /\ is_mat M' (I n) (ncols M) /\ is_mat (back (mat_at Q n) M') (I n) (ncols M) /\
    forall i j, (i < I n)%nat -> (j < I n)%nat ->
      sumn (ncols M) (fun l => mget (back (mat_at Q n) M') i l * mget (back (mat_at Q n) M') j l) = sumn (ncols M) (fun l => mget M i l * mget M j l).
  Proof.
    intros Hd Hnin Hn H0 H EM EM'. pose proof (rot_shps F F' ks Hd H) as ES.
    set (Y := mode_products X (tl_of F ks)) in *. set (Y' := mode_products (rotated Q X) (tl_of F' ks)) in *.
    assert (ND : ndims Y = N) by (unfold ndims, Y; rewrite shp_mode_products; apply rshape_length).
    assert (YN : nth n (shp Y) 0%nat = I n) by (unfold Y; rewrite shp_mode_products; apply rshape_out; rewrite snd_tl; exact Hnin).
    assert (ND' : ndims Y' = N) by (unfold ndims in *; rewrite ES; exact ND).
    pose proof EM as EM2. apply unfold_mat in EM2 as [_ EM2]; [|lia|rewrite YN; auto]. pose proof EM' as EM2'. apply unfold_mat in EM2' as [_ EM2']; [|lia|rewrite ES, YN; auto].
    rewrite ES in EM2'. rewrite YN in EM2, EM2'. destruct (matrix_is_mat _ _ _ EM2) as (_ & R1 & C1). destruct (matrix_is_mat _ _ _ EM2') as (_ & R2 & C2).
    split; [rewrite C1; exact EM2|]. split; [rewrite C1; exact EM2'|].
    pose proof (rot_mat n Hn) as QM. pose proof (rot_on n Hn) as QO. set (q := mat_at Q n) in *.
    split. { split; [apply wf_gen|]. unfold back, prodm, mgen. rewrite shp_gen. change (nrows (mtrans q)) with (ncols q). rewrite (proj2 (proj2 (Q_rc _ _ QM))), C2, C1. reflexivity. }
    apply (quad_gram (I n) (ncols M) (fun i => i) (mget M) (mget (back q M'))); [split; auto|]. intros x.
    set (V := mgen (I n) 1 (fun i _ => x i)). set (V' := mgen (I n) 1 (fun i _ => sumn (I n) (fun a => mget q i a * x a))).
    assert (En : sqlen (mode_product Y' (mtrans V') n) = sqlen (mode_product Y (mtrans V) n)).
    { pose (B := fun (G : nat -> tensor R) W k => if Nat.eqb k n then W else G k).
      assert (EB : forall G W (Z : tensor R), mode_product (mode_products Z (tl_of G ks)) (mtrans W) n = mode_products Z (tl_of (B G W) (ks ++ [n]))).
      { intros G W Z. unfold tl_of. rewrite map_app. cbn [map]. unfold mode_products. rewrite fold_left_app. cbn [fold_left fst snd].
        replace (B G W n) with W by (unfold B; rewrite Nat.eqb_refl; reflexivity). f_equal. f_equal. apply map_ext_in. intros k Hk. unfold B.
        destruct (Nat.eqb_spec k n) as [->|]; [contradiction|reflexivity]. }
      unfold Y, Y'. rewrite !EB. apply rot_energies; auto.
      - apply (Permutation_NoDup (l := n :: ks)); [rewrite Permutation_app_comm; reflexivity|]. constructor; assumption.
      - intros k Hk. unfold B. apply in_app_iff in Hk as [Hk|[<-|[]]].
        + destruct (Nat.eqb_spec k n) as [->|]; [contradiction|]. apply H, Hk.
        + rewrite Nat.eqb_refl. split; [exact Hn|]. split; [split; [apply wf_gen|reflexivity]|]. split; [split; [apply wf_gen|reflexivity]|]. split; [reflexivity|]. split; [reflexivity|].
          fold q. apply (turned_back (I n)); auto. split; [apply (back_rc _ _ QM)|]. split; [reflexivity|]. intros i j Hi Hj. change (nrows V) with (I n) in Hi, Hj.
          unfold outer. change (ncols (back q V')) with 1%nat. change (ncols V) with 1%nat. apply bigsum_ext. intros c Hc.
          assert (E : forall a, (a < I n)%nat -> mget (back q V') a c = mget V a c).
          { intros a Ha. rewrite (mget_back (I n)); auto. unfold V. rewrite mget_mgen by auto.
            transitivity (mm (I n) (tr (mget q)) (mm (I n) (mget q) (fun b _ => x b)) a c); [|apply (mm_l (I n) q QM QO (fun b _ => x b) 1 a c); auto].
            unfold mm at 1. unfold tr. apply sumnR_ext. intros b Hb. f_equal. unfold V'. rewrite mget_mgen by auto. reflexivity. }
          rewrite !E by assumption. reflexivity. }
    rewrite (mp_energy Y V M n) in En; try (rewrite ?YN; auto; fail); try lia; [|discriminate].
    rewrite (mp_energy Y' V' M' n) in En; try (rewrite ?ES, ?YN; auto; fail); try lia; [|discriminate].
    change (ncols V) with 1%nat in En. change (ncols V') with 1%nat in En. rewrite ES, YN in En. rewrite C1.
    assert (K : forall (g : nat -> R) (K : mf), fro 1 (rest n (shp Y)) (mm (I n) (tr (mget (mgen (I n) 1 (fun i _ => g i)))) K) = sumn (rest n (shp Y)) (fun l => (sumn (I n) (fun i => g i * K i l))²)).
    { intros g K. unfold fro, dot2. rewrite (sumn_S RLR), sumn_0. Rn. rewrite Rplus_0_l. apply sumnR_ext. intros l _. unfold Rsqr.
      replace (mm (I n) (tr (mget (mgen (I n) 1 (fun i _ => g i)))) K 0%nat l) with (sumn (I n) (fun i => g i * K i l)); [reflexivity|]. unfold mm, tr. apply sumnR_ext. intros i Hi.
      rewrite mget_mgen by (auto; lia). reflexivity. }
    unfold V, V' in En. rewrite !K in En. rewrite <- En. apply sumnR_ext. intros l Hl. f_equal.
    transitivity (sumn (I n) (fun i => sumn (I n) (fun a => x i * mget q a i * mget M' a l))).
    - apply sumnR_ext. intros i Hi. rewrite (mget_back (I n)) by (auto; lia). rewrite <- sumnR_scale. apply sumnR_ext. intros; lra.
    - rewrite sumnR_ex. apply sumnR_ext. intros a Ha. rewrite <- sumnR_scale_r. apply sumnR_ext. intros; lra.
  Qed.

  Lemma rot_leading n (M M' U U' W W' : tensor R) s s' r : (n < N)%nat -> is_mat M (I n) (ncols M) -> is_mat M' (I n) (ncols M) -> is_mat (back (mat_at Q n) M') (I n) (ncols M) ->
    (forall i j, (i < I n)%nat -> (j < I n)%nat ->
      sumn (ncols M) (fun l => mget (back (mat_at Q n) M') i l * mget (back (mat_at Q n) M') j l) = sumn (ncols M) (fun l => mget M i l * mget M j l)) ->
    thin_svd M U s W -> thin_svd M' U' s' W' -> gap_at M (Nat.min r (Nat.min (nrows M) (ncols M))) -> turned_span (mat_at Q n) (leading U r) (leading U' r).
  Proof.
    intros Hn HM HM' HB HG Hs Hs' Hgap. pose proof (rot_mat n Hn) as QM. pose proof (rot_on n Hn) as QO.
    destruct (matrix_is_mat _ _ _ HM) as (_ & R1 & _). destruct (matrix_is_mat _ _ _ HM') as (Hm' & R2 & _).
    destruct (svd_U _ _ _ _ Hs) as (_ & U1 & _). destruct (svd_U _ _ _ _ Hs') as (_ & U1' & _).
    apply (turned_back (I n)); auto; [change (nrows U = I n); congruence|change (nrows U' = I n); congruence|].
    rewrite <- (back_leading (I n)) by (auto; congruence).
    apply (leading_same X (fun _ i => i) id_ok n M (back (mat_at Q n) M') U (back (mat_at Q n) U') W W' s s'); auto. apply (back_svd (I n)); auto.
  Qed.

  (** models *)
  Lemma turned_fam ranks A A' : factor_state X ranks A -> factor_state (rotated Q X) ranks A' -> turned_spans Q A A' -> rfam (mat_at A) (mat_at A') (seq 0 N).
  Proof.
    intros HA HA' [HL HS] k Hk. apply in_seq in Hk. destruct (A_fits X ranks A HA k ltac:(unfold N in *; lia)) as (F1 & F2 & _).
    destruct (A_fits (rotated Q X) ranks A' HA' k ltac:(rewrite rot_ndims; lia)) as (G1 & G2 & _). rewrite rot_shp in G2.
    split; [lia|]. split; [exact F1|]. split; [exact G1|]. split; [exact F2|]. split; [exact G2|]. apply HS. rewrite (proj1 HA). unfold N in *. lia.
  Qed.
  Lemma rot_full ranks A A' : factor_state X ranks A -> factor_state (rotated Q X) ranks A' -> turned_spans Q A A' ->
    tucker_tensor (project (rotated Q X) A') A' = rotated Q (tucker_tensor (project X A) A).
  Proof.
    intros HA HA' HS. rewrite (full_onto (rotated Q X) (rot_wf X) ranks A' HA'). rewrite (rot_pl (tucker_tensor (project X A) A)); [|apply wf_gen|apply (full_shape X _ _ HA)].
    rewrite (full_onto X HX ranks A HA), rot_ndims. rewrite (rot_pl X) by auto. fold N.
    change (map (fun k => (gram_of (mtrans (mat_at A' k)), k)) (seq 0 N)) with (pl_of (fun k => gram_of (mtrans (mat_at A' k))) (seq 0 N)).
    change (map (fun k => (gram_of (mtrans (mat_at A k)), k)) (seq 0 N)) with (pl_of (fun k => gram_of (mtrans (mat_at A k))) (seq 0 N)).
    rewrite pl_pl_of. pose proof (turned_fam ranks A A' HA HA' HS) as HF.
    rewrite (mps_mps (mat_at Q) (fun k => gram_of (mtrans (mat_at A' k)))), (mps_mps (fun k => gram_of (mtrans (mat_at A k))) (mat_at Q)); auto using seq_NoDup.
    - f_equal. unfold pl_of. apply map_ext_in. intros k Hk. destruct (HF k Hk) as (H1 & _ & _ & H4 & H5 & H6). f_equal. apply (turned_gram (I k)); auto. apply rot_mat, H1. apply rot_on, H1.
    - intros k Hk. destruct (HF k Hk) as (H1 & H2 & H3 & H4 & H5 & H6). destruct (rot_rc k H1) as (Q1 & Q2 & Q3). split; [exact H1|]. split; [apply gram_matrix|].
      split; [exact H4|]. split; [exact Q1|]. change (ncols (mat_at Q k) = nrows (mat_at A k)). congruence.
    - intros k Hk. destruct (HF k Hk) as (H1 & H2 & H3 & H4 & H5 & H6). destruct (rot_rc k H1) as (Q1 & Q2 & Q3). split; [exact H1|]. split; [exact Q1|]. split; [exact Q3|].
      split; [apply gram_matrix|]. change (nrows (mat_at A' k) = nrows (mat_at Q k)). congruence.
  Qed.
  Lemma rot_core ranks A A' : factor_state X ranks A -> factor_state (rotated Q X) ranks A' -> turned_spans Q A A' ->
    shp (project (rotated Q X) A') = shp (project X A) /\ sqlen (project (rotated Q X) A') = sqlen (project X A).
  Proof.
    intros HA HA' HS. pose proof (turned_fam ranks A A' HA HA' HS) as HF. rewrite !project_plt, (proj1 HA), (proj1 HA'), rot_ndims. fold N.
    change (plt A (seq 0 N)) with (tl_of (mat_at A) (seq 0 N)). change (plt A' (seq 0 N)) with (tl_of (mat_at A') (seq 0 N)).
    split; [apply rot_shps|apply rot_energies]; auto using seq_NoDup.
  Qed.
  Lemma rot_metrics (F : tensor R) m m' : wf F -> shp F = shp X -> metrics_of X F = Ok m -> metrics_of (rotated Q X) (rotated Q F) = Ok m' -> m_obj m' = m_obj m /\ m_rel m' = m_rel m.
  Proof.
    intros HF ES E E'. apply metrics_R in E as (_ & E1 & E2); [|exact HX]. apply metrics_R in E' as (_ & E1' & E2'); [|apply rot_wf].
    rewrite E1, E1', E2, E2', rot_dist' by assumption. split; [reflexivity|]. f_equal. f_equal. apply rot_sqlen.
  Qed.
End Rot.
