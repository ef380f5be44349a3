(** Column spaces of the leading singular vectors, and projections that depend on them only. *)

From Coq Require Import ZArith List Bool Arith Lia Permutation Reals Lra.
From Verif Require Import Num Py Tensor TF TensorFacts TFFacts Sums Ops OpsLemmas Types Loss Fact Train Spec SpecR LayoutFacts SpecFacts MulFacts TtmFacts SkipFacts TtmLemmas Matricize
  KronFacts RSums MatR KronAlg NormFacts SpecTucker MultiR SvdFacts TuckerFacts TuckerRun TuckerLemmas SpecTrain TrainLemmas LossFacts AlsLemmas SpecProx NtFacts
  SpecScale SpecSym SymFacts SymTrain SymBcu SpecGauge GaugeAlg.
Import ListNotations.
Local Open Scope R_scope.

(** ** matrices *)
Lemma svd_gram (M U W : tensor R) s : thin_svd M U s W -> forall i j, (i < nrows M)%nat -> (j < nrows M)%nat ->
  sumn (ncols M) (fun l => mget M i l * mget M j l) = sumn (Nat.min (nrows M) (ncols M)) (fun p => mget U i p * (s p)² * mget U j p).
Proof.
  intros H i j Hi Hj. pose proof (svd_HM M U W s H) as E. pose proof (svd_HW M U W s H) as HW.
  transitivity (sumn (ncols M) (fun l => sumn (Nat.min (nrows M) (ncols M)) (fun p => mget U i p * s p * mget W l p) * sumn (Nat.min (nrows M) (ncols M)) (fun p => mget U j p * s p * mget W l p))).
  - apply sumnR_ext. intros l Hl. rewrite (E i l Hi Hl), (E j l Hj Hl). reflexivity.
  - rewrite (ortho_dot (ncols M) _ (mget W) (fun p => mget U i p * s p) (fun p => mget U j p * s p) HW). apply sumnR_ext. intros p _. unfold Rsqr. lra.
Qed.
Lemma ortho_moved m k p (U : mf) : perm1 m p -> ortho m k U -> ortho m k (fun i q => U (p i) q).
Proof.
  intros Hp H a b Ha Hb. rewrite <- (H a b Ha Hb). unfold mm, tr. apply (sumn_perm RLR m p (fun i => U i a * U i b) Hp).
Qed.
Lemma leading_span (M M' U U' W W' : tensor R) s s' p r : thin_svd M U s W -> thin_svd M' U' s' W' -> nrows M' = nrows M -> ncols M' = ncols M -> perm1 (nrows M) p ->
  (forall i j, (i < nrows M)%nat -> (j < nrows M)%nat ->
     sumn (ncols M) (fun l => mget M' i l * mget M' j l) = sumn (ncols M) (fun l => mget M (p i) l * mget M (p j) l)) ->
  gap_at M r -> (r <= Nat.min (nrows M) (ncols M))%nat ->
  forall i j, (i < nrows M)%nat -> (j < nrows M)%nat -> sumn r (fun q => mget U' i q * mget U' j q) = sumn r (fun q => mget U (p i) q * mget U (p j) q).
Proof.
  intros H H' Er Ec Hp HG Hgap Hr i j Hi Hj.
  pose proof (svd_gram M U W s H) as G. pose proof (svd_gram M' U' W' s' H') as G'. rewrite Er, Ec in G'.
  pose proof (svd_HU M U W s H) as O. pose proof (svd_HU M' U' W' s' H') as O'. rewrite Er, Ec in O'.
  destruct H as (_ & _ & _ & _ & Hs0 & Hs & _). destruct H' as (_ & _ & _ & _ & Hs0' & Hs' & _). rewrite Er, Ec in Hs0', Hs'.
  set (m := nrows M) in *. set (k := Nat.min m (ncols M)) in *. destruct Hp as [Hp1 Hp2].
  destruct Hgap as [E|(U0 & s0 & W0 & H0 & Hpos & Hgap)].
  - symmetry. apply (projector_unique m k r (fun i q => mget U (p i) q) (mget U') s s'); auto.
    + apply ortho_moved; [split|]; assumption.
    + intros a b Ha Hb. rewrite <- G' by assumption. rewrite HG by assumption. symmetry. apply G; auto.
  - pose proof (svd_gram M U0 W0 s0 H0) as G0. pose proof (svd_HU M U0 W0 s0 H0) as O0. destruct H0 as (_ & _ & _ & _ & Z1 & Z2 & _).
    fold m in G0, O0, Z1, Z2, Hgap. fold k in G0, O0, Z1, Z2, Hgap.
    transitivity (sumn r (fun q => mget U0 (p i) q * mget U0 (p j) q)).
    + symmetry. apply (projector_unique m k r (fun i q => mget U0 (p i) q) (mget U') s0 s'); auto.
      * apply ortho_moved; [split|]; assumption.
      * intros a b Ha Hb. rewrite <- G' by assumption. rewrite HG by assumption. symmetry. apply G0; auto.
    + apply (projector_unique m k r (mget U0) (mget U) s0 s); auto. intros a b Ha Hb. rewrite <- G0, <- G by assumption. reflexivity.
Qed.

(** a Gram matrix from its quadratic form *)
Lemma quad_gram m n p (M M' : mf) : perm1 m p ->
  (forall x : nat -> R, sumn n (fun l => (sumn m (fun i => x (p i) * M' i l))²) = sumn n (fun l => (sumn m (fun i => x i * M i l))²)) ->
  forall i j, (i < m)%nat -> (j < m)%nat -> sumn n (fun l => M' i l * M' j l) = sumn n (fun l => M (p i) l * M (p j) l).
Proof.
  intros [Hp1 Hp2] H i j Hi Hj.
  assert (D1 : forall a l, (a < m)%nat -> sumn m (fun x => delta (p x) (p a) * M' x l) = M' a l).
  { intros a l Ha. rewrite <- (sumnR_delta m a (fun x => M' x l) Ha). apply sumnR_ext. intros x Hx. f_equal. unfold delta.
    destruct (Nat.eqb_spec (p x) (p a)) as [E|E]; destruct (Nat.eqb_spec x a) as [F|F]; auto; [apply Hp2 in E; auto; contradiction|subst; contradiction]. }
  assert (D2 : forall a l, (a < m)%nat -> sumn m (fun x => delta x (p a) * M x l) = M (p a) l).
  { intros a l Ha. apply (sumnR_delta m (p a) (fun x => M x l)). apply Hp1, Ha. }
  assert (Q1 : forall a, (a < m)%nat -> sumn n (fun l => M' a l * M' a l) = sumn n (fun l => M (p a) l * M (p a) l)).
  { intros a Ha. specialize (H (fun x => delta x (p a))). cbv beta in H.
    rewrite (sumnR_ext n (fun l => M' a l * M' a l) (fun l => (sumn m (fun i => delta (p i) (p a) * M' i l))²)) by (intros; rewrite D1 by auto; reflexivity).
    rewrite H. apply sumnR_ext. intros l _. rewrite D2 by auto. reflexivity. }
  specialize (H (fun x => delta x (p i) + delta x (p j))). cbv beta in H.
  assert (L : sumn n (fun l => (sumn m (fun x => (delta (p x) (p i) + delta (p x) (p j)) * M' x l))²) =
              sumn n (fun l => M' i l * M' i l) + sumn n (fun l => M' j l * M' j l) + 2 * sumn n (fun l => M' i l * M' j l)).
  { rewrite <- sumnR_scale, <- !sumnR_add. apply sumnR_ext. intros l _.
    rewrite (sumnR_ext m _ (fun x => delta (p x) (p i) * M' x l + delta (p x) (p j) * M' x l)) by (intros; lra). rewrite sumnR_add, !D1 by auto. unfold Rsqr. lra. }
  assert (L' : sumn n (fun l => (sumn m (fun x => (delta x (p i) + delta x (p j)) * M x l))²) =
              sumn n (fun l => M (p i) l * M (p i) l) + sumn n (fun l => M (p j) l * M (p j) l) + 2 * sumn n (fun l => M (p i) l * M (p j) l)).
  { rewrite <- sumnR_scale, <- !sumnR_add. apply sumnR_ext. intros l _.
    rewrite (sumnR_ext m _ (fun x => delta x (p i) * M x l + delta x (p j) * M x l)) by (intros; lra). rewrite sumnR_add, !D2 by auto. unfold Rsqr. lra. }
  rewrite L, L' in H. rewrite (Q1 i Hi), (Q1 j Hj) in H. lra.
Qed.

(** ** projections *)
Section P.
  Variables (X : tensor R) (sg : nat -> nat -> nat).
  Hypothesis HX : wf X.
  Hypothesis Hsg : relabelling (shp X) sg.
  Definition tl_of (F : nat -> tensor R) (ks : list nat) := map (fun k => (mtrans (F k), k)) ks.
  Definition pl_of (F : nat -> tensor R) (ks : list nat) := map (fun k => (F k, k)) ks.
  Definition fam (F F' : nat -> tensor R) (ks : list nat) : Prop :=
    forall k, In k ks -> (k < ndims X)%nat /\ matrix (F k) /\ matrix (F' k) /\ nrows (F k) = nth k (shp X) 0%nat /\ same_span (sg k) (F k) (F' k).

  Lemma tl_fits F ks p : (forall k, In k ks -> (k < ndims X)%nat /\ nrows (F k) = nth k (shp X) 0%nat) -> In p (tl_of F ks) -> pair_fits (shp X) p.
  Proof. intros H Hp. apply in_map_iff in Hp as (k & <- & Hk). destruct (H k Hk) as (H1 & H2). split; [exact H1|]. split; [apply matrix_mtrans|exact H2]. Qed.
  Lemma snd_tl F ks : map snd (tl_of F ks) = ks.
  Proof. unfold tl_of. rewrite map_map. apply map_id. Qed.
  Lemma double F ks : NoDup ks -> (forall k, In k ks -> (k < ndims X)%nat /\ nrows (F k) = nth k (shp X) 0%nat) ->
    mode_products (mode_products X (tl_of F ks)) (rev (tl (tl_of F ks))) = mode_products X (map (fun k => (gram_of (mtrans (F k)), k)) ks).
  Proof.
    intros Hd H. rewrite mps_gram; auto.
    - unfold gl, tl_of. rewrite map_map. reflexivity.
    - rewrite snd_tl. exact Hd.
    - intros p. apply tl_fits, H.
  Qed.
  Lemma mget_gramT (A : tensor R) i j : (i < nrows A)%nat -> (j < nrows A)%nat -> mget (gram_of (mtrans A)) i j = outer A i j.
  Proof.
    intros Hi Hj. unfold gram_of. change (ncols (mtrans A)) with (nrows A). change (nrows (mtrans A)) with (ncols A). rewrite mget_mgen by assumption.
    unfold outer. apply bigsum_ext. intros p Hp. rewrite !mget_mtrans by assumption. reflexivity.
  Qed.
  Lemma onto_relabel F F' ks : NoDup ks -> fam F F' ks ->
    mode_products (relabel sg X) (map (fun k => (gram_of (mtrans (F' k)), k)) ks) = relabel sg (mode_products X (map (fun k => (gram_of (mtrans (F k)), k)) ks)).
  Proof.
    intros Hd H. rewrite (mps_relabel sg (fun k => gram_of (mtrans (F k))) (fun k => gram_of (mtrans (F' k))) ks sg X Hd Hsg).
    - apply relabel_ext. intros k i _ _. unfold on_modes. destruct (in_dec Nat.eq_dec k ks); reflexivity.
    - intros k Hk. destruct (H k Hk) as (K1 & _ & _ & K2 & K3 & K4 & K5).
      change (ncols (gram_of (mtrans (F k)))) with (nrows (F k)). change (nrows (gram_of (mtrans (F k)))) with (nrows (F k)).
      change (ncols (gram_of (mtrans (F' k)))) with (nrows (F' k)). change (nrows (gram_of (mtrans (F' k)))) with (nrows (F' k)).
      split; [exact K1|]. split; [exact K2|]. split; [exact K3|]. split; [exact K3|].
      assert (P : perm1 (nrows (F k)) (sg k)) by (rewrite K2; apply Hsg, K1). split; [exact P|].
      intros i j Hi Hj. rewrite !mget_gramT; try (apply P; assumption); [apply K5; assumption| |]; rewrite K3; assumption.
  Qed.
  Lemma tdot_relabel (Y Z : tensor R) : shp Y = shp X -> shp Z = shp X -> tdot (relabel sg Y) (relabel sg Z) = tdot Y Z.
  Proof.
    intros HY HZ. unfold tdot. cbn [relabel shp gen]. rewrite HY. rewrite <- (isum_moved RLR (shp X) sg (fun i => get Y i * get Z i) Hsg). apply isum_ext. intros idx Hv.
    change (get (relabel sg Y) idx * get (relabel sg Z) idx = get Y (moved sg idx) * get Z (moved sg idx)). rewrite !get_relabel by (rewrite ?HY, ?HZ; exact Hv). reflexivity.
  Qed.
  Lemma energy_relabel F F' ks : NoDup ks -> fam F F' ks -> sqlen (mode_products (relabel sg X) (tl_of F' ks)) = sqlen (mode_products X (tl_of F ks)).
  Proof.
    intros Hd H.
    assert (A1 : forall k, In k ks -> (k < ndims X)%nat /\ nrows (F k) = nth k (shp X) 0%nat) by (intros k Hk; destruct (H k Hk) as (? & _ & _ & ? & _); auto).
    assert (A2 : forall k, In k ks -> (k < ndims X)%nat /\ nrows (F' k) = nth k (shp X) 0%nat) by (intros k Hk; destruct (H k Hk) as (? & _ & _ & E & E' & _); split; congruence).
    rewrite !sqlen_tdot. rewrite (tdot_mps (tl_of F ks)); [|rewrite snd_tl; exact Hd|intros p; apply tl_fits, A1|rewrite shp_mode_products; reflexivity].
    rewrite (tdot_mps (tl_of F' ks)); [|rewrite snd_tl; exact Hd|intros p; change (shp (relabel sg X)) with (shp X); apply tl_fits, A2|rewrite shp_mode_products; reflexivity].
    rewrite (double F ks Hd A1).
    rewrite (mps_gram (tl_of F' ks) (relabel sg X) (wf_relabel sg X)); [|rewrite snd_tl; exact Hd|intros p; change (shp (relabel sg X)) with (shp X); apply tl_fits, A2].
    replace (gl (tl_of F' ks)) with (map (fun k => (gram_of (mtrans (F' k)), k)) ks) by (unfold gl, tl_of; rewrite map_map; reflexivity).
    rewrite (onto_relabel F F' ks Hd H). apply tdot_relabel; [reflexivity|].
    rewrite shp_mode_products. apply nth_ext with (d := 0%nat) (d' := 0%nat); [apply rshape_length|]. intros k Hk. rewrite rshape_length in Hk.
    destruct (in_dec Nat.eq_dec k ks) as [I|I].
    - rewrite (rshape_in _ _ (gram_of (mtrans (F k))) k); [exact (proj2 (A1 k I))| |apply in_map_iff; eauto|exact Hk]. rewrite map_map. cbn [snd]. rewrite map_id. exact Hd.
    - apply rshape_out. rewrite map_map. cbn [snd]. rewrite map_id. exact I.
  Qed.
End P.

Section Q.
  Variables (X : tensor R) (sg : nat -> nat -> nat).
  Hypothesis HX : wf X.
  Hypothesis Hsg : relabelling (shp X) sg.

  Lemma shp_tl F F' ks : NoDup ks -> fam X sg F F' ks -> shp (mode_products (relabel sg X) (tl_of F' ks)) = shp (mode_products X (tl_of F ks)).
  Proof.
    intros Hd H. rewrite !shp_mode_products. change (shp (relabel sg X)) with (shp X).
    apply nth_ext with (d := 0%nat) (d' := 0%nat); [rewrite !rshape_length; reflexivity|]. intros k Hk. rewrite rshape_length in Hk.
    destruct (in_dec Nat.eq_dec k ks) as [I|I].
    - rewrite (rshape_in (tl_of F ks) (shp X) (mtrans (F k)) k), (rshape_in (tl_of F' ks) (shp X) (mtrans (F' k)) k); rewrite ?snd_tl; auto; try (apply in_map_iff; exists k; auto).
      destruct (H k I) as (_ & _ & _ & _ & _ & E & _). exact E.
    - rewrite !rshape_out by (rewrite snd_tl; exact I). reflexivity.
  Qed.
  Lemma gram_unfold F F' ks n M M' : NoDup ks -> ~ In n ks -> (n < ndims X)%nat -> nth n (shp X) 0%nat <> 0%nat -> fam X sg F F' ks ->
    unfold (mode_products X (tl_of F ks)) (Z.of_nat n) = Ok M -> unfold (mode_products (relabel sg X) (tl_of F' ks)) (Z.of_nat n) = Ok M' ->
    is_mat M (nth n (shp X) 0%nat) (ncols M) /\ is_mat M' (nth n (shp X) 0%nat) (ncols M) /\
    forall i j, (i < nth n (shp X) 0)%nat -> (j < nth n (shp X) 0)%nat ->
      sumn (ncols M) (fun l => mget M' i l * mget M' j l) = sumn (ncols M) (fun l => mget M (sg n i) l * mget M (sg n j) l).
  Proof.
    intros Hd Hnin Hn H0 H EM EM'. pose proof (shp_tl F F' ks Hd H) as ES.
    set (Y := mode_products X (tl_of F ks)) in *. set (Y' := mode_products (relabel sg X) (tl_of F' ks)) in *.
    assert (ND : ndims Y = ndims X) by (unfold ndims, Y; rewrite shp_mode_products; apply rshape_length).
    assert (YN : nth n (shp Y) 0%nat = nth n (shp X) 0%nat) by (unfold Y; rewrite shp_mode_products; apply rshape_out; rewrite snd_tl; exact Hnin).
    assert (ND' : ndims Y' = ndims X) by (unfold ndims in *; rewrite ES; exact ND).
    pose proof EM as EM2. apply unfold_mat in EM2 as [_ EM2]; [|lia|rewrite YN; auto]. pose proof EM' as EM2'. apply unfold_mat in EM2' as [_ EM2']; [|lia|rewrite ES, YN; auto].
    rewrite ES in EM2'. rewrite YN in EM2, EM2'. destruct (matrix_is_mat _ _ _ EM2) as (_ & R1 & C1).
    split; [rewrite C1; exact EM2|]. split; [rewrite C1; exact EM2'|].
    apply quad_gram; [apply Hsg, Hn|]. intros x. set (I := nth n (shp X) 0%nat) in *.
    set (V := mgen I 1 (fun i _ => x i)). set (V' := mgen I 1 (fun i _ => x (sg n i))).
    assert (En : sqlen (mode_product Y' (mtrans V') n) = sqlen (mode_product Y (mtrans V) n)).
    { pose (B := fun (G : nat -> tensor R) W k => if Nat.eqb k n then W else G k).
      assert (EB : forall G W (Z : tensor R), mode_product (mode_products Z (tl_of G ks)) (mtrans W) n = mode_products Z (tl_of (B G W) (ks ++ [n]))).
      { intros G W Z. unfold tl_of. rewrite map_app. cbn [map]. unfold mode_products. rewrite fold_left_app. cbn [fold_left fst snd].
        replace (B G W n) with W by (unfold B; rewrite Nat.eqb_refl; reflexivity). f_equal. f_equal. apply map_ext_in. intros k Hk. unfold B.
        destruct (Nat.eqb_spec k n) as [->|]; [contradiction|reflexivity]. }
      unfold Y, Y'. rewrite !EB. apply energy_relabel; auto.
      - apply (Permutation_NoDup (l := n :: ks)); [rewrite Permutation_app_comm; reflexivity|]. constructor; assumption.
      - intros k Hk. unfold B. apply in_app_iff in Hk as [Hk|[<-|[]]].
        + destruct (Nat.eqb_spec k n) as [->|]; [contradiction|]. apply H, Hk.
        + rewrite Nat.eqb_refl. split; [exact Hn|]. split; [split; [apply wf_gen|reflexivity]|]. split; [split; [apply wf_gen|reflexivity]|]. split; [reflexivity|].
          split; [reflexivity|]. split; [reflexivity|]. intros i j Hi Hj. change (nrows V) with I in Hi, Hj. unfold outer. change (ncols V) with 1%nat. change (ncols V') with 1%nat.
          apply bigsum_ext. intros q Hq. destruct (Hsg n Hn) as [P _]. unfold V, V'. rewrite !mget_mgen by (auto; apply P; assumption). reflexivity. }
    rewrite (mp_energy Y V M n) in En; try (rewrite ?YN; auto; fail); try lia; [|discriminate].
    rewrite (mp_energy Y' V' M' n) in En; try (rewrite ?ES, ?YN; auto; fail); try lia; [|discriminate].
    change (ncols V) with 1%nat in En. change (ncols V') with 1%nat in En. rewrite ES, YN in En. fold I in En. rewrite C1.
    assert (Q : forall (g : nat -> R) (K : mf), fro 1 (rest n (shp Y)) (mm I (tr (mget (mgen I 1 (fun i _ => g i)))) K) = sumn (rest n (shp Y)) (fun l => (sumn I (fun i => g i * K i l))²)).
    { intros g K. unfold fro, dot2. rewrite (sumn_S RLR), sumn_0. Rn. rewrite Rplus_0_l. apply sumnR_ext. intros l _. unfold Rsqr.
      replace (mm I (tr (mget (mgen I 1 (fun i _ => g i)))) K 0%nat l) with (sumn I (fun i => g i * K i l)); [reflexivity|]. unfold mm, tr. apply sumnR_ext. intros i Hi.
      rewrite mget_mgen by (auto; lia). reflexivity. }
    unfold V, V' in En. rewrite !Q in En. exact En.
  Qed.

  (** the leading singular vectors of related unfoldings *)
  Lemma leading_same n (M M' U U' W W' : tensor R) s s' r : (n < ndims X)%nat ->
    is_mat M (nth n (shp X) 0%nat) (ncols M) -> is_mat M' (nth n (shp X) 0%nat) (ncols M) ->
    (forall i j, (i < nth n (shp X) 0)%nat -> (j < nth n (shp X) 0)%nat ->
      sumn (ncols M) (fun l => mget M' i l * mget M' j l) = sumn (ncols M) (fun l => mget M (sg n i) l * mget M (sg n j) l)) ->
    thin_svd M U s W -> thin_svd M' U' s' W' -> gap_at M (Nat.min r (Nat.min (nrows M) (ncols M))) -> same_span (sg n) (leading U r) (leading U' r).
  Proof.
    intros Hn HM HM' HG Hs Hs' Hgap. destruct (matrix_is_mat _ _ _ HM) as (_ & R1 & _). destruct (matrix_is_mat _ _ _ HM') as (_ & R2 & C2).
    destruct (svd_U _ _ _ _ Hs) as (_ & U1 & U2). destruct (svd_U _ _ _ _ Hs') as (_ & U1' & U2'). rewrite R2, C2 in U2'. rewrite R2 in U1'. rewrite R1 in *.
    set (I := nth n (shp X) 0%nat) in *. pose proof (Hsg n Hn) as P. fold I in P.
    split; [change (nrows U' = nrows U); congruence|]. split; [change (Nat.min r (ncols U') = Nat.min r (ncols U)); congruence|].
    intros i j Hi Hj. change (nrows (leading U r)) with (nrows U) in Hi, Hj. rewrite U1 in Hi, Hj.
    unfold outer. change (ncols (leading U' r)) with (Nat.min r (ncols U')). change (ncols (leading U r)) with (Nat.min r (ncols U)). rewrite U2, U2'.
    set (r' := Nat.min r (Nat.min I (ncols M))) in *.
    transitivity (sumn r' (fun q => mget U' i q * mget U' j q)); [|transitivity (sumn r' (fun q => mget U (sg n i) q * mget U (sg n j) q))].
    - rewrite <- (sumn_bigsum RLR). apply sumnR_ext. intros q Hq. unfold leading. rewrite !mget_mgen; auto; rewrite ?U1', ?U2'; assumption.
    - apply (leading_span M M' U U' W W' s s' (sg n) r'); try (rewrite ?R1; assumption); try congruence; [rewrite R1; unfold r'; lia].
    - rewrite <- (sumn_bigsum RLR). apply sumnR_ext. intros q Hq. unfold leading. rewrite !mget_mgen; auto; rewrite ?U1, ?U2; auto; apply P; assumption.
  Qed.

  (** the full tensor is the data projected onto the column spaces *)
  Lemma mtrans2 (A : tensor R) : matrix A -> mtrans (mtrans A) = A.
  Proof.
    intros HA. assert (HM : is_mat A (nrows A) (ncols A)).
    { destruct HA as [HW HL]. split; [exact HW|]. unfold nrows, ncols, ndims in *. destruct (shp A) as [|a [|b [|c l]]]; try discriminate. reflexivity. }
    apply mat_ext with (r := nrows A) (c := ncols A); [apply is_mat_mgen|exact HM|]. intros i j Hi Hj. rewrite mget_mtrans by assumption. apply mget_mtrans; assumption.
  Qed.
  Lemma full_onto ranks A : factor_state X ranks A ->
    tucker_tensor (project X A) A = mode_products X (map (fun k => (gram_of (mtrans (mat_at A k)), k)) (seq 0 (ndims X))).
  Proof.
    intros HA. rewrite (full_plt X ranks HX A HA). rewrite <- (double X HX (mat_at A)); [|apply seq_NoDup|].
    - change (tl_of (mat_at A) (seq 0 (ndims X))) with (plt A (seq 0 (ndims X))). rewrite (core_plt X ranks A HA).
      set (C := mode_products X (plt A (seq 0 (ndims X)))).
      replace (MultiR.tl (plt A (seq 0 (ndims X)))) with (pl A (seq 0 (ndims X))).
      + apply (mode_products_perm RLR); [unfold C; apply wf_mode_products, HX|apply Permutation_rev|rewrite snd_pl; apply seq_NoDup|].
        intros p Hp. unfold C. rewrite <- (core_plt X ranks A HA). apply (pl_fits X ranks A HA p Hp).
      + unfold MultiR.tl, plt, pl. rewrite map_map. cbn [fst snd]. apply map_ext_in. intros k Hk. apply in_seq in Hk. rewrite mtrans2; [reflexivity|]. apply (A_fits X ranks A HA k). lia.
    - intros k Hk. apply in_seq in Hk. split; [lia|]. apply (A_fits X ranks A HA k). lia.
  Qed.
  Lemma state_relabel ranks A : factor_state X ranks A <-> factor_state (relabel sg X) ranks A.
  Proof. split; intros H; exact H. Qed.
  Lemma spans_fam ranks A A' : factor_state X ranks A -> factor_state X ranks A' -> same_spans sg A A' -> fam X sg (mat_at A) (mat_at A') (seq 0 (ndims X)).
  Proof.
    intros HA HA' [HL HS] k Hk. apply in_seq in Hk. destruct (A_fits X ranks A HA k ltac:(lia)) as (F1 & F2 & _). destruct (A_fits X ranks A' HA' k ltac:(lia)) as (G1 & _ & _).
    split; [lia|]. split; [exact F1|]. split; [exact G1|]. split; [exact F2|]. apply HS. rewrite (proj1 HA). lia.
  Qed.
  Lemma full_relabel ranks A A' : factor_state X ranks A -> factor_state X ranks A' -> same_spans sg A A' ->
    tucker_tensor (project (relabel sg X) A') A' = relabel sg (tucker_tensor (project X A) A).
  Proof.
    intros HA HA' HS. rewrite (full_onto ranks A HA). rewrite <- (onto_relabel X sg Hsg (mat_at A) (mat_at A')); [|apply seq_NoDup|apply (spans_fam ranks); assumption].
    assert (E : forall Z : tensor R, wf Z -> shp Z = shp X -> tucker_tensor (project Z A') A' = mode_products Z (map (fun k => (gram_of (mtrans (mat_at A' k)), k)) (seq 0 (ndims X)))).
    { intros Z HZ ES. assert (HAZ : factor_state Z ranks A') by (unfold factor_state, ndims in *; rewrite ES; exact HA').
      rewrite (full_plt Z ranks HZ A' HAZ). unfold ndims. rewrite ES. fold (ndims X). rewrite <- (double Z HZ (mat_at A')); [|apply seq_NoDup|].
      - change (tl_of (mat_at A') (seq 0 (ndims X))) with (plt A' (seq 0 (ndims X))). rewrite (core_plt Z ranks A' HAZ). unfold ndims at 1. rewrite ES. fold (ndims X).
        replace (MultiR.tl (plt A' (seq 0 (ndims X)))) with (pl A' (seq 0 (ndims X))).
        + apply (mode_products_perm RLR); [apply wf_mode_products, HZ|apply Permutation_rev|rewrite snd_pl; apply seq_NoDup|].
          intros p Hp. pose proof (pl_fits Z ranks A' HAZ p) as P. rewrite (core_plt Z ranks A' HAZ) in P. unfold ndims in P. rewrite ES in P. apply P. exact Hp.
        + unfold MultiR.tl, plt, pl. rewrite map_map. cbn [fst snd]. apply map_ext_in. intros k Hk. apply in_seq in Hk. rewrite mtrans2; [reflexivity|]. apply (A_fits X ranks A' HA' k). lia.
      - intros k Hk. apply in_seq in Hk. unfold ndims. rewrite ES. fold (ndims X). split; [lia|]. apply (A_fits X ranks A' HA' k). lia. }
    apply E; [apply wf_relabel|reflexivity].
  Qed.
  Lemma core_relabel ranks A A' : factor_state X ranks A -> factor_state X ranks A' -> same_spans sg A A' ->
    shp (project (relabel sg X) A') = shp (project X A) /\ sqlen (project (relabel sg X) A') = sqlen (project X A).
  Proof.
    intros HA HA' HS. pose proof (spans_fam ranks A A' HA HA' HS) as HF. rewrite !project_plt, (proj1 HA), (proj1 HA').
    change (plt A (seq 0 (ndims X))) with (tl_of (mat_at A) (seq 0 (ndims X))). change (plt A' (seq 0 (ndims X))) with (tl_of (mat_at A') (seq 0 (ndims X))).
    split; [apply shp_tl|apply energy_relabel]; auto using seq_NoDup.
  Qed.
End Q.
