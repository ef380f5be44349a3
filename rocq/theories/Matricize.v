(** KTensor / TTensor reconstruction and the matricization identities (C25, C27-C29). *)

From Coq Require Import ZArith List Bool Arith Lia Permutation.
From Verif Require Import Num Py Tensor TF TensorFacts TFFacts Sums Ops Types Spec LayoutFacts SpecFacts EinsumFacts MulFacts KronFacts KronAlg TtmFacts SkipFacts TtmLemmas.
Import ListNotations.

(** the list without position n is the list of the other positions *)
Lemma kept_others n N : kept [Z.of_nat n] N = others n N.
Proof.
  unfold kept, others. apply filter_ext. intros k. simpl. rewrite orb_false_r. f_equal.
  destruct (Nat.eqb_spec k n) as [->|E]; [apply Z.eqb_refl|]. apply Z.eqb_neq. lia.
Qed.

Section M.
  Context {T : Type} {N : Num T} (RL : RingLaws T).
  Let RLu : ring_theory n0 n1 nadd nmul nsub nopp (@eq T) := RL.
  Add Ring TRing : RLu.

  Lemma skip_others (U : list (tensor T)) n :
    rev (skip_ U (SkInt (Z.of_nat n))) = map (mat_at U) (rev (others n (length U))).
  Proof.
    rewrite skip_without. cbn [skipset]. rewrite (without_nth _ _ (mkT [] [])), kept_others.
    rewrite map_rev. reflexivity.
  Qed.

  (** sums over all multi-indices can be taken in any axis order *)
  Lemma isum_gather p s (f : list nat -> T) : Permutation p (seq 0 (length s)) ->
    isum s (fun idx => f (gather 0 p idx)) = isum (gather 0 p s) f.
  Proof.
    intros H. unfold isum. apply (lsum_reindex RL f (gather 0 p)). apply NoDup_Permutation.
    - apply NoDup_map_inj; [|apply NoDup_indices].
      intros a b Ha Hb E. apply in_indices in Ha, Hb.
      rewrite <- (scatter_gather p a), <- (scatter_gather p b), E.
      + rewrite (valid_length _ _ Ha), (valid_length _ _ Hb). reflexivity.
      + rewrite (valid_length _ _ Hb). auto.
      + rewrite (valid_length _ _ Ha). auto.
    - apply NoDup_indices.
    - intros j. rewrite in_map_iff, in_indices. split.
      + intros (i & <- & Hi). apply in_indices in Hi. apply gather_valid; auto.
        intros a Ha. eapply perm_in_lt; eauto.
      + intros Hj. destruct (gather_surj p s j H Hj) as (i & Hi & E). exists i. split; auto. apply in_indices; auto.
  Qed.

  (** the product over all positions = position n times the others *)
  Lemma bigprod_split n (f : nat -> T) K : n < K ->
    bigprod K f = nmul (f n) (lprod (map f (rev (others n K)))).
  Proof.
    intros H. rewrite <- (lprod_seq RL). change (nmul (f n) (lprod (map f (rev (others n K))))) with (lprod (map f (n :: rev (others n K)))).
    apply (lprod_perm RL), Permutation_map, Permutation_sym, kolda_perm, H.
  Qed.

  Lemma lprod_list_bigprod (g : nat -> T) (c : list nat) : lprod (map g c) = bigprod (length c) (fun q => g (nth q c 0)).
  Proof.
    rewrite (lprod_bigprod RL), map_length. apply bigprod_ext. intros q Hq.
    apply nth_map_lt. auto.
  Qed.

  (** *** Kruskal *)
  Lemma kt_extract_ok (U : list (tensor T)) (lam : tensor T) R : U <> [] -> length U <= 25 ->
    (forall M, In M U -> matrix M /\ ncols M = R) -> is_mat lam R 1 ->
    kt_extract U lam = Ok (cp_tensor R lam U).
  Proof.
    intros Hne Hlen Hm [_ Hlam]. destruct (khatri_ok RL U R Hne Hlen Hm) as (K & EK & HK).
    unfold kt_extract. rewrite EK. cbn [bind]. rewrite dims_rows by (intros; apply Hm; auto). cbn [bind].
    pose proof HK as [[HwK HsK] _].
    rewrite (matmul_ok false false K lam (nprod (map nrows U)) R 1) by auto. cbn [bind].
    rewrite reshape_ok by (unfold mgen; rewrite shp_gen; simpl; rewrite Nat.mul_1_r; reflexivity).
    f_equal. apply tensor_ext.
    - apply wf_reshape; [apply wf_gen|]. simpl. rewrite Nat.mul_1_r. reflexivity.
    - apply wf_gen.
    - reflexivity.
    - intros i Hi. cbn [shp] in Hi. unfold cp_tensor. rewrite get_gen by auto.
      rewrite (get_reshape _ _ [ravel (map nrows U) i; 0] i).
      2: { unfold mgen. rewrite shp_gen, ravel2. lia. }
      fold (mget (mgen (nprod (map nrows U)) 1 (fun i0 j => sumn R (fun l => nmul (mget K i0 l) (mget lam l j)))) (ravel (map nrows U) i) 0).
      rewrite mget_mgen; [|apply ravel_lt; auto|lia].
      rewrite (sumn_bigsum RL). apply bigsum_ext. intros r Hr.
      rewrite (is_khatri_ravel _ _ _ HK) by auto. ring.
  Qed.

  (** every cell of a matrix given on the image of the multi-indices *)
  Lemma cp_unfold (U : list (tensor T)) (lam : tensor T) R n : 2 <= length U -> length U <= 26 -> n < length U ->
    (forall M, In M U -> matrix M /\ ncols M = R) -> nrows (mat_at U n) <> 0 ->
    exists M H, unfold (cp_tensor R lam U) (Z.of_nat n) = Ok M /\
      khatri U (SkInt (Z.of_nat n)) true = Ok H /\
      is_mat M (nrows (mat_at U n)) (nrows H) /\ is_mat H (nrows H) R /\
      forall i j, i < nrows (mat_at U n) -> j < nrows H ->
        mget M i j = bigsum R (fun r => nmul (nmul (mget (mat_at U n) i r) (mget lam r 0)) (mget H j r)).
  Proof.
    intros HN2 HN Hn Hm Hr0. set (t := cp_tensor R lam U).
    assert (Hst : shp t = map nrows U) by reflexivity.
    assert (Hord : ndims t = length U) by (unfold ndims; rewrite Hst; apply map_length).
    assert (Hnth : forall k, k < length U -> nth k (shp t) 0 = nrows (mat_at U k)).
    { intros k Hk. rewrite Hst. apply nth_map_lt. auto. }
    destruct (unfold_ok t n) as (M & EM & [HM HG]); [lia|rewrite Hnth; auto|].
    set (c := rev (others n (ndims t))) in *.
    assert (Hc : forall k, In k c -> k < length U).
    { intros k Hk. apply in_rev, in_others in Hk. lia. }
    assert (Lc : length c = length U - 1).
    { unfold c. rewrite Hord. pose proof (Permutation_length (kolda_perm n (length U) Hn)) as P. rewrite seq_length in P. cbn [length] in P. lia. }
    set (V := map (mat_at U) c).
    assert (HV : forall A, In A V -> matrix A /\ ncols A = R).
    { intros A HA. apply in_map_iff in HA as (k & <- & Hk). apply Hm, nth_In.
      apply in_rev, in_others in Hk. lia. }
    destruct (khatri_ok RL V R) as (H & EH & HH); auto.
    { intros E. apply (f_equal (@length _)) in E. unfold V in E. rewrite map_length, Lc in E. simpl in E. lia. }
    { unfold V. rewrite map_length. lia. }
    assert (Es : map nrows V = gather 0 c (shp t)).
    { unfold V, gather. rewrite map_map. apply map_ext_in. intros k Hk. rewrite Hnth; auto. }
    pose proof HH as [HmH _]. rewrite Es in HmH.
    destruct (matrix_is_mat _ _ _ HmH) as (_ & Hr & _).
    exists M, H. split; [exact EM|]. split.
    { rewrite khatri_unfold. rewrite skip_others. rewrite <- EH. unfold V, c. rewrite Hord. reflexivity. }
    rewrite Hr. split.
    { unfold gather in HM at 1. cbn [map prod] in HM. rewrite Nat.mul_1_r, Hnth in HM by auto. exact HM. }
    split; [exact HmH|].
    intros i j Hi Hj.
    destruct (as_matrix_surj t [n] c i j) as (idx & Hv & Ei & Ej).
    { unfold c. rewrite Hord. apply (kolda_perm n (length U) Hn). }
    { unfold gather. cbn [map prod]. rewrite Nat.mul_1_r, Hnth; auto. } { exact Hj. }
    rewrite <- Ei, <- Ej. rewrite HG by auto.
    assert (Ei' : nth n idx 0 = i).
    { rewrite <- Ei. unfold gather. cbn [map ravel prod]. lia. }
    unfold t at 1, cp_tensor at 1. rewrite get_gen by exact Hv.
    apply bigsum_ext. intros r Hrr. rewrite (bigprod_split n) by auto.
    rewrite <- Es, (is_khatri_ravel _ _ _ HH); auto.
    2: { rewrite Es. apply gather_valid; auto. intros a Ha. unfold ndims in *. apply in_rev, in_others in Ha. lia. }
    replace (ravel (gather 0 [n] (shp t)) (gather 0 [n] idx)) with (nth n idx 0) by congruence.
    assert (E : bigprod (length V) (fun k => mget (mat_at V k) (nth k (gather 0 c idx) 0) r)
              = lprod (map (fun k => mget (mat_at U k) (nth k idx 0) r) (rev (others n (length U))))).
    { rewrite <- Hord. fold c. rewrite lprod_list_bigprod. unfold V. rewrite map_length. apply bigprod_ext. intros q Hq.
      unfold mat_at at 1. rewrite nth_map_lt with (da := 0) by auto.
      unfold gather. rewrite nth_map_lt with (da := 0) by auto. reflexivity. }
    rewrite E. ring.
  Qed.

  (** *** Tucker *)
  Lemma pos_seq i K : i < K -> pos i (seq 0 K) = i.
  Proof.
    intros H. assert (E : nth i (seq 0 K) 0 = i) by (rewrite seq_nth; auto). rewrite <- E at 1. apply pos_nth; [apply seq_NoDup|rewrite seq_length; auto].
  Qed.

  Lemma mode_products_tucker (G : tensor T) (U : list (tensor T)) : wf G -> length U = ndims G ->
    (forall k, k < length U -> matrix (mat_at U k) /\ ncols (mat_at U k) = nth k (shp G) 0) ->
    mode_products G (combine U (seq 0 (length U))) = tucker_tensor G U.
  Proof.
    intros HG Hlen Hf. set (l := combine U (seq 0 (length U))).
    assert (El : l = map (fun k => (mat_at U k, k)) (seq 0 (length U))).
    { unfold l. rewrite (combine_nth_map U _ (mkT [] []) 0) by (rewrite seq_length; auto).
      apply map_ext_in. intros k Hk. apply in_seq in Hk. rewrite seq_nth by lia. reflexivity. }
    assert (Hsnd : map snd l = seq 0 (length U)).
    { rewrite El, map_map. cbn [snd]. apply map_id. }
    assert (Hfit : forall p, In p l -> pair_fits (shp G) p).
    { intros p Hp. rewrite El in Hp. apply in_map_iff in Hp as (k & <- & Hk). apply in_seq in Hk.
      destruct (Hf k ltac:(lia)). repeat split; cbn [fst snd]; auto; [unfold ndims in Hlen; lia|apply H|apply H]. }
    assert (Hnd : NoDup (map snd l)) by (rewrite Hsnd; apply seq_NoDup).
    assert (Esh : rshape (shp G) l = map nrows U).
    { apply nth_ext with (d := 0) (d' := 0); [rewrite rshape_length, map_length; unfold ndims in Hlen; auto|].
      intros k Hk. rewrite rshape_length in Hk. unfold ndims in Hlen.
      rewrite (rshape_in l (shp G) (mat_at U k) k); auto.
      - rewrite nth_map_lt with (da := mkT [] []) by lia. reflexivity.
      - rewrite El. apply in_map_iff. exists k. split; auto. apply in_seq. lia. }
    apply tensor_ext.
    - apply wf_mode_products; auto.
    - apply wf_gen.
    - rewrite shp_mode_products, Esh. reflexivity.
    - intros idx Hv. rewrite shp_mode_products in Hv.
      rewrite (get_mode_products RL l G Hnd Hfit idx Hv).
      unfold tucker_tensor. rewrite get_gen by (rewrite <- Esh; exact Hv).
      rewrite <- (isum_esum RL); [|exact Hnd|].
      2: { intros e e' He. rewrite Hsnd in He. f_equal.
           - f_equal. unfold subst_env. apply map_ext_in. intros i Hi. apply in_seq in Hi.
             destruct (inb i (map snd l)); auto. apply He, in_seq. lia.
           - f_equal. apply map_ext_in. intros p Hp. rewrite El in Hp. apply in_map_iff in Hp as (k & <- & Hk). cbn [fst snd].
             rewrite He by auto. reflexivity. }
      rewrite Hsnd, (isum_msum RL). rewrite Hlen at 1. unfold ndims at 1. rewrite map_nth_seq.
      apply msum_ext. intros j Hj. pose proof (valid_length _ _ Hj) as Lj. f_equal.
      + f_equal. unfold subst_env. transitivity (map (fun i => nth i j 0) (seq 0 (ndims G))).
        * apply map_ext_in. intros i Hi. apply in_seq in Hi. unfold inb.
          rewrite (proj2 (existsb_In _ _)) by (apply in_seq; lia). rewrite pos_seq by lia. reflexivity.
        * unfold ndims. rewrite <- Lj. apply map_nth_seq.
      + rewrite El, map_map. cbn [fst snd]. rewrite (lprod_seq RL). apply bigprod_ext. intros k Hk.
        rewrite pos_seq by auto. reflexivity.
  Qed.

  Lemma tt_extract_ok (G : tensor T) (U : list (tensor T)) : wf G -> 0 < ndims G <= 13 -> length U = ndims G ->
    (forall k, k < length U -> matrix (mat_at U k) /\ ncols (mat_at U k) = nth k (shp G) 0) ->
    tt_extract G U = Ok (tucker_tensor G U).
  Proof.
    intros HG Hord Hlen Hf. unfold tt_extract. rewrite (c11_default RL); auto; try lia.
    - f_equal. apply mode_products_tucker; auto.
    - intros ->. simpl in Hlen. lia.
  Qed.

  Lemma tucker_unfold (G : tensor T) (U : list (tensor T)) n : wf G -> 2 <= ndims G -> ndims G <= 14 -> length U = ndims G ->
    n < length U ->
    (forall k, k < length U -> matrix (mat_at U k) /\ ncols (mat_at U k) = nth k (shp G) 0) ->
    nrows (mat_at U n) <> 0 -> nth n (shp G) 0 <> 0 ->
    exists M W K P Kt, unfold (tucker_tensor G U) (Z.of_nat n) = Ok M /\ unfold G (Z.of_nat n) = Ok W /\
      kron U (SkInt (Z.of_nat n)) true = Ok K /\
      matprod (mat_at U n) W P /\ transposed K Kt /\ matprod P Kt M.
  Proof.
    intros HwG HN2 HN Hlen Hn Hf Hr0 Hg0. set (t := tucker_tensor G U).
    assert (Hst : shp t = map nrows U) by reflexivity.
    assert (Hord : ndims t = length U) by (unfold ndims; rewrite Hst; apply map_length).
    assert (Hnth : forall k, k < length U -> nth k (shp t) 0 = nrows (mat_at U k)).
    { intros k Hk. rewrite Hst. apply nth_map_lt. auto. }
    destruct (unfold_ok t n) as (M & EM & [HM HG]); [lia|rewrite Hnth; auto|].
    destruct (unfold_ok G n) as (W & EW & [HW HGW]); [lia|auto|].
    rewrite <- Hlen, <- Hord in HW, HGW.
    set (c := rev (others n (ndims t))) in *.
    assert (Lc : length c = length U - 1).
    { unfold c. rewrite Hord. pose proof (Permutation_length (kolda_perm n (length U) Hn)) as P. rewrite seq_length in P. cbn [length] in P. lia. }
    assert (Hc : forall k, In k c -> k < length U).
    { intros k Hk. apply in_rev, in_others in Hk. lia. }
    set (V := map (mat_at U) c).
    assert (HV : forall A, In A V -> matrix A).
    { intros A HA. apply in_map_iff in HA as (k & <- & Hk). apply Hf; auto. }
    destruct (kron_ok RL V) as (K & EK & HK); auto.
    { intros E. apply (f_equal (@length _)) in E. unfold V in E. rewrite map_length, Lc in E. simpl in E. lia. }
    { unfold V. rewrite map_length. lia. }
    assert (Es : map nrows V = gather 0 c (shp t)).
    { unfold V, gather. rewrite map_map. apply map_ext_in. intros k Hk. rewrite Hnth; auto. }
    assert (Ec : map ncols V = gather 0 c (shp G)).
    { unfold V, gather. rewrite map_map. apply map_ext_in. intros k Hk. apply Hf; auto. }
    pose proof HK as [HmK _]. rewrite Es, Ec in HmK.
    unfold gather in HM at 1. unfold gather in HW at 1. cbn [map prod] in HM, HW.
    rewrite Nat.mul_1_r in HM, HW. rewrite Hnth in HM by auto.
    set (p := prod (gather 0 c (shp t))) in *. set (q := prod (gather 0 c (shp G))) in *.
    destruct (Hf n Hn) as [HUn HcUn].
    set (P := mgen (nrows (mat_at U n)) q (fun i b => bigsum (nth n (shp G) 0) (fun a => nmul (mget (mat_at U n) i a) (mget W a b)))).
    exists M, W, K, P, (mgen q p (fun b j => mget K j b)).
    split; [exact EM|]. split; [exact EW|]. split.
    { rewrite kron_unfold. rewrite skip_others. rewrite <- EK. unfold V, c. rewrite Hord. reflexivity. }
    split; [|split].
    - exists (nrows (mat_at U n)), (nth n (shp G) 0), q. split; [rewrite <- HcUn; exact HUn|]. split; [exact HW|].
      split; [apply is_mat_mgen|]. intros i j Hi Hj. unfold P. rewrite mget_mgen by auto. reflexivity.
    - exists p, q. split; [exact HmK|]. split; [apply is_mat_mgen|]. intros i j Hi Hj. rewrite mget_mgen by auto. reflexivity.
    - exists (nrows (mat_at U n)), q, p. split; [apply is_mat_mgen|]. split; [apply is_mat_mgen|]. split; [exact HM|].
      intros i j Hi Hj.
      destruct (as_matrix_surj t [n] c i j) as (idx & Hv & Ei & Ej).
      { unfold c. rewrite Hord. apply (kolda_perm n (length U) Hn). }
      { unfold gather. cbn [map prod]. rewrite Nat.mul_1_r, Hnth; auto. } { exact Hj. }
      rewrite <- Ei, <- Ej at 1. rewrite HG by auto.
      assert (Ei' : nth n idx 0 = i).
      { rewrite <- Ei. unfold gather. cbn [map ravel prod]. lia. }
      unfold t at 1, tucker_tensor at 1. rewrite get_gen by exact Hv.
      rewrite <- (isum_msum RL).
      assert (Hp : Permutation (n :: c) (seq 0 (length (shp G)))).
      { unfold c. rewrite Hord. replace (length (shp G)) with (length U) by exact Hlen. apply kolda_perm; auto. }
      set (Fz := fun z : list nat => nmul (nmul (mget (mat_at U n) i (nth 0 z 0)) (mget W (nth 0 z 0) (ravel (gather 0 c (shp G)) (skipn 1 z))))
                                         (mget K j (ravel (gather 0 c (shp G)) (skipn 1 z)))).
      transitivity (isum (shp G) (fun jj => Fz (gather 0 (n :: c) jj))).
      { apply isum_ext. intros jj Hjj. unfold Fz. change (gather 0 (n :: c) jj) with (nth n jj 0 :: gather 0 c jj). cbn [nth skipn].
        change (map (fun a => nth a jj 0) c) with (gather 0 c jj).
        rewrite (bigprod_split n) by auto.
        replace (mget W (nth n jj 0) (ravel (gather 0 c (shp G)) (gather 0 c jj))) with (get G jj).
        2: { rewrite <- (HGW jj Hjj). f_equal. unfold gather. cbn [map ravel prod]. lia. }
        rewrite <- Ej, <- Es, <- Ec, (is_kron_ravel _ _ HK).
        2: { rewrite Es. apply gather_valid; auto. intros a Ha. apply Hc in Ha. unfold ndims in Hord. lia. }
        2: { rewrite Ec. apply gather_valid; auto. intros a Ha. apply Hc in Ha. unfold ndims in Hlen. lia. }
        assert (E : bigprod (length V) (fun k => mget (mat_at V k) (nth k (gather 0 c idx) 0) (nth k (gather 0 c jj) 0))
              = lprod (map (fun k => mget (mat_at U k) (nth k idx 0) (nth k jj 0)) (rev (others n (length U))))).
        { rewrite <- Hord. fold c. rewrite lprod_list_bigprod. unfold V. rewrite map_length. apply bigprod_ext. intros x Hx.
          unfold mat_at at 1. rewrite nth_map_lt with (da := 0) by auto.
          unfold gather. rewrite !nth_map_lt with (da := 0) by auto. reflexivity. }
        rewrite E, Ei'. ring. }
      rewrite isum_gather by exact Hp. unfold Fz.
      unfold gather at 1. cbn [map]. rewrite (isum_cons RL).
      change (map (fun a => nth a (shp G) 0) c) with (gather 0 c (shp G)).
      cbn [nth skipn].
      rewrite <- (sumn_bigsum RL). unfold q. rewrite (sumn_isum _ (fun l => nmul (mget P i l) (mget (mgen (prod (gather 0 c (shp G))) p (fun b j0 => mget K j0 b)) l j))).
      transitivity (isum (gather 0 c (shp G)) (fun r => sumn (nth n (shp G) 0) (fun a =>
         nmul (nmul (mget (mat_at U n) i a) (mget W a (ravel (gather 0 c (shp G)) r))) (mget K j (ravel (gather 0 c (shp G)) r))))).
      { unfold isum, sumn. apply (lsum_exchange RL). }
      apply isum_ext. intros r Hr. pose proof (ravel_lt _ _ Hr) as Hb. unfold P.
      rewrite !mget_mgen by auto. rewrite <- (sumn_bigsum RL), <- (sumn_mul_r RL). reflexivity.
  Qed.
End M.
