(** The mode-n quantities of CP_ALS and NCP_BCU over the reals. *)

From Coq Require Import ZArith List Bool Arith Lia Permutation Reals Lra Psatz.
From Verif Require Import Num Py Tensor TF TensorFacts TFFacts Sums Ops OpsLemmas Types Loss Fact Spec SpecR LayoutFacts SpecFacts MulFacts TtmFacts SkipFacts TtmLemmas Matricize
  KronFacts RSums MatR KronAlg SpecTucker MultiR SvdFacts TuckerRun SpecCp BcuFacts.
Import ListNotations.
Local Open Scope R_scope.

Lemma upd_replace {A} (l : list A) : forall n v, upd l n v = replace n v l.
Proof. unfold upd. induction l as [|x l IH]; intros [|n] v; simpl; auto. rewrite IH. reflexivity. Qed.

Lemma replace_self {A} (l : list A) n d : replace n (nth n l d) l = l.
Proof. revert n. induction l as [|x l IH]; intros [|n]; simpl; auto. rewrite IH. reflexivity. Qed.

Section Parts.
  Variables (X : tensor R) (r : nat) (A : list (tensor R)) (n : nat).
  Hypothesis HA : cp_factors X r A.
  Hypothesis Hne : nonempty (shp X).
  Hypothesis Hord : (2 <= ndims X <= 26)%nat.
  Hypothesis Hn : (n < ndims X)%nat.
  Let N := ndims X.
  Let I := nth n (shp X) 0%nat.
  Let J := rest n (shp X).
  Let c := cax n N.

  Lemma fac_len : length A = N. Proof. apply HA. Qed.
  Lemma fac_mat k : (k < N)%nat -> matrix (mat_at A k) /\ nrows (mat_at A k) = nth k (shp X) 0%nat /\ ncols (mat_at A k) = r.
  Proof. intros Hk. apply matrix_is_mat. apply HA; auto. Qed.
  Lemma fac_in M : In M A -> matrix M /\ ncols M = r.
  Proof.
    intros H. destruct (In_nth A M (mkT [] []) H) as (k & Hk & <-). destruct (fac_mat k) as (H1 & _ & H3); auto.
    rewrite <- fac_len. auto.
  Qed.
  Lemma I_pos : I <> 0%nat. Proof. apply nonempty_nth; auto. Qed.

  Lemma len_others : length (others n N) = (N - 1)%nat.
  Proof.
    pose proof (Permutation_length (kolda_perm n N Hn)) as P. rewrite seq_length in P. cbn [length] in P. rewrite rev_length in P. lia.
  Qed.

  Lemma kr_ok : exists H, khatri A (SkInt (Z.of_nat n)) true = Ok H /\ is_mat H J r /\
    is_khatri (map (mat_at A) c) r H /\
    forall idx q, valid (shp X) idx -> (q < r)%nat ->
      mget H (ravel (gather 0%nat c (shp X)) (gather 0%nat c idx)) q = but A n idx q.
  Proof.
    assert (Hc : forall k, In k c -> (k < N)%nat).
    { intros k Hk. apply in_rev, in_others in Hk. lia. }
    assert (Lc : length c = (N - 1)%nat) by (unfold c, cax; rewrite rev_length; apply len_others).
    set (V := map (mat_at A) c).
    assert (HV : forall M, In M V -> matrix M /\ ncols M = r).
    { intros M HM. apply in_map_iff in HM as (k & <- & Hk). destruct (fac_mat k); auto. tauto. }
    destruct (khatri_ok RLR V r) as (H & EH & HH); auto.
    { intros E. apply (f_equal (@length _)) in E. unfold V in E. rewrite map_length, Lc in E. simpl in E. unfold N in *. lia. }
    { unfold V. rewrite map_length. unfold N in *. lia. }
    assert (Es : map nrows V = gather 0%nat c (shp X)).
    { unfold V, gather. rewrite map_map. apply map_ext_in. intros k Hk. apply fac_mat; auto. }
    exists H. split; [|split; [|split]].
    - rewrite khatri_unfold, skip_others, fac_len. exact EH.
    - destruct HH as [HH _]. change nprod with prod in HH. rewrite Es in HH. unfold J. rewrite rest_prod. exact HH.
    - exact HH.
    - intros idx q Hv Hq. rewrite <- Es. rewrite (is_khatri_ravel _ _ _ HH); auto.
      2: { rewrite Es. apply gather_valid; auto. }
      unfold but. rewrite <- (lprod_listprod), fac_len.
      rewrite (lprod_perm RLR (map (fun k => mget (mat_at A k) (nth k idx 0%nat) q) (others n N)) (map (fun k => mget (mat_at A k) (nth k idx 0%nat) q) c))
        by (apply Permutation_map; unfold c, cax; apply Permutation_rev).
      rewrite (lprod_list_bigprod RLR). unfold V. rewrite map_length. apply bigprod_ext. intros p Hp.
      unfold mat_at at 1. rewrite nth_map_lt with (da := 0%nat) by auto.
      unfold gather. rewrite nth_map_lt with (da := 0%nat) by auto. reflexivity.
  Qed.

  Lemma grams_ok : exists G, grams A = Ok G /\ hadamard G (SkInt (Z.of_nat n)) = Ok (gram_but r A n).
  Proof.
    pose (g := fun M : tensor R => mgen r r (fun p q => sumn (nrows M) (fun i => mget M i p * mget M i q))).
    exists (map g A). split.
    - unfold grams. apply mapM_ok. intros M HM. destruct (fac_in M HM) as [[_ Hs] Hc]. rewrite Hc in Hs.
      rewrite (matmul_ok true false M M r (nrows M) r) by exact Hs. reflexivity.
    - unfold hadamard. rewrite skip_without. change (hadamard (without (skipset (SkInt (Z.of_nat n))) (map g A)) SkNone = Ok (gram_but r A n)).
      cbn [skipset]. rewrite (without_nth _ _ (mkT [] [])), kept_others, map_length, fac_len.
      assert (E : map (fun k => nth k (map g A) (mkT [] [])) (others n N) = map (fun k => g (mat_at A k)) (others n N)).
      { apply map_ext_in. intros k Hk. apply in_others in Hk. apply nth_map_lt. rewrite fac_len. lia. }
      rewrite E. rewrite (hadamard_ok RLR _ [r; r]).
      + f_equal. unfold gram_but, mgen. apply gen_ext. intros idx Hidx. apply valid2_inv in Hidx as (i & j & -> & Hi & Hj).
        cbn [nth]. rewrite lprod_listprod, map_map, fac_len. f_equal. apply map_ext. intros k.
        change (get (g (mat_at A k)) [i; j]) with (mget (g (mat_at A k)) i j). unfold g. rewrite mget_mgen by auto.
        apply (sumn_bigsum RLR).
      + intros E0. apply map_eq_nil in E0. pose proof len_others as L. rewrite E0 in L. simpl in L. unfold N in *. lia.
      + intros M HM. apply in_map_iff in HM as (k & <- & _). split; [apply wf_gen|reflexivity].
  Qed.

  (** V = H^T H *)
  Lemma gram_kr H : is_khatri (map (mat_at A) c) r H -> is_mat H J r -> forall p q, (p < r)%nat -> (q < r)%nat ->
    mget (gram_but r A n) p q = mm J (tr (mget H)) (mget H) p q.
  Proof.
    intros HH HJ p q Hp Hq.
    assert (Hc : forall k, In k c -> (k < N)%nat).
    { intros k Hk. apply in_rev, in_others in Hk. lia. }
    unfold gram_but. rewrite mget_mgen by auto. rewrite <- lprod_listprod, fac_len.
    set (h := fun k => bigsum (nrows (mat_at A k)) (fun i => mget (mat_at A k) i p * mget (mat_at A k) i q)).
    rewrite (lprod_perm RLR (map h (others n N)) (map h c)) by (apply Permutation_map; unfold c, cax; apply Permutation_rev).
    rewrite (lprod_list_bigprod RLR). unfold mm, tr.
    assert (EJ : J = prod (map nrows (map (mat_at A) c))).
    { destruct (matrix_is_mat _ _ _ HJ) as (_ & E1 & _). destruct HH as [HH _]. destruct (matrix_is_mat _ _ _ HH) as (_ & E2 & _).
      rewrite <- E1, E2. reflexivity. }
    rewrite EJ, sumn_isum.
    transitivity (isum (map nrows (map (mat_at A) c)) (fun k => bigprod (length (map nrows (map (mat_at A) c)))
         (fun l => mget (mat_at (map (mat_at A) c) l) (nth l k 0%nat) p * mget (mat_at (map (mat_at A) c) l) (nth l k 0%nat) q))).
    - rewrite (isum_bigprod RLR (map nrows (map (mat_at A) c))
          (fun l x => mget (mat_at (map (mat_at A) c) l) x p * mget (mat_at (map (mat_at A) c) l) x q)).
      rewrite !map_length. apply bigprod_ext. intros l Hl. unfold h.
      assert (El : mat_at (map (mat_at A) c) l = mat_at A (nth l c 0%nat)).
      { unfold mat_at at 1. rewrite nth_map_lt with (da := 0%nat) by auto. reflexivity. }
      rewrite (nth_map_lt nrows _ _ (mkT [] [])) by (rewrite map_length; auto). fold (mat_at (map (mat_at A) c) l). rewrite El. reflexivity.
    - apply isum_ext. intros k Hk. rewrite !(is_khatri_ravel _ r H HH) by auto. rewrite map_length.
      rewrite <- (bigprod_mul RLR). reflexivity.
  Qed.

  (** XA = X_(n) H *)
  Lemma mttkrp_kr Xm H : unfold X (Z.of_nat n) = Ok Xm ->
    (forall idx q, valid (shp X) idx -> (q < r)%nat ->
      mget H (ravel (gather 0%nat c (shp X)) (gather 0%nat c idx)) q = but A n idx q) ->
    forall i q, (i < I)%nat -> (q < r)%nat -> mget (mttkrp X r A n) i q = mm J (mget Xm) (mget H) i q.
  Proof.
    intros HXm HH i q Hi Hq. apply unfold_mat in HXm as [[_ HM] _]; auto; [|apply I_pos].
    unfold mttkrp. rewrite mget_mgen by auto. rewrite <- (isum_msum RLR).
    set (s1 := replace n 1%nat (shp X)).
    assert (Ls : length s1 = N) by (unfold s1; rewrite replace_length; reflexivity).
    transitivity (isum s1 (fun idx => (fun (_ j : nat) => mget Xm i j * mget H j q) (nth n idx 0%nat)
       (ravel (gather 0%nat (cax n (length s1)) s1) (gather 0%nat (cax n (length s1)) idx)))).
    - apply isum_ext. intros idx Hv. cbv beta. rewrite Ls. fold c. unfold s1 at 1 2.
      change c with (cax n (length (shp X))). rewrite gather_others.
      assert (Hv' : valid (shp X) (replace n i idx)).
      { rewrite <- (replace_nth n (shp X)). apply valid_replace1; auto. }
      change (cax n (length (shp X))) with c.
      assert (Eg : gather 0%nat c (replace n i idx) = gather 0%nat c idx).
      { unfold gather. apply map_ext_in. intros k Hk. apply in_rev, in_others in Hk. apply nth_replace_ne. lia. }
      assert (Lx : length idx = N) by (rewrite (valid_length _ _ Hv); auto).
      rewrite <- Eg, (HH _ q Hv' Hq). rewrite <- (HM _ Hv').
      replace (ravel (gather 0%nat [n] (shp X)) (gather 0%nat [n] (replace n i idx))) with i.
      2: { unfold gather. cbn [map ravel prod]. rewrite nth_replace_eq by (rewrite Lx; auto). lia. }
      f_equal. unfold but. f_equal. apply map_ext_in. intros k Hk. apply in_others in Hk.
      rewrite nth_replace_ne by lia. reflexivity.
    - rewrite (isum_unfold s1 n (fun _ j => mget Xm i j * mget H j q)) by (rewrite Ls; auto). unfold s1. rewrite rest_replace, nth_replace_eq by auto.
      unfold mm. rewrite (sumn_S RLR), sumn_0. Rn. fold J. lra.
  Qed.

  (** the distance of X to a Kruskal tensor, unfolded *)
  Lemma error_unfold Xm H B lam : unfold X (Z.of_nat n) = Ok Xm -> khatri A (SkInt (Z.of_nat n)) true = Ok H ->
    is_mat B I r ->
    sqdist X (cp_tensor r lam (replace n B A)) =
    fro I J (fun i j => mget Xm i j - mm r (fun i q => mget B i q * mget lam q 0) (tr (mget H)) i j).
  Proof.
    intros HX HH HB. set (U := replace n B A).
    assert (LU : length U = N) by (unfold U; rewrite replace_length; apply fac_len).
    assert (EUn : mat_at U n = B).
    { unfold mat_at, U. rewrite nth_replace, Nat.eqb_refl by (rewrite fac_len; auto). reflexivity. }
    assert (HU : forall k, (k < N)%nat -> is_mat (mat_at U k) (nth k (shp X) 0%nat) r).
    { intros k Hk. destruct (Nat.eq_dec k n) as [->|E]; [rewrite EUn; exact HB|].
      unfold mat_at, U. rewrite nth_replace_ne by auto. apply HA; auto. }
    assert (HUi : forall M, In M U -> matrix M /\ ncols M = r).
    { intros M HM. destruct (In_nth U M (mkT [] []) HM) as (k & Hk & <-). rewrite LU in Hk.
      destruct (matrix_is_mat _ _ _ (HU k Hk)) as (? & _ & ?). auto. }
    assert (Es : shp (cp_tensor r lam U) = shp X).
    { change (map nrows U = shp X). apply nth_ext with (d := 0%nat) (d' := 0%nat); rewrite map_length, LU; [reflexivity|].
      intros k Hk. rewrite (nth_map_lt nrows U k (mkT [] [])) by (rewrite LU; auto).
      destruct (matrix_is_mat _ _ _ (HU k Hk)) as (_ & E & _). exact E. }
    destruct (matrix_is_mat _ _ _ HB) as (_ & HBr & HBc).
    destruct (cp_unfold RLR U lam r n) as (M & H' & EM & EH & _ & _ & G).
    { unfold N in *. lia. } { unfold N in *. lia. } { unfold N in *. lia. } { auto. }
    { rewrite EUn, HBr. apply I_pos. }
    assert (EH' : H' = H).
    { rewrite khatri_unfold, skip_others in EH, HH. rewrite LU in EH. rewrite fac_len in HH.
      replace (map (mat_at U) (rev (others n N))) with (map (mat_at A) (rev (others n N))) in EH.
      - congruence.
      - apply map_ext_in. intros k Hk. apply in_rev, in_others in Hk. unfold mat_at, U. rewrite nth_replace_ne by lia. reflexivity. }
    subst H'. destruct kr_ok as (H0 & EH0 & HmH & _). rewrite HH in EH0. injection EH0 as <-.
    destruct (matrix_is_mat _ _ _ HmH) as (_ & HrH & _).
    assert (HI : nth n (shp X) 0%nat <> 0%nat) by exact I_pos.
    rewrite sqdist_expand by auto. rewrite (sqlen_unfold X Xm n), (tdot_unfold X (cp_tensor r lam U) Xm M n), (sqlen_unfold (cp_tensor r lam U) M n);
      auto; rewrite ?Es; auto; try (unfold ndims; rewrite Es; auto).
    fold I J. rewrite <- fro_sub. apply fro_ext. intros i j Hi Hj. f_equal.
    rewrite G; [|rewrite EUn, HBr; auto|rewrite HrH; auto]. rewrite <- (sumn_bigsum RLR), EUn. reflexivity.
  Qed.
End Parts.
