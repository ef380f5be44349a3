(** NCP_BCU: the mode updates are projected gradient steps (C50). *)

From Coq Require Import ZArith List Bool Arith Lia Permutation Reals Lra Psatz.
From Verif Require Import Num Py Tensor TF TensorFacts TFFacts Sums Ops OpsLemmas Types Loss Fact Train Spec SpecR LayoutFacts SpecFacts MulFacts TtmFacts SkipFacts TtmLemmas Matricize
  KronFacts RSums MatR KronAlg NormFacts SpecTucker MultiR SvdFacts TuckerFacts TuckerRun TuckerLemmas SpecCp SpecBcu BcuFacts SpecTrain TrainLemmas CpFacts AlsFacts AlsLemmas
  SpecProx Prox.
Import ListNotations.
Local Open Scope R_scope.

Section Ncp.
  Variables (svals : tensor R -> list R) (X : tensor R) (r : nat) (mats : list (tensor R)).
  Hypothesis Hne : nonempty (shp X).
  Hypothesis Hord : (2 <= ndims X <= 26)%nat.
  Hypothesis Hmats : unfold_all X = Ok mats.
  Let N := ndims X.
  Let I n := nth n (shp X) 0%nat.

  Definition ncp_L (A : list (tensor R)) (n : nat) : R := tf_max (svals (gram_but r A n)).
  Definition ncp_new (A : list (tensor R)) (Am : tensor R) (L : R) (n : nat) : tensor R :=
    mgen (nth n (shp X) 0%nat) r (fun i q =>
      Rmax 0 (mget Am i q - (sumn r (fun p => mget Am i p * mget (gram_but r A n) p q) - mget (mttkrp X r A n) i q) / L)).

  Lemma ncp_mode_run s n : cp_factors X r (n_A s) -> cp_factors X r (n_Am s) -> (n < N)%nat -> (n < length (n_L s))%nat ->
    let L := ncp_L (n_A s) n in
    ncp_mode svals mats n s = Ok (mkNCP (replace n (ncp_new (n_A s) (mat_at (n_Am s) n) L n) (n_A s)) (n_Am s) (n_A0 s) (n_t s) (n_t0 s) (n_w s)
      (replace n L (n_L s)) (replace n (nth n (n_L s) 0) (n_L0 s))).
  Proof.
    intros HA HAm Hn HnL L. unfold ncp_mode. destruct (grams_ok X r (n_A s) n HA Hord Hn) as (G & EG & EV). rewrite EG. cbn [bind].
    destruct (kr_ok X r (n_A s) n HA Hord Hn) as (H & EH & HmH & Hkh & Hbut). rewrite EH. cbn [bind].
    destruct (mats_nth X mats Hmats n Hn) as (Xm & EXm & EX). rewrite EXm. cbn [bind].
    assert (H0 : nth n (shp X) 0%nat <> 0%nat) by (apply nonempty_nth; auto).
    pose proof (proj2 (unfold_mat X Xm n Hn H0 EX)) as HXm.
    rewrite (matmul_ok false false Xm H (I n) (rest n (shp X)) r) by (try apply HXm; apply HmH). cbn [bind].
    rewrite EV. cbn [bind]. rewrite (pynth_nat (n_L s) n 0) by auto. cbn [bind].
    assert (HLm : length (n_Am s) = N) by apply HAm.
    rewrite (pynth_nat (n_Am s) n (mkT [] [])) by (rewrite HLm; auto). cbn [bind]. fold (mat_at (n_Am s) n).
    destruct HAm as [_ HAm]. specialize (HAm n Hn). fold (I n) in HAm.
    rewrite (matmul_ok false false (mat_at (n_Am s) n) (gram_but r (n_A s) n) (I n) r r) by (try apply HAm; reflexivity). cbn [bind].
    rewrite bin_same by reflexivity. cbn [bind]. unfold mgen at 1. cbn [shp]. rewrite tf_map_gen. cbn [shp gen mgen].
    rewrite bin_same by (apply HAm). cbn [bind]. rewrite tf_map_gen.
    rewrite !upd_replace. fold L. f_equal. f_equal. f_equal.
    unfold ncp_new. destruct HAm as [_ HAs]. rewrite HAs. unfold mgen. apply gen_ext. intros idx Hv. apply valid2_inv in Hv as (i & q & -> & Hi & Hq).
    cbn [nth]. rewrite nrelu_R, Rmax_comm. f_equal. rewrite get_gen by (repeat constructor; auto). Rn. f_equal. f_equal. f_equal.
    + change (get (mgen (I n) r (fun i q => sumn r (fun p => mget (mat_at (n_Am s) n) i p * mget (gram_but r (n_A s) n) p q))) [i; q] = sumn r (fun p => mget (mat_at (n_Am s) n) i p * mget (gram_but r (n_A s) n) p q)).
      fold (mget (mgen (I n) r (fun i q => sumn r (fun p => mget (mat_at (n_Am s) n) i p * mget (gram_but r (n_A s) n) p q))) i q).
      rewrite mget_mgen by auto. reflexivity.
    + rewrite (mttkrp_kr X r (n_A s) n Hne Hord Hn Xm H EX Hbut) by auto.
      change (mget (mgen (I n) r (fun i q => sumn (rest n (shp X)) (fun p => mget Xm i p * mget H p q))) i q = mm (rest n (shp X)) (mget Xm) (mget H) i q).
      rewrite mget_mgen by auto. reflexivity.
  Qed.

  Lemma ncp_new_mat A Am L n : is_mat (ncp_new A Am L n) (I n) r. Proof. apply is_mat_mgen. Qed.

  (** what the sweep over the modes k..N-1 leaves *)
  Lemma ncp_sweep n : forall k s s', (k + n)%nat = N -> ncp_wf X r s -> ncp_modes svals mats (seq k n) s = Ok s' ->
    ncp_wf X r s' /\ n_Am s' = n_Am s /\ n_A0 s' = n_A0 s /\
    (forall j, (j < k)%nat -> mat_at (n_A s') j = mat_at (n_A s) j /\ nth j (n_L s') 0 = nth j (n_L s) 0) /\
    (forall m, (k <= m < N)%nat -> let A := mixed m (n_A s') (n_A s) in
       nth m (n_L s') 0 = ncp_L A m /\ mat_at (n_A s') m = ncp_new A (mat_at (n_Am s) m) (nth m (n_L s') 0) m).
  Proof.
    induction n as [|n IH]; intros k s s' HN HW E; cbn [seq ncp_modes] in E.
    - injection E as <-. split; [exact HW|]. split; [reflexivity|]. split; [reflexivity|]. split; [auto|intros m Hm; lia].
    - destruct HW as (HA & HAm & HA0 & HL & HL0). rewrite ncp_mode_run in E by (auto; unfold N in *; lia). cbn [bind] in E.
      set (L := ncp_L (n_A s) k) in *. set (B := ncp_new (n_A s) (mat_at (n_Am s) k) L k) in *.
      match type of E with ncp_modes _ _ _ ?t = _ => set (s1 := t) in * end.
      assert (HA1 : cp_factors X r (replace k B (n_A s))) by (apply replace_factors; [auto|apply ncp_new_mat]).
      destruct (IH (S k) s1 s' ltac:(lia)) as ((G1 & G2 & G3 & G4 & G5) & H1 & H2 & H3 & H4); [|exact E|].
      { split; [exact HA1|]. split; [exact HAm|]. split; [exact HA0|]. cbn [n_L n_L0 s1]. rewrite !replace_length. auto. }
      cbn [s1 n_A n_Am n_A0 n_L] in H1, H2, H3, H4.
      assert (LA : length (n_A s) = N) by apply HA. assert (LA' : length (n_A s') = length (n_A s)) by (rewrite (proj1 G1), LA; reflexivity).
      assert (Hk : mat_at (n_A s') k = B).
      { rewrite (proj1 (H3 k ltac:(lia))). unfold mat_at. rewrite nth_replace, Nat.eqb_refl by lia. reflexivity. }
      assert (HLk : nth k (n_L s') 0 = L).
      { rewrite (proj2 (H3 k ltac:(lia))). rewrite nth_replace, Nat.eqb_refl by (unfold N in *; lia). reflexivity. }
      assert (Hlt : forall j, (j < k)%nat -> mat_at (n_A s') j = mat_at (n_A s) j /\ nth j (n_L s') 0 = nth j (n_L s) 0).
      { intros j Hj. destruct (H3 j ltac:(lia)) as [K1 K2]. rewrite K1, K2. unfold mat_at. rewrite !nth_replace_ne by lia. auto. }
      assert (Hmk : mixed k (n_A s') (n_A s) = n_A s).
      { apply (list_nth_ext _ _ (mkT [] [])); [rewrite mixed_length; auto; lia|]. rewrite mixed_length by (auto; lia). intros j Hj.
        rewrite nth_mixed by (auto; lia). destruct (Nat.ltb_spec j k) as [Hjk|Hjk]; auto. apply Hlt, Hjk. }
      assert (Hmm : forall m, (S k <= m < N)%nat -> mixed m (n_A s') (replace k B (n_A s)) = mixed m (n_A s') (n_A s)).
      { intros m Hm. apply (list_nth_ext _ _ (mkT [] [])); [rewrite !mixed_length; rewrite ?replace_length; auto; lia|].
        rewrite mixed_length by (rewrite ?replace_length; auto; lia). rewrite replace_length. intros j Hj.
        rewrite !nth_mixed by (rewrite ?replace_length; auto; lia). destruct (Nat.ltb_spec j m) as [Hjm|Hjm]; auto. apply nth_replace_ne. lia. }
      split; [unfold ncp_wf; auto|]. split; [exact H1|]. split; [exact H2|]. split; [exact Hlt|].
      intros m Hm. destruct (Nat.eq_dec m k) as [->|Hmne].
      + rewrite Hmk. cbv zeta. split; [exact HLk|]. rewrite HLk. exact Hk.
      + pose proof (H4 m ltac:(lia)) as K. rewrite Hmm in K by lia. exact K.
  Qed.

  (** one mode is a projected gradient step *)
  Lemma ncp_new_step A Am L n : spectral svals -> (0 < r)%nat -> cp_factors X r A -> (n < N)%nat -> is_mat Am (I n) r -> L = ncp_L A n ->
    let f B := / 2 * cp_error X r A n B in
    spectral_norm (gram_but r A n) L /\ projected_step f L Am (ncp_new A Am L n) /\ (L <> 0 -> descends f L Am (ncp_new A Am L n)).
  Proof.
    intros HS Hr HA Hn HAm EL f. destruct (mats_nth X mats Hmats n Hn) as (Xm & _ & EX).
    destruct (kr_ok X r A n HA Hord Hn) as (H & EH & HmH & Hkh & Hbut).
    assert (HSN : spectral_norm (gram_but r A n) L).
    { subst L. apply HS; [apply is_mat_mgen|]. unfold gram_but. cbn. repeat constructor; lia. }
    assert (HQ : forall x : nat -> R, sumn r (fun p => x p * sumn r (fun q => mget (gram_but r A n) p q * x q)) <= L * sumn r (fun p => (x p)²)).
    { intros x. destruct HSN as (H1 & H2 & _). pose proof (norm_bound_quad (gram_but r A n) L x H1 eq_refl H2) as Q.
      change (nrows (gram_but r A n)) with r in Q. change (ncols (gram_but r A n)) with r in Q. rewrite <- !(sumn_bigsum RLR) in Q.
      eapply Rle_trans; [|exact Q]. right. apply sumnR_ext. intros p _. f_equal. apply (sumn_bigsum RLR). }
    assert (Hf : forall B, is_mat B (I n) r -> f B = / 2 * fro (I n) (rest n (shp X)) (fun i j => mget Xm i j - mm r (mget B) (tr (mget H)) i j)).
    { intros B HB. unfold f, cp_error. rewrite (error_unfold X r A n HA Hne Hord Hn Xm H B (ones r) EX EH HB). f_equal. apply fro_ext.
      intros i j _ _. f_equal. apply mm_ext; [|reflexivity]. intros q Hq. unfold ones. rewrite mget_mgen by (auto; lia). lra. }
    pose proof (gram_kr X r A n HA Hord Hn H Hkh HmH) as HV.
    pose proof (mttkrp_kr X r A n Hne Hord Hn Xm H EX Hbut) as HW.
    assert (Hnew : forall i q, (i < I n)%nat -> (q < r)%nat -> mget (ncp_new A Am L n) i q =
       Rmax 0 (mget Am i q - (sumn r (fun p => mget Am i p * mget (gram_but r A n) p q) - mget (mttkrp X r A n) i q) / L)).
    { intros i q Hi Hq. unfold ncp_new. rewrite mget_mgen by auto. reflexivity. }
    split; [exact HSN|]. split.
    - exact (mat_projected (I n) (rest n (shp X)) r (mget Xm) (mget H) _ _ L f Am _ HV HW HAm Hf (ncp_new_mat A Am L n) Hnew).
    - intros HL. apply (mat_descends (I n) (rest n (shp X)) r (mget Xm) (mget H) _ _ L f Am _ HV HW HQ HAm Hf (ncp_new_mat A Am L n) Hnew).
      destruct HSN as (H1 & _). lra.
  Qed.
End Ncp.
