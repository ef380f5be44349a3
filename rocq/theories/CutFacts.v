(** CP_ALS with a pseudo-inverse that drops small singular values (C106). *)

From Coq Require Import ZArith List Bool Arith Lia Permutation Reals Lra Psatz.
From Verif Require Import Num Py Tensor TF TensorFacts TFFacts Sums Ops OpsLemmas Types Loss Fact Train Spec SpecR LayoutFacts SpecFacts MulFacts TtmFacts SkipFacts TtmLemmas Matricize
  KronFacts RSums MatR KronAlg NormFacts SpecTucker MultiR SvdFacts TuckerFacts TuckerRun SpecCp SpecBcu BcuFacts SpecTrain TrainLemmas LossFacts CpFacts AlsFacts AlsLemmas SpecCut.
Import ListNotations.
Local Open Scope R_scope.

(** ** least squares without the dropped part *)
Lemma fro_cauchy m n A B : (dot2 m n A B)² <= fro m n A * fro m n B.
Proof.
  (* (dot A B)^2 <= fro A fro B from the discriminant *)
  pose proof (fro_nonneg m n A) as HA. pose proof (fro_nonneg m n B) as HB.
  assert (K : forall t, 0 <= fro m n A - 2 * (t * dot2 m n A B) + t * t * fro m n B).
  { intros t. pose proof (fro_nonneg m n (fun i j => A i j - t * B i j)) as K. rewrite fro_sub in K.
    unfold fro in K at 2. rewrite (dot2_sym m n A (fun i j => t * B i j)), !dot2_scale_l, (dot2_sym m n B (fun i j => t * B i j)), dot2_scale_l, (dot2_sym m n B A) in K. fold (fro m n B) in K. lra. }
  unfold Rsqr. destruct (Req_dec (fro m n B) 0) as [Z|Z].
  - pose proof (fro_zero m n B Z) as E. rewrite (dot2_ext m n A A B (fun _ _ => 0)); [|intros i j _ _; reflexivity|exact E]. rewrite dot2_sym, dot2_zero_l. nra.
  - specialize (K (dot2 m n A B / fro m n B)). set (d := dot2 m n A B) in *. set (b := fro m n B) in *.
    replace (fro m n A - 2 * (d / b * d) + d / b * (d / b) * b) with (fro m n A - d * d / b) in K by (field; exact Z).
    assert (0 < b) by lra. assert (E : (fro m n A - d * d / b) * b = fro m n A * b - d * d) by (field; exact Z). nra.
Qed.
Lemma fro_triangle m n A B : sqrt (fro m n (fun i j => A i j + B i j)) <= sqrt (fro m n A) + sqrt (fro m n B).
Proof.
  pose proof (fro_nonneg m n A) as HA. pose proof (fro_nonneg m n B) as HB. pose proof (sqrt_pos (fro m n A)). pose proof (sqrt_pos (fro m n B)).
  pose proof (sqrt_sqrt _ HA). pose proof (sqrt_sqrt _ HB).
  apply Rsqr_incr_0_var; [|lra]. rewrite Rsqr_sqrt by apply fro_nonneg. 
  assert (E : fro m n (fun i j => A i j + B i j) = fro m n A + 2 * dot2 m n A B + fro m n B).
  { unfold fro. rewrite dot2_add_l. rewrite (dot2_sym m n A (fun i j => A i j + B i j)), (dot2_sym m n B (fun i j => A i j + B i j)), !dot2_add_l. rewrite (dot2_sym m n B A). lra. }
  rewrite E. unfold Rsqr. pose proof (fro_cauchy m n A B) as C. unfold Rsqr in C.
  assert (D : dot2 m n A B <= sqrt (fro m n A) * sqrt (fro m n B)).
  { rewrite <- sqrt_mult by auto. destruct (Rle_dec 0 (dot2 m n A B)) as [L|L]; [|pose proof (sqrt_pos (fro m n A * fro m n B)); lra].
    rewrite <- (sqrt_square _ L). apply sqrt_le_1; [nra|nra|exact C]. }
  nra.
Qed.

Section Cut.
  Variables (I J r : nat) (Y H V V1 V2 P : mf) (t : R).
  Hypothesis HV : meq r r V (mm J (tr H) H).
  Hypothesis HS : meq r r V (fun i j => V1 i j + V2 i j).
  Hypothesis S1 : meq r r V1 (tr V1).
  Hypothesis S2 : meq r r V2 (tr V2).
  Hypothesis H12 : meq r r (mm r V1 V2) (fun _ _ => 0).
  Hypothesis P1 : meq r r (mm r (mm r V1 P) V1) V1.
  Hypothesis P2 : meq r r (mm r (mm r P V1) P) P.
  Hypothesis P3 : meq r r (mm r V1 P) (tr (mm r V1 P)).
  Hypothesis P4 : meq r r (mm r P V1) (tr (mm r P V1)).
  Hypothesis HT : forall x : nat -> R, sumn r (fun i => sumn r (fun j => x i * V2 i j * x j)) <= t * sumn r (fun i => x i * x i).
  Let B := mm r (mm J Y H) P.
  Let Q := mm r V1 P.

  Lemma meq_mm a A A' C C' : meq a r A A' -> meq r r C C' -> meq a r (mm r A C) (mm r A' C').
  Proof. intros K1 K2 i j Hi Hj. apply mm_ext; intros l Hl; [apply K1|apply K2]; auto. Qed.
  Lemma meq_tr a b A C : meq a b A C -> meq b a (tr A) (tr C).
  Proof. intros K i j Hi Hj. apply K; auto. Qed.
  Lemma meq_trans' a b A C D : meq a b A C -> meq a b C D -> meq a b A D.
  Proof. intros K1 K2 i j Hi Hj. rewrite (K1 i j Hi Hj). apply K2; auto. Qed.
  Lemma meq_sym' a b A C : meq a b A C -> meq a b C A.
  Proof. intros K i j Hi Hj. symmetry. apply K; auto. Qed.
  Lemma meq_refl' a b A : meq a b A A. Proof. intros i j _ _. reflexivity. Qed.

  Lemma V1Q : meq r r (mm r V1 Q) V1.
  Proof.
    (* transpose of Q V1 = V1 *)
    intros i j Hi Hj. transitivity (mm r (tr V1) (tr Q) i j).
    { apply mm_ext; intros l Hl; [apply S1; auto|apply P3; auto]. }
    rewrite <- tr_mm. unfold tr at 1. unfold Q. rewrite (P1 j i Hj Hi). symmetry. apply S1; auto.
  Qed.
  Lemma RV1 : meq r r (mm r (mm r P V1) V1) V1.
  Proof.
    intros i j Hi Hj. transitivity (mm r (tr (mm r P V1)) (tr V1) i j).
    { apply mm_ext; intros l Hl; [apply P4; auto|apply S1; auto]. }
    rewrite <- tr_mm. unfold tr at 1. rewrite <- mm_assoc, (P1 j i Hj Hi). symmetry. apply S1; auto.
  Qed.
  Lemma RQ : meq r r (mm r P V1) Q.
  Proof.
    intros i j Hi Hj. transitivity (mm r (mm r P V1) Q i j).
    - rewrite mm_assoc. apply mm_ext; [reflexivity|]. intros l Hl. symmetry. apply V1Q; auto.
    - unfold Q at 1. rewrite <- mm_assoc. apply mm_ext; [|reflexivity]. intros l Hl. apply RV1; auto.
  Qed.
  Lemma V2Q : meq r r (mm r V2 Q) (fun _ _ => 0).
  Proof.
    intros i j Hi Hj. unfold Q. rewrite <- mm_assoc. rewrite (mm_ext r _ (fun _ _ => 0) P P); [unfold mm; apply sumnR_zero; intros; lra| |reflexivity].
    intros l Hl. transitivity (mm r (tr V2) (tr V1) i l); [apply mm_ext; intros k Hk; [apply S2; auto|apply S1; auto]|]. rewrite <- tr_mm. apply (H12 l i Hl Hi).
  Qed.
  Lemma QV2 : meq r r (mm r Q V2) (fun _ _ => 0).
  Proof.
    intros i j Hi Hj. transitivity (mm r (tr Q) (tr V2) i j); [apply mm_ext; intros l Hl; [apply P3; auto|apply S2; auto]|]. rewrite <- tr_mm. apply (V2Q j i Hj Hi).
  Qed.
  Lemma VQ : meq r r (mm r V Q) V1.
  Proof.
    intros i j Hi Hj. rewrite (mm_ext r V (fun a b => V1 a b - (fun a b => - V2 a b) a b) Q Q); [|intros l Hl; rewrite HS by auto; lra|reflexivity].
    rewrite mm_sub_l, (V1Q i j Hi Hj). replace (mm r (fun a b => - V2 a b) Q i j) with (- mm r V2 Q i j); [rewrite (V2Q i j Hi Hj); lra|].
    unfold mm. rewrite <- (Rmult_1_l (sumn r (fun l => V2 i l * Q l j))), Ropp_mult_distr_l, <- sumnR_scale. apply sumnR_ext. intros. lra.
  Qed.
  Lemma PQ : meq r r (mm r P Q) P.
  Proof. intros i j Hi Hj. unfold Q. rewrite <- mm_assoc. apply P2; auto. Qed.
  Lemma BQ : meq I r (mm r B Q) B.
  Proof. intros i j Hi Hj. unfold B. rewrite mm_assoc. apply mm_ext; [reflexivity|]. intros l Hl. apply PQ; auto. Qed.
  (** the residual is orthogonal to the directions that are kept *)
  Lemma cut_normal : meq I r (mm r (mm J (fun i j => Y i j - mm r B (tr H) i j) H) Q) (fun _ _ => 0).
  Proof.
    intros i q Hi Hq. rewrite (mm_ext r _ (fun i q => mm J Y H i q - mm r B V i q) Q Q); [| |reflexivity].
    2: { intros l Hl. rewrite mm_sub_l, mm_assoc. f_equal. apply mm_ext; [reflexivity|]. intros k Hk. symmetry. apply HV; auto. }
    rewrite mm_sub_l, (mm_assoc r r B V Q). rewrite (mm_ext r B B (mm r V Q) V1) by (intros; first [reflexivity|apply VQ; auto]).
    unfold B. rewrite (mm_assoc r r (mm J Y H) P V1). rewrite (mm_ext r (mm J Y H) (mm J Y H) (mm r P V1) Q) by (intros; first [reflexivity|apply RQ; auto]). lra.
  Qed.
  Lemma cut_opt C : fro I J (fun i j => Y i j - mm r B (tr H) i j) <= fro I J (fun i j => Y i j - mm r (mm r C Q) (tr H) i j).
  Proof.
    set (E := fun i j => Y i j - mm r B (tr H) i j). set (D := fun a b => C a b - B a b).
    rewrite (fro_ext I J (fun i j => Y i j - mm r (mm r C Q) (tr H) i j) (fun i j => E i j - mm r (mm r D Q) (tr H) i j)).
    2: { intros i j Hi Hj. unfold E. rewrite (mm_ext r (mm r D Q) (fun a b => mm r C Q a b - B a b) (tr H) (tr H)); [rewrite mm_sub_l; lra| |reflexivity].
         intros l Hl. unfold D. rewrite mm_sub_l, (BQ i l Hi Hl). reflexivity. }
    rewrite fro_sub, (dot2_sym I J E), dot2_adj_r, dot2_adj_r.
    rewrite (dot2_ext I r D D _ (fun _ _ => 0)); [rewrite dot2_sym, dot2_zero_l; pose proof (fro_nonneg I J (mm r (mm r D Q) (tr H))); lra|apply meq_refl'|].
    intros i j Hi Hj. rewrite <- (cut_normal i j Hi Hj). apply mm_ext; [reflexivity|]. intros l Hl. symmetry. apply P3; auto.
  Qed.
  Lemma cut_rest C : fro I J (mm r (fun i q => C i q - mm r C Q i q) (tr H)) <= t * fro I r C.
  Proof.
    set (Z := fun i q => C i q - mm r C Q i q). unfold fro at 1. rewrite dot2_adj_r.
    rewrite (dot2_ext I r Z Z _ (mm r C V2)); [|apply meq_refl'|].
    2: { intros i j Hi Hj. rewrite mm_assoc. rewrite (mm_ext r Z Z _ V) by (intros; first [reflexivity|symmetry; apply HV; auto]).
         unfold Z. rewrite mm_sub_l, mm_assoc. assert (QV : meq r r (mm r Q V) V1).
         { intros a b Ha Hb. transitivity (mm r (tr Q) (tr V) a b).
           - apply mm_ext; intros l Hl; [apply P3; auto|]. unfold tr. rewrite !HS by auto. f_equal; [apply S1|apply S2]; auto.
           - rewrite <- tr_mm. unfold tr at 1. rewrite (VQ b a Hb Ha). symmetry. apply S1; auto. }
         rewrite (mm_ext r C C (mm r Q V) V1) by (intros; first [reflexivity|apply QV; auto]). rewrite <- mm_sub_r.
         apply mm_ext; [reflexivity|]. intros l Hl. rewrite HS by auto. lra. }
    unfold Z. rewrite dot2_sub_l, dot2_adj_r. rewrite (dot2_ext I r C C (mm r (mm r C V2) (tr Q)) (fun _ _ => 0)); [|apply meq_refl'|].
    2: { intros i j Hi Hj. rewrite (mm_ext r _ (mm r C V2) _ Q) by (intros; first [reflexivity|symmetry; apply P3; auto]). rewrite mm_assoc.
         rewrite (mm_ext r C C (mm r V2 Q) (fun _ _ => 0)) by (intros; first [reflexivity|apply V2Q; auto]). unfold mm. apply sumnR_zero. intros. lra. }
    rewrite (dot2_sym I r C (fun _ _ => 0)), dot2_zero_l, Rminus_0_r. unfold fro, dot2. rewrite <- sumnR_scale. apply sumnR_le. intros i Hi.
    specialize (HT (C i)). eapply Rle_trans; [|exact HT]. right. rewrite sumnR_ex. apply sumnR_ext. intros j Hj. unfold mm. rewrite <- sumnR_scale. apply sumnR_ext. intros l Hl.
    rewrite (S2 j l Hj Hl) || idtac. unfold tr. lra.
  Qed.
  Lemma cut_bound C : sqrt (fro I J (fun i j => Y i j - mm r B (tr H) i j)) <= sqrt (fro I J (fun i j => Y i j - mm r C (tr H) i j)) + sqrt (t * fro I r C).
  Proof.
    eapply Rle_trans; [apply sqrt_le_1; [apply fro_nonneg|apply fro_nonneg|apply (cut_opt C)]|].
    rewrite (fro_ext I J (fun i j => Y i j - mm r (mm r C Q) (tr H) i j) (fun i j => (Y i j - mm r C (tr H) i j) + mm r (fun i q => C i q - mm r C Q i q) (tr H) i j)).
    2: { intros i j _ _. rewrite mm_sub_l. lra. }
    eapply Rle_trans; [apply (fro_triangle I J (fun i j => Y i j - mm r C (tr H) i j) (mm r (fun i q => C i q - mm r C Q i q) (tr H)))|]. apply Rplus_le_compat_l. apply sqrt_le_1_alt. apply cut_rest.
  Qed.
End Cut.
(** ** the steps *)
Section Step.
  Variables (pinv : tensor R -> tensor R) (tau : tensor R -> R) (X : tensor R) (r : nat) (mats : list (tensor R)).
  Hypothesis HP : cutoff tau pinv.
  Hypothesis Hne : nonempty (shp X).
  Hypothesis Hord : (2 <= ndims X <= 26)%nat.
  Hypothesis Hmats : unfold_all X = Ok mats.
  Let N := ndims X.
  Let sol A n := als_solution pinv X r A n.
  Let I n := nth n (shp X) 0%nat.

  Lemma gram_sym A n : symmetric (gram_but r A n).
  Proof.
    assert (Hm : is_mat (gram_but r A n) r r) by apply is_mat_mgen. destruct (matrix_is_mat _ _ _ Hm) as (H1 & H2 & H3).
    split; [exact H1|]. split; [congruence|]. rewrite H2. intros i j Hi Hj. unfold gram_but. rewrite !mget_mgen by auto. f_equal. apply map_ext. intros k. apply bigsum_ext. intros l _. Rn. lra.
  Qed.
  Lemma gram_cut A n : 0 <= tau (gram_but r A n) /\ cut_pinv (tau (gram_but r A n)) (gram_but r A n) (pinv (gram_but r A n)).
  Proof. apply HP, gram_sym. Qed.
  Lemma Hsq A n : is_mat (pinv (gram_but r A n)) r r.
  Proof.
    destruct (gram_cut A n) as (_ & M1 & M2 & G). cbv zeta in G. destruct G as (K1 & _ & _ & _ & _ & _ & K & _).
    assert (Hm : is_mat (gram_but r A n) r r) by apply is_mat_mgen. destruct (matrix_is_mat _ _ _ Hm) as (_ & H2 & _). rewrite H2 in K1. destruct (matrix_is_mat _ _ _ K1) as (_ & E1 & E2). rewrite E1, E2 in K. exact K.
  Qed.
  Lemma cut_sol A n : cp_factors X r A -> (n < N)%nat -> forall C lam, is_mat C (I n) r ->
    sqrt (cp_error X r A n (sol A n)) <= sqrt (sqdist X (cp_tensor r lam (replace n C A))) + sqrt (tau (gram_but r A n) * fro (I n) r (fun i q => mget C i q * mget lam q 0)).
  Proof.
    intros HA Hn C lam HC. destruct (mats_nth X mats Hmats n Hn) as (Xm & _ & EX).
    destruct (kr_ok X r A n HA Hord Hn) as (H & EH & HmH & Hkh & Hbut).
    unfold cp_error. rewrite (error_unfold X r A n HA Hne Hord Hn Xm H (sol A n) (ones r) EX EH (sol_mat pinv X r A n)).
    rewrite (error_unfold X r A n HA Hne Hord Hn Xm H C lam EX EH HC).
    destruct (gram_cut A n) as (_ & M1 & M2 & G). cbv zeta in G.
    assert (Hm : is_mat (gram_but r A n) r r) by apply is_mat_mgen. destruct (matrix_is_mat _ _ _ Hm) as (_ & H2 & _). rewrite H2 in G.
    destruct G as (K1 & K2 & KS & Ksym & K12 & KT & KP). destruct (matrix_is_mat _ _ _ K1) as (_ & E1 & E2). unfold is_pinv in KP. rewrite E1, E2 in KP. cbv zeta in KP. destruct KP as (_ & Q1 & Q2 & Q3 & Q4).
    set (P := pinv (gram_but r A n)) in *.
    pose proof (cut_bound (I n) (rest n (shp X)) r (mget Xm) (mget H) (mget (gram_but r A n)) (mget M1) (mget M2) (mget P) (tau (gram_but r A n))
      (gram_kr X r A n HA Hord Hn H Hkh HmH)) as L.
    specialize (L KS (fun i j Hi Hj => proj1 (Ksym i j Hi Hj)) (fun i j Hi Hj => proj2 (Ksym i j Hi Hj))).
    assert (MB : forall F G i j, mm r F G i j = bigsum r (fun k => F i k * G k j)) by (intros; unfold mm; apply (sumn_bigsum RLR)).
    specialize (L ltac:(intros i j Hi Hj; rewrite MB; apply K12; auto)).
    specialize (L ltac:(intros i j Hi Hj; rewrite MB, <- (Q1 i j Hi Hj); apply bigsum_ext; intros k Hk; rewrite MB; reflexivity)).
    specialize (L ltac:(intros i j Hi Hj; rewrite MB, <- (Q2 i j Hi Hj); apply bigsum_ext; intros k Hk; rewrite MB; reflexivity)).
    specialize (L ltac:(intros i j Hi Hj; unfold tr; rewrite !MB; apply Q3; auto)).
    specialize (L ltac:(intros i j Hi Hj; unfold tr; rewrite !MB; apply Q4; auto)).
    specialize (L ltac:(intros x; specialize (KT x); rewrite !(sumn_bigsum RLR); erewrite bigsum_ext; [exact KT|]; intros i Hi; apply (sumn_bigsum RLR))).
    specialize (L (fun i q => mget C i q * mget lam q 0)).
    eapply Rle_trans; [|exact L]. right. f_equal. apply fro_ext. intros i j Hi Hj. f_equal. apply mm_ext; [|reflexivity].
    intros q Hq. unfold ones. rewrite mget_mgen by (auto; lia). rewrite Rmult_1_r. unfold sol, als_solution. rewrite mget_mgen by auto.
    rewrite <- (sumn_bigsum RLR). apply sumn_ext. intros p Hp. Rn. f_equal.
    apply (mttkrp_kr X r A n Hne Hord Hn Xm H EX Hbut); auto.
  Qed.
  Lemma cut_mode_run A n : cp_factors X r A -> (n < N)%nat ->
    cp_mode pinv mats r n A = Ok (replace n (normed r (sol A n)) A, lams r (sol A n)).
  Proof.
    intros HA Hn. unfold cp_mode. destruct (grams_ok X r A n HA Hord Hn) as (G & EG & EV). rewrite EG. cbn [bind].
    destruct (kr_ok X r A n HA Hord Hn) as (H & EH & HmH & Hkh & Hbut). rewrite EH. cbn [bind].
    destruct (mats_nth X mats Hmats n Hn) as (Xm & EXm & EX). rewrite EXm. cbn [bind].
    assert (H0 : nth n (shp X) 0%nat <> 0%nat) by (apply nonempty_nth; auto).
    pose proof (proj2 (unfold_mat X Xm n Hn H0 EX)) as HXm.
    rewrite (matmul_ok false false Xm H (I n) (rest n (shp X)) r) by (try apply HXm; apply HmH). cbn [bind].
    rewrite EV. cbn [bind]. pose proof (Hsq A n) as HPm.
    rewrite (matmul_ok false false _ (pinv (gram_but r A n)) (I n) r r) by (try apply HPm; reflexivity). cbn [bind].
    set (nn := mgen (I n) r _).
    assert (Enn : nn = sol A n).
    { unfold nn, sol, als_solution. unfold mgen at 1 3. apply gen_ext. intros idx Hidx. apply valid2_inv in Hidx as (i & q & -> & Hi & Hq).
      cbn [nth]. rewrite <- (sumn_bigsum RLR). apply sumn_ext. intros p Hp. Rn. f_equal. rewrite mget_mgen by auto.
      symmetry. apply (mttkrp_kr X r A n Hne Hord Hn Xm H EX Hbut); auto. }
    rewrite Enn. clear nn Enn.
    assert (Ed : dim Xm 0 = Ok (I n)).
    { unfold dim. destruct HXm as [_ ->]. reflexivity. }
    rewrite Ed. cbn [bind].
    pose proof (reshape_ok (sol A n) [I n; r]) as E. cbn [map] in E. rewrite E by reflexivity. cbn [bind]. clear E.
    assert (Es : mkT [I n; r] (dat (sol A n)) = sol A n) by reflexivity. rewrite Es.
    assert (El : col_max (sol A n) = lams r (sol A n)) by reflexivity. rewrite El.
    unfold lams at 1. rewrite (div_cols (sol A n) (I n) r) by apply (sol_mat pinv X r). cbn [bind]. rewrite upd_replace. reflexivity.
  Qed.

  (** what the sweep over the modes k..N-1 leaves *)
  Lemma cut_sweep n : forall k A lam A' lam', (k + n)%nat = N -> cp_factors X r A ->
    cp_modes pinv mats r (seq k n) A lam = Ok (A', lam') ->
    cp_factors X r A' /\ (forall j, (j < k)%nat -> mat_at A' j = mat_at A j) /\
    (forall m, (k <= m < N)%nat -> mat_at A' m = normed r (sol (mixed m A' A) m) /\
       (m = (N - 1)%nat -> lam' = lams r (sol (mixed m A' A) m))) /\
    (n = 0%nat -> lam' = lam).
  Proof.
    induction n as [|n IH]; intros k A lam A' lam' HN HA E; cbn [seq cp_modes] in E.
    - injection E as <- <-. split; [auto|]. split; [auto|]. split; [intros m Hm; lia|auto].
    - rewrite cut_mode_run in E by (auto; lia). cbn [bind fst snd] in E. set (B := sol A k) in *.
      assert (HA1 : cp_factors X r (replace k (normed r B) A)) by (apply (replace_factors X r); [auto|apply (normed_mat pinv X r)]).
      destruct (IH (S k) _ _ _ _ ltac:(lia) HA1 E) as (H1 & H2 & H3 & H4).
      assert (HL : length A' = length A) by (rewrite (proj1 H1), (proj1 HA); reflexivity).
      assert (HLA : length A = N) by apply HA.
      assert (Hk : mat_at A' k = normed r B).
      { rewrite (H2 k) by lia. unfold mat_at. rewrite nth_replace, Nat.eqb_refl by lia. reflexivity. }
      assert (Hlt : forall j, (j < k)%nat -> mat_at A' j = mat_at A j).
      { intros j Hj. rewrite (H2 j) by lia. unfold mat_at. rewrite nth_replace_ne by lia. reflexivity. }
      assert (Hmk : mixed k A' A = A).
      { apply (list_nth_ext _ _ (mkT [] [])); [rewrite mixed_length; auto; lia|]. rewrite mixed_length by (auto; lia). intros j Hj.
        rewrite nth_mixed by (auto; lia). destruct (Nat.ltb_spec j k) as [Hjk|Hjk]; auto. apply Hlt, Hjk. }
      assert (Hmm : forall m, (S k <= m < N)%nat -> mixed m A' (replace k (normed r B) A) = mixed m A' A).
      { intros m Hm. apply (list_nth_ext _ _ (mkT [] [])); [rewrite !mixed_length; rewrite ?replace_length; auto; lia|].
        rewrite mixed_length by (rewrite ?replace_length; auto; lia). intros j Hj.
        rewrite !nth_mixed by (rewrite ?replace_length; auto; lia). destruct (Nat.ltb_spec j m) as [Hjm|Hjm]; auto.
        rewrite nth_replace_ne by lia. reflexivity. }
      split; [exact H1|]. split; [exact Hlt|]. split; [|discriminate].
      intros m Hm. destruct (Nat.eq_dec m k) as [->|Hmne].
      + rewrite Hmk. fold B. split; [exact Hk|]. intros HkN. apply H4. lia.
      + destruct (H3 m ltac:(lia)) as [G1 G2]. rewrite Hmm in G1, G2 by lia. auto.
  Qed.


  Section Sweep.
    Variables (A A' : list (tensor R)) (lam mu : tensor R).
    Hypothesis HA : cp_factors X r A.
    Hypothesis Hrun : cp_modes pinv mats r (seq 0 N) A (mkT [] []) = Ok (A', lam).
    Let B m := sol (mixed m A' A) m.
    Hypothesis Hnz : forall m q, (m < N)%nat -> (q < r)%nat -> cmax (B m) q <> 0.
    (** the weights before mode m *)
    Definition wts m q : R := match m with O => mget mu q 0 | S k => cmax (B k) q end.
    Definition loss_of m : R := sqrt (tau (gram_but r (mixed m A' A) m)) * wlen (mat_at A m) (wts m).

    Lemma cut_descend m nu : (m < N)%nat -> (forall q, (q < r)%nat -> mget nu q 0 = wts m q) ->
      sqrt (sqdist X (cp_tensor r (column r (cmax (B m))) (mixed (S m) A' A))) <= sqrt (sqdist X (cp_tensor r nu (mixed m A' A))) + loss_of m.
    Proof.
      intros Hm Hnu. destruct (cut_sweep N 0 A _ _ _ eq_refl HA Hrun) as (HA' & _ & HS & _).
      pose proof (proj1 HA) as L. pose proof (proj1 HA') as L'. fold N in L, L'.
      pose proof (mixed_factors X r A' A m HA' HA ltac:(unfold N in *; lia)) as HM.
      rewrite mixed_S by lia. rewrite (proj1 (HS m ltac:(lia))). fold (B m).
      rewrite (rescale X r (mixed m A' A) m (B m) (cmax (B m)) (normed r (B m)) HM Hm (sol_mat pinv X r _ _) (normed_mat pinv X r _ _)).
      2: { intros i q Hi Hq. exact (normed_rescale r (B m) (sol_mat pinv X r _ _) (fun q Hq => Hnz m q Hm Hq) i q Hi Hq). }
      fold (cp_error X r (mixed m A' A) m (B m)).
      rewrite <- (replace_self (mixed m A' A) m (mkT [] [])) at 2.
      assert (Em : nth m (mixed m A' A) (mkT [] []) = mat_at A m) by (rewrite nth_mixed by lia; rewrite Nat.ltb_irrefl; reflexivity). rewrite Em.
      assert (HC : is_mat (mat_at A m) (I m) r) by (apply HA; exact Hm).
      eapply Rle_trans; [apply (cut_sol (mixed m A' A) m HM Hm (mat_at A m) nu HC)|]. right. f_equal. unfold loss_of, wlen.
      destruct (matrix_is_mat _ _ _ HC) as (_ & E1 & E2). rewrite E1, E2.
      rewrite sqrt_mult by (try apply fro_nonneg; apply gram_cut). f_equal. f_equal. unfold fro, dot2. rewrite (sumn_bigsum RLR). apply bigsum_ext. intros i Hi.
      rewrite (sumn_bigsum RLR). apply bigsum_ext. intros q Hq. rewrite (Hnu q Hq). reflexivity.
    Qed.
    Lemma cut_descends : sqrt (sqdist X (cp_tensor r (column r (cmax (B (N - 1)))) A')) <= sqrt (sqdist X (cp_tensor r mu A)) + bigsum N loss_of.
    Proof.
      destruct (cut_sweep N 0 A _ _ _ eq_refl HA Hrun) as (HA' & _ & HS & _).
      pose proof (proj1 HA) as L. pose proof (proj1 HA') as L'. fold N in L, L'.
      assert (G : forall m, (m < N)%nat -> sqrt (sqdist X (cp_tensor r (column r (cmax (B m))) (mixed (S m) A' A))) <= sqrt (sqdist X (cp_tensor r mu A)) + sumn (S m) loss_of).
      { induction m as [|m IH]; intros Hm.
        - pose proof (cut_descend 0 mu Hm (fun q _ => eq_refl)) as K. rewrite (sumn_S RLR), sumn_0. Rn. change (mixed 0 A' A) with A in K. lra.
        - pose proof (cut_descend (S m) (column r (cmax (B m))) Hm (fun q Hq => column_get r _ q Hq)) as K. rewrite (sumn_S RLR). Rn. specialize (IH ltac:(lia)). lra. }
      specialize (G (N - 1)%nat ltac:(unfold N in *; lia)). replace (S (N - 1)) with (length A) in G by (unfold N in *; lia).
      rewrite mixed_all in G by lia. rewrite <- (sumn_bigsum RLR). rewrite L in G. exact G.
    Qed.
  End Sweep.
End Step.

Lemma cut_step_facts pinv tau (X : tensor R) r A o : cutoff tau pinv -> cp_factors X r A -> cp_step pinv X r A = Ok o ->
  let sol n := als_solution pinv X r (mixed n (cp_A o) A) n in
  cp_factors X r (cp_A o) /\ (forall n, (n < ndims X)%nat -> mat_at (cp_A o) n = normed r (sol n)) /\
  cp_full o = cp_tensor r (column r (cmax (sol (ndims X - 1)%nat))) (cp_A o).
Proof.
  intros HP HA Hstep sol. destruct (step_parts pinv X r A o HA Hstep) as (Hne & Ho & mats & E1 & E2 & E3 & E4). assert (Ho' : (2 <= ndims X <= 26)%nat) by lia.
  destruct (cut_sweep pinv tau X r mats HP Hne Ho' E1 (ndims X) 0 A _ _ _ eq_refl HA E2) as (HA' & _ & HS & _).
  destruct (HS (ndims X - 1)%nat ltac:(lia)) as [_ HL]. specialize (HL eq_refl). fold (sol (ndims X - 1)%nat) in HL.
  split; [exact HA'|]. split; [intros n Hn; apply HS; lia|].
  rewrite HL in E3. unfold lams in E3. cbn [shp dat app] in E3. fold (column r (cmax (sol (ndims X - 1)%nat))) in E3.
  rewrite (kt_extract_ok RLR _ _ r) in E3; [congruence| | | |].
  - intros E. pose proof (proj1 HA') as L. rewrite E in L. simpl in L. lia.
  - rewrite (proj1 HA'). lia.
  - apply (fac_in X r _ HA').
  - split; [|reflexivity]. unfold wf, column. cbn [shp dat prod]. rewrite map_length, seq_length. lia.
Qed.
Lemma c106_step pinv tau (X : tensor R) r A o mu w : cutoff tau pinv -> cp_factors X r A -> cp_step pinv X r A = Ok o ->
  (forall q, (q < r)%nat -> w 0%nat q = mget mu q 0) ->
  (forall n q, (n < ndims X)%nat -> (q < r)%nat -> column_max (als_solution pinv X r (mixed n (cp_A o) A) n) q (w (S n) q) /\ w (S n) q <> 0) ->
  sqrt (sqdist X (cp_full o)) <= sqrt (sqdist X (cp_tensor r mu A)) +
    bigsum (ndims X) (fun n => sqrt (tau (gram_but r (mixed n (cp_A o) A) n)) * wlen (mat_at A n) (w n)).
Proof.
  intros HP HA Hstep Hw0 Hw. destruct (step_parts pinv X r A o HA Hstep) as (Hne & Ho & mats & E1 & E2 & E3 & E4). assert (Ho' : (2 <= ndims X <= 26)%nat) by lia.
  set (sol := fun n => als_solution pinv X r (mixed n (cp_A o) A) n).
  assert (Hrow : forall n, (n < ndims X)%nat -> nrows (sol n) <> 0%nat) by (intros n Hn; unfold sol, als_solution, nrows; cbn; apply nonempty_nth; auto).
  assert (Hc : forall n q, (n < ndims X)%nat -> (q < r)%nat -> cmax (sol n) q = w (S n) q).
  { intros n q Hn Hq. destruct (Hw n q Hn Hq) as [[(i & Hi & Ei) Hv] _]. destruct (cmax_ok (sol n) q (Hrow n Hn)) as [(j & Hj & Ej) Hv']. apply Rle_antisym; [rewrite <- Ej; apply Hv, Hj|rewrite <- Ei; apply Hv', Hi]. }
  destruct (cut_sweep pinv tau X r mats HP Hne Ho' E1 (ndims X) 0 A _ _ _ eq_refl HA E2) as (HA' & _ & HS & _).
  destruct (HS (ndims X - 1)%nat ltac:(lia)) as [_ HL]. specialize (HL eq_refl). fold (sol (ndims X - 1)%nat) in HL.
  assert (Hf : cp_full o = cp_tensor r (column r (cmax (sol (ndims X - 1)%nat))) (cp_A o)).
  { rewrite HL in E3. unfold lams in E3. cbn [shp dat app] in E3. fold (column r (cmax (sol (ndims X - 1)%nat))) in E3.
    rewrite (kt_extract_ok RLR _ _ r) in E3; [congruence| | | |].
    - intros E. pose proof (proj1 HA') as L. rewrite E in L. simpl in L. lia.
    - rewrite (proj1 HA'). lia.
    - apply (fac_in X r _ HA').
    - split; [|reflexivity]. unfold wf, column. cbn [shp dat prod]. rewrite map_length, seq_length. lia. }
  rewrite Hf.
  eapply Rle_trans; [apply (cut_descends pinv tau X r mats HP Hne Ho' E1 A (cp_A o) (cp_lam o) mu HA E2); intros m q Hm Hq; fold (sol m); rewrite Hc by auto; apply (Hw m q Hm Hq)|].
  apply Rplus_le_compat_l. right. apply bigsum_ext. intros n Hn. unfold loss_of. f_equal. unfold wlen. f_equal.
  destruct (matrix_is_mat _ _ _ (proj2 HA n Hn)) as (_ & N1 & N2). rewrite N2. apply bigsum_ext. intros i Hi. apply bigsum_ext. intros q Hq. f_equal. f_equal.
  destruct n as [|n]; cbn [wts]; [symmetry; apply Hw0, Hq|]. apply (Hc n q); [lia|exact Hq].
Qed.

(** the exact pseudo-inverse is the threshold zero *)
Lemma c106_exact pinv : penrose pinv -> cutoff (fun _ => 0) pinv.
Proof.
  intros HP M (Hm & Hsq & Hsym). split; [lra|]. exists M, (mgen (nrows M) (nrows M) (fun _ _ => 0)). cbv zeta.
  split; [split; [apply (proj1 Hm)|]|]. { destruct Hm as (_ & HS). unfold nrows, ncols in *. destruct (shp M) as [|a [|b [|]]]; try discriminate HS; try contradiction. cbn in *. congruence. }
  split; [apply is_mat_mgen|]. split; [intros i j Hi Hj; rewrite mget_mgen by auto; lra|]. split; [intros i j Hi Hj; rewrite !mget_mgen by auto; auto|].
  split; [intros i j Hi Hj; rewrite <- (sumn_bigsum RLR); apply sumnR_zero; intros k Hk; rewrite mget_mgen by auto; lra|]. split; [|apply HP, Hm].
  intros x. right. rewrite Rmult_0_l, <- (sumn_bigsum RLR). apply sumnR_zero. intros i Hi. rewrite <- (sumn_bigsum RLR). apply sumnR_zero. intros j Hj. rewrite mget_mgen by auto. lra.
Qed.

Lemma cut_step_total pinv tau (X : tensor R) r A : cutoff tau pinv -> wf X -> nonempty (shp X) -> (2 <= ndims X <= 25)%nat -> cp_factors X r A ->
  exists o, cp_step pinv X r A = Ok o.
Proof.
  intros HP HX Hne Ho HA. unfold cp_step.
  assert (E1 : exists mats, unfold_all X = Ok mats).
  { unfold unfold_all. pose (g := fun z => match unfold X z with Ok v => v | Raise _ => mkT [] [] end). exists (map g (zrange (ndims X))).
    apply mapM_ok. intros z Hz. apply in_zrange in Hz. rewrite <- (Z2Nat.id z) by lia. unfold g.
    destruct (unfold_ok X (Z.to_nat z)) as (M & -> & _); [unfold ndims in *; lia|apply nonempty_nth; auto; unfold ndims in *; lia|reflexivity]. }
  destruct E1 as (mats & E1). rewrite E1. cbn [bind].
  assert (E2 : forall modes A lam, cp_factors X r A -> (forall m, In m modes -> (m < ndims X)%nat) ->
     exists A' lam', cp_modes pinv mats r modes A lam = Ok (A', lam')).
  { induction modes as [|m modes IH]; intros A1 lam HA1 Hm; cbn [cp_modes]; [eauto|].
    rewrite (cut_mode_run pinv tau X r mats HP Hne ltac:(lia) E1 A1 m HA1) by (apply Hm; left; auto). cbn [bind fst snd].
    apply IH; [|intros k Hk; apply Hm; right; auto]. apply replace_factors; auto. apply normed_mat. }
  destruct (E2 (seq 0 (ndims X)) A (mkT [] []) HA) as (A' & lam' & E3); [intros m Hm; apply in_seq in Hm; lia|].
  rewrite E3. cbn [bind].
  destruct (cut_sweep pinv tau X r mats HP Hne ltac:(lia) E1 (ndims X) 0 A _ _ _ eq_refl HA E3) as (HA' & _ & HS & _).
  destruct (HS (ndims X - 1)%nat ltac:(lia)) as [_ HL]. rewrite (HL eq_refl). unfold lams. cbn [shp dat app].
  rewrite (kt_extract_ok RLR A' _ r).
  - cbn [bind]. destruct (metrics_ok X (cp_tensor r (mkT [r; 1%nat] (map (cmax (als_solution pinv X r (mixed (ndims X - 1) A' A) (ndims X - 1))) (seq 0 r))) A')) as (m & Em); [auto| |rewrite Em; cbn [bind]; eauto].
    change (map nrows A' = shp X). pose proof (proj1 HA') as L. apply nth_ext with (d := 0%nat) (d' := 0%nat); rewrite map_length; [exact L|].
    intros k Hk. rewrite (nth_map_lt nrows A' k (mkT [] [])) by auto. apply (fac_mat X r A' HA'). lia.
  - intros E. pose proof (proj1 HA') as L. rewrite E in L. simpl in L. lia.
  - rewrite (proj1 HA'). lia.
  - apply (fac_in X r _ HA').
  - split; [|reflexivity]. unfold wf. cbn [shp dat prod]. rewrite map_length, seq_length. lia.
Qed.

