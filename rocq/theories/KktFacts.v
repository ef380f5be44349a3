(** Fixed points and sufficient decrease of the NCP_BCU and NTUCKER_BCU steps (C88). *)

From Coq Require Import ZArith List Bool Arith Lia Reals Lra Psatz.
From Verif Require Import Num Py Tensor TF TensorFacts TFFacts Sums Ops OpsLemmas Types Loss Fact Train Spec SpecR LayoutFacts SpecFacts MulFacts TtmFacts SkipFacts TtmLemmas Matricize
  KronFacts RSums MatR KronAlg NormFacts SpecTucker MultiR SvdFacts TuckerFacts TuckerRun TuckerLemmas SpecCp SpecBcu BcuFacts SpecTrain TrainLemmas CpFacts AlsFacts AlsLemmas
  SpecProx Prox NcpFacts NcpLemmas NtFacts NtLemmas DataFacts NonZero SpecRetry TrainFacts Retry Exact InitFacts SpecKkt.
Import ListNotations.
Local Open Scope R_scope.

Section Block.
  Variable f : tensor R -> R.
  Variable L : R.
  Hypothesis HL : 0 < L.
  Variables M M' : tensor R.
  Hypothesis W : wf M.
  Hypothesis W' : wf M'.
  Hypothesis Hs : shp M' = shp M.

  Lemma selfdist : sqdist M M = 0. Proof. apply LossFacts.sqdist_zero; auto. Qed.

  Lemma block_decrease : nonneg M -> descends f L M M' -> f M' + L / 2 * sqdist M M' <= f M.
  Proof. intros Hn [D _]. specialize (D M W eq_refl Hn). rewrite selfdist in D. lra. Qed.

  Lemma block_strict : nonneg M -> descends f L M M' -> M' <> M -> f M' < f M.
  Proof.
    intros Hn D Hne. pose proof (block_decrease Hn D) as B. pose proof (MultiR.sqdist_nonneg M M') as P.
    destruct (Req_dec (sqdist M M') 0) as [Z|Z]; [|nra]. exfalso. apply Hne. symmetry. apply MultiR.sqdist_zero; auto.
  Qed.

  Lemma block_fixed_min : nonneg M -> descends f L M M' -> M' = M -> minimises f M.
  Proof. intros Hn [D _] E. split; [exact Hn|]. intros C WC SC NC. specialize (D C WC SC NC). rewrite E in D. lra. Qed.

  Lemma block_min_fixed : nonneg M' -> descends f L M M' -> minimises f M -> M' = M.
  Proof.
    intros Hn' D [Hn Hm]. pose proof (block_decrease Hn D) as B. specialize (Hm M' W' Hs Hn'). pose proof (MultiR.sqdist_nonneg M M') as P.
    symmetry. apply MultiR.sqdist_zero; auto. nra.
  Qed.

  Lemma nonneg_of_get (C : tensor R) : wf C -> (forall idx, valid (shp C) idx -> 0 <= get C idx) -> nonneg C.
  Proof.
    intros WC H x Hx. rewrite (dat_gen_get C WC) in Hx. apply in_map_iff in Hx as (idx & <- & Hi). apply H, in_indices, Hi.
  Qed.

  Lemma proj_nonneg : projected_step f L M M' -> nonneg M'.
  Proof.
    intros (_ & Hs' & H). apply nonneg_of_get; auto. intros idx Hv. rewrite Hs' in Hv. destruct (H idx Hv) as (g & _ & ->). apply Rmax_l.
  Qed.

  (** at a fixed point the first-order conditions hold, and conversely *)
  Lemma proj_kkt : projected_step f L M M' -> M' = M <-> kkt f M.
  Proof.
    intros P. pose proof (proj_nonneg P) as Hn'. destruct P as (_ & _ & P). split.
    - intros E. split; [rewrite <- E; exact Hn'|]. intros idx Hv. destruct (P idx Hv) as (g & Dg & Eg). exists g. split; [exact Dg|]. rewrite E in Eg.
      set (x := get M idx) in *. assert (Hq : g / L * L = g) by (field; lra). set (q := g / L) in *.
      unfold Rmax in Eg. destruct (Rle_dec 0 (x - q)) as [H|H].
      + assert (Z : q = 0) by lra. rewrite <- Hq, Z. split; lra.
      + assert (Z : x = 0) by lra. rewrite <- Hq, Z. split; [apply Rmult_le_pos; lra|lra].
    - intros [Hn K]. apply tensor_ext; auto. intros idx Hv. rewrite Hs in Hv. destruct (P idx Hv) as (g & Dg & ->). destruct (K idx Hv) as (g' & Dg' & K1 & K2).
      assert (g' = g) by (apply (uniqueness_limite (fun t => f (bump M idx t)) 0); assumption). subst g'.
      pose proof (InitFacts.nonneg_get M idx W Hn Hv) as Hx. set (x := get M idx) in *.
      assert (Hq : g / L * L = g) by (field; lra). assert (0 <= g / L) by (apply Rmult_le_pos; [exact K1|left; apply Rinv_0_lt_compat, HL]). set (q := g / L) in *.
      unfold Rmax. destruct (Rle_dec 0 (x - q)) as [H0|H0].
      + assert (Hxq : x * q = 0) by (unfold q, Rdiv; rewrite <- Rmult_assoc, K2; lra). apply Rmult_integral in Hxq as [Z|Z]; lra.
      + assert (0 < q) by lra. assert (Hxq : x * q = 0) by (unfold q, Rdiv; rewrite <- Rmult_assoc, K2; lra). apply Rmult_integral in Hxq as [Z|Z]; lra.
  Qed.
End Block.

Lemma lists_same (A B : list (tensor R)) : length A = length B -> (forall n, (n < length B)%nat -> mat_at A n = mat_at B n) -> A = B.
Proof. intros Hl H. apply (list_nth_ext _ _ (mkT [] [])); auto. intros n Hn. apply H. congruence. Qed.

Lemma mixed_same n (A : list (tensor R)) : mixed n A A = A.
Proof. unfold mixed. apply firstn_skipn. Qed.

Lemma mixed_prefix n (A B : list (tensor R)) : length A = length B -> (n <= length B)%nat -> (forall k, (k < n)%nat -> mat_at A k = mat_at B k) -> mixed n A B = B.
Proof.
  intros Hl. induction n as [|n IH]; intros Hn H; [apply mixed_0|]. apply mixed_extend; auto; try lia. apply IH; auto; lia.
Qed.

Lemma bigsum_S_R n (f : nat -> R) : bigsum (S n) f = bigsum n f + f n.
Proof. reflexivity. Qed.

Lemma bigsum_terms_0 n (f : nat -> R) : (forall k, (k < n)%nat -> 0 <= f k) -> bigsum n f <= 0 -> forall k, (k < n)%nat -> f k = 0.
Proof.
  induction n as [|n IH]; intros Hp Hz k Hk; [lia|]. rewrite bigsum_S_R in Hz.
  assert (P : 0 <= bigsum n f) by (apply bigsum_nonneg; intros; apply Hp; lia). pose proof (Hp n ltac:(lia)).
  destruct (Nat.eq_dec k n) as [->|]; [lra|]. apply IH; auto; [lra|lia].
Qed.

Section Ncp.
  Variable svals : tensor R -> list R.
  Variable X : tensor R.
  Variable r : nat.
  Variables s s2 : ncp_state R.
  Variables (full : tensor R) (m : metrics R).
  Hypothesis HS : spectral svals.
  Hypothesis Hr : (0 < r)%nat.
  Hypothesis HW : ncp_wf X r s.
  Hypothesis E : ncp_step svals X s = Ok (s2, full, m).
  Hypothesis Eam : n_Am s = n_A s.
  Hypothesis HL : forall n, (n < ndims X)%nat -> nth n (n_L s2) 0 <> 0.
  Let A := n_A s.
  Let A' := n_A s2.

  Lemma ncp_block n : (n < ndims X)%nat -> let f B := / 2 * cp_error X r (mixed n A' A) n B in let L := nth n (n_L s2) 0 in
    0 < L /\ wf (mat_at A n) /\ wf (mat_at A' n) /\ shp (mat_at A' n) = shp (mat_at A n) /\
    projected_step f L (mat_at A n) (mat_at A' n) /\ descends f L (mat_at A n) (mat_at A' n).
  Proof.
    intros Hn f L. destruct (c50_step svals X r s s2 full m HS Hr HW E n Hn) as (N & D). specialize (D (HL n Hn)). rewrite Eam in D.
    destruct D as [D1 D2]. pose proof (proj1 N) as P. specialize (HL n Hn).
    split; [unfold L; lra|]. split; [apply (proj1 HW); exact Hn|]. destruct D1 as (W1 & W2 & W3). split; [exact W1|]. split; [exact W2|]. split; [|exact D2]. split; [exact W1|]. split; [exact W2|exact W3].
  Qed.

  Lemma ncp_lengths : length A = ndims X /\ length A' = ndims X.
  Proof. split; [apply (proj1 (proj1 HW))|]. destruct (ncp_parts svals X r s s2 full m HW E) as (_ & _ & W2 & _). apply (proj1 (proj1 W2)). Qed.

  Lemma c88_ncp_kkt : A' = A <-> forall n, (n < ndims X)%nat -> kkt (fun B => / 2 * cp_error X r A n B) (mat_at A n).
  Proof.
    destruct ncp_lengths as [LA LA']. split.
    - intros EA n Hn. destruct (ncp_block n Hn) as (B1 & B2 & B3 & B4 & B5 & _). rewrite EA, mixed_same in B5. rewrite EA in B3, B4.
      apply (proj_kkt _ _ B1 _ _ B2 B3 B4 B5). reflexivity.
    - intros K. assert (G : forall n, (n <= ndims X)%nat -> forall k, (k < n)%nat -> mat_at A' k = mat_at A k).
      { induction n as [|n IH]; intros Hn k Hk; [lia|]. specialize (IH ltac:(lia)). destruct (Nat.eq_dec k n) as [->|]; [|apply IH; lia].
        destruct (ncp_block n ltac:(lia)) as (B1 & B2 & B3 & B4 & B5 & _). rewrite (mixed_prefix n A' A) in B5 by (auto; lia).
        apply (proj_kkt _ _ B1 _ _ B2 B3 B4 B5). apply K. lia. }
      apply lists_same; [congruence|]. intros n Hn. apply (G (ndims X)); lia.
  Qed.

  Hypothesis Hnn : forall M, In M A -> nonneg M.

  Lemma ncp_nonneg n : (n < ndims X)%nat -> nonneg (mat_at A n).
  Proof. intros Hn. apply Hnn, nth_In. rewrite (proj1 ncp_lengths). exact Hn. Qed.

  Lemma c88_ncp_min : A' = A <-> forall n, (n < ndims X)%nat -> minimises (fun B => / 2 * cp_error X r A n B) (mat_at A n).
  Proof.
    destruct ncp_lengths as [LA LA']. split.
    - intros EA n Hn. destruct (ncp_block n Hn) as (B1 & B2 & B3 & B4 & B5 & B6). rewrite EA, mixed_same in B6.
      apply (block_fixed_min _ _ _ _ (ncp_nonneg n Hn) B6). reflexivity.
    - intros K. assert (G : forall n, (n <= ndims X)%nat -> forall k, (k < n)%nat -> mat_at A' k = mat_at A k).
      { induction n as [|n IH]; intros Hn k Hk; [lia|]. specialize (IH ltac:(lia)). destruct (Nat.eq_dec k n) as [->|]; [|apply IH; lia].
        destruct (ncp_block n ltac:(lia)) as (B1 & B2 & B3 & B4 & B5 & B6). pose proof (proj_nonneg _ _ _ _ B3 B5) as Hn'.
        rewrite (mixed_prefix n A' A) in B6 by (auto; lia).
        apply (block_min_fixed _ _ B1 _ _ B2 B3 B4 Hn' B6). apply K. lia. }
      apply lists_same; [congruence|]. intros n Hn. apply (G (ndims X)); lia.
  Qed.

  Lemma c88_ncp_decrease : / 2 * sqdist X full + bigsum (ndims X) (fun n => nth n (n_L s2) 0 / 2 * sqdist (mat_at A n) (mat_at A' n))
    <= / 2 * sqdist X (cp_tensor r (ones r) A).
  Proof.
    destruct ncp_lengths as [LA LA'].
    assert (G : forall n, (n <= ndims X)%nat -> / 2 * sqdist X (cp_tensor r (ones r) (mixed n A' A)) + bigsum n (fun n => nth n (n_L s2) 0 / 2 * sqdist (mat_at A n) (mat_at A' n))
      <= / 2 * sqdist X (cp_tensor r (ones r) A)).
    { induction n as [|n IH]; intros Hn; [rewrite mixed_0; cbn [bigsum]; Rn; lra|]. specialize (IH ltac:(lia)). rewrite bigsum_S_R.
      destruct (ncp_block n ltac:(lia)) as (B1 & B2 & B3 & B4 & B5 & B6). pose proof (block_decrease _ _ _ _ B2 (ncp_nonneg n ltac:(lia)) B6) as D. cbv beta in D.
      unfold cp_error in D. rewrite <- mixed_S in D by (auto; lia).
      replace (replace n (mat_at A n) (mixed n A' A)) with (mixed n A' A) in D; [lra|].
      rewrite <- (replace_self (mixed n A' A) n (mkT [] [])) at 1. f_equal. rewrite nth_mixed by (auto; lia). rewrite Nat.ltb_irrefl. reflexivity. }
    specialize (G (ndims X) (Nat.le_refl _)). rewrite <- LA in G at 1. rewrite mixed_all in G by congruence.
    destruct (ncp_parts svals X r s s2 full m HW E) as (_ & _ & _ & _ & _ & mats & _ & _ & -> & _). exact G.
  Qed.

  Lemma c88_ncp_strict : A' <> A -> sqdist X full < sqdist X (cp_tensor r (ones r) A).
  Proof.
    intros Hne. pose proof c88_ncp_decrease as D. destruct ncp_lengths as [LA LA'].
    destruct (Rlt_le_dec (sqdist X full) (sqdist X (cp_tensor r (ones r) A))) as [|Hge]; [assumption|]. exfalso. apply Hne.
    apply lists_same; [congruence|]. intros n Hn. rewrite LA in Hn. destruct (ncp_block n Hn) as (B1 & B2 & B3 & B4 & _).
    symmetry. apply MultiR.sqdist_zero; auto.
    assert (Z : nth n (n_L s2) 0 / 2 * sqdist (mat_at A n) (mat_at A' n) = 0).
    { apply (bigsum_terms_0 (ndims X) (fun n => nth n (n_L s2) 0 / 2 * sqdist (mat_at A n) (mat_at A' n))); [|lra|exact Hn].
      intros k Hk. destruct (ncp_block k Hk) as (C1 & _). pose proof (MultiR.sqdist_nonneg (mat_at A k) (mat_at A' k)). nra. }
    nra.
  Qed.
End Ncp.

Section Nt.
  Variable svals : tensor R -> list R.
  Variable X : tensor R.
  Variable ranks : list nat.
  Variables s s1 s2 : nt_state R.
  Variables (full : tensor R) (m : metrics R).
  Hypothesis HS : spectral svals.
  Hypothesis HX : wf X.
  Hypothesis Hr : nonempty ranks.
  Hypothesis HW : nt_wf X ranks s.
  Hypothesis E1 : nt_core svals X s = Ok s1.
  Hypothesis E2 : nt_fact svals X s1 = Ok (s2, full, m).
  Hypothesis Eam : q_Am s = q_A s.
  Hypothesis Egm : q_gm s = q_g s.
  Hypothesis HL : forall n, (n <= ndims X)%nat -> nth n (q_L s2) 0 <> 0.
  Let A := q_A s.
  Let A' := q_A s2.
  Let G := q_g s.
  Let G' := q_g s2.

  Lemma nt_core_block : let f C := / 2 * sqdist X (tucker_tensor C A) in let L := nth (ndims X) (q_L s2) 0 in
    0 < L /\ wf G /\ wf G' /\ shp G' = shp G /\ projected_step f L G G' /\ descends f L G G'.
  Proof.
    intros f L. destruct (c53_step svals X ranks s s1 s2 full m HS HX Hr HW E1 E2) as [((sig & S1 & S2) & D) _].
    specialize (HL (ndims X) (Nat.le_refl _)). specialize (D HL). rewrite Egm in D. destruct D as [D1 D2].
    assert (P : 0 <= L). { unfold L. rewrite S2. apply bigprod_nonneg. intros k Hk. apply (S1 k Hk). }
    split; [unfold L in *; lra|]. split; [apply HW|]. pose proof D1 as (W1 & W2 & _). split; [exact W1|]. split; [exact W2|]. split; [exact D1|exact D2].
  Qed.

  Lemma nt_block n : (n < ndims X)%nat -> let f B := / 2 * sqdist X (tucker_tensor G' (replace n B (mixed n A' A))) in let L := nth n (q_L s2) 0 in
    0 < L /\ wf (mat_at A n) /\ wf (mat_at A' n) /\ shp (mat_at A' n) = shp (mat_at A n) /\
    projected_step f L (mat_at A n) (mat_at A' n) /\ descends f L (mat_at A n) (mat_at A' n).
  Proof.
    intros Hn f L. destruct (c53_step svals X ranks s s1 s2 full m HS HX Hr HW E1 E2) as [_ F].
    destruct (F n Hn) as (N & D). specialize (HL n ltac:(lia)). specialize (D HL). rewrite Eam in D. destruct D as [D1 D2]. pose proof (proj1 N) as P.
    split; [unfold L; lra|]. split; [apply HW; exact Hn|]. pose proof D1 as (W1 & W2 & _). split; [exact W1|]. split; [exact W2|]. split; [exact D1|exact D2].
  Qed.

  Lemma nt_facts : length A = ndims X /\ length A' = ndims X /\ full = tucker_tensor G' A'.
  Proof.
    pose proof (nt_step_order svals X ranks s s1 _ HW E1 E2) as Ho.
    destruct (nt_core_wf svals X ranks HX s s1 ltac:(lia) HW E1) as (W1 & _).
    destruct (nt_parts svals X ranks Hr s1 s2 full m ltac:(lia) W1 E2) as (_ & W2 & _ & _ & Eg & _ & _ & mats & _ & _ & Ef & _).
    split; [apply (proj1 (proj1 HW))|]. split; [apply (proj1 (proj1 W2))|]. unfold G'. rewrite Eg. exact Ef.
  Qed.

  Let fc C := / 2 * sqdist X (tucker_tensor C A).
  Let fn n B := / 2 * sqdist X (tucker_tensor G (replace n B A)).

  Lemma nt_induct (Q : nat -> Prop) : (forall n, (n < ndims X)%nat -> mixed n A' A = A -> G' = G -> Q n -> mat_at A' n = mat_at A n) ->
    G' = G -> (forall n, (n < ndims X)%nat -> Q n) -> A' = A.
  Proof.
    intros H EG HQ. destruct nt_facts as (LA & LA' & _).
    assert (K : forall n, (n <= ndims X)%nat -> forall k, (k < n)%nat -> mat_at A' k = mat_at A k).
    { induction n as [|n IH]; intros Hn k Hk; [lia|]. specialize (IH ltac:(lia)). destruct (Nat.eq_dec k n) as [->|]; [|apply IH; lia].
      apply H; [lia|apply mixed_prefix; auto; lia|exact EG|apply HQ; lia]. }
    apply lists_same; [congruence|]. intros n Hn. apply (K (ndims X)); lia.
  Qed.

  Lemma c88_nt_kkt : (G' = G /\ A' = A) <-> (kkt fc G /\ forall n, (n < ndims X)%nat -> kkt (fn n) (mat_at A n)).
  Proof.
    destruct nt_core_block as (C1 & C2 & C3 & C4 & C5 & _). split.
    - intros [EG EA]. split; [apply (proj_kkt _ _ C1 _ _ C2 C3 C4 C5); exact EG|]. intros n Hn.
      destruct (nt_block n Hn) as (B1 & B2 & B3 & B4 & B5 & _). rewrite EA, EG, mixed_same in B5. rewrite EA in B3, B4.
      apply (proj_kkt _ _ B1 _ _ B2 B3 B4 B5). reflexivity.
    - intros [KG KA]. assert (EG : G' = G) by (apply (proj_kkt _ _ C1 _ _ C2 C3 C4 C5); exact KG). split; [exact EG|].
      apply (nt_induct (fun n => kkt (fn n) (mat_at A n))); auto. intros n Hn Em _ K.
      destruct (nt_block n Hn) as (B1 & B2 & B3 & B4 & B5 & _). rewrite Em, EG in B5. apply (proj_kkt _ _ B1 _ _ B2 B3 B4 B5). exact K.
  Qed.

  Hypothesis Hg : nonneg G.
  Hypothesis Hnn : forall M, In M A -> nonneg M.

  Lemma nt_nonneg n : (n < ndims X)%nat -> nonneg (mat_at A n).
  Proof. intros Hn. apply Hnn, nth_In. rewrite (proj1 nt_facts). exact Hn. Qed.

  Lemma c88_nt_min : (G' = G /\ A' = A) <-> (minimises fc G /\ forall n, (n < ndims X)%nat -> minimises (fn n) (mat_at A n)).
  Proof.
    destruct nt_core_block as (C1 & C2 & C3 & C4 & C5 & C6). split.
    - intros [EG EA]. split; [apply (block_fixed_min _ _ _ _ Hg C6 EG)|]. intros n Hn.
      destruct (nt_block n Hn) as (B1 & B2 & B3 & B4 & B5 & B6). rewrite EA, EG, mixed_same in B6.
      apply (block_fixed_min _ _ _ _ (nt_nonneg n Hn) B6). reflexivity.
    - intros [KG KA]. pose proof (proj_nonneg _ _ _ _ C3 C5) as Hn'. assert (EG : G' = G) by apply (block_min_fixed _ _ C1 _ _ C2 C3 C4 Hn' C6 KG). split; [exact EG|].
      apply (nt_induct (fun n => minimises (fn n) (mat_at A n))); auto. intros n Hn Em _ K.
      destruct (nt_block n Hn) as (B1 & B2 & B3 & B4 & B5 & B6). pose proof (proj_nonneg _ _ _ _ B3 B5) as Hn2. rewrite Em, EG in B6.
      apply (block_min_fixed _ _ B1 _ _ B2 B3 B4 Hn2 B6). exact K.
  Qed.

  Lemma c88_nt_decrease : / 2 * sqdist X full + nth (ndims X) (q_L s2) 0 / 2 * sqdist G G' + bigsum (ndims X) (fun n => nth n (q_L s2) 0 / 2 * sqdist (mat_at A n) (mat_at A' n))
    <= / 2 * sqdist X (tucker_tensor G A).
  Proof.
    destruct nt_facts as (LA & LA' & Ef). destruct nt_core_block as (C1 & C2 & C3 & C4 & C5 & C6). pose proof (block_decrease _ _ _ _ C2 Hg C6) as DC. cbv beta in DC.
    assert (K : forall n, (n <= ndims X)%nat -> / 2 * sqdist X (tucker_tensor G' (mixed n A' A)) + bigsum n (fun n => nth n (q_L s2) 0 / 2 * sqdist (mat_at A n) (mat_at A' n))
      <= / 2 * sqdist X (tucker_tensor G' A)).
    { induction n as [|n IH]; intros Hn; [rewrite mixed_0; cbn [bigsum]; Rn; lra|]. specialize (IH ltac:(lia)). rewrite bigsum_S_R.
      destruct (nt_block n ltac:(lia)) as (B1 & B2 & B3 & B4 & B5 & B6). pose proof (block_decrease _ _ _ _ B2 (nt_nonneg n ltac:(lia)) B6) as D. cbv beta in D.
      rewrite <- mixed_S in D by (auto; lia).
      replace (replace n (mat_at A n) (mixed n A' A)) with (mixed n A' A) in D; [lra|].
      rewrite <- (replace_self (mixed n A' A) n (mkT [] [])) at 1. f_equal. rewrite nth_mixed by (auto; lia). rewrite Nat.ltb_irrefl. reflexivity. }
    specialize (K (ndims X) (Nat.le_refl _)). rewrite <- LA in K at 1. rewrite mixed_all in K by congruence. rewrite Ef. lra.
  Qed.

  Lemma c88_nt_strict : ~ (G' = G /\ A' = A) -> sqdist X full < sqdist X (tucker_tensor G A).
  Proof.
    intros Hne. pose proof c88_nt_decrease as D. destruct nt_facts as (LA & LA' & Ef). destruct nt_core_block as (C1 & C2 & C3 & C4 & _).
    destruct (Rlt_le_dec (sqdist X full) (sqdist X (tucker_tensor G A))) as [|Hge]; [assumption|]. exfalso. apply Hne.
    set (b := bigsum _ _) in D.
    assert (Hk : forall k, (k < ndims X)%nat -> 0 <= nth k (q_L s2) 0 / 2 * sqdist (mat_at A k) (mat_at A' k)).
    { intros k Hk. destruct (nt_block k Hk) as (B1 & _). pose proof (MultiR.sqdist_nonneg (mat_at A k) (mat_at A' k)). nra. }
    assert (Pb : 0 <= b) by (apply bigsum_nonneg; exact Hk).
    pose proof (MultiR.sqdist_nonneg G G') as Pg. split.
    - symmetry. apply MultiR.sqdist_zero; auto. nra.
    - apply lists_same; [congruence|]. intros n Hn. rewrite LA in Hn. destruct (nt_block n Hn) as (B1 & B2 & B3 & B4 & _).
      symmetry. apply MultiR.sqdist_zero; auto.
      assert (Z : nth n (q_L s2) 0 / 2 * sqdist (mat_at A n) (mat_at A' n) = 0).
      { apply (bigsum_terms_0 (ndims X) (fun n => nth n (q_L s2) 0 / 2 * sqdist (mat_at A n) (mat_at A' n))); [exact Hk| |exact Hn]. fold b. nra. }
      nra.
  Qed.
End Nt.
