(** The span of the leading eigenvectors of a symmetric matrix with a gap at the cut is determined
    by the matrix. *)

From Coq Require Import List Arith Lia Reals Lra Psatz.
From Verif Require Import Num Tensor Sums RSums MatR SvdFacts Spectral TuckerFacts AlsLemmas.
Local Open Scope R_scope.

Section G.
  Variables (m k : nat) (U V : mf) (s t : nat -> R).
  Hypothesis HU : ortho m k U.
  Hypothesis HV : ortho m k V.
  Hypothesis Hs0 : forall p, (p < k)%nat -> 0 <= s p.
  Hypothesis Ht0 : forall p, (p < k)%nat -> 0 <= t p.
  Hypothesis Hs : forall p q, (p <= q)%nat -> (q < k)%nat -> s q <= s p.
  Hypothesis Ht : forall p q, (p <= q)%nat -> (q < k)%nat -> t q <= t p.
  Hypothesis HG : forall i j, (i < m)%nat -> (j < m)%nat -> sumn k (fun p => U i p * (s p)² * U j p) = sumn k (fun p => V i p * (t p)² * V j p).
  Let c p q : R := sumn m (fun i => U i p * V i q).

  (** the matrix applied to its eigenvector *)
  Lemma eig (W : mf) (w : nat -> R) p i : ortho m k W -> (p < k)%nat -> sumn m (fun j => sumn k (fun q => W i q * (w q)² * W j q) * W j p) = (w p)² * W i p.
  Proof.
    intros HW Hp. transitivity (sumn k (fun q => W i q * (w q)² * sumn m (fun j => W j q * W j p))).
    - transitivity (sumn m (fun j => sumn k (fun q => W i q * (w q)² * (W j q * W j p)))).
      + apply sumnR_ext. intros j _. rewrite <- sumnR_scale_r. apply sumnR_ext. intros. lra.
      + rewrite sumnR_ex. apply sumnR_ext. intros q _. apply sumnR_scale.
    - transitivity (sumn k (fun q => W i q * (w q)² * delta q p)).
      + apply sumnR_ext. intros q Hq. f_equal. apply (HW q p Hq Hp).
      + rewrite (sumnR_delta' k p (fun q => W i q * (w q)²) Hp). lra.
  Qed.

  (** U's eigenvectors through V *)
  Lemma through p i : (p < k)%nat -> (i < m)%nat -> (s p)² * U i p = sumn k (fun q => V i q * (t q)² * c p q).
  Proof.
    intros Hp Hi. rewrite <- (eig U s p i HU Hp).
    transitivity (sumn m (fun j => sumn k (fun q => V i q * (t q)² * (U j p * V j q)))).
    - apply sumnR_ext. intros j Hj. rewrite (HG i j Hi Hj). rewrite <- sumnR_scale_r. apply sumnR_ext. intros. lra.
    - rewrite sumnR_ex. apply sumnR_ext. intros q _. apply sumnR_scale.
  Qed.
  Lemma overlap p q : (p < k)%nat -> (q < k)%nat -> (s p)² * c p q = (t q)² * c p q.
  Proof.
    intros Hp Hq. unfold c at 1. rewrite <- sumnR_scale.
    transitivity (sumn m (fun i => sumn k (fun l => V i l * (t l)² * c p l) * V i q)).
    - apply sumnR_ext. intros i Hi. rewrite <- (through p i Hp Hi). lra.
    - transitivity (sumn k (fun l => (t l)² * c p l * sumn m (fun i => V i l * V i q))).
      + transitivity (sumn m (fun i => sumn k (fun l => (t l)² * c p l * (V i l * V i q)))).
        * apply sumnR_ext. intros i _. rewrite <- sumnR_scale_r. apply sumnR_ext. intros. lra.
        * rewrite sumnR_ex. apply sumnR_ext. intros l _. apply sumnR_scale.
      + transitivity (sumn k (fun l => (t l)² * c p l * delta l q)).
        * apply sumnR_ext. intros l Hl. f_equal. apply (HV l q Hl Hq).
        * apply (sumnR_delta' k q (fun l => (t l)² * c p l) Hq).
  Qed.
  Lemma span p i : (p < k)%nat -> (i < m)%nat -> 0 < s p -> U i p = sumn k (fun q => c p q * V i q).
  Proof.
    intros Hp Hi H. assert (H2 : (s p)² <> 0) by (unfold Rsqr; nra). apply (Rmult_eq_reg_l (s p)²); [|exact H2].
    rewrite (through p i Hp Hi), <- sumnR_scale. apply sumnR_ext. intros q Hq. pose proof (overlap p q Hp Hq) as E.
    transitivity (V i q * ((t q)² * c p q)); [lra|rewrite <- E; lra].
  Qed.
  Lemma row_dot p p' : (p < k)%nat -> (p' < k)%nat -> 0 < s p' -> sumn k (fun q => c p q * c p' q) = delta p p'.
  Proof.
    intros Hp Hp' H. rewrite <- (HU p p' Hp Hp'). unfold mm, tr.
    transitivity (sumn m (fun i => sumn k (fun q => U i p * V i q * c p' q))).
    - rewrite sumnR_ex. apply sumnR_ext. intros q _. unfold c at 1. symmetry. apply sumnR_scale_r.
    - apply sumnR_ext. intros i Hi. rewrite (span p' i Hp' Hi H), <- sumnR_scale. apply sumnR_ext. intros. lra.
  Qed.
  Lemma col_le q n : (q < k)%nat -> (n <= k)%nat -> sumn n (fun p => (c p q)²) <= 1.
  Proof.
    intros Hq Hn. pose proof (bessel m n 1 U (fun i _ => V i q) (ortho_cols m k n U Hn HU)) as B.
    replace (sumn n (fun p => (c p q)²)) with (fro n 1 (mm m (tr U) (fun i _ => V i q))).
    - eapply Rle_trans; [exact B|]. apply Req_le. unfold fro, dot2. transitivity (sumn m (fun i => V i q * V i q)).
      + apply sumnR_ext. intros i _. rewrite (sumn_S RLR), sumn_0. Rn. lra.
      + pose proof (HV q q Hq Hq) as E. unfold mm, tr, delta in E. rewrite Nat.eqb_refl in E. exact E.
    - unfold fro, dot2. apply sumnR_ext. intros p _. rewrite (sumn_S RLR), sumn_0. Rn. unfold mm, tr, c, Rsqr. lra.
  Qed.
  Lemma sumn_head (f : nat -> R) n : (n <= k)%nat -> (forall q, (n <= q)%nat -> (q < k)%nat -> f q = 0) -> sumn k f = sumn n f.
  Proof.
    intros Hn H. replace k with (n + (k - n))%nat by lia. rewrite sumn_split. rewrite (sumnR_zero (k - n) _); [lra|]. intros i Hi. apply H; lia.
  Qed.
  Lemma distinct p q : (p < k)%nat -> (q < k)%nat -> t q < s p -> c p q = 0.
  Proof. intros Hp Hq H. pose proof (overlap p q Hp Hq) as E. pose proof (Ht0 q Hq). assert (D : (s p)² - (t q)² <> 0) by (unfold Rsqr; nra).
    apply (Rmult_eq_reg_l ((s p)² - (t q)²)); [lra|exact D]. Qed.
  Lemma values_le p : (p < k)%nat -> s p <= t p.
  Proof.
    intros Hp. destruct (Rle_lt_dec (s p) (t p)) as [|L]; [assumption|exfalso].
    assert (Z : forall i q, (i <= p)%nat -> (p <= q)%nat -> (q < k)%nat -> c i q = 0).
    { intros i q Hi Hq Hqk. apply distinct; try lia. pose proof (Hs i p Hi Hp). pose proof (Ht p q Hq Hqk). lra. }
    assert (E : sumn (S p) (fun i => sumn p (fun q => (c i q)²)) = INR (S p)).
    { rewrite <- (Rmult_1_r (INR (S p))), <- sumnR_const. apply sumnR_ext. intros i Hi.
      rewrite <- (sumn_head (fun q => (c i q)²) p); [|lia|intros q H1 H2; rewrite Z by lia; apply Rsqr_0].
      assert (P : 0 < s i) by (pose proof (Hs i p ltac:(lia) Hp); pose proof (Ht0 p Hp); lra).
      pose proof (row_dot i i ltac:(lia) ltac:(lia) P) as D. unfold delta in D. rewrite Nat.eqb_refl in D. exact D. }
    rewrite sumnR_ex in E. assert (B : sumn p (fun q => sumn (S p) (fun i => (c i q)²)) <= INR p * 1).
    { rewrite <- sumnR_const. apply sumnR_le. intros q Hq. apply col_le; lia. }
    rewrite E, S_INR in B. lra.
  Qed.
End G.

Lemma values_eq m k U V s t : ortho m k U -> ortho m k V -> (forall p, (p < k)%nat -> 0 <= s p) -> (forall p, (p < k)%nat -> 0 <= t p) ->
  (forall p q, (p <= q)%nat -> (q < k)%nat -> s q <= s p) -> (forall p q, (p <= q)%nat -> (q < k)%nat -> t q <= t p) ->
  (forall i j, (i < m)%nat -> (j < m)%nat -> sumn k (fun p => U i p * (s p)² * U j p) = sumn k (fun p => V i p * (t p)² * V j p)) ->
  forall p, (p < k)%nat -> s p = t p.
Proof.
  intros HU HV Hs0 Ht0 Hs Ht HG p Hp. apply Rle_antisym.
  - apply (values_le m k U V s t); auto.
  - apply (values_le m k V U t s); auto. intros i j Hi Hj. symmetry. apply HG; auto.
Qed.

(** the projector onto the r leading eigenvectors *)
Theorem projector_unique m k r U V s t : ortho m k U -> ortho m k V -> (forall p, (p < k)%nat -> 0 <= s p) -> (forall p, (p < k)%nat -> 0 <= t p) ->
  (forall p q, (p <= q)%nat -> (q < k)%nat -> s q <= s p) -> (forall p q, (p <= q)%nat -> (q < k)%nat -> t q <= t p) ->
  (forall i j, (i < m)%nat -> (j < m)%nat -> sumn k (fun p => U i p * (s p)² * U j p) = sumn k (fun p => V i p * (t p)² * V j p)) ->
  (r <= k)%nat -> (r = m \/ (forall p, (p < r)%nat -> 0 < s p) /\ (forall p q, (p < r)%nat -> (r <= q)%nat -> (q < k)%nat -> s q < s p)) ->
  forall i j, (i < m)%nat -> (j < m)%nat -> sumn r (fun p => U i p * U j p) = sumn r (fun p => V i p * V j p).
Proof.
  intros HU HV Hs0 Ht0 Hs Ht HG Hr [E|[Hpos Hgap]] i j Hi Hj.
  - subst r. pose proof (ortho_cols m k m U Hr HU) as HU'. pose proof (ortho_cols m k m V Hr HV) as HV'.
    apply ortho_square in HU'. apply ortho_square in HV'. pose proof (HU' i j Hi Hj) as E1. pose proof (HV' i j Hi Hj) as E2.
    unfold mm, tr in E1, E2. rewrite E1, E2. reflexivity.
  - pose proof (values_eq m k U V s t HU HV Hs0 Ht0 Hs Ht HG) as EQ.
    set (c := fun p q => sumn m (fun i => U i p * V i q)).
    assert (Z : forall p q, (p < r)%nat -> (r <= q)%nat -> (q < k)%nat -> c p q = 0).
    { intros p q H1 H2 H3. apply (distinct m k U V s t); auto; try lia. rewrite <- EQ by exact H3. apply Hgap; auto. }
    assert (S1 : forall p l, (p < r)%nat -> (l < m)%nat -> U l p = sumn r (fun q => c p q * V l q)).
    { intros p l Hp Hl. rewrite (span m k U V s t HU HV HG p l ltac:(lia) Hl (Hpos p Hp)). fold c.
      apply (sumn_head k); [exact Hr|]. intros q H1 H2. change (c p q * V l q = 0). rewrite Z by auto. lra. }
    assert (O : ortho r r (tr c)).
    { intros p p' Hp Hp'. unfold mm, tr. rewrite <- (row_dot m k U V s t HU HV HG p p' ltac:(lia) ltac:(lia) (Hpos p' Hp')). symmetry.
      apply (sumn_head k); [exact Hr|]. intros q H1 H2. fold (c p q) (c p' q). rewrite Z by auto. lra. }
    apply ortho_square in O.
    transitivity (sumn r (fun p => sumn r (fun q => V i q * sumn r (fun q' => V j q' * (c p q * c p q'))))).
    + apply sumnR_ext. intros p Hp. rewrite (S1 p i Hp Hi), (S1 p j Hp Hj). rewrite <- sumnR_scale_r. apply sumnR_ext. intros q _.
      rewrite <- !sumnR_scale. apply sumnR_ext. intros. lra.
    + rewrite sumnR_ex. apply sumnR_ext. intros q Hq. rewrite sumnR_scale. f_equal. rewrite sumnR_ex.
      transitivity (sumn r (fun q' => V j q' * delta q' q)).
      * apply sumnR_ext. intros q' Hq'. rewrite sumnR_scale. f_equal. rewrite delta_sym. apply (O q q' Hq Hq').
      * apply (sumnR_delta' r q (fun q' => V j q') Hq).
Qed.
