(** Moore-Penrose inverses and spectral norms of matrices with reordered rows and columns (C103). *)

From Coq Require Import ZArith List Bool Arith Lia Permutation Reals Lra Psatz.
From Verif Require Import Num Py Tensor TF TensorFacts TFFacts Sums Ops OpsLemmas Types Loss Fact Train Spec SpecR LayoutFacts SpecFacts MulFacts TtmFacts SkipFacts TtmLemmas Matricize
  KronFacts RSums MatR KronAlg NormFacts SpecTucker MultiR SpecCp SpecProx SpecFix SpecSym SymFacts SpecOrder.
Import ListNotations.
Local Open Scope R_scope.

(** ** permutations of an initial segment *)
Lemma perm1_inv n p : perm1 n p -> exists g, perm1 n g /\ (forall i, (i < n)%nat -> g (p i) = i) /\ (forall i, (i < n)%nat -> p (g i) = i).
Proof.
  intros H. pose (g := fun j => match find (fun i => Nat.eqb (p i) j) (seq 0 n) with Some i => i | None => 0%nat end).
  assert (G : forall j, (j < n)%nat -> (g j < n)%nat /\ p (g j) = j).
  { intros j Hj. unfold g. destruct (find (fun i => Nat.eqb (p i) j) (seq 0 n)) as [i|] eqn:E.
    - apply find_some in E as [E1 E2]. apply in_seq in E1. apply Nat.eqb_eq in E2. split; [lia|exact E2].
    - exfalso. destruct (perm1_onto n p j H Hj) as (i & Hi & Ei). pose proof (find_none _ _ E i) as K. cbv beta in K. rewrite Ei, Nat.eqb_refl in K. specialize (K ltac:(apply in_seq; lia)). discriminate K. }
  exists g. split; [|split].
  - split; [apply G|]. intros i j Hi Hj E. rewrite <- (proj2 (G i Hi)), E. apply G, Hj.
  - intros i Hi. destruct H as [H1 H2]. apply H2; [apply G, H1, Hi|exact Hi|]. apply G, H1, Hi.
  - intros i Hi. apply G, Hi.
Qed.
Lemma sum_perm n p (f : nat -> R) : perm1 n p -> sumn n (fun i => f (p i)) = sumn n f.
Proof. apply (sumn_perm RLR). Qed.

(** ** Moore-Penrose inverses of r x r matrices *)
Section Pinv.
  Variable r : nat.
  Definition pinv_of (V P : mf) : Prop :=
    meq r r (mm r (mm r V P) V) V /\ meq r r (mm r (mm r P V) P) P /\ meq r r (mm r V P) (tr (mm r V P)) /\ meq r r (mm r P V) (tr (mm r P V)).

  Lemma mm_meq A A' B B' : meq r r A A' -> meq r r B B' -> meq r r (mm r A B) (mm r A' B').
  Proof. intros H1 H2 i j Hi Hj. apply mm_ext; intros l Hl; [apply H1|apply H2]; auto. Qed.
  Lemma mm_tr A B i j : mm r A B i j = mm r (tr B) (tr A) j i.
  Proof. unfold mm, tr. apply sumn_ext. intros l Hl. ring. Qed.

  Lemma range_proj V P Q : meq r r (mm r (mm r V P) V) V -> meq r r (mm r (mm r V Q) V) V -> meq r r (mm r V P) (tr (mm r V P)) -> meq r r (mm r V Q) (tr (mm r V Q)) ->
    meq r r (mm r V P) (mm r V Q).
  Proof.
    intros P1 Q1 P3 Q3 i j Hi Hj.
    assert (E1 : mm r (mm r V Q) (mm r V P) i j = mm r V P i j).
    { rewrite <- mm_assoc. apply mm_ext; [|reflexivity]. intros l Hl. apply Q1; auto. }
    rewrite <- E1. rewrite mm_tr.
    rewrite (mm_ext r (tr (mm r V P)) (mm r V P) (tr (mm r V Q)) (mm r V Q)) by (intros l Hl; symmetry; first [apply P3; auto|apply Q3; auto]).
    rewrite <- mm_assoc. rewrite (mm_ext r (mm r (mm r V P) V) V Q Q) by (intros; first [reflexivity|apply P1; auto]). rewrite (Q3 i j) by auto. reflexivity.
  Qed.

  Lemma pinv_of_unique V P Q : pinv_of V P -> pinv_of V Q -> meq r r P Q.
  Proof.
    intros (P1 & P2 & P3 & P4) (Q1 & Q2 & Q3 & Q4).
    pose proof (range_proj V P Q P1 Q1 P3 Q3) as E1.
    assert (E2 : meq r r (mm r P V) (mm r Q V)).
    { (* the same for the transposed matrices *)
      assert (T1 : forall A, meq r r (mm r (mm r V A) V) V -> meq r r (mm r (mm r (tr V) (tr A)) (tr V)) (tr V)).
      { intros A H i j Hi Hj. rewrite mm_assoc. rewrite mm_tr. change (tr V i j) with (V j i). transitivity (mm r (mm r V A) V j i); [|apply H; auto]. apply mm_ext; [|reflexivity]. intros l Hl. unfold tr at 1. rewrite mm_tr. reflexivity. }
      assert (T3 : forall A, meq r r (mm r A V) (tr (mm r A V)) -> meq r r (mm r (tr V) (tr A)) (tr (mm r (tr V) (tr A)))).
      { intros A H i j Hi Hj. rewrite (mm_tr (tr V) (tr A) i j). change (mm r (tr (tr A)) (tr (tr V)) j i = mm r (tr V) (tr A) j i). rewrite (mm_tr (tr V) (tr A) j i). apply (H j i); auto. }
      pose proof (range_proj (tr V) (tr P) (tr Q) (T1 P P1) (T1 Q Q1) (T3 P P4) (T3 Q Q4)) as K.
      intros i j Hi Hj. rewrite (mm_tr P V), (mm_tr Q V). apply K; auto. }
    intros i j Hi Hj. rewrite <- (P2 i j Hi Hj), <- (Q2 i j Hi Hj).
    rewrite (mm_ext r (mm r P V) (mm r Q V) P P) by (intros; first [reflexivity|apply E2; auto]). rewrite !mm_assoc.
    apply mm_ext; [reflexivity|]. intros l Hl. apply E1; auto.
  Qed.

  (** rows and columns reordered by p and multiplied by e *)
  Variables (p : nat -> nat) (e : nat -> R).
  Hypothesis Hp : perm1 r p.
  Hypothesis He : forall q, (q < r)%nat -> e q <> 0.
  Definition mono (V : mf) : mf := fun a b => e a * e b * V (p a) (p b).
  Definition dmono (V : mf) : mf := fun a b => V (p a) (p b) / (e a * e b).

  Lemma mono_mm V W a b : (b < r)%nat -> mm r (mono V) (dmono W) a b = e a / e b * mm r V W (p a) (p b).
  Proof.
    intros Hb. unfold mm, mono, dmono. rewrite <- (sum_perm r p (fun l => V (p a) l * W l (p b)) Hp). rewrite <- sumnR_scale. apply sumn_ext. intros l Hl.
    unfold Rdiv. field. split; apply He; assumption.
  Qed.
  Lemma dmono_mm V W a b : (a < r)%nat -> mm r (dmono W) (mono V) a b = e b / e a * mm r W V (p a) (p b).
  Proof.
    intros Ha. unfold mm, mono, dmono. rewrite <- (sum_perm r p (fun l => W (p a) l * V l (p b)) Hp). rewrite <- sumnR_scale. apply sumn_ext. intros l Hl.
    unfold Rdiv. field. split; apply He; assumption.
  Qed.

  Lemma pinv_mono V W : pinv_of V W -> (forall q, (q < r)%nat -> e q = 1) \/ (meq r r (mm r V W) delta /\ meq r r (mm r W V) delta) -> pinv_of (mono V) (dmono W).
  Proof.
    intros (H1 & H2 & H3 & H4) H. destruct Hp as [Hp1 Hp2]. split; [|split; [|split]].
    - intros a b Ha Hb.
      rewrite (mm_ext r (mm r (mono V) (dmono W)) (fun a l => e a / e l * mm r V W (p a) (p l)) (mono V) (mono V)) by (intros; first [reflexivity|apply mono_mm; auto]).
      transitivity (e a * e b * sumn r (fun l => mm r V W (p a) (p l) * V (p l) (p b))).
      + change (sumn r (fun l => e a / e l * mm r V W (p a) (p l) * (e l * e b * V (p l) (p b))) = e a * e b * sumn r (fun l => mm r V W (p a) (p l) * V (p l) (p b))).
        rewrite <- sumnR_scale. apply sumn_ext. intros l Hl. field. apply He, Hl.
      + rewrite (sum_perm r p (fun l => mm r V W (p a) l * V l (p b)) Hp). unfold mono. f_equal. apply (H1 (p a) (p b)); auto.
    - intros a b Ha Hb.
      rewrite (mm_ext r (mm r (dmono W) (mono V)) (fun a l => e l / e a * mm r W V (p a) (p l)) (dmono W) (dmono W)) by (intros; first [reflexivity|apply dmono_mm; auto]).
      transitivity (sumn r (fun l => mm r W V (p a) (p l) * W (p l) (p b)) / (e a * e b)).
      + change (sumn r (fun l => e l / e a * mm r W V (p a) (p l) * (W (p l) (p b) / (e l * e b))) = sumn r (fun l => mm r W V (p a) (p l) * W (p l) (p b)) / (e a * e b)).
        unfold Rdiv. rewrite <- sumnR_scale_r. apply sumn_ext. intros l Hl. field. repeat split; apply He; auto.
      + rewrite (sum_perm r p (fun l => mm r W V (p a) l * W l (p b)) Hp). unfold dmono. f_equal. apply (H2 (p a) (p b)); auto.
    - intros a b Ha Hb. unfold tr. rewrite !mono_mm by auto. destruct H as [H|[H _]].
      + rewrite !H by auto. f_equal. apply H3; auto.
      + rewrite !H by auto. unfold delta. destruct (Nat.eqb_spec (p a) (p b)) as [E|E]; destruct (Nat.eqb_spec (p b) (p a)) as [E'|E']; try congruence; [|lra].
        apply Hp2 in E; auto. subst b. reflexivity.
    - intros a b Ha Hb. unfold tr. rewrite !dmono_mm by auto. destruct H as [H|[_ H]].
      + rewrite !H by auto. f_equal. apply H4; auto.
      + rewrite !H by auto. unfold delta. destruct (Nat.eqb_spec (p a) (p b)) as [E|E]; destruct (Nat.eqb_spec (p b) (p a)) as [E'|E']; try congruence; [|lra].
        apply Hp2 in E; auto. subst b. reflexivity.
  Qed.
  Lemma pinv_inv V W W0 : pinv_of V W -> meq r r V (tr V) -> meq r r (mm r V W0) delta -> meq r r (mm r V W) delta /\ meq r r (mm r W V) delta.
  Proof.
    intros (H1 & H2 & H3 & H4) Hs H0.
    assert (E : meq r r (mm r V W) delta).
    { intros i j Hi Hj. transitivity (mm r (mm r V W) (mm r V W0) i j).
      - rewrite (mm_ext r (mm r V W) (mm r V W) (mm r V W0) delta) by (intros; first [reflexivity|apply H0; auto]). symmetry. apply mm_delta_r; auto.
      - rewrite <- mm_assoc. rewrite (mm_ext r _ V W0 W0) by (intros; first [reflexivity|apply H1; auto]). apply H0; auto. }
    split; [exact E|].
    assert (E2 : meq r r (mm r (tr W) V) delta).
    { intros i j Hi Hj. rewrite mm_tr. change (tr (tr W)) with W. rewrite (mm_ext r (tr V) V W W) by (intros; first [reflexivity|symmetry; apply Hs; auto]). rewrite E by auto. unfold delta. rewrite Nat.eqb_sym. reflexivity. }
    assert (E3 : meq r r (tr W) W).
    { intros i j Hi Hj. transitivity (mm r (tr W) (mm r V W) i j).
      - rewrite (mm_ext r (tr W) (tr W) (mm r V W) delta) by (intros; first [reflexivity|apply E; auto]). symmetry. apply mm_delta_r; auto.
      - rewrite <- mm_assoc. rewrite (mm_ext r (mm r (tr W) V) delta W W) by (intros; first [reflexivity|apply E2; auto]). apply (mm_delta_l r); auto. }
    intros i j Hi Hj. rewrite <- (E2 i j Hi Hj). apply mm_ext; [|reflexivity]. intros l Hl. symmetry. apply E3; auto.
  Qed.
End Pinv.

Lemma is_pinv_of r (V W : tensor R) : is_mat V r r -> is_pinv V W -> pinv_of r (mget V) (mget W).
Proof.
  intros HV. destruct (is_mat_dims _ _ _ HV) as [D1 D2]. intros (_ & H1 & H2 & H3 & H4). rewrite D1, D2 in *.
  split; [|split; [|split]].
  - intros i j Hi Hj. rewrite <- (H1 i j Hi Hj). unfold mm. rewrite (sumn_bigsum RLR). apply bigsum_ext. intros k Hk. rewrite (sumn_bigsum RLR). reflexivity.
  - intros i j Hi Hj. rewrite <- (H2 i j Hi Hj). unfold mm. rewrite (sumn_bigsum RLR). apply bigsum_ext. intros k Hk. rewrite (sumn_bigsum RLR). reflexivity.
  - intros i j Hi Hj. unfold mm, tr. rewrite !(sumn_bigsum RLR). apply H3; auto.
  - intros i j Hi Hj. unfold mm, tr. rewrite !(sumn_bigsum RLR). apply H4; auto.
Qed.
Lemma pinv_of_ext r V V' W : meq r r V V' -> pinv_of r V W -> pinv_of r V' W.
Proof.
  intros E (H1 & H2 & H3 & H4).
  assert (EVW : meq r r (mm r V' W) (mm r V W)) by (apply mm_meq; [intros i j Hi Hj; symmetry; apply E; auto|intros i j _ _; reflexivity]).
  assert (EWV : meq r r (mm r W V') (mm r W V)) by (apply mm_meq; [intros i j _ _; reflexivity|intros i j Hi Hj; symmetry; apply E; auto]).
  split; [|split; [|split]]; intros i j Hi Hj.
  - rewrite <- (E i j Hi Hj), <- (H1 i j Hi Hj). apply (mm_meq r); auto. intros a b Ha Hb. symmetry. apply E; auto.
  - rewrite <- (H2 i j Hi Hj). apply (mm_meq r); auto. intros a b _ _. reflexivity.
  - unfold tr. rewrite (EVW i j), (EVW j i) by auto. apply H3; auto.
  - unfold tr. rewrite (EWV i j), (EWV j i) by auto. apply H4; auto.
Qed.

(** ** spectral norms *)
Lemma stretch_perm r p (V V' : tensor R) s : perm1 r p -> is_mat V r r -> is_mat V' r r -> (forall a b, (a < r)%nat -> (b < r)%nat -> mget V' a b = mget V (p a) (p b)) ->
  stretches_at_most V s -> stretches_at_most V' s.
Proof.
  intros Hp HV HV' E H x. destruct (is_mat_dims _ _ _ HV) as [D1 D2]. destruct (is_mat_dims _ _ _ HV') as [D3 D4]. destruct (perm1_inv r p Hp) as (g & Hg & G1 & G2).
  specialize (H (fun j => x (g j))). rewrite D1, D2 in H. rewrite D3, D4.
  rewrite <- (bigsum_perm r p (fun i => (bigsum r (fun j => mget V i j * x (g j)))²) Hp) in H. rewrite (bigsum_perm r g (fun j => (x j)²) Hg) in H.
  eapply Rle_trans; [|exact H]. right. apply bigsum_ext. intros i Hi. f_equal. rewrite <- (bigsum_perm r p (fun j => mget V (p i) j * x (g j)) Hp).
  apply bigsum_ext. intros j Hj. rewrite E by auto. rewrite G1 by auto. reflexivity.
Qed.
Lemma spectral_perm svals r p (V V' : tensor R) : spectral svals -> (r <> 0)%nat -> perm1 r p -> is_mat V r r -> is_mat V' r r ->
  (forall a b, (a < r)%nat -> (b < r)%nat -> mget V' a b = mget V (p a) (p b)) -> tf_max (svals V') = tf_max (svals V).
Proof.
  intros HS Hr Hp HV HV' E. destruct (perm1_inv r p Hp) as (g & Hg & G1 & G2).
  assert (NE : forall M : tensor R, is_mat M r r -> matrix M /\ nonempty (shp M)).
  { intros M HM. destruct (matrix_is_mat _ _ _ HM) as (M1 & _). split; [exact M1|]. rewrite (proj2 HM). repeat constructor; exact Hr. }
  destruct (HS V) as (P0 & P1 & P2); [apply NE, HV..|]. destruct (HS V') as (Q0 & Q1 & Q2); [apply NE, HV'..|].
  apply Rle_antisym; [apply Q2|apply P2]; auto.
  - apply (stretch_perm r p V V'); auto.
  - apply (stretch_perm r g V' V); auto. intros a b Ha Hb. rewrite E by (apply Hg; auto). rewrite !G2 by auto. reflexivity.
Qed.
