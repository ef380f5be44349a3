(** Projected gradient steps on convex quadratics. *)

From Coq Require Import ZArith List Bool Arith Lia Reals Lra Psatz.
From Verif Require Import Num Py Tensor TF TensorFacts Sums Spec SpecR SpecTucker SpecCp SpecProx SpecFacts RSums MatR MultiR.
Import ListNotations.
Local Open Scope R_scope.

Lemma scalar_step a g L c : 0 < L -> 0 <= c -> let a' := Rmax 0 (a - g / L) in
  g * (a' - a) + L / 2 * (a' - a)² + L / 2 * (c - a')² <= g * (c - a) + L / 2 * (c - a)².
Proof.
  intros HL Hc a'. assert (H : 0 <= (c - a') * (g + L * (a' - a))).
  { unfold a', Rmax. destruct (Rle_dec 0 (a - g / L)) as [H|H].
    - replace (g + L * (a - g / L - a)) with 0 by (field; lra). lra.
    - apply Rmult_le_pos; [lra|]. assert (L * (a - g / L) <= 0) by nra. replace (L * (a - g / L)) with (L * a - g) in * by (field; lra). lra. }
  unfold Rsqr. nra.
Qed.

Lemma isumR_single s f idx : valid s idx -> (forall i, valid s i -> i <> idx -> f i = 0) -> isum s f = f idx.
Proof.
  intros Hv H. rewrite isum_sumn.
  rewrite (sumnR_ext (prod s) _ (fun k => f (unravel s k) * delta k (ravel s idx))).
  - rewrite sumnR_delta' by (apply ravel_lt; auto). rewrite unravel_ravel by auto. reflexivity.
  - intros k Hk. unfold delta. destruct (Nat.eqb_spec k (ravel s idx)) as [->|E]; [lra|].
    rewrite (H (unravel s k)); [lra|apply unravel_valid; auto|]. intros E2. apply E. rewrite <- E2. symmetry. apply ravel_unravel; auto.
Qed.

Section Prox.
  Variables (f : tensor R -> R) (M : tensor R) (G : list nat -> R) (q : (list nat -> R) -> R) (L : R).
  Let s := shp M.
  Hypothesis HM : wf M.
  Hypothesis Hf : forall C, wf C -> shp C = s ->
    f C = f M + isum s (fun i => G i * (get C i - get M i)) + / 2 * q (fun i => get C i - get M i).
  Hypothesis Hq0 : forall d, 0 <= q d.
  Hypothesis HqL : forall d, q d <= L * isum s (fun i => (d i)²).
  Hypothesis Hqe : forall d d', (forall i, valid s i -> d i = d' i) -> q d = q d'.
  Hypothesis Hqs : forall t d, q (fun i => t * d i) = t² * q d.

  Lemma prox_grad idx : valid s idx -> partial_derivative f M idx (G idx).
  Proof.
    intros Hv. set (e := fun j => if list_eq_dec Nat.eq_dec j idx then 1 else 0).
    assert (E : forall t, f (bump M idx t) = f M + t * G idx + / 2 * (t² * q e)).
    { intros t. rewrite Hf by (try apply wf_gen; reflexivity).
      assert (Ed : forall i, valid s i -> get (bump M idx t) i - get M i = t * e i).
      { intros i Hi. unfold bump. rewrite get_gen by auto. unfold e. destruct (list_eq_dec Nat.eq_dec i idx); lra. }
      rewrite (Hqe _ (fun i => t * e i) Ed), Hqs. f_equal. f_equal.
      rewrite (isum_ext s _ (fun i => (fun j => t * G j) i * e i)) by (intros i Hi; cbv beta; rewrite (Ed i Hi); Rn; ring).
      rewrite (isumR_single s _ idx Hv).
      - unfold e. destruct (list_eq_dec Nat.eq_dec idx idx); [Rn; lra|congruence].
      - intros i Hi Hne. unfold e. destruct (list_eq_dec Nat.eq_dec i idx); [congruence|Rn; lra]. }
    unfold partial_derivative. intros eps Heps. set (k := / 2 * q e). assert (Hk : 0 <= k) by (unfold k; specialize (Hq0 e); lra).
    assert (Hd : 0 < eps / (k + 1)) by (apply Rdiv_lt_0_compat; lra).
    exists (mkposreal _ Hd). intros h Hh Hlt. change (Rabs h < eps / (k + 1)) in Hlt.
    rewrite !E. replace ((f M + (0 + h) * G idx + / 2 * ((0 + h)² * q e) - (f M + 0 * G idx + / 2 * (0² * q e))) / h - G idx) with (h * k).
    2: { unfold k, Rsqr. field. exact Hh. }
    rewrite Rabs_mult, (Rabs_pos_eq k Hk).
    apply Rle_lt_trans with (Rabs h * (k + 1)); [pose proof (Rabs_pos h); nra|].
    apply (Rmult_lt_compat_r (k + 1)) in Hlt; [|lra]. replace (eps / (k + 1) * (k + 1)) with eps in Hlt by (field; lra). exact Hlt.
  Qed.

  Variable M' : tensor R.
  Hypothesis HM' : wf M'.
  Hypothesis Hs' : shp M' = s.
  Hypothesis Hget : forall i, valid s i -> get M' i = Rmax 0 (get M i - G i / L).

  Lemma prox_projected : projected_step f L M M'.
  Proof. split; [exact HM'|]. split; [exact Hs'|]. intros idx Hv. exists (G idx). split; [apply prox_grad; auto|apply Hget; auto]. Qed.

  Lemma prox_descends : 0 < L -> descends f L M M'.
  Proof.
    intros HL.
    assert (H3 : forall C, wf C -> shp C = shp M -> nonneg C -> f M' + L / 2 * sqdist C M' <= f C + L / 2 * sqdist C M).
    { intros C HC Hs Hn. fold s in Hs. rewrite (Hf M' HM' Hs'), (Hf C HC Hs). unfold sqdist. rewrite Hs. rewrite <- !(isum_msum RLR).
      pose proof (HqL (fun i => get M' i - get M i)) as B1. pose proof (Hq0 (fun i => get C i - get M i)) as B2.
      assert (K : isum s (fun i => G i * (get M' i - get M i)) + L / 2 * isum s (fun i => (get M' i - get M i)²) + L / 2 * isum s (fun i => (get C i - get M' i)²)
                  <= isum s (fun i => G i * (get C i - get M i)) + L / 2 * isum s (fun i => (get C i - get M i)²)).
      { rewrite <- !isumR_scale, <- !isumR_add. apply isumR_le. intros i Hi. rewrite (Hget i Hi). apply scalar_step; auto.
        apply Hn. unfold get. apply nth_In. rewrite Hs. pose proof (ravel_lt _ _ Hi) as Hl. unfold wf in HC. rewrite Hs in HC. lia. }
      lra. }
    split; [exact H3|]. intros Hn. specialize (H3 M HM eq_refl Hn).
    assert (E0 : sqdist M M = 0).
    { unfold sqdist. rewrite <- (isum_msum RLR). apply (isum_zero RLR). intros i _. unfold Rsqr. Rn. lra. }
    assert (E1 : 0 <= sqdist M M').
    { unfold sqdist. rewrite <- (isum_msum RLR). apply isumR_nonneg. intros i _. apply Rle_0_sqr. }
    rewrite E0 in H3. nra.
  Qed.
End Prox.

Lemma isum2 I r (g : list nat -> R) : isum [I; r] g = sumn I (fun i => sumn r (fun p => g [i; p])).
Proof. rewrite (isum_cons RLR). apply sumnR_ext. intros i _. rewrite (isum_cons RLR). apply sumnR_ext. intros p _. apply (isum_nil RLR). Qed.

(** a linear least squares problem in a matrix variable *)
Section Mat.
  Variables (I J r : nat) (Y H V W : mf) (L : R) (f : tensor R -> R) (M M' : tensor R).
  Hypothesis HV : meq r r V (mm J (tr H) H).
  Hypothesis HW : meq I r W (mm J Y H).
  Hypothesis HL : forall x : nat -> R, sumn r (fun p => x p * sumn r (fun q => V p q * x q)) <= L * sumn r (fun p => (x p)²).
  Hypothesis HM : is_mat M I r.
  Hypothesis Hf : forall B, is_mat B I r -> f B = / 2 * fro I J (fun i j => Y i j - mm r (mget B) (tr H) i j).
  Let G i q := sumn r (fun p => mget M i p * V p q) - W i q.
  Hypothesis HM' : is_mat M' I r.
  Hypothesis Hnew : forall i q, (i < I)%nat -> (q < r)%nat -> mget M' i q = Rmax 0 (mget M i q - G i q / L).

  Let Gt (idx : list nat) := G (nth 0 idx 0%nat) (nth 1 idx 0%nat).
  Let qd (d : list nat -> R) := fro I J (mm r (fun i q => d [i; q]) (tr H)).

  Lemma mat_expand C : wf C -> shp C = shp M ->
    f C = f M + isum (shp M) (fun i => Gt i * (get C i - get M i)) + / 2 * qd (fun i => get C i - get M i).
  Proof.
    intros HC Hs. assert (HCm : is_mat C I r) by (split; [auto|rewrite Hs; apply HM]).
    rewrite (Hf C HCm), (Hf M HM). destruct HM as [_ ->]. rewrite isum2. unfold qd.
    set (E := fun i j => Y i j - mm r (mget M) (tr H) i j). set (D := fun i q => get C [i; q] - get M [i; q]).
    rewrite (fro_ext I J (fun i j => Y i j - mm r (mget C) (tr H) i j) (fun i j => E i j - mm r D (tr H) i j)).
    2: { intros i j _ _. unfold E, D. rewrite (mm_sub_l r (fun i q => get C [i; q]) (fun i q => get M [i; q])). unfold mget. lra. }
    rewrite fro_sub, (dot2_sym I J E), dot2_adj_r.
    rewrite (dot2_ext I r D D (mm J E (tr (tr H))) (fun i q => 0 - G i q)).
    - rewrite dot2_sub_r. rewrite (dot2_sym I r D (fun _ _ => 0)), dot2_zero_l.
      replace (dot2 I r D G) with (sumn I (fun i => sumn r (fun p => Gt [i; p] * D i p))); [unfold D; lra|].
      unfold dot2. apply sumnR_ext. intros i _. apply sumnR_ext. intros p _. unfold Gt. cbn [nth]. lra.
    - intros i j _ _. reflexivity.
    - intros i q Hi Hq. change (tr (tr H)) with H. unfold E. rewrite mm_sub_l, mm_assoc. unfold G. rewrite (HW i q Hi Hq).
      rewrite (mm_ext r (mget M) (mget M) (mm J (tr H) H) V) by (intros; first [reflexivity | symmetry; apply HV; auto]).
      unfold mm at 2. lra.
  Qed.

  Lemma mat_quad d : qd d <= L * isum (shp M) (fun i => (d i)²).
  Proof.
    destruct HM as [_ ->]. rewrite isum2. unfold qd, fro. rewrite dot2_adj_r. unfold dot2. rewrite <- sumnR_scale. apply sumnR_le. intros i Hi.
    eapply Rle_trans; [|apply (HL (fun q => d [i; q]))]. right. apply sumnR_ext. intros q Hq. f_equal.
    change (tr (tr H)) with H. rewrite mm_assoc. unfold mm at 1. apply sumnR_ext. intros p Hp.
    rewrite (HV q p Hq Hp). rewrite Rmult_comm. f_equal. unfold mm, tr. apply sumnR_ext. intros. lra.
  Qed.

  Let Hqe (d d' : list nat -> R) : (forall i, valid (shp M) i -> d i = d' i) -> qd d = qd d'.
  Proof.
    intros Hd. unfold qd. apply fro_ext. intros i j Hi Hj. apply mm_ext; auto. intros q Hq. apply Hd.
    destruct HM as [_ ->]. repeat constructor; auto.
  Qed.
  Let Hqs t (d : list nat -> R) : qd (fun i => t * d i) = t² * qd d.
  Proof.
    unfold qd. rewrite (fro_ext I J _ (fun i j => t * mm r (fun i q => d [i; q]) (tr H) i j)).
    - unfold fro. rewrite dot2_scale_l, dot2_sym, dot2_scale_l. unfold Rsqr. lra.
    - intros i j _ _. unfold mm. rewrite <- sumnR_scale. apply sumnR_ext. intros. lra.
  Qed.
  Let Hget i : valid (shp M) i -> get M' i = Rmax 0 (get M i - Gt i / L).
  Proof. intros Hv. destruct HM as [_ E]. rewrite E in Hv. apply valid2_inv in Hv as (a & b & -> & Ha & Hb). apply (Hnew a b Ha Hb). Qed.

  Lemma mat_projected : projected_step f L M M'.
  Proof.
    apply (prox_projected f M Gt qd L mat_expand (fun d => fro_nonneg _ _ _) Hqe Hqs M' (proj1 HM')); [|exact Hget].
    destruct HM as [_ ->]. apply HM'.
  Qed.
  Lemma mat_descends : 0 < L -> descends f L M M'.
  Proof.
    apply (prox_descends f M Gt qd L (proj1 HM) mat_expand (fun d => fro_nonneg _ _ _) mat_quad M' (proj1 HM')); [|exact Hget].
    destruct HM as [_ ->]. apply HM'.
  Qed.
End Mat.
