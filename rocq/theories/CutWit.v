(** The cut-off can increase the error (C106). *)

From Coq Require Import ZArith List Bool Arith Lia Permutation Reals Lra Psatz.
From Verif Require Import Num Py Tensor TF TensorFacts TFFacts Sums Ops OpsLemmas Types Loss Fact Train Spec SpecR LayoutFacts SpecFacts
  RSums MatR NormFacts SpecTucker MultiR SpecCp SpecBcu CpFacts AlsFacts AlsLemmas SpecCut CutFacts.
Import ListNotations.
Local Open Scope R_scope.

Definition Tdec (M M' : tensor R) : {M = M'} + {M <> M'}.
Proof.
  destruct M as [s d], M' as [s' d'].
  destruct (list_eq_dec Nat.eq_dec s s') as [->|Hs]; [|right; congruence].
  destruct (list_eq_dec Req_EM_T d d') as [->|Hd]; [left; reflexivity|right; congruence].
Defined.
Definition Xc (e : R) : tensor R := mkT [2; 2]%nat [1; e; 1; - e].
Definition Ac (e : R) : list (tensor R) := [mkT [2; 2]%nat [1; 0; 0; 1]; mkT [2; 2]%nat [1; 1; e; - e]].
Definition G0 (e : R) : tensor R := mkT [2; 2]%nat [1 + e * e; 1 - e * e; 1 - e * e; 1 + e * e].
Definition all2 (x : R) : tensor R := mkT [2; 2]%nat [x; x; x; x].
Definition pinvc (p0 : tensor R -> tensor R) (e : R) (M : tensor R) : tensor R :=
  if Tdec M (G0 e) then all2 (/ 4) else if Tdec M (all2 2) then all2 (/ 8) else p0 M.

Ltac two i := destruct i as [|[|i]]; [| |lia].
Lemma all2_pinv a b : a <> 0 -> 4 * a * b = 1 -> is_pinv (all2 a) (all2 b).
Proof.
  intros Ha H. unfold is_pinv. cbn [nrows ncols all2 shp nth]. split; [split; reflexivity|].
  assert (K : forall i j x, (i < 2)%nat -> (j < 2)%nat -> mget (all2 x) i j = x) by (intros i j x Hi Hj; two i; two j; reflexivity).
  assert (4 * a * b * a = a) by (rewrite H; lra). assert (4 * a * b * b = b) by (rewrite H; lra).
  repeat split; intros i j Hi Hj; cbn [bigsum]; rewrite !K by lia; Rn; lra.
Qed.
Lemma c106_cutoff p0 e t : penrose p0 -> 0 <= t -> 2 * (e * e) <= t -> cutoff (fun _ => t) (pinvc p0 e).
Proof.
  intros HP Ht He M HM. split; [exact Ht|]. 
  assert (Z : forall P, is_pinv M P -> cut_pinv t M P).
  { intros P HPi. destruct HM as (Hm & Hsq & Hsym). exists M, (mgen (nrows M) (nrows M) (fun _ _ => 0)). cbv zeta.
    split; [split; [apply (proj1 Hm)|]|]. { destruct Hm as (_ & HS). unfold nrows, ncols in *. destruct (shp M) as [|a [|b [|]]]; try discriminate HS; try contradiction. cbn in *. congruence. }
    split; [apply is_mat_mgen|]. split; [intros i j Hi Hj; rewrite mget_mgen by auto; lra|]. split; [intros i j Hi Hj; rewrite !mget_mgen by auto; auto|].
    split; [intros i j Hi Hj; rewrite <- (sumn_bigsum RLR); apply sumnR_zero; intros k Hk; rewrite mget_mgen by auto; lra|]. split; [|exact HPi].
    intros x. apply Rle_trans with 0; [right|].
    - rewrite <- (sumn_bigsum RLR). apply sumnR_zero. intros i Hi. rewrite <- (sumn_bigsum RLR). apply sumnR_zero. intros j Hj. rewrite mget_mgen by auto. lra.
    - apply Rmult_le_pos; [exact Ht|]. rewrite <- (sumn_bigsum RLR). apply sumnR_nonneg. intros. apply Rle_0_sqr. }
  unfold pinvc. destruct (Tdec M (G0 e)) as [->|_]; [|destruct (Tdec M (all2 2)) as [->|_]; [apply Z, all2_pinv; lra|apply Z, HP, HM]].
  clear Z. exists (all2 1), (mkT [2; 2]%nat [e * e; - (e * e); - (e * e); e * e]). cbn [nrows G0 shp nth].
  split; [split; reflexivity|]. split; [split; reflexivity|].
  split; [intros i j Hi Hj; two i; two j; cbn; lra|]. split; [intros i j Hi Hj; two i; two j; cbn; split; reflexivity|].
  split; [intros i j Hi Hj; two i; two j; cbn; lra|]. split; [|apply all2_pinv; lra].
  intros x. cbn. Rn. pose proof (Rle_0_sqr (x 0%nat + x 1%nat)) as K. pose proof (Rle_0_sqr e) as K2. pose proof (Rle_0_sqr (x 0%nat)). pose proof (Rle_0_sqr (x 1%nat)). unfold Rsqr in *.
  set (u := x 0%nat) in *. set (v := x 1%nat) in *. set (ee := e * e) in *.
  apply Rle_trans with (2 * ee * (u * u + v * v)); [|nra]. nra.
Qed.
Lemma Ac_factors e : cp_factors (Xc e) 2 (Ac e).
Proof. split; [reflexivity|]. intros k Hk. change (ndims (Xc e)) with 2%nat in Hk. two k; split; reflexivity. Qed.

Lemma mat22_eq (M : tensor R) a b c d : is_mat M 2 2 -> mget M 0 0 = a -> mget M 0 1 = b -> mget M 1 0 = c -> mget M 1 1 = d -> M = mkT [2; 2]%nat [a; b; c; d].
Proof.
  intros [Hw Hs] <- <- <- <-. destruct M as [s l]. cbn in Hs. subst s. unfold wf in Hw. cbn in Hw. destruct l as [|x0 [|x1 [|x2 [|x3 [|]]]]]; try discriminate Hw. reflexivity.
Qed.
Lemma cmax2 (M : tensor R) q : nrows M = 2%nat -> cmax M q = Rmax (mget M 0 q) (mget M 1 q).
Proof.
  intros H. destruct (cmax_ok M q ltac:(lia)) as [(i & Hi & E) Hv]. rewrite H in *. pose proof (Hv 0%nat ltac:(lia)). pose proof (Hv 1%nat ltac:(lia)).
  two i; rewrite E in *; unfold Rmax; destruct (Rle_dec _ _); lra.
Qed.
Lemma c106_refuted : forall t, 0 < t -> exists pinv (X : tensor R) r A o, cutoff (fun _ => t) pinv /\ wf X /\ cp_factors X r A /\ cp_step pinv X r A = Ok o /\
  (forall n q v, (n < ndims X)%nat -> (q < r)%nat -> column_max (als_solution pinv X r (mixed n (cp_A o) A) n) q v -> v <> 0) /\
  sqdist X (cp_tensor r (ones r) A) = 0 /\ sqdist X (cp_full o) = t.
Proof.
  intros t Ht. set (e := sqrt (t / 2)). assert (He : e * e = t / 2) by (apply sqrt_sqrt; lra).
  destruct penrose_exists as (p0 & HP0). set (pinv := pinvc p0 e).
  assert (HC : cutoff (fun _ => t) pinv) by (apply c106_cutoff; [exact HP0|lra|lra]).
  destruct (cut_step_total pinv _ (Xc e) 2 (Ac e) HC) as (o & E); [reflexivity|repeat constructor; discriminate|cbn; lia|apply Ac_factors|].
  destruct (cut_step_facts pinv _ (Xc e) 2 (Ac e) o HC (Ac_factors e) E) as (HF & HM & Hfull). change (ndims (Xc e)) with 2%nat in *. cbn [Nat.sub] in Hfull.
  (* first mode *)
  assert (Eg0 : gram_but 2 (Ac e) 0 = G0 e).
  { apply (mat22_eq _ _ _ _ _ (is_mat_mgen _ _ _)); cbn; unfold mget, get; cbn; Rn; ring. }
  assert (P0 : pinv (gram_but 2 (Ac e) 0) = all2 (/ 4)) by (rewrite Eg0; unfold pinv, pinvc; destruct (Tdec (G0 e) (G0 e)); [reflexivity|congruence]).
  assert (S0 : als_solution pinv (Xc e) 2 (Ac e) 0 = all2 (/ 2)).
  { apply (mat22_eq _ _ _ _ _ (is_mat_mgen _ _ _)); unfold als_solution; rewrite P0; cbn; unfold mget, get; cbn; Rn; field. }
  assert (M0 : mat_at (cp_A o) 0 = all2 1).
  { rewrite (HM 0%nat ltac:(lia)). change (mixed 0 (cp_A o) (Ac e)) with (Ac e). rewrite S0. apply (mat22_eq _ _ _ _ _ (is_mat_mgen _ _ _)); unfold normed; rewrite mget_mgen by (cbn; lia); rewrite cmax2 by reflexivity; cbn; rewrite Rmax_left by lra; field. }
  assert (LA : length (cp_A o) = 2%nat) by apply HF.
  assert (Emx : mixed 1 (cp_A o) (Ac e) = [all2 1; mkT [2; 2]%nat [1; 1; e; - e]]).
  { unfold mat_at in M0. destruct (cp_A o) as [|x l]; [discriminate LA|]. cbn in M0. subst x. reflexivity. }
  assert (Eg1 : gram_but 2 [all2 1; mkT [2; 2]%nat [1; 1; e; - e]] 1 = all2 2).
  { apply (mat22_eq _ _ _ _ _ (is_mat_mgen _ _ _)); cbn; unfold mget, get; cbn; Rn; ring. }
  assert (P1 : pinv (all2 2) = all2 (/ 8)).
  { unfold pinv, pinvc. destruct (Tdec (all2 2) (G0 e)) as [Q|_]; [|destruct (Tdec (all2 2) (all2 2)); [reflexivity|congruence]].
    exfalso. apply (f_equal (fun M => mget M 0 1)) in Q. cbn in Q. unfold mget, get in Q. cbn in Q. lra. }
  set (s1 := mkT [2; 2]%nat [/ 2; / 2; 0; 0]).
  assert (S1 : als_solution pinv (Xc e) 2 (mixed 1 (cp_A o) (Ac e)) 1 = s1).
  { rewrite Emx. apply (mat22_eq _ _ _ _ _ (is_mat_mgen _ _ _)); unfold als_solution; rewrite Eg1, P1; cbn; unfold mget, get; cbn; Rn; field. }
  assert (C1 : forall q, (q < 2)%nat -> cmax s1 q = / 2) by (intros q Hq; rewrite cmax2 by reflexivity; two q; cbn; rewrite Rmax_left by lra; reflexivity).
  assert (M1 : mat_at (cp_A o) 1 = mkT [2; 2]%nat [1; 1; 0; 0]).
  { rewrite (HM 1%nat ltac:(lia)). rewrite S1. apply (mat22_eq _ _ _ _ _ (is_mat_mgen _ _ _)); unfold normed; rewrite mget_mgen by (cbn; lia); rewrite C1 by lia; cbn; field. }
  assert (EA : cp_A o = [all2 1; mkT [2; 2]%nat [1; 1; 0; 0]]).
  { unfold mat_at in M0, M1. destruct (cp_A o) as [|x [|y [|]]]; try discriminate LA. cbn in M0, M1. subst. reflexivity. }
  exists pinv, (Xc e), 2%nat, (Ac e), o. split; [exact HC|]. split; [reflexivity|]. split; [apply Ac_factors|]. split; [exact E|].
  split; [|split].
  - intros n q v Hn Hq [_ Hv]. change (ndims (Xc e)) with 2%nat in Hn. two n.
    + change (mixed 0 (cp_A o) (Ac e)) with (Ac e) in Hv. rewrite S0 in Hv. specialize (Hv 0%nat ltac:(cbn; lia)). two q; cbn in Hv; unfold mget, get in Hv; cbn in Hv; lra.
    + rewrite S1 in Hv. specialize (Hv 0%nat ltac:(cbn; lia)). two q; cbn in Hv; unfold mget, get in Hv; cbn in Hv; lra.
  - unfold sqdist, Xc, Ac, cp_tensor, ones, mat_at, mgen, mget, gen, get. cbn. unfold Rsqr. Rn. ring.
  - rewrite Hfull, S1, EA. unfold column. cbn [seq map]. rewrite !C1 by lia.
    unfold sqdist, Xc, cp_tensor, all2, mat_at, mgen, mget, gen, get. cbn. unfold Rsqr. Rn. field_simplify. lra.
Qed.
