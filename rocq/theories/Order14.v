(** Order 14: the einsum letters of ttm collide.  Axis 0 of the tensor and axis 12 of the
    result both get the letter m, which is then not summed over.  When the two sizes agree
    nothing is raised and the result is wrong. *)

From Coq Require Import ZArith List Bool Arith Lia Reals Lra Psatz.
From Verif Require Import Num Py Tensor TF TensorFacts TFFacts Sums Ops OpsLemmas Types Loss Fact Train Spec SpecR SpecFacts RSums MatR NormFacts SpecTucker SpecCp SpecBcu SpecTrain TtmFacts
  SvdFacts CpFacts TuckerFacts TuckerRun LossFacts SpecProx Prox NtFacts NtLemmas SvdExists SpectralExists.
Import ListNotations.
Local Open Scope R_scope.

Ltac rcbv := cbv -[Rplus Rmult Rminus Rdiv Ropp Rinv IZR Rmax].
Ltac entries := repeat (apply f_equal2; [try reflexivity; try (ring || (unfold Rdiv; ring))|]); try reflexivity.

Lemma spectral_pos (M : tensor R) s : (0 < nrows M)%nat -> (0 < ncols M)%nat -> mget M 0 0 <> 0 -> spectral_norm M s -> 0 < s.
Proof.
  intros H1 H2 Hm (H0 & H & _). destruct (Rle_lt_or_eq_dec _ _ H0) as [|<-]; [assumption|]. exfalso.
  specialize (H (fun j => delta j 0%nat)). rewrite Rsqr_0, Rmult_0_l in H. apply Hm.
  assert (E : (bigsum (ncols M) (fun j => mget M 0 j * delta j 0%nat))² = 0).
  { refine (sumnR_zero_inv (nrows M) (fun i => (bigsum (ncols M) (fun j => mget M i j * delta j 0%nat))²) _ _ 0%nat H1).
    - intros. apply Rle_0_sqr.
    - apply Rle_antisym; [rewrite (sumn_bigsum RLR); exact H|apply sumnR_nonneg; intros; apply Rle_0_sqr]. }
  apply Rsqr_0_uniq in E. rewrite <- (sumn_bigsum RLR), sumnR_delta' in E by exact H2. exact E.
Qed.

Definition S14 : list nat := [2; 1; 1; 1; 1; 1; 1; 1; 1; 1; 1; 1; 2; 1]%nat.
Definition J1 : tensor R := mkT [1; 1]%nat [1].

(** *** C53: the gradient of the core is wrong.  X is the model itself, so the objective is 0
    before the update and positive afterwards. *)
Definition A53 : list (tensor R) := mkT [2; 2]%nat [1; 1; 0; 1] :: repeat J1 11 ++ [mkT [2; 2]%nat [1; 0; 0; 1]; J1].
Definition X53 : tensor R := mkT S14 [0; 1; 0; 1].
Definition g53 : tensor R := mkT S14 [0; 0; 0; 1].
Definition s53 : nt_state R := mkNT A53 A53 A53 g53 g53 g53 1 1 (repeat 1 15) (repeat 1 15) (repeat 1 15).
Definition G53 : list (tensor R) := mkT [2; 2]%nat [1; 1; 1; 2] :: repeat J1 11 ++ [mkT [2; 2]%nat [1; 0; 0; 1]; J1].

Lemma A53_factors : tucker_factors X53 S14 A53.
Proof. split; [reflexivity|]. split; [reflexivity|]. intros k Hk. change (k < 14)%nat in Hk. do 14 (destruct k as [|k]; [split; reflexivity|]). lia. Qed.

Lemma s53_wf : nt_wf X53 S14 s53.
Proof.
  pose proof A53_factors. repeat (split; [first [assumption | split; reflexivity | reflexivity]|]). reflexivity.
Qed.

Lemma grams53 : grams A53 = Ok G53.
Proof. rcbv. apply f_equal. entries; apply f_equal; entries. Qed.
Lemma Bsq53 : ttm g53 G53 None false SkNone = Ok (mkT S14 [0; 1; 0; 2]).
Proof. rcbv. apply f_equal, f_equal. entries. Qed.
Lemma XA53 : ttm X53 A53 None true SkNone = Ok (mkT S14 [0; 0; 0; 1]).
Proof. rcbv. apply f_equal, f_equal. entries. Qed.

Lemma core53 svals : exists L, L = listprod (map (fun M => tf_max (svals M)) G53) /\
  nt_core svals X53 s53 = Ok (mkNT A53 A53 A53 (mkT S14 [0; Rmax (0 - 1 / L) 0; 0; Rmax (1 - 1 / L) 0]) g53 g53 1 1 (repeat 1 15) (repeat 1 14 ++ [L]) (repeat 1 15)).
Proof.
  eexists. split; [reflexivity|]. set (L := listprod _). unfold nt_core. cbn [s53 q_A q_gm q_g q_L]. rewrite grams53. cbn [bind].
  change (pynth (repeat 1 15) (Z.of_nat (ndims X53))) with (Ok 1). cbn [bind].
  rewrite (max_single_ok RLR) by discriminate. cbn [bind]. change (without (skipset SkNone) G53) with G53. fold L.
  rewrite Bsq53, XA53. cbn [bind]. clearbody L.
  assert (E1 : forall a b c d a' b' c' d' : R, tf_bin nsub (mkT S14 [a; b; c; d]) (mkT S14 [a'; b'; c'; d']) = Ok (mkT S14 [a - a'; b - b'; c - c'; d - d'])).
  { intros. rcbv. reflexivity. }
  rewrite E1. cbn [bind]. unfold tf_map. cbn [map dat shp]. unfold g53. rewrite E1. cbn [bind tf_map map dat shp].
  fold g53. rewrite !nrelu_R. Rn. apply f_equal.
  change (upd (repeat 1 15) (ndims X53) L) with (repeat 1 14 ++ [L]). change (upd (q_L0 s53) (ndims X53) 1) with (repeat 1 15).
  change (q_Am s53) with A53. change (q_A0 s53) with A53. change (q_g0 s53) with g53. change (q_t s53) with 1. change (q_t0 s53) with 1. change (q_w s53) with (repeat 1 15).
  replace ((0 - 0) / L) with 0 by (unfold Rdiv; ring). replace (2 - 1) with 1 by ring. replace (1 - 0) with 1 by ring. replace (Rmax (0 - 0) 0) with 0; [reflexivity|].
  rewrite Rmax_left; lra.
Qed.

Lemma model53 (p q : R) : sqdist X53 (tucker_tensor (mkT S14 [0; p; 0; q]) A53) = (p + q - 1)² + (q - 1)².
Proof. rcbv. ring. Qed.

Lemma c53_order14 : exists (X : tensor R) ranks s, wf X /\ nonempty (shp X) /\ nonempty ranks /\ nt_wf X ranks s /\ ndims X = 14%nat /\
  q_gm s = q_g s /\ nonneg (q_g s) /\ (forall M, In M (q_A s) -> nonneg M) /\
  forall svals, spectral svals -> exists s1, nt_core svals X s = Ok s1 /\ q_A s1 = q_A s /\ nth (ndims X) (q_L s1) 0 <> 0 /\
    sqdist X (tucker_tensor (q_g s) (q_A s)) < sqdist X (tucker_tensor (q_g s1) (q_A s1)).
Proof.
  exists X53, S14, s53. split; [reflexivity|]. assert (Hne : nonempty S14) by (repeat constructor; discriminate).
  split; [exact Hne|]. split; [exact Hne|]. split; [apply s53_wf|]. split; [reflexivity|]. split; [reflexivity|].
  split; [intros x [<-|[<-|[<-|[<-|[]]]]]; lra|]. split.
  { intros M HM x Hx. unfold s53, A53, q_A, J1 in HM. cbn in HM. repeat (destruct HM as [<-|HM]; [cbn in Hx; repeat (destruct Hx as [<-|Hx]; [lra|]); destruct Hx|]). destruct HM. }
  intros svals HS. destruct (core53 svals) as (L & EL & E). eexists. split; [exact E|]. cbn [q_A q_g q_L].
  assert (HL : 0 < L).
  { rewrite EL. assert (P : forall l, (forall M, In M l -> 0 < tf_max (svals M)) -> 0 < listprod (map (fun M => tf_max (svals M)) l)).
    { induction l as [|M l IH]; intros H; cbn [map listprod]; Rn; [lra|]. apply Rmult_lt_0_compat; [apply H; left; reflexivity|apply IH; intros; apply H; right; assumption]. }
    apply P. intros M HM. assert (K : matrix M /\ nonempty (shp M) /\ (0 < nrows M)%nat /\ (0 < ncols M)%nat /\ mget M 0 0 = 1).
    { unfold G53, J1 in HM. cbn in HM. repeat (destruct HM as [<-|HM]; [split; [split; reflexivity|]; split; [repeat constructor; discriminate|]; cbn; split; [lia|]; split; [lia|]; reflexivity|]). destruct HM. }
    destruct K as (K1 & K2 & K3 & K4 & K5). apply (spectral_pos M _ K3 K4); [rewrite K5; lra|]. apply HS; auto. }
  split; [reflexivity|]. split; [change (L <> 0); lra|].
  change (q_g s53) with (mkT S14 [0; 0; 0; 1]). change (q_A s53) with A53. rewrite !model53. pose proof (Rinv_0_lt_compat L HL) as HI. unfold Rdiv. rewrite Rmult_1_l.
  rewrite (Rmax_right (0 - / L)) by lra. unfold Rsqr. unfold Rmax. destruct (Rle_dec (1 - / L) 0); nra.
Qed.

(** *** C55, C56, C58: HOSVD of full rank returns the zero tensor instead of X *)
Definition X55 : tensor R := mkT S14 [0; 2; 1; 0].

(** a reduced SVD of [[0, a], [b, 0]]: every column of U is a multiple of a unit vector *)
Lemma svd_anti (a b : R) (U W : tensor R) s : thin_svd (mkT [2; 2]%nat [0; a; b; 0]) U s W ->
  forall p, (p < 2)%nat -> a² * mget U 0 p = (s p)² * mget U 0 p /\ b² * mget U 1 p = (s p)² * mget U 1 p.
Proof.
  intros (HU & HW & OU & OW & _ & _ & HM). cbn [nrows ncols dim nth shp Nat.min] in *.
  assert (EW : nrows W = 2%nat /\ ncols W = 2%nat) by (destruct HW as [_ E]; unfold nrows, ncols, dim; rewrite E; auto).
  assert (EU : nrows U = 2%nat /\ ncols U = 2%nat) by (destruct HU as [_ E]; unfold nrows, ncols, dim; rewrite E; auto).
  unfold orthonormal in OU, OW. rewrite (proj1 EW), (proj2 EW) in OW. rewrite (proj1 EU), (proj2 EU) in OU.
  pose proof (OW 0 0 ltac:(lia) ltac:(lia))%nat as W1. pose proof (OW 0 1 ltac:(lia) ltac:(lia))%nat as W2. pose proof (OW 1 1 ltac:(lia) ltac:(lia))%nat as W3.
  pose proof (OU 0 0 ltac:(lia) ltac:(lia))%nat as U1. pose proof (OU 0 1 ltac:(lia) ltac:(lia))%nat as U2. pose proof (OU 1 1 ltac:(lia) ltac:(lia))%nat as U3.
  pose proof (HM 0 0 ltac:(lia) ltac:(lia))%nat as M1. pose proof (HM 0 1 ltac:(lia) ltac:(lia))%nat as M2.
  pose proof (HM 1 0 ltac:(lia) ltac:(lia))%nat as M3. pose proof (HM 1 1 ltac:(lia) ltac:(lia))%nat as M4. clear HM OU OW HU HW EU EW.
  unfold bigsum in *. cbn [bigsum Nat.eqb] in *. Rn.
  change (mget (mkT [2; 2]%nat [0; a; b; 0]) 0 0) with 0 in M1. change (mget (mkT [2; 2]%nat [0; a; b; 0]) 0 1) with a in M2.
  change (mget (mkT [2; 2]%nat [0; a; b; 0]) 1 0) with b in M3. change (mget (mkT [2; 2]%nat [0; a; b; 0]) 1 1) with 0 in M4.
  set (u00 := mget U 0 0) in *. set (u01 := mget U 0 1) in *. set (u10 := mget U 1 0) in *. set (u11 := mget U 1 1) in *.
  set (w00 := mget W 0 0) in *. set (w01 := mget W 0 1) in *. set (w10 := mget W 1 0) in *. set (w11 := mget W 1 1) in *.
  set (s0 := s 0%nat) in *. set (s1 := s 1%nat) in *.
  (* M w_q = s_q u_q and M^T u_q = s_q w_q *)
  assert (F0 : a * w10 = s0 * u00 /\ b * w00 = s0 * u10).
  { split; [pose proof (f_equal (fun x => x * (w00)) M1); pose proof (f_equal (fun x => x * (w10)) M2); pose proof (f_equal (fun x => x * (u00 * s0)) W1); pose proof (f_equal (fun x => x * (u01 * s1)) W2); cbv beta in *; lra|pose proof (f_equal (fun x => x * (w00)) M3); pose proof (f_equal (fun x => x * (w10)) M4); pose proof (f_equal (fun x => x * (u10 * s0)) W1); pose proof (f_equal (fun x => x * (u11 * s1)) W2); cbv beta in *; lra]. }
  assert (F1 : a * w11 = s1 * u01 /\ b * w01 = s1 * u11).
  { split; [pose proof (f_equal (fun x => x * (w01)) M1); pose proof (f_equal (fun x => x * (w11)) M2); pose proof (f_equal (fun x => x * (u00 * s0)) W2); pose proof (f_equal (fun x => x * (u01 * s1)) W3); cbv beta in *; lra|pose proof (f_equal (fun x => x * (w01)) M3); pose proof (f_equal (fun x => x * (w11)) M4); pose proof (f_equal (fun x => x * (u10 * s0)) W2); pose proof (f_equal (fun x => x * (u11 * s1)) W3); cbv beta in *; lra]. }
  assert (G0 : a * u00 = s0 * w10 /\ b * u10 = s0 * w00).
  { split; [pose proof (f_equal (fun x => x * (u00)) M2); pose proof (f_equal (fun x => x * (u10)) M4); pose proof (f_equal (fun x => x * (w10 * s0)) U1); pose proof (f_equal (fun x => x * (w11 * s1)) U2); cbv beta in *; lra|pose proof (f_equal (fun x => x * (u00)) M1); pose proof (f_equal (fun x => x * (u10)) M3); pose proof (f_equal (fun x => x * (w00 * s0)) U1); pose proof (f_equal (fun x => x * (w01 * s1)) U2); cbv beta in *; lra]. }
  assert (G1 : a * u01 = s1 * w11 /\ b * u11 = s1 * w01).
  { split; [pose proof (f_equal (fun x => x * (u01)) M2); pose proof (f_equal (fun x => x * (u11)) M4); pose proof (f_equal (fun x => x * (w10 * s0)) U2); pose proof (f_equal (fun x => x * (w11 * s1)) U3); cbv beta in *; lra|pose proof (f_equal (fun x => x * (u01)) M1); pose proof (f_equal (fun x => x * (u11)) M3); pose proof (f_equal (fun x => x * (w00 * s0)) U2); pose proof (f_equal (fun x => x * (w01 * s1)) U3); cbv beta in *; lra]. }
  destruct F0 as [F0 F0'], F1 as [F1 F1'], G0 as [G0 G0'], G1 as [G1 G1']. unfold Rsqr.
  intros p Hp. destruct p as [|[|p]]; [| |lia]; fold u00 u01 u10 u11 s0 s1.
  - split; [transitivity (a * (a * u00)); [ring|]; rewrite G0; transitivity (s0 * (a * w10)); [ring|]; rewrite F0; ring|].
    transitivity (b * (b * u10)); [ring|]. rewrite G0'. transitivity (s0 * (b * w00)); [ring|]. rewrite F0'. ring.
  - split; [transitivity (a * (a * u01)); [ring|]; rewrite G1; transitivity (s1 * (a * w11)); [ring|]; rewrite F1; ring|].
    transitivity (b * (b * u11)); [ring|]. rewrite G1'. transitivity (s1 * (b * w01)); [ring|]. rewrite F1'. ring.
Qed.

Lemma zero_or (c d u : R) : c * u = d * u -> u = 0 \/ c = d.
Proof. intros H. destruct (Req_dec u 0) as [|Hu]; [left; assumption|right]. apply (Rmult_eq_reg_r u); assumption. Qed.

(** the left factors of [[0, 2], [1, 0]] and [[0, 1], [2, 0]], up to signs *)
Lemma svd_big_small U s W : thin_svd (mkT [2; 2]%nat [0; 2; 1; 0]) U s W -> mget U 0 1 = 0 /\ mget U 1 0 = 0.
Proof.
  intros H. pose proof (svd_anti 2 1 U W s H) as E. destruct H as (HU & _ & OU & _ & Hp & Hd & _). cbn [nrows ncols dim nth shp Nat.min] in *.
  destruct (E 0%nat ltac:(lia)) as [E1 E2]. destruct (E 1%nat ltac:(lia)) as [E3 E4].
  assert (EU : nrows U = 2%nat /\ ncols U = 2%nat) by (destruct HU as [_ E0]; unfold nrows, ncols, dim; rewrite E0; auto).
  unfold orthonormal in OU. rewrite (proj1 EU), (proj2 EU) in OU.
  pose proof (OU 0 0 ltac:(lia) ltac:(lia))%nat as U1. pose proof (OU 0 1 ltac:(lia) ltac:(lia))%nat as U2. pose proof (OU 1 1 ltac:(lia) ltac:(lia))%nat as U3.
  pose proof (Hp 0%nat ltac:(lia)) as P0. pose proof (Hp 1%nat ltac:(lia)) as P1. pose proof (Hd 0%nat 1%nat ltac:(lia) ltac:(lia)) as D.
  unfold bigsum in *. cbn [bigsum Nat.eqb] in *. Rn. unfold Rsqr in *.
  set (u00 := mget U 0 0) in *. set (u01 := mget U 0 1) in *. set (u10 := mget U 1 0) in *. set (u11 := mget U 1 1) in *.
  set (s0 := s 0%nat) in *. set (s1 := s 1%nat) in *. clearbody u00 u01 u10 u11 s0 s1. clear - E1 E2 E3 E4 U1 U2 U3 P0 P1 D.
  destruct (Req_dec u00 0) as [Z|Z].
  - exfalso. subst u00. apply zero_or in E2 as [->|E2]; [lra|]. apply zero_or in E3 as [->|E3]; [|nra]. assert (u11 <> 0) by nra. assert (u10 <> 0) by nra. apply (Rmult_integral_contrapositive u10 u11); [split; assumption|lra].
  - apply zero_or in E1 as [|E1]; [contradiction|]. apply zero_or in E2 as [->|E2]; [|lra]. split; [|reflexivity]. apply (Rmult_eq_reg_l u00); [lra|exact Z].
Qed.

Lemma svd_small_big U s W : thin_svd (mkT [2; 2]%nat [0; 1; 2; 0]) U s W -> mget U 0 0 = 0 /\ mget U 1 1 = 0.
Proof.
  intros H. pose proof (svd_anti 1 2 U W s H) as E. destruct H as (HU & _ & OU & _ & Hp & Hd & _). cbn [nrows ncols dim nth shp Nat.min] in *.
  destruct (E 0%nat ltac:(lia)) as [E1 E2]. destruct (E 1%nat ltac:(lia)) as [E3 E4].
  assert (EU : nrows U = 2%nat /\ ncols U = 2%nat) by (destruct HU as [_ E0]; unfold nrows, ncols, dim; rewrite E0; auto).
  unfold orthonormal in OU. rewrite (proj1 EU), (proj2 EU) in OU.
  pose proof (OU 0 0 ltac:(lia) ltac:(lia))%nat as U1. pose proof (OU 0 1 ltac:(lia) ltac:(lia))%nat as U2. pose proof (OU 1 1 ltac:(lia) ltac:(lia))%nat as U3.
  pose proof (Hp 0%nat ltac:(lia)) as P0. pose proof (Hp 1%nat ltac:(lia)) as P1. pose proof (Hd 0%nat 1%nat ltac:(lia) ltac:(lia)) as D.
  unfold bigsum in *. cbn [bigsum Nat.eqb] in *. Rn. unfold Rsqr in *.
  set (u00 := mget U 0 0) in *. set (u01 := mget U 0 1) in *. set (u10 := mget U 1 0) in *. set (u11 := mget U 1 1) in *.
  set (s0 := s 0%nat) in *. set (s1 := s 1%nat) in *. clearbody u00 u01 u10 u11 s0 s1. clear - E1 E2 E3 E4 U1 U2 U3 P0 P1 D.
  destruct (Req_dec u10 0) as [Z|Z].
  - exfalso. subst u10. apply zero_or in E1 as [->|E1]; [lra|]. apply zero_or in E4 as [->|E4]; [|nra]. assert (u01 <> 0) by nra. assert (u00 <> 0) by nra. apply (Rmult_integral_contrapositive u00 u01); [split; assumption|lra].
  - apply zero_or in E2 as [|E2]; [contradiction|]. apply zero_or in E1 as [->|E1]; [|lra]. split; [reflexivity|]. apply (Rmult_eq_reg_l u10); [lra|exact Z].
Qed.

Lemma unf55_0 : unfold X55 (Z.of_nat 0) = Ok (mkT [2; 2]%nat [0; 2; 1; 0]).
Proof. rcbv. reflexivity. Qed.
Lemma unf55_12 : unfold X55 (Z.of_nat 12) = Ok (mkT [2; 2]%nat [0; 1; 2; 0]).
Proof. rcbv. reflexivity. Qed.

Lemma mat11 (M : tensor R) : is_mat M 1 1 -> orthonormal M -> exists e, M = mkT [1; 1]%nat [e] /\ e * e = 1.
Proof.
  destruct M as [sh d]. intros [Hw Hs] O. cbn [shp] in Hs. subst sh. unfold wf in Hw. cbn in Hw. destruct d as [|e [|? ?]]; try discriminate. exists e. split; [reflexivity|].
  specialize (O 0%nat 0%nat ltac:(cbn; lia) ltac:(cbn; lia)). unfold bigsum, mget, get in O. cbn in O. lra.
Qed.

Lemma mat22 (M : tensor R) : is_mat M 2 2 -> orthonormal M -> exists a b c d, M = mkT [2; 2]%nat [a; b; c; d] /\ a * a + c * c = 1 /\ b * b + d * d = 1.
Proof.
  destruct M as [sh d]. intros [Hw Hs] O. cbn [shp] in Hs. subst sh. unfold wf in Hw. cbn in Hw. destruct d as [|a [|b [|c [|d [|? ?]]]]]; try discriminate. exists a, b, c, d. split; [reflexivity|].
  pose proof (O 0%nat 0%nat ltac:(cbn; lia) ltac:(cbn; lia)) as O1. pose proof (O 1%nat 1%nat ltac:(cbn; lia) ltac:(cbn; lia)) as O2. unfold bigsum, mget, get in O1, O2. cbn in O1, O2. lra.
Qed.

Lemma list14 {A} (l : list A) d : length l = 14%nat -> l = map (fun k => nth k l d) (seq 0 14).
Proof. intros H. apply nth_ext with (d := d) (d' := d); [rewrite map_length, seq_length; exact H|]. rewrite H. intros k Hk. rewrite nth_map_seq by auto. reflexivity. Qed.

Definition P14 (e : nat -> R) : R := e 1%nat * (e 2%nat * (e 3%nat * (e 4%nat * (e 5%nat * (e 6%nat * (e 7%nat * (e 8%nat * (e 9%nat * (e 10%nat * (e 11%nat * e 13%nat)))))))))).
Definition B14 (u v w z : R) (e : nat -> R) : list (tensor R) :=
  map (fun k => match k with 0 => mkT [2; 2]%nat [u; 0; 0; v] | 12 => mkT [2; 2]%nat [0; w; z; 0] | _ => mkT [1; 1]%nat [e k] end) (seq 0 14).

Lemma core55 u v w z e : ttm X55 (B14 u v w z e) None true SkNone = Ok (mkT S14 [2 * (u * z * P14 e); 0; 0; v * w * P14 e]).
Proof. rcbv. apply f_equal, f_equal. entries. Qed.
Lemma full55 a b u v w z e : ttm (mkT S14 [a; 0; 0; b]) (B14 u v w z e) None false SkNone = Ok (mkT S14 [0; 0; 0; 0]).
Proof. rcbv. apply f_equal, f_equal. entries. Qed.

Lemma factors55 svdU A : left_svd svdU -> factor_state X55 S14 A ->
  (forall n, (n < 14)%nat -> exists M, unfold X55 (Z.of_nat n) = Ok M /\ mat_at A n = leading (svdU M) (nth n S14 0%nat)) ->
  exists u v w z e, A = B14 u v w z e /\ u * u = 1 /\ v * v = 1 /\ w * w = 1 /\ z * z = 1 /\ forall k, (k < 14)%nat -> k <> 0%nat -> k <> 12%nat -> e k * e k = 1.
Proof.
  intros HS [HL HA] HU. change (ndims X55) with 14%nat in *.
  destruct (HA 0%nat ltac:(lia)) as [M0 O0]. destruct (HA 12%nat ltac:(lia)) as [M12 O12].
  assert (LE : forall U : tensor R, is_mat U 2 2 -> leading U 2 = U).
  { intros U [Hw Hs]. destruct U as [sh d]. cbn [shp] in Hs. subst sh. unfold wf in Hw. cbn in Hw. destruct d as [|a [|b [|c [|d [|? ?]]]]]; try discriminate. reflexivity. }
  assert (Z0 : mget (mat_at A 0) 0 1 = 0 /\ mget (mat_at A 0) 1 0 = 0).
  { destruct (HU 0%nat ltac:(lia)) as (M & EM & ->). rewrite unf55_0 in EM. injection EM as <-.
    destruct (HS (mkT [2; 2]%nat [0; 2; 1; 0])) as (s & W & H); [split; reflexivity|discriminate|discriminate|]. change (nth 0 S14 0%nat) with 2%nat.
    rewrite (LE _ (proj1 H)). apply (svd_big_small _ _ _ H). }
  assert (Z12 : mget (mat_at A 12) 0 0 = 0 /\ mget (mat_at A 12) 1 1 = 0).
  { destruct (HU 12%nat ltac:(lia)) as (M & EM & ->). rewrite unf55_12 in EM. injection EM as <-.
    destruct (HS (mkT [2; 2]%nat [0; 1; 2; 0])) as (s & W & H); [split; reflexivity|discriminate|discriminate|]. change (nth 12 S14 0%nat) with 2%nat.
    rewrite (LE _ (proj1 H)). apply (svd_small_big _ _ _ H). }
  change (nth 0 (shp X55) 0%nat) with 2%nat in M0. change (nth 0 S14 0%nat) with 2%nat in M0. change (nth 12 (shp X55) 0%nat) with 2%nat in M12. change (nth 12 S14 0%nat) with 2%nat in M12.
  destruct (mat22 _ M0 O0) as (u & b & c & v & E0 & U1 & U2). destruct (mat22 _ M12 O12) as (a & w & z & d & E12 & W1 & W2).
  rewrite E0 in Z0. rewrite E12 in Z12. unfold mget, get in Z0, Z12. cbn in Z0, Z12. destruct Z0 as [-> ->], Z12 as [-> ->].
  exists u, v, w, z, (fun k => mget (mat_at A k) 0 0).
  assert (E1 : forall k, (k < 14)%nat -> k <> 0%nat -> k <> 12%nat -> mat_at A k = mkT [1; 1]%nat [mget (mat_at A k) 0 0] /\ mget (mat_at A k) 0 0 * mget (mat_at A k) 0 0 = 1).
  { intros k Hk K0 K12. destruct (HA k Hk) as [Mk Ok]. assert (nth k S14 0%nat = 1%nat) by (do 14 (destruct k as [|k]; [try lia; reflexivity|]); lia).
    change (shp X55) with S14 in Mk. rewrite H in Mk. destruct (mat11 _ Mk Ok) as (e & E & Ee). rewrite E. split; [reflexivity|exact Ee]. }
  split.
  - rewrite (list14 A (mkT [] []) HL) at 1. unfold B14. apply map_ext_in. intros k Hk. apply in_seq in Hk. fold (mat_at A k).
    destruct (Nat.eq_dec k 0) as [->|K0]; [exact E0|]. destruct (Nat.eq_dec k 12) as [->|K12]; [exact E12|].
    rewrite (proj1 (E1 k ltac:(lia) K0 K12)) at 1. do 14 (destruct k as [|k]; [try congruence; reflexivity|]). lia.
  - split; [lra|]. split; [lra|]. split; [lra|]. split; [lra|]. intros k Hk K0 K12. apply (E1 k Hk K0 K12).
Qed.

Lemma sq_P14 e : (forall k, (k < 14)%nat -> k <> 0%nat -> k <> 12%nat -> e k * e k = 1) -> P14 e * P14 e = 1.
Proof.
  intros H. assert (M : forall a b, a * a = 1 -> b * b = 1 -> (a * b) * (a * b) = 1) by (intros a b Ha Hb; transitivity ((a * a) * (b * b)); [ring|rewrite Ha, Hb; ring]).
  unfold P14. repeat (apply M; [apply H; lia|]). apply H; lia.
Qed.

Lemma c55_order14 : exists X : tensor R, wf X /\ nonempty (shp X) /\ ndims X = 14%nat /\ 0 < sqlen X /\ forall svdU, left_svd svdU ->
  exists o, hosvd svdU X (map Z.of_nat (shp X)) = Ok o /\ factor_state X (shp X) (tu_A o) /\
    sqlen (tu_core o) = sqlen X /\ sqdist X (tu_full o) = sqlen X.
Proof.
  exists X55. split; [reflexivity|]. assert (Hne : nonempty (shp X55)) by (repeat constructor; discriminate). split; [exact Hne|]. split; [reflexivity|].
  assert (EX : sqlen X55 = 5) by (rcbv; ring). rewrite EX. split; [lra|]. intros svdU HS.
  destruct (hosvd_factors svdU X55 S14 HS Hne ltac:(cbn; lia)) as (A & EA & HA & HU). change (fitted (shp X55) S14) with S14 in HA.
  destruct (factors55 svdU A HS HA HU) as (u & v & w & z & e & E & U1 & U2 & W1 & W2 & He). pose proof (sq_P14 e He) as HP. rewrite E in *.
  unfold hosvd. change (shp X55) with S14. rewrite EA. cbn [bind]. rewrite core55. cbn [bind]. unfold tt_extract. rewrite full55. cbn [bind].
  destruct (rmse_ignore_zero X55 (mkT S14 [0; 0; 0; 0])) as [r|] eqn:Er.
  2: { rewrite (rmse_iz_R X55) in Er by reflexivity. discriminate. }
  cbn [bind]. eexists. split; [reflexivity|]. cbn [tu_A tu_core tu_full]. split; [exact HA|]. clear EA HA HU Er. set (p := P14 e) in *. clearbody p. split; [|rcbv; ring].
  assert (K1 : (u * z * p) * (u * z * p) = 1) by (transitivity ((u * u) * (z * z) * (p * p)); [ring|rewrite U1, W2, HP; ring]).
  assert (K2 : (v * w * p) * (v * w * p) = 1) by (transitivity ((v * v) * (w * w) * (p * p)); [ring|rewrite U2, W1, HP; ring]).
  set (a := u * z * p) in *. set (b := v * w * p) in *. clearbody a b. rcbv. lra.
Qed.

Lemma discarded_full (s : nat -> R) r k : (k <= r)%nat -> discarded s r k = 0.
Proof. intros H. unfold discarded. rewrite <- (sumn_bigsum RLR). apply sumnR_zero. intros p Hp. destruct (Nat.ltb_spec p r); [reflexivity|lia]. Qed.

Lemma c58_order14 : exists X : tensor R, wf X /\ nonempty (shp X) /\ ndims X = 14%nat /\ forall svdU (s : nat -> nat -> R), left_svd svdU ->
  exists o, hosvd svdU X (map Z.of_nat (shp X)) = Ok o /\
    bigsum (ndims X) (fun n => discarded (s n) (nth n (shp X) 0%nat) (Nat.min (nth n (shp X) 0%nat) (rest n (shp X)))) < sqdist X (tu_full o).
Proof.
  destruct c55_order14 as (X & H1 & H2 & H3 & H4 & H). exists X. split; [exact H1|]. split; [exact H2|]. split; [exact H3|]. intros svdU s HS.
  destruct (H svdU HS) as (o & E & _ & _ & D). exists o. split; [exact E|]. rewrite D. rewrite <- (sumn_bigsum RLR). rewrite sumnR_zero; [exact H4|].
  intros n _. apply discarded_full. apply Nat.le_min_l.
Qed.
