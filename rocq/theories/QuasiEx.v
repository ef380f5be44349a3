(** Cases to which the theorems of PropsQuasi.v apply. *)

From Coq Require Import ZArith List Bool Arith Lia Reals Lra Psatz.
From Verif Require Import Num Py Tensor TF TensorFacts TFFacts Sums Ops OpsLemmas Types Loss Fact Train Spec SpecR LayoutFacts SpecFacts MulFacts TtmFacts SkipFacts TtmLemmas Matricize
  KronFacts RSums MatR KronAlg NormFacts SpecTucker MultiR SvdFacts TuckerFacts TuckerRun TuckerLemmas SpecCp SpecBcu BcuFacts SpecTrain TrainLemmas CpFacts AlsFacts AlsLemmas
  SpecProx Prox NcpFacts NcpLemmas NtFacts NtLemmas DataFacts TrainFacts SvdExists Order14 Exact QuasiOpt.
Import ListNotations.
From Coq Require Import Permutation.
Local Open Scope R_scope.

(** the diagonal tensor (3, 1), the first unit vectors; ones *)
Definition X3 : tensor R := mkT [2; 2; 2]%nat [3; 0; 0; 0; 0; 0; 0; 1].
Definition B3 : list (tensor R) := repeat (mkT [2; 1]%nat [1; 0]) 3.
Definition O3 : tensor R := mkT [2; 2; 2]%nat [1; 1; 1; 1; 1; 1; 1; 1].
Definition C3 : list (tensor R) := repeat (mkT [2; 1]%nat [1; 1]) 3.

Lemma X3_ne : nonempty (shp X3). Proof. repeat constructor; discriminate. Qed.
Lemma r111_ne : nonempty [1; 1; 1]%nat. Proof. repeat constructor; discriminate. Qed.
Lemma three (P : nat -> Prop) : P 0%nat -> P 1%nat -> P 2%nat -> forall n, (n < 3)%nat -> P n.
Proof. intros H0 H1 H2 n Hn. do 3 (destruct n as [|n]; [assumption|]). lia. Qed.
Lemma B3_factors : tucker_factors X3 [1; 1; 1]%nat B3.
Proof. split; [reflexivity|]. split; [reflexivity|]. apply three; split; reflexivity. Qed.
Lemma C3_factors : tucker_factors O3 [1; 1; 1]%nat C3.
Proof. split; [reflexivity|]. split; [reflexivity|]. apply three; split; reflexivity. Qed.
Lemma B3_state : factor_state X3 [1; 1; 1]%nat B3.
Proof.
  split; [reflexivity|].
  assert (Q : is_mat (mkT [2; 1]%nat [1; 0]) 2 1 /\ orthonormal (mkT [2; 1]%nat [1; 0])).
  { split; [split; reflexivity|]. intros i j Hi Hj. cbn in Hi, Hj. assert (i = 0)%nat by lia. assert (j = 0)%nat by lia. subst. cbn. unfold mget, get. cbn. Rn. lra. }
  apply three; exact Q.
Qed.
Ltac ev := unfold sqdist, sqlen, tucker_tensor, project, gen, X3, B3, O3, C3, mgen, mat_at, mget, get, nrows, msum, bigsum; cbn; unfold Rsqr; Rn.
Lemma B3_err : sqdist X3 (tucker_tensor (mkT [1; 1; 1]%nat [3]) B3) = 1. Proof. ev. lra. Qed.

Section Ex.
  Variable svdU : tensor R -> tensor R.
  Hypothesis HS : left_svd svdU.

  Lemma train3 X : shp X = [2; 2; 2]%nat -> wf X ->
    (exists o' h, hosvd_train svdU X (mkW [7%nat] true) (mkObj (Some (map Z.of_nat [1; 1; 1]%nat, 7%nat)) pub0) tt 5 = (o', Ok h)) /\
    (exists o' h, hooi_train svdU X (mkW [7%nat] true)
       (mkObj (Some ((mkArgs (1/10) 1%Z false, map Z.of_nat [1; 1; 1]%nat), 7%nat)) pub0) tt 5 = (o', Ok h)).
  Proof.
    intros Hs HX. assert (Hne : nonempty (shp X)) by (rewrite Hs; apply X3_ne). assert (Hd : ndims X = 3%nat) by (unfold ndims; rewrite Hs; reflexivity). split.
    - destruct (c54_hosvd svdU X [1; 1; 1]%nat HS HX Hne) as (o & E & _); [lia|cbn; lia|].
      unfold hosvd_train, obj_train, hosvd_body. cbn [o_built w_path w_sums negb forallb Nat.eqb andb]. rewrite E. eauto.
    - eapply (c54_hooi_total svdU X [1; 1; 1]%nat); eauto; try reflexivity; try apply r111_ne; try lia.
      + rewrite Hd, Hs. apply three; vm_compute; lia.
      + cbn. intros i [<-|[]]. reflexivity.
      + discriminate.
  Qed.

  Lemma run3 : exists A0 o ob, hooi_init svdU X3 (map Z.of_nat [1; 1; 1]%nat) = Ok A0 /\ hosvd svdU X3 (map Z.of_nat [1; 1; 1]%nat) = Ok o /\
    als_run (hooi_run svdU X3 (map Z.of_nat [1; 1; 1]%nat)) A0 [ob] /\ factor_state X3 [1; 1; 1]%nat A0.
  Proof.
    destruct (c54_hooi svdU X3 [1; 1; 1]%nat HS eq_refl X3_ne r111_ne eq_refl ltac:(cbn; lia)) as [G1 G2].
    destruct G1 as (A0 & EA & HA); [apply (three (fun n => nth n [1; 1; 1] 0 <= _)%nat); vm_compute; lia|].
    destruct (G2 ltac:(apply (three (fun n => nth n [1; 1; 1] 0 <= _)%nat); vm_compute; lia) A0 HA) as (q & Eq & Hq).
    destruct (c54_hosvd svdU X3 [1; 1; 1]%nat HS eq_refl X3_ne ltac:(cbn; lia) ltac:(cbn; lia)) as (o & Eo & _).
    exists A0, o, (mkObs (ho_A q) (Some (ho_core q)) (ho_full q) (ho_met q)). split; [exact EA|]. split; [exact Eo|]. split; [|exact HA].
    exists (fun k => match k with 0%nat => A0 | _ => ho_A q end). split; [reflexivity|]. intros [|k] ob E; [|destruct k; discriminate]. injection E as <-.
    unfold hooi_run. rewrite Eq. reflexivity.
  Qed.
End Ex.

Lemma not_rank1 g A : length A = 3%nat -> (forall k, (k < 3)%nat -> is_mat (mat_at A k) 2 1) -> shp g = [1; 1; 1]%nat -> tucker_tensor g A <> X3.
Proof.
  intros HL HA Hg E. destruct A as [|a [|b [|c [|? ?]]]]; try discriminate.
  destruct (HA 0%nat ltac:(lia)) as [_ Ha]. destruct (HA 1%nat ltac:(lia)) as [_ Hb]. destruct (HA 2%nat ltac:(lia)) as [_ Hc]. unfold mat_at in Ha, Hb, Hc. cbn in Ha, Hb, Hc.
  unfold tucker_tensor, gen, nrows, ncols in E. rewrite Hg in E. cbn in E. rewrite Ha, Hb, Hc in E. cbn in E. unfold X3 in E. injection E as E0 E1 E2 E3 E4 E5 E6 E7.
  unfold mat_at in *. cbn in *. Rn. set (x := get g [0; 0; 0]%nat) in *.
  set (a0 := mget a 0 0) in *. set (a1 := mget a 1 0) in *. set (b0 := mget b 0 0) in *. set (b1 := mget b 1 0) in *. set (c0 := mget c 0 0) in *. set (c1 := mget c 1 0) in *.
  match type of E0 with ?p = 3 => match type of E7 with ?q = 1 => match type of E1 with ?r = 0 => match type of E6 with ?s = 0 =>
    assert (K : p * q = r * s) by ring; rewrite E0, E7, E1, E6 in K; lra end end end end.
Qed.

Lemma ex75 : exists svdU A0 o ob, left_svd svdU /\ wf X3 /\ nonempty (shp X3) /\ nonempty [1; 1; 1]%nat /\ sqlen X3 = 10 /\
  hooi_init svdU X3 (map Z.of_nat [1; 1; 1]%nat) = Ok A0 /\ hosvd svdU X3 (map Z.of_nat [1; 1; 1]%nat) = Ok o /\
  als_run (hooi_run svdU X3 (map Z.of_nat [1; 1; 1]%nat)) A0 [ob] /\ tu_full o <> X3.
Proof.
  destruct left_svd_exists as (svdU & HS). destruct (run3 svdU HS) as (A0 & o & ob & H1 & H2 & H3 & H4). exists svdU, A0, o, ob.
  split; [exact HS|]. split; [reflexivity|]. split; [apply X3_ne|]. split; [apply r111_ne|]. split; [ev; lra|]. split; [exact H1|]. split; [exact H2|]. split; [exact H3|].
  destruct (hosvd_ok svdU X3 [1; 1; 1]%nat HS eq_refl X3_ne ltac:(cbn; lia) ltac:(cbn; lia)) as (o' & E' & F1 & F2 & F3 & _). rewrite H2 in E'. injection E' as <-.
  rewrite (hooi_init_hosvd svdU X3 _ A0 o H1 H2) in F2, F3. rewrite F3. apply not_rank1.
  - apply H4.
  - intros k Hk. pose proof (proj1 (proj2 H4 k Hk)) as Q. do 3 (destruct k as [|k]; [exact Q|]). lia.
  - rewrite F2. apply (proj_shape' X3 [1; 1; 1]%nat A0 (state_tucker X3 _ A0 H4 eq_refl) X3 eq_refl).
Qed.

Lemma ex75_train : exists svdU, left_svd svdU /\
  (exists o' h, hosvd_train svdU X3 (mkW [7%nat] true) (mkObj (Some (map Z.of_nat [1; 1; 1]%nat, 7%nat)) pub0) tt 5 = (o', Ok h)) /\
  (exists o' h, hooi_train svdU X3 (mkW [7%nat] true)
     (mkObj (Some ((mkArgs (1/10) 1%Z false, map Z.of_nat [1; 1; 1]%nat), 7%nat)) pub0) tt 5 = (o', Ok h)).
Proof. destruct left_svd_exists as (svdU & HS). exists svdU. split; [exact HS|]. apply train3; auto; reflexivity. Qed.

Lemma ex76 : tucker_factors X3 [1; 1; 1]%nat B3 /\ core_like [1; 1; 1]%nat (mkT [1; 1; 1]%nat [3]) /\
  sqdist X3 (tucker_tensor (mkT [1; 1; 1]%nat [3]) B3) = 1 /\
  exists svdU o M W s, left_svd svdU /\ hosvd svdU X3 (map Z.of_nat [1; 1; 1]%nat) = Ok o /\ sqdist X3 (tu_full o) <= 3 /\
    unfold X3 (Z.of_nat 1) = Ok M /\ thin_svd M (svdU M) s W.
Proof.
  split; [apply B3_factors|]. assert (Hg : core_like [1; 1; 1]%nat (mkT [1; 1; 1]%nat [3])) by (split; reflexivity). split; [exact Hg|]. split; [apply B3_err|].
  destruct left_svd_exists as (svdU & HS). destruct (run3 svdU HS) as (A0 & o & ob & H1 & H2 & H3 & H4).
  destruct (unfold_ok X3 1) as (M & HM & _); [cbn; lia|discriminate|]. pose proof HM as HM2. apply unfold_mat in HM2 as [_ HM2]; [|cbn; lia|discriminate].
  destruct (matrix_is_mat _ _ _ HM2) as (Hmm & Hr & Hc). destruct (HS M Hmm) as (s & W & Hs); [rewrite Hr; discriminate|rewrite Hc; discriminate|].
  exists svdU, o, M, W, s. split; [exact HS|]. split; [exact H2|]. split; [|split; [exact HM|exact Hs]].
  pose proof (hosvd_quasi svdU X3 [1; 1; 1]%nat [1; 1; 1]%nat o (mkT [1; 1; 1]%nat [3]) B3 HS eq_refl X3_ne ltac:(cbn; lia) ltac:(cbn; lia) H2 B3_factors Hg ltac:(intros; lia)) as D.
  rewrite B3_err, Rmult_1_r in D. change (INR (ndims X3)) with (1 + 1 + 1) in D. lra.
Qed.

Lemma ex77 : exists svdU o, left_svd svdU /\ factor_state X3 [1; 1; 1]%nat B3 /\
  hooi_step svdU X3 (map Z.of_nat [1; 1; 1]%nat) B3 = Ok o /\ sqdist X3 (tucker_tensor (project X3 B3) B3) = 1 /\
  core_like [1; 1; 1]%nat (mkT [1; 1; 1]%nat [5]) /\ is_mat (mkT [2; 1]%nat [0; 1]) 2 1.
Proof.
  destruct left_svd_exists as (svdU & HS). destruct (c54_hooi svdU X3 [1; 1; 1]%nat HS eq_refl X3_ne r111_ne eq_refl ltac:(cbn; lia)) as [_ G2].
  destruct (G2 ltac:(apply (three (fun n => nth n [1; 1; 1] 0 <= _)%nat); vm_compute; lia) B3 B3_state) as (q & Eq & Hq).
  exists svdU, q. split; [exact HS|]. split; [apply B3_state|]. split; [exact Eq|]. split; [ev; lra|]. split; split; reflexivity.
Qed.

Lemma ex78 : tucker_factors O3 [1; 1; 1]%nat C3 /\ core_like [1; 1; 1]%nat (mkT [1; 1; 1]%nat [1]) /\
  O3 = tucker_tensor (mkT [1; 1; 1]%nat [1]) C3 /\ (exists i, valid (shp O3) i /\ get O3 i <> 0) /\
  exists svdU, left_svd svdU /\ wf O3 /\ nonempty (shp O3) /\
  (exists o' h, hosvd_train svdU O3 (mkW [7%nat] true) (mkObj (Some (map Z.of_nat [1; 1; 1]%nat, 7%nat)) pub0) tt 5 = (o', Ok h)) /\
  (exists o' h, hooi_train svdU O3 (mkW [7%nat] true)
     (mkObj (Some ((mkArgs (1/10) 1%Z false, map Z.of_nat [1; 1; 1]%nat), 7%nat)) pub0) tt 5 = (o', Ok h)).
Proof.
  split; [apply C3_factors|]. split; [split; reflexivity|]. split; [ev; repeat (f_equal; try lra)|].
  split; [exists [0; 0; 0]%nat; split; [repeat constructor; lia|unfold O3, get; cbn; lra]|].
  destruct left_svd_exists as (svdU & HS). exists svdU. split; [exact HS|]. split; [reflexivity|]. split; [apply X3_ne|]. apply train3; auto; reflexivity.
Qed.
