(** 2x2x2 runs of the experiment scripts, for PropsExp.v. *)

From Coq Require Import ZArith List Bool Arith Lia Reals Lra Psatz.
From Verif Require Import Num Py Tensor TensorFacts Sums Types Fact Train Spec SpecR SpecFacts RSums LossFacts SpecCp SpecProx SpecTucker QuasiEx Exact SvdExists AlsLemmas DataGen SpecData DataRecover
  SynthEx Process Experiment SpecExp ExpFacts ExpRun.
Import ListNotations.
Local Open Scope R_scope.

(** every uniform draw is 1, the normal draw is 1 in the first position and 0 elsewhere *)
Definition rand1 (k : nat) (s : list nat) : tensor R := gen s (fun _ => 1).
Definition randn1 (s : list nat) : tensor R := gen s (fun i => if forallb (Nat.eqb 0) i then 1 else 0).
Lemma gen1 : generator rand1 randn1.
Proof. split; intros; split; try apply wf_gen; reflexivity. Qed.

Definition X111 : tensor R := with_noise [2; 2; 2]%nat (tucker_model rand1 2 2 2 1) (4 / 100) (randn1 [2; 2; 2]%nat).
Lemma X111_val : X111 = mkT [2; 2; 2]%nat [104/100; 1; 1; 1; 1; 1; 1; 1].
Proof.
  unfold X111, with_noise, gen. cbn -[Rmax]. f_equal. unfold positive_part, get. cbn -[Rmax]. Rn.
  rewrite !(Rmax_right 0 1) by lra. rewrite (Rmax_right 0 (4 / 100 * 1)), (Rmax_left 0 (4 / 100 * 0)) by lra. repeat (apply f_equal2; [lra|]). reflexivity.
Qed.

(** a model with one component in every mode *)
Lemma rank111 (A : list (tensor R)) (g : tensor R) (F : tensor R) : length A = 3%nat -> (forall k, (k < 3)%nat -> is_mat (mat_at A k) 2 1) -> shp g = [1; 1; 1]%nat ->
  F = tucker_tensor g A -> get F [0; 0; 0]%nat * get F [1; 1; 1]%nat = get F [1; 0; 0]%nat * get F [0; 1; 1]%nat.
Proof.
  intros HL HA Hg ->. destruct A as [|a [|b [|c [|]]]]; try discriminate HL.
  assert (Es : map nrows [a; b; c] = [2; 2; 2]%nat).
  { cbn. unfold nrows. pose proof (proj2 (HA 0%nat ltac:(lia))) as E0. pose proof (proj2 (HA 1%nat ltac:(lia))) as E1. pose proof (proj2 (HA 2%nat ltac:(lia))) as E2.
    unfold mat_at in *. cbn [nth] in *. rewrite E0, E1, E2. reflexivity. }
  assert (V : forall i j k, (i < 2)%nat -> (j < 2)%nat -> (k < 2)%nat -> get (tucker_tensor g [a; b; c]) [i; j; k] = get g [0; 0; 0]%nat * (mget a i 0 * mget b j 0 * mget c k 0)).
  { intros i j k Hi Hj Hk. unfold tucker_tensor. rewrite get_gen; [|rewrite Es; repeat (apply Forall2_cons; [assumption|]); apply Forall2_nil]. rewrite Hg. cbn. unfold mat_at. cbn. Rn. ring. }
  rewrite !V by lia. ring.
Qed.

Lemma c111_wit : exists svdU h, left_svd svdU /\ generator rand1 randn1 /\
  (exists i, valid [2; 2; 2]%nat i /\ get (tucker_model rand1 2 2 2 1) i <> 0) /\
  tucker_ex svdU rand1 randn1 2 2 2 1 1 = Ok h /\ h <> [] /\ forall l, In l h -> 0 < snd l.
Proof.
  destruct left_svd_exists as (svdU & HS). exists svdU. destruct (c111_tucker 2 2 2 ne222 rand1 randn1 gen1 (4 / 100) svdU 1 1 X111 HS ltac:(lia) ltac:(lia) ltac:(lia) ltac:(lia) eq_refl) as (h & Eh & [Hl Ho]).
  exists h. split; [exact HS|]. split; [apply gen1|]. split.
  { exists [0; 0; 0]%nat. split; [repeat constructor|]. unfold positive_part, get. cbn -[Rmax]. Rn. rewrite !(Rmax_right 0 1) by lra. lra. }
  split; [exact Eh|]. split; [intros ->; cbn in Hl; lia|]. intros l Hin. destruct (Ho l Hin) as (F & (A & HF & EF) & _ & L). rewrite L.
  assert (Hp : 0 < sqrt (sqlen X111)).
  { apply sqrt_lt_R0, sqlen_pos. exists [0; 0; 0]%nat. rewrite X111_val. split; [repeat constructor|]. unfold get. cbn. lra. }
  unfold Rdiv. apply Rmult_lt_0_compat; [|apply Rinv_0_lt_compat, Hp]. apply sqrt_lt_R0.
  destruct (Req_dec (sqdist X111 F) 0) as [K|K]; [exfalso|pose proof (sqdist_nonneg X111 F); lra].
  assert (Es : shp F = [2; 2; 2]%nat).
  { rewrite EF. destruct HF as [HL HA]. cbn [tucker_tensor shp gen]. destruct A as [|a [|b [|c [|]]]]; try discriminate HL. cbn [map]. unfold nrows.
    pose proof (proj2 (proj1 (HA 0%nat ltac:(cbn; lia)))) as E0. pose proof (proj2 (proj1 (HA 1%nat ltac:(cbn; lia)))) as E1. pose proof (proj2 (proj1 (HA 2%nat ltac:(cbn; lia)))) as E2.
    unfold mat_at in *. cbn [nth] in *. rewrite E0, E1, E2. reflexivity. }
  apply sqdist_zero in K; [|apply wf_gen|rewrite EF; apply wf_gen|rewrite Es; reflexivity].
  assert (Eg : shp (project X111 A) = [1; 1; 1]%nat).
  { destruct HF as [HL HA]. unfold project. cbn [shp gen]. destruct A as [|a [|b [|c [|]]]]; try discriminate HL. cbn. unfold ncols.
    pose proof (proj2 (proj1 (HA 0%nat ltac:(cbn; lia)))) as E0. pose proof (proj2 (proj1 (HA 1%nat ltac:(cbn; lia)))) as E1. pose proof (proj2 (proj1 (HA 2%nat ltac:(cbn; lia)))) as E2.
    unfold mat_at in *. cbn [nth] in *. rewrite E0, E1, E2. reflexivity. }
  pose proof (rank111 A (project X111 A) F (proj1 HF) (fun k Hk => three (fun k => is_mat (mat_at A k) 2 1) (proj1 (proj2 HF 0%nat ltac:(cbn; lia))) (proj1 (proj2 HF 1%nat ltac:(cbn; lia))) (proj1 (proj2 HF 2%nat ltac:(cbn; lia))) k Hk) Eg EF) as G.
  rewrite <- K, X111_val in G. unfold get in G. cbn in G. lra.
Qed.

(** all hypotheses of the theorems together; every uniform draw is 1/2 *)
Definition rand2 (k : nat) (s : list nat) : tensor R := gen s (fun _ => 1/2).
Definition rnd6 : list (tensor R) := [mkT [2; 1]%nat [1; 0]; mkT [3; 1]%nat [1; 0; 0]; mkT [2; 1]%nat [1; 0]].
Lemma ne232 : nonempty [2; 3; 2]%nat. Proof. repeat constructor; discriminate. Qed.
Lemma ex111 : exists svdU pinv, left_svd svdU /\ penrose pinv /\ nonempty [2; 3; 2]%nat /\ generator rand2 randn1 /\
  (let X := cp_model (fun _ x => x) rand2 2 3 2 1 in cp_factors X 1 rnd6 /\ get X [0; 2; 0]%nat = 1/8) /\
  (let X := tucker_model rand2 2 3 2 1 in tucker_factors X [1; 1; 1]%nat rnd6 /\ core_like [1; 1; 1]%nat randg3 /\ valid [2; 3; 2]%nat [0; 2; 0]%nat /\ get X [0; 2; 0]%nat = 1/16).
Proof.
  destruct left_svd_exists as (svdU & HS). destruct penrose_exists as (pinv & HP). exists svdU, pinv. split; [exact HS|]. split; [exact HP|]. split; [apply ne232|].
  split; [split; intros; split; try apply wf_gen; reflexivity|].
  split; cbn zeta.
  - split; [split; [reflexivity|]; apply three; split; reflexivity|]. unfold positive_part, get. cbn -[Rmax]. Rn. rewrite !(Rmax_right 0 (1 / 2)) by lra. lra.
  - split; [split; [reflexivity|]; split; [reflexivity|]; apply three; split; reflexivity|]. split; [split; reflexivity|]. split; [repeat constructor|].
    unfold positive_part, get. cbn -[Rmax]. Rn. rewrite !(Rmax_right 0 (1 / 2)) by lra. lra.
Qed.
