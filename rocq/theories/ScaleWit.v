(** Binary32 runs of the four algorithms on a tensor and on the same tensor in other units (C96):
    the steps are the same, the stopping rule is not. *)

From Coq Require Import ZArith List Bool Arith Lia SpecFloat.
From Verif Require Import Num Py Tensor TF Ops Types Loss Fact Train SpecTrain TrainWit.
Import ListNotations.
#[local] Existing Instance NumF32.

Definition times (c : f32) (X : tensor f32) : tensor f32 := mkT (shp X) (map (nmul c) (dat X)).
(** the square root and the fourth root, for the starting points of order-2 NCP and order-3 NTucker *)
Definition root2 (x y : f32) : f32 := nsqrt x.
Definition root4 (x y : f32) : f32 := nsqrt (nsqrt x).
Definition args96 : targs f32 := mkArgs (frac 1 10000) 10%Z false.
Definition X96 : tensor f32 := mkT [2; 2; 1] [q 2; q 0; q 0; q 1].
Definition A96 : list (tensor f32) := [mkT [2; 1] [q 1; q 1]; mkT [2; 1] [q 1; q 1]; mkT [1; 1] [q 1]].

(** I at rank 1 from e1 o e1: every step has objective 1/2, times 256^2 = 32768 *)
Lemma c96_cp_refuted : exists c pinv X w o rnd steps o1 h1 o2 h2,
  nltb n0 c = true /\ cp_train pinv X w o rnd steps = (o1, Ok h1) /\ cp_train pinv (times c X) w o rnd steps = (o2, Ok h2) /\ length h1 = 8 /\ length h2 = 3.
Proof.
  eexists (q 256), pinv1, XI, w1, (mk_obj (args96, 1)), A_e1, 8%Z, _, _, _, _. split; [reflexivity|].
  split; [vm_compute; reflexivity|]. split; [vm_compute; reflexivity|]. split; reflexivity.
Qed.

Lemma c96_hooi_refuted : exists c svdU X w o rnd steps o1 h1 o2 h2,
  nltb n0 c = true /\ (forall M, svdU (times c M) = svdU M) /\
  hooi_train svdU X w o rnd steps = (o1, Ok h1) /\ hooi_train svdU (times c X) w o rnd steps = (o2, Ok h2) /\ length h1 = 8 /\ length h2 = 3.
Proof.
  eexists (q 256), svdU_id, X39, w1, (mk_obj (args96, [1; 1]%Z)), tt, 8%Z, _, _, _, _. split; [reflexivity|]. split; [reflexivity|].
  split; [vm_compute; reflexivity|]. split; [vm_compute; reflexivity|]. split; reflexivity.
Qed.

(** diag(2, 1) in units 256 times larger: the objective moves by less than the tolerance from the first step on *)
Lemma c96_ncp_refuted : exists c pow svals X w o rnd steps o1 h1 o2 h2,
  nltb n0 c = true /\ ncp_train pow svals X w o rnd steps = (o1, Ok h1) /\ ncp_train pow svals (times c X) w o rnd steps = (o2, Ok h2) /\ length h1 = 5 /\ length h2 = 4.
Proof.
  eexists (frac 1 256), root2, svals1, X39, w1, (mk_obj (args96, 1)), A39, 5%Z, _, _, _, _. split; [reflexivity|].
  split; [vm_compute; reflexivity|]. split; [vm_compute; reflexivity|]. split; reflexivity.
Qed.

Lemma c96_nt_refuted : exists c pow svals X w o rnd steps o1 h1 o2 h2,
  nltb n0 c = true /\ nt_train pow svals X w o rnd steps = (o1, Ok h1) /\ nt_train pow svals (times c X) w o rnd steps = (o2, Ok h2) /\ length h1 = 5 /\ length h2 = 4.
Proof.
  eexists (frac 1 256), root4, svals1, X96, w1, (mk_obj args96), (A96, mkT [1; 1; 1] [q 1]), 5%Z, _, _, _, _. split; [reflexivity|].
  split; [vm_compute; reflexivity|]. split; [vm_compute; reflexivity|]. split; reflexivity.
Qed.
