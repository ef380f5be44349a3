(** Concrete binary32 training runs used as witnesses and examples for C36-C43, C67, C68. *)

From Coq Require Import ZArith List Bool Arith Lia SpecFloat.
From Verif Require Import Num Py Tensor TF Ops Types Loss Fact Train SpecTrain.
Import ListNotations.
#[local] Existing Instance NumF32.

Definition q (z : Z) : f32 := nofZ z.
Definition frac (a b : Z) : f32 := ndiv (q a) (q b).

(** oracles for one-column problems: the pseudo-inverse and the singular value of a
    positive 1x1 matrix *)
Definition pinv1 (V : tensor f32) : tensor f32 := tf_map (fun x => ndiv n1 x) V.
Definition svals1 (V : tensor f32) : list f32 := dat V.
Definition pow1 (x y : f32) : f32 := x.

Definition mk_obj {A} (a : A) : fobj f32 A := mkObj (Some (a, 7)) pub0.
Definition w1 : world := mkW [7] true.

(** CP, X = I, start at e1 o e1: the objective is 1/2 at every step *)
Definition XI : tensor f32 := mkT [2; 2] [q 1; q 0; q 0; q 1].
Definition A_e1 : list (tensor f32) := [mkT [2; 1] [q 1; q 0]; mkT [2; 1] [q 1; q 0]].
Definition args38 : targs f32 := mkArgs (frac 1 10) 1%Z false.
Definition ob38 : sobs f32 := mkObs A_e1 (Some (mkT [1] [q 1])) (mkT [2; 2] [q 1; q 0; q 0; q 0])
  (mkM (nsqrt (frac 1 2)) (nmul nhalf (nsq (q 1))) (ndiv (q 1) (nsqrt (q 2)))).

Lemma c38_refuted : exists pinv X w o rnd steps o' h args rank id os,
  cp_train pinv X w o rnd steps = (o', Ok h) /\ o_built o = Some ((args, rank), id) /\
  als_run (cp_run pinv X rank) rnd os /\ h = map entry os /\
  exists k, k + 1 < length h /\ fires (a_tol args) ref_prev os k.
Proof.
  eexists pinv1, XI, w1, (mk_obj (args38, 1)), A_e1, 5%Z, _, _, args38, 1, 7, (repeat ob38 5).
  split; [vm_compute; reflexivity|]. split; [reflexivity|]. split; [|split; [vm_compute; reflexivity|]].
  - exists (fun _ => A_e1). split; auto. intros k o Ho.
    assert (E : cp_run pinv1 XI 1 A_e1 = Ok (A_e1, ob38)) by (vm_compute; reflexivity).
    apply nth_error_In in Ho. apply repeat_spec in Ho. subst o. exact E.
  - exists 3. split; [vm_compute; lia|]. right. split; [lia|]. intros j Hj.
    assert (j = 1 \/ j = 2 \/ j = 3) as [->|[->| ->]] by lia; vm_compute; reflexivity.
Qed.

(** C39: CP on diag(2,1): validated at step 1, stopped at step 3 *)
Definition X39 : tensor f32 := mkT [2; 2] [q 2; q 0; q 0; q 1].
Definition A39 : list (tensor f32) := [mkT [2; 1] [q 1; q 1]; mkT [2; 1] [q 1; q 1]].
Definition args39 : targs f32 := mkArgs (frac 455 1000) 10%Z false.

Lemma c39_cp_refuted : exists pinv X w o rnd steps o' h A lam full full',
  cp_train pinv X w o rnd steps = (o', Ok h) /\
  p_factors (o_pub o') = Some A /\ p_aux (o_pub o') = Some lam /\ p_full (o_pub o') = Some full /\
  kt_extract A (mkT (shp lam ++ [1]) (dat lam)) = Ok full' /\ full' <> full.
Proof.
  eexists pinv1, X39, w1, (mk_obj (args39, 1)), A39, 5%Z, _, _, _, _, _, _.
  split; [vm_compute; reflexivity|]. split; [reflexivity|]. split; [reflexivity|]. split; [reflexivity|].
  split; [vm_compute; reflexivity|]. discriminate.
Qed.

Lemma c39_ncp_refuted : exists pow svals X w o rnd steps o' h A lam full full',
  ncp_train pow svals X w o rnd steps = (o', Ok h) /\
  p_factors (o_pub o') = Some A /\ p_full (o_pub o') = Some full /\ ncp_ones A = Ok lam /\
  kt_extract A lam = Ok full' /\ full' <> full.
Proof.
  eexists pow1, svals1, X39, w1, (mk_obj (args39, 1)), A39, 5%Z, _, _, _, _, _, _.
  split; [vm_compute; reflexivity|]. split; [reflexivity|]. split; [reflexivity|].
  split; [vm_compute; reflexivity|]. split; [vm_compute; reflexivity|]. discriminate.
Qed.

Lemma c39_nt_refuted : exists pow svals X w o rnd steps o' h A g full full',
  nt_train pow svals X w o rnd steps = (o', Ok h) /\
  p_factors (o_pub o') = Some A /\ p_aux (o_pub o') = Some g /\ p_full (o_pub o') = Some full /\
  tt_extract g A = Ok full' /\ full' <> full.
Proof.
  eexists pow1, svals1, X39, w1, (mk_obj args39), (A39, mkT [1; 1] [q 1]), 5%Z, _, _, _, _, _, _.
  split; [vm_compute; reflexivity|]. split; [reflexivity|]. split; [reflexivity|].
  split; [reflexivity|]. split; [vm_compute; reflexivity|]. discriminate.
Qed.

(** HOOI on a 2x2 diagonal matrix with ranks (2,2); svd U of the unfoldings is I *)
Definition svdU_id (u : tensor f32) : tensor f32 := mkT [2; 2] [q 1; q 0; q 0; q 1].
Definition args_hooi : targs f32 * list Z := (mkArgs (q (-1)) 1%Z false, [1; 1]%Z).

Lemma c40_hooi_refuted : exists svdU X bc w cs,
  p_finish (o_pub (object_after bc (hooi_train svdU X) w fresh cs)) = true /\
  ~ last_completed (outcomes bc (hooi_train svdU X) w fresh cs).
Proof.
  exists svdU_id, X39, (fun _ => Ok tt), (mkW [] true), [Build args_hooi 7; Train tt 2%Z; Train tt 0%Z].
  split; [vm_compute; reflexivity|]. intros (l & h & E). vm_compute in E.
  destruct l as [|r1 [|r2 [|r3 l]]]; discriminate E.
Qed.

(** C42: predict after a completed train *)
Lemma c42_refuted : exists pinv X w o rnd steps o' h t,
  cp_train pinv X w o rnd steps = (o', Ok h) /\ p_full (o_pub o') = Some t /\ shp t = [2; 2] /\
  predict_checked (o_pub o') [0; 0]%Z = Raise ValueError.
Proof.
  eexists pinv1, XI, w1, (mk_obj (args38, 1)), A_e1, 5%Z, _, _, _.
  split; [vm_compute; reflexivity|]. split; [reflexivity|]. split; reflexivity.
Qed.

(** C67: two CP models built in one graph; each trains alone, neither trains together *)
Lemma c67_refuted : exists pinv X w (o1 o2 : fobj f32 (targs f32 * nat)) a rnd steps o1' o2' h,
  fst (obj_build (fun _ => Ok tt) (mkW [] true) fresh a 1) = (mkW [1] true, o1) /\
  snd (cp_train pinv X (mkW [1] true) o1 rnd steps) = Ok h /\
  fst (obj_build (fun _ => Ok tt) (mkW [1] true) fresh a 2) = (w, o2) /\
  cp_train pinv X w o1 rnd steps = (o1', Raise InvalidArgument) /\
  cp_train pinv X w o2 rnd steps = (o2', Raise InvalidArgument).
Proof.
  eexists pinv1, XI, _, _, _, (args38, 1), A_e1, 5%Z, _, _, _.
  split; [vm_compute; reflexivity|]. split; [vm_compute; reflexivity|]. split; [vm_compute; reflexivity|].
  split; vm_compute; reflexivity.
Qed.
