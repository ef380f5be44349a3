(** Property theorems for the starting point of training (C103): what of it matters, and the
    order of the components. *)

From Coq Require Import ZArith List Bool Arith Reals Lia Lra.
From Verif Require Import Num Py Tensor TF Fact Train Spec SpecR SpecTrain SpecTucker SpecCp SpecBcu SpecProx SpecFix SpecScale SpecSym SpecOrder RSums MatR AlsFacts AlsLemmas NcpLemmas NtLemmas
  SpectralExists ZeroWit InitEx FixEx OrderAlg OrderTrain OrderBcu.
Import ListNotations.

(** C103: CP_ALS never reads the starting matrix of mode 0; any arithmetic *)
Theorem C103_first_step : forall {T} {N : Num T} pinv (X : tensor T) r B B' A, (1 <= ndims X)%nat -> matrix B -> matrix B' ->
  cp_step pinv X r (B' :: A) = cp_step pinv X r (B :: A).
Proof. exact @cp_step_first. Qed.
Print Assumptions C103_first_step.
Theorem C103_first_train : forall {T} {N : Num T} pinv (X : tensor T) B B' A w (o : fobj T (targs T * nat)) steps, (1 <= ndims X)%nat -> matrix B -> matrix B' ->
  cp_train pinv X w o (B' :: A) steps = cp_train pinv X w o (B :: A) steps.
Proof. exact @cp_train_first. Qed.
Print Assumptions C103_first_train.

Local Open Scope R_scope.

(** the lengths of the starting columns do not matter when the Gram products are invertible *)
Theorem C103_rescaled_step : forall pinv (X : tensor R) r d A B, penrose pinv -> wf X -> nonempty (shp X) -> (2 <= ndims X <= 25)%nat -> cp_factors X r A -> cp_factors X r B ->
  rescaled_start r d A B ->
  (forall o, cp_step pinv X r A = Ok o -> forall m, (m < ndims X - 1)%nat -> invertible r (gram_but r (mixed m (cp_A o) A) m)) ->
  cp_step pinv X r B = cp_step pinv X r A.
Proof. exact cp_step_rescaled. Qed.
Print Assumptions C103_rescaled_step.
Theorem C103_rescaled_train : forall pinv (X : tensor R) r d A B, penrose pinv -> wf X -> nonempty (shp X) -> (2 <= ndims X <= 25)%nat -> cp_factors X r A -> cp_factors X r B ->
  rescaled_start r d A B ->
  (forall o, cp_step pinv X r A = Ok o -> forall m, (m < ndims X - 1)%nat -> invertible r (gram_but r (mixed m (cp_A o) A) m)) ->
  forall w (o : fobj R (targs R * nat)) steps, (exists a id, o_built o = Some ((a, r), id)) ->
  cp_train pinv X w o B steps = cp_train pinv X w o A steps.
Proof. exact cp_train_rescaled. Qed.
Print Assumptions C103_rescaled_train.

(** the size of the starting matrices of NCP and NTucker does not matter *)
Theorem C103_ncp_scale : forall pow svals (X : tensor R) c w (o : fobj R (targs R * nat)) rnd steps, (forall k, (k < length rnd)%nat -> 0 < c k) ->
  ncp_train pow svals X w o (scale_each c rnd) steps = ncp_train pow svals X w o rnd steps.
Proof. exact ncp_train_scaled. Qed.
Print Assumptions C103_ncp_scale.
Theorem C103_nt_scale : forall pow svals (X : tensor R) c cg w (o : fobj R (targs R)) rnd g steps, (forall k, (k < length rnd)%nat -> 0 < c k) -> 0 < cg ->
  nt_train pow svals X w o (scale_each c rnd, scale cg g) steps = nt_train pow svals X w o (rnd, g) steps.
Proof. exact nt_train_scaled. Qed.
Print Assumptions C103_nt_scale.

(** the components of the start in another order: the components of the result in that order *)
Theorem C103_cp_step : forall pinv (X : tensor R) r p, penrose pinv -> wf X -> nonempty (shp X) -> (2 <= ndims X <= 25)%nat -> reordering r p ->
  forall A, cp_factors X r A ->
  cp_step pinv X r (reorder (fun _ => p) A) =
    rmap (fun o => mkCP (reorder (fun _ => p) (cp_A o)) (relabel (fun _ => p) (cp_lam o)) (cp_full o) (cp_met o)) (cp_step pinv X r A).
Proof. intros pinv X r p H1 H2 H3 H4 H5. exact (cp_step_reorder pinv X r p H1 H2 H3 H4 (H5 0%nat (le_n 1))). Qed.
Print Assumptions C103_cp_step.
Theorem C103_cp_train : forall pinv (X : tensor R) r p, penrose pinv -> wf X -> nonempty (shp X) -> (2 <= ndims X <= 25)%nat -> reordering r p ->
  forall w (o : fobj R (targs R * nat)) rnd steps, (exists a id, o_built o = Some ((a, r), id)) -> cp_factors X r rnd ->
  cp_train pinv X w (reorder_obj (fun _ => p) (fun _ => p) o) (reorder (fun _ => p) rnd) steps =
    (reorder_obj (fun _ => p) (fun _ => p) (fst (cp_train pinv X w o rnd steps)), snd (cp_train pinv X w o rnd steps)).
Proof. intros pinv X r p H1 H2 H3 H4 H5. exact (cp_train_reorder pinv X r p H1 H2 H3 H4 (H5 0%nat (le_n 1))). Qed.
Print Assumptions C103_cp_train.
Theorem C103_ncp_train : forall pow svals (X : tensor R) r p, spectral svals -> nonempty (shp X) -> (2 <= ndims X <= 25)%nat -> reordering r p ->
  forall w (o : fobj R (targs R * nat)) rnd steps, (exists a id, o_built o = Some ((a, r), id)) -> cp_factors X r rnd ->
  ncp_train pow svals X w (reorder_obj (fun _ => p) (second_axis p) o) (reorder (fun _ => p) rnd) steps =
    (reorder_obj (fun _ => p) (second_axis p) (fst (ncp_train pow svals X w o rnd steps)), snd (ncp_train pow svals X w o rnd steps)).
Proof. intros pow svals X r p H1 H3 H4 H5. exact (ncp_train_reorder pow svals X r p H1 H3 H4 (H5 0%nat (le_n 1))). Qed.
Print Assumptions C103_ncp_train.
Theorem C103_nt_train : forall pow svals (X : tensor R) ranks pi, spectral svals -> wf X -> nonempty (shp X) -> nonempty ranks -> (2 <= ndims X <= 13)%nat -> relabelling ranks pi ->
  forall w (o : fobj R (targs R)) rnd g steps, tucker_factors X ranks rnd -> core_like ranks g ->
  nt_train pow svals X w (reorder_obj pi pi o) (reorder pi rnd, relabel pi g) steps =
    (reorder_obj pi pi (fst (nt_train pow svals X w o (rnd, g) steps)), snd (nt_train pow svals X w o (rnd, g) steps)).
Proof. exact nt_train_reorder. Qed.
Print Assumptions C103_nt_train.

(** ** Examples *)
Definition flip : nat -> nat := fun i => (1 - i)%nat.
Example ex_C103_flip : reordering 2 flip.
Proof. intros [|k] Hk; [|cbn in Hk; lia]. cbn [nth]. unfold flip. split; [intros; lia|intros i j Hi Hj E; lia]. Qed.
Example ex_C103_reorder : reorder (fun _ => flip) [mkT [2; 2]%nat [1; 2; 3; 4]%Z; mkT [3; 2]%nat [1; 2; 3; 4; 5; 6]%Z] = [mkT [2; 2]%nat [2; 1; 4; 3]%Z; mkT [3; 2]%nat [2; 1; 4; 3; 6; 5]%Z].
Proof. reflexivity. Qed.
Example ex_C103_pub : reorder_pub (fun _ => flip) (second_axis flip) (mkPub (Some [mkT [1; 2]%nat [1; 2]%Z]) (Some (mkT [1; 2]%nat [3; 4]%Z)) (Some (mkT [1]%nat [5]%Z)) true) =
  mkPub (Some [mkT [1; 2]%nat [2; 1]%Z]) (Some (mkT [1; 2]%nat [4; 3]%Z)) (Some (mkT [1]%nat [5]%Z)) true.
Proof. reflexivity. Qed.
(** two components *)
Definition A22 : list (tensor R) := [mkT [2; 2]%nat [1; 2; 3; 4]; mkT [2; 2]%nat [1; 1; 0; 1]].
Lemma A22_factors : cp_factors Xd 2 A22.
Proof. split; [reflexivity|]. apply two; split; reflexivity. Qed.
Lemma A22_tucker : tucker_factors Xd [2; 2]%nat A22.
Proof. split; [reflexivity|]. split; [reflexivity|]. apply two; split; reflexivity. Qed.
Example ex_C103_cp : exists pinv, penrose pinv /\ reordering 2 flip /\ cp_factors Xd 2 A22 /\ reorder (fun _ => flip) A22 <> A22 /\
  exists o1 h1, cp_train pinv Xd (mkW [7%nat] true) (mkObj (Some ((mkArgs 0 10%Z false, 2%nat), 7%nat)) pub0) A22 500 = (o1, Ok h1).
Proof.
  destruct penrose_exists as (pinv & HP). exists pinv. split; [exact HP|]. split; [apply ex_C103_flip|]. split; [apply A22_factors|]. split.
  - intros E. pose proof (f_equal (fun l => nth 0 (dat (mat_at l 0)) 0) E) as K. change (2 = 1) in K. lra.
  - eapply (cp_train_total pinv Xd 2);
      [exact HP|reflexivity|repeat constructor; discriminate|cbn; lia|reflexivity|apply A22_factors|reflexivity|intros i [<-|[]]; reflexivity|lia|cbn; lia].
Qed.
Example ex_C103_ncp : exists svals, spectral svals /\ reordering 2 flip /\ cp_factors Xd 2 A22 /\
  exists o1 h1, ncp_train rpow svals Xd (mkW [7%nat] true) (mkObj (Some ((mkArgs 0 10%Z false, 2%nat), 7%nat)) pub0) A22 500 = (o1, Ok h1).
Proof.
  destruct spectral_exists as (svals & HP). exists svals. split; [exact HP|]. split; [apply ex_C103_flip|]. split; [apply A22_factors|].
  eapply (ncp_train_total rpow svals Xd 2);
    [reflexivity|repeat constructor; discriminate|cbn; lia|reflexivity|apply A22_factors|reflexivity|intros i [<-|[]]; reflexivity|lia|cbn; lia].
Qed.
Definition g22 : tensor R := mkT [2; 2]%nat [1; 2; 3; 4].
Example ex_C103_nt : exists svals, spectral svals /\ relabelling [2; 2]%nat (second_axis flip) /\ tucker_factors Xd [2; 2]%nat A22 /\ core_like [2; 2]%nat g22 /\
  relabel (second_axis flip) g22 = mkT [2; 2]%nat [2; 1; 4; 3] /\
  exists o1 h1, nt_train rpow svals Xd (mkW [7%nat] true) (mkObj (Some (mkArgs 0 10%Z false, 7%nat)) pub0) (A22, g22) 500 = (o1, Ok h1).
Proof.
  destruct spectral_exists as (svals & HP). exists svals. split; [exact HP|]. split.
  { intros [|[|k]] Hk; [| |cbn in Hk; lia]; cbn [nth second_axis]; unfold flip; (split; [intros; lia|intros i j Hi Hj E; lia]). }
  split; [apply A22_tucker|]. split; [split; reflexivity|]. split; [reflexivity|].
  eapply (nt_train_total rpow svals Xd [2; 2]%nat);
    [reflexivity|repeat constructor; discriminate|repeat constructor; discriminate|cbn; lia|reflexivity|apply A22_tucker|split; reflexivity|reflexivity|intros i [<-|[]]; reflexivity|lia|cbn; lia].
Qed.
(** the first unit vector, then three times it; the matrix of mode 0 is arbitrary *)
Definition E1s : list (tensor R) := [mkT [2; 1]%nat [5; 7]; mkT [2; 1]%nat [3; 0]].
Example ex_C103_rescaled : exists pinv, penrose pinv /\ cp_factors Xd 1 E1 /\ cp_factors Xd 1 E1s /\ rescaled_start 1 (fun _ _ => 3) E1 E1s /\
  (forall o, cp_step pinv Xd 1 E1 = Ok o -> forall m, (m < ndims Xd - 1)%nat -> invertible 1 (gram_but 1 (mixed m (cp_A o) E1) m)).
Proof.
  destruct penrose_exists as (pinv & HP). exists pinv. split; [exact HP|]. split; [apply E1_factors|]. split; [split; [reflexivity|apply two; split; reflexivity]|]. split.
  - intros k i q Hk Hi Hq. cbn in Hk. assert (k = 1)%nat by lia. assert (q = 0)%nat by lia. subst. split; [lra|]. revert i Hi. apply two; unfold mget, get; cbn; lra.
  - intros o _ m Hm. assert (m = 0)%nat by (cbn in Hm; lia). subst m. rewrite mixed_0. apply E1_inv. cbn. lia.
Qed.
Example ex_C103_scale : scale_each (fun k => INR k + 1) E1 = [mkT [2; 1]%nat [(0 + 1) * 1; (0 + 1) * 0]; mkT [2; 1]%nat [(1 + 1) * 1; (1 + 1) * 0]] /\
  (forall k, (k < length E1)%nat -> 0 < INR k + 1).
Proof. split; [reflexivity|]. intros k _. pose proof (pos_INR k). lra. Qed.
