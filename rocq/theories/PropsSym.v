(** Property theorems for relabelled data (C101): the slices of X along every mode in another
    order. *)

From Coq Require Import ZArith List Bool Arith Reals Lia Lra.
From Verif Require Import Num Py Tensor Fact Train Spec SpecR SpecTrain SpecTucker SpecCp SpecProx SpecScale SpecSym RSums AlsLemmas NcpLemmas NtLemmas SpectralExists ZeroWit InitEx
  SymFacts SymTrain SymBcu.
Import ListNotations.
Local Open Scope R_scope.

(** C101: one step of CP_ALS *)
Theorem C101_cp_step : forall pinv (X : tensor R) r sg A, penrose pinv -> wf X -> nonempty (shp X) -> (2 <= ndims X <= 25)%nat -> relabelling (shp X) sg -> cp_factors X r A ->
  cp_step pinv (relabel sg X) r (relabel_factors sg A) =
    rmap (fun o => mkCP (relabel_factors sg (cp_A o)) (cp_lam o) (relabel sg (cp_full o)) (cp_met o)) (cp_step pinv X r A).
Proof. intros pinv X r sg A H1 H2 H3 H4 H5. exact (cp_step_relabel pinv X r sg H1 H2 H3 H4 H5 A). Qed.
Print Assumptions C101_cp_step.

(** whole runs: result, history, and everything the object publishes *)
Theorem C101_cp_train : forall pinv (X : tensor R) r sg, penrose pinv -> wf X -> nonempty (shp X) -> (2 <= ndims X <= 25)%nat -> relabelling (shp X) sg ->
  forall w (o : fobj R (targs R * nat)) rnd steps, (exists args id, o_built o = Some ((args, r), id)) -> cp_factors X r rnd ->
  cp_train pinv (relabel sg X) w (relabel_obj sg o) (relabel_factors sg rnd) steps =
    (relabel_obj sg (fst (cp_train pinv X w o rnd steps)), snd (cp_train pinv X w o rnd steps)).
Proof. exact cp_train_relabel. Qed.
Print Assumptions C101_cp_train.

Theorem C101_ncp_train : forall pow svals (X : tensor R) r sg, wf X -> nonempty (shp X) -> (2 <= ndims X <= 25)%nat -> relabelling (shp X) sg ->
  forall w (o : fobj R (targs R * nat)) rnd steps, (exists args id, o_built o = Some ((args, r), id)) -> cp_factors X r rnd ->
  ncp_train pow svals (relabel sg X) w (relabel_obj sg o) (relabel_factors sg rnd) steps =
    (relabel_obj sg (fst (ncp_train pow svals X w o rnd steps)), snd (ncp_train pow svals X w o rnd steps)).
Proof. exact ncp_train_relabel. Qed.
Print Assumptions C101_ncp_train.

Theorem C101_nt_train : forall pow svals (X : tensor R) ranks sg, wf X -> nonempty (shp X) -> nonempty ranks -> (2 <= ndims X <= 13)%nat -> relabelling (shp X) sg ->
  forall w (o : fobj R (targs R)) rnd g steps, tucker_factors X ranks rnd -> core_like ranks g ->
  nt_train pow svals (relabel sg X) w (relabel_obj sg o) (relabel_factors sg rnd, g) steps =
    (relabel_obj sg (fst (nt_train pow svals X w o (rnd, g) steps)), snd (nt_train pow svals X w o (rnd, g) steps)).
Proof. exact nt_train_relabel. Qed.
Print Assumptions C101_nt_train.

(** ** Examples *)
Definition rot : nat -> nat -> nat := fun k i => match k with 0 => 1 - i | 1 => (i + 1) mod 3 | _ => i end%nat.
Example ex_C101_relabelling : relabelling [2; 3]%nat rot.
Proof.
  intros [|[|k]] Hk; [| |cbn in Hk; lia]; cbn [nth rot].
  - split; [intros; lia|intros i j Hi Hj E; lia].
  - split; [intros [|[|[|i]]] Hi; cbn; lia|]. intros [|[|[|i]]] [|[|[|j]]] Hi Hj E; cbn in E; lia.
Qed.
Example ex_C101_relabel : relabel rot (mkT [2; 3]%nat [1; 2; 3; 4; 5; 6]%Z) = mkT [2; 3]%nat [5; 6; 4; 2; 3; 1]%Z.
Proof. reflexivity. Qed.
Example ex_C101_factors : relabel_factors rot [mkT [2; 1]%nat [1; 2]%Z; mkT [3; 2]%nat [1; 2; 3; 4; 5; 6]%Z] = [mkT [2; 1]%nat [2; 1]%Z; mkT [3; 2]%nat [3; 4; 5; 6; 1; 2]%Z].
Proof. reflexivity. Qed.
Definition swap0 : nat -> nat -> nat := fun k i => match k with 0 => 1 - i | _ => i end%nat.
Example ex_C101_swap : relabelling (shp Xd) swap0.
Proof. intros [|[|k]] Hk; [| |cbn in Hk; lia]; (split; [intros [|[|i]] Hi; cbn in *; lia|intros [|[|i]] [|[|j]] Hi Hj E; cbn in *; lia]). Qed.
Example ex_C101_data : relabel swap0 Xd = mkT [2; 2]%nat [0; 1; 2; 0] /\ relabel swap0 Xd <> Xd.
Proof. split; [reflexivity|]. intros E. pose proof (f_equal (fun t => nth 0 (dat t) 0) E) as K. change (0 = 2) in K. lra. Qed.
Example ex_C101_cp : exists pinv, penrose pinv /\ relabelling (shp Xd) swap0 /\ cp_factors Xd 1 Ad /\
  exists o1 h1, cp_train pinv Xd (mkW [7%nat] true) (mkObj (Some ((mkArgs 0 10%Z false, 1%nat), 7%nat)) pub0) Ad 500 = (o1, Ok h1).
Proof.
  destruct penrose_exists as (pinv & HP). exists pinv. split; [exact HP|]. split; [apply ex_C101_swap|]. split; [apply Ad_factors|].
  eapply (cp_train_total pinv Xd 1);
    [exact HP|reflexivity|repeat constructor; discriminate|cbn; lia|reflexivity|apply Ad_factors|reflexivity|intros i [<-|[]]; reflexivity|lia|cbn; lia].
Qed.
Example ex_C101_ncp : exists svals, spectral svals /\ relabelling (shp Xd) swap0 /\ cp_factors Xd 1 Ad /\
  exists o1 h1, ncp_train rpow svals Xd (mkW [7%nat] true) (mkObj (Some ((mkArgs 0 10%Z false, 1%nat), 7%nat)) pub0) Ad 500 = (o1, Ok h1).
Proof.
  destruct spectral_exists as (svals & HP). exists svals. split; [exact HP|]. split; [apply ex_C101_swap|]. split; [apply Ad_factors|].
  eapply (ncp_train_total rpow svals Xd 1);
    [reflexivity|repeat constructor; discriminate|cbn; lia|reflexivity|apply Ad_factors|reflexivity|intros i [<-|[]]; reflexivity|lia|cbn; lia].
Qed.
Example ex_C101_nt : exists svals, spectral svals /\ relabelling (shp Xd) swap0 /\ tucker_factors Xd [1; 1]%nat Ad /\ core_like [1; 1]%nat (mkT [1; 1]%nat [1]) /\
  exists o1 h1, nt_train rpow svals Xd (mkW [7%nat] true) (mkObj (Some (mkArgs 0 10%Z false, 7%nat)) pub0) (Ad, mkT [1; 1]%nat [1]) 500 = (o1, Ok h1).
Proof.
  destruct spectral_exists as (svals & HP). exists svals. split; [exact HP|]. split; [apply ex_C101_swap|]. split; [apply Ad_tucker|]. split; [split; reflexivity|].
  eapply (nt_train_total rpow svals Xd [1; 1]%nat);
    [reflexivity|repeat constructor; discriminate|repeat constructor; discriminate|cbn; lia|reflexivity|apply Ad_tucker|split; reflexivity|reflexivity|intros i [<-|[]]; reflexivity|lia|cbn; lia].
Qed.
