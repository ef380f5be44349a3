(** C111: the experiment scripts on synthetic data, from the draws to the written lines *)

From Coq Require Import ZArith List Bool Arith Reals.
From Verif Require Import Num Py Tensor TF Types Fact Train Spec SpecR SpecCp SpecProx SpecTucker SynthEx DataGen SpecData Process Experiment SpecExp ExpRun ExpWit.
Import ListNotations.
Local Open Scope R_scope.

(** cp_ex: the data are the drawn sum of gR rank-one tensors, without noise; between 1 and 600
    lines, each with the two errors of a sum of dR rank-one tensors *)
Theorem C111_cp : forall N1 N2 N3, nonempty [N1; N2; N3] -> forall rand randn, generator rand randn -> forall cast pinv gR dR A X,
  (forall x, 0 <= x -> 0 <= cast F32 x) -> penrose pinv ->
  X = cp_model cast rand N1 N2 N3 gR -> cp_factors X dR A ->
  exists h, cp_ex cast pinv rand randn N1 N2 N3 gR dR A = Ok h /\ output_about X (cp_kind X dR) 600 h.
Proof. exact c111_cp. Qed.
Print Assumptions C111_cp.

(** ncp_ex: the same data; non-negative factors, up to 6000 lines *)
Theorem C111_ncp : forall N1 N2 N3, nonempty [N1; N2; N3] -> forall rand randn, generator rand randn -> forall cast pow svals gR dR A X,
  (forall x, 0 <= x -> 0 <= cast F32 x) ->
  X = cp_model cast rand N1 N2 N3 gR -> cp_factors X dR A ->
  exists h, ncp_ex cast pow svals rand randn N1 N2 N3 gR dR A = Ok h /\ output_about X (ncp_kind X dR) 6000 h.
Proof. exact c111_ncp. Qed.
Print Assumptions C111_ncp.

(** ntucker_ex: the drawn Tucker tensor without noise; non-negative core and factors, up to 10000 lines *)
Theorem C111_ntucker : forall N1 N2 N3, nonempty [N1; N2; N3] -> forall rand randn, generator rand randn -> forall pow svals gR dR A g X,
  (0 < dR)%nat ->
  X = tucker_model rand N1 N2 N3 gR -> tucker_factors X [dR; dR; dR] A -> core_like [dR; dR; dR] g ->
  exists h, ntucker_ex pow svals rand randn N1 N2 N3 gR dR A g = Ok h /\ output_about X (ntucker_kind X [dR; dR; dR]) 10000 h.
Proof. exact c111_ntucker. Qed.
Print Assumptions C111_ntucker.

(** tucker_ex: the drawn Tucker tensor with the noise of the default; orthonormal factors, up to 100 lines *)
Theorem C111_tucker : forall N1 N2 N3, nonempty [N1; N2; N3] -> forall rand randn, generator rand randn -> forall svdU gR dR X,
  left_svd svdU ->
  (0 < dR)%nat -> (dR <= N1)%nat -> (dR <= N2)%nat -> (dR <= N3)%nat ->
  X = with_noise [N1; N2; N3] (tucker_model rand N1 N2 N3 gR) (4 / 100) (randn [N1; N2; N3]) ->
  exists h, tucker_ex svdU rand randn N1 N2 N3 gR dR = Ok h /\ output_about X (tucker_kind X [dR; dR; dR]) 100 h.
Proof. exact (fun N1 N2 N3 HN rand randn HG => c111_tucker N1 N2 N3 HN rand randn HG (4 / 100)). Qed.
Print Assumptions C111_tucker.

(** when the ranks cover the generating ones, no line reports more than the noise allows *)
Theorem C111_tucker_bound : forall N1 N2 N3, nonempty [N1; N2; N3] -> forall rand randn, generator rand randn -> forall svdU gR dR X h,
  left_svd svdU -> (0 < dR)%nat -> (gR <= dR)%nat ->
  X = with_noise [N1; N2; N3] (tucker_model rand N1 N2 N3 gR) (4 / 100) (randn [N1; N2; N3]) ->
  tucker_ex svdU rand randn N1 N2 N3 gR dR = Ok h ->
  forall l, In l h -> snd l <= sqrt (3 * noise_energy (4 / 100) (randn [N1; N2; N3])) / sqrt (sqlen X).
Proof. exact (fun N1 N2 N3 HN rand randn HG => c111_tucker_bound N1 N2 N3 HN rand randn HG (4 / 100)). Qed.
Print Assumptions C111_tucker_bound.

(** a rank above one of the sizes *)
Theorem C111_tucker_rejects : forall N1 N2 N3, nonempty [N1; N2; N3] -> forall rand randn, generator rand randn -> forall svdU gR dR,
  left_svd svdU -> (N1 < dR \/ N2 < dR \/ N3 < dR)%nat ->
  tucker_ex svdU rand randn N1 N2 N3 gR dR = Raise ValueError.
Proof. exact (fun N1 N2 N3 HN rand randn HG => c111_tucker_rejects N1 N2 N3 HN rand randn HG (4 / 100)). Qed.
Print Assumptions C111_tucker_rejects.

(** full statement: tucker_ex with ranks covering the generating ones writes the single line 0, 0;
    proved for the script with noise 0, which is not the value tucker_ex uses *)
Theorem C111_tucker_partial : forall N1 N2 N3, nonempty [N1; N2; N3] -> forall rand randn, generator rand randn -> forall svdU gR dR,
  left_svd svdU ->
  (0 < dR)%nat -> (gR <= dR)%nat -> (dR <= N1)%nat -> (dR <= N2)%nat -> (dR <= N3)%nat ->
  (exists i, valid [N1; N2; N3] i /\ get (tucker_model rand N1 N2 N3 gR) i <> 0) ->
  tucker_with_noise 0 svdU rand randn N1 N2 N3 gR dR = Ok [(0, 0)].
Proof. exact c111_tucker_exact. Qed.
Print Assumptions C111_tucker_partial.

(** with the default noise every line can report a positive error *)
Theorem C111_tucker_refuted : exists svdU h, left_svd svdU /\ generator rand1 randn1 /\
  (exists i, valid [2; 2; 2]%nat i /\ get (tucker_model rand1 2 2 2 1) i <> 0) /\
  tucker_ex svdU rand1 randn1 2 2 2 1 1 = Ok h /\ h <> [] /\ forall l, In l h -> 0 < snd l.
Proof. exact c111_wit. Qed.
Print Assumptions C111_tucker_refuted.

(** 2x3x2 draws to which all of them apply *)
Example ex_C111 : exists svdU pinv, left_svd svdU /\ penrose pinv /\ nonempty [2; 3; 2]%nat /\ generator rand2 randn1 /\
  (let X := cp_model (fun _ x => x) rand2 2 3 2 1 in cp_factors X 1 rnd6 /\ get X [0; 2; 0]%nat = 1/8) /\
  (let X := tucker_model rand2 2 3 2 1 in
   tucker_factors X [1; 1; 1]%nat rnd6 /\ core_like [1; 1; 1]%nat randg3 /\ valid [2; 3; 2]%nat [0; 2; 0]%nat /\ get X [0; 2; 0]%nat = 1/16).
Proof. exact ex111. Qed.
