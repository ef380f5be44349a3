(** Vocabulary for the fixed points and limit points of the alternating algorithms (C91, C92), over the reals. *)

From Coq Require Import ZArith List Bool Arith Reals.
From Verif Require Import Num Py Tensor TF Fact Spec SpecR SpecTucker SpecCp SpecBcu SpecProx.
Import ListNotations.
Local Open Scope R_scope.

(** the weight vector as an r x 1 column *)
Definition weights (r : nat) (lam : tensor R) : tensor R := mgen r 1 (fun q _ => get lam [q]).

(** no other matrix for mode n, with any weights, brings the Kruskal tensor closer to X *)
Definition cp_best_mode (X : tensor R) (r : nat) (lam : tensor R) (A : list (tensor R)) (n : nat) : Prop :=
  forall C mu, is_mat C (nth n (shp X) 0%nat) r ->
    sqdist X (cp_tensor r lam A) <= sqdist X (cp_tensor r mu (replace n C A)).

(** no other matrix for mode n, with any core, brings the Tucker tensor closer to X *)
Definition tucker_best_mode (X : tensor R) (ranks : list nat) (g : tensor R) (A : list (tensor R)) (n : nat) : Prop :=
  forall C h, is_mat C (nth n (shp X) 0%nat) (nth n ranks 0%nat) -> core_like ranks h ->
    sqdist X (tucker_tensor g A) <= sqdist X (tucker_tensor h (replace n C A)).

(** the normal equations of mode n: A_n diag(lam) (entrywise product of the other Gram matrices)
    is the matricized tensor times the Khatri-Rao product of the other factors *)
Definition cp_normal_equations (X : tensor R) (r : nat) (lam : tensor R) (A : list (tensor R)) (n : nat) : Prop :=
  forall i q, (i < nth n (shp X) 0)%nat -> (q < r)%nat ->
    bigsum r (fun p => mget (mat_at A n) i p * mget lam p 0 * mget (gram_but r A n) p q) = mget (mttkrp X r A n) i q.

(** V W = I for some W *)
Definition invertible (r : nat) (V : tensor R) : Prop :=
  exists W : nat -> nat -> R, forall p q, (p < r)%nat -> (q < r)%nat ->
    bigsum r (fun k => mget V p k * W k q) = if Nat.eqb p q then 1 else 0.

(** every column of every factor has maximum 1 *)
Definition max_normalised (X : tensor R) (r : nat) (A : list (tensor R)) : Prop :=
  forall n q, (n < ndims X)%nat -> (q < r)%nat -> column_max (mat_at A n) q 1.

(** the matrices As k converge to A entry by entry *)
Definition factors_cv (As : nat -> list (tensor R)) (A : list (tensor R)) : Prop :=
  forall n i q, (n < length A)%nat -> (i < nrows (mat_at A n))%nat -> (q < ncols (mat_at A n))%nat ->
    Un_cv (fun k => mget (mat_at (As k) n) i q) (mget (mat_at A n) i q).

(** the tensors Gs k converge to G entry by entry *)
Definition tensor_cv (Gs : nat -> tensor R) (G : tensor R) : Prop :=
  forall idx, valid (shp G) idx -> Un_cv (fun k => get (Gs k) idx) (get G idx).

(** a strictly increasing choice of indices *)
Definition subsequence (phi : nat -> nat) : Prop := forall j k, (j < k)%nat -> (phi j < phi k)%nat.

(** the results of infinitely many steps from A0, each starting where the previous one ended *)
Definition cp_iterates pinv (X : tensor R) (r : nat) (A0 : list (tensor R)) (out : nat -> cp_out R) : Prop :=
  cp_step pinv X r A0 = Ok (out 0%nat) /\ forall k, cp_step pinv X r (cp_A (out k)) = Ok (out (S k)).
Definition hooi_iterates svdU (X : tensor R) (ranks : list nat) (A0 : list (tensor R)) (out : nat -> hooi_out R) : Prop :=
  hooi_step svdU X (map Z.of_nat ranks) A0 = Ok (out 0%nat) /\
  forall k, hooi_step svdU X (map Z.of_nat ranks) (ho_A (out k)) = Ok (out (S k)).

(** the factors step k of a run starts from *)
Definition cp_start (A0 : list (tensor R)) (out : nat -> cp_out R) (k : nat) : list (tensor R) :=
  match k with 0%nat => A0 | S j => cp_A (out j) end.
