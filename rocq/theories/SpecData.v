(** Vocabulary for the synthetic data properties (C79). *)

From Coq Require Import ZArith List Bool Arith Reals.
From Verif Require Import Num Py Tensor Spec SpecR.
Import ListNotations.
Local Open Scope R_scope.

(** the tensor with negative entries replaced by 0 *)
Definition positive_part (t : tensor R) : tensor R := gen (shp t) (fun i => Rmax 0 (get t i)).

(** the sum of the squares of max(0, m z) over the entries z of the draw *)
Definition noise_energy (m : R) (z : tensor R) : R := msum (shp z) (fun i => (Rmax 0 (m * get z i))²).

(** what np.random.rand and np.random.randn draw for a Kruskal tensor with r columns *)
Definition cp_draws (N_list : list nat) (r : nat) (rand : nat -> tensor R) (randn : tensor R) : Prop :=
  (forall k, (k < length N_list)%nat -> is_mat (rand k) (nth k N_list 0%nat) r) /\ wf randn /\ shp randn = N_list.

(** and for a Tucker tensor of ranks rk *)
Definition tucker_draws (N_list rk : list nat) (randg : tensor R) (rand : nat -> tensor R) (randn : tensor R) : Prop :=
  wf randg /\ shp randg = rk /\ length rk = length N_list /\
  (forall k, (k < length N_list)%nat -> is_mat (rand k) (nth k N_list 0%nat) (nth k rk 0%nat)) /\ wf randn /\ shp randn = N_list.

(** the model behind the data *)
Definition drawn (n : nat) (rand : nat -> tensor R) : list (tensor R) := map (fun k => positive_part (rand k)) (seq 0 n).
