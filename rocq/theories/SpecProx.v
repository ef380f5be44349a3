(** Vocabulary for the descent properties of the block coordinate updates (NCP_BCU,
    NTUCKER_BCU), over the reals. *)

From Coq Require Import ZArith List Bool Arith Reals.
From Verif Require Import Num Py Tensor TF Fact Spec SpecR SpecTucker SpecCp.
Import ListNotations.
Local Open Scope R_scope.

(** s is the spectral norm (largest singular value) of M *)
Definition spectral_norm (M : tensor R) (s : R) : Prop :=
  0 <= s /\ stretches_at_most M s /\ forall s', 0 <= s' -> stretches_at_most M s' -> s <= s'.
(** the maximum of the singular values returned for a non-empty matrix is its spectral norm *)
Definition spectral (svals : tensor R -> list R) : Prop :=
  forall M, matrix M -> nonempty (shp M) -> spectral_norm M (tf_max (svals M)).

(** M with t added to the entry at idx *)
Definition bump (M : tensor R) (idx : list nat) (t : R) : tensor R :=
  gen (shp M) (fun j => get M j + if list_eq_dec Nat.eq_dec j idx then t else 0).
(** g is the partial derivative of f at M with respect to the entry at idx *)
Definition partial_derivative (f : tensor R -> R) (M : tensor R) (idx : list nat) (g : R) : Prop :=
  derivable_pt_lim (fun t => f (bump M idx t)) 0 g.

(** M' is the projected gradient step max(0, M - grad f(M) / L) *)
Definition projected_step (f : tensor R -> R) (L : R) (M M' : tensor R) : Prop :=
  wf M' /\ shp M' = shp M /\
  forall idx, valid (shp M) idx -> exists g, partial_derivative f M idx g /\ get M' idx = Rmax 0 (get M idx - g / L).

Definition nonneg (C : tensor R) : Prop := forall x, In x (dat C) -> 0 <= x.

(** f decreases, up to the distance to the reference point C, from M to M' *)
Definition descends (f : tensor R -> R) (L : R) (M M' : tensor R) : Prop :=
  (forall C, wf C -> shp C = shp M -> nonneg C -> f M' + L / 2 * sqdist C M' <= f C + L / 2 * sqdist C M) /\
  (nonneg M -> f M' <= f M).

(** the variables of an NCP model have the right shapes *)
Definition ncp_wf (X : tensor R) (r : nat) (s : ncp_state R) : Prop :=
  cp_factors X r (n_A s) /\ cp_factors X r (n_Am s) /\ cp_factors X r (n_A0 s) /\
  length (n_L s) = ndims X /\ length (n_L0 s) = ndims X.

(** ** Tucker models *)

(** the factors A_k of a Tucker model of X of the given ranks *)
Definition tucker_factors (X : tensor R) (ranks : list nat) (A : list (tensor R)) : Prop :=
  length A = ndims X /\ length ranks = ndims X /\
  forall k, (k < ndims X)%nat -> is_mat (mat_at A k) (nth k (shp X) 0%nat) (nth k ranks 0%nat).
Definition core_like (ranks : list nat) (G : tensor R) : Prop := wf G /\ shp G = ranks.

(** M^T M *)
Definition gram_of (M : tensor R) : tensor R :=
  mgen (ncols M) (ncols M) (fun p q => bigsum (nrows M) (fun i => mget M i p * mget M i q)).
(** the inner products of the mode-n slices of Y *)
Definition slice_gram (Y : tensor R) (n : nat) : tensor R :=
  mgen (nth n (shp Y) 0%nat) (nth n (shp Y) 0%nat) (fun p q =>
    msum (replace n 1%nat (shp Y)) (fun idx => get Y (replace n p idx) * get Y (replace n q idx))).
(** the core times all factors but the n-th *)
Definition core_times_others (G : tensor R) (A : list (tensor R)) (n : nat) : tensor R :=
  mode_products G (map (fun k => (mat_at A k, k)) (others n (length A))).

(** the variables of an NTucker model have the right shapes *)
Definition nt_wf (X : tensor R) (ranks : list nat) (s : nt_state R) : Prop :=
  tucker_factors X ranks (q_A s) /\ tucker_factors X ranks (q_Am s) /\ tucker_factors X ranks (q_A0 s) /\
  core_like ranks (q_g s) /\ core_like ranks (q_gm s) /\ core_like ranks (q_g0 s) /\
  length (q_L s) = S (ndims X) /\ length (q_L0 s) = S (ndims X).
