(** Properties C82 - C86: random pairwise-interaction matrices and samples; exact recovery; the
    shrinkage functions exact recovery does not use. *)

From Coq Require Import ZArith List Bool Arith Lia Reals Lra.
From Verif Require Import Num Py Tensor TF Spec SpecR SpecPitf PitfOps PitfFacts PitfMore SpecRecover ShrinkFacts RecoverFacts ConvFacts RecoverEx MoreFacts.
Import ListNotations.
Local Open Scope R_scope.

(** C82.  [randn k r c] is what call k of np.random.randn returns, [randint k h n] what call
    k of np.random.randint returns.  The full statement asks for A, B, C of ranks at most
    ra, rb, rc; for A only ra + 1 holds. *)
Theorem C82_random_matrices_partial : forall (randn : nat -> nat -> nat -> tensor R) s0 s1 s2 (ra rb rc : Z),
  (0 < s0)%nat -> (0 < s1)%nat -> (0 < s2)%nat -> (0 <= ra)%Z -> (0 <= rb)%Z -> (0 <= rc)%Z ->
  (forall k r c, is_mat (randn k r c) r c) ->
  exists A B C, sample_rule4mat randn [s0; s1; s2] ra rb rc = Ok (Some A, Some B, Some C) /\
    interaction_matrices s0 s1 s2 A B C /\
    rank_le A (S (Z.to_nat ra)) /\ rank_le B (Z.to_nat rb) /\ rank_le C (Z.to_nat rc).
Proof. exact c82. Qed.
Print Assumptions C82_random_matrices_partial.

Theorem C82_rank_refuted : exists (randn : nat -> nat -> nat -> tensor R) A B C, (forall k r c, is_mat (randn k r c) r c) /\
  sample_rule4mat randn [2; 2; 2]%nat 1 1 1 = Ok (Some A, Some B, Some C) /\ ~ rank_le A 1.
Proof. exact c82_rank_refuted. Qed.
Print Assumptions C82_rank_refuted.

Theorem C82_random_sample : forall (randint : nat -> nat -> nat -> list nat) s0 s1 s2 (m : Z),
  (forall k h n, (0 < h)%nat -> length (randint k h n) = n /\ forall i, (i < n)%nat -> (nth i (randint k h n) 0 < h)%nat) ->
  (0 <= m)%Z -> (0 < s0)%nat -> (0 < s1)%nat -> (0 < s2)%nat ->
  exists spl, sample3D_rule randint [s0; s1; s2] m = Ok spl /\ sample_in s0 s1 s2 (Z.to_nat m) spl.
Proof. exact c82_sample. Qed.
Print Assumptions C82_random_sample.

Example ex_C82 : (forall k r c, is_mat (randn82 k r c) r c) /\
  forall k h n, (0 < h)%nat -> length (randint82 k h n) = n /\ forall i, (i < n)%nat -> (nth i (randint82 k h n) 0 < h)%nat.
Proof. exact hyp82. Qed.

(** C83.  The interactions determine the matrices, and preserve lengths. *)
Theorem C83_isometry : forall s0 s1 s2 A B C, (0 < s0)%nat -> (0 < s1)%nat -> (0 < s2)%nat -> interaction_matrices s0 s1 s2 A B C ->
  bigsum s0 (fun i => bigsum s1 (fun j => bigsum s2 (fun k => (interaction s0 s1 s2 A B C i j k)²))) = sqfro A + sqfro B + sqfro C.
Proof. exact c83_isometry. Qed.
Print Assumptions C83_isometry.

Theorem C83_unique : forall s0 s1 s2 A B C A' B' C', (0 < s0)%nat -> (0 < s1)%nat -> (0 < s2)%nat ->
  interaction_matrices s0 s1 s2 A B C -> interaction_matrices s0 s1 s2 A' B' C' ->
  (forall i j k, (i < s0)%nat -> (j < s1)%nat -> (k < s2)%nat -> interaction s0 s1 s2 A B C i j k = interaction s0 s1 s2 A' B' C' i j k) ->
  A = A' /\ B = B' /\ C = C'.
Proof. exact c83_unique. Qed.
Print Assumptions C83_unique.

(** exact_recovery returns whenever the degrees of freedom are not zero and there is a
    step; it is the last of the sequence of iterations, which does not depend on the number of steps *)
Theorem C83_runs : forall svd (t : tensor R) spl s0 s1 s2 spn delt0 tao0, full_svd svd -> shp t = [s0; s1; s2] ->
  (0 < s0)%nat -> (0 < s1)%nat -> (0 < s2)%nat -> sample_in s0 s1 s2 spn spl -> 0 <= tao0 ->
  exists (ys : nat -> list R) (its : nat -> iter R), forall rank steps, freedom rank s0 s1 s2 <> 0%Z -> (0 < steps)%Z ->
    let n := Z.to_nat steps in
    exact_recovery svd t spl rank delt0 tao0 spn steps =
      Ok (ys n, its (n - 1)%nat, seq 0 n, map (fun k => it_erate (its k)) (seq 0 n), map (fun k => it_loss (its k)) (seq 0 n)).
Proof. exact c83_runs. Qed.
Print Assumptions C83_runs.

(** when every entry was sampled, the loss returned bounds the distance to the matrices
    behind the tensor; loss 0 means they were found *)
Theorem C83_recovery : forall svd (t : tensor R) spl s0 s1 s2 spn delt0 tao0, full_svd svd -> shp t = [s0; s1; s2] ->
  (0 < s0)%nat -> (0 < s1)%nat -> (0 < s2)%nat -> sample_in s0 s1 s2 spn spl -> 0 <= tao0 ->
  forall rank steps y it If Ef Rf, exact_recovery svd t spl rank delt0 tao0 spn steps = Ok (y, it, If, Ef, Rf) ->
    interaction_matrices s0 s1 s2 (it_X it) (it_Y it) (it_Z it) /\ (exists Rf', Rf = Rf' ++ [it_loss it]) /\ 0 <= it_loss it /\
    forall A B C, interaction_matrices s0 s1 s2 A B C ->
      (forall i j k, (i < s0)%nat -> (j < s1)%nat -> (k < s2)%nat -> get t [i; j; k] = interaction s0 s1 s2 A B C i j k) ->
      sample_covers s0 s1 s2 spn spl ->
      sqdiff (it_X it) A + sqdiff (it_Y it) B + sqdiff (it_Z it) C <= INR spn * (it_loss it)².
Proof. exact c83_run. Qed.
Print Assumptions C83_recovery.

Example ex_C83 : interaction_matrices 2 2 2 A85b Z85b Z85b /\ A85b <> Z85b /\
  (exists svd, full_svd svd) /\ sample_in 1 1 1 1 sp85 /\ sample_covers 1 1 1 1 sp85 /\ freedom 1 2 2 2 <> 0%Z.
Proof.
  split; [apply hyp85b|]. split; [exact A85b_nz|]. split; [exact full_svd_exists|]. split; [exact in85|]. split; [exact cov85|discriminate].
Qed.

(** C84.  NumPy's shrink is the proximal operator of the penalty: the unique minimiser, with the
    gap to any other candidate, and firmly non-expansive. *)
Theorem C84_minimiser : forall svd (M : tensor R) tau r c mode, full_svd svd -> is_mat M r c -> (0 < r)%nat -> (0 < c)%nat -> 0 <= tau ->
  exists X p, shrink_np svd M tau mode = Ok X /\ is_mat X r c /\ admissible mode X /\ penalty mode X p /\
    forall Z q, is_mat Z r c -> admissible mode Z -> penalty mode Z q ->
      tau * p + /2 * sqdiff X M + /2 * sqdiff Z X <= tau * q + /2 * sqdiff Z M.
Proof. exact c84_min. Qed.
Print Assumptions C84_minimiser.

Theorem C84_penalty_defined : forall mode (Z : tensor R) r c, is_mat Z r c -> (0 < r)%nat -> (0 < c)%nat -> admissible mode Z ->
  exists p, penalty mode Z p /\ 0 <= p /\ forall p', penalty mode Z p' -> p' = p.
Proof. exact c84_penalty. Qed.
Print Assumptions C84_penalty_defined.

Theorem C84_nonexpansive : forall svd (M1 M2 X1 X2 : tensor R) tau r c mode, full_svd svd -> is_mat M1 r c -> is_mat M2 r c ->
  (0 < r)%nat -> (0 < c)%nat -> 0 <= tau -> shrink_np svd M1 tau mode = Ok X1 -> shrink_np svd M2 tau mode = Ok X2 ->
  sqdiff X1 X2 <= sqdiff M1 M2.
Proof. exact c84_nonexp. Qed.
Print Assumptions C84_nonexpansive.

Example ex_C84 : (exists svd, full_svd svd) /\ is_mat M61 4 3 /\ admissible Normal M61 /\ penalty Normal M61 6.
Proof. split; [exact full_svd_exists|]. split; [exact is_mat_M61|]. split; [exact centred_M61|exact pen_M61]. Qed.

(** C85.  Convergence of exact_recovery.  [step_size] and [threshold] are the scaled step
    and threshold; [small_step d]: 0 < d and d (1/s0 + 1/s1 + 1/s2) < 2. *)
Theorem C85_converges : forall svd (t : tensor R) spl s0 s1 s2 spn delt0 tao0, full_svd svd -> shp t = [s0; s1; s2] ->
  (0 < s0)%nat -> (0 < s1)%nat -> (0 < s2)%nat -> sample_in s0 s1 s2 spn spl -> 0 <= tao0 ->
  sample_distinct spn spl -> small_step (step_size delt0 spn s0 s1 s2) s0 s1 s2 ->
  (exists A B C, interaction_matrices s0 s1 s2 A B C /\ matches t spl spn s0 s1 s2 A B C) ->
  exists X Y Z c, interaction_matrices s0 s1 s2 X Y Z /\ matches t spl spn s0 s1 s2 X Y Z /\
    recovery_cost (threshold tao0 s0 s1 s2) s0 s1 s2 X Y Z c /\
    (forall A B C c', interaction_matrices s0 s1 s2 A B C -> matches t spl spn s0 s1 s2 A B C ->
       recovery_cost (threshold tao0 s0 s1 s2) s0 s1 s2 A B C c' -> c + /2 * (sqdiff A X + sqdiff B Y + sqdiff C Z) <= c') /\
    forall eps, 0 < eps -> exists N, forall rank steps, freedom rank s0 s1 s2 <> 0%Z -> (Z.of_nat N <= steps)%Z ->
      exists y it If Ef Rf, exact_recovery svd t spl rank delt0 tao0 spn steps = Ok (y, it, If, Ef, Rf) /\
        sqdiff (it_X it) X + sqdiff (it_Y it) Y + sqdiff (it_Z it) Z < eps /\ it_loss it < eps.
Proof. exact c85_converges. Qed.
Print Assumptions C85_converges.

(** the losses of a run are square summable, with a bound from any matrices that fit *)
Theorem C85_losses : forall svd (t : tensor R) spl s0 s1 s2 spn delt0 tao0, full_svd svd -> shp t = [s0; s1; s2] ->
  (0 < s0)%nat -> (0 < s1)%nat -> (0 < s2)%nat -> sample_in s0 s1 s2 spn spl -> 0 <= tao0 ->
  sample_distinct spn spl -> small_step (step_size delt0 spn s0 s1 s2) s0 s1 s2 ->
  forall rank steps y it If Ef Rf A B C c, exact_recovery svd t spl rank delt0 tao0 spn steps = Ok (y, it, If, Ef, Rf) ->
  interaction_matrices s0 s1 s2 A B C -> matches t spl spn s0 s1 s2 A B C -> recovery_cost (threshold tao0 s0 s1 s2) s0 s1 s2 A B C c ->
  step_size delt0 spn s0 s1 s2 * (2 - step_size delt0 spn s0 s1 s2 * (1 / INR s0 + 1 / INR s1 + 1 / INR s2)) / 2 *
    (INR spn * bigsum (length Rf) (fun k => (nth k Rf 0)²)) <= c.
Proof. exact c85_losses. Qed.
Print Assumptions C85_losses.

(** the bound on the step size is needed: with delta 2 on a single entry the loss stays at 4 *)
Theorem C85_large_step_refuted : exists svd t spl, full_svd svd /\ shp t = [1; 1; 1]%nat /\ sample_in 1 1 1 1 spl /\ sample_distinct 1 spl /\
  0 < step_size 2 1 1 1 1 /\ (exists A B C, interaction_matrices 1 1 1 A B C /\ matches t spl 1 1 1 1 A B C) /\
  freedom 1 1 1 1 <> 0%Z /\
  forall steps, (2 <= steps)%Z -> exists y it If Ef Rf, exact_recovery svd t spl 1 2 1 1 steps = Ok (y, it, If, Ef, Rf) /\ it_loss it = 4.
Proof. exact c85_step_refuted. Qed.
Print Assumptions C85_large_step_refuted.

Example ex_C85 : (exists svd, full_svd svd) /\ shp t85b = [2; 2; 2]%nat /\ sample_in 2 2 2 2 sp85b /\ sample_distinct 2 sp85b /\
  small_step (step_size 1 2 2 2 2) 2 2 2 /\
  interaction_matrices 2 2 2 A85b Z85b Z85b /\ matches t85b sp85b 2 2 2 2 A85b Z85b Z85b.
Proof. split; [exact full_svd_exists|]. exact hyp85b. Qed.

(** C86.  Full statement: shrinkageBorC returns what shrink(…, 'normal') returns, with the number
    of singular values it keeps, whatever the guess r; shrinkageA what shrink(…, 'complicated')
    returns.  What it returns: with k values at least tau, the outer products of the first r'
    rows of U and V^T, r' being k - 1 if the guess is below k and some value is below tau, and
    the guess otherwise. *)
Theorem C86_shrinkage_value_partial : forall svd (M C U W : tensor R) s tau r c r0 k, is_mat M r c -> centralization M = Ok C -> svd C = (U, s, W) -> is_svd C U s W ->
  (r0 <= length s)%nat -> (k <= length s)%nat -> (forall p, (p < length s)%nat -> (tau <= nth p s 0 <-> (p < k)%nat)) ->
  let r' := if (Nat.ltb r0 k && Nat.ltb k (length s))%bool then (k - 1)%nat else r0 in
  exists X, shrinkageBorC svd M tau (Z.of_nat r0) = Ok (X, Z.of_nat r') /\
    match X with None => r' = 0%nat | Some Y => (0 < r')%nat /\ is_mat Y r c /\
      forall i j, (i < r)%nat -> (j < c)%nat -> mget Y i j = bigsum r' (fun p => (nth p s 0 - tau) * mget U p i * mget W p j) end.
Proof. exact c86_value. Qed.
Print Assumptions C86_shrinkage_value_partial.

Theorem C86_shrinkage_guess_partial : forall svd (M C U W : tensor R) s tau r c k, is_mat M r c -> centralization M = Ok C -> svd C = (U, s, W) -> is_svd C U s W ->
  (k <= length s)%nat -> (forall p, (p < length s)%nat -> (tau <= nth p s 0 <-> (p < k)%nat)) ->
  (forall p i, (p < k)%nat -> (i < r)%nat -> mget U p i = mget U i p) ->
  exists X Y, shrink_np svd M tau Normal = Ok X /\ shrinkageBorC svd M tau (Z.of_nat k) = Ok (Y, Z.of_nat k) /\
    match Y with None => forall i j, (i < r)%nat -> (j < c)%nat -> mget X i j = 0 | Some Y => Y = X end.
Proof. exact c86_guess. Qed.
Print Assumptions C86_shrinkage_guess_partial.

Theorem C86_shrinkage_rank_refuted : exists svd (M C X Y : tensor R) r', is_mat M 4 3 /\ centralization M = Ok C /\
  (let '(U, s, W) := svd C in is_svd C U s W) /\ shrink_np svd M 1 Normal = Ok X /\ shrinkageBorC svd M 1 0 = Ok (Some Y, r') /\ r' = 1%Z /\
  ~ rank_le X 1 /\ Y <> X.
Proof. exact c86_rank_refuted. Qed.
Print Assumptions C86_shrinkage_rank_refuted.

Theorem C86_shrinkage_rows_refuted : exists svd (M C X Y : tensor R), is_mat M 4 3 /\ centralization M = Ok C /\
  (let '(U, s, W) := svd C in is_svd C U s W) /\ shrink_np svd M 1 Normal = Ok X /\ shrinkageBorC svd M 1 2 = Ok (Some Y, 2%Z) /\ Y <> X.
Proof. exact c86_row_refuted. Qed.
Print Assumptions C86_shrinkage_rows_refuted.

Theorem C86_shrinkage_large_guess : forall svd (M C U W : tensor R) s tau r c r0, is_mat M r c -> centralization M = Ok C -> svd C = (U, s, W) -> is_svd C U s W ->
  (length s < r0)%nat -> shrinkageBorC svd M tau (Z.of_nat r0) = Raise IndexError.
Proof. exact c86_index. Qed.
Print Assumptions C86_shrinkage_large_guess.

(** shrinkageA thresholds the sum of the entries, not the sum over the root of the size *)
Theorem C86_shrinkageA_value_partial : forall svd (M : tensor R) tau r c r0 X r', is_mat M r c -> 0 <= tau -> shrinkageBorC svd M tau r0 = Ok (X, r') ->
  match X with None => True | Some Y => is_mat Y r c end ->
  exists Z, shrinkageA svd M tau r0 = Ok (Z, r') /\ is_mat Z r c /\
    forall i j, (i < r)%nat -> (j < c)%nat ->
      mget Z i j = match X with None => 0 | Some Y => mget Y i j end + soft_threshold (total M) tau / INR (r * c).
Proof. exact c86_A. Qed.
Print Assumptions C86_shrinkageA_value_partial.

Theorem C86_shrinkageA_zero_partial : forall svd (M C U W : tensor R) s r c, is_mat M r c -> centralization M = Ok C -> svd C = (U, s, W) -> is_svd C U s W ->
  (0 < r)%nat -> (0 < c)%nat -> (forall p i, (p < length s)%nat -> (i < r)%nat -> mget U p i = mget U i p) ->
  exists X, shrink_np svd M 0 Complicated = Ok X /\ shrinkageA svd M 0 (Z.of_nat (length s)) = Ok (X, Z.of_nat (length s)).
Proof. exact c86_A_zero. Qed.
Print Assumptions C86_shrinkageA_zero_partial.

Theorem C86_shrinkageA_refuted : exists svd (M C X Y : tensor R) r', is_mat M 2 2 /\ centralization M = Ok C /\
  (let '(U, s, W) := svd C in is_svd C U s W) /\ shrink_np svd M 1 Complicated = Ok X /\ shrinkageA svd M 1 0 = Ok (Y, r') /\
  mget X 0 0 = 1/2 /\ mget Y 0 0 = 3/4.
Proof. exact c86_A_refuted. Qed.
Print Assumptions C86_shrinkageA_refuted.

(** a decomposition with three singular values, two of them at least 1; and one with a symmetric U *)
Example ex_C86 : is_mat M61 4 3 /\ centralization M61 = Ok M61 /\ svd86 M61 = (U61, [4; 2; 0], W61) /\ is_svd M61 U61 [4; 2; 0] W61 /\
  (forall p, (p < 3)%nat -> (1 <= nth p [4; 2; 0] 0 <-> (p < 2)%nat)) /\
  is_mat M86 2 2 /\ centralization M86 = Ok M86 /\ is_svd M86 I86 [1; 0] I86 /\ (forall p i, (p < 2)%nat -> (i < 2)%nat -> mget I86 p i = mget I86 i p).
Proof. split; [exact is_mat_M61|]. split; [exact central_M61|]. split; [reflexivity|]. split; [exact svd_M61|]. exact hyp86. Qed.
