(** Property theorems for the PITF operators and training (C59-C64, C66) and for the data
    generators (C65).  Exact arithmetic: over the real numbers unless a number type is
    quantified. *)

From Coq Require Import ZArith List Bool Arith Reals Lia Lra.
From Verif Require Import Num Py Tensor TF Ops Types PitfOps DataGen Spec SpecTypes SpecPitf PitfFacts DataFacts RSums.
Import ListNotations.
Local Open Scope R_scope.

(** C59 *)
Theorem C59_centralization : forall (M : tensor R) r c, is_mat M r c ->
  exists C, centralization M = Ok C /\ is_mat C r c /\
    (forall i j, (i < r)%nat -> (j < c)%nat -> mget C i j = mget M i j - col_sum M j / INR r) /\
    centred C /\ centralization C = Ok C /\ (centred M -> C = M).
Proof. exact c59. Qed.
Print Assumptions C59_centralization.

Theorem C59_centralization_linear : forall (A B M : tensor R) (a b : R) r c,
  is_mat A r c -> is_mat B r c -> is_mat M r c ->
  (forall i j, (i < r)%nat -> (j < c)%nat -> mget M i j = a * mget A i j + b * mget B i j) ->
  exists CA CB CM, centralization A = Ok CA /\ centralization B = Ok CB /\ centralization M = Ok CM /\
    forall i j, (i < r)%nat -> (j < c)%nat -> mget CM i j = a * mget CA i j + b * mget CB i j.
Proof. exact c59_linear. Qed.
Print Assumptions C59_centralization_linear.

Example ex_C59 : is_mat (mkT [2; 2]%nat [1; 2; 3; 8]) 2 2 /\ is_mat M61 4 3 /\ centred M61 /\
  exists C, centralization (mkT [2; 2]%nat [1; 2; 3; 8]) = Ok C /\ mget C 0 0 = -1 /\ mget C 1 1 = 3.
Proof.
  assert (H : is_mat (mkT [2; 2]%nat [1; 2; 3; 8]) 2 2) by (split; reflexivity).
  split; [exact H|]. split; [exact is_mat_M61|]. split; [exact centred_M61|].
  destruct (c59 _ 2 2 H) as (C & E & _ & Hc & _). exists C. split; [exact E|].
  rewrite !Hc by lia. unfold col_sum, mget, get, nrows. cbn. lra.
Qed.

(** C60: the product identity up to the scale of Pomega_mat, for samples without a repeated
    position; with scale 1 the adjoint identity *)
Theorem C60_adjoint_partial : forall spl (X : tensor R) (y : list R) ts m d r c o,
  axes_of d r c o -> length ts = 3%nat -> (m <= length y)%nat -> (0 < nth o ts 0)%nat ->
  is_mat X (nth r ts 0%nat) (nth c ts 0%nat) ->
  positions_in m (nth r ts 0%nat) (nth c ts 0%nat) (sp_pick spl r) (sp_pick spl c) ->
  positions_distinct m (sp_pick spl r) (sp_pick spl c) ->
  exists p A, Pomega_mat spl X ts m d = Ok p /\ adjoint_operator spl y ts m d = Ok A /\
    is_mat A (nth r ts 0%nat) (nth c ts 0%nat) /\ length p = m /\
    sqrt (INR (nth o ts 0%nat)) * vdot m p y = mdot X A.
Proof. exact c60_scaled. Qed.
Print Assumptions C60_adjoint_partial.

Theorem C60_adjoint_unit_partial : forall spl (X : tensor R) (y : list R) ts m d r c o,
  axes_of d r c o -> length ts = 3%nat -> (m <= length y)%nat -> nth o ts 0%nat = 1%nat ->
  is_mat X (nth r ts 0%nat) (nth c ts 0%nat) ->
  positions_in m (nth r ts 0%nat) (nth c ts 0%nat) (sp_pick spl r) (sp_pick spl c) ->
  positions_distinct m (sp_pick spl r) (sp_pick spl c) ->
  exists p A, Pomega_mat spl X ts m d = Ok p /\ adjoint_operator spl y ts m d = Ok A /\
    is_mat A (nth r ts 0%nat) (nth c ts 0%nat) /\ length p = m /\ vdot m p y = mdot X A.
Proof. exact c60_unit. Qed.
Print Assumptions C60_adjoint_unit_partial.

(** what adjoint_operator computes: the last sample of a position wins, zero elsewhere *)
Theorem C60_adjoint_values : forall (T : Type) (N : Num T) spl (y : list T) ts m d r c o,
  axes_of d r c o -> length ts = 3%nat -> (m <= length y)%nat ->
  positions_in m (nth r ts 0%nat) (nth c ts 0%nat) (sp_pick spl r) (sp_pick spl c) ->
  exists A, adjoint_operator spl y ts m d = Ok A /\ is_mat A (nth r ts 0%nat) (nth c ts 0%nat) /\
    (forall i, (i < m)%nat ->
       (forall j, (i < j < m)%nat -> ~ (nth j (sp_pick spl r) 0%nat = nth i (sp_pick spl r) 0%nat /\
                                        nth j (sp_pick spl c) 0%nat = nth i (sp_pick spl c) 0%nat)) ->
       mget A (nth i (sp_pick spl r) 0%nat) (nth i (sp_pick spl c) 0%nat) = nth i y n0) /\
    (forall a b, (a < nth r ts 0)%nat -> (b < nth c ts 0)%nat ->
       (forall i, (i < m)%nat -> ~ (nth i (sp_pick spl r) 0%nat = a /\ nth i (sp_pick spl c) 0%nat = b)) -> mget A a b = n0).
Proof. exact @c60_adj. Qed.
Print Assumptions C60_adjoint_values.

(** false when a position is drawn twice, and when the scale is not 1 *)
Theorem C60_adjoint_refuted : exists spl X y p A,
  positions_in 2 1 1 (sp_a spl) (sp_b spl) /\ is_mat X 1 1 /\
  Pomega_mat spl X [1; 1; 1]%nat 2 0 = Ok p /\ adjoint_operator spl y [1; 1; 1]%nat 2 0 = Ok A /\ vdot 2 p y <> mdot X A.
Proof. exact c60_dup. Qed.
Print Assumptions C60_adjoint_refuted.

Theorem C60_adjoint_scale_refuted : exists spl X y p A,
  positions_in 1 1 1 (sp_a spl) (sp_b spl) /\ positions_distinct 1 (sp_a spl) (sp_b spl) /\ is_mat X 1 1 /\
  Pomega_mat spl X [1; 1; 4]%nat 1 0 = Ok p /\ adjoint_operator spl y [1; 1; 4]%nat 1 0 = Ok A /\ vdot 1 p y <> mdot X A.
Proof. exact c60_scale. Qed.
Print Assumptions C60_adjoint_scale_refuted.

(** three distinct samples of a 3 x 2 x 4 tensor; rows on axis 1, columns on axis 2, scale
    axis 0 *)
Example ex_C60 : let spl := mkS [0; 2; 1]%nat [1; 0; 1]%nat [3; 3; 0]%nat in
  axes_of 1 1 2 0 /\ positions_in 3 2 4 (sp_pick spl 1) (sp_pick spl 2) /\
  positions_distinct 3 (sp_pick spl 1) (sp_pick spl 2) /\
  adjoint_operator spl [5; 6; 7]%Z [3; 2; 4]%nat 3 1 = Ok (mkT [2; 4]%nat [0; 0; 0; 6; 7; 0; 0; 5]%Z) /\
  Pomega_mat spl (mgen 2 4 (fun i j => Z.of_nat (4 * i + j))) [1; 2; 4]%nat 3 1 = Ok [7; 3; 4]%Z.
Proof.
  cbv zeta. split; [right; left; auto|]. split; [|split; [|split]].
  - split; [cbn; lia|]. split; [cbn; lia|]. intros i Hi. enum i 3%nat; cbn; lia.
  - intros i j Hi Hj. enum i 3%nat; enum j 3%nat; cbn; intros; auto; discriminate.
  - vm_compute. reflexivity.
  - vm_compute. reflexivity.
Qed.

(** C61: NumPy shrink.  [svd] is the SVD routine; the hypothesis is that it decomposes the
    one matrix it is given. *)
Theorem C61_shrink_numpy : forall svd (M C U W : tensor R) s tau r c,
  is_mat M r c -> centralization M = Ok C -> svd C = (U, s, W) -> is_svd C U s W ->
  exists X, shrink_np svd M tau Normal = Ok X /\ is_svd X U (thresholded tau s) W /\
    (tau = 0 -> X = C) /\
    ((forall x, In x s -> x <= tau) -> forall i j, (i < r)%nat -> (j < c)%nat -> mget X i j = 0).
Proof. exact c61_np. Qed.
Print Assumptions C61_shrink_numpy.

Theorem C61_shrink_numpy_complicated : forall svd (M C U W : tensor R) s tau r c,
  is_mat M r c -> 0 <= tau -> centralization M = Ok C -> svd C = (U, s, W) -> is_svd C U s W ->
  exists X Y, shrink_np svd M tau Normal = Ok X /\ shrink_np svd M tau Complicated = Ok Y /\ is_mat Y r c /\
    forall i j, (i < r)%nat -> (j < c)%nat ->
      mget Y i j = mget X i j + soft_threshold (total M / sqrt (INR (r * c))) tau / sqrt (INR (r * c)).
Proof. exact c61_np_complicated. Qed.
Print Assumptions C61_shrink_numpy_complicated.

(** TensorFlow's shrink multiplies by V where the decomposition needs its transpose: right
    only when V is symmetric *)
Theorem C61_shrink_tensorflow_partial : forall svd (M C U V : tensor R) s tau r c,
  is_mat M r c -> centralization M = Ok C -> svd C = (U, s, V) -> is_svd C U s (mtrans V) ->
  (forall i j, (i < c)%nat -> (j < c)%nat -> mget V i j = mget V j i) -> is_mat V c c ->
  exists X, shrink_tf svd M tau Normal = Ok X /\ is_svd X U (thresholded tau s) V /\ (tau = 0 -> X = C).
Proof. exact c61_tf_sym. Qed.
Print Assumptions C61_shrink_tensorflow_partial.

(** for the centred matrix M61 shrink with threshold 0 is not the identity, whichever SVD is
    returned *)
Theorem C61_shrink_tensorflow_refuted : centralization M61 = Ok M61 /\
  (exists svd, forall U s V, svd M61 = (U, s, V) -> is_svd M61 U s (mtrans V) /\ is_mat V 3 3) /\
  forall svd, (forall U s V, svd M61 = (U, s, V) -> is_svd M61 U s (mtrans V) /\ is_mat V 3 3) ->
  exists X, shrink_tf svd M61 0 Normal = Ok X /\ X <> M61.
Proof.
  split; [exact central_M61|]. split; [|exact c61_tf_refuted].
  exists (fun _ => (U61, [4; 2; 0], V61t)). intros U s V E. injection E as <- <- <-.
  split; [|split; reflexivity]. rewrite V61t_trans. exact svd_M61.
Qed.
Print Assumptions C61_shrink_tensorflow_refuted.

Example ex_C61 : is_mat M61 4 3 /\ centralization M61 = Ok M61 /\ is_svd M61 U61 [4; 2; 0] W61 /\
  (* a symmetric V *)
  is_mat M61s 2 1 /\ centralization M61s = Ok M61s /\
  (let '(U, s, V) := svd63 M61s in is_svd M61s U s (mtrans V) /\ is_mat V 1 1 /\ mget V 0 0 = 1).
Proof.
  split; [exact is_mat_M61|]. split; [exact central_M61|]. split; [exact svd_M61|].
  assert (H : is_mat M61s 2 1) by (split; reflexivity). split; [exact H|]. split; [exact central_M61s|].
  pose proof (svd63_21 M61s H) as S. unfold svd63 in *. cbn [shp M61s] in *. cbv zeta in *. split; [exact S|]. split; [split; reflexivity|].
  reflexivity.
Qed.

(** C62: NumPy; (0, 0) read as the zero vector *)
Theorem C62_cone_projection_numpy : forall (x : list R) (t : R), exists x' t',
  (cone_projection_np x t = CVec x' t' \/ cone_projection_np x t = CZero /\ x' = repeat 0 (length x) /\ t' = 0) /\
  length x' = length x /\ in_cone x' t' /\
  (forall y u, length y = length x -> in_cone y u ->
     dist2 (length x) x t x' t' + dist2 (length x) x' t' y u <= dist2 (length x) x t y u) /\
  (in_cone x t -> cone_projection_np x t = CVec x t).
Proof. exact c62_np. Qed.
Print Assumptions C62_cone_projection_numpy.

(** a point at distance 0 is the same point: the nearest point is unique *)
Theorem C62_distance : forall n x t y u, length x = n -> length y = n -> dist2 n x t y u = 0 -> x = y /\ t = u.
Proof. exact dist2_zero. Qed.
Print Assumptions C62_distance.

(** the TensorFlow version always raises, also on points of the cone *)
Theorem C62_cone_projection_tensorflow_refuted :
  (forall (x : list R) t, cone_projection_tf x t = Raise TypeError) /\ in_cone [3; 4] 5.
Proof.
  split; [reflexivity|]. unfold in_cone, sqnorm. cbn [length bigsum nth]. Rn.
  replace (0 + 3 * 3 + 4 * 4) with (5 * 5) by lra. rewrite sqrt_square; lra.
Qed.
Print Assumptions C62_cone_projection_tensorflow_refuted.

Example ex_C62 : in_cone [3; 4] 5 /\ ~ in_cone [3; 4] 4 /\ in_cone [0; 0] 0.
Proof.
  assert (E : sqrt (sqnorm [3; 4]) = 5).
  { unfold sqnorm. cbn [length bigsum nth]. Rn. replace (0 + 3 * 3 + 4 * 4) with (5 * 5) by lra. apply sqrt_square; lra. }
  unfold in_cone. rewrite E. split; [lra|]. split; [lra|].
  unfold sqnorm. cbn [length bigsum nth]. Rn. replace (0 + 0 * 0 + 0 * 0) with 0 by lra. rewrite sqrt_0. lra.
Qed.

(** C63: exact_recovery runs the recurrence on one sample, [steps] times *)
Theorem C63_exact_recovery : forall (T : Type) (N : Num T) svd (t : tensor T) spl rank delt0 tao0 spn steps y it If Ef Rf,
  exact_recovery svd t spl rank delt0 tao0 spn steps = Ok (y, it, If, Ef, Rf) ->
  (0 < steps)%Z /\
  exists ys its, recurrence (shrink_np svd) t (fun _ => spl) spn (pitf_delt delt0 spn (shp t)) (pitf_tao tao0 (shp t)) (Z.to_nat steps) ys its /\
    y = ys (Z.to_nat steps) /\ it = its (Z.to_nat steps - 1)%nat /\ If = seq 0 (Z.to_nat steps) /\
    Ef = map (fun k => it_erate (its k)) (seq 0 (Z.to_nat steps)) /\ Rf = map (fun k => it_loss (its k)) (seq 0 (Z.to_nat steps)).
Proof. exact @c63_np. Qed.
Print Assumptions C63_exact_recovery.

(** PITF.train: the recurrence, but on a new sample at every step *)
Theorem C63_train_partial : forall (T : Type) (N : Num T) svd (t : tensor T) spls delt0 tao0 spn vi steps o o',
  pitf_train svd t spls delt0 tao0 spn vi steps o = (o', Ok tt) ->
  (0 < steps)%Z /\
  exists ys its, recurrence (shrink_tf svd) t (fun k => spls (S k)) spn (pitf_delt delt0 spn (shp t)) (pitf_tao tao0 (shp t)) (Z.to_nat steps) ys its /\
    po_vec o' = Some (ys (Z.to_nat steps)).
Proof. exact @c63_tf. Qed.
Print Assumptions C63_train_partial.

(** a completed two-step training whose result is the recurrence of no fixed sample *)
Theorem C63_train_refuted : snd run63 = Ok tt /\ forall spl ys its,
  recurrence (shrink_tf svd63) t63 (fun _ => spl) 1 (pitf_delt 1 1 (shp t63)) (pitf_tao 100 (shp t63)) 2 ys its ->
  po_vec (fst run63) <> Some (ys 2%nat).
Proof. split; [exact run63_ok|exact c63_redraw]. Qed.
Print Assumptions C63_train_refuted.

(** exact_recovery fails although asked for a step, when the degrees of freedom it prints are 0 *)
Theorem C63_exact_recovery_zero_freedom : forall (T : Type) (N : Num T) svd (t : tensor T) spl rank delt0 tao0 spn steps s0 s1 s2,
  shp t = [s0; s1; s2] -> let z := Z.of_nat in
  (rank * (z s0 + z s1 - rank) + rank * (z s1 + z s2 - rank) + rank * (z s2 + z s0 - rank) = 0)%Z ->
  exact_recovery svd t spl rank delt0 tao0 spn steps = Raise ZeroDivisionError.
Proof. exact @c63_zero_freedom. Qed.
Print Assumptions C63_exact_recovery_zero_freedom.

Example ex_C63 :
  (exists r, exact_recovery svd63 t63 (mkS [0] [0] [1])%nat 1 100 1 1 2 = Ok r) /\ snd run63 = Ok tt /\
  (let z := Z.of_nat in 2 * (z 1%nat + z 2%nat - 2) + 2 * (z 2%nat + z 3%nat - 2) + 2 * (z 3%nat + z 1%nat - 2) = 12)%Z /\
  (let z := Z.of_nat in 4 * (z 4%nat + z 4%nat - 4) + 4 * (z 4%nat + z 0%nat - 4) + 4 * (z 0%nat + z 4%nat - 4) = 16)%Z /\
  (let z := Z.of_nat in 2 * (z 1%nat + z 1%nat - 2) + 2 * (z 1%nat + z 1%nat - 2) + 2 * (z 1%nat + z 1%nat - 2) = 0)%Z.
Proof.
  split; [|split; [exact run63_ok|split; [reflexivity|split; reflexivity]]].
  apply BcuFacts.isok_ex. vm_compute. reflexivity.
Qed.

(** C64 *)
Theorem C64_subspace_BC : forall (U V : tensor R) r c k m, is_mat U r k -> is_mat V c k -> m = MB \/ m = MC ->
  exists S, subspace U V m = Ok (Some S) /\ is_mat S r c /\ centred S.
Proof. exact c64_BC. Qed.
Print Assumptions C64_subspace_BC.

Theorem C64_subspace_A : forall (U V : tensor R) r c k, (0 < r)%nat -> (0 < c)%nat -> is_mat U r k -> is_mat V c k ->
  exists S P, subspace U V MA = Ok (Some S) /\ is_mat S r c /\ is_mat P r c /\
    (forall i j, (i < r)%nat -> (j < c)%nat -> mget P i j = bigsum k (fun l => mget U i l * mget V j l)) /\
    total S = total P /\ forall j, (j < c)%nat -> col_sum S j = total P / INR c.
Proof. exact c64_A. Qed.
Print Assumptions C64_subspace_A.

Example ex_C64 : is_mat (mkT [2; 1]%nat [1; 2]) 2 1 /\ is_mat (mkT [3; 1]%nat [1; 0; 5]) 3 1 /\
  exists S, subspace (mkT [2; 1]%nat [1; 2]) (mkT [3; 1]%nat [1; 0; 5]) MA = Ok (Some S) /\ total S = 18.
Proof.
  assert (HU : is_mat (mkT [2; 1]%nat [1; 2]) 2 1) by (split; reflexivity).
  assert (HV : is_mat (mkT [3; 1]%nat [1; 0; 5]) 3 1) by (split; reflexivity).
  split; [exact HU|]. split; [exact HV|].
  destruct (c64_A _ _ 2 3 1 ltac:(lia) ltac:(lia) HU HV) as (S & P & E & _ & [HPw HPs] & HP & Ht & _).
  exists S. split; [exact E|]. rewrite Ht. unfold total, col_sum, nrows, ncols. rewrite HPs. cbn [nth bigsum].
  rewrite !HP by lia. unfold mget, get. cbn. lra.
Qed.

(** C65.  [cast F32] is the rounding to float32, which keeps non-negative numbers so. *)
Theorem C65_synthetic_cp_partial : forall (cast : dtype -> R -> R), (forall x, 0 <= x -> 0 <= cast F32 x) ->
  forall N_list r (rand : nat -> tensor R) (randn : tensor R) mn,
  N_list <> [] -> (length N_list <= 25)%nat ->
  (forall ii, (ii < length N_list)%nat -> is_mat (rand ii) (nth ii N_list 0%nat) r) -> shp randn = N_list ->
  exists t, synthetic_data_cp cast N_list rand randn mn = Ok t /\ shp t = N_list /\ forall x, In x (dat t) -> 0 <= x.
Proof. exact c65_cp. Qed.
Print Assumptions C65_synthetic_cp_partial.

Theorem C65_synthetic_cp_refuted : forall cast N_list r (rand : nat -> tensor R) (randn : tensor R) mn,
  (25 < length N_list)%nat ->
  (forall ii, (ii < length N_list)%nat -> is_mat (rand ii) (nth ii N_list 0%nat) r) ->
  synthetic_data_cp cast N_list rand randn mn = Raise ValueError.
Proof. exact c65_cp_limit. Qed.
Print Assumptions C65_synthetic_cp_refuted.

Theorem C65_synthetic_tucker_partial : forall N_list ranks (randg : tensor R) (rand : nat -> tensor R) (randn : tensor R) mn,
  N_list <> [] -> (length N_list <= 13)%nat -> length ranks = length N_list -> wf randg -> shp randg = ranks ->
  (forall ii, (ii < length N_list)%nat -> is_mat (rand ii) (nth ii N_list 0%nat) (nth ii ranks 0%nat)) -> shp randn = N_list ->
  exists t, synthetic_data_tucker N_list randg rand randn mn = Ok t /\ shp t = N_list /\ forall x, In x (dat t) -> 0 <= x.
Proof. exact c65_tucker. Qed.
Print Assumptions C65_synthetic_tucker_partial.

Theorem C65_synthetic_tucker_refuted : let one := fun s => mkT s [1] in let ranks := (2 :: repeat 1 13)%nat in
  synthetic_data_tucker (repeat 1%nat 14) (mkT ranks [1; 1])
    (fun ii => if Nat.eqb ii 0 then mkT [1; 2]%nat [1; 1] else one [1; 1]%nat) (one (repeat 1%nat 14)) (1/10) = Raise ValueError.
Proof. exact c65_tucker_14. Qed.
Print Assumptions C65_synthetic_tucker_refuted.

(** a 2 x 3 tensor of rank 1 with a negative noise draw; the same over the integers, computed *)
Example ex_C65 : let rand := fun ii => if Nat.eqb ii 0 then mkT [2; 1]%nat [1; 2] else mkT [3; 1]%nat [3; 0; 1] in
  (forall ii, (ii < 2)%nat -> is_mat (rand ii) (nth ii [2; 3]%nat 0%nat) 1) /\
  (let rz := fun ii => if Nat.eqb ii 0 then mkT [2; 1]%nat [1; 2]%Z else mkT [3; 1]%nat [3; 0; 1]%Z in
   synthetic_data_cp (fun _ x => x) [2; 3]%nat rz (mkT [2; 3]%nat [-9; 1; 1; 0; 0; -2]%Z) 10%Z
     = Ok (mkT [2; 3]%nat [3; 10; 11; 6; 0; 2]%Z) /\
   synthetic_data_tucker [2; 3]%nat (mkT [1; 1]%nat [1]%Z) rz (mkT [2; 3]%nat [-9; 1; 1; 0; 0; -2]%Z) 10%Z
     = Ok (mkT [2; 3]%nat [3; 10; 11; 6; 0; 2]%Z)).
Proof.
  cbv zeta. split; [|split; vm_compute; reflexivity]. intros ii Hi. enum ii 2%nat; split; reflexivity.
Qed.

(** C66: full is never assigned; a fresh object still gives None after a completed run *)
Theorem C66_full_unchanged : forall (T : Type) (N : Num T) svd (t : tensor T) spls delt0 tao0 spn vi steps o,
  pitf_full (fst (pitf_train svd t spls delt0 tao0 spn vi steps o)) = pitf_full o.
Proof. exact @c66_tf. Qed.
Print Assumptions C66_full_unchanged.

Theorem C66_full_unchanged_numpy : forall (T : Type) (N : Num T) svd (t : tensor T) spl rank delt0 tao0 spn steps o,
  pitf_full (fst (np_recover svd t spl rank delt0 tao0 spn steps o)) = pitf_full o.
Proof. exact @c66_np. Qed.
Print Assumptions C66_full_unchanged_numpy.

Theorem C66_full_refuted : snd run63 = Ok tt /\ pitf_full (fst run63) = None /\
  (exists r, snd (np_recover svd63 t63 (mkS [0] [0] [1])%nat 1 100 1 1 2 pitf_fresh) = Ok r) /\
  pitf_full (fst (np_recover svd63 t63 (mkS [0] [0] [1])%nat 1 100 1 1 2 pitf_fresh)) = None.
Proof.
  split; [exact run63_ok|]. split; [apply c66_tf|]. split; [|reflexivity]. apply BcuFacts.isok_ex. vm_compute. reflexivity.
Qed.
Print Assumptions C66_full_refuted.
