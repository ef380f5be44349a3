(** Property theorems C11-C13 and C70: ttm. *)

From Coq Require Import ZArith List Bool Arith Permutation.
From Verif Require Import Num Py Tensor TF Ops Spec SkipFacts TtmLemmas.
Import ListNotations.

(** C11: the sequence of n-mode products *)
Theorem C11_ttm : forall (T : Type) (N : Num T), RingLaws T ->
  forall (X : tensor T) (mats : list (tensor T)) (ax : list nat) (tr : bool),
  wf X -> ndims X <= 13 -> ax <> [] -> NoDup ax -> (forall a, In a ax -> a < ndims X) ->
  length mats = length ax ->
  (forall k, k < length ax -> matrix (mat_at mats k) /\
     (if tr then nrows (mat_at mats k) else ncols (mat_at mats k)) = nth (nth k ax 0) (shp X) 0) ->
  ttm X mats (Some (map Z.of_nat ax)) tr SkNone =
  Ok (mode_products X (combine (if tr then map mtrans mats else mats) ax)).
Proof. exact @c11. Qed.
Print Assumptions C11_ttm.

(** without axis: axes 0, 1, 2, ... *)
Theorem C11_ttm_default : forall (T : Type) (N : Num T), RingLaws T ->
  forall (X : tensor T) (mats : list (tensor T)) (tr : bool),
  wf X -> ndims X <= 13 -> mats <> [] -> length mats <= ndims X ->
  (forall k, k < length mats -> matrix (mat_at mats k) /\
     (if tr then nrows (mat_at mats k) else ncols (mat_at mats k)) = nth k (shp X) 0) ->
  ttm X mats None tr SkNone =
  Ok (mode_products X (combine (if tr then map mtrans mats else mats) (seq 0 (length mats)))).
Proof. exact @c11_default. Qed.
Print Assumptions C11_ttm_default.

(** with a skip argument: the kept factors on their own modes, skipped modes untouched;
    a skipped factor need not even fit *)
Theorem C11_ttm_skip : forall (T : Type) (N : Num T), RingLaws T ->
  forall (X : tensor T) (mats : list (tensor T)) (tr : bool) (s : skiparg),
  wf X -> ndims X <= 13 -> s <> SkNone -> length mats <= ndims X ->
  kept (skipset s) (length mats) <> [] ->
  (forall k, In k (kept (skipset s) (length mats)) -> matrix (mat_at mats k) /\
     (if tr then nrows (mat_at mats k) else ncols (mat_at mats k)) = nth k (shp X) 0) ->
  exists r, ttm X mats None tr s = Ok r /\
    r = mode_products X (combine (if tr then map mtrans (without (skipset s) mats) else without (skipset s) mats)
                                 (kept (skipset s) (length mats))) /\
    forall k, k < ndims X -> In (Z.of_nat k) (skipset s) \/ length mats <= k ->
      nth k (shp r) 0 = nth k (shp X) 0.
Proof. exact @c11_skip. Qed.
Print Assumptions C11_ttm_skip.

(** any order, as long as no matrix label runs into the tensor labels *)
Theorem C11_ttm_any_order : forall (T : Type) (N : Num T), RingLaws T ->
  forall (X : tensor T) (mats : list (tensor T)) (ax : list nat) (tr : bool),
  wf X -> ax <> [] -> NoDup ax -> (forall a, In a ax -> a < ndims X /\ a + ndims X < 26) ->
  length mats = length ax ->
  (forall k, k < length ax -> matrix (mat_at mats k) /\
     (if tr then nrows (mat_at mats k) else ncols (mat_at mats k)) = nth (nth k ax 0) (shp X) 0) ->
  ttm X mats (Some (map Z.of_nat ax)) tr SkNone =
  Ok (mode_products X (combine (if tr then map mtrans mats else mats) ax)).
Proof. exact @c11_gen. Qed.
Print Assumptions C11_ttm_any_order.

Definition exX : tensor Z := mkT [2; 3; 2] (map Z.of_nat (seq 1 12)).
Definition exU : tensor Z := mkT [1; 2] [1; -1]%Z.
Definition exV : tensor Z := mkT [2; 3] [1; 0; 2; 0; 1; 1]%Z.
Example ex_C11 : ttm exX [exV; exU] (Some [1; 2]%Z) false SkNone = Ok (mkT [2; 2; 1] [-3; -2; -3; -2]%Z)
  /\ ttm exX [exU; exV; exU] None false (SkInt 1) = Ok (mkT [1; 3; 1] [0; 0; 0]%Z)
  /\ ttm exX [mtrans exV] (Some [1%Z]) true SkNone = ttm exX [exV] (Some [1%Z]) false SkNone.
Proof. repeat split; vm_compute; reflexivity. Qed.

(** C12: listing order is irrelevant *)
Theorem C12_ttm_order : forall (T : Type) (N : Num T), RingLaws T ->
  forall (X : tensor T) (mats : list (tensor T)) (ax : list nat) (mats' : list (tensor T)) (ax' : list nat) (tr : bool),
  wf X -> NoDup ax -> ax <> [] -> ndims X <= 13 ->
  (forall a, In a ax -> a < ndims X) -> length mats = length ax -> length mats' = length ax' ->
  (forall k, k < length ax -> matrix (mat_at mats k) /\
     (if tr then nrows (mat_at mats k) else ncols (mat_at mats k)) = nth (nth k ax 0) (shp X) 0) ->
  Permutation (combine mats ax) (combine mats' ax') ->
  ttm X mats (Some (map Z.of_nat ax)) tr SkNone = ttm X mats' (Some (map Z.of_nat ax')) tr SkNone.
Proof. exact @ttm_perm. Qed.
Print Assumptions C12_ttm_order.

Example ex_C12 : ttm exX [exU; exV] (Some [2; 1]%Z) false SkNone = Ok (mkT [2; 2; 1] [-3; -2; -3; -2]%Z).
Proof. vm_compute. reflexivity. Qed.

(** C13: inconsistent calls *)
Theorem C13_ttm_both : forall (T : Type) (N : Num T) (X : tensor T) (mats : list (tensor T)) (ax : list Z) (tr : bool) (s : skiparg),
  s <> SkNone -> ttm X mats (Some ax) tr s = Raise ValueError.
Proof. exact @ttm_both. Qed.
Print Assumptions C13_ttm_both.

(** no axes, wrong count, or a matrix that does not fit (or is no matrix): ValueError, any order *)
Theorem C13_ttm_rejects : forall (T : Type) (N : Num T) (X : tensor T) (mats : list (tensor T)) (ax : list nat) (tr : bool),
  (forall a, In a ax -> a < ndims X) ->
  (ax = [] \/ length mats <> length ax \/
   exists k, k < length ax /\ forall rr cc, shp (mat_at mats k) = [rr; cc] ->
     (if tr then rr else cc) <> nth (nth k ax 0) (shp X) 0) ->
  ttm X mats (Some (map Z.of_nat ax)) tr SkNone = Raise ValueError.
Proof. exact @c13_bad. Qed.
Print Assumptions C13_ttm_rejects.

(** axes outside 0..order-1, negative ones included, never give a tensor *)
Theorem C13_ttm_axis_range : forall (T : Type) (N : Num T) (X : tensor T) (mats : list (tensor T)) (ax : list Z) (tr : bool) (a : Z) r,
  In a ax -> (a < 0 \/ Z.of_nat (ndims X) <= a)%Z -> ttm X mats (Some ax) tr SkNone <> Ok r.
Proof. exact @c13_range. Qed.
Print Assumptions C13_ttm_axis_range.

(** up to order 13 the accepted calls are exactly the consistent ones *)
Theorem C13_ttm_domain_partial : forall (T : Type) (N : Num T), RingLaws T ->
  forall (X : tensor T) (mats : list (tensor T)) (ax : list nat) (tr : bool),
  wf X -> NoDup ax -> (forall M, In M mats -> wf M) ->
  (forall a, In a ax -> a < ndims X) -> ndims X <= 13 ->
  ((exists r, ttm X mats (Some (map Z.of_nat ax)) tr SkNone = Ok r) <->
   (ax <> [] /\ length mats = length ax /\
    forall k, k < length ax -> exists rr cc, shp (mat_at mats k) = [rr; cc] /\
      (if tr then rr else cc) = nth (nth k ax 0) (shp X) 0)) /\
  ((~ exists r, ttm X mats (Some (map Z.of_nat ax)) tr SkNone = Ok r) ->
   ttm X mats (Some (map Z.of_nat ax)) tr SkNone = Raise ValueError).
Proof. exact @ttm_domain. Qed.
Print Assumptions C13_ttm_domain_partial.

(** order 14: a consistent call silently returns another tensor *)
Theorem C13_ttm_every_order_refuted : exists (X : tensor Z) (mats : list (tensor Z)) r,
  wf X /\ length mats = ndims X /\
  (forall k, k < length mats -> matrix (mat_at mats k) /\ ncols (mat_at mats k) = nth k (shp X) 0) /\
  ttm X mats None false SkNone = Ok r /\
  r <> mode_products X (combine mats (seq 0 (length mats))).
Proof. exact c13_refuted. Qed.
Print Assumptions C13_ttm_every_order_refuted.

Example ex_C13 : ttm exX [exU] (Some [1%Z]) false SkNone = Raise ValueError
  /\ ttm exX [exU; exV] (Some [2%Z]) false SkNone = Raise ValueError
  /\ ttm exX [exU] (Some [0%Z]) false (SkInt 0) = Raise ValueError
  /\ (forall r, ttm exX [exU] (Some [-1]%Z) false SkNone <> Ok r).
Proof. repeat split; try (vm_compute; reflexivity). intros r. vm_compute. discriminate. Qed.

(** C70: a repeated axis does not apply both matrices in turn (refuted) *)
Theorem C70_ttm_repeated_axis_refuted : exists (X M1 M2 : tensor Z) r,
  wf X /\ matrix M1 /\ matrix M2 /\ ncols M1 = 2 /\ ncols M2 = nrows M1 /\ shp X = [2] /\
  ttm X [M1; M2] (Some [0; 0]%Z) false SkNone = Ok r /\
  r <> mode_products X [(M1, 0); (M2, 0)].
Proof. exact c70_refuted. Qed.
Print Assumptions C70_ttm_repeated_axis_refuted.
