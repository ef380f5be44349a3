(** C112: HOSVD with smaller ranks is a truncation of HOSVD with larger ranks *)

From Coq Require Import ZArith List Bool Arith Reals.
From Verif Require Import Num Py Tensor Types Fact Train Spec SpecR SpecTucker AlsLemmas SpecTrunc TruncFacts TruncWit.
Import ListNotations.
Local Open Scope R_scope.

(** first columns of the factors, leading entries of the core; the squared distances differ by the
    squares of the core entries left out *)
Theorem C112_hosvd : forall svdU (X : tensor R) ranks ranks', left_svd svdU -> wf X -> nonempty (shp X) -> (0 < ndims X <= 13)%nat ->
  (ndims X <= length ranks)%nat -> (ndims X <= length ranks')%nat -> (forall n, (n < ndims X)%nat -> (nth n ranks 0 <= nth n ranks' 0)%nat) ->
  exists o o', hosvd svdU X (map Z.of_nat ranks) = Ok o /\ hosvd svdU X (map Z.of_nat ranks') = Ok o' /\
    first_columns ranks (tu_A o) (tu_A o') /\
    (forall idx, valid (shp (tu_core o)) idx -> valid (shp (tu_core o')) idx /\ get (tu_core o) idx = get (tu_core o') idx) /\
    tu_full o = tucker_tensor (corner (shp (tu_core o)) (tu_core o')) (tu_A o') /\
    sqdist X (tu_full o) = sqdist X (tu_full o') + energy_outside (shp (tu_core o)) (tu_core o').
Proof. exact c112_hosvd. Qed.
Print Assumptions C112_hosvd.

(** the same of the fields two trained objects publish; larger ranks are never worse *)
Theorem C112_train : forall svdU (X : tensor R) ranks ranks' w1 o1 r1 n1 o1' h1 id1 w2 o2 r2 n2 o2' h2 id2,
  left_svd svdU -> wf X -> nonempty (shp X) -> (0 < ndims X <= 13)%nat ->
  (ndims X <= length ranks)%nat -> (ndims X <= length ranks')%nat -> (forall n, (n < ndims X)%nat -> (nth n ranks 0 <= nth n ranks' 0)%nat) ->
  o_built o1 = Some (map Z.of_nat ranks, id1) -> o_built o2 = Some (map Z.of_nat ranks', id2) ->
  hosvd_train svdU X w1 o1 r1 n1 = (o1', Ok h1) -> hosvd_train svdU X w2 o2 r2 n2 = (o2', Ok h2) ->
  exists A g F A' g' F', p_factors (o_pub o1') = Some A /\ p_aux (o_pub o1') = Some g /\ p_full (o_pub o1') = Some F /\
    p_factors (o_pub o2') = Some A' /\ p_aux (o_pub o2') = Some g' /\ p_full (o_pub o2') = Some F' /\
    first_columns ranks A A' /\ (forall idx, valid (shp g) idx -> valid (shp g') idx /\ get g idx = get g' idx) /\
    F = tucker_tensor (corner (shp g) g') A' /\ sqdist X F = sqdist X F' + energy_outside (shp g) g' /\ sqdist X F' <= sqdist X F.
Proof. exact c112_train. Qed.
Print Assumptions C112_train.

(** HOOI is not worse than HOSVD of smaller ranks *)
Theorem C112_hooi : forall svdU (X : tensor R) ranks ranks' w1 o1 r1 n1 o1' h1 id1 w2 o2 r2 n2 o2' h2 args id2,
  left_svd svdU -> wf X -> nonempty (shp X) -> nonempty ranks' -> length ranks' = ndims X ->
  (ndims X <= length ranks)%nat -> (forall n, (n < ndims X)%nat -> (nth n ranks 0 <= nth n ranks' 0)%nat) ->
  o_built o1 = Some (map Z.of_nat ranks, id1) -> o_built o2 = Some ((args, map Z.of_nat ranks'), id2) ->
  hosvd_train svdU X w1 o1 r1 n1 = (o1', Ok h1) -> hooi_train svdU X w2 o2 r2 n2 = (o2', Ok h2) ->
  exists F F', p_full (o_pub o1') = Some F /\ p_full (o_pub o2') = Some F' /\ sqdist X F' <= sqdist X F.
Proof. exact c112_hooi. Qed.
Print Assumptions C112_hooi.

(** diag(2, 1) with ranks 1, 1 and 2, 2 *)
Example ex_C112 : exists svdU o o', left_svd svdU /\ wf Xd /\ nonempty (shp Xd) /\ ndims Xd = 2%nat /\
  hosvd svdU Xd (map Z.of_nat [1; 1]%nat) = Ok o /\ hosvd svdU Xd (map Z.of_nat [2; 2]%nat) = Ok o' /\
  tu_full o = mkT [2; 2]%nat [2; 0; 0; 0] /\ tu_full o' = Xd /\ energy_outside (shp (tu_core o)) (tu_core o') = 1 /\
  (exists p1 h1, hosvd_train svdU Xd (mkW [7%nat] true) (mkObj (Some (map Z.of_nat [1; 1]%nat, 7%nat)) pub0) tt 5 = (p1, Ok h1)) /\
  (exists p1 h1, hosvd_train svdU Xd (mkW [7%nat] true) (mkObj (Some (map Z.of_nat [2; 2]%nat, 7%nat)) pub0) tt 5 = (p1, Ok h1)) /\
  (exists p2 h2, hooi_train svdU Xd (mkW [7%nat] true) (mkObj (Some ((mkArgs (1/10) 1%Z false, map Z.of_nat [2; 2]%nat), 7%nat)) pub0) tt 5 = (p2, Ok h2)).
Proof. exact ex112. Qed.
