(** Property theorems for scripts with several decompositions (C97, C98).  result j and model j
    are what the decomposition j returns and publishes as the only one of its process. *)

From Coq Require Import ZArith List Bool Arith Reals Lia Lra.
From Verif Require Import Num Py Tensor Fact Train SpecTrain SpecTucker SvdExists Process SpecProc ProcFacts ProcEx.
Import ListNotations.

(** C97: each decomposition in a graph of its own *)
Theorem C97_own_graphs : forall (T : Type) (jobs : list (job T)),
  snd (run start (own_graphs jobs)) = mapM result jobs /\
  forall hs, snd (run start (own_graphs jobs)) = Ok hs ->
    map (fun b => o_pub (b_obj b)) (p_objs (fst (run start (own_graphs jobs)))) = map model jobs.
Proof. exact @c97_own_graphs. Qed.
Print Assumptions C97_own_graphs.

(** multigraph_demo.py with any offsets: one step each, error 0, and full - X = 0 *)
Theorem C97_demo : forall svdU args steps cs rank d, left_svd svdU -> (0 < a_tol args)%R -> a_vi args <> 0%Z -> (0 < steps)%Z ->
  let q := run start (own_graphs (map (fun c => mkJob (HOOI svdU (arange345 c)) (mkX args rank [2; 2; 2]%Z) d steps) cs)) in
  snd q = Ok (map (fun _ => [(0, 0)%R]) cs) /\
  map (fun b => p_full (o_pub (b_obj b))) (p_objs (fst q)) = map (fun c => Some (arange345 c)) cs.
Proof. exact c97_demo. Qed.
Print Assumptions C97_demo.

(** build_model must be inside the graph too *)
Theorem C97_build_outside : forall (T : Type) (j : job T),
  snd (run start [CGraph; CNew (j_cls j) true; CBuild 0 (j_args j); CEnter 1; CTrain 0 (j_draws j) (j_steps j)]) = Raise ValueError.
Proof. exact @c97_build_outside. Qed.
Print Assumptions C97_build_outside.

(** with blocks nest: the object of the outer graph trains after the inner block as it does alone *)
Theorem C97_nested : forall (T : Type) (j1 j2 : job T),
  snd (run start [CGraph; CGraph; CNew (j_cls j1) true; CNew (j_cls j2) true; CEnter 1; CBuild 0 (j_args j1); CEnter 2; CBuild 1 (j_args j2);
                  CTrain 1 (j_draws j2) (j_steps j2); CLeave; CTrain 0 (j_draws j1) (j_steps j1)])
  = (do h2 <- result j2; do h1 <- result j1; Ok [h2; h1]).
Proof. exact @c97_nested. Qed.
Print Assumptions C97_nested.

(** training a trained object again inside another graph raises ValueError and keeps the model;
    all classes but HOOI then report that training has not finished *)
Theorem C97_stale : forall (T : Type) (j : job T) h, result j = Ok h -> forall d steps,
  let q := run start [CGraph; CNew (j_cls j) true; CBuild 0 (j_args j); CTrain 0 (j_draws j) (j_steps j); CEnter 1; CTrain 0 d steps] in
  snd q = Raise ValueError /\
  map (fun b => o_pub (b_obj b)) (p_objs (fst q)) = [if c_resets (j_cls j) then set_finish false (model j) else model j].
Proof. exact @c97_stale. Qed.
Print Assumptions C97_stale.

(** the default graph cannot be reset before the with block has ended; the trained model stays *)
Theorem C97_reset_inside : forall (T : Type) (j : job T) h, result j = Ok h ->
  let q := run start [CGraph; CNew (j_cls j) true; CEnter 1; CBuild 0 (j_args j); CTrain 0 (j_draws j) (j_steps j); CReset] in
  snd q = Raise AssertionErr /\ map (fun b => o_pub (b_obj b)) (p_objs (fst q)) = [model j].
Proof. exact @c97_reset_inside. Qed.
Print Assumptions C97_reset_inside.

(** a case of C97_stale and C97_reset_inside: the HOSVD of tucker_test.py *)
Example C97_ex_trained : exists svdU, left_svd svdU /\
  result (mkJob (HOSVD svdU (arange345 0)) (mkX (mkArgs (1 / 10000)%R 1 false) 0 [2; 2; 2]%Z) (mkDr [] (mkT [] [])) 0) = Ok [].
Proof.
  destruct left_svd_exists as (svdU & HS). exists svdU. split; [exact HS|].
  exact (proj1 (c98_tucker_test svdU 0 (mkDr [] (mkT [] [])) HS)).
Qed.

(** a case of C97_demo: the three tensors of the demo *)
Example C97_ex : exists svdU, left_svd svdU /\
  snd (run start (own_graphs (map (fun c => mkJob (HOOI svdU (arange345 c)) (mkX (mkArgs (1 / 10000)%R 5 false) 0 [2; 2; 2]%Z) (mkDr [] (mkT [] [])) 100) [0; 1; 2]%R)))
    = Ok [[(0, 0)]; [(0, 0)]; [(0, 0)]]%R.
Proof.
  destruct left_svd_exists as (svdU & HS). exists svdU. split; [exact HS|].
  apply (C97_demo svdU (mkArgs (1 / 10000)%R 5 false) 100 [0; 1; 2]%R 0 (mkDr [] (mkT [] [])) HS); [cbn; lra|discriminate|reflexivity].
Qed.

(** C98.  The full property, that decompositions following one another in the default graph do
    what each does alone, is refuted: the second never trains.  What holds: it does if the
    default graph is reset in between. *)
Theorem C98_reset_partial : forall (T : Type) (jobs : list (job T)),
  snd (run start (default_graph_reset jobs)) = mapM result jobs /\
  forall hs, snd (run start (default_graph_reset jobs)) = Ok hs ->
    map (fun b => o_pub (b_obj b)) (p_objs (fst (run start (default_graph_reset jobs)))) = map model jobs.
Proof. exact @c97_reset. Qed.
Print Assumptions C98_reset_partial.

Theorem C98_default_graph : forall (T : Type) (N : Num T) (j1 j2 : job T) js, tensord_class (j_cls j2) ->
  exists e, snd (run start (default_graph (j1 :: j2 :: js))) = Raise e.
Proof. exact @c97_default_graph. Qed.
Print Assumptions C98_default_graph.

(** tucker_test.py: HOSVD and HOOI on arange(60), each exact alone *)
Theorem C98_refuted : exists svdU, left_svd svdU /\ forall rank d,
  let hosvd := mkJob (HOSVD svdU (arange345 0)) (mkX (mkArgs (1 / 10000)%R 1 false) rank [2; 2; 2]%Z) d 0 in
  let hooi := mkJob (HOOI svdU (arange345 0)) (mkX (mkArgs (1 / 10000)%R 5 false) rank [2; 2; 2]%Z) d 100 in
  result hosvd = Ok [] /\ p_full (model hosvd) = Some (arange345 0) /\
  result hooi = Ok [(0, 0)%R] /\ p_full (model hooi) = Some (arange345 0) /\
  exists e, snd (run start (default_graph [hosvd; hooi])) = Raise e.
Proof. destruct left_svd_exists as (svdU & HS). exists svdU. split; [exact HS|]. intros rank d. exact (c98_tucker_test svdU rank d HS). Qed.
Print Assumptions C98_refuted.

(** a case of C98_reset_partial: the same two with the graph reset in between *)
Example C98_ex : exists svdU, left_svd svdU /\
  snd (run start (default_graph_reset [
    mkJob (HOSVD svdU (arange345 0)) (mkX (mkArgs (1 / 10000)%R 1 false) 0 [2; 2; 2]%Z) (mkDr [] (mkT [] [])) 0;
    mkJob (HOOI svdU (arange345 0)) (mkX (mkArgs (1 / 10000)%R 5 false) 0 [2; 2; 2]%Z) (mkDr [] (mkT [] [])) 100])) = Ok [[]; [(0, 0)%R]].
Proof.
  destruct left_svd_exists as (svdU & HS). exists svdU. split; [exact HS|]. rewrite (proj1 (c97_reset _)). cbn [mapM].
  destruct (c98_tucker_test svdU 0 (mkDr [] (mkT [] [])) HS) as (E1 & _ & E2 & _). setoid_rewrite E1. cbn [bind]. setoid_rewrite E2. reflexivity.
Qed.
