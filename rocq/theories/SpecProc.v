(** Vocabulary for C97: decompositions performed one after the other in one script. *)

From Coq Require Import ZArith List Bool Arith Reals.
From Verif Require Import Num Py Tensor Fact Train SpecTrain Process.
Import ListNotations.

Section S.
  Context {T : Type} {N : Num T}.

  (** one decomposition: the class with its data, its arguments, draws and number of steps *)
  Record job := mkJob { j_cls : cls T; j_args : xargs T; j_draws : draws T; j_steps : Z }.

  (** the same decomposition as the only one of its process *)
  Definition alone (j : job) : fobj T (xargs T) * res (hist T) :=
    obj_train (c_unbuilt (j_cls j)) (c_resets (j_cls j)) (c_body (j_cls j)) (mkW [0] true)
      (mkObj (Some (j_args j, 0)) pub0) (j_draws j) (j_steps j).
  Definition result (j : job) : res (hist T) := snd (alone j).
  Definition model (j : job) : pub T := o_pub (fst (alone j)).

  (** the pattern of the guide, "Multiple decompositions", and of multigraph_demo.py: the m-th
      decomposition builds and trains in a graph of its own, then the default graph is reset;
      graph 0 exists at the start, so the graphs made here are 1, 3, 5, ... *)
  Definition in_own_graph (m : nat) (j : job) : list (cmd T) :=
    [CGraph; CNew (j_cls j) true; CEnter (2 * m + 1); CBuild m (j_args j); CTrain m (j_draws j) (j_steps j); CLeave; CReset].
  Definition own_graphs (jobs : list job) : list (cmd T) :=
    concat (map (fun p => in_own_graph (fst p) (snd p)) (combine (seq 0 (length jobs)) jobs)).

  (** the other pattern: one decomposition after the other in the default graph *)
  Definition in_default_graph (m : nat) (j : job) : list (cmd T) :=
    [CNew (j_cls j) true; CBuild m (j_args j); CTrain m (j_draws j) (j_steps j)].
  Definition default_graph (jobs : list job) : list (cmd T) :=
    concat (map (fun p => in_default_graph (fst p) (snd p)) (combine (seq 0 (length jobs)) jobs)).

  (** with tf.reset_default_graph() after each *)
  Definition default_graph_reset (jobs : list job) : list (cmd T) :=
    concat (map (fun p => in_default_graph (fst p) (snd p) ++ [CReset]) (combine (seq 0 (length jobs)) jobs)).

  (** the five classes of tensorD.factorization *)
  Definition tensord_class (c : cls T) : Prop :=
    (exists pinv X, c = CP_ALS pinv X) \/ (exists svdU X, c = HOSVD svdU X) \/ (exists svdU X, c = HOOI svdU X) \/
    (exists pow svals X, c = NCP_BCU pow svals X) \/ (exists pow svals X, c = NTUCKER_BCU pow svals X).
End S.
Arguments job T : clear implicits.

(** np.arange(60).reshape(3, 4, 5) + c *)
Definition arange345 (c : R) : tensor R := mkT [3; 4; 5] (map (fun k => (INR k + c)%R) (seq 0 60)).
