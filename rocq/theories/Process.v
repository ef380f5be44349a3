(** Model of scripts: several factorisation objects in one Python process with its TensorFlow
    graphs (env.py, demo/multigraph_demo.py, test/tucker_test.py, docs/source/guide_decomposition.rst).
    A script is a straight-line program; an exception ends it.  Printing and files are not modelled. *)

From Coq Require Import ZArith List Bool Arith.
From Verif Require Import Num Py Tensor Fact Train SpecTrain.
Import ListNotations.

Section Process.
  Context {T : Type} {N : Num T}.

  (** the arguments and random draws of the five classes in one type: CP_Args and NCP_Args have
      a rank, the others ranks (cp.py:12-25, tucker.py:12-14 and 108-113, ncp.py:19-24,
      ntucker.py:20-25); NTucker also draws a core *)
  Record xargs := mkX { x_t : targs T; x_rank : nat; x_ranks : list Z }.
  Record draws := mkDr { d_A : list (tensor T); d_g : tensor T }.

  (** a class with the data its Environment provides (env.py:17-18): see obj_train in Train.v *)
  Record cls := mkCls { c_unbuilt : exc; c_resets : bool;
                        c_body : xargs -> draws -> bool -> Z -> pub T -> pub T * res (hist T) }.
  Definition CP_ALS pinv X : cls := mkCls TypeError true (fun a d => cp_body pinv X (x_t a, x_rank a) (d_A d)).
  Definition HOSVD svdU X : cls := mkCls TypeError true (fun a d => hosvd_body svdU X (x_ranks a) tt).
  Definition HOOI svdU X : cls := mkCls AttributeError false (fun a d => hooi_body svdU X (x_t a, x_ranks a) tt).
  Definition NCP_BCU pow svals X : cls := mkCls AttributeError true (fun a d => ncp_body pow svals X (x_t a, x_rank a) (d_A d)).
  Definition NTUCKER_BCU pow svals X : cls := mkCls AttributeError true (fun a d => nt_body pow svals X (x_t a) (d_A d, d_g d)).

  (** an object: its class, whether its Environment has a summary path (env.py:6), the graph
      its last build_model added to, its state *)
  Record pobj := mkPO { b_cls : cls; b_path : bool; b_graph : nat; b_obj : fobj T xargs }.

  (** the process: the placeholders read by the summaries of every graph (graphs are numbered
      in order of creation), the default graph, the graphs entered with as_default (innermost
      first), the number of placeholders made, the objects *)
  Record proc := mkProc { p_sums : list (list nat); p_dflt : nat; p_stack : list nat; p_ph : nat; p_objs : list pobj }.
  Definition start : proc := mkProc [[]] 0 [] 0 [].

  Inductive cmd :=
  | CGraph                                        (* g = tf.Graph() *)
  | CEnter (g : nat)                              (* with g.as_default(): *)
  | CLeave                                        (* its end *)
  | CReset                                        (* tf.reset_default_graph() *)
  | CNew (c : cls) (path : bool)                  (* C(Environment(provider, summary_path)) *)
  | CBuild (i : nat) (a : xargs)                  (* objects[i].build_model(a) *)
  | CTrain (i : nat) (d : draws) (steps : Z).     (* objects[i].train(steps) *)

  Definition current (p : proc) : nat := hd (p_dflt p) (p_stack p).
  Fixpoint upd {A} (l : list A) (i : nat) (x : A) : list A :=
    match l, i with
    | [], _ => []
    | _ :: r, 0 => x :: r
    | y :: r, S j => y :: upd r j x
    end.

  (** env.py:31-32: every train opens tf.Session() on the current default graph and merges that
      graph's summaries; operations of another graph are refused (ValueError), after the
      FileWriter (cp.py:142-144 etc.) has taken the summary path *)
  Definition ptrain (p : proc) (b : pobj) (d : draws) (steps : Z) : fobj T xargs * res (hist T) :=
    let c := b_cls b in
    let w := mkW (nth (current p) (p_sums p) []) (b_path b) in
    match o_built (b_obj b) with
    | Some _ =>
        if (b_path b && negb (Nat.eqb (b_graph b) (current p)))%bool
        then (mkObj (o_built (b_obj b)) (if c_resets c then set_finish false (o_pub (b_obj b)) else o_pub (b_obj b)), Raise ValueError)
        else obj_train (c_unbuilt c) (c_resets c) (c_body c) w (b_obj b) d steps
    | None => obj_train (c_unbuilt c) (c_resets c) (c_body c) w (b_obj b) d steps
    end.

  (** one statement: the process and what train returned *)
  Definition exec (p : proc) (c : cmd) : proc * res (list (hist T)) :=
    match c with
    | CGraph => (mkProc (p_sums p ++ [[]]) (p_dflt p) (p_stack p) (p_ph p) (p_objs p), Ok [])
    | CEnter g => (mkProc (p_sums p) (p_dflt p) (g :: p_stack p) (p_ph p) (p_objs p), Ok [])
    | CLeave => (mkProc (p_sums p) (p_dflt p) (tl (p_stack p)) (p_ph p) (p_objs p), Ok [])
    | CReset => match p_stack p with
                | [] => (mkProc (p_sums p ++ [[]]) (length (p_sums p)) [] (p_ph p) (p_objs p), Ok [])
                | _ => (p, Raise AssertionErr)
                end
    | CNew k path => (mkProc (p_sums p) (p_dflt p) (p_stack p) (p_ph p) (p_objs p ++ [mkPO k path 0 fresh]), Ok [])
    | CBuild i a =>
        match nth_error (p_objs p) i with
        | None => (p, Raise IndexError)
        | Some b =>
            let g := current p in
            let '(w, o, _) := obj_build (fun _ => Ok tt) (mkW (nth g (p_sums p) []) (b_path b)) (b_obj b) a (p_ph p) in
            (mkProc (upd (p_sums p) g (w_sums w)) (p_dflt p) (p_stack p) (S (p_ph p))
                    (upd (p_objs p) i (mkPO (b_cls b) (b_path b) g o)), Ok [])
        end
    | CTrain i d steps =>
        match nth_error (p_objs p) i with
        | None => (p, Raise IndexError)
        | Some b =>
            let '(o, r) := ptrain p b d steps in
            (mkProc (p_sums p) (p_dflt p) (p_stack p) (p_ph p)
                    (upd (p_objs p) i (mkPO (b_cls b) (b_path b) (b_graph b) o)),
             match r with Ok h => Ok [h] | Raise e => Raise e end)
        end
    end.

  (** a script: the process at its end and the histories its train calls returned *)
  Fixpoint run (p : proc) (cs : list cmd) : proc * res (list (hist T)) :=
    match cs with
    | [] => (p, Ok [])
    | c :: r => match exec p c with
                | (p', Raise e) => (p', Raise e)
                | (p', Ok h) => match run p' r with
                                | (q, Ok hs) => (q, Ok (h ++ hs))
                                | (q, Raise e) => (q, Raise e)
                                end
                end
    end.
End Process.

Arguments xargs T : clear implicits.
Arguments draws T : clear implicits.
Arguments cls T : clear implicits.
Arguments pobj T : clear implicits.
Arguments proc T : clear implicits.
Arguments cmd T : clear implicits.
