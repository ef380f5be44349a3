(** The graph PITF builds (pitf.py:37-107) and the fetches of its session runs
    (pitf.py:136-147).  A run is described for the sample its tf.random_uniform nodes draw:
    each of the three index vectors is one node, evaluated once in a run, so every use in the
    run sees the same values. *)

From Coq Require Import ZArith List Bool Arith.
From Verif Require Import Num Py Tensor TF PitfOps Sched.
Import ListNotations.

(** pitf.py:46, the only variable *)
Inductive pvar := Vy.

(** ad1..ad3 (55-57); X, Y, Z (61-66); e1 (71); e2 (75); e (78); erate_op (80); loss_op (84-88);
    y_new (92); sample_vector_update_op (93) *)
Inductive pn := PAd (d : nat) | PSh (d : nat) | PE1 | PE2 | PE | PErate | PLoss | PNew | PUp.

Section PitfGraph.
  Context {T : Type} {N : Num T}.
  Notation ten := (tensor T).

  (** a vector, a scalar *)
  Definition pvec (l : list T) : ten := mkT [length l] l.
  Definition pscl (x : T) : ten := mkT [] [x].

  (** pitf_ops.py:332-334: sample_vec[i] is a node of its own for every i, so the i-th entry
      comes from the i-th read of y *)
  Definition slices (rs : list ten) : list T :=
    map (fun i => nth i (dat (nth i rs (mkT [] []))) n0) (seq 0 (length rs)).

  (** the axis whose length scales the matrix, and the mode of shrink (61-66) *)
  Definition p_axis (d : nat) : Z := match d with 0 => 2 | 1 => 0 | _ => 1 end.
  Definition p_mode (d : nat) : shmode := match d with 0 => Complicated | _ => Normal end.

  Definition pitf_graph (shrink : ten -> T -> shmode -> res ten) (t : ten) (spl : sample) (spn : nat) (delt tao : T)
    : graph ten pn pvar :=
    mkG
      (fun n => match n with
        | PSh d => [PAd d]                                                 (* 61-66 *)
        | PE2 => [PSh 0; PSh 1; PSh 2]                                     (* 75 *)
        | PE => [PE1; PE2]                                                 (* 78 *)
        | PErate => [PE; PE1]                                              (* 80 *)
        | PLoss => [PE]                                                    (* 84-88 *)
        | PNew => [PE]                                                     (* 92 *)
        | PUp => [PNew]                                                    (* 93 *)
        | PAd _ | PE1 => [] end)
      (fun n => match n with
        | PSh _ => [PAd 0; PAd 1; PAd 2]                                   (* 60 *)
        | PE2 => [PSh 0; PSh 1; PSh 2]                                     (* 74 *)
        | _ => [] end)
      (fun n => match n with
        | PAd _ => repeat (Vy, []) spn                                     (* 55-57 *)
        | PNew => [(Vy, [])]                                               (* 92 *)
        | _ => [] end)
      (fun n => match n with PUp => Some Vy | _ => None end)               (* 93 *)
      (fun n xs rs => match n, xs, rs with
        | PAd d, [], _ => adjoint_operator spl (slices rs) (shp t) spn (Z.of_nat d)
        | PSh d, [ad], [] =>
            do k <- pynth (shp t) (p_axis d);
            do s <- shrink ad tao (p_mode d);
            tf_bin ndiv s (scalar (nsqrt (nofnat k)))
        | PE1, [], [] => do e <- Pomega_tensor spl t spn; Ok (pvec e)
        | PE2, [X; Y; Z], [] => do e <- Pomega_Pair spl X Y Z (shp t) spn; Ok (pvec e)
        | PE, [a; b], [] => Ok (pvec (vsub (dat a) (dat b)))
        | PErate, [e; e1], [] => Ok (pscl (ndiv (vnorm (dat e)) (vnorm (dat e1))))
        | PLoss, [e], [] => Ok (pscl (nsqrt (ndiv (lsum (map nsq (dat e))) (nofnat spn))))
        | PNew, [e], [y] => Ok (pvec (vadd (dat y) (vscale delt (dat e))))
        | PUp, [v], [] => Ok v
        | _, _, _ => Raise TypeError end).

  (** pitf.py:138-139: the steps that are printed (sum_op only adds copies of the error rate and the loss) *)
  Definition pitf_fetch_all : list pn := [PE2; PLoss; PErate; PUp].
  (** pitf.py:147: the other steps *)
  Definition pitf_fetch_up : list pn := [PUp].

  (** y holds this vector *)
  Definition pitf_vars (y : list T) (v : pvar) : ten := pvec y.
End PitfGraph.
