(** Model of the way from a data provider to a training run (dataproc/provider.py,
    factorization/env.py, the first two lines of the build_model methods, feeding).
    A provider is any object with a full_tensor method; what the method returns may differ from
    call to call (the scripts use a lambda over a variable that is assigned again).  Element
    types are not modelled: feeding converts to float32.  An array is a reference: its entries
    may be changed by the script at any time. *)

From Coq Require Import ZArith List Bool Arith.
From Verif Require Import Num Py Tensor Ops Fact Train SpecTrain.
Import ListNotations.

Section Provide.
  Context {T : Type} {N : Num T}.

  (** what full_tensor returns: a numpy array, a tf.Tensor with its value, a nested list *)
  Inductive pval := PArr (loc : nat) | PTensor (X : tensor T) | PList (X : tensor T).
  (** the outcome of call number n of full_tensor *)
  Definition provider := nat -> res pval.
  (** provider.py:14-24 *)
  Definition base_provider : provider := fun _ => Raise NotImplementedErr.
  (** the entries of every array of the process *)
  Definition heap := nat -> tensor T.
  Definition write (h : heap) (l : nat) (X : tensor T) : heap := fun k => if Nat.eqb k l then X else h k.

  (** env.py:21-22: Environment.full_data, with the number of calls made so far *)
  Definition env_full_data (P : provider) (n : nat) : nat * res pval := (S n, P n).
  (** the attribute shape: lists have none *)
  Definition attr_shape (h : heap) (v : pval) : res (list nat) :=
    match v with PArr l => Ok (shp (h l)) | PTensor X => Ok (shp X) | PList _ => Raise AttributeError end.
  (** env.py:24-25: Environment.full_shape *)
  Definition env_full_shape (h : heap) (P : provider) (n : nat) : nat * res (list nat) :=
    let '(n', r) := env_full_data P n in (n', do v <- r; attr_shape h v).

  (** sess.run(..., feed_dict={placeholder: v}) for a placeholder of shape s: a tf.Tensor is
      refused, everything else goes through np.asarray and must have the placeholder's shape *)
  Definition feed (h : heap) (s : list nat) (v : pval) : res (tensor T) :=
    match v with
    | PTensor _ => Raise TypeError
    | PArr l => if shape_eqb s (shp (h l)) then Ok (h l) else Raise ValueError
    | PList X => if shape_eqb s (shp X) then Ok X else Raise ValueError
    end.

  Section Object.
    Context {A R : Type}.
    Variables (unbuilt : exc) (resets : bool).
    (** the assert on the type of the arguments (absent in HOSVD) *)
    Variable build_chk : A -> res unit.
    Variable body : tensor T -> A -> R -> bool -> Z -> pub T -> pub T * res (hist T).

    (** the object with self._feed_dict: the placeholder's shape and the value to feed *)
    Definition eobj := fobj T (A * (list nat * pval)).

    (** build_model (cp.py:68-70, ncp.py:65-67, ntucker.py:66-68, tucker.py:30-31, 130-132):
        the shape from one call of full_tensor, the data from another *)
    Definition ebuild (h : heap) (P : provider) (n : nat) (w : world) (o : eobj) (a : A) (id : nat)
      : nat * (world * eobj * res unit) :=
      match build_chk a with
      | Raise e => (n, (w, o, Raise e))
      | Ok _ =>
          let '(n1, rs) := env_full_shape h P n in
          match rs with
          | Raise e => (n1, (w, o, Raise e))
          | Ok s =>
              let '(n2, rv) := env_full_data P n1 in
              match rv with
              | Raise e => (n2, (w, o, Raise e))
              | Ok v => (n2, obj_build (fun _ => Ok tt) w o (a, (s, v)) id)
              end
          end
      end.

    (** train: the session run that initialises the variables is fed first (cp.py:143,
        ncp.py:193, ntucker.py:227, tucker.py:73 and 223) *)
    Definition ebody (h : heap) (av : A * (list nat * pval)) (rnd : R) (sum_ok : bool) (steps : Z) (p : pub T) : pub T * res (hist T) :=
      let '(a, (s, v)) := av in
      match feed h s v with
      | Raise e => (p, Raise e)
      | Ok X => body X a rnd sum_ok steps p
      end.
    Definition etrain (h : heap) := obj_train unbuilt resets (ebody h).

    (** a script with one object; other objects join the graph, arrays are written to *)
    Inductive ecall :=
    | EBuild (a : A) (id : nat)
    | ETrain (rnd : R) (steps : Z)
    | EPredict (key : list Z)
    | EOther (id : nat)
    | EWrite (loc : nat) (X : tensor T).
    Record estate := mkES { s_heap : heap; s_calls : nat; s_world : world; s_obj : eobj }.

    (** one call; exceptions are caught by the script.  The outcomes of train are recorded *)
    Definition ecall1 (P : provider) (s : estate) (c : ecall) : estate * list (res (hist T)) :=
      match c with
      | EBuild a id => let '(n, (w, o, _)) := ebuild (s_heap s) P (s_calls s) (s_world s) (s_obj s) a id in
                       (mkES (s_heap s) n w o, [])
      | ETrain rnd steps => let '(o, r) := etrain (s_heap s) (s_world s) (s_obj s) rnd steps in
                            (mkES (s_heap s) (s_calls s) (s_world s) o, [r])
      | EPredict _ => (s, [])
      | EOther id => (mkES (s_heap s) (s_calls s) (mkW (w_sums (s_world s) ++ [id]) (w_path (s_world s))) (s_obj s), [])
      | EWrite l X => (mkES (write (s_heap s) l X) (s_calls s) (s_world s) (s_obj s), [])
      end.
    Fixpoint ecalls (P : provider) (s : estate) (cs : list ecall) : estate * list (res (hist T)) :=
      match cs with
      | [] => (s, [])
      | c :: r => let '(s1, l1) := ecall1 P s c in let '(s2, l2) := ecalls P s1 r in (s2, l1 ++ l2)
      end.
  End Object.

  (** PITF (pitf.py:37-38): tensor = full_data(); tensor.get_shape(), which only a tf.Tensor has *)
  Definition get_shape (v : pval) : res (list nat) :=
    match v with PTensor X => Ok (shp X) | PArr _ | PList _ => Raise AttributeError end.
  Definition pitf_data (P : provider) (n : nat) : nat * res (list nat) :=
    let '(n', r) := env_full_data P n in (n', do v <- r; get_shape v).
  (** guide_decomposition.rst:168-181, pitf_test.py:16: full_data().eval(session=...) *)
  Definition eval_data (P : provider) (n : nat) : nat * res (tensor T) :=
    let '(n', r) := env_full_data P n in
    (n', do v <- r; match v with PTensor X => Ok X | PArr _ | PList _ => Raise AttributeError end).
End Provide.

Arguments pval T : clear implicits.
Arguments provider T : clear implicits.
Arguments heap T : clear implicits.
Arguments eobj T A : clear implicits.
Arguments ecall T A R : clear implicits.
Arguments estate T A : clear implicits.
