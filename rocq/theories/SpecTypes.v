(** Independent vocabulary for the type.py properties. *)

From Coq Require Import ZArith List Bool Arith.
From Verif Require Import Num Py Tensor TF Ops Types Spec.
Import ListNotations.

Section S.
  Context {T : Type} {N : Num T}.

  (** the first mode of a history for which an unfolding exists *)
  Fixpoint first_unfold (t : tensor T) (cs : list (dcall T)) : option Z :=
    match cs with
    | [] => None
    | CUnfold m :: r => match unfold t m with Ok _ => Some m | Raise _ => first_unfold t r end
    | _ :: r => first_unfold t r
    end.

  (** the weights as an (R,1) column: ones when omitted, else the given numbers *)
  Definition weights_column (R : nat) (l : option (arr T)) : tensor T :=
    match l with
    | None => gen [R; 1] (fun _ => n1)
    | Some a => mkT [R; 1] (dat (a_t a))
    end.
  (** legal weights for R columns and factors of dtype dt *)
  Definition weights_fit (R : nat) (dt : dtype) (l : option (arr T)) : Prop :=
    match l with
    | None => dt = F32
    | Some a => a_dt a = dt /\ wf (a_t a) /\ (shp (a_t a) = [R] \/ shp (a_t a) = [R; 1])
    end.

  (** the dtype in which the factors are held: ndarrays become float32 *)
  Definition k_dt (U : list (arr T)) (dt : dtype) : dtype :=
    match U with a :: _ => if is_np a then F32 else dt | [] => dt end.

  (** [U] is a legal factor list: all ndarrays, or all tf tensors of one dtype *)
  Definition uniform (U : list (arr T)) (dt : dtype) : Prop :=
    U <> [] /\ ((forall a, In a U -> a_kind a = NP) \/ (forall a, In a U -> a_kind a = TFT /\ a_dt a = dt)).

  (** the entry picked by Python-style indices, negative ones counted from the end *)
  Definition py_index (d : nat) (i : Z) : nat :=
    Z.to_nat (if (i <? 0)%Z then (i + Z.of_nat d)%Z else i).
End S.
