(** Dense tensors: a shape and a row-major buffer, as TensorFlow and NumPy store
    them. *)

From Coq Require Import ZArith List Bool.
From Verif Require Import Num.
Import ListNotations.

Record tensor (T : Type) := mkT { shp : list nat; dat : list T }.
Arguments mkT {T} shp dat.
Arguments shp {T} t.
Arguments dat {T} t.

(** number of elements of a shape *)
Fixpoint prod (s : list nat) : nat :=
  match s with [] => 1 | d :: r => d * prod r end.

(** row-major offset of a multi-index *)
Fixpoint ravel (s idx : list nat) : nat :=
  match s, idx with
  | _ :: s', i :: idx' => i * prod s' + ravel s' idx'
  | _, _ => 0
  end.

(** all multi-indices of a shape in row-major order *)
Fixpoint indices (s : list nat) : list (list nat) :=
  match s with
  | [] => [[]]
  | d :: s' => flat_map (fun i => map (cons i) (indices s')) (seq 0 d)
  end.

(** idx is a legal multi-index of shape s *)
Definition valid (s idx : list nat) : Prop := Forall2 lt idx s.

Section T.
  Context {T : Type} {N : Num T}.

  (** buffer and shape agree *)
  Definition wf (t : tensor T) : Prop := length (dat t) = prod (shp t).

  (** t[idx] *)
  Definition get (t : tensor T) (idx : list nat) : T :=
    nth (ravel (shp t) idx) (dat t) n0.

  (** the tensor of shape s with entry f idx *)
  Definition gen (s : list nat) (f : list nat -> T) : tensor T :=
    mkT s (map f (indices s)).

  Definition ndims (t : tensor T) : nat := length (shp t).

  (** matrix access and construction *)
  Definition mget (A : tensor T) (i j : nat) : T := get A [i; j].
  Definition mgen (r c : nat) (f : nat -> nat -> T) : tensor T :=
    gen [r; c] (fun idx => f (nth 0 idx 0) (nth 1 idx 0)).
  Definition is_mat (A : tensor T) (r c : nat) : Prop := wf A /\ shp A = [r; c].
End T.
