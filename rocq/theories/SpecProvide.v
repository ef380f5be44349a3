(** Vocabulary for the data a model trains on (C108). *)

From Coq Require Import ZArith List Bool Arith.
From Verif Require Import Num Py Tensor Train SpecTrain Provide.
Import ListNotations.

Section S.
  Context {T A R : Type}.
  (** the number of build_model calls in a script *)
  Fixpoint builds (cs : list (ecall T A R)) : nat :=
    match cs with [] => 0 | EBuild _ _ :: r => S (builds r) | _ :: r => builds r end.
  (** what the last write of the script left in array l *)
  Fixpoint contents (cs : list (ecall T A R)) (l : nat) (X : tensor T) : tensor T :=
    match cs with
    | [] => X
    | EWrite l' Y :: r => contents r l (if Nat.eqb l l' then Y else X)
    | _ :: r => contents r l X
    end.
  (** every value the provider returns has a shape *)
  Definition shaped (P : provider T) : Prop := forall n, exists v, P n = Ok v /\ forall X, v <> PList X.
  (** the calls of C36-C43 (SpecTrain.v) *)
  Fixpoint plain (cs : list (ecall T A R)) : list (call A R) :=
    match cs with
    | [] => []
    | EBuild a id :: r => Build a id :: plain r
    | ETrain rnd steps :: r => Train rnd steps :: plain r
    | EPredict key :: r => Predict key :: plain r
    | EOther id :: r => Other id :: plain r
    | EWrite _ _ :: r => plain r
    end.
  Definition writes (cs : list (ecall T A R)) : bool :=
    existsb (fun c => match c with EWrite _ _ => true | _ => false end) cs.
  (** the object without its feed *)
  Definition plain_obj (o : eobj T A) : fobj T A :=
    mkObj (match o_built o with Some ((a, _), id) => Some (a, id) | None => None end) (o_pub o).
End S.
