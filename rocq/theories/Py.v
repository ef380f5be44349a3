(** Python-level conventions: exceptions as values, list indexing with negative
    wrap-around, argument sum types. *)

From Coq Require Import ZArith List Bool.
Import ListNotations.

(** The exceptions the modelled code can raise.  TensorFlow's graph-construction
    shape errors are [ValueError]; errors raised while a session runs are
    [InvalidArgument]. *)
Inductive exc :=
| ValueError | TypeError | IndexError | AttributeError | ZeroDivisionError
| UnboundLocalError | NotImplementedErr | ArgumentErr | TensorErr
| InvalidArgument | AssertionErr | CsvError.

Inductive res (A : Type) := Ok (a : A) | Raise (e : exc).
Arguments Ok {A} a.
Arguments Raise {A} e.

Definition bind {A B} (x : res A) (f : A -> res B) : res B :=
  match x with Ok a => f a | Raise e => Raise e end.

Notation "'do' x <- a ; b" := (bind a (fun x => b))
  (at level 200, x binder, a at level 100, b at level 200).

Definition is_ok {A} (x : res A) : Prop := exists a, x = Ok a.

Fixpoint mapM {A B} (f : A -> res B) (l : list A) : res (list B) :=
  match l with
  | [] => Ok []
  | x :: r => do y <- f x; do ys <- mapM f r; Ok (y :: ys)
  end.

(** l[i] with Python's negative indices *)
Definition pynth {A} (l : list A) (i : Z) : res A :=
  let n := Z.of_nat (length l) in
  let j := if (i <? 0)%Z then (i + n)%Z else i in
  if ((0 <=? j) && (j <? n))%Z%bool then
    match nth_error l (Z.to_nat j) with Some a => Ok a | None => Raise IndexError end
  else Raise IndexError.

(** range(n) as Python integers *)
Definition zrange (n : nat) : list Z := map Z.of_nat (seq 0 n).

(** x in l *)
Definition zmem (x : Z) (l : list Z) : bool := existsb (Z.eqb x) l.

(** list.remove: drops the first occurrence, ValueError when absent *)
Fixpoint pyremove (x : Z) (l : list Z) : res (list Z) :=
  match l with
  | [] => Raise ValueError
  | y :: r => if (x =? y)%Z then Ok r else do r' <- pyremove x r; Ok (y :: r')
  end.

(** chr(z): ValueError outside the Unicode range; characters are their codes *)
Definition pychr (z : Z) : res Z :=
  if ((0 <=? z) && (z <? 1114112))%Z%bool then Ok z else Raise ValueError.

(** sorted(l, key=snd): stable insertion sort *)
Fixpoint insert_by_snd (x : nat * Z) (l : list (nat * Z)) : list (nat * Z) :=
  match l with
  | [] => [x]
  | y :: r => if (snd x <=? snd y)%Z then x :: l else y :: insert_by_snd x r
  end.
Definition sort_by_snd (l : list (nat * Z)) : list (nat * Z) :=
  fold_right insert_by_snd [] l.

(** enumerate(l) *)
Definition enumerate {A} (l : list A) : list (nat * A) :=
  combine (seq 0 (length l)) l.

(** an argument that may be an int, a list or a tuple of ints *)
Inductive axarg := AInt (z : Z) | AList (l : list Z) | ATuple (l : list Z).

(** skip_matrices_index: None, an int or a list *)
Inductive skiparg := SkNone | SkInt (z : Z) | SkList (l : list Z).
