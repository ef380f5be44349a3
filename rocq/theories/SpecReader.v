(** Independent vocabulary for the reader.py properties. *)

From Coq Require Import String Ascii ZArith List Bool Arith.
From Verif Require Import Num Tensor.
Import ListNotations.

(** ext is the text of path after its last '.' (the whole path when it has none) *)
Definition no_dot (s : string) : Prop := ~ In "."%char (list_ascii_of_string s).
Definition after_last_dot (path ext : string) : Prop :=
  no_dot ext /\ (path = ext \/ exists pre, path = String.append pre (String "."%char ext)).

Section S.
  Context {T : Type} {N : Num T} {tok : Type}.
  Variable parse_int : tok -> option Z.
  Variable parse_float : tok -> option T.

  (** the row has order+1 fields: the coordinate e.1 and the value e.2 *)
  Definition row_lists (order : nat) (row : list tok) (e : list Z * T) : Prop :=
    exists cs v, row = cs ++ [v] /\ Forall2 (fun c z => parse_int c = Some z) cs (fst e) /\
      length (fst e) = order /\ parse_float v = Some (snd e).

  (** the rows of the file that are not blank *)
  Definition nonblank (rows : list (list tok)) : list (list tok) :=
    filter (fun r => match r with [] => false | _ => true end) rows.

  (** what the last entry with coordinate c says *)
  Fixpoint last_for (es : list (list Z * T)) (c : list Z) : option T :=
    match es with
    | [] => None
    | (d, v) :: r => match last_for r c with
                     | Some w => Some w
                     | None => if list_eq_dec Z.eq_dec d c then Some v else None
                     end
    end.

  (** coordinate c lies in a tensor of shape s *)
  Definition in_range (s : list nat) (c : list Z) : Prop :=
    Forall2 (fun z d => (0 <= z < Z.of_nat d)%Z) c s.

  (** s is (max coordinate + 1) in every mode *)
  Definition max_plus_one (order : nat) (es : list (list Z * T)) (s : list nat) : Prop :=
    length s = order /\
    forall m, m < order ->
      (forall e, In e es -> (nth m (fst e) 0 + 1 <= Z.of_nat (nth m s 0%nat))%Z) /\
      (exists e, In e es /\ (nth m (fst e) 0 + 1 = Z.of_nat (nth m s 0%nat))%Z).
End S.
