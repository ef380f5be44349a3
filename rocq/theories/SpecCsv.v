(** Independent vocabulary for the text of a CSV file (C93). *)

From Coq Require Import Ascii ZArith List Bool Arith.
From Verif Require Import Num Tensor.
Import ListNotations.
Open Scope nat_scope.
Open Scope list_scope.

Definition newline : ascii := ascii_of_nat 10.
Definition return_ : ascii := ascii_of_nat 13.
Definition nul : ascii := ascii_of_nat 0.
Definition quote : ascii := ascii_of_nat 34.
Definition comma : ascii := ascii_of_nat 44.

(** ** how a table of fields is written *)
Fixpoint join (sep : list ascii) (l : list (list ascii)) : list ascii :=
  match l with [] => [] | [s] => s | s :: r => s ++ sep ++ join sep r end.

(** as it stands: no comma, line end or null character, and no quote at the front *)
Definition plain (f : list ascii) : Prop :=
  (forall c, In c f -> c <> comma /\ c <> newline /\ c <> return_ /\ c <> nul) /\ hd nul f <> quote.
(** or between quotes, with the quotes inside it doubled *)
Definition doubled (f : list ascii) : list ascii :=
  flat_map (fun c => if Ascii.eqb c quote then [quote; quote] else [c]) f.
Definition field_text (f s : list ascii) : Prop :=
  (plain f /\ s = f) \/
  ((forall c, In c f -> c <> return_ /\ c <> nul) /\ s = quote :: doubled f ++ [quote]).

(** the fields joined by commas; a row without fields is an empty line, and no other row is *)
Definition row_text (row : list (list ascii)) (s : list ascii) : Prop :=
  exists ss, Forall2 field_text row ss /\ s = join [comma] ss /\ (row <> [] -> s <> []).

Definition line_end (e : list ascii) : Prop := e = [newline] \/ e = [return_; newline] \/ e = [return_].

(** the rows, each followed by the line end, which may be missing after the last row *)
Definition file_text (rows : list (list (list ascii))) (t : list ascii) : Prop :=
  exists e ss, line_end e /\ Forall2 row_text rows ss /\
    (t = flat_map (fun s => s ++ e) ss \/
     exists ss' s, ss = ss' ++ [s] /\ s <> [] /\ t = flat_map (fun s => s ++ e) ss' ++ s).

(** ** how an integer is written *)
Definition digit (c : ascii) : Prop := 48 <= nat_of_ascii c <= 57.
Definition white (c : ascii) : Prop := 9 <= nat_of_ascii c <= 13 \/ nat_of_ascii c = 32.
(** d_k ... d_1 d_0 stands for sum d_i 10^i *)
Fixpoint decimal (ds : list ascii) : Z :=
  match ds with
  | [] => 0
  | c :: r => (Z.of_nat (nat_of_ascii c - 48) * 10 ^ Z.of_nat (length r) + decimal r)%Z
  end.
(** white space, a sign, groups of digits separated by single underscores, white space *)
Definition int_text (s : list ascii) (z : Z) : Prop :=
  exists w1 sg gs w2, (forall c, In c w1 -> white c) /\ (forall c, In c w2 -> white c) /\
    (sg = [] \/ sg = ["+"%char] \/ sg = ["-"%char]) /\
    gs <> [] /\ (forall g, In g gs -> g <> [] /\ forall c, In c g -> digit c) /\
    s = w1 ++ sg ++ join ["_"%char] gs ++ w2 /\
    z = (if list_eq_dec ascii_dec sg ["-"%char] then - decimal (concat gs) else decimal (concat gs))%Z.

Section S.
  Context {T : Type}.
  Variable py_float : list ascii -> option T.

  (** the row lists the coordinate and the value e *)
  Definition row_says (order : nat) (row : list (list ascii)) (e : list Z * T) : Prop :=
    exists cs v, row = cs ++ [v] /\ length (fst e) = order /\ Forall2 int_text cs (fst e) /\ py_float v = Some (snd e).
End S.
