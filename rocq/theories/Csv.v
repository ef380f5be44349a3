(** Model of the text level of tensorD/dataproc/reader.py: what open, csv.reader and int do
    with the characters of a file. *)

From Coq Require Import String Ascii ZArith List Bool Arith.
From Verif Require Import Num Py Tensor TF Reader.
Import ListNotations.
Open Scope nat_scope.
Open Scope list_scope.

Notation text := (list ascii) (only parsing).
Definition NL : ascii := ascii_of_nat 10.
Definition CR : ascii := ascii_of_nat 13.
Definition NUL : ascii := ascii_of_nat 0.
Definition QT : ascii := ascii_of_nat 34.
Definition COMMA : ascii := ascii_of_nat 44.

(** reader.py:33  open(path, 'r'): universal newlines, CR LF and CR become LF.
    Simplification: the file is ASCII, so decoding is the identity. *)
Fixpoint universal (t : text) : text :=
  match t with
  | [] => []
  | c :: r => if Ascii.eqb c CR
              then NL :: match r with
                         | d :: r' => if Ascii.eqb d NL then universal r' else universal r
                         | [] => []
                         end
              else c :: universal r
  end.

(** iterating over the file: its lines, with their line end *)
Fixpoint lines_aux (cur : text) (t : text) : list text :=
  match t with
  | [] => match cur with [] => [] | _ => [cur] end
  | c :: r => if Ascii.eqb c NL then (cur ++ [c]) :: lines_aux [] r else lines_aux (cur ++ [c]) r
  end.
Definition lines (t : text) : list text := lines_aux [] t.

(** the state machine of csv.reader (Modules/_csv.c, parse_process_char) for the default dialect:
    delimiter comma, quotechar the double quote, doublequote, no escapechar, not strict *)
Inductive cstate := StartRecord | StartField | InField | InQuoted | QuoteInQuoted | EatCrnl.
Record parser := mkP { p_st : cstate; p_field : text; p_row : list text }.
Definition reset : parser := mkP StartRecord [] [].

Definition is_eol (c : ascii) : bool := (Ascii.eqb c NL || Ascii.eqb c CR)%bool.
Definition save (p : parser) (s : cstate) : parser := mkP s [] (p_row p ++ [p_field p]).
Definition add (p : parser) (c : ascii) (s : cstate) : parser := mkP s (p_field p ++ [c]) (p_row p).
Definition goto (p : parser) (s : cstate) : parser := mkP s (p_field p) (p_row p).

(** one character; None is the end-of-line mark the reader appends to each line *)
Definition start_field (p : parser) (c : ascii) : parser :=
  if is_eol c then save p EatCrnl
  else if Ascii.eqb c QT then goto p InQuoted
  else if Ascii.eqb c COMMA then save p StartField
  else add p c InField.
Definition process (p : parser) (c : option ascii) : res parser :=
  match p_st p, c with
  | StartRecord, None => Ok p
  | StartRecord, Some c => if is_eol c then Ok (goto p EatCrnl) else Ok (start_field p c)
  | StartField, None => Ok (save p StartRecord)
  | StartField, Some c => Ok (start_field p c)
  | InField, None => Ok (save p StartRecord)
  | InField, Some c => if is_eol c then Ok (save p EatCrnl)
                       else if Ascii.eqb c COMMA then Ok (save p StartField)
                       else Ok (add p c InField)
  | InQuoted, None => Ok p
  | InQuoted, Some c => if Ascii.eqb c QT then Ok (goto p QuoteInQuoted) else Ok (add p c InQuoted)
  | QuoteInQuoted, None => Ok (save p StartRecord)
  | QuoteInQuoted, Some c => if Ascii.eqb c QT then Ok (add p c InQuoted)
                             else if Ascii.eqb c COMMA then Ok (save p StartField)
                             else if is_eol c then Ok (save p EatCrnl)
                             else Ok (add p c InField)
  | EatCrnl, None => Ok (goto p StartRecord)
  | EatCrnl, Some c => if is_eol c then Ok p else Raise CsvError
  end.

(** one line: "line contains NULL byte", else character by character and the end mark.
    Simplification: the limit of 131072 characters per field is not modelled. *)
Fixpoint process_chars (p : parser) (l : text) : res parser :=
  match l with
  | [] => process p None
  | c :: r => if Ascii.eqb c NUL then Raise CsvError else do p' <- process p (Some c); process_chars p' r
  end.

(** reader.py:36  csv.reader(file): the rows (Reader_iternext) *)
Fixpoint csv_lines (p : parser) (ls : list text) : res (list (list text)) :=
  match ls with
  | [] => match p_st p, p_field p with
          | InQuoted, _ => Ok [p_row p ++ [p_field p]]
          | _, [] => Ok []
          | _, _ => Ok [p_row p ++ [p_field p]]
          end
  | l :: r => do p' <- process_chars p l;
              match p_st p' with
              | StartRecord => do rows <- csv_lines reset r; Ok (p_row p' :: rows)
              | _ => csv_lines p' r
              end
  end.
Definition csv_rows (t : text) : res (list (list text)) := csv_lines reset (lines (universal t)).

(** int(s) for an ASCII string s (PyLong_FromString with base 10): white space around it,
    a sign, digits with single underscores between them.
    Simplification: Python 3.6 - 3.10 (no limit on the number of digits). *)
Definition is_space (c : ascii) : bool :=
  let n := nat_of_ascii c in ((Nat.leb 9 n && Nat.leb n 13) || Nat.eqb n 32)%bool.
Definition digit_of (c : ascii) : option Z :=
  let n := nat_of_ascii c in if (Nat.leb 48 n && Nat.leb n 57)%bool then Some (Z.of_nat (n - 48)) else None.
Fixpoint lstrip (s : text) : text :=
  match s with c :: r => if is_space c then lstrip r else s | [] => [] end.
(** the digits; the flag says that the previous character was a digit *)
Fixpoint int_digits (s : text) (acc : Z) (after_digit : bool) : option Z :=
  match s with
  | [] => if after_digit then Some acc else None
  | c :: r => match digit_of c with
              | Some d => int_digits r (acc * 10 + d)%Z true
              | None => if after_digit then
                          if Ascii.eqb c "_"%char then int_digits r acc false
                          else if is_space c then match lstrip r with [] => Some acc | _ => None end
                          else None
                        else None
              end
  end.
Definition py_int (s : text) : option Z :=
  match lstrip s with
  | [] => None
  | c :: r => if Ascii.eqb c "-"%char then option_map Z.opp (int_digits r 0%Z false)
              else if Ascii.eqb c "+"%char then int_digits r 0%Z false
              else int_digits (c :: r) 0%Z false
  end.

(** reader.py:32-58  read, from the text of the file: the file type is looked at first
    (reader.py:35), the rows come from csv.reader, coordinates go through int (reader.py:49)
    and the value through float (reader.py:50), which stays a parameter *)
Definition read_text {T} {N : Num T} (py_float : text -> option T) (path : string) (t : text)
  (full_shape : option (list Z)) : res (tensor T) :=
  let ty := file_type path in
  if (String.eqb ty "csv" || String.eqb ty "txt")%bool then
    do rows <- csv_rows t; read py_int py_float path rows full_shape
  else Raise ArgumentErr.
