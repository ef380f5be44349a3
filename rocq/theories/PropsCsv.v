(** C93: TensorReader on the text of a file. *)

From Coq Require Import String Ascii ZArith List Bool Arith Lia.
From Verif Require Import Num Py Tensor TF Reader SpecReader ReaderFacts Csv SpecCsv CsvFacts CsvLemmas.
Import ListNotations.
Open Scope nat_scope.
Open Scope list_scope.

(** a written table of fields is read back as that table, whatever mixture of plain and quoted
    fields, line ends and blank lines was used to write it *)
Theorem C93_rows : forall rows t, file_text rows t -> csv_rows t = Ok rows.
Proof. exact csv_reads. Qed.
Print Assumptions C93_rows.

(** splitting the text into rows fails exactly on null characters *)
Theorem C93_rows_total : forall t,
  (In nul t -> csv_rows t = Raise CsvError) /\ (~ In nul t -> exists rows, csv_rows t = Ok rows).
Proof. exact csv_total. Qed.
Print Assumptions C93_rows_total.

(** which strings are coordinates *)
Theorem C93_int : forall s z, py_int s = Some z <-> int_text s z.
Proof. exact py_int_iff. Qed.
Print Assumptions C93_int.

(** a well-formed file, with full_shape given *)
Theorem C93_read_given_shape : forall (T : Type) (N : Num T) (py_float : list ascii -> option T)
  (path : string) (t : list ascii) (rows : list (list (list ascii))) (order : nat) (es : list (list Z * T)) (s : list nat),
  after_last_dot path "csv" \/ after_last_dot path "txt" -> file_text rows t -> 0 < order -> es <> [] ->
  Forall2 (row_says py_float order) (nonblank rows) es -> length s = order -> (forall e, In e es -> in_range s (fst e)) ->
  exists X, read_text py_float path t (Some (map Z.of_nat s)) = Ok X /\ wf X /\ shp X = s /\
    forall idx, valid s idx -> get X idx = match last_for es (map Z.of_nat idx) with Some v => v | None => n0 end.
Proof. exact @c93_given. Qed.
Print Assumptions C93_read_given_shape.

(** a well-formed file, with the shape found from the coordinates *)
Theorem C93_read_inferred_shape : forall (T : Type) (N : Num T) (py_float : list ascii -> option T)
  (path : string) (t : list ascii) (rows : list (list (list ascii))) (order : nat) (es : list (list Z * T)),
  after_last_dot path "csv" \/ after_last_dot path "txt" -> file_text rows t -> 0 < order -> es <> [] ->
  Forall2 (row_says py_float order) (nonblank rows) es -> (forall e z, In e es -> In z (fst e) -> (0 <= z)%Z) ->
  exists X, read_text py_float path t None = Ok X /\ wf X /\ max_plus_one order es (shp X) /\
    forall idx, valid (shp X) idx -> get X idx = match last_for es (map Z.of_nat idx) with Some v => v | None => n0 end.
Proof. exact @c93_inferred. Qed.
Print Assumptions C93_read_inferred_shape.

(** every tensor with at least one mode and no empty mode can be stored in a file and read back *)
Theorem C93_round_trip : forall (T : Type) (N : Num T) (py_float : list ascii -> option T) (show : T -> list ascii),
  (forall v, py_float (show v) = Some v) -> (forall v, plain (show v)) ->
  forall (path : string) (X : tensor T), after_last_dot path "csv" \/ after_last_dot path "txt" ->
  wf X -> shp X <> [] -> (forall d, In d (shp X) -> 0 < d) ->
  exists rows t, file_text rows t /\ read_text py_float path t None = Ok X /\
    read_text py_float path t (Some (map Z.of_nat (shp X))) = Ok X.
Proof. exact @c93_roundtrip. Qed.
Print Assumptions C93_round_trip.

(** a header line, or any first line with a coordinate that is not an integer *)
Theorem C93_header : forall (T : Type) (N : Num T) (py_float : list ascii -> option T)
  (path : string) (t : list ascii) (rows : list (list (list ascii))) first rest fs m,
  after_last_dot path "csv" \/ after_last_dot path "txt" -> file_text rows t -> nonblank rows = first :: rest ->
  m < length first - 1 -> (forall z, ~ int_text (nth m first []) z) ->
  read_text py_float path t fs = Raise ValueError.
Proof. exact @c93_header. Qed.
Print Assumptions C93_header.

(** a first line whose value is not a number; a file with another separator is such a file *)
Theorem C93_bad_value : forall (T : Type) (N : Num T) (py_float : list ascii -> option T)
  (path : string) (t : list ascii) (rows : list (list (list ascii))) cs v rest fs,
  after_last_dot path "csv" \/ after_last_dot path "txt" -> file_text rows t -> nonblank rows = (cs ++ [v]) :: rest ->
  py_float v = None -> read_text py_float path t fs = Raise ValueError.
Proof. exact @c93_bad_value. Qed.
Print Assumptions C93_bad_value.

(** no line with a coordinate that is missing or not an integer is skipped over *)
Theorem C93_bad_row : forall (T : Type) (N : Num T) (py_float : list ascii -> option T)
  (path : string) (t : list ascii) (rows : list (list (list ascii))) first rest row fs m,
  after_last_dot path "csv" \/ after_last_dot path "txt" -> file_text rows t -> nonblank rows = first :: rest ->
  In row (first :: rest) -> m < length first - 1 -> (forall z, ~ int_text (nth m row []) z) ->
  forall X, read_text py_float path t fs <> Ok X.
Proof. exact @c93_bad_row. Qed.
Print Assumptions C93_bad_row.

(** the file type is looked at before the text, and null characters are the only csv.Error *)
Theorem C93_type : forall (T : Type) (N : Num T) (py_float : list ascii -> option T) (path : string) (t : list ascii) fs,
  read_text py_float path t fs = Raise ArgumentErr <-> ~ (after_last_dot path "csv" \/ after_last_dot path "txt").
Proof. exact @c93_type. Qed.
Print Assumptions C93_type.
Theorem C93_null : forall (T : Type) (N : Num T) (py_float : list ascii -> option T) (path : string) (t : list ascii) fs,
  after_last_dot path "csv" \/ after_last_dot path "txt" ->
  (read_text py_float path t fs = Raise CsvError <-> In nul t).
Proof. exact @c93_nul. Qed.
Print Assumptions C93_null.

(** ** examples: int plays the part of float *)
Definition tx (s : string) : list ascii := list_ascii_of_string s.
Definition rdt (t : list ascii) fs := read_text (T := Z) py_int "d.csv" t fs.
Definition crlf : list ascii := [return_; newline].
Definition q (s : string) : list ascii := quote :: tx s ++ [quote].

(** CR LF line ends, a quoted field, blanks, an underscore, a blank line, no line end at the end *)
Definition file_a : list ascii := tx "0, 0,5" ++ crlf ++ crlf ++ q "1" ++ tx ",+2,-1_0".
Example ex_C93_rows : file_text [[tx "0"; tx " 0"; tx "5"]; []; [tx "1"; tx "+2"; tx "-1_0"]] file_a.
Proof.
  assert (P : forall c s, forallb (fun c => negb (existsb (Ascii.eqb c) [comma; newline; return_; nul; quote])) (c :: s) = true -> field_text (c :: s) (c :: s)).
  { intros c s H. left. split; [|reflexivity]. rewrite forallb_forall in H. split.
    - intros d Hd. specialize (H d Hd). repeat split; intros ->; discriminate H.
    - cbn [hd]. intros ->. specialize (H quote (or_introl eq_refl)). discriminate H. }
  exists crlf, [tx "0, 0,5"; []; q "1" ++ tx ",+2,-1_0"]. split; [right; left; reflexivity|]. split.
  - constructor; [|constructor; [|constructor; [|constructor]]].
    + exists [tx "0"; tx " 0"; tx "5"]. split; [repeat (apply Forall2_cons; [apply P; reflexivity|]); apply Forall2_nil|]. split; [reflexivity|discriminate].
    + exists []. split; [constructor|]. split; [reflexivity|congruence].
    + exists [q "1"; tx "+2"; tx "-1_0"]. split; [|split; [reflexivity|discriminate]].
      constructor; [right; split; [intros c [<-|[]]; split; discriminate|reflexivity]|repeat (apply Forall2_cons; [apply P; reflexivity|]); apply Forall2_nil].
  - right. exists [tx "0, 0,5"; []], (q "1" ++ tx ",+2,-1_0"). split; [reflexivity|]. split; [discriminate|reflexivity].
Qed.
Example ex_C93_read :
  rdt file_a None = Ok (mkT [2; 3] [5; 0; 0; 0; 0; -10]%Z) /\
  rdt file_a (Some [2; 4]%Z) = Ok (mkT [2; 4] [5; 0; 0; 0; 0; 0; -10; 0]%Z) /\
  Forall2 (row_says (T := Z) py_int 2) (nonblank [[tx "0"; tx " 0"; tx "5"]; []; [tx "1"; tx "+2"; tx "-1_0"]]) [([0; 0], 5); ([1; 2], -10)]%Z.
Proof.
  split; [vm_compute; reflexivity|]. split; [vm_compute; reflexivity|].
  assert (G : forall a b v x y z, py_int a = Some x -> py_int b = Some y -> py_int v = Some z -> row_says (T := Z) py_int 2 [a; b; v] ([x; y], z)).
  { intros a b v x y z A B C. exists [a; b], v. split; [reflexivity|]. split; [reflexivity|]. split; [|exact C].
    constructor; [apply py_int_iff, A|constructor; [apply py_int_iff, B|constructor]]. }
  repeat (apply Forall2_cons; [apply G; reflexivity|]); apply Forall2_nil.
Qed.

(** there is a way to write the values for which the hypotheses of C93_round_trip hold *)
Example ex_C93_round_trip : (forall v : Z, py_int (show_int v) = Some v) /\ (forall v, plain (show_int v)) /\ show_int (-1203) = tx "-1203" /\
  rdt (tx "0," ++ show_int 7 ++ [newline] ++ tx "1," ++ show_int (-12) ++ [newline]) None = Ok (mkT [2] [7; -12]%Z).
Proof.
  split; [intros v; apply py_int_iff, show_int_ok|]. split; [intros v; apply show_int_ok|]. split; vm_compute; reflexivity.
Qed.

(** malformed files: a header, another separator, a later bad line, a null character *)
Example ex_C93_bad :
  rdt (tx "user,item,rating" ++ [newline] ++ tx "0,1,5") None = Raise ValueError /\
  (forall z, ~ int_text (tx "user") z) /\
  rdt (tx "0;1;5" ++ [newline]) None = Raise ValueError /\
  rdt (tx "0,1,5" ++ [newline] ++ tx "0,x,5") None = Raise ValueError /\
  rdt (tx "0,1,5" ++ [nul]) None = Raise CsvError /\
  (forall z, ~ int_text (tx "1__0") z) /\ (forall z, ~ int_text (tx "1.0") z) /\ (forall z, ~ int_text [] z).
Proof.
  repeat split; try (vm_compute; reflexivity); intros z K; apply py_int_iff in K; discriminate K.
Qed.

(** what is not noticed: a decimal comma, which turns the value 2,5 at (0,1) into the value 5 at
    (0,1,2), and a quote that is never closed, which swallows the lines after it *)
Example ex_C93_unnoticed :
  rdt (tx "0,1,2,5" ++ [newline]) None = Ok (mkT [1; 2; 3] [0; 0; 0; 0; 0; 5]%Z) /\
  csv_rows (tx "0,1,5" ++ [newline; quote] ++ tx "1,0,6" ++ [newline] ++ tx "1,1,7" ++ [newline]) =
    Ok [[tx "0"; tx "1"; tx "5"]; [tx "1,0,6" ++ [newline] ++ tx "1,1,7" ++ [newline]]].
Proof. split; vm_compute; reflexivity. Qed.
