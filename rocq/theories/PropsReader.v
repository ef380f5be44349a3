(** Property theorems C32-C35: TensorReader. *)

From Coq Require Import String ZArith List Bool Arith Permutation Lia.
From Verif Require Import Num Py Tensor TF Reader SpecReader ReaderFacts.
Import ListNotations.
Open Scope nat_scope.
Open Scope list_scope.

(** C32/C33: the tensor read with a given shape: the last value listed for a
    coordinate, 0 where nothing is listed *)
Theorem C33_read_last_row_wins : forall (T : Type) (N : Num T) (tok : Type)
  (parse_int : tok -> option Z) (parse_float : tok -> option T)
  (path : string) (rows : list (list tok)) (order : nat) (es : list (list Z * T)) (s : list nat),
  after_last_dot path "csv" \/ after_last_dot path "txt" ->
  0 < order -> es <> [] -> Forall2 (row_lists parse_int parse_float order) (nonblank rows) es ->
  length s = order -> (forall e, In e es -> in_range s (fst e)) ->
  exists X, read parse_int parse_float path rows (Some (map Z.of_nat s)) = Ok X /\ wf X /\ shp X = s /\
    forall idx, valid s idx -> get X idx = match last_for es (map Z.of_nat idx) with Some v => v | None => n0 end.
Proof. exact @read_given. Qed.
Print Assumptions C33_read_last_row_wins.

(** without full_shape: the same, in the shape (max + 1) *)
Theorem C32_read_inferred_shape : forall (T : Type) (N : Num T) (tok : Type)
  (parse_int : tok -> option Z) (parse_float : tok -> option T)
  (path : string) (rows : list (list tok)) (order : nat) (es : list (list Z * T)),
  after_last_dot path "csv" \/ after_last_dot path "txt" ->
  0 < order -> es <> [] -> Forall2 (row_lists parse_int parse_float order) (nonblank rows) es ->
  (forall e z, In e es -> In z (fst e) -> (0 <= z)%Z) ->
  exists X, read parse_int parse_float path rows None = Ok X /\ wf X /\ max_plus_one order es (shp X) /\
    forall idx, valid (shp X) idx -> get X idx = match last_for es (map Z.of_nat idx) with Some v => v | None => n0 end.
Proof. exact @read_inferred. Qed.
Print Assumptions C32_read_inferred_shape.

(** distinct coordinates: every listed entry is found at its coordinate, all others are 0 *)
Theorem C32_read_distinct : forall (T : Type) (N : Num T) (tok : Type)
  (parse_int : tok -> option Z) (parse_float : tok -> option T)
  (path : string) (rows : list (list tok)) (order : nat) (es : list (list Z * T)) (fs : option (list nat)) X,
  after_last_dot path "csv" \/ after_last_dot path "txt" ->
  0 < order -> es <> [] -> Forall2 (row_lists parse_int parse_float order) (nonblank rows) es ->
  NoDup (map fst es) -> (forall e z, In e es -> In z (fst e) -> (0 <= z)%Z) ->
  match fs with Some s => length s = order | None => True end ->
  read parse_int parse_float path rows (option_map (map Z.of_nat) fs) = Ok X ->
  (forall c v, In (c, v) es -> get X (map Z.to_nat c) = v) /\
  (forall idx, valid (shp X) idx -> ~ In (map Z.of_nat idx) (map fst es) -> get X idx = n0).
Proof. exact @read_distinct. Qed.
Print Assumptions C32_read_distinct.

Theorem C32_read_row_order : forall (T : Type) (N : Num T) (tok : Type)
  (parse_int : tok -> option Z) (parse_float : tok -> option T)
  (path : string) (rows rows' : list (list tok)) (fs : option (list nat)) (order : nat) (es : list (list Z * T)),
  after_last_dot path "csv" \/ after_last_dot path "txt" ->
  0 < order -> es <> [] -> Forall2 (row_lists parse_int parse_float order) (nonblank rows) es ->
  NoDup (map fst es) -> (forall e z, In e es -> In z (fst e) -> (0 <= z)%Z) ->
  match fs with Some s => length s = order | None => True end ->
  Permutation rows rows' ->
  read parse_int parse_float path rows (option_map (map Z.of_nat) fs)
  = read parse_int parse_float path rows' (option_map (map Z.of_nat) fs).
Proof. exact @read_order. Qed.
Print Assumptions C32_read_row_order.

(** blank rows have no influence at all *)
Theorem C32_read_blank_rows : forall (T : Type) (N : Num T) (tok : Type)
  (parse_int : tok -> option Z) (parse_float : tok -> option T) (path : string) (rows rows' : list (list tok)) fs,
  nonblank rows = nonblank rows' ->
  read parse_int parse_float path rows fs = read parse_int parse_float path rows' fs.
Proof. exact @read_blank. Qed.
Print Assumptions C32_read_blank_rows.

(** fields are already numbers in the examples *)
Definition rd (path : string) (rows : list (list Z)) fs := read (T := Z) Some Some path rows fs.

Example ex_C32 :
  rd "dir.v2/data.csv" [[0; 0; 5]; []; [1; 2; -7]]%Z None = Ok (mkT [2; 3] [5; 0; 0; 0; 0; -7]%Z)
  /\ rd "data.txt" [[1; 2; -7]; [0; 0; 5]]%Z (Some [2; 4]%Z) = Ok (mkT [2; 4] [5; 0; 0; 0; 0; 0; -7; 0]%Z)
  /\ Forall2 (row_lists (T := Z) Some Some 2) (nonblank [[0; 0; 5]; []; [1; 2; -7]]%Z) [([0; 0], 5); ([1; 2], -7)]%Z
  /\ after_last_dot "dir.v2/data.csv" "csv".
Proof.
  split; [vm_compute; reflexivity|]. split; [vm_compute; reflexivity|]. split.
  - repeat constructor.
    + exists [0; 0]%Z, 5%Z. repeat split. repeat constructor.
    + exists [1; 2]%Z, (-7)%Z. repeat split. repeat constructor.
  - split; [|right; exists "dir.v2/data"%string; reflexivity].
    unfold no_dot. simpl. intros [H|[H|[H|[]]]]; discriminate.
Qed.

(** C33: a coordinate outside the given shape fails *)
Theorem C33_read_out_of_range : forall (T : Type) (N : Num T) (tok : Type)
  (parse_int : tok -> option Z) (parse_float : tok -> option T)
  (path : string) (rows : list (list tok)) (order : nat) (es : list (list Z * T)) (s : list nat) (e : list Z * T),
  after_last_dot path "csv" \/ after_last_dot path "txt" ->
  0 < order -> Forall2 (row_lists parse_int parse_float order) (nonblank rows) es -> length s = order ->
  In e es -> ~ in_range s (fst e) ->
  read parse_int parse_float path rows (Some (map Z.of_nat s)) = Raise InvalidArgument.
Proof. exact @read_bad_given. Qed.
Print Assumptions C33_read_out_of_range.

(** a negative coordinate fails without full_shape too *)
Theorem C33_read_negative : forall (T : Type) (N : Num T) (tok : Type)
  (parse_int : tok -> option Z) (parse_float : tok -> option T)
  (path : string) (rows : list (list tok)) (order : nat) (es : list (list Z * T)) (e : list Z * T) (z : Z),
  after_last_dot path "csv" \/ after_last_dot path "txt" ->
  0 < order -> Forall2 (row_lists parse_int parse_float order) (nonblank rows) es ->
  In e es -> In z (fst e) -> (z < 0)%Z ->
  read parse_int parse_float path rows None = Raise InvalidArgument.
Proof. exact @read_bad_inferred. Qed.
Print Assumptions C33_read_negative.

Example ex_C33 :
  rd "a.csv" [[0; 1; 5]; [1; 1; 6]; [0; 1; 9]]%Z None = Ok (mkT [2; 2] [0; 9; 0; 6]%Z)
  /\ rd "a.csv" [[0; 1; 5]; [1; -1; 6]]%Z None = Raise InvalidArgument
  /\ rd "a.csv" [[0; 1; 5]; [1; 2; 6]]%Z (Some [2; 2]%Z) = Raise InvalidArgument.
Proof. vm_compute. repeat split; reflexivity. Qed.

(** C34, full statement: a row whose length differs from the first row's makes read
    raise.  It holds for rows two or more fields short; the rest is refuted below. *)
Theorem C34_short_row_partial : forall (T : Type) (N : Num T) (tok : Type)
  (parse_int : tok -> option Z) (parse_float : tok -> option T)
  (path : string) (rows : list (list tok)) (first : list tok) (rest : list (list tok)) (row : list tok) fs,
  nonblank rows = first :: rest -> In row rest -> length row + 1 < length first ->
  forall X, read parse_int parse_float path rows fs <> Ok X.
Proof. exact @read_short_raises. Qed.
Print Assumptions C34_short_row_partial.

(** what happens to a longer row: its first fields are the coordinate, its last one
    the value, whatever is in between *)
Theorem C34_long_row_misread : forall (T tok : Type)
  (parse_int : tok -> option Z) (parse_float : tok -> option T)
  (order : nat) (cs ext : list tok) (v : tok) (zs : list Z) (x : T),
  Forall2 (fun c z => parse_int c = Some z) cs zs -> length zs = order -> parse_float v = Some x ->
  read_entry parse_int parse_float order (cs ++ ext ++ [v]) = Ok (zs, x).
Proof. exact @read_entry_long. Qed.
Print Assumptions C34_long_row_misread.

(** and to a row without value: the last coordinate is the value as well *)
Theorem C34_missing_value_misread : forall (T tok : Type)
  (parse_int : tok -> option Z) (parse_float : tok -> option T)
  (order : nat) (cs : list tok) (c : tok) (zs : list Z) (z : Z) (x : T),
  Forall2 (fun c z => parse_int c = Some z) (cs ++ [c]) (zs ++ [z]) -> length (zs ++ [z]) = order ->
  parse_float c = Some x ->
  read_entry parse_int parse_float order (cs ++ [c]) = Ok (zs ++ [z], x).
Proof. exact @read_entry_one_short. Qed.
Print Assumptions C34_missing_value_misread.

Theorem C34_malformed_rows_refuted : exists (rows rows' : list (list Z)) (X X' : tensor Z) first row row',
  rows = [first; row] /\ rows' = [first; row'] /\
  length first < length row /\ length row' < length first /\
  read Some Some "a.csv" rows None = Ok X /\ read Some Some "a.csv" rows' None = Ok X'.
Proof. exact c34_refuted. Qed.
Print Assumptions C34_malformed_rows_refuted.

Example ex_C34 : rd "a.csv" [[0; 1; 5]; [1; 2; 3; 4]]%Z None = Ok (mkT [2; 3] [0; 5; 0; 0; 0; 4]%Z)
  /\ rd "a.csv" [[0; 1; 5]; [1; 2]]%Z None = Ok (mkT [2; 3] [0; 5; 0; 0; 0; 2]%Z)
  /\ rd "a.csv" [[0; 1; 5]; [1]]%Z None = Raise IndexError.
Proof. vm_compute. repeat split; reflexivity. Qed.

(** C35: file types *)
Theorem C35_file_type : forall (T : Type) (N : Num T) (tok : Type)
  (parse_int : tok -> option Z) (parse_float : tok -> option T) (path : string) (rows : list (list tok)) fs,
  read parse_int parse_float path rows fs = Raise ArgumentErr
  <-> ~ (after_last_dot path "csv" \/ after_last_dot path "txt").
Proof. exact @read_type. Qed.
Print Assumptions C35_file_type.

Theorem C35_empty_file : forall (T : Type) (N : Num T) (tok : Type)
  (parse_int : tok -> option Z) (parse_float : tok -> option T) (path : string) (rows : list (list tok)) fs,
  after_last_dot path "csv" \/ after_last_dot path "txt" -> nonblank rows = [] ->
  read parse_int parse_float path rows fs = Raise IndexError.
Proof. exact @read_empty. Qed.
Print Assumptions C35_empty_file.

(** the extension is a well-defined function of the path *)
Theorem C35_extension_unique : forall path a b, after_last_dot path a -> after_last_dot path b -> a = b.
Proof. exact after_last_dot_unique. Qed.
Print Assumptions C35_extension_unique.

Example ex_C35 : rd "data.csv.gz" [[0; 1]]%Z None = Raise ArgumentErr
  /\ rd "data.CSV" [[0; 1]]%Z None = Raise ArgumentErr
  /\ rd "csv" [[0; 1]]%Z None = Ok (mkT [1] [1]%Z)
  /\ rd "x.txt" [[]; []] None = Raise IndexError.
Proof. vm_compute. repeat split; reflexivity. Qed.
