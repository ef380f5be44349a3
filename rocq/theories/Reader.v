(** Model of tensorD/dataproc/reader.py. *)

From Coq Require Import String Ascii ZArith List Bool Arith.
From Verif Require Import Num Py Tensor TF.
Import ListNotations.
Open Scope nat_scope.
Open Scope list_scope.

(** reader.py:30  path.split('.')[-1] *)
Fixpoint after_last_dot_aux (s acc : string) : string :=
  match s with
  | EmptyString => acc
  | String c r =>
      if Ascii.eqb c "."%char then after_last_dot_aux r r else after_last_dot_aux r acc
  end.
Definition file_type (path : string) : string := after_last_dot_aux path path.

Section Reader.
  Context {T : Type} {N : Num T}.
  (** csv fields; [parse_int] / [parse_float] are Python's int() / float()
      (None: ValueError).  Splitting the text of the file is in Csv.v:
      a file is the list of rows csv.reader yields, a blank line being []. *)
  Context {tok : Type}.
  Variable parse_int : tok -> option Z.
  Variable parse_float : tok -> option T.

  Definition pint (x : tok) : res Z := match parse_int x with Some z => Ok z | None => Raise ValueError end.
  Definition pfloat (x : tok) : res T := match parse_float x with Some z => Ok z | None => Raise ValueError end.

  (** reader.py:47-50: one entry, read as [order] integers and the last field *)
  Definition read_entry (order : nat) (entry : list tok) : res (list Z * T) :=
    do idx <- mapM (fun mode => do f <- pynth entry mode; pint f) (zrange order);
    do lastf <- pynth entry (-1);
    do v <- pfloat lastf;
    Ok (idx, v).

  (** reader.py:52-53: np.max(idx, axis=0) + 1 *)
  Definition zmax_list (l : list Z) : Z :=
    match l with [] => 0%Z | x :: r => fold_left Z.max r x end.
  Definition infer_shape (order : nat) (idx : list (list Z)) : list Z :=
    map (fun m => (zmax_list (map (fun i => nth m i 0%Z) idx) + 1)%Z) (seq 0 order).

  (** reader.py:32-58  read: the value of full_data once evaluated.
      Simplifications: 64-bit overflow of indices is ignored; the out-of-range
      error TF raises when full_data is evaluated is reported here; files whose
      rows have a single field (order 0) are reported as ValueError. *)
  Definition read (path : string) (rows : list (list tok)) (full_shape : option (list Z))
    : res (tensor T) :=
    let ty := file_type path in
    if (String.eqb ty "csv" || String.eqb ty "txt")%bool then
      let str_in := filter (fun r => negb (Nat.eqb (length r) 0)) rows in
      do first <- pynth str_in 0;
      let order := length first - 1 in
      do entries <- mapM (read_entry order) str_in;
      if Nat.eqb order 0 then Raise ValueError
      else
        let max_dim := match full_shape with
                       | None => infer_shape order (map fst entries)
                       | Some s => s
                       end in
        if negb (Nat.eqb (length max_dim) order) then Raise ValueError
        else if match full_shape with
                | Some s => existsb (fun d => (d <? 0)%Z) s | None => false end
          then Raise InvalidArgument
        else tf_sparse_to_dense (map Z.to_nat max_dim) entries
    else Raise ArgumentErr.
End Reader.
