(** Model of tensorD/base/type.py: DTensor, KTensor, TTensor. *)

From Coq Require Import ZArith List Bool Arith.
From Verif Require Import Num Py Tensor TF Ops.
Import ListNotations.

Section Types.
  Context {T : Type} {N : Num T}.

  (** ** DTensor (type.py:7-114)
      The object state: the wrapped tensor and the cached unfolding (lines 20-27;
      [shape] and [fold_T] are derived from [T] and never read by the class). *)
  Record dtensor := mkD { d_T : tensor T; d_unfold : option (tensor T) }.

  (** type.py:12-27  __init__ *)
  Definition dtensor_init (t : tensor T) : dtensor := mkD t None.

  (** T[index] for an int or a tuple of ints (type.py:113-114): leading axes are
      fixed; TF rejects too many or out-of-range indices (ValueError).
      Slices are not modelled. *)
  Fixpoint norm_index (s : list nat) (idx : list Z) : res (list nat) :=
    match idx, s with
    | [], _ => Ok []
    | _ :: _, [] => Raise ValueError
    | i :: r, d :: s' =>
        let j := if (i <? 0)%Z then (i + Z.of_nat d)%Z else i in
        if ((0 <=? j) && (j <? Z.of_nat d))%Z%bool then
          do r' <- norm_index s' r; Ok (Z.to_nat j :: r')
        else Raise ValueError
    end.
  Definition tf_getitem (t : tensor T) (idx : list Z) : res (tensor T) :=
    do p <- norm_index (shp t) idx;
    Ok (gen (skipn (length p) (shp t)) (fun r => get t (p ++ r))).

  (** the second operand of a binary method: a DTensor or a bare tf.Tensor *)
  Inductive operand := OD (d : dtensor) | OT (t : tensor T).
  Definition operand_val (o : operand) : tensor T :=
    match o with OD d => d_T d | OT t => t end.

  (** the public methods (type.py:29-114); [fold] is static and listed with the
      others, [get_shape] and [eval] only read *)
  Inductive dcall :=
  | CMul (o : operand) (a b : axarg)
  | CUnfold (mode : Z)
  | CT2mat (r c : axarg)
  | CVectorize
  | CKron (o : operand)
  | CKhatri (o : operand)
  | CFold (m : tensor T) (mode : Z) (shape : list nat)
  | CAdd (o : operand)
  | CMulE (o : operand)
  | CSub (o : operand)
  | CGetitem (idx : list Z).

  (** one call: new state of the object and the tensor held by the result *)
  Definition dcall_exec (d : dtensor) (c : dcall) : dtensor * res (tensor T) :=
    match c with
    | CMul (OD o) a b => (d, mul (d_T d) (d_T o) a b)                  (* 48 *)
    | CMul (OT _) _ _ => (d, Raise AttributeError)                     (* tf.Tensor has no .T *)
    | CUnfold mode =>                                                  (* 50-53 *)
        match d_unfold d with
        | None => match unfold (d_T d) mode with
                  | Ok u => (mkD (d_T d) (Some u), Ok u)
                  | Raise e => (d, Raise e)
                  end
        | Some u => (d, Ok u)
        end
    | CT2mat r c => (d, t2mat (d_T d) r c)                             (* 55-56 *)
    | CVectorize => (d, vectorize (d_T d))                             (* 58-59 *)
    | CKron o => (d, kron [d_T d; operand_val o] SkNone false)         (* 64-68 *)
    | CKhatri o => (d, khatri [d_T d; operand_val o] SkNone false)     (* 70-74 *)
    | CFold m mode s => (d, fold m mode s)                             (* 79-81 *)
    | CAdd o => (d, tf_bin nadd (d_T d) (operand_val o))               (* 83-87 *)
    | CMulE o => (d, tf_bin nmul (d_T d) (operand_val o))              (* 89-105 *)
    | CSub o => (d, tf_bin nsub (d_T d) (operand_val o))               (* 107-111 *)
    | CGetitem idx => (d, tf_getitem (d_T d) idx)                      (* 113-114 *)
    end.

  (** a history of calls on one object *)
  Fixpoint dcalls (d : dtensor) (cs : list dcall) : dtensor :=
    match cs with [] => d | c :: r => dcalls (fst (dcall_exec d c)) r end.

  (** ** KTensor (type.py:117-168) *)

  Inductive dtype := F32 | F64 | I32 | I64.
  Definition dtype_eqb (a b : dtype) : bool :=
    match a, b with
    | F32, F32 | F64, F64 | I32, I32 | I64, I64 => true
    | _, _ => false
    end.

  (** an array argument: ndarray or tf.Tensor, with dtype *)
  Inductive akind := NP | TFT.
  Record arr := mkArr { a_kind : akind; a_dt : dtype; a_t : tensor T }.
  Definition is_np (a : arr) : bool := match a_kind a with NP => true | TFT => false end.

  (** conversion of element values between dtypes *)
  Variable cast : dtype -> T -> T.

  Record ktensor := mkK { k_U : list arr; k_lam : arr }.

  (** type.py:126-153  __init__.  tf.constant applied to a tf.Tensor is a
      TypeError. *)
  Definition tf_constant32 (a : arr) : res arr :=
    match a_kind a with
    | NP => Ok (mkArr TFT F32 (tf_map (cast F32) (a_t a)))
    | TFT => Raise TypeError
    end.
  Definition expand_if_vec (a : arr) : arr :=
    match shp (a_t a) with
    | [n] => mkArr (a_kind a) (a_dt a) (mkT [n; 1] (dat (a_t a)))
    | _ => a
    end.
  Definition ktensor_init (factors : list arr) (lambdas : option arr) : res ktensor :=
    do f0 <- pynth factors 0;                                          (* 135 *)
    do U <- (if is_np f0 then mapM tf_constant32 factors else Ok factors);
    do lam <- match lambdas with
              | None => do u0 <- pynth U 0;
                        do r <- dim (a_t u0) 1;
                        Ok (mkArr TFT F32 (tf_ones [r; 1]))            (* 142-143 *)
              | Some l => Ok (expand_if_vec (mkArr TFT (a_dt l) (a_t l)))  (* 145-150 *)
              end;
    Ok (mkK U lam).

  (** dtype agreement of the inputs of one TF op: TypeError when mixed *)
  Definition same_dtype (l : list arr) : res unit :=
    match l with
    | [] => Ok tt
    | a :: r => if forallb (fun b => dtype_eqb (a_dt a) (a_dt b)) r then Ok tt else Raise TypeError
    end.

  (** type.py:155-168  extract, on values.  [lam] is the (R,1) column. *)
  Definition kt_extract (U : list (tensor T)) (lam : tensor T) : res (tensor T) :=
    do tmp <- khatri U SkNone false;
    do back_shape <- mapM (fun u => dim u 0) U;
    do p <- tf_matmul false false tmp lam;
    tf_reshape p (map Z.of_nat back_shape).

  (** extract with the checks TF performs: an ndarray left in [self.U] has no
      get_shape (AttributeError), mixed dtypes are a TypeError *)
  Definition ktensor_extract (k : ktensor) : res (dtype * tensor T) :=
    if existsb is_np (k_U k) then Raise AttributeError
    else
      do _ <- same_dtype (k_U k);
      do u0 <- pynth (k_U k) 0;
      do _ <- same_dtype [u0; k_lam k];
      do t <- kt_extract (map a_t (k_U k)) (a_t (k_lam k));
      Ok (a_dt u0, t).

  (** ** TTensor (type.py:171-208) *)

  (** type.py:180-197 and 199-208 on values *)
  Definition tt_extract (g : tensor T) (U : list (tensor T)) : res (tensor T) :=
    ttm g U None false SkNone.

  (** with dtypes: ndarray arguments become constants of their own dtype (189-196);
      factors is indexed at 0 (193) *)
  Definition ttensor_extract (core : arr) (factors : list arr) : res (dtype * tensor T) :=
    do f0 <- pynth factors 0;
    do U <- (if is_np f0
             then mapM (fun a => if is_np a then Ok (mkArr TFT (a_dt a) (a_t a)) else Raise TypeError) factors
             else Ok factors);
    if existsb is_np U then Raise AttributeError
    else
      do _ <- same_dtype (mkArr TFT (a_dt core) (a_t core) :: U);
      do t <- tt_extract (a_t core) (map a_t U);
      Ok (a_dt core, t).
End Types.

Arguments dtensor T : clear implicits.
Arguments operand T : clear implicits.
Arguments dcall T : clear implicits.
Arguments arr T : clear implicits.
Arguments ktensor T : clear implicits.
