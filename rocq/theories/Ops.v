(** Model of tensorD/base/ops.py (all functions). *)

From Coq Require Import ZArith List Bool Arith.
From Verif Require Import Num Py Tensor TF.
Import ListNotations.

Section Ops.
  Context {T : Type} {N : Num T}.

  (** ops.py:8-13  _skip *)
  Definition in_skip (s : skiparg) (i : Z) : bool :=
    match s with
    | SkNone => false
    | SkInt z => zmem i [z]
    | SkList l => zmem i l
    end.
  Definition skip_ {A} (mats : list A) (s : skiparg) : list A :=
    match s with
    | SkNone => mats
    | _ => map snd (filter (fun p => negb (in_skip s (Z.of_nat (fst p)))) (enumerate mats))
    end.

  (** ops.py:16-40  _gen_perm *)
  Definition gen_perm (order : nat) (mode : Z) : res (list Z) :=
    do tmp <- pyremove mode (rev (zrange order));
    Ok (mode :: tmp).

  (** ops.py:43-75  unfold *)
  Definition unfold (t : tensor T) (mode : Z) : res (tensor T) :=
    do perm <- gen_perm (ndims t) mode;
    do tr <- tf_transpose t perm;
    do d <- pynth (shp t) mode;
    tf_reshape tr [Z.of_nat d; (-1)%Z].

  (** ops.py:78-115  fold *)
  Definition fold (m : tensor T) (mode : Z) (shape : list nat) : res (tensor T) :=
    do perm <- gen_perm (length shape) mode;
    do shape_now <- mapM (pynth shape) perm;
    let back_perm := map (fun p => Z.of_nat (fst p)) (sort_by_snd (enumerate perm)) in
    do r <- tf_reshape m (map Z.of_nat shape_now);
    tf_transpose r back_perm.

  (** tensor.get_shape()[i].value *)
  Definition dim (t : tensor T) (i : Z) : res nat := pynth (shp t) i.

  (** list + list / tuple + tuple concatenate; mixed kinds are a TypeError; the
      caller's list object is not modified by [+] (ops.py:162) *)
  Definition py_concat (a b : axarg) : res (list Z) :=
    match a, b with
    | AList x, AList y => Ok (x ++ y)
    | ATuple x, ATuple y => Ok (x ++ y)
    | _, _ => Raise TypeError
    end.

  (** ops.py:118-164  t2mat.  The first component is the value of the caller's
      r_axis object after the call: line 154 aliases it and line 159 appends to
      the alias. *)
  Definition t2mat_full (t : tensor T) (r_axis c_axis : axarg) : axarg * res (tensor T) :=
    (* lines 150-155 *)
    let rs := match r_axis with
              | AInt z => do d <- dim t z; Ok (AList [z], d)
              | AList l => do ds <- mapM (dim t) l; Ok (AList l, prod ds)
              | ATuple l => do ds <- mapM (dim t) l; Ok (ATuple l, prod ds)
              end in
    match rs with
    | Raise e => (r_axis, Raise e)
    | Ok (indies, row_size) =>
        let il := match indies with AInt z => [z] | AList l => l | ATuple l => l end in
        (* lines 156-157 *)
        let c := match c_axis with
                 | AInt z => if (z =? -1)%Z
                             then AList (filter (fun i => negb (zmem i il)) (zrange (ndims t)))
                             else c_axis
                 | _ => c_axis
                 end in
        match c with
        | AInt z =>
            (* lines 158-160 *)
            match indies with
            | AList l =>
                let r' := match r_axis with AList _ => AList (l ++ [z]) | _ => r_axis end in
                (r', do cs <- dim t z;
                     do tr <- tf_transpose t (l ++ [z]);
                     tf_reshape tr [Z.of_nat row_size; Z.of_nat cs])
            | _ => (r_axis, Raise AttributeError)
            end
        | _ =>
            (* lines 161-163 *)
            let cl := match c with AInt z => [z] | AList l => l | ATuple l => l end in
            (r_axis,
             do ind <- py_concat indies c;
             do cs <- mapM (dim t) cl;
             do tr <- tf_transpose t ind;
             tf_reshape tr [Z.of_nat row_size; Z.of_nat (prod cs)])
        end
    end.
  Definition t2mat (t : tensor T) (r_axis c_axis : axarg) : res (tensor T) :=
    snd (t2mat_full t r_axis c_axis).

  (** ops.py:167-188  vectorize *)
  Definition vectorize (t : tensor T) : res (tensor T) := tf_reshape t [(-1)%Z].

  (** ops.py:191-207  vec_to_tensor *)
  Definition vec_to_tensor (v : tensor T) (shape : list Z) : res (tensor T) :=
    tf_reshape v shape.

  (** ops.py:210-262  mul *)
  Definition ax_list (a : axarg) : axarg := match a with AInt z => AList [z] | _ => a end.
  Definition ax_mem (i : Z) (a : axarg) : bool :=
    match a with AInt z => zmem i [z] | AList l => zmem i l | ATuple l => zmem i l end.
  Definition free_dims (t : tensor T) (a : axarg) : list nat :=
    map snd (filter (fun p => negb (ax_mem (Z.of_nat (fst p)) a)) (enumerate (shp t))).
  Definition mul (tA tB : tensor T) (a_axis b_axis : axarg) : res (tensor T) :=
    let a := ax_list a_axis in
    let b := ax_list b_axis in
    do A <- t2mat tA a (AInt (-1));
    do B <- t2mat tB b (AInt (-1));
    do mat_dot <- tf_matmul true false A B;
    tf_reshape mat_dot (map Z.of_nat (free_dims tA a ++ free_dims tB b)).

  (** ops.py:265-357  ttm.  [matrices] is already a list (line 325-326 wraps a
      single matrix). *)
  Definition set_pynth {A} (l : list A) (i : Z) (v : A) : res (list A) :=
    let n := Z.of_nat (length l) in
    let j := if (i <? 0)%Z then (i + n)%Z else i in
    if ((0 <=? j) && (j <? n))%Z%bool then Ok (set_nth l (Z.to_nat j) v) else Raise IndexError.
  Fixpoint set_targets (tgt : list Z) (mats_start : Z) (axis : list Z) : res (list Z) :=
    match axis with
    | [] => Ok tgt
    | i :: r => do t' <- set_pynth tgt i (mats_start + i)%Z; set_targets t' mats_start r
    end.
  Definition ttm (t : tensor T) (matrices : list (tensor T)) (axis : option (list Z))
             (transpose : bool) (skip : skiparg) : res (tensor T) :=
    match axis, skip with
    | Some _, SkInt _ | Some _, SkList _ => Raise ValueError           (* 320-321 *)
    | _, _ =>
        let order := ndims t in
        let cnt := length matrices in
        let mats := skip_ matrices skip in                             (* 329-331 *)
        let ax := match skip with
                  | SkNone => match axis with Some l => l | None => zrange cnt end  (* 339-340 *)
                  | _ => filter (fun i => negb (in_skip skip i)) (zrange (Nat.min order cnt))
                  end in                                               (* 334-337 *)
        let tensor_start := (122 - Z.of_nat order + 1)%Z in            (* 343 *)
        let mats_start := 97%Z in                                      (* 344 *)
        do tensor_op <- mapM (fun i => pychr (tensor_start + i)) (zrange order);
        do mat_op <- mapM (fun i => do c1 <- pychr (tensor_start + i);
                                    do c2 <- pychr (mats_start + i);
                                    Ok (if transpose then [c1; c2] else [c2; c1])) ax;
        (* ','.join over axis; an empty join still leaves one (empty) group after
           the comma in "tensor_op,mat_op" *)
        let mat_ops := match mat_op with [] => [[]] | _ => mat_op end in
        do target <- set_targets tensor_op mats_start ax;              (* 351-353 *)
        tf_einsum (tensor_op :: mat_ops) target (t :: mats)            (* 356-357 *)
    end.

  (** ops.py:360-381  inner *)
  Definition shape_eqb (a b : list nat) : bool :=
    Nat.eqb (length a) (length b) && forallb (fun p => Nat.eqb (fst p) (snd p)) (combine a b).
  Definition inner (A B : tensor T) : res T :=
    if negb (shape_eqb (shp A) (shp B)) then Raise ValueError
    else
      do a <- vectorize A; do b <- vectorize B;
      do p <- tf_bin nmul a b;
      Ok (tf_sum p).

  (** functools.reduce without initial value: TypeError on an empty list *)
  Fixpoint reduceM {A} (f : A -> A -> res A) (acc : A) (l : list A) : res A :=
    match l with [] => Ok acc | x :: r => do a <- f acc x; reduceM f a r end.
  Definition py_reduce {A} (f : A -> A -> res A) (l : list A) : res A :=
    match l with [] => Raise TypeError | x :: r => reduceM f x r end.

  (** ops.py:384-402  hadamard *)
  Definition hadamard (matrices : list (tensor T)) (skip : skiparg) : res (tensor T) :=
    py_reduce (tf_bin nmul) (skip_ matrices skip).

  (** ops.py:405-436  kron *)
  Definition evens (m : nat) : list Z := map (fun i => (97 + 2 * Z.of_nat i)%Z) (seq 0 m).
  Definition odds (m : nat) : list Z := map (fun i => (97 + 2 * Z.of_nat i + 1)%Z) (seq 0 m).
  Definition kron (matrices : list (tensor T)) (skip : skiparg) (reverse : bool) : res (tensor T) :=
    let m1 := skip_ matrices skip in
    let mats := if reverse then rev m1 else m1 in
    let n := length mats in
    let source := map (fun p => [fst p; snd p]) (combine (evens n) (odds n)) in
    do tmp <- tf_einsum source (evens n ++ odds n) mats;
    do r <- mapM (fun m => dim m 0) mats;
    do c <- mapM (fun m => dim m 1) mats;
    tf_reshape tmp [Z.of_nat (prod r); Z.of_nat (prod c)].

  (** ops.py:439-471  khatri *)
  Definition letters (m : nat) : list Z := map (fun i => (97 + Z.of_nat i)%Z) (seq 0 m).
  Definition khatri (matrices : list (tensor T)) (skip : skiparg) (reverse : bool) : res (tensor T) :=
    let m1 := skip_ matrices skip in
    let mats := if reverse then rev m1 else m1 in
    let target := letters (length mats) in
    let source := map (fun i => [i; 122%Z]) target in
    do tmp <- tf_einsum source (target ++ [122%Z]) mats;
    do r <- mapM (fun m => dim m 0) mats;
    do m0 <- pynth mats 0;
    do c <- dim m0 1;
    tf_reshape tmp [Z.of_nat (prod r); Z.of_nat c].

  (** ops.py:473-492  max_single_value_mul; [svals m] is the oracle for
      tf.svd(m, compute_uv=False) *)
  Definition max_single_value_mul (svals : tensor T -> list T)
             (matrices : list (tensor T)) (skip : skiparg) : res T :=
    py_reduce (fun a b => Ok (nmul a b))
              (map (fun m => tf_max (svals m)) (skip_ matrices skip)).

  (** ops.py:498-522  xcb *)
  Definition ne0 (x : T) : T := if neqb x n0 then n0 else n1.
  Definition xcb_column (X C B I1 J1 K1 JK1 binX : tensor T) (r : nat) : res (tensor T) :=
    do Cr <- tf_column C r;
    do Br <- tf_column B r;
    do k1 <- kron [Cr; J1] SkNone false;
    do p1 <- tf_matmul false true I1 k1;
    do N1 <- hadamard [X; p1] SkNone;
    do k2 <- kron [K1; Br] SkNone false;
    do p2 <- tf_matmul false true I1 k2;
    do N2 <- hadamard [binX; p2] SkNone;
    do N3 <- hadamard [N1; N2] SkNone;
    tf_matmul false false N3 JK1.
  (** tf.reshape(tf.stack(res, axis=1), (I, R)): column r of the result is res[r]
      (each of shape (I,1); stacking gives (I,R,1)). *)
  Definition xcb (X0 C B : tensor T) : res (tensor T) :=
    do X <- unfold X0 0;
    do nI <- dim X 0;
    do nJ <- dim B 0;
    do nK <- dim C 0;
    do nR <- dim C 1;
    let I1 := tf_ones [nI; 1] in
    let J1 := tf_ones [nJ; 1] in
    let K1 := tf_ones [nK; 1] in
    let JK1 := tf_ones [nJ * nK; 1] in
    let binX := tf_map ne0 X in
    do cols <- mapM (xcb_column X C B I1 J1 K1 JK1 binX) (seq 0 nR);
    match cols with
    | [] => Raise ValueError                      (* tf.stack of an empty list *)
    | _ => tf_reshape (gen [nI; nR; 1] (fun idx =>
                         mget (nth (nth 1 idx 0) cols (mkT [] [])) (nth 0 idx 0) 0))
                      [Z.of_nat nI; Z.of_nat nR]
    end.
End Ops.
