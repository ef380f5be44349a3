(** The TensorFlow / NumPy primitives the repository calls, as pure functions with
    their error branches.  These are models of library behaviour (trusted); they
    cite the call sites that use them. *)

From Coq Require Import ZArith List Bool Arith.
From Verif Require Import Num Py Tensor.
Import ListNotations.

Section TF.
  Context {T : Type} {N : Num T}.

  (** product of the entries of a shape argument other than -1 *)
  Definition zprod (l : list Z) : Z := fold_right Z.mul 1%Z l.

  (** tf.reshape(t, s) with at most one -1
      (ops.py:75,115,164,188,207,262,436,471,522; type.py:168; cp.py:96).
      An element-count mismatch, a negative size other than -1, two -1, or a -1
      that cannot be inferred because another size is 0 is an error. *)
  Definition tf_reshape (t : tensor T) (s : list Z) : res (tensor T) :=
    let known := filter (fun d => negb (d =? -1)%Z) s in
    let unk := filter (fun d => (d =? -1)%Z) s in
    let n := Z.of_nat (prod (shp t)) in
    if existsb (fun d => (d <? 0)%Z) known then Raise ValueError
    else
      match unk with
      | [] =>
          if (zprod s =? n)%Z then Ok (mkT (map Z.to_nat s) (dat t))
          else Raise ValueError
      | [_] =>
          let k := zprod known in
          if (k =? 0)%Z then Raise ValueError
          else if (n mod k =? 0)%Z then
            Ok (mkT (map (fun d => Z.to_nat (if (d =? -1)%Z then n / k else d)%Z) s) (dat t))
          else Raise ValueError
      | _ => Raise ValueError
      end.

  (** position of a in l (first occurrence; length l when absent) *)
  Fixpoint pos (a : nat) (l : list nat) : nat :=
    match l with
    | [] => 0
    | x :: r => if Nat.eqb a x then 0 else S (pos a r)
    end.

  (** perm is a permutation of 0..n-1 *)
  Definition perm_ok (n : nat) (perm : list Z) : bool :=
    Nat.eqb (length perm) n && forallb (fun a => zmem a perm) (zrange n).

  (** tf.transpose(t, perm): axis k of the result is axis perm[k] of t
      (ops.py:75,115,164).  Negative or repeated entries are errors. *)
  Definition tf_transpose (t : tensor T) (perm : list Z) : res (tensor T) :=
    if perm_ok (ndims t) perm then
      let p := map Z.to_nat perm in
      Ok (gen (map (fun a => nth a (shp t) 0) p)
              (fun j => get t (map (fun a => nth (pos a p) j 0) (seq 0 (ndims t)))))
    else Raise ValueError.

  (** tf.matmul on matrices with transpose flags; higher ranks are not used by the
      repository and are an error here (simplification: TF would batch). *)
  Definition tf_matmul (ta tb : bool) (A B : tensor T) : res (tensor T) :=
    match shp A, shp B with
    | [a1; a2], [b1; b2] =>
        let m := if ta then a2 else a1 in
        let k := if ta then a1 else a2 in
        let k' := if tb then b2 else b1 in
        let n := if tb then b1 else b2 in
        if Nat.eqb k k' then
          Ok (mgen m n (fun i j =>
                sumn k (fun l =>
                  nmul (if ta then mget A l i else mget A i l)
                       (if tb then mget B j l else mget B l j))))
        else Raise ValueError
    | _, _ => Raise ValueError
    end.

  (** NumPy/TF broadcasting of two shapes (aligned at the last axis) *)
  Fixpoint bshape_rev (a b : list nat) : option (list nat) :=
    match a, b with
    | [], _ => Some b
    | _, [] => Some a
    | x :: a', y :: b' =>
        match bshape_rev a' b' with
        | None => None
        | Some r =>
            if Nat.eqb x y then Some (x :: r)
            else if Nat.eqb x 1 then Some (y :: r)
            else if Nat.eqb y 1 then Some (x :: r)
            else None
        end
    end.
  Definition bshape (a b : list nat) : option (list nat) :=
    option_map (@rev nat) (bshape_rev (rev a) (rev b)).

  (** the index of an operand of shape s read for output index idx *)
  Definition bidx (s idx : list nat) : list nat :=
    map (fun p => if Nat.eqb (fst p) 1 then 0 else snd p)
        (combine s (skipn (length idx - length s) idx)).

  (** elementwise binary operation with broadcasting (+, -, *, tf.div,
      tf.subtract) *)
  Definition tf_bin (op : T -> T -> T) (A B : tensor T) : res (tensor T) :=
    match bshape (shp A) (shp B) with
    | Some s =>
        Ok (gen s (fun idx => op (get A (bidx (shp A) idx)) (get B (bidx (shp B) idx))))
    | None => Raise ValueError
    end.

  (** elementwise unary operation *)
  Definition tf_map (f : T -> T) (A : tensor T) : tensor T := mkT (shp A) (map f (dat A)).

  (** tf.reduce_sum over everything; tf.norm (Frobenius / euclidean) *)
  Definition tf_sum (A : tensor T) : T := lsum (dat A).
  Definition tf_norm (A : tensor T) : T := nsqrt (lsum (map nsq (dat A))).

  (** tf.reduce_max of a list; the empty maximum (-inf in TF) is not reachable from
      the modelled code (an empty axis fails in unfold first) and is [n0] here *)
  Definition tf_max (l : list T) : T :=
    match l with [] => n0 | x :: r => fold_left nmax r x end.

  (** constants *)
  Definition tf_fill (s : list nat) (v : T) : tensor T := gen s (fun _ => v).
  Definition tf_ones (s : list nat) : tensor T := tf_fill s n1.
  Definition tf_zeros (s : list nat) : tensor T := tf_fill s n0.

  (** ** tf.einsum
      Labels are character codes.  TF 1.x requires the equation to match
      [a-z]+(,[a-z]+)*->[a-z]*, one label group per input, as many labels as
      axes, no repeated label within a group, and every output label present in
      some input (ValueError otherwise).  Simplification: sizes of one label must
      agree exactly (TF 1.x would broadcast size 1 in pure products). *)
  Definition lower (l : Z) : bool := ((97 <=? l) && (l <=? 122))%Z%bool.
  Fixpoint nodupb (l : list Z) : bool :=
    match l with [] => true | x :: r => negb (zmem x r) && nodupb r end.

  (** size of a label: from its first occurrence *)
  Fixpoint lookup {A} (d : A) (l : Z) (env : list (Z * A)) : A :=
    match env with
    | [] => d
    | (x, v) :: r => if (l =? x)%Z then v else lookup d l r
    end.

  (** labels in order of first occurrence *)
  Fixpoint dedup (seen l : list Z) : list Z :=
    match l with
    | [] => []
    | x :: r => if zmem x seen then dedup seen r else x :: dedup (x :: seen) r
    end.

  (** the (label, size) pairs of all inputs *)
  Definition einsum_dims (ins : list (list Z)) (ops : list (tensor T)) : list (Z * nat) :=
    concat (map (fun p => combine (fst p) (shp (snd p))) (combine ins ops)).

  Definition tf_einsum (ins : list (list Z)) (out : list Z) (ops : list (tensor T))
    : res (tensor T) :=
    let dims := einsum_dims ins ops in
    if negb (forallb (forallb lower) ins && forallb lower out) then Raise ValueError
    else if match ins with [] => true | _ => existsb (fun l => Nat.eqb (length l) 0) ins end
      then Raise ValueError
    else if negb (Nat.eqb (length ins) (length ops)) then Raise ValueError
    else if negb (forallb (fun p => Nat.eqb (length (fst p)) (ndims (snd p))) (combine ins ops))
      then Raise ValueError
    else if negb (forallb nodupb ins && nodupb out) then Raise ValueError
    else if negb (forallb (fun l => zmem l (concat ins)) out) then Raise ValueError
    else if negb (forallb (fun p => Nat.eqb (snd p) (lookup 0 (fst p) dims)) dims)
      then Raise ValueError
    else
      let summed := filter (fun l => negb (zmem l out)) (dedup [] (concat ins)) in
      let size := fun l => lookup 0 l dims in
      Ok (gen (map size out) (fun oi =>
            lsum (map (fun si =>
                    let env := combine (out ++ summed) (oi ++ si) in
                    lprod (map (fun p => get (snd p) (map (fun l => lookup 0 l env) (fst p)))
                               (combine ins ops)))
                  (indices (map size summed))))).

  (** tf.slice(A, [0, r], [K, 1]) (ops.py:515-516) *)
  Definition tf_column (A : tensor T) (r : nat) : res (tensor T) :=
    match shp A with
    | [k; c] => if Nat.ltb r c then Ok (mgen k 1 (fun i _ => mget A i r)) else Raise ValueError
    | _ => Raise ValueError
    end.

  (** A[:, :r] (Python slice: clipped to the available columns;
      tucker.py:36,145,158) *)
  Definition tf_columns (A : tensor T) (r : Z) : res (tensor T) :=
    match shp A with
    | [k; c] =>
        let n := if (r <? 0)%Z then Z.to_nat (Z.of_nat c + r) else Nat.min (Z.to_nat r) c in
        Ok (mgen k n (fun i j => mget A i j))
    | _ => Raise ValueError
    end.

  (** tf.sparse_tensor_to_dense(SparseTensor(idx, vals, shape),
      validate_indices=False): entries are written in order (a repeated index
      keeps the last value); an index outside the shape is an error.
      (reader.py:57; pitf_ops.py:395,408,421,649) *)
  Definition zvalid (s : list nat) (idx : list Z) : bool :=
    Nat.eqb (length idx) (length s) &&
    forallb (fun p => ((0 <=? fst p) && (fst p <? Z.of_nat (snd p)))%Z%bool) (combine idx s).

  Fixpoint set_nth {A} (l : list A) (k : nat) (v : A) : list A :=
    match l, k with
    | [], _ => []
    | _ :: r, 0 => v :: r
    | x :: r, S k' => x :: set_nth r k' v
    end.

  Fixpoint sparse_write (s : list nat) (buf : list T) (l : list (list Z * T)) : res (list T) :=
    match l with
    | [] => Ok buf
    | (idx, v) :: r =>
        if zvalid s idx then sparse_write s (set_nth buf (ravel s (map Z.to_nat idx)) v) r
        else Raise InvalidArgument
    end.

  Definition tf_sparse_to_dense (s : list nat) (l : list (list Z * T)) : res (tensor T) :=
    do buf <- sparse_write s (repeat n0 (prod s)) l; Ok (mkT s buf).
End TF.
