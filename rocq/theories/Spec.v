(** Specification vocabulary: the mathematics the property theorems are stated in.
    Nothing here uses the model's functions; only the data types [tensor], [Num]
    and the entry reader [get]/[mget]. *)

From Coq Require Import ZArith List Bool Arith.
From Verif Require Import Num Py Tensor.
Import ListNotations.

(** ** index arithmetic *)

Definition nsum (l : list nat) : nat := fold_right Nat.add 0 l.
Definition nprod (l : list nat) : nat := fold_right Nat.mul 1 l.

(** the entries of l at the positions ax, in that order *)
Definition pick (ax l : list nat) : list nat := map (fun a => nth a l 0) ax.

(** the axes other than n of a tensor of order N, ascending *)
Definition others (n N : nat) : list nat := filter (fun k => negb (Nat.eqb k n)) (seq 0 N).

(** Kolda & Bader's column index of a mode-n matricization (zero based):
    j = sum_{k<>n} i_k J_k with J_k = prod_{m<k, m<>n} I_m *)
Definition kolda_stride (s : list nat) (n k : nat) : nat := nprod (pick (others n k) s).
Definition kolda_col (s : list nat) (n : nat) (idx : list nat) : nat :=
  nsum (map (fun k => nth k idx 0 * kolda_stride s n k) (others n (length s))).

(** row-major (C order) position: sum_k i_k * prod_{m>k} I_m *)
Definition rowmajor (s idx : list nat) : nat :=
  nsum (map (fun k => nth k idx 0 * nprod (skipn (S k) s)) (seq 0 (length s))).

(** first position of a in l *)
Fixpoint index_of (a : nat) (l : list nat) : nat :=
  match l with [] => 0 | x :: r => if Nat.eqb a x then 0 else S (index_of a r) end.

(** the axes of an order-n tensor that are not in ax, ascending *)
Definition free_axes (ax : list nat) (n : nat) : list nat :=
  filter (fun k => negb (existsb (Nat.eqb k) ax)) (seq 0 n).

(** the multi-index of an order-n tensor whose coordinates on the axes ax are k and
    on the free axes are i *)
Definition merge (n : nat) (ax k i : list nat) : list nat :=
  map (fun p => if existsb (Nat.eqb p) ax then nth (index_of p ax) k 0
                else nth (index_of p (free_axes ax n)) i 0) (seq 0 n).

(** l with position n replaced by v *)
Fixpoint replace {A} (n : nat) (v : A) (l : list A) : list A :=
  match l, n with
  | [], _ => []
  | _ :: r, 0 => v :: r
  | x :: r, S k => x :: replace k v r
  end.

(** the list without the elements at the positions in drop (positions counted from k) *)
Fixpoint without_from {A} (k : Z) (drop : list Z) (l : list A) : list A :=
  match l with
  | [] => []
  | x :: r => if existsb (Z.eqb k) drop then without_from (k + 1) drop r
              else x :: without_from (k + 1) drop r
  end.
Definition without {A} (drop : list Z) (l : list A) : list A := without_from 0 drop l.

(** the positions 0..n-1 not in drop, ascending *)
Definition kept (drop : list Z) (n : nat) : list nat :=
  filter (fun k => negb (existsb (Z.eqb (Z.of_nat k)) drop)) (seq 0 n).

(** the set of positions a skip argument names *)
Definition skipset (s : skiparg) : list Z :=
  match s with SkNone => [] | SkInt z => [z] | SkList l => l end.

(** ** broadcasting: sizes are aligned at the last axis, missing axes count as 1 *)
Definition last_dim (s : list nat) (k : nat) : nat := nth k (rev s) 1.
Definition broadcastable (a b : list nat) : Prop :=
  forall k, last_dim a k = last_dim b k \/ last_dim a k = 1 \/ last_dim b k = 1.
Definition broadcast_shape (a b : list nat) : list nat :=
  rev (map (fun k => if Nat.eqb (last_dim a k) 1 then last_dim b k else last_dim a k)
           (seq 0 (Nat.max (length a) (length b)))).
(** the entry of an operand of shape s read for the output index idx *)
Definition broadcast_index (s idx : list nat) : list nat :=
  rev (map (fun k => if Nat.eqb (last_dim s k) 1 then 0 else nth k (rev idx) 0) (seq 0 (length s))).

(** all sizes non-zero *)
Definition nonempty (s : list nat) : Prop := Forall (fun d => d <> 0) s.

(** ** finite sums and products of scalars *)
Section Sums.
  Context {T : Type} {N : Num T}.

  (** sum_{i<n} f i *)
  Fixpoint bigsum (n : nat) (f : nat -> T) : T :=
    match n with 0 => n0 | S k => nadd (bigsum k f) (f k) end.

  (** prod_{i<n} f i *)
  Fixpoint bigprod (n : nat) (f : nat -> T) : T :=
    match n with 0 => n1 | S k => nmul (bigprod k f) (f k) end.

  (** sum over all multi-indices of a shape *)
  Fixpoint msum (s : list nat) (f : list nat -> T) : T :=
    match s with
    | [] => f []
    | d :: r => bigsum d (fun i => msum r (fun idx => f (i :: idx)))
    end.

  (** product over the list *)
  Fixpoint listprod (l : list T) : T :=
    match l with [] => n1 | x :: r => nmul x (listprod r) end.
  Fixpoint listsum (l : list T) : T :=
    match l with [] => n0 | x :: r => nadd x (listsum r) end.
End Sums.

(** m is the matrix whose rows are indexed by the axes r of t and whose columns by
    the axes c, both in row-major order *)
Definition placed {T : Type} {N : Num T} (t : tensor T) (r c : list nat) (m : tensor T) : Prop :=
  is_mat m (nprod (pick r (shp t))) (nprod (pick c (shp t))) /\
  forall idx, valid (shp t) idx ->
    mget m (rowmajor (pick r (shp t)) (pick r idx)) (rowmajor (pick c (shp t)) (pick c idx))
    = get t idx.

(** ** matrices and tensors built from entries *)
Section Objects.
  Context {T : Type} {N : Num T}.

  (** sizes of a matrix; every member of a list is a matrix *)
  Definition nrows (A : tensor T) : nat := nth 0 (shp A) 0.
  Definition ncols (A : tensor T) : nat := nth 1 (shp A) 0.
  Definition matrix (A : tensor T) : Prop := is_mat A (nrows A) (ncols A).

  (** the k-th matrix of a list *)
  Definition mat_at (l : list (tensor T)) (k : nat) : tensor T := nth k l (mkT [] []).

  (** K is the Kronecker product of the list: row-major pairs of multi-indices *)
  Definition is_kron (l : list (tensor T)) (K : tensor T) : Prop :=
    is_mat K (nprod (map nrows l)) (nprod (map ncols l)) /\
    forall i j, valid (map nrows l) i -> valid (map ncols l) j ->
      mget K (rowmajor (map nrows l) i) (rowmajor (map ncols l) j)
      = bigprod (length l) (fun k => mget (mat_at l k) (nth k i 0) (nth k j 0)).

  (** K is the Khatri-Rao (column-wise Kronecker) product of the list, R columns *)
  Definition is_khatri (l : list (tensor T)) (R : nat) (K : tensor T) : Prop :=
    is_mat K (nprod (map nrows l)) R /\
    forall i r, valid (map nrows l) i -> r < R ->
      mget K (rowmajor (map nrows l) i) r
      = bigprod (length l) (fun k => mget (mat_at l k) (nth k i 0) r).

  (** transpose of an r x c matrix *)
  Definition transposed (A B : tensor T) : Prop :=
    exists r c, is_mat A r c /\ is_mat B c r /\
      forall i j, i < r -> j < c -> mget B j i = mget A i j.

  (** the transpose as a function *)
  Definition mtrans (A : tensor T) : tensor T :=
    mgen (ncols A) (nrows A) (fun i j => mget A j i).

  (** A is the n x n identity *)
  Definition is_identity (n : nat) (A : tensor T) : Prop :=
    is_mat A n n /\ forall i j, i < n -> j < n -> mget A i j = if Nat.eqb i j then n1 else n0.

  (** x^T A x *)
  Definition quadform (A : tensor T) (x : nat -> T) : T :=
    bigsum (nrows A) (fun i => nmul (x i) (bigsum (ncols A) (fun j => nmul (mget A i j) (x j)))).

  (** n-mode product X x_n M: axis n of X is contracted with the columns of M *)
  Definition mode_product (X M : tensor T) (n : nat) : tensor T :=
    gen (replace n (nrows M) (shp X))
        (fun idx => bigsum (ncols M)
           (fun k => nmul (get X (replace n k idx)) (mget M (nth n idx 0) k))).

  (** X x_{n1} M1 x_{n2} M2 ... *)
  Definition mode_products (X : tensor T) (l : list (tensor T * nat)) : tensor T :=
    fold_left (fun Y p => mode_product Y (fst p) (snd p)) l X.

  (** sum_r lam_r u_r^(1) o ... o u_r^(N), with lam an R x 1 column *)
  Definition cp_tensor (R : nat) (lam : tensor T) (U : list (tensor T)) : tensor T :=
    gen (map nrows U) (fun i =>
      bigsum R (fun r => nmul (mget lam r 0)
                              (bigprod (length U) (fun k => mget (mat_at U k) (nth k i 0) r)))).

  (** sum_j G[j] prod_k U_k[i_k, j_k] *)
  Definition tucker_tensor (G : tensor T) (U : list (tensor T)) : tensor T :=
    gen (map nrows U) (fun i =>
      msum (shp G) (fun j => nmul (get G j)
                                  (bigprod (length U) (fun k => mget (mat_at U k) (nth k i 0) (nth k j 0))))).

  (** C = A B *)
  Definition matprod (A B C : tensor T) : Prop :=
    exists m k n, is_mat A m k /\ is_mat B k n /\ is_mat C m n /\
      forall i j, i < m -> j < n ->
        mget C i j = bigsum k (fun l => nmul (mget A i l) (mget B l j)).
End Objects.
