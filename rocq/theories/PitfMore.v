(** Model of the rest of tensorD/base/pitf_ops_numpy.py: random matrices and samples, and
    the shrinkage functions exact_recovery does not call. *)

From Coq Require Import ZArith List Bool Arith.
From Verif Require Import Num Py Tensor TF PitfOps.
Import ListNotations.

Section PitfMore.
  Context {T : Type} {N : Num T}.

  (** pitf_ops_numpy.py:8-11, pitf_ops.py:13-46  generate; [randn k r c] is the r x c matrix
      of standard normal draws made by call k of the generator (NumPy refuses negative
      sizes) *)
  Definition generate (randn : nat -> nat -> nat -> tensor T) (k r c : nat) (rank : Z)
    : res (tensor T * tensor T) :=
    if (rank <? 0)%Z then Raise ValueError
    else Ok (randn k r (Z.to_nat rank), randn (S k) c (Z.to_nat rank)).

  (** pitf_ops_numpy.py:50-54, pitf_ops.py:135-168  sample_rule4mat (sample_num is not
      used).  [None] stands for False, which subspace does not return here. *)
  Definition sample_rule4mat (randn : nat -> nat -> nat -> tensor T) (ts : list nat) (ra rb rc : Z)
    : res (option (tensor T) * option (tensor T) * option (tensor T)) :=
    do s0 <- pynth ts 0; do s1 <- pynth ts 1;
    do ga <- generate randn 0 s0 s1 ra;
    do A <- subspace (fst ga) (snd ga) MA;
    do s2 <- pynth ts 2;
    do gb <- generate randn 2 s1 s2 rb;
    do B <- subspace (fst gb) (snd gb) MB;
    do gc <- generate randn 4 s2 s0 rc;
    do C <- subspace (fst gc) (snd gc) MC;
    Ok (A, B, C).

  (** pitf_ops_numpy.py:57-64, pitf_ops.py:171-208  sample3D_rule; [randint k h m] are the m
      integers drawn from 0 .. h-1 by call k (NumPy refuses an empty range and a negative
      count) *)
  Definition sample3D_rule (randint : nat -> nat -> nat -> list nat) (ts : list nat) (m : Z) : res sample :=
    do l1 <- pynth ts 0; do l2 <- pynth ts 1; do l3 <- pynth ts 2;
    if ((m <? 0)%Z || Nat.eqb l1 0 || Nat.eqb l2 0 || Nat.eqb l3 0)%bool then Raise ValueError
    else let n := Z.to_nat m in Ok (mkS (randint 0 l1 n) (randint 1 l2 n) (randint 2 l3 n)).

  (** pitf_ops_numpy.py:209-212  the search for the first small singular value; [is] are the
      values of i left to try.  S[i] takes Python's negative indices. *)
  Fixpoint small_search (s : list T) (tao : T) (is : list Z) (r : Z) : res Z :=
    match is with
    | [] => Ok r
    | i :: is' => do x <- pynth s i;
                  if nltb x tao then Ok (i - 1)%Z else small_search s tao is' r
    end.

  (** row j of a matrix as an index list (IndexError when there is none) *)
  Definition row_chk (A : tensor T) (j : nat) : res (list T) :=
    if Nat.ltb j (rows A) then Ok (map (fun k => mget A j k) (seq 0 (cols A))) else Raise IndexError.

  (** pitf_ops_numpy.py:215-219  the sum over j; None is the integer 0 the sum starts from.
      U and V are square (full_matrices), so the reshapes of their rows succeed. *)
  Fixpoint outer_sum (U V : tensor T) (s : list T) (tao : T) (js : list nat) (acc : option (tensor T))
    : res (option (tensor T)) :=
    match js with
    | [] => Ok acc
    | j :: js' =>
        do u <- row_chk U j;
        do v <- row_chk V j;
        do m <- tf_matmul false false (mkT [length u; 1] u) (mkT [1; length v] v);
        do x <- pynth s (Z.of_nat j);
        do p <- tf_bin nmul (scalar (nsub x tao)) m;
        do acc' <- match acc with None => Ok p | Some a => tf_bin nadd a p end;
        outer_sum U V s tao js' (Some acc')
    end.

  (** pitf_ops_numpy.py:190-223  shrinkageBorC *)
  Definition shrinkageBorC (svd : tensor T -> tensor T * list T * tensor T) (X_hat : tensor T) (tao : T) (r : Z)
    : res (option (tensor T) * Z) :=
    do c <- centralization X_hat;
    let '(U, s, V) := svd c in
    let st := (r + 1)%Z in
    do r' <- small_search s tao (map (fun k => (st + Z.of_nat k)%Z) (seq 0 (Z.to_nat (Z.of_nat (length s) - st)))) r;
    do X <- outer_sum U V s tao (seq 0 (Z.to_nat r')) None;
    Ok (X, r').

  (** pitf_ops_numpy.py:226-235  shrinkageA *)
  Definition shrinkageA (svd : tensor T -> tensor T * list T * tensor T) (X_hat : tensor T) (tao : T) (r : Z)
    : res (tensor T * Z) :=
    do xr <- shrinkageBorC svd X_hat tao r;
    let (X, r') := (xr : option (tensor T) * Z) in
    let m := rows X_hat in let n := cols X_hat in
    let gamma := ndiv (soft (lsum (dat X_hat)) tao) (nofnat (m * n)) in
    do o <- tf_matmul false false (tf_ones [m; 1]) (tf_ones [1; n]);
    do g <- tf_bin nmul (scalar gamma) o;
    do res <- match X with None => Ok g | Some x => tf_bin nadd x g end;
    Ok (res, r').
End PitfMore.
