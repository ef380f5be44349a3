(** Model of tensorD/base/pitf_ops_numpy.py, tensorD/base/pitf_ops.py,
    tensorD/factorization/pitf_numpy.py and tensorD/factorization/pitf.py.
    NumPy's matmul, broadcasting and elementwise arithmetic on these shapes agree
    with TensorFlow's and share one model (TF.v). *)

From Coq Require Import ZArith List Bool Arith.
From Verif Require Import Num Py Tensor TF.
Import ListNotations.

Section Pitf.
  Context {T : Type} {N : Num T}.

  Definition nofnat (n : nat) : T := nofZ (Z.of_nat n).

  (** a scalar as a rank-0 tensor, for broadcasting *)
  Definition scalar (x : T) : tensor T := mkT [] [x].

  Definition rows (A : tensor T) : nat := nth 0 (shp A) 0.
  Definition cols (A : tensor T) : nat := nth 1 (shp A) 0.

  (** pitf_ops_numpy.py:14-17, pitf_ops.py:49-75  centralization *)
  Definition centralization (mat : tensor T) : res (tensor T) :=
    do p <- tf_matmul false false (tf_ones [rows mat; rows mat]) mat;
    do tmp <- tf_bin ndiv p (scalar (nofnat (rows mat)));
    tf_bin nsub mat tmp.

  (** pitf_ops_numpy.py:20-47, pitf_ops.py:78-132  subspace, the random factors
      U, V of [generate] given.  [None] is the return value False. *)
  Inductive smode := MA | MB | MC | MOther.
  Definition subspace (U V : tensor T) (mode : smode) : res (option (tensor T)) :=
    do tmp <- tf_matmul false true U V;
    match mode with
    | MB | MC => do c <- centralization tmp; Ok (Some c)
    | MA =>
        let row := rows tmp in
        let col := cols tmp in
        do c <- centralization tmp;
        do s1 <- tf_matmul false false (tf_ones [1; row]) tmp;
        do s2 <- tf_matmul false false s1 (tf_ones [col; 1]);
        do o <- tf_bin nmul (tf_ones [row; 1]) (tf_ones [1; col]);
        do p <- tf_bin nmul s2 o;
        do q <- tf_bin ndiv p (scalar (nofnat (row * col)));
        do r <- tf_bin nadd c q;
        Ok (Some r)
    | MOther => Ok None
    end.

  (** pitf_ops_numpy.py:57-64, pitf_ops.py:171-208  sample3D_rule: three index
      lists of the same length (the random draw is an input of the model) *)
  Record sample := mkS { sp_a : list nat; sp_b : list nat; sp_c : list nat }.
  Definition sp_pick (s : sample) (k : nat) : list nat :=
    match k with 0 => sp_a s | 1 => sp_b s | _ => sp_c s end.

  (** X[i][j] (IndexError when out of range) *)
  Definition mget_chk (A : tensor T) (i j : nat) : res T :=
    if Nat.ltb i (rows A) && Nat.ltb j (cols A) then Ok (mget A i j) else Raise IndexError.

  (** pitf_ops_numpy.py:67-95, pitf_ops.py:211-287  Pomega_mat: the axes sampled
      and the scale for each dim; other dims: NumPy returns None, TF raises
      ValueError (both ValueError here) *)
  Definition dim_axes (d : Z) : res (nat * nat * nat) :=
    if (d =? 0)%Z then Ok (0, 1, 2) else if (d =? 1)%Z then Ok (1, 2, 0)
    else if (d =? 2)%Z then Ok (2, 0, 1) else Raise ValueError.
  Definition Pomega_mat (spl : sample) (mat : tensor T) (tshape : list nat) (m : nat) (d : Z)
    : res (list T) :=
    do ax <- dim_axes d;
    let '(r, c, o) := ax in
    do vals <- mapM (fun i => do a <- pynth (sp_pick spl r) (Z.of_nat i);
                              do b <- pynth (sp_pick spl c) (Z.of_nat i);
                              mget_chk mat a b) (seq 0 m);
    do so <- pynth tshape (Z.of_nat o);
    Ok (map (fun x => ndiv x (nsqrt (nofnat so))) vals).

  (** pitf_ops_numpy.py:98-120, pitf_ops.py:338-425  adjoint_operator: a zero
      matrix into which the samples are written one after the other (TF:
      sparse_tensor_to_dense without validation, same last-write-wins) *)
  Definition adjoint_operator (spl : sample) (y : list T) (tshape : list nat) (m : nat) (d : Z)
    : res (tensor T) :=
    do ax <- dim_axes d;
    let '(r, c, _) := ax in
    do nr <- pynth tshape (Z.of_nat r);
    do nc <- pynth tshape (Z.of_nat c);
    do ents <- mapM (fun i => do a <- pynth (sp_pick spl r) (Z.of_nat i);
                              do b <- pynth (sp_pick spl c) (Z.of_nat i);
                              do v <- pynth y (Z.of_nat i);
                              Ok ([Z.of_nat a; Z.of_nat b], v)) (seq 0 m);
    tf_sparse_to_dense [nr; nc] ents.

  (** pitf_ops_numpy.py:123-130, pitf_ops.py:428-467  Pomega_tensor *)
  Definition Pomega_tensor (spl : sample) (t : tensor T) (m : nat) : res (list T) :=
    mapM (fun i => do a <- pynth (sp_a spl) (Z.of_nat i);
                   do b <- pynth (sp_b spl) (Z.of_nat i);
                   do c <- pynth (sp_c spl) (Z.of_nat i);
                   if Nat.eqb (length (shp t)) 3 && zvalid (shp t) (map Z.of_nat [a; b; c])
                   then Ok (get t [a; b; c]) else Raise IndexError) (seq 0 m).

  Definition vadd (a b : list T) : list T := map (fun p => nadd (fst p) (snd p)) (combine a b).
  Definition vsub (a b : list T) : list T := map (fun p => nsub (fst p) (snd p)) (combine a b).
  Definition vscale (k : T) (a : list T) : list T := map (nmul k) a.
  Definition vnorm (a : list T) : T := nsqrt (lsum (map nsq a)).

  (** pitf_ops_numpy.py:133-139, pitf_ops.py:470-517  Pomega_Pair *)
  Definition Pomega_Pair (spl : sample) (X Y Z : tensor T) (tshape : list nat) (m : nat)
    : res (list T) :=
    do a <- Pomega_mat spl X tshape m 0;
    do b <- Pomega_mat spl Y tshape m 1;
    do c <- Pomega_mat spl Z tshape m 2;
    Ok (vadd (vadd a b) c).

  (** pitf_ops_numpy.py:142-150  cone_projection_operator.  [CZero] is the literal
      (0, 0), [CNone] the implicit None (only reachable with NaN). *)
  Inductive cone := CVec (x : list T) (t : T) | CZero | CNone.
  Definition cone_projection_np (x : list T) (t : T) : cone :=
    let nx := vnorm x in
    if nleb nx t then CVec x t
    else if nleb t (nopp nx) then CZero
    else if nleb (nopp nx) t && nleb t nx then
      let tmp := ndiv (nadd nx t) (nmul (nofZ 2) nx) in
      CVec (vscale tmp x) (nmul tmp nx)
    else CNone.
  (** pitf_ops.py:520-555: the branches test tf.Tensor values in Python [if], which
      TensorFlow (graph mode) rejects with TypeError *)
  Definition cone_projection_tf (x : list T) (t : T) : res cone := Raise TypeError.

  (** pitf_ops_numpy.py:153-158  SVT; [svd] is the oracle for np.linalg.svd
      (u, s, vh) resp. tf.svd (u, s, v) *)
  Definition SVT (svd : tensor T -> tensor T * list T * tensor T) (mat : tensor T) (tao : T)
    : res (tensor T * list T * tensor T) :=
    do c <- centralization mat;
    let '(u, s, v) := svd c in
    Ok (u, map (fun x => nmax n0 (nsub x tao)) s, v).

  (** the matrix with s on its diagonal *)
  Definition diag_mat (r c : nat) (s : list T) : tensor T :=
    mgen r c (fun i j => if Nat.eqb i j then nth i s n0 else n0).

  (** the mean term of the 'complicated' mode: pitf_ops_numpy.py:181-185,
      pitf_ops.py:656-663 *)
  Definition soft (delta tao : T) : T := nadd (nmax n0 (nsub delta tao)) (nmin n0 (nadd delta tao)).
  Definition mean_term (mat : tensor T) (tao : T) : res (tensor T) :=
    let r := rows mat in let c := cols mat in
    let sq := nsqrt (nofnat (r * c)) in
    do s1 <- tf_matmul false false (tf_ones [1; r]) mat;
    do s2 <- tf_matmul false false s1 (tf_ones [c; 1]);
    let delta := ndiv (mget s2 0 0) sq in
    do p <- tf_bin nmul (scalar (soft delta tao)) (tf_ones [r; c]);
    tf_bin ndiv p (scalar sq).

  Inductive shmode := Normal | Complicated.

  (** pitf_ops_numpy.py:173-186  shrink (NumPy: v is already vh) *)
  Definition shrink_np (svd : tensor T -> tensor T * list T * tensor T)
             (mat : tensor T) (tao : T) (mode : shmode) : res (tensor T) :=
    do r <- SVT svd mat tao;
    let '(u, s, v) := r in
    let sm := diag_mat (rows u) (rows v) s in
    do us <- tf_matmul false false u sm;
    do usv <- tf_matmul false false us v;
    match mode with
    | Normal => Ok usv
    | Complicated => do m <- mean_term mat tao; tf_bin nadd usv m
    end.

  (** pitf_ops.py:598-665  shrink (TensorFlow: v is V, and is not transposed) *)
  Definition shrink_tf (svd : tensor T -> tensor T * list T * tensor T)
             (mat : tensor T) (tao : T) (mode : shmode) : res (tensor T) :=
    do r <- SVT svd mat tao;
    let '(u, s, v) := r in
    let sm := diag_mat (rows mat) (cols mat) s in
    do us <- tf_matmul false false u sm;
    do usv <- tf_matmul false false us v;
    match mode with
    | Normal => Ok usv
    | Complicated => do m <- mean_term mat tao; tf_bin nadd usv m
    end.

  (** one iteration shared by pitf_numpy.py:75-115 and pitf.py:53-93: from y to
      (X, Y, Z, e, erate, loss, new y) *)
  Record iter := mkI { it_X : tensor T; it_Y : tensor T; it_Z : tensor T;
                       it_erate : T; it_loss : T; it_y : list T }.
  Definition pitf_iter
             (shrink : tensor T -> T -> shmode -> res (tensor T))
             (t : tensor T) (spl : sample) (spn : nat) (delt tao : T) (y : list T) : res iter :=
    let s := shp t in
    do s0 <- pynth s 0; do s1 <- pynth s 1; do s2 <- pynth s 2;
    do ad1 <- adjoint_operator spl y s spn 0;
    do ad2 <- adjoint_operator spl y s spn 1;
    do ad3 <- adjoint_operator spl y s spn 2;
    do Xs <- shrink ad1 tao Complicated;
    do Ys <- shrink ad2 tao Normal;
    do Zs <- shrink ad3 tao Normal;
    do X <- tf_bin ndiv Xs (scalar (nsqrt (nofnat s2)));
    do Y <- tf_bin ndiv Ys (scalar (nsqrt (nofnat s0)));
    do Z <- tf_bin ndiv Zs (scalar (nsqrt (nofnat s1)));
    do e1 <- Pomega_tensor spl t spn;
    do e2 <- Pomega_Pair spl X Y Z s spn;
    let e := vsub e1 e2 in
    Ok (mkI X Y Z (ndiv (vnorm e) (vnorm e1))
            (nsqrt (ndiv (lsum (map nsq e)) (nofnat spn)))
            (vadd y (vscale delt e))).

  (** pitf_numpy.py:46-47 and pitf.py:41-45: scaled step size and threshold *)
  Definition pitf_delt (delt0 : T) (spn : nat) (s : list nat) : T :=
    ndiv (nmul delt0 (nofnat spn)) (nsqrt (nofnat (prod s))).
  Definition pitf_tao (tao0 : T) (s : list nat) : T := nmul tao0 (nsqrt (nofnat (prod s))).

  (** pitf_numpy.py:73-122: the loop; one fixed sample list *)
  Fixpoint np_loop (shrink : tensor T -> T -> shmode -> res (tensor T))
           (t : tensor T) (spl : sample) (spn : nat) (delt tao : T)
           (y : list T) (n : nat) : res (list iter) :=
    match n with
    | 0 => Ok []
    | S n' => do it <- pitf_iter shrink t spl spn delt tao y;
              do r <- np_loop shrink t spl spn delt tao (it_y it) n';
              Ok (it :: r)
    end.

  (** pitf_numpy.py:37-129  exact_recovery.  The degrees of freedom printed at line
      67 divide by fd (ZeroDivisionError when it is 0); with no iteration X is
      unbound at line 129. Files np_e2.txt, np_y.txt, np_X.txt and printing are not
      modelled. *)
  Definition exact_recovery (svd : tensor T -> tensor T * list T * tensor T)
             (t : tensor T) (spl : sample) (rank : Z) (delt0 tao0 : T) (spn : nat) (steps : Z)
    : res (list T * iter * list nat * list T * list T) :=
    match shp t with
    | [s0; s1; s2] =>
        let z := Z.of_nat in
        let fd := (rank * (z s0 + z s1 - rank) + rank * (z s1 + z s2 - rank)
                   + rank * (z s2 + z s0 - rank))%Z in
        if (fd =? 0)%Z then Raise ZeroDivisionError
        else
          do its <- np_loop (shrink_np svd) t spl spn (pitf_delt delt0 spn (shp t))
                            (pitf_tao tao0 (shp t)) (repeat n0 spn) (Z.to_nat steps);
          match rev its with
          | [] => Raise UnboundLocalError
          | l :: _ => Ok (it_y l, l, seq 0 (length its), map it_erate its, map it_loss its)
          end
    | _ => Raise IndexError
    end.

  (** pitf.py:131-146, the runs: tf.random_uniform is re-evaluated by every sess.run,
      so step k sees its own draw [spls k].  The iterations made, and the exception
      that ended the loop early if any. *)
  Fixpoint tf_loop (shrink : tensor T -> T -> shmode -> res (tensor T))
           (t : tensor T) (spls : nat -> sample) (spn : nat) (delt tao : T)
           (y : list T) (k n : nat) : list iter * option exc :=
    match n with
    | 0 => ([], None)
    | S n' => match pitf_iter shrink t (spls k) spn delt tao y with
              | Raise e => ([], Some e)
              | Ok it => let (r, x) := tf_loop shrink t spls spn delt tao (it_y it) (S k) n' in
                         (it :: r, x)
              end
    end.

  (** the fields of a PITF object that train or full use (pitf.py:22-36) *)
  Record pitf_obj := mkPO { po_full : option (tensor T); po_vec : option (list T);
                            po_finish : option bool }.
  Definition pitf_fresh : pitf_obj := mkPO None None None.

  (** pitf.py:115-153  train of a built model: new object state and outcome (train
      returns nothing).  y is reset by init_op; _sample_vector is stored at every
      step; step % 0 fails at step 2 when there is a third step; with no step loss_v is
      unbound at the final print.  Summaries (merge_all, FileWriter), files and
      printing are not modelled. *)
  Definition pitf_train (svd : tensor T -> tensor T * list T * tensor T)
             (t : tensor T) (spls : nat -> sample) (delt0 tao0 : T) (spn : nat)
             (vi : Z) (steps : Z) (o : pitf_obj) : pitf_obj * res unit :=
    let cut := ((vi =? 0) && (2 <? steps))%Z%bool in
    let n := if cut then 1 else Z.to_nat steps in
    let (its, x) := tf_loop (shrink_tf svd) t spls spn (pitf_delt delt0 spn (shp t))
                            (pitf_tao tao0 (shp t)) (repeat n0 spn) 1 n in
    let o' := match rev its with [] => o | l :: _ => mkPO (po_full o) (Some (it_y l)) (po_finish o) end in
    match x with
    | Some e => (o', Raise e)
    | None => if cut then (o', Raise ZeroDivisionError)
              else if (steps <=? 0)%Z then (o', Raise UnboundLocalError)
              else (mkPO (po_full o') (po_vec o') (Some true), Ok tt)
    end.

  (** pitf.py:109-110, pitf_numpy.py:34-35  full() *)
  Definition pitf_full (o : pitf_obj) : option (tensor T) := po_full o.

  (** pitf_numpy.py:37-129 on the object: exact_recovery stores nothing in it *)
  Definition np_recover (svd : tensor T -> tensor T * list T * tensor T)
             (t : tensor T) (spl : sample) (rank : Z) (delt0 tao0 : T) (spn : nat) (steps : Z)
             (o : pitf_obj) : pitf_obj * res (list T * iter * list nat * list T * list T) :=
    (o, exact_recovery svd t spl rank delt0 tao0 spn steps).
End Pitf.

Arguments sample : clear implicits.
Arguments cone T : clear implicits.
Arguments iter T : clear implicits.
Arguments pitf_obj T : clear implicits.
