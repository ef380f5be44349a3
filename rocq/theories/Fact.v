(** Model of the numerical steps of tensorD/factorization/{cp,ncp,tucker,ntucker}.py:
    the values one session run computes when its kernels execute in the order the
    Python code lists them.  (Sched.v shows that every other order TensorFlow may
    choose gives the same values.)  Errors TensorFlow would report while the graph
    is built (shape mismatches) are reported by the step itself. *)

From Coq Require Import ZArith List Bool Arith.
From Verif Require Import Num Py Tensor TF Ops Types Loss.
Import ListNotations.

Section Fact.
  Context {T : Type} {N : Num T}.

  (** cp.py:102-107, ncp.py:129-134, tucker.py:168-173, ntucker.py:155-160:
      (loss, objective, relative residual) *)
  Record metrics := mkM { m_loss : T; m_obj : T; m_rel : T }.
  Definition metrics_of (X full : tensor T) : res metrics :=
    do loss <- rmse_ignore_zero X full;
    do d <- tf_bin nsub full X;
    Ok (mkM loss (nmul nhalf (nsq (tf_norm d))) (ndiv (tf_norm d) (tf_norm X))).

  (** cp.py:78-79 etc.: unfoldings along every mode *)
  Definition unfold_all (X : tensor T) : res (list (tensor T)) :=
    mapM (unfold X) (zrange (ndims X)).

  (** [A[ii]^T A[ii] for all ii] (cp.py:85,89; ncp.py:111,115; ntucker.py:126) *)
  Definition grams (A : list (tensor T)) : res (list (tensor T)) :=
    mapM (fun a => tf_matmul true false a a) A.

  (** x[mode] := v for a Python list of variables *)
  Definition upd {A} (l : list A) (mode : nat) (v : A) : list A := set_nth l mode v.

  (** ** CP_ALS *)

  (** tf.reduce_max(M, axis=0) for a matrix (cp.py:96) *)
  Definition col_max (M : tensor T) : tensor T :=
    match shp M with
    | [r; c] => mkT [c] (map (fun j => tf_max (map (fun i => mget M i j) (seq 0 r))) (seq 0 c))
    | _ => M
    end.

  (** cp.py:82-97, one pass of the loop body; [pinv] is the oracle for
      np.linalg.pinv.  Returns the updated factor list and lambda_op. *)
  Definition cp_mode (pinv : tensor T -> tensor T) (mats : list (tensor T)) (rank : nat)
             (mode : nat) (A : list (tensor T)) : res (list (tensor T) * tensor T) :=
    do AtA <- grams A;
    do kr <- khatri A (SkInt (Z.of_nat mode)) true;
    do Xm <- pynth mats (Z.of_nat mode);
    do XA <- tf_matmul false false Xm kr;
    do V <- hadamard AtA (SkInt (Z.of_nat mode));
    do nn <- tf_matmul false false XA (pinv V);
    do d <- dim Xm 0;
    do nnr <- tf_reshape nn [Z.of_nat d; Z.of_nat rank];
    let lambda := col_max nnr in
    do new <- tf_bin ndiv nn lambda;
    Ok (upd A mode new, lambda).

  Fixpoint cp_modes (pinv : tensor T -> tensor T) (mats : list (tensor T)) (rank : nat)
           (modes : list nat) (A : list (tensor T)) (lam : tensor T)
    : res (list (tensor T) * tensor T) :=
    match modes with
    | [] => Ok (A, lam)
    | m :: r => do p <- cp_mode pinv mats rank m A;
                cp_modes pinv mats rank r (fst p) (snd p)
    end.

  (** cp.py:67-107: one training step from factors A: new factors, lambda, full
      tensor, metrics *)
  Record cp_out := mkCP { cp_A : list (tensor T); cp_lam : tensor T;
                          cp_full : tensor T; cp_met : metrics }.
  Definition cp_step (pinv : tensor T -> tensor T) (X : tensor T) (rank : nat)
             (A : list (tensor T)) : res cp_out :=
    do mats <- unfold_all X;
    do p <- cp_modes pinv mats rank (seq 0 (ndims X)) A (mkT [] []);
    let '(A', lam) := p in
    do full <- kt_extract A' (mkT (shp lam ++ [1]) (dat lam));
    do m <- metrics_of X full;
    Ok (mkCP A' lam full m).

  (** ** NCP_BCU *)

  Record ncp_state := mkNCP {
    n_A : list (tensor T); n_Am : list (tensor T); n_A0 : list (tensor T);
    n_t : T; n_t0 : T; n_w : list T; n_L : list T; n_L0 : list T }.

  (** ncp.py:91-92 (and ntucker.py:93-94,101 with another exponent): scale to
      norm ||X||^(1/k) *)
  Definition norm_init (pow : T -> T -> T) (X : tensor T) (k : nat) (a : tensor T) : tensor T :=
    let na := tf_norm a in
    let p := pow (tf_norm X) (ndiv n1 (nofZ (Z.of_nat k))) in
    tf_map (fun x => nmul (ndiv x na) p) a.

  (** ncp.py:72-103 and 193-194: variables after init_op and other_init_op; [rnd] are
      the random_uniform draws *)
  Definition ncp_init (pow : T -> T -> T) (X : tensor T) (rnd : list (tensor T)) : ncp_state :=
    let order := ndims X in
    let A := map (fun r => norm_init pow X order (tf_map nrelu r)) rnd in
    mkNCP A A A n1 n1 (repeat n1 order) (repeat n1 order) (repeat n1 order).

  (** ncp.py:108-124, one pass; [svals] is the oracle for tf.svd(compute_uv=False) *)
  Definition ncp_mode (svals : tensor T -> list T) (mats : list (tensor T)) (mode : nat)
             (s : ncp_state) : res ncp_state :=
    do AtA <- grams (n_A s);
    do kr <- khatri (n_A s) (SkInt (Z.of_nat mode)) true;
    do Xm <- pynth mats (Z.of_nat mode);
    do XA <- tf_matmul false false Xm kr;
    do V <- hadamard AtA (SkInt (Z.of_nat mode));
    do Lold <- pynth (n_L s) (Z.of_nat mode);
    let Lnew := tf_max (svals V) in
    do Am <- pynth (n_Am s) (Z.of_nat mode);
    do AmV <- tf_matmul false false Am V;
    do Gn <- tf_bin nsub AmV XA;
    do upA <- tf_bin nsub Am (tf_map (fun x => ndiv x Lnew) Gn);
    Ok (mkNCP (upd (n_A s) mode (tf_map nrelu upA)) (n_Am s) (n_A0 s) (n_t s) (n_t0 s) (n_w s)
              (upd (n_L s) mode Lnew) (upd (n_L0 s) mode Lold)).

  Fixpoint ncp_modes (svals : tensor T -> list T) (mats : list (tensor T)) (modes : list nat)
           (s : ncp_state) : res ncp_state :=
    match modes with
    | [] => Ok s
    | m :: r => do s' <- ncp_mode svals mats m s; ncp_modes svals mats r s'
    end.

  (** (1 + sqrt(1 + 4 t0^2)) / 2   (ncp.py:137, ntucker.py:163) *)
  Definition t_next (t0 : T) : T :=
    ndiv (nadd n1 (nsqrt (nadd n1 (nmul (nofZ 4) (nsq t0))))) (nofZ 2).

  Definition ncp_ones (A : list (tensor T)) : res (tensor T) :=
    do a0 <- pynth A 0; do r <- dim a0 1; Ok (tf_ones [r; 1]).

  (** ncp.py:203-211: the run of factor_update_op, full_op, ..., train_op *)
  Definition ncp_step (svals : tensor T -> list T) (X : tensor T) (s : ncp_state)
    : res (ncp_state * tensor T * metrics) :=
    do mats <- unfold_all X;
    do s1 <- ncp_modes svals mats (seq 0 (ndims X)) s;
    let s2 := mkNCP (n_A s1) (n_Am s1) (n_A0 s1) (t_next (n_t0 s1)) (n_t0 s1)
                    (n_w s1) (n_L s1) (n_L0 s1) in
    do lam <- ncp_ones (n_A s2);
    do full <- kt_extract (n_A s2) lam;
    do m <- metrics_of X full;
    Ok (s2, full, m).

  (** a + w*(a - a0)   (ncp.py:147; ntucker.py:173,178) *)
  Definition extrapolate (w : T) (a a0 : tensor T) : res (tensor T) :=
    do d <- tf_bin nsub a a0; tf_bin nadd a (tf_map (nmul w) d).

  Definition map3M {A B C D} (f : A -> B -> C -> res D) (a : list A) (b : list B) (c : list C)
    : res (list D) :=
    mapM (fun p => f (fst (fst p)) (snd (fst p)) (snd p)) (combine (combine a b) c).

  (** extrapolation weights: min((t0-1)/t, sqrt(L0/L))   (ncp.py:139,146;
      ntucker.py:165,172,176) *)
  Definition weights (t0 t : T) (L0 L : list T) : list T :=
    let w := ndiv (nsub t0 n1) t in
    map (fun p => nmin w (nsqrt (ndiv (fst p) (snd p)))) (combine L0 L).

  (** ncp.py:146-153, 164, 228: train_op1, run when the objective decreased *)
  Definition ncp_accept (s : ncp_state) : res ncp_state :=
    let ws := weights (n_t0 s) (n_t s) (n_L0 s) (n_L s) in
    do Am <- map3M extrapolate ws (n_A s) (n_A0 s);
    Ok (mkNCP (n_A s) Am (n_A s) (n_t s) (n_t s) ws (n_L s) (n_L0 s)).

  (** ncp.py:144, 165, 231: train_op2, run otherwise *)
  Definition ncp_reject (s : ncp_state) : ncp_state :=
    mkNCP (n_A s) (n_A0 s) (n_A0 s) (n_t s) (n_t0 s) (n_w s) (n_L s) (n_L0 s).

  (** ** HOSVD / HOOI *)

  (** tucker.py:34-36: leading left singular vectors of every unfolding; [svdU] is
      the oracle for the U of tf.svd(full_matrices=False) *)
  Definition hosvd_factor (svdU : tensor T -> tensor T) (X : tensor T) (ranks : list Z) (n : Z)
    : res (tensor T) :=
    do u <- unfold X n;
    do r <- pynth ranks n;
    tf_columns (svdU u) r.

  Record tucker_out := mkTu { tu_A : list (tensor T); tu_core : tensor T;
                              tu_full : tensor T; tu_loss : T }.

  (** tucker.py:29-45, 80-81 *)
  Definition hosvd (svdU : tensor T -> tensor T) (X : tensor T) (ranks : list Z) : res tucker_out :=
    do A <- mapM (hosvd_factor svdU X ranks) (zrange (ndims X));
    do g <- ttm X A None true SkNone;
    do full <- tt_extract g A;
    do loss <- rmse_ignore_zero X full;
    Ok (mkTu A g full loss).

  (** assignment to a variable of shape (d, rank): shapes must agree (ValueError) *)
  Definition assign_chk (d : nat) (rank : Z) (v : tensor T) : res (tensor T) :=
    if (rank <? 0)%Z then Raise ValueError
    else if shape_eqb (shp v) [d; Z.to_nat rank] then Ok v else Raise ValueError.

  (** tucker.py:138-145, 163, 223: initial factors *)
  Definition hooi_init (svdU : tensor T -> tensor T) (X : tensor T) (ranks : list Z)
    : res (list (tensor T)) :=
    mapM (fun n => do d <- pynth (shp X) n;
                   do r <- pynth ranks n;
                   do v <- hosvd_factor svdU X ranks n;
                   assign_chk d r v) (zrange (ndims X)).

  (** tucker.py:148-158, one pass; [svdU] here is the U of tf.svd *)
  Definition hooi_mode (svdU : tensor T -> tensor T) (X : tensor T) (ranks : list Z)
             (mode : nat) (A : list (tensor T)) : res (list (tensor T)) :=
    do Y <- ttm X A None true (SkInt (Z.of_nat mode));
    do u <- unfold Y (Z.of_nat mode);
    do r <- pynth ranks (Z.of_nat mode);
    do d <- pynth (shp X) (Z.of_nat mode);
    do tmp <- tf_columns (svdU u) r;
    do v <- assign_chk d r tmp;
    Ok (upd A mode v).

  Fixpoint hooi_modes (svdU : tensor T -> tensor T) (X : tensor T) (ranks : list Z)
           (modes : list nat) (A : list (tensor T)) : res (list (tensor T)) :=
    match modes with
    | [] => Ok A
    | m :: r => do A' <- hooi_mode svdU X ranks m A; hooi_modes svdU X ranks r A'
    end.

  Record hooi_out := mkHO { ho_A : list (tensor T); ho_core : tensor T;
                            ho_full : tensor T; ho_met : metrics }.

  (** tucker.py:147-173: one training step *)
  Definition hooi_step (svdU : tensor T -> tensor T) (X : tensor T) (ranks : list Z)
             (A : list (tensor T)) : res hooi_out :=
    do A' <- hooi_modes svdU X ranks (seq 0 (ndims X)) A;
    do g <- ttm X A' None true SkNone;
    do full <- tt_extract g A';
    do m <- metrics_of X full;
    Ok (mkHO A' g full m).

  (** ** NTUCKER_BCU *)

  Record nt_state := mkNT {
    q_A : list (tensor T); q_Am : list (tensor T); q_A0 : list (tensor T);
    q_g : tensor T; q_gm : tensor T; q_g0 : tensor T;
    q_t : T; q_t0 : T; q_w : list T; q_L : list T; q_L0 : list T }.

  (** ntucker.py:73-117 and 227-228 (init_op, other_init_op); [rnd], [rndg] the
      random draws for factors and core.  Bsq and Grad_g are scratch variables that
      are only ever read through their own assignment in the same run and are not
      part of the state. *)
  Definition nt_init (pow : T -> T -> T) (X : tensor T) (rnd : list (tensor T)) (rndg : tensor T)
    : nt_state :=
    let order := ndims X in
    let A := map (fun r => norm_init pow X (order + 1) (tf_map nrelu r)) rnd in
    let g := norm_init pow X (order + 1) (tf_map nrelu rndg) in
    mkNT A A A g g g n1 n1 (repeat n1 (order + 1)) (repeat n1 (order + 1)) (repeat n1 (order + 1)).

  (** ntucker.py:126-133, 192-193, 233: the core run *)
  Definition nt_core (svals : tensor T -> list T) (X : tensor T) (s : nt_state) : res nt_state :=
    let order := ndims X in
    do AtA <- grams (q_A s);
    do Lold <- pynth (q_L s) (Z.of_nat order);
    do Lnew <- max_single_value_mul svals AtA SkNone;
    do Bsq <- ttm (q_gm s) AtA None false SkNone;
    do XA <- ttm X (q_A s) None true SkNone;
    do Grad <- tf_bin nsub Bsq XA;
    do g' <- tf_bin nsub (q_gm s) (tf_map (fun x => ndiv x Lnew) Grad);
    Ok (mkNT (q_A s) (q_Am s) (q_A0 s) (tf_map nrelu g') (q_gm s) (q_g0 s) (q_t s) (q_t0 s) (q_w s)
             (upd (q_L s) order Lnew) (upd (q_L0 s) order Lold)).

  (** ntucker.py:136-150, one pass *)
  Definition nt_mode (svals : tensor T -> list T) (mats : list (tensor T)) (mode : nat)
             (s : nt_state) : res nt_state :=
    do Y <- ttm (q_g s) (q_A s) None false (SkInt (Z.of_nat mode));
    do B <- unfold Y (Z.of_nat mode);
    do Xm <- pynth mats (Z.of_nat mode);
    do XB <- tf_matmul false true Xm B;
    do Bsq <- tf_matmul false true B B;
    do Am <- pynth (q_Am s) (Z.of_nat mode);
    do AmB <- tf_matmul false false Am Bsq;
    do Grad <- tf_bin nsub AmB XB;
    do Lold <- pynth (q_L s) (Z.of_nat mode);
    let Lnew := tf_max (svals Bsq) in
    do upA <- tf_bin nsub Am (tf_map (fun x => ndiv x Lnew) Grad);
    Ok (mkNT (upd (q_A s) mode (tf_map nrelu upA)) (q_Am s) (q_A0 s) (q_g s) (q_gm s) (q_g0 s)
             (q_t s) (q_t0 s) (q_w s) (upd (q_L s) mode Lnew) (upd (q_L0 s) mode Lold)).

  Fixpoint nt_modes (svals : tensor T -> list T) (mats : list (tensor T)) (modes : list nat)
           (s : nt_state) : res nt_state :=
    match modes with
    | [] => Ok s
    | m :: r => do s' <- nt_mode svals mats m s; nt_modes svals mats r s'
    end.

  (** ntucker.py:235-246: the factor run, after the core run.
      train_op lists L0/L updates only for modes < order-1 (line 195), but the last
      mode's A_update_op needs L_update_op[order-1], so the loop of lines 136-150 runs
      it for every mode. *)
  Definition nt_fact (svals : tensor T -> list T) (X : tensor T) (s0 : nt_state)
    : res (nt_state * tensor T * metrics) :=
    do mats <- unfold_all X;
    do s1 <- nt_modes svals mats (seq 0 (ndims X)) s0;
    let s2 := mkNT (q_A s1) (q_Am s1) (q_A0 s1) (q_g s1) (q_gm s1) (q_g0 s1)
                   (t_next (q_t0 s1)) (q_t0 s1) (q_w s1) (q_L s1) (q_L0 s1) in
    do full <- tt_extract (q_g s2) (q_A s2);
    do m <- metrics_of X full;
    Ok (s2, full, m).

  (** ntucker.py:172-182, 196-197, 262 *)
  Definition nt_accept (s : nt_state) : res nt_state :=
    let ws := weights (q_t0 s) (q_t s) (q_L0 s) (q_L s) in
    do Am <- map3M extrapolate (firstn (length (q_A s)) ws) (q_A s) (q_A0 s);
    do gm <- extrapolate (nth (length (q_A s)) ws n0) (q_g s) (q_g0 s);
    Ok (mkNT (q_A s) Am (q_A s) (q_g s) gm (q_g s) (q_t s) (q_t s) ws (q_L s) (q_L0 s)).

  (** ntucker.py:169-170, 198, 265 *)
  Definition nt_reject (s : nt_state) : nt_state :=
    mkNT (q_A s) (q_A0 s) (q_A0 s) (q_g s) (q_g0 s) (q_g0 s) (q_t s) (q_t0 s) (q_w s)
         (q_L s) (q_L0 s).
End Fact.

Arguments metrics T : clear implicits.
Arguments cp_out T : clear implicits.
Arguments ncp_state T : clear implicits.
Arguments nt_state T : clear implicits.
Arguments tucker_out T : clear implicits.
Arguments hooi_out T : clear implicits.
