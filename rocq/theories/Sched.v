(** Model of how a TensorFlow 1 session run executes a graph (sess.run in cp.py:155-163,
    ncp.py:193-231, tucker.py:223-237, ntucker.py:227-265).

    A run executes every node its fetches depend on, in any order and with any overlap that
    data and control dependencies allow.  Variables are reference variables: Assign copies
    into the variable's buffer, and a kernel that takes a variable (or the output of an Assign)
    as input sees whatever the buffer holds while the kernel runs.  A node here is one Python
    expression that TensorFlow may split into several kernels; so a node has no single starting
    point, each of its reads may happen at any time after the operations that very read waits
    for, and an Assign node may write at any time after all its inputs.  While an Assign
    writes, the buffer holds anything.

    Not modelled: graph rewriting by the runtime (constant folding, merging of equal nodes),
    several session runs at once. *)

From Coq Require Import List Arith Relations.
From Verif Require Import Py.
Import ListNotations.

Section Sched.
  Context {V node var : Type}.

  Record graph := mkG {
    (** inputs that are plain tensors *)
    g_data : node -> list node;
    (** control inputs of the node itself *)
    g_ctrl : node -> list node;
    (** variables read, each with the nodes that must have finished before the read *)
    g_reads : node -> list (var * list node);
    (** the variable an Assign node writes *)
    g_writes : node -> option var;
    (** the result, from the plain inputs and the values read *)
    g_kernel : node -> list V -> list V -> res V }.

  Variable g : graph.

  (** d has to finish before n can *)
  Definition prec (d n : node) : Prop :=
    In d (g_data g n) \/ In d (g_ctrl g n) \/ exists v l, In (v, l) (g_reads g n) /\ In d l.
  Definition before : node -> node -> Prop := clos_trans node prec.

  (** the nodes a run with these fetches executes *)
  Definition needed (fetch : list node) (n : node) : Prop :=
    exists f, In f fetch /\ (n = f \/ before n f).

  (** A run from the variable values [init], complete or interrupted at any point: the nodes
      that have run, their results, when they finished, when each read took place, when an
      Assign started to write, and the contents of the variables over time. *)
  Record execution (fetch : list node) (init : var -> V) := mkE {
    e_ran : node -> Prop;
    e_val : node -> res V;
    e_fin : node -> nat;
    e_read : node -> nat -> nat;
    e_start : node -> nat;
    e_mem : nat -> var -> V;

    e_needed : forall n, e_ran n -> needed fetch n;
    e_prec : forall n d, e_ran n -> prec d n -> e_ran d /\ is_ok (e_val d) /\ e_fin d < e_fin n;
    e_reads_after : forall n k v l d, e_ran n -> nth_error (g_reads g n) k = Some (v, l) -> In d l ->
      e_fin d < e_read n k;
    e_reads_before : forall n k, e_ran n -> k < length (g_reads g n) -> e_read n k < e_fin n;
    e_writes : forall n v, e_ran n -> g_writes g n = Some v ->
      e_start n < e_fin n /\ (forall d, prec d n -> e_fin d < e_start n) /\
      (forall k, k < length (g_reads g n) -> e_read n k < e_start n);
    (** until the first write to v starts, v holds its initial value *)
    e_mem_old : forall t v, (forall w, e_ran w -> g_writes g w = Some v -> t <= e_start w) -> e_mem t v = init v;
    (** after w finished and before another write to v starts, v holds what w wrote *)
    e_mem_new : forall t v w x, e_ran w -> g_writes g w = Some v -> e_val w = Ok x -> e_fin w <= t ->
      (forall w', e_ran w' -> g_writes g w' = Some v -> w' = w \/ e_fin w' <= e_start w \/ t <= e_start w') ->
      e_mem t v = x;
    e_result : forall n, e_ran n -> exists xs, map e_val (g_data g n) = map Ok xs /\
      e_val n = g_kernel g n xs
        (map (fun p => e_mem (e_read n (fst p)) (fst (snd p))) (combine (seq 0 (length (g_reads g n))) (g_reads g n))) }.

  (** the run came to its end without an error *)
  Definition finished {fetch init} (E : execution fetch init) : Prop :=
    forall n, needed fetch n -> e_ran _ _ E n /\ is_ok (e_val _ _ E n).

  (** fetching the output of an Assign node: the buffer is read at some time after it *)
  Definition fetched {fetch init} (E : execution fetch init) (w : node) (x : V) : Prop :=
    forall v t, g_writes g w = Some v -> e_fin _ _ E w <= t -> e_mem _ _ E t v = x.

  (** from some moment on, v holds x: the value the next run finds *)
  Definition final {fetch init} (E : execution fetch init) (v : var) (x : V) : Prop :=
    exists t0, forall t, t0 <= t -> e_mem _ _ E t v = x.
End Sched.

Arguments graph V node var : clear implicits.
Arguments e_ran {V node var g fetch init}.
Arguments e_val {V node var g fetch init}.
Arguments e_fin {V node var g fetch init}.
Arguments e_read {V node var g fetch init}.
Arguments e_start {V node var g fetch init}.
Arguments e_mem {V node var g fetch init}.
