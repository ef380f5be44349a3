(** Vocabulary for the scheduling properties: training as a succession of session runs, each
    executed by TensorFlow in any way its dependencies allow. *)

From Coq Require Import ZArith List Bool Arith.
From Verif Require Import Num Py Tensor Fact Sched Graphs.
Import ListNotations.

(** the run came to its end and the variables then hold [mem] *)
Definition leaves {V node var} {g : graph V node var} {fetch init} (E : execution g fetch init) (mem : var -> V) : Prop :=
  finished g E /\ forall v, final g E v (mem v).

(** every tensor has two axes *)
Definition matrices {T} (l : list (tensor T)) : Prop := forall M, In M l -> exists r c, shp M = [r; c].

Section Sessions.
  Context {T : Type} {N : Num T}.
  Notation memory := (var -> tensor T).

  (** contents of the variables at the beginning of a training step, the first line being
      what initialisation leaves *)

  (** cp.py:143-173 *)
  Inductive cp_session (pinv : tensor T -> tensor T) (X : tensor T) (rank : nat) (rnd : list (tensor T)) : memory -> Prop :=
  | cps_init : cp_session pinv X rank rnd (cp_vars rnd)
  | cps_step mem (E : execution (cp_graph pinv X rank) (cp_fetch X) mem) mem' :
      cp_session pinv X rank rnd mem -> leaves E mem' -> cp_session pinv X rank rnd mem'.

  (** tucker.py:223-250, from the factors [A0] the initialisation run leaves *)
  Inductive hooi_session (svdU : tensor T -> tensor T) (X : tensor T) (ranks : list Z) (A0 : list (tensor T)) : memory -> Prop :=
  | hos_init : hooi_session svdU X ranks A0 (cp_vars A0)
  | hos_step mem (E : execution (hooi_graph svdU X ranks) (hooi_fetch X) mem) mem' :
      hooi_session svdU X ranks A0 mem -> leaves E mem' -> hooi_session svdU X ranks A0 mem'.

  (** ncp.py:193-231, whichever way the objective goes *)
  Inductive ncp_session (pow : T -> T -> T) (svals : tensor T -> list T) (X : tensor T) (rnd : list (tensor T)) : memory -> Prop :=
  | ncs_init (E : execution (init_graph pow X (ndims X)) (init_fetch (ndims X)) (ncp_drawn X rnd)) mem :
      leaves E mem -> ncp_session pow svals X rnd mem
  | ncs_accept mem0 (E0 : execution (ncp_graph svals X) (ncp_fetch X) mem0)
      mem1 (E1 : execution (accept_graph (ndims X)) (accept_fetch (ndims X)) mem1) mem2 :
      ncp_session pow svals X rnd mem0 -> leaves E0 mem1 -> leaves E1 mem2 -> ncp_session pow svals X rnd mem2
  | ncs_reject mem0 (E0 : execution (ncp_graph svals X) (ncp_fetch X) mem0)
      mem1 (E1 : execution reject_graph (reject_fetch (ndims X)) mem1) mem2 :
      ncp_session pow svals X rnd mem0 -> leaves E0 mem1 -> leaves E1 mem2 -> ncp_session pow svals X rnd mem2.

  (** ntucker.py:227-265; Bsq and Grad_g start with any contents *)
  Inductive nt_session (pow : T -> T -> T) (svals : tensor T -> list T) (X : tensor T) (rnd : list (tensor T)) (rndg : tensor T)
    : memory -> Prop :=
  | nts_init mem0 (E : execution (init_graph pow X (ndims X + 1)) (init_fetch (ndims X + 1)) mem0) mem :
      nt_mem (nt_drawn_state X rnd rndg) mem0 -> leaves E mem -> nt_session pow svals X rnd rndg mem
  | nts_accept mem0 (E0 : execution (nt_core_graph svals X) nt_core_fetch mem0)
      mem1 (E1 : execution (nt_fact_graph svals X) (nt_fact_fetch X) mem1)
      mem2 (E2 : execution (accept_graph (ndims X)) (accept_fetch (ndims X + 1)) mem2) mem3 :
      nt_session pow svals X rnd rndg mem0 -> leaves E0 mem1 -> leaves E1 mem2 -> leaves E2 mem3 ->
      nt_session pow svals X rnd rndg mem3
  | nts_reject mem0 (E0 : execution (nt_core_graph svals X) nt_core_fetch mem0)
      mem1 (E1 : execution (nt_fact_graph svals X) (nt_fact_fetch X) mem1)
      mem2 (E2 : execution reject_graph (reject_fetch (ndims X + 1)) mem2) mem3 :
      nt_session pow svals X rnd rndg mem0 -> leaves E0 mem1 -> leaves E1 mem2 -> leaves E2 mem3 ->
      nt_session pow svals X rnd rndg mem3.

  (** factors after some number of successful steps *)
  Inductive als_reach (step : list (tensor T) -> res (list (tensor T))) (A0 : list (tensor T)) : list (tensor T) -> Prop :=
  | ar_start : als_reach step A0 A0
  | ar_step A A' : als_reach step A0 A -> step A = Ok A' -> als_reach step A0 A'.
End Sessions.
