(** Exact real arithmetic with undefined results (C104): a division by zero, the root of a
    negative number and every operation on an undefined number are undefined, comparisons
    with an undefined number are false - as for the NaN of the machine.  Coq's own division
    gives x / 0 = 0, which the program never sees. *)

From Coq Require Import ZArith List Bool Arith Reals.
From Verif Require Import Num Py Tensor Fact Train Spec SpecR SpecCp SpecBcu SpecScale.
Import ListNotations.
Local Open Scope R_scope.

Definition xreal := option R.
Definition x2 (f : R -> R -> xreal) (a b : xreal) : xreal :=
  match a, b with Some x, Some y => f x y | _, _ => None end.
Definition x1 (f : R -> xreal) (a : xreal) : xreal := match a with Some x => f x | None => None end.
Definition xcmp (f : R -> R -> bool) (a b : xreal) : bool := match a, b with Some x, Some y => f x y | _, _ => false end.
Definition NumX : Num xreal := {|
  n0 := Some 0; n1 := Some 1;
  nadd := x2 (fun x y => Some (x + y)); nsub := x2 (fun x y => Some (x - y)); nmul := x2 (fun x y => Some (x * y));
  ndiv := x2 (fun x y => if Req_EM_T y 0 then None else Some (x / y));
  nopp := x1 (fun x => Some (- x));
  nsqrt := x1 (fun x => if Rlt_dec x 0 then None else Some (sqrt x));
  nabs := x1 (fun x => Some (Rabs x));
  nltb := xcmp (fun x y => if Rlt_dec x y then true else false);
  neqb := xcmp (fun x y => if Req_EM_T x y then true else false);
  nofZ := fun z => Some (IZR z) |}.

(** the defined numbers *)
Definition def (t : tensor R) : tensor xreal := mkT (shp t) (map Some (dat t)).
Definition def_metrics (m : metrics R) : metrics xreal := mkM (Some (m_loss m)) (Some (m_obj m)) (Some (m_rel m)).
Definition def_args (a : targs R) : targs xreal := mkArgs (Some (a_tol a)) (a_vi a) (a_verbose a).
Definition def_pub (p : pub R) : pub xreal :=
  mkPub (omap (map def) (p_factors p)) (omap def (p_aux p)) (omap def (p_full p)) (p_finish p).
Definition def_obj {A B} (f : A -> B) (o : fobj R A) : fobj xreal B :=
  mkObj (omap (fun x => (f (fst x), snd x)) (o_built o)) (def_pub (o_pub o)).
Definition def_hist (h : hist R) : hist xreal := map (fun e => (Some (fst e), Some (snd e))) h.
Definition def_outcome {A B} (f : A -> B) (x : fobj R A * res (hist R)) : fobj xreal B * res (hist xreal) :=
  (def_obj f (fst x), rmap def_hist (snd x)).
Definition def_ncp (s : ncp_state R) : ncp_state xreal :=
  mkNCP (map def (n_A s)) (map def (n_Am s)) (map def (n_A0 s)) (Some (n_t s)) (Some (n_t0 s)) (map Some (n_w s)) (map Some (n_L s)) (map Some (n_L0 s)).
Definition def_nt (s : nt_state R) : nt_state xreal :=
  mkNT (map def (q_A s)) (map def (q_Am s)) (map def (q_A0 s)) (def (q_g s)) (def (q_gm s)) (def (q_g0 s)) (Some (q_t s)) (Some (q_t0 s)) (map Some (q_w s)) (map Some (q_L s)) (map Some (q_L0 s)).

(** a library routine gives the same on defined matrices *)
Definition same_routine (f : tensor R -> tensor R) (fX : tensor xreal -> tensor xreal) : Prop := forall M, fX (def M) = def (f M).
Definition same_values (f : tensor R -> list R) (fX : tensor xreal -> list xreal) : Prop := forall M, fX (def M) = map Some (f M).
Definition same_pow (f : R -> R -> R) (fX : xreal -> xreal -> xreal) : Prop := forall x y, fX (Some x) (Some y) = Some (f x y).
Definition def_cp (o : cp_out R) : cp_out xreal := mkCP (map def (cp_A o)) (def (cp_lam o)) (def (cp_full o)) (def_metrics (cp_met o)).
Definition def_hooi (o : hooi_out R) : hooi_out xreal := mkHO (map def (ho_A o)) (def (ho_core o)) (def (ho_full o)) (def_metrics (ho_met o)).

(** ** what excludes every division by zero *)
(** the data have a non-zero entry *)
Definition some_entry (X : tensor R) : Prop := exists x, In x (dat X) /\ x <> 0.
(** all step sizes are positive *)
Definition pos (l : list R) : Prop := Forall (fun x => 0 < x) l.
(** a CP sweep that succeeds and divides by non-zero column maxima only *)
Definition clean_sweep (pinv : tensor R -> tensor R) (X : tensor R) (r : nat) (A : list (tensor R)) : Prop :=
  exists o, cp_step pinv X r A = Ok o /\
    forall n q v, (n < ndims X)%nat -> (q < r)%nat -> column_max (als_solution pinv X r (mixed n (cp_A o) A) n) q v -> v <> 0.

(** the states at the beginning of step k + 1 *)
Inductive als_after {T} (step : list (tensor T) -> res (list (tensor T))) (A0 : list (tensor T)) : nat -> list (tensor T) -> Prop :=
| aa_start : als_after step A0 0 A0
| aa_step k A A' : als_after step A0 k A -> step A = Ok A' -> als_after step A0 (S k) A'.
Inductive bcu_after {T St} (pre : St -> res (St * option (tensor T))) (run : St -> res (St * sobs T)) (accept reject : St -> res St) (s0 : St) : nat -> St -> Prop :=
| ba_start : bcu_after pre run accept reject s0 0 s0
| ba_accept k s s1 c s2 o s3 : bcu_after pre run accept reject s0 k s -> pre s = Ok (s1, c) -> run s1 = Ok (s2, o) -> accept s2 = Ok s3 -> bcu_after pre run accept reject s0 (S k) s3
| ba_reject k s s1 c s2 o s3 : bcu_after pre run accept reject s0 k s -> pre s = Ok (s1, c) -> run s1 = Ok (s2, o) -> reject s2 = Ok s3 -> bcu_after pre run accept reject s0 (S k) s3.
(** a step of NCP_BCU or NTUCKER_BCU that succeeds with positive step sizes *)
Definition clean_ncp (svals : tensor R -> list R) (X : tensor R) (s : ncp_state R) : Prop :=
  exists s2 full m, ncp_step svals X s = Ok (s2, full, m) /\ pos (n_L s2).
Definition clean_nt (svals : tensor R -> list R) (X : tensor R) (s : nt_state R) : Prop :=
  exists s1 s2 full m, nt_core svals X s = Ok s1 /\ nt_fact svals X s1 = Ok (s2, full, m) /\ pos (q_L s2).
