(** Model of the training drivers: CP_ALS.train (cp.py:124-177), HOOI.train
    (tucker.py:207-255), NCP_BCU.train (ncp.py:172-237), NTUCKER_BCU.train
    (ntucker.py:204-269), HOSVD.train (tucker.py:56-85), predict / full /
    train_finish, and of what the objects share: the default graph whose summaries
    merge_all collects.  Printing and the summary files are not modelled. *)

From Coq Require Import ZArith List Bool Arith.
From Verif Require Import Num Py Tensor TF Ops Types Loss Fact.
Import ListNotations.

Section Train.
  Context {T : Type} {N : Num T}.

  (** CP_Args, HOOI_Args, NCP_Args, NTUCKER_Args: the fields the loops read *)
  Record targs := mkArgs { a_tol : T; a_vi : Z; a_verbose : bool }.

  (** cp.py:148-149, tucker.py:227-228, ncp.py:199-200, ntucker.py:234-235: is this
      step a validation step (full tensor fetched, summary written)?  [step % 0]
      raises. *)
  Definition validate (args : targs) (steps step : Z) : res bool :=
    if ((step =? steps) || a_verbose args || (step =? 1))%Z%bool then Ok true
    else if (a_vi args =? 0)%Z then Raise ZeroDivisionError
    else Ok ((step mod a_vi args =? 0) && negb (a_vi args =? -1))%Z%bool.

  (** what one session run returns to Python: factors, the second published value
      (CP: lambdas, HOOI: core; None for NCP/NTucker, which publish it elsewhere),
      full tensor, metrics *)
  Record sobs := mkObs { ob_factors : list (tensor T); ob_aux : option (tensor T);
                         ob_full : tensor T; ob_met : metrics T }.

  (** public fields of the objects; [p_aux] is _lambdas (CP, NCP) or _core *)
  Record pub := mkPub { p_factors : option (list (tensor T)); p_aux : option (tensor T);
                        p_full : option (tensor T); p_finish : bool }.
  Definition pub0 : pub := mkPub None None None false.
  Definition set_finish (b : bool) (p : pub) : pub :=
    mkPub (p_factors p) (p_aux p) (p_full p) b.
  Definition set_aux (a : option (tensor T)) (p : pub) : pub :=
    mkPub (p_factors p) (match a with Some x => Some x | None => p_aux p end) (p_full p) (p_finish p).

  (** the fields assigned from one run (cp.py:152,158; tucker.py:231,237;
      ncp.py:203,210; ntucker.py:238,245): [full] only on validation steps *)
  Definition publish (v : bool) (o : sobs) (p : pub) : pub :=
    mkPub (Some (ob_factors o))
          (match ob_aux o with Some x => Some x | None => p_aux p end)
          (if v then Some (ob_full o) else p_full p)
          (p_finish p).

  (** relative change of the objective (cp.py:164 etc.) *)
  Definition relerr1 (obj obj0 : T) : T := ndiv (nabs (nsub obj obj0)) (nadd obj0 n1).

  (** the stopping test (cp.py:166-172 etc.): new nstall and whether to break *)
  Definition stall_next (args : targs) (obj obj0 : T) (nstall : nat) : nat :=
    if nltb (relerr1 obj obj0) (a_tol args) then S nstall else 0.
  Definition stop_now (args : targs) (nstall : nat) (rel : T) : bool :=
    Nat.leb 3 nstall || nltb rel (a_tol args).

  Definition hist := list (T * T).

  Section Loops.
    Context {S : Type}.
    (** sess.run of the training ops on the session's variables *)
    Variable run : S -> res (S * sobs).
    (** tf.summary.merge_all() can be evaluated with the fed placeholders *)
    Variable sum_ok : bool.
    Variable args : targs.
    Variable steps : Z.

    (** sess.run with or without the summary fetch *)
    Definition run_v (v : bool) (s : S) : res (S * sobs) :=
      if v && negb sum_ok then Raise InvalidArgument else run s.

    (** cp.py:147-172 and tucker.py:226-251: steps [step .. step+fuel-1] *)
    Fixpoint als_loop (fuel : nat) (step : Z) (s : S) (obj0 : T) (nstall : nat)
             (h : hist) (p : pub) : pub * res hist :=
      match fuel with
      | 0 => (p, Ok h)
      | Datatypes.S fuel' =>
          match validate args steps step with
          | Raise e => (p, Raise e)
          | Ok v =>
              match run_v v s with
              | Raise e => (p, Raise e)
              | Ok (s', o) =>
                  let p' := publish v o p in
                  let m := ob_met o in
                  let h' := h ++ [(m_loss m, m_rel m)] in
                  let obj0' := if (step =? 1)%Z then nadd (m_obj m) n1 else obj0 in
                  let nst := stall_next args (m_obj m) obj0' nstall in
                  if stop_now args nst (m_rel m) then (p', Ok h')
                  else als_loop fuel' (step + 1) s' obj0' nst h' p'
              end
          end
      end.

    (** ncp.py:198-231 and ntucker.py:232-265.  [pre] is NTucker's core run
        (ntucker.py:233), which publishes _core; NCP has none. *)
    Variable pre : S -> res (S * option (tensor T)).
    Variable accept reject : S -> res S.

    Fixpoint bcu_loop (fuel : nat) (step : Z) (s : S) (obj0 : T) (nstall : nat)
             (h : hist) (p : pub) : pub * res hist :=
      match fuel with
      | 0 => (p, Ok h)
      | Datatypes.S fuel' =>
          match pre s with
          | Raise e => (p, Raise e)
          | Ok (s1, core) =>
              let p1 := set_aux core p in
              match validate args steps step with
              | Raise e => (p1, Raise e)
              | Ok v =>
                  match run_v v s1 with
                  | Raise e => (p1, Raise e)
                  | Ok (s', o) =>
                      let p' := publish v o p1 in
                      let m := ob_met o in
                      let h' := h ++ [(m_loss m, m_rel m)] in
                      let obj0' := if (step =? 1)%Z then nadd (m_obj m) n1 else obj0 in
                      let nst := stall_next args (m_obj m) obj0' nstall in
                      if stop_now args nst (m_rel m) then (p', Ok h')
                      else if nltb (m_obj m) obj0' then
                        match accept s' with
                        | Raise e => (p', Raise e)
                        | Ok s'' => bcu_loop fuel' (step + 1) s'' (m_obj m) nst h' p'
                        end
                      else
                        match reject s' with
                        | Raise e => (p', Raise e)
                        | Ok s'' => bcu_loop fuel' (step + 1) s'' obj0' nst h' p'
                        end
                  end
              end
          end
      end.

    (** from sess.run(init_op) to the final print, which reads [step]
        (UnboundLocalError when the loop body never ran) *)
    Definition als_body (init : res S) (p : pub) : pub * res hist :=
      match init with
      | Raise e => (p, Raise e)
      | Ok s =>
          if (steps <=? 0)%Z then (p, Raise UnboundLocalError)
          else als_loop (Z.to_nat steps) 1 s n0 0 [] p
      end.

    (** the same for NCP/NTucker; [post] is NCP's _lambdas assignment (ncp.py:233),
        executed before the print *)
    Definition bcu_body (init : res S) (post : option (tensor T)) (p : pub) : pub * res hist :=
      match init with
      | Raise e => (p, Raise e)
      | Ok s =>
          if (steps <=? 0)%Z then (set_aux post p, Raise UnboundLocalError)
          else
            let '(p', r) := bcu_loop (Z.to_nat steps) 1 s n0 0 [] p in
            match r with
            | Ok h => (set_aux post p', Ok h)
            | Raise e => (p', Raise e)
            end
      end.
  End Loops.

  (** ** Objects *)

  (** a factorisation object: its built arguments with the identity of the
      placeholder its graph reads (None before build_model), its public fields *)
  Record fobj (A : Type) := mkObj { o_built : option (A * nat); o_pub : pub }.
  Arguments mkObj {A} o_built o_pub.
  Arguments o_built {A} f.
  Arguments o_pub {A} f.

  (** the process-wide default graph: the placeholders read by the summaries added so
      far; and the Environment's summary_path (env.py:6: None by default) *)
  Record world := mkW { w_sums : list nat; w_path : bool }.

  Section Object.
    Context {A R : Type}.
    (** exception of train on an object that was not built: sess.run(None)
        TypeError (CP_ALS, HOSVD); a missing attribute (HOOI tucker.py:216, NCP
        ncp.py:182, NTucker ntucker.py:211) *)
    Variable unbuilt : exc.
    (** train starts with self._is_train_finish = False (cp.py:125, ncp.py:173,
        ntucker.py:205, tucker.py:67; absent in HOOI.train) *)
    Variable resets : bool.
    (** graph-construction errors *)
    Variable build_chk : A -> res unit.
    (** body of train: arguments, random draw, summaries evaluable, steps *)
    Variable body : A -> R -> bool -> Z -> pub -> pub * res hist.

    (** build_model: new placeholder [id] and its summaries join the default graph *)
    Definition obj_build (w : world) (o : fobj A) (a : A) (id : nat) : world * fobj A * res unit :=
      match build_chk a with
      | Ok _ => (mkW (w_sums w ++ [id]) (w_path w), mkObj (Some (a, id)) (o_pub o), Ok tt)
      | Raise e => (w, o, Raise e)
      end.

    (** train *)
    Definition obj_train (w : world) (o : fobj A) (rnd : R) (steps : Z) : fobj A * res hist :=
      let p := if resets then set_finish false (o_pub o) else o_pub o in
      match o_built o with
      | None => (mkObj None p, Raise unbuilt)
      | Some (a, id) =>
          if negb (w_path w) then (mkObj (o_built o) p, Raise TypeError)
          else
            let sum_ok := forallb (Nat.eqb id) (w_sums w) in
            let '(p', r) := body a rnd sum_ok steps p in
            match r with
            | Ok h => (mkObj (o_built o) (set_finish true p'), Ok h)
            | Raise e => (mkObj (o_built o) p', Raise e)
            end
      end.
  End Object.

  (** ndarray.item(key) for a tuple of ints: () reads a one-element array, one int
      is a flat index, otherwise one int per axis; negative indices wrap *)
  Definition nd_item (t : tensor T) (key : list Z) : res T :=
    match key with
    | [] => match dat t with [x] => Ok x | _ => Raise ValueError end
    | [i] => pynth (dat t) i
    | _ =>
        if negb (Nat.eqb (length key) (ndims t)) then Raise ValueError
        else
          do idx <- mapM (fun p => let '(i, d) := p in
                            let j := if (i <? 0)%Z then (i + Z.of_nat d)%Z else i in
                            if ((0 <=? j) && (j <? Z.of_nat d))%Z%bool
                            then Ok (Z.to_nat j) else Raise IndexError)
                         (combine key (shp t));
          Ok (get t idx)
    end.

  (** [not self._full_tensor]: None is falsy; the truth value of an ndarray is its
      only element's (an empty one is falsy), ValueError for several elements *)
  Definition not_full (f : option (tensor T)) : res bool :=
    match f with
    | None => Ok true
    | Some t => match dat t with
                | [] => Ok true
                | [x] => Ok (neqb x n0)
                | _ => Raise ValueError
                end
    end.

  (** cp.py:46-49, ncp.py:43-46, ntucker.py:44-47 *)
  Definition predict_checked (p : pub) (key : list Z) : res T :=
    do b <- not_full (p_full p);
    if b then Raise TensorErr
    else match p_full p with Some t => nd_item t key | None => Raise TensorErr end.

  (** tucker.py:87-88, 192-193 *)
  Definition predict_plain (p : pub) (key : list Z) : res T :=
    match p_full p with Some t => nd_item t key | None => Raise AttributeError end.

  (** ** Instances *)

  (** CP_ALS: session state = factor variables; cp.py:76 random initial factors *)
  Definition cp_run (pinv : tensor T -> tensor T) (X : tensor T) (rank : nat)
             (A : list (tensor T)) : res (list (tensor T) * sobs) :=
    do o <- cp_step pinv X rank A;
    Ok (cp_A o, mkObs (cp_A o) (Some (cp_lam o)) (cp_full o) (cp_met o)).
  Definition cp_body pinv X (ar : targs * nat) (rnd : list (tensor T)) (sum_ok : bool) (steps : Z)
    : pub -> pub * res hist :=
    als_body (cp_run pinv X (snd ar)) sum_ok (fst ar) steps (Ok rnd).

  (** HOOI *)
  Definition hooi_run (svdU : tensor T -> tensor T) (X : tensor T) (ranks : list Z)
             (A : list (tensor T)) : res (list (tensor T) * sobs) :=
    do o <- hooi_step svdU X ranks A;
    Ok (ho_A o, mkObs (ho_A o) (Some (ho_core o)) (ho_full o) (ho_met o)).
  Definition hooi_body svdU X (ar : targs * list Z) (rnd : unit) (sum_ok : bool) (steps : Z)
    : pub -> pub * res hist :=
    als_body (hooi_run svdU X (snd ar)) sum_ok (fst ar) steps (hooi_init svdU X (snd ar)).

  (** NCP_BCU *)
  Definition ncp_run (svals : tensor T -> list T) (X : tensor T) (s : ncp_state T)
    : res (ncp_state T * sobs) :=
    do r <- ncp_step svals X s;
    let '(s', full, m) := r in
    Ok (s', mkObs (n_A s') None full m).
  Definition ncp_body pow svals X (ar : targs * nat) (rnd : list (tensor T)) (sum_ok : bool)
             (steps : Z) : pub -> pub * res hist :=
    bcu_body (ncp_run svals X) sum_ok (fst ar) steps (fun s => Ok (s, None))
             ncp_accept (fun s => Ok (ncp_reject s))
             (Ok (ncp_init pow X rnd)) (Some (tf_ones [1; snd ar])).

  (** NTUCKER_BCU: the core run is [pre], the factor run follows *)
  Definition nt_pre (svals : tensor T -> list T) (X : tensor T) (s : nt_state T)
    : res (nt_state T * option (tensor T)) :=
    do s' <- nt_core svals X s; Ok (s', Some (q_g s')).
  Definition nt_factors (svals : tensor T -> list T) (X : tensor T) (s0 : nt_state T)
    : res (nt_state T * sobs) :=
    do r <- nt_fact svals X s0;
    let '(s', full, m) := r in
    Ok (s', mkObs (q_A s') None full m).
  Definition nt_body pow svals X (ar : targs) (rnd : list (tensor T) * tensor T) (sum_ok : bool)
             (steps : Z) : pub -> pub * res hist :=
    bcu_body (nt_factors svals X) sum_ok ar steps (nt_pre svals X)
             nt_accept (fun s => Ok (nt_reject s))
             (Ok (nt_init pow X (fst rnd) (snd rnd))) None.

  (** HOSVD.train: one run, steps ignored, returns None (modelled as the empty
      history) *)
  Definition hosvd_body svdU X (ranks : list Z) (rnd : unit) (sum_ok : bool) (steps : Z) (p : pub)
    : pub * res hist :=
    match hosvd svdU X ranks with
    | Raise e => (p, Raise e)
    | Ok o => if sum_ok then (mkPub (Some (tu_A o)) (Some (tu_core o)) (Some (tu_full o)) (p_finish p), Ok [])
              else (p, Raise InvalidArgument)
    end.

  (** the train methods (cp.py:124-177, tucker.py:56-85 and 207-255, ncp.py:172-237,
      ntucker.py:204-269) *)
  Definition cp_train pinv X := obj_train TypeError true (cp_body pinv X).
  Definition hosvd_train svdU X := obj_train TypeError true (hosvd_body svdU X).
  Definition hooi_train svdU X := obj_train AttributeError false (hooi_body svdU X).
  Definition ncp_train pow svals X := obj_train AttributeError true (ncp_body pow svals X).
  Definition nt_train pow svals X := obj_train AttributeError true (nt_body pow svals X).
End Train.

Arguments targs T : clear implicits.
Arguments sobs T : clear implicits.
Arguments pub T : clear implicits.
Arguments hist T : clear implicits.
Arguments fobj T A : clear implicits.
Arguments mkObj {T A} o_built o_pub.
Arguments o_built {T A} f.
Arguments o_pub {T A} f.
