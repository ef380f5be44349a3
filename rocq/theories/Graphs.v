(** The graphs CP_ALS, HOOI, NCP_BCU and NTUCKER_BCU build, and the fetches of their session
    runs.  One node per Python expression; the mode loops are indexed by mode. *)

From Coq Require Import ZArith List Bool Arith.
From Verif Require Import Num Py Tensor TF Ops Types Loss Fact Sched.
Import ListNotations.

(** The variables: A, Am, A0, t, t0, wA, L, L0 and ntucker.py's Bsq, Grad_g.  In NTUCKER_BCU
    number [order] of A, Am, A0 stands for the core g, gm, g0 (as it does in the code for wA, L, L0). *)
Inductive var := VA (i : nat) | VAm (i : nat) | VA0 (i : nat) | Vt | Vt0 | Vw (i : nat) | VL (i : nat) | VL0 (i : nat)
  | VBsq | VGrad.

Section Graphs.
  Context {T : Type} {N : Num T}.
  Notation ten := (tensor T).

  (** a scalar *)
  Definition scl (x : T) : ten := mkT [] [x].
  Definition unscl (t : ten) : T := nth 0 (dat t) n0.

  (** the graph was not built this way *)
  Definition bad : res ten := Raise TypeError.

  (** cp.py:102-107, ncp.py:129-134, tucker.py:168-173, ntucker.py:155-160 *)
  Definition k_loss (X full : ten) : res ten := do l <- rmse_ignore_zero X full; Ok (scl l).
  Definition k_rel (X full : ten) : res ten :=
    do d <- tf_bin nsub full X; Ok (scl (ndiv (tf_norm d) (tf_norm X))).
  Definition k_obj (X full : ten) : res ten :=
    do d <- tf_bin nsub full X; Ok (scl (nmul nhalf (nsq (tf_norm d)))).

  (** the nodes [tf.control_dependencies([op[mode-1]])] waits for; none for mode 0 *)
  Definition previous {A} (op : nat -> A) (mode : nat) : list A :=
    match mode with 0 => [] | S p => [op p] end.

  (** A with entry [mode] skipped *)
  Definition skipping {A} (order mode : nat) (f : nat -> A) : list A :=
    skip_ (map f (seq 0 order)) (SkInt (Z.of_nat mode)).

  (** ** CP_ALS (cp.py:67-107) *)

  Inductive cpn := CUnf (m : nat) | CGram (m i : nat) | CKhat (m : nat) | CXA (m : nat) | CHad (m : nat) | CPinv (m : nat)
    | CNN (m : nat) | CLam (m : nat) | CUp (m : nat) | CFull | CLoss | CObj | CRel.

  Definition cp_graph (pinv : ten -> ten) (X : ten) (rank : nat) : graph ten cpn var :=
    let order := ndims X in
    mkG
      (fun n => match n with
        | CXA m => [CUnf m; CKhat m]                                       (* 86, 90 *)
        | CHad m => skipping order m (CGram m)                             (* 92 *)
        | CPinv m => [CHad m]                                              (* 93 *)
        | CNN m => [CXA m; CPinv m]                                        (* 93-94 *)
        | CLam m => [CNN m]                                                (* 96 *)
        | CUp m => [CNN m; CLam m]                                         (* 97 *)
        | CFull => [CLam (order - 1)]                                      (* 100-101 *)
        | CLoss | CObj | CRel => [CFull]
        | CUnf _ | CGram _ _ | CKhat _ => [] end)
      (fun n => match n with
        | CGram m _ | CKhat m | CXA m => previous CUp m                    (* 84 *)
        | _ => [] end)
      (fun n => match n with
        | CGram m i => [(VA i, previous CUp m); (VA i, previous CUp m)]    (* 85, 89 *)
        | CKhat m => rev (skipping order m (fun i => (VA i, previous CUp m)))  (* 86, 90 *)
        | CFull => map (fun i => (VA i, [CUp i])) (seq 0 order)            (* 100-101 *)
        | _ => [] end)
      (fun n => match n with CUp m => Some (VA m) | _ => None end)         (* 97 *)
      (fun n xs rs => match n, xs, rs with
        | CUnf m, [], [] => unfold X (Z.of_nat m)                          (* 79 *)
        | CGram _ _, [], [a; b] => tf_matmul true false a b
        | CKhat _, [], _ => khatri rs SkNone false
        | CXA _, [u; k], [] => tf_matmul false false u k
        | CHad _, _, [] => hadamard xs SkNone
        | CPinv _, [v], [] => Ok (pinv v)
        | CNN _, [a; p], [] => tf_matmul false false a p
        | CLam m, [a], [] =>
            do d <- pynth (shp X) (Z.of_nat m);
            do r <- tf_reshape a [Z.of_nat d; Z.of_nat rank]; Ok (col_max r)
        | CUp _, [a; l], [] => tf_bin ndiv a l
        | CFull, [l], _ => kt_extract rs (mkT (shp l ++ [1]) (dat l))
        | CLoss, [f], [] => k_loss X f
        | CObj, [f], [] => k_obj X f
        | CRel, [f], [] => k_rel X f
        | _, _, _ => bad end).

  (** cp.py:152-159: factor_update_op, lambda_op, full_op, loss_op, obj_op, rel_res_op.  (sum_op only adds
      copies of the loss and the relative residual.) *)
  Definition cp_fetch (X : ten) : list cpn :=
    map CUp (seq 0 (ndims X)) ++ [CLam (ndims X - 1); CFull; CLoss; CObj; CRel].

  Definition cp_vars (A : list ten) (v : var) : ten :=
    match v with VA i => nth i A (mkT [] []) | _ => mkT [] [] end.

  (** ** HOOI (tucker.py:147-173) *)

  Inductive hon := HY (m : nat) | HSvd (m : nat) | HUp (m : nat) | HCore | HFull | HLoss | HObj | HRel.

  Definition hooi_graph (svdU : ten -> ten) (X : ten) (ranks : list Z) : graph ten hon var :=
    let order := ndims X in
    mkG
      (fun n => match n with
        | HSvd m => [HY m]                                                 (* 157 *)
        | HUp m => [HSvd m]                                                (* 158 *)
        | HFull => [HCore]                                                 (* 166-167 *)
        | HLoss | HObj | HRel => [HFull]
        | HY _ | HCore => [] end)
      (fun n => match n with HY m => previous HUp m | _ => [] end)         (* 150 *)
      (fun n => match n with
        | HY m => skipping order m (fun i => (VA i, previous HUp m))       (* 152, 155 *)
        | HCore | HFull => map (fun i => (VA i, [HUp i])) (seq 0 order)    (* 161, 166-167 *)
        | _ => [] end)
      (fun n => match n with HUp m => Some (VA m) | _ => None end)
      (fun n xs rs => match n, xs, rs with
        | HY m, [], _ =>
            (* ttm skips entry m of its list, so what stands there is irrelevant *)
            ttm X (firstn m rs ++ [mkT [] []] ++ skipn m rs) None true (SkInt (Z.of_nat m))
        | HSvd m, [y], [] => do u <- unfold y (Z.of_nat m); Ok (svdU u)
        | HUp m, [u], [] =>
            do r <- pynth ranks (Z.of_nat m);
            do d <- pynth (shp X) (Z.of_nat m);
            do c <- tf_columns u r; assign_chk d r c
        | HCore, [], _ => ttm X rs None true SkNone
        | HFull, [g], _ => tt_extract g rs
        | HLoss, [f], [] => k_loss X f
        | HObj, [f], [] => k_obj X f
        | HRel, [f], [] => k_rel X f
        | _, _, _ => bad end).

  (** tucker.py:231-238 *)
  Definition hooi_fetch (X : ten) : list hon :=
    map HUp (seq 0 (ndims X)) ++ [HCore; HFull; HLoss; HObj; HRel].

  (** ** NCP_BCU, a training step (ncp.py:105-137) *)

  Inductive ncn := NUnf (m : nat) | NGram (m i : nat) | NKhat (m : nat) | NXA (m : nat) | NHad (m : nat) | NL0 (m : nat)
    | NL (m : nat) | NG (m : nat) | NA (m : nat) | NFull | NLoss | NObj | NRel | NT.

  Definition ncp_graph (svals : ten -> list T) (X : ten) : graph ten ncn var :=
    let order := ndims X in
    mkG
      (fun n => match n with
        | NXA m => [NUnf m; NKhat m]                                       (* 113, 116 *)
        | NHad m => skipping order m (NGram m)                             (* 118 *)
        | NL m => [NHad m]                                                 (* 121 *)
        | NG m => [NHad m; NXA m]                                          (* 122 *)
        | NA m => [NG m]                                                   (* 124 *)
        | NLoss | NObj | NRel => [NFull]
        | _ => [] end)
      (fun n => match n with
        | NGram m _ | NKhat m | NXA m => previous NA m                     (* 110 *)
        | NL m => [NL0 m]                                                  (* 120 *)
        | _ => [] end)
      (fun n => match n with
        | NGram m i => [(VA i, previous NA m); (VA i, previous NA m)]      (* 111, 115 *)
        | NKhat m => rev (skipping order m (fun i => (VA i, previous NA m)))
        | NL0 m => [(VL m, [])]                                            (* 119 *)
        | NG m => [(VAm m, [])]                                            (* 122 *)
        | NA m => [(VAm m, []); (VL m, [NL m])]                            (* 124 *)
        | NFull => map (fun i => (VA i, [NA i])) (seq 0 order)             (* 127-128 *)
        | NT => [(Vt0, [])]                                                (* 137 *)
        | _ => [] end)
      (fun n => match n with
        | NL0 m => Some (VL0 m) | NL m => Some (VL m) | NA m => Some (VA m) | NT => Some Vt
        | _ => None end)
      (fun n xs rs => match n, xs, rs with
        | NUnf m, [], [] => unfold X (Z.of_nat m)
        | NGram _ _, [], [a; b] => tf_matmul true false a b
        | NKhat _, [], _ => khatri rs SkNone false
        | NXA _, [u; k], [] => tf_matmul false false u k
        | NHad _, _, [] => hadamard xs SkNone
        | NL0 _, [], [l] => Ok l
        | NL _, [v], [] => Ok (scl (tf_max (svals v)))
        | NG _, [v; xa], [am] => do p <- tf_matmul false false am v; tf_bin nsub p xa
        | NA _, [g], [am; l] =>
            do u <- tf_bin nsub am (tf_map (fun x => ndiv x (unscl l)) g); Ok (tf_map nrelu u)
        | NFull, [], _ => do lam <- ncp_ones rs; kt_extract rs lam
        | NLoss, [f], [] => k_loss X f
        | NObj, [f], [] => k_obj X f
        | NRel, [f], [] => k_rel X f
        | NT, [], [t0] => Ok (scl (t_next (unscl t0)))
        | _, _, _ => bad end).

  (** ncp.py:163, 203-211: factor_update_op, full_op, loss_op, obj_op, rel_res_op, train_op *)
  Definition ncp_fetch (X : ten) : list ncn :=
    map NA (seq 0 (ndims X)) ++ [NFull; NLoss; NObj; NRel] ++
    map NL (seq 0 (ndims X)) ++ map NL0 (seq 0 (ndims X)) ++ [NT].

  Definition ncp_vars (s : ncp_state T) (v : var) : ten :=
    match v with
    | VA i => nth i (n_A s) (mkT [] [])
    | VAm i => nth i (n_Am s) (mkT [] [])
    | VA0 i => nth i (n_A0 s) (mkT [] [])
    | Vt => scl (n_t s)
    | Vt0 => scl (n_t0 s)
    | Vw i => scl (nth i (n_w s) n0)
    | VL i => scl (nth i (n_L s) n0)
    | VL0 i => scl (nth i (n_L0 s) n0)
    | VBsq | VGrad => mkT [] []
    end.

  (** one of everything per mode (ncp.py:73-103) *)
  Definition ncp_sized (order : nat) (s : ncp_state T) : Prop :=
    length (n_A s) = order /\ length (n_Am s) = order /\ length (n_A0 s) = order /\
    length (n_w s) = order /\ length (n_L s) = order /\ length (n_L0 s) = order.

  (** ** Update groups of NCP_BCU and NTUCKER_BCU

      [k] is the number of triples (A, Am, A0): order for NCP_BCU, order + 1 for NTUCKER_BCU. *)

  (** ncp.py:138-153, 164; ntucker.py:164-182, 196-197: train_op1 *)
  Inductive acn := EW | EwA (m : nat) | EAm (m : nat) | EA0 (m : nat) | ET0.

  Definition accept_graph (order : nat) : graph ten acn var :=
    mkG
      (fun n => match n with EwA _ => [EW] | _ => [] end)
      (fun n => match n with
        | EA0 m => [EAm m]                                                 (* ncp.py:148; ntucker.py:174, 179 *)
        | ET0 => [EAm (order - 1)]                                         (* ncp.py:152; ntucker.py:181 *)
        | _ => [] end)
      (fun n => match n with
        | EW => [(Vt0, []); (Vt, [])]                                      (* ncp.py:139; ntucker.py:165 *)
        | EwA m => [(VL0 m, []); (VL m, [])]                               (* ncp.py:146; ntucker.py:172, 176 *)
        | EAm m => [(VA m, []); (Vw m, [EwA m]); (VA m, []); (VA0 m, [])]  (* ncp.py:147; ntucker.py:173, 178 *)
        | EA0 m => [(VA m, [])]                                            (* ncp.py:149; ntucker.py:175, 180 *)
        | ET0 => [(Vt, [])]                                                (* ncp.py:153; ntucker.py:182 *)
        end)
      (fun n => match n with
        | EW => None | EwA m => Some (Vw m) | EAm m => Some (VAm m) | EA0 m => Some (VA0 m) | ET0 => Some Vt0 end)
      (fun n xs rs => match n, xs, rs with
        | EW, [], [t0; t] => Ok (scl (ndiv (nsub (unscl t0) n1) (unscl t)))
        | EwA _, [w], [l0; l] => Ok (scl (nmin (unscl w) (nsqrt (ndiv (unscl l0) (unscl l)))))
        | EAm _, [], [a; w; a'; a0] =>
            do d <- tf_bin nsub a' a0; tf_bin nadd a (tf_map (nmul (unscl w)) d)
        | EA0 _, [], [a] => Ok a
        | ET0, [], [t] => Ok t
        | _, _, _ => bad end).

  Definition accept_fetch (k : nat) : list acn :=
    map EwA (seq 0 k) ++ map EAm (seq 0 k) ++ map EA0 (seq 0 k) ++ [ET0].

  (** ncp.py:144, 165; ntucker.py:169-170, 198: train_op2.  Node m writes Am[m]. *)
  Definition reject_graph : graph ten nat var :=
    mkG (fun _ => []) (fun _ => []) (fun m => [(VA0 m, [])]) (fun m => Some (VAm m))
        (fun _ xs rs => match xs, rs with [], [a] => Ok a | _, _ => bad end).

  Definition reject_fetch (k : nat) : list nat := seq 0 k.

  (** ncp.py:86-94, 162; ntucker.py:88-109, 191: other_init_op *)
  Inductive inn := IA (m : nat) | IA0 (m : nat) | IAm (m : nat).

  Definition init_graph (pow : T -> T -> T) (X : ten) (k : nat) : graph ten inn var :=
    mkG (fun _ => []) (fun _ => [])
      (fun n => match n with
        | IA m => [(VA m, []); (VA m, [])]
        | IA0 m | IAm m => [(VA m, [IA m])] end)
      (fun n => match n with IA m => Some (VA m) | IA0 m => Some (VA0 m) | IAm m => Some (VAm m) end)
      (fun n xs rs => match n, xs, rs with
        | IA _, [], [a; b] =>
            Ok (tf_map (fun x => nmul (ndiv x (tf_norm b)) (pow (tf_norm X) (ndiv n1 (nofZ (Z.of_nat k))))) a)
        | IA0 _, [], [a] | IAm _, [], [a] => Ok a
        | _, _, _ => bad end).

  Definition init_fetch (k : nat) : list inn := map IA (seq 0 k) ++ map IAm (seq 0 k) ++ map IA0 (seq 0 k).

  (** the variables after init_op (ncp.py:73-101): random factors, everything else constant *)
  Definition ncp_drawn (X : ten) (rnd : list ten) : var -> ten :=
    let zeros := map (fun r => tf_map (fun _ => n0) r) rnd in
    ncp_vars (mkNCP (map (tf_map nrelu) rnd) zeros zeros n1 n1 (repeat n1 (ndims X)) (repeat n1 (ndims X)) (repeat n1 (ndims X))).

  (** ** NTUCKER_BCU *)

  Definition nt_vars (s : nt_state T) (v : var) : ten :=
    match v with
    | VA i => nth i (q_A s ++ [q_g s]) (mkT [] [])
    | VAm i => nth i (q_Am s ++ [q_gm s]) (mkT [] [])
    | VA0 i => nth i (q_A0 s ++ [q_g0 s]) (mkT [] [])
    | Vt => scl (q_t s)
    | Vt0 => scl (q_t0 s)
    | Vw i => scl (nth i (q_w s) n0)
    | VL i => scl (nth i (q_L s) n0)
    | VL0 i => scl (nth i (q_L0 s) n0)
    | VBsq | VGrad => mkT [] []
    end.

  (** ntucker.py:73-117 *)
  Definition nt_sized (order : nat) (s : nt_state T) : Prop :=
    length (q_A s) = order /\ length (q_Am s) = order /\ length (q_A0 s) = order /\
    length (q_w s) = order + 1 /\ length (q_L s) = order + 1 /\ length (q_L0 s) = order + 1.

  (** memory holding state [s]; the scratch variables Bsq and Grad_g may hold anything *)
  Definition nt_mem (s : nt_state T) (mem : var -> ten) : Prop :=
    forall v, v <> VBsq -> v <> VGrad -> mem v = nt_vars s v.

  (** after init_op (ntucker.py:75-117) *)
  Definition nt_drawn_state (X : ten) (rnd : list ten) (rndg : ten) : nt_state T :=
    let zeros := map (fun r => tf_map (fun _ => n0) r) rnd in
    let k := ndims X + 1 in
    mkNT (map (tf_map nrelu) rnd) zeros zeros (tf_map nrelu rndg) (tf_map (fun _ => n0) rndg) (tf_map (fun _ => n0) rndg)
         n1 n1 (repeat n1 k) (repeat n1 k) (repeat n1 k).

  (** the core run (ntucker.py:126-133, 192-193, 233) *)
  Inductive ntc := GGram (i : nat) | GL0 | GL | GBsq | GTtm | GGrad | GUp.

  Definition nt_core_graph (svals : ten -> list T) (X : ten) : graph ten ntc var :=
    let order := ndims X in
    mkG
      (fun n => match n with
        | GL | GBsq => map GGram (seq 0 order)                             (* 130, 131 *)
        | GGrad => [GTtm]                                                  (* 132 *)
        | _ => [] end)
      (fun n => match n with GL => [GL0] | _ => [] end)                    (* 129 *)
      (fun n => match n with
        | GGram i => [(VA i, []); (VA i, [])]                              (* 126 *)
        | GL0 => [(VL order, [])]                                          (* 128 *)
        | GBsq => [(VAm order, [])]                                        (* 131 *)
        | GTtm => map (fun i => (VA i, [])) (seq 0 order)                  (* 132 *)
        | GGrad => [(VBsq, [GBsq])]                                        (* 132 *)
        | GUp => [(VAm order, []); (VGrad, [GGrad]); (VL order, [GL])]     (* 133 *)
        | GL => [] end)
      (fun n => match n with
        | GL0 => Some (VL0 order) | GL => Some (VL order) | GBsq => Some VBsq | GGrad => Some VGrad
        | GUp => Some (VA order) | _ => None end)
      (fun n xs rs => match n, xs, rs with
        | GGram _, [], [a; b] => tf_matmul true false a b
        | GL0, [], [l] => Ok l
        | GL, _, [] => do l <- max_single_value_mul svals xs SkNone; Ok (scl l)
        | GBsq, _, [gm] => ttm gm xs None false SkNone
        | GTtm, [], _ => ttm X rs None true SkNone
        | GGrad, [y], [b] => tf_bin nsub b y
        | GUp, [], [gm; gr; l] =>
            do u <- tf_bin nsub gm (tf_map (fun x => ndiv x (unscl l)) gr); Ok (tf_map nrelu u)
        | _, _, _ => bad end).

  Definition nt_core_fetch : list ntc := [GUp; GL0; GL; GBsq].

  (** the factor run (ntucker.py:135-163) *)
  Inductive ntf := FUnf (m : nat) | FB (m : nat) | FXB (m : nat) | FBsq (m : nat) | FG (m : nat) | FL0 (m : nat) | FL (m : nat)
    | FA (m : nat) | FFull | FLoss | FObj | FRel | FT.

  Definition nt_fact_graph (svals : ten -> list T) (X : ten) : graph ten ntf var :=
    let order := ndims X in
    mkG
      (fun n => match n with
        | FXB m => [FUnf m; FB m]                                          (* 143 *)
        | FBsq m => [FB m]                                                 (* 144 *)
        | FG m => [FBsq m; FXB m]                                          (* 145 *)
        | FL m => [FBsq m]                                                 (* 149 *)
        | FA m => [FG m]                                                   (* 150 *)
        | FLoss | FObj | FRel => [FFull]
        | _ => [] end)
      (fun n => match n with
        | FB m => previous FA m                                            (* 139 *)
        | FL m => [FL0 m]                                                  (* 148 *)
        | _ => [] end)
      (fun n => match n with
        | FB m => (VA order, previous FA m) :: skipping order m (fun i => (VA i, previous FA m))  (* 140, 142 *)
        | FG m => [(VAm m, [])]                                            (* 145 *)
        | FL0 m => [(VL m, [])]                                            (* 147 *)
        | FA m => [(VAm m, []); (VL m, [FL m])]                            (* 150 *)
        | FFull => (VA order, []) :: map (fun i => (VA i, [FA i])) (seq 0 order)  (* 153-154 *)
        | FT => [(Vt0, [])]                                                (* 163 *)
        | _ => [] end)
      (fun n => match n with
        | FL0 m => Some (VL0 m) | FL m => Some (VL m) | FA m => Some (VA m) | FT => Some Vt | _ => None end)
      (fun n xs rs => match n, xs, rs with
        | FUnf m, [], [] => unfold X (Z.of_nat m)
        | FB m, [], g :: A =>
            do y <- ttm g (firstn m A ++ [mkT [] []] ++ skipn m A) None false (SkInt (Z.of_nat m)); unfold y (Z.of_nat m)
        | FXB _, [u; b], [] => tf_matmul false true u b
        | FBsq _, [b], [] => tf_matmul false true b b
        | FG _, [s; xb], [am] => do p <- tf_matmul false false am s; tf_bin nsub p xb
        | FL0 _, [], [l] => Ok l
        | FL _, [s], [] => Ok (scl (tf_max (svals s)))
        | FA _, [g], [am; l] =>
            do u <- tf_bin nsub am (tf_map (fun x => ndiv x (unscl l)) g); Ok (tf_map nrelu u)
        | FFull, [], g :: A => tt_extract g A
        | FLoss, [f], [] => k_loss X f
        | FObj, [f], [] => k_obj X f
        | FRel, [f], [] => k_rel X f
        | FT, [], [t0] => Ok (scl (t_next (unscl t0)))
        | _, _, _ => bad end).

  (** ntucker.py:194-195, 236-246; train_op lists the L0 and L updates of all modes but the last *)
  Definition nt_fact_fetch (X : ten) : list ntf :=
    map FA (seq 0 (ndims X)) ++ [FFull; FLoss; FObj; FRel] ++
    map FL0 (seq 0 (ndims X - 1)) ++ map FL (seq 0 (ndims X - 1)) ++ [FT].
End Graphs.
