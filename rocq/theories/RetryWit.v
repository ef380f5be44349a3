(** Concrete binary32 runs in which the step after a rejected step is worse than the last
    accepted one (C72) and training publishes it (C73).  Two columns, order 2. *)

From Coq Require Import ZArith List Bool Arith Lia SpecFloat.
From Verif Require Import Num Py Tensor TF Ops Types Loss Fact Train SpecTrain SpecBcu SpecRetry TrainWit.
Import ListNotations.
#[local] Existing Instance NumF32.

(** the singular values of a symmetric positive semidefinite 2x2 matrix:
    (tr +- sqrt((a-d)^2 + 4bc)) / 2 *)
Definition svals2 (V : tensor f32) : list f32 :=
  match dat V with
  | [a; b; c; d] =>
      let tr := nadd a d in
      let r := nsqrt (nadd (nsq (nsub a d)) (nmul (q 4) (nmul b c))) in
      [nmul nhalf (nadd tr r); nmul nhalf (nsub tr r)]
  | _ => []
  end.
(** x^(1/2); and x^(1/3) at x = 8 *)
Definition pow_half (x y : f32) : f32 := nsqrt x.
Definition pow_third (x y : f32) : f32 := q 2.

Definition argsR : targs f32 := mkArgs (frac 1 1000) (-1)%Z false.
Definition qs (l : list Z) : list f32 := map (fun z => frac z 4) l.

(** NCP: a non-negative 2x3 matrix, rank 2, random factors in [0,1] *)
Definition XR : tensor f32 := mkT [2; 3] (map q [5; 0; 1; 1; 2; 5]%Z).
Definition AR : list (tensor f32) := [mkT [2; 2] (qs [1; 0; 3; 1]%Z); mkT [3; 2] (qs [3; 3; 2; 3; 2; 3]%Z)].

(** states and results of a run, computed *)
Section Trace.
  Context {S : Type}.
  Variable run : S -> res (S * sobs f32).
  Variable pre : S -> res (S * option (tensor f32)).
  Variable accept reject : S -> res S.
  Fixpoint trace (fuel : nat) (first : bool) (s : S) (obj0 : f32) : list (S * sobs f32) :=
    match fuel with
    | 0 => []
    | Datatypes.S fuel' =>
        match (do p <- pre s; do r <- run (fst p); Ok r) with
        | Raise _ => []
        | Ok (s2, o) =>
            let obj := m_obj (ob_met o) in
            let ref := if first then nadd obj n1 else obj0 in
            match (if nltb obj ref then accept s2 else reject s2) with
            | Raise _ => [(s, o)]
            | Ok s3 => (s, o) :: trace fuel' false s3 (if nltb obj ref then obj else ref)
            end
        end
    end.
End Trace.

Definition ncp_trace : list (ncp_state f32 * sobs f32) := Eval vm_compute in
  trace (ncp_run svals2 XR) (fun s => Ok (s, None)) ncp_accept (fun s => Ok (ncp_reject s)) 9 true (ncp_init pow_half XR AR) n0.
Definition ncp_os : list (sobs f32) := map snd ncp_trace.
Definition ncp_st (k : nat) : ncp_state f32 := nth k (map fst ncp_trace) (ncp_init pow_half XR AR).

Lemma ncp_states : states (ncp_run svals2 XR) (fun s => Ok (s, None)) ncp_accept (fun s => Ok (ncp_reject s))
  (ncp_init pow_half XR AR) ncp_os ncp_st.
Proof.
  split; [vm_compute; reflexivity|]. intros k o Ho.
  destruct k as [|[|[|[|[|[|[|[|[|k]]]]]]]]]; cbn in Ho; try (injection Ho as <-); try (destruct k; discriminate Ho);
    eexists _, _, _; (split; [vm_compute; reflexivity|]); (split; [vm_compute; reflexivity|]);
    intros Hl; try (vm_compute; reflexivity). exfalso. vm_compute in Hl. lia.
Qed.

(** NTucker: a non-negative 3x2 matrix of norm 8, ranks (2, 2) *)
Definition XT : tensor f32 := mkT [3; 2] (map q [2; 5; 0; 1; 5; 3]%Z).
Definition AT : list (tensor f32) := [mkT [3; 2] (qs [2; 2; 3; 2; 1; 3]%Z); mkT [2; 2] (qs [2; 1; 1; 2]%Z)].
Definition GT : tensor f32 := mkT [2; 2] (qs [0; 3; 1; 2]%Z).
Definition nt_trace : list (nt_state f32 * sobs f32) := Eval vm_compute in
  trace (nt_factors svals2 XT) (nt_pre svals2 XT) nt_accept (fun s => Ok (nt_reject s)) 10 true (nt_init pow_third XT AT GT) n0.
Definition nt_os : list (sobs f32) := map snd nt_trace.
Definition nt_st (k : nat) : nt_state f32 := nth k (map fst nt_trace) (nt_init pow_third XT AT GT).

Lemma nt_states : states (nt_factors svals2 XT) (nt_pre svals2 XT) nt_accept (fun s => Ok (nt_reject s))
  (nt_init pow_third XT AT GT) nt_os nt_st.
Proof.
  split; [vm_compute; reflexivity|]. intros k o Ho.
  destruct k as [|[|[|[|[|[|[|[|[|[|k]]]]]]]]]]; cbn in Ho; try (injection Ho as <-); try (destruct k; discriminate Ho);
    eexists _, _, _; (split; [vm_compute; reflexivity|]); (split; [vm_compute; reflexivity|]);
    intros Hl; try (vm_compute; reflexivity). exfalso. vm_compute in Hl. lia.
Qed.

Lemma ncp_rejected : rejected_since ncp_os 6 7.
Proof.
  split; [split; [vm_compute; lia|vm_compute; reflexivity]|]. split; [vm_compute; lia|].
  intros i Hi. assert (i = 7) by lia. subst i. intros [_ H]. vm_compute in H. discriminate H.
Qed.
Lemma nt_rejected : rejected_since nt_os 7 8.
Proof.
  split; [split; [vm_compute; lia|vm_compute; reflexivity]|]. split; [vm_compute; lia|].
  intros i Hi. assert (i = 8) by lia. subst i. intros [_ H]. vm_compute in H. discriminate H.
Qed.

Lemma c72_ncp_refuted : exists pow svals (X : tensor f32) rnd os st j k,
  states (ncp_run svals X) (fun s => Ok (s, None)) ncp_accept (fun s => Ok (ncp_reject s)) (ncp_init pow X rnd) os st /\
  rejected_since os j k /\ S k < length os /\ nltb (m_obj (met os j)) (m_obj (met os (S k))) = true.
Proof.
  exists pow_half, svals2, XR, AR, ncp_os, ncp_st, 6, 7. split; [exact ncp_states|]. split; [exact ncp_rejected|]. split; vm_compute; [lia|reflexivity].
Qed.
Lemma c72_nt_refuted : exists pow svals (X : tensor f32) rnd rndg os st j k,
  states (nt_factors svals X) (nt_pre svals X) nt_accept (fun s => Ok (nt_reject s)) (nt_init pow X rnd rndg) os st /\
  rejected_since os j k /\ S k < length os /\ nltb (m_obj (met os j)) (m_obj (met os (S k))) = true.
Proof.
  exists pow_third, svals2, XT, AT, GT, nt_os, nt_st, 7, 8. split; [exact nt_states|]. split; [exact nt_rejected|]. split; vm_compute; [lia|reflexivity].
Qed.

Lemma c73_ncp_refuted : exists pow svals (X : tensor f32) w o rnd steps o' h os,
  ncp_train pow svals X w o rnd steps = (o', Ok h) /\
  bcu_run (ncp_run svals X) (fun s => Ok (s, None)) ncp_accept (fun s => Ok (ncp_reject s)) (ncp_init pow X rnd) os /\
  h = map entry os /\ p_factors (o_pub o') = Some (ob_factors (obs_at os (length os - 1))) /\
  ~ (exists j, best_step os j /\ p_factors (o_pub o') = Some (ob_factors (obs_at os j))).
Proof.
  eexists pow_half, svals2, XR, w1, (mk_obj (argsR, 2)), AR, 9%Z, _, _, ncp_os.
  split; [vm_compute; reflexivity|]. split; [exists ncp_st; exact ncp_states|]. split; [vm_compute; reflexivity|]. split; [vm_compute; reflexivity|].
  intros (j & [Hj Hb] & Hf). destruct (Nat.eq_dec j 6) as [->|Hne].
  - vm_compute in Hf. discriminate Hf.
  - specialize (Hb 6 ltac:(vm_compute; lia)).
    destruct j as [|[|[|[|[|[|[|[|[|j]]]]]]]]]; try (vm_compute in Hb; discriminate Hb); [congruence|]. vm_compute in Hj. lia.
Qed.
Lemma c73_nt_refuted : exists pow svals (X : tensor f32) w o rnd steps o' h os,
  nt_train pow svals X w o rnd steps = (o', Ok h) /\
  bcu_run (nt_factors svals X) (nt_pre svals X) nt_accept (fun s => Ok (nt_reject s)) (nt_init pow X (fst rnd) (snd rnd)) os /\
  h = map entry os /\ p_factors (o_pub o') = Some (ob_factors (obs_at os (length os - 1))) /\
  ~ (exists j, best_step os j /\ p_factors (o_pub o') = Some (ob_factors (obs_at os j))).
Proof.
  eexists pow_third, svals2, XT, w1, (mk_obj argsR), (AT, GT), 10%Z, _, _, nt_os.
  split; [vm_compute; reflexivity|]. split; [exists nt_st; exact nt_states|]. split; [vm_compute; reflexivity|]. split; [vm_compute; reflexivity|].
  intros (j & [Hj Hb] & Hf). destruct (Nat.eq_dec j 7) as [->|Hne].
  - vm_compute in Hf. discriminate Hf.
  - specialize (Hb 7 ltac:(vm_compute; lia)).
    destruct j as [|[|[|[|[|[|[|[|[|[|j]]]]]]]]]]; try (vm_compute in Hb; discriminate Hb); [congruence|]. vm_compute in Hj. lia.
Qed.
