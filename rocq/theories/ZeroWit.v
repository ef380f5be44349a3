(** Divisions by zero in binary32: a zero column in CP_ALS, a zero Gram matrix in NCP_BCU
    and a zero core in NTUCKER_BCU turn the objective into a NaN. *)

From Coq Require Import ZArith List Bool Arith Floats.SpecFloat.
From Verif Require Import Num Py Tensor TF Ops Types Loss Fact Train Spec TrainWit.
Import ListNotations.
#[local] Existing Instance NumF32.

Definition Zd : tensor f32 := mkT [2; 2] [q 2; q 0; q 0; q 0].
Definition A0d : list (tensor f32) := [mkT [2; 1] [q 1; q 1]; mkT [2; 1] [q 0; q 1]].

(** X = diag(2, 0); the second factor is orthogonal to its rows, so the first update is the
    zero matrix, which is then divided by its largest entry *)
Lemma c44_zero : exists pinv (X : tensor f32) A o, cp_step pinv X 1 A = Ok o /\ neqb (m_obj (cp_met o)) (m_obj (cp_met o)) = false.
Proof. eexists pinv1, Zd, A0d, _. split; vm_compute; reflexivity. Qed.

Definition B0d : list (tensor f32) := [mkT [2; 1] [q 1; q 1]; mkT [2; 1] [q 0; q 0]].
Lemma c50_zero : exists svals (X : tensor f32) s s2 full m, n_Am s = n_A s /\ (forall M x, In M (n_A s) -> In x (dat M) -> nltb x (q 0) = false) /\
  ncp_step svals X s = Ok (s2, full, m) /\ neqb (m_obj m) (m_obj m) = false.
Proof.
  eexists svals1, Zd, (mkNCP B0d B0d B0d (q 1) (q 1) [q 0; q 0] [q 1; q 1] [q 1; q 1]), _, _, _. split; [reflexivity|]. split.
  - intros M x [<-|[<-|[]]] [<-|[<-|[]]]; vm_compute; reflexivity.
  - split; vm_compute; reflexivity.
Qed.

(** a zero factor: the product of the Gram norms is zero and the core update divides by it *)
Definition Q0d : list (tensor f32) := [mkT [2; 1] [q 1; q 1]; mkT [2; 1] [q 0; q 0]].
Definition Gd : tensor f32 := mkT [1; 1] [q 1].
Lemma c53_zero : exists svals (X : tensor f32) s s1 s2 full m, q_Am s = q_A s /\ q_gm s = q_g s /\
  (forall M x, In M (q_g s :: q_A s) -> In x (dat M) -> nltb x (q 0) = false) /\
  nt_core svals X s = Ok s1 /\ nt_fact svals X s1 = Ok (s2, full, m) /\ neqb (m_obj m) (m_obj m) = false.
Proof.
  eexists svals1, Zd, (mkNT Q0d Q0d Q0d Gd Gd Gd (q 1) (q 1) [q 0; q 0; q 0] [q 1; q 1; q 1] [q 1; q 1; q 1]), _, _, _, _. split; [reflexivity|]. split; [reflexivity|]. split.
  - intros M x [<-|[<-|[<-|[]]]] Hx; cbn in Hx; repeat (destruct Hx as [<-|Hx]; [vm_compute; reflexivity|]); destruct Hx.
  - split; [vm_compute; reflexivity|]. split; vm_compute; reflexivity.
Qed.

(** a draw of zeros is divided by its norm 0 *)
Lemma lsum_zeros n : lsum (repeat (n0 : f32) n) = n0.
Proof. induction n as [|n IH]; [reflexivity|]. unfold lsum in *. cbn [repeat fold_right]. rewrite IH. reflexivity. Qed.
Lemma map_repeat {A B} (f : A -> B) a n : map f (repeat a n) = repeat (f a) n.
Proof. induction n as [|n IH]; cbn; congruence. Qed.
Lemma nan_scaled (p : f32) : nmul (ndiv (n0 : f32) n0) p = S754_nan.
Proof. destruct p; reflexivity. Qed.
Lemma c81_zero pow (X : tensor f32) k s n : exists a, norm_init pow X k (tf_map nrelu (mkT s (repeat n0 n))) = mkT s (repeat a n) /\ neqb a a = false.
Proof.
  exists S754_nan. split; [|reflexivity]. unfold norm_init, tf_map. cbn [shp dat]. f_equal. rewrite !map_repeat. f_equal.
  assert (E : tf_norm (mkT s (repeat (nrelu (n0 : f32)) n)) = n0).
  { unfold tf_norm. cbn [dat]. rewrite map_repeat. change (nsq (nrelu (n0 : f32))) with (n0 : f32). rewrite lsum_zeros. reflexivity. }
  rewrite E. apply nan_scaled.
Qed.
Lemma c81_ncp_zero pow (X : tensor f32) rnd k s n : nth_error rnd k = Some (mkT s (repeat n0 n)) ->
  exists a, nth_error (n_A (ncp_init pow X rnd)) k = Some (mkT s (repeat a n)) /\ neqb a a = false.
Proof. intros H. destruct (c81_zero pow X (ndims X) s n) as (a & E & Ha). exists a. split; [|exact Ha]. unfold ncp_init. cbn [n_A]. rewrite nth_error_map, H. cbn. f_equal. exact E. Qed.
Lemma c81_nt_zero pow (X : tensor f32) rnd rndg k s n : nth_error (rndg :: rnd) k = Some (mkT s (repeat n0 n)) ->
  exists a, nth_error (q_g (nt_init pow X rnd rndg) :: q_A (nt_init pow X rnd rndg)) k = Some (mkT s (repeat a n)) /\ neqb a a = false.
Proof.
  intros H. destruct (c81_zero pow X (ndims X + 1) s n) as (a & E & Ha). exists a. split; [|exact Ha]. unfold nt_init. cbn [q_A q_g].
  destruct k as [|k]; [cbn in *; injection H as ->; f_equal; exact E|]. cbn [nth_error] in *. rewrite nth_error_map, H. cbn. f_equal. exact E.
Qed.
