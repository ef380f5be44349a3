(** Training in exact arithmetic with undefined results: the loops (C104). *)

From Coq Require Import ZArith List Bool Arith Lia Reals Lra.
From Verif Require Import Num Py Tensor TF TensorFacts TFFacts Fact Train Spec SpecR SpecTrain SpecBcu SpecScale ParamFacts ScaleAls SpecDef DefFacts.
Import ListNotations.
Local Open Scope R_scope.
#[local] Existing Instance NumX.

Definition def_obs (o : sobs R) : sobs xreal := mkObs (map def (ob_factors o)) (omap def (ob_aux o)) (def (ob_full o)) (def_metrics (ob_met o)).
Definition def_run (x : pub R * res (hist R)) : pub xreal * res (hist xreal) := (def_pub (fst x), rmap def_hist (snd x)).

Lemma d_validate args steps step : validate (def_args args) steps step = validate args steps step.
Proof. reflexivity. Qed.
Lemma d_publish v o p : publish v (def_obs o) (def_pub p) = def_pub (publish v o p).
Proof. unfold publish, def_pub, def_obs. cbn. f_equal; [destruct (ob_aux o)|destruct v]; reflexivity. Qed.
Lemma d_set_aux a p : set_aux (omap def a) (def_pub p) = def_pub (set_aux a p).
Proof. unfold set_aux, def_pub. cbn. f_equal. destruct a; reflexivity. Qed.
Lemma d_hist_app h x y : def_hist h ++ [(Some x, Some y)] = def_hist (h ++ [(x, y)]).
Proof. unfold def_hist. rewrite map_app. reflexivity. Qed.
Lemma d_stall args o x n : 0 <= x -> stall_next (def_args args) (Some o) (Some x) n = stall_next args o x n.
Proof.
  intros H. unfold stall_next, relerr1. cbn [def_args a_tol].
  rewrite (dr_ltb (ndiv (nabs (nsub o x)) (nadd x n1)) (ndiv (nabs (nsub (Some o) (Some x))) (nadd (Some x) n1)) (a_tol args) (Some (a_tol args))); [reflexivity| |reflexivity].
  apply dr_div; [cbn; lra|reflexivity|reflexivity].
Qed.
Lemma d_stop args n r : stop_now (def_args args) n (Some r) = stop_now args n r.
Proof. reflexivity. Qed.

Section Als.
  Context {S S' : Type}.
  Variables (f : S -> S') (I : nat -> S -> Prop) (run : S -> res (S * sobs R)) (run' : S' -> res (S' * sobs xreal)) (sum_ok : bool) (args : targs R) (steps : Z).
  Definition dstep (Q : S -> Prop) (x : S * sobs R) (y : S' * sobs xreal) : Prop := y = (f (fst x), def_obs (snd x)) /\ Q (fst x) /\ 0 <= m_obj (ob_met (snd x)).
  Hypothesis Hrun : forall k s, I (Datatypes.S k) s -> rrel (dstep (I k)) (run s) (run' (f s)).
  Lemma d_run_v v k s : I (Datatypes.S k) s -> rrel (dstep (I k)) (run_v run sum_ok v s) (run_v run' sum_ok v (f s)).
  Proof. intros H. unfold run_v. destruct (v && negb sum_ok)%bool; [reflexivity|apply Hrun, H]. Qed.
  Lemma d_als fuel : forall step s o0 n h p, I fuel s -> 0 <= o0 ->
    als_loop run' sum_ok (def_args args) steps fuel step (f s) (Some o0) n (def_hist h) (def_pub p) = def_run (als_loop run sum_ok args steps fuel step s o0 n h p).
  Proof.
    induction fuel as [|fuel IH]; intros step s o0 n h p HI Ho; cbn [als_loop]; [reflexivity|]. rewrite d_validate.
    destruct (validate args steps step) as [v|e]; [|reflexivity]. pose proof (d_run_v v fuel s HI) as K.
    destruct (run_v run sum_ok v s) as [[s1 o]|e], (run_v run' sum_ok v (f s)) as [y|e']; cbn [rrel] in K; try contradiction; [|rewrite K; reflexivity].
    destruct K as (-> & HI1 & Hm). cbn [fst snd] in *. cbn [def_obs ob_met def_metrics m_loss m_obj m_rel].
    set (x := if (step =? 1)%Z then nadd (m_obj (ob_met o)) n1 else o0).
    replace (if (step =? 1)%Z then nadd (Some (m_obj (ob_met o))) n1 else Some o0) with (Some x) by (subst x; destruct (step =? 1)%Z; reflexivity).
    assert (Hx : 0 <= x) by (subst x; destruct (step =? 1)%Z; cbn; lra).
    rewrite d_stall by exact Hx. rewrite d_stop, d_publish, d_hist_app. destruct (stop_now _ _ _); [reflexivity|]. apply IH; assumption.
  Qed.
  Lemma d_als_body init init' p : rrel (fun a b => b = f a /\ I (Z.to_nat steps) a) init init' ->
    als_body run' sum_ok (def_args args) steps init' (def_pub p) = def_run (als_body run sum_ok args steps init p).
  Proof.
    intros H. unfold als_body. destruct init as [s|e], init' as [s'|e']; cbn [rrel] in H; try contradiction; [|rewrite H; reflexivity]. destruct H as [-> HI].
    destruct (steps <=? 0)%Z; [reflexivity|]. apply (d_als (Z.to_nat steps) 1%Z s 0 0 [] p HI). lra.
  Qed.
End Als.

Section Bcu.
  Context {S S' : Type}.
  Variables (f : S -> S') (I I1 J : nat -> S -> Prop) (run : S -> res (S * sobs R)) (run' : S' -> res (S' * sobs xreal)) (sum_ok : bool) (args : targs R) (steps : Z).
  Variables (pre : S -> res (S * option (tensor R))) (pre' : S' -> res (S' * option (tensor xreal))) (acc rej : S -> res S) (acc' rej' : S' -> res S').
  Hypothesis Hpre : forall k s, I (Datatypes.S k) s -> rrel (fun x y => y = (f (fst x), omap def (snd x)) /\ I1 k (fst x)) (pre s) (pre' (f s)).
  Hypothesis Hrun : forall k s, I1 k s -> rrel (dstep f (J k)) (run s) (run' (f s)).
  Hypothesis Hacc : forall k s, J k s -> rrel (fun x y => y = f x /\ I k x) (acc s) (acc' (f s)).
  Hypothesis Hrej : forall k s, J k s -> rrel (fun x y => y = f x /\ I k x) (rej s) (rej' (f s)).
  Lemma d_bcu fuel : forall step s o0 n h p, I fuel s -> 0 <= o0 ->
    bcu_loop run' sum_ok (def_args args) steps pre' acc' rej' fuel step (f s) (Some o0) n (def_hist h) (def_pub p) =
    def_run (bcu_loop run sum_ok args steps pre acc rej fuel step s o0 n h p).
  Proof.
    induction fuel as [|fuel IH]; intros step s o0 n h p HI Ho; cbn [bcu_loop]; [reflexivity|].
    pose proof (Hpre fuel s HI) as K0. destruct (pre s) as [[s1 c]|e], (pre' (f s)) as [y0|e']; cbn [rrel] in K0; try contradiction; [|rewrite K0; reflexivity].
    destruct K0 as (-> & HI1). cbn [fst snd] in *. rewrite d_validate, d_set_aux.
    destruct (validate args steps step) as [v|e]; [|reflexivity].
    assert (K : rrel (dstep f (J fuel)) (run_v run sum_ok v s1) (run_v run' sum_ok v (f s1))).
    { unfold run_v. destruct (v && negb sum_ok)%bool; [reflexivity|apply Hrun, HI1]. }
    destruct (run_v run sum_ok v s1) as [[s2 o]|e], (run_v run' sum_ok v (f s1)) as [y|e']; cbn [rrel] in K; try contradiction; [|rewrite K; reflexivity].
    destruct K as (-> & HJ & Hm). cbn [fst snd] in *. cbn [def_obs ob_met def_metrics m_loss m_obj m_rel].
    set (x := if (step =? 1)%Z then nadd (m_obj (ob_met o)) n1 else o0).
    replace (if (step =? 1)%Z then nadd (Some (m_obj (ob_met o))) n1 else Some o0) with (Some x) by (subst x; destruct (step =? 1)%Z; reflexivity).
    assert (Hx : 0 <= x) by (subst x; destruct (step =? 1)%Z; cbn; lra).
    rewrite d_stall by exact Hx. rewrite d_stop, d_publish, d_hist_app. destruct (stop_now _ _ _); [reflexivity|].
    change (nltb (Some (m_obj (ob_met o))) (Some x)) with (nltb (m_obj (ob_met o)) x). destruct (nltb (m_obj (ob_met o)) x).
    - pose proof (Hacc fuel s2 HJ) as KA. destruct (acc s2) as [s3|e], (acc' (f s2)) as [s3'|e']; cbn [rrel] in KA; try contradiction; [|rewrite KA; reflexivity].
      destruct KA as [-> HI3]. apply IH; assumption.
    - pose proof (Hrej fuel s2 HJ) as KA. destruct (rej s2) as [s3|e], (rej' (f s2)) as [s3'|e']; cbn [rrel] in KA; try contradiction; [|rewrite KA; reflexivity].
      destruct KA as [-> HI3]. apply IH; assumption.
  Qed.
  Lemma d_bcu_body init init' post p : rrel (fun a b => b = f a /\ I (Z.to_nat steps) a) init init' ->
    bcu_body run' sum_ok (def_args args) steps pre' acc' rej' init' (omap def post) (def_pub p) = def_run (bcu_body run sum_ok args steps pre acc rej init post p).
  Proof.
    intros H. unfold bcu_body. destruct init as [s|e], init' as [s'|e']; cbn [rrel] in H; try contradiction; [|rewrite H; reflexivity]. destruct H as [-> HI].
    destruct (steps <=? 0)%Z; [unfold def_run; cbn; rewrite d_set_aux; reflexivity|].
    pose proof (d_bcu (Z.to_nat steps) 1%Z s 0 0 [] p HI ltac:(lra)) as K. change (def_hist []) with (@nil (xreal * xreal)) in K. change (Some 0) with (@n0 xreal NumX) in K. rewrite K.
    change (@n0 R _) with 0. destruct (bcu_loop run sum_ok args steps pre acc rej (Z.to_nat steps) 1 s 0 0 [] p) as [p' [h|e]]; unfold def_run; cbn; [rewrite d_set_aux|]; reflexivity.
  Qed.
End Bcu.

Lemma d_train {A A' Rn Rn'} e rs (fA : A -> A') (body : A -> Rn -> bool -> Z -> pub R -> pub R * res (hist R)) (body' : A' -> Rn' -> bool -> Z -> pub xreal -> pub xreal * res (hist xreal))
  w (o : fobj R A) rnd rnd' steps :
  (forall ar id p, o_built o = Some (ar, id) ->
     body' (fA ar) rnd' (forallb (Nat.eqb id) (w_sums w)) steps (def_pub p) = def_run (body ar rnd (forallb (Nat.eqb id) (w_sums w)) steps p)) ->
  obj_train e rs body' w (def_obj fA o) rnd' steps = def_outcome fA (obj_train e rs body w o rnd steps).
Proof.
  intros H. unfold obj_train, def_outcome, def_obj. cbn [o_built o_pub]. destruct (o_built o) as [[ar id]|] eqn:EB; cbn [omap fst snd].
  - destruct (negb (w_path w)); [cbn [fst snd o_built o_pub omap rmap]; f_equal; f_equal; destruct rs; reflexivity|].
    specialize (H ar id (if rs then set_finish false (o_pub o) else o_pub o) eq_refl).
    replace (if rs then set_finish false (def_pub (o_pub o)) else def_pub (o_pub o)) with (def_pub (if rs then set_finish false (o_pub o) else o_pub o)) by (destruct rs; reflexivity).
    rewrite H. destruct (body ar rnd _ steps _) as [P [h|x]]; unfold def_run; cbn; reflexivity.
  - cbn. f_equal. f_equal. destruct rs; reflexivity.
Qed.
