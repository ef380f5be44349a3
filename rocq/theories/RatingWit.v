(** Unlisted coordinates count as zeros in the fit (C109). *)

From Coq Require Import String Ascii ZArith List Bool Arith Reals Lia Lra Psatz.
From Verif Require Import Num Py Tensor TF Types Ops Fact Train TensorFacts Sums Spec SpecR SpecTrain SpecFacts Loss LossFacts OpsLemmas TrainFacts TrainLemmas
  SpecCp SpecTucker CpFacts AlsFacts RSums AlsLemmas SpecFix FixFacts FixEx LimFacts LimLemmas LimEx Reader SpecReader ReaderFacts Csv SpecCsv CsvFacts CsvLemmas SpecRatings RatingFacts.
Import ListNotations.
Open Scope list_scope.
Local Open Scope R_scope.

(** diag(2, 1) as a file with two ratings *)
Definition es2 : ratings := [([0; 0]%Z, 2); ([1; 1]%Z, 1)].
Lemma es2_file : file_of es2 Xd.
Proof.
  split; [reflexivity|]. split; [repeat constructor; cbn; intuition discriminate|]. split.
  - intros e [<-|[<-|[]]]; cbn; repeat constructor; lia.
  - intros idx V. inversion V as [|a b x y Ha V']; subst. inversion V' as [|a' b' x' y' Ha' V'']; subst. inversion V''; subst.
    assert (A1 : a = 0%nat \/ a = 1%nat) by lia. assert (A2 : a' = 0%nat \/ a' = 1%nat) by lia. destruct A1 as [-> | ->], A2 as [-> | ->]; reflexivity.
Qed.

(** the error on the file after a step from (1, b) *)
Lemma V_loss pinv a b o : penrose pinv -> 0 <= b <= 1 -> cp_step pinv Xd 1 (V a b) = Ok o -> 1 / 2 <= m_loss (cp_met o).
Proof.
  intros HP Hb E. destruct (V_step pinv a b o HP Hb E) as (HA & HL & _).
  destruct (c45_step pinv Xd 1 (V a b) o HP (V_factors a b) E) as (_ & _ & _ & Hf & _).
  assert (HM : metrics_of Xd (cp_full o) = Ok (cp_met o)). { unfold cp_step in E. mon E. injection E as <-. cbn. assumption. }
  assert (R1 : reports es2 (cp_full o) (m_loss (cp_met o), m_rel (cp_met o))).
  { destruct es2_file as (W & ND & HR & HX). apply (measured_reports es2 Xd); auto; [exact (metrics_shape _ _ _ HM)|apply metrics_R; auto]. }
  destruct R1 as [R1 _]. cbn [fst] in R1. rewrite R1.
  assert (F11 : get (cp_full o) [1; 1]%nat = 2 / (1 + b / 2 * (b / 2)) * (b / 2 * (b / 4))).
  { rewrite Hf, HA. unfold cp_tensor, mat_at, mgen, gen. cbn -[Rdiv Rmult Rplus]. unfold mget, get. cbn -[Rdiv Rmult Rplus].
    change (nth 0 (dat (cp_lam o)) n0) with (get (cp_lam o) [0%nat]) || idtac. Rn. rewrite <- HL. unfold get. cbn. ring. }
  assert (Er : rated es2 = es2). { unfold rated, es2. cbn. destruct (Req_EM_T 2 0); [lra|]. destruct (Req_EM_T 1 0); [lra|]. reflexivity. }
  rewrite Er. unfold es2. cbn [rsum fold_right length miss fst snd map Z.to_nat Pos.to_nat Pos.iter_op]. change (Pos.to_nat 1) with 1%nat.
  set (f := get (cp_full o) [0%nat; 0%nat]). unfold miss. cbn [fst snd map]. change (Z.to_nat 1) with 1%nat. change (Z.to_nat 0) with 0%nat. fold f. rewrite F11. clear R1.
  assert (D : 0 < 1 + b / 2 * (b / 2)) by nra. set (g := 2 / (1 + b / 2 * (b / 2)) * (b / 2 * (b / 4))).
  assert (G : g <= 1 / 4).
  { unfold g. apply (Rmult_le_reg_r (1 + b / 2 * (b / 2))); [exact D|]. replace (2 / (1 + b / 2 * (b / 2)) * (b / 2 * (b / 4)) * (1 + b / 2 * (b / 2))) with (2 * (b / 2 * (b / 4))) by (field; lra). nra. }
  rewrite <- (sqrt_Rsqr (1 / 2)) by lra. apply sqrt_le_1_alt. unfold Rsqr. cbn [INR]. pose proof (Rle_0_sqr (2 - f)) as K. unfold Rsqr in K.
  assert (3 / 4 * (3 / 4) <= (1 - g) * (1 - g)) by nra. lra.
Qed.

(** every step of the training from (1, 1) *)
Lemma c109_unlisted : exists pinv, penrose pinv /\ file_of es2 Xd /\ cp_factors Xd 1 (V 1 1) /\
  (exists w A, cp_factors Xd 1 A /\ forall e, In e es2 -> miss (cp_tensor 1 w A) e = 0) /\
  (exists out, cp_iterates pinv Xd 1 (V 1 1) out) /\
  forall out, cp_iterates pinv Xd 1 (V 1 1) out -> forall k, 1 / 2 <= m_loss (cp_met (out k)).
Proof.
  destruct penrose_exists as (pinv & HP). exists pinv. split; [exact HP|]. split; [apply es2_file|]. split; [apply V_factors|]. split.
  { exists w2, (V (1 / 2) 1). split; [apply V_factors|]. intros e [<-|[<-|[]]]; unfold miss; cbn [fst snd map]; change (Z.to_nat 1) with 1%nat; change (Z.to_nat 0) with 0%nat; unfold cp_tensor, mat_at, mgen, gen, mget, get; cbn; Rn; field. }
  split; [exact (cp_run_exists pinv Xd 1 (V 1 1) HP eq_refl Xd_ne ltac:(cbn; lia) (V_factors 1 1))|].
  intros out [H0 HS].
  assert (K : forall k, (exists b, 0 <= b <= 1 /\ exists a, cp_A (out k) = V a b) /\ 1 / 2 <= m_loss (cp_met (out k))).
  { induction k as [|k [(b & Hb & a & E) _]].
    - split; [|apply (V_loss pinv 1 1 _ HP ltac:(lra) H0)]. exists (1 / 4). split; [lra|]. exists (1 / 2). exact (proj1 (V_step pinv 1 1 _ HP ltac:(lra) H0)).
    - specialize (HS k). rewrite E in HS. split; [|apply (V_loss pinv a b _ HP Hb HS)]. exists (b / 4). split; [lra|]. exists (b / 2). exact (proj1 (V_step pinv a b _ HP Hb HS)). }
  intros k. apply K.
Qed.

(** a text with these rows *)
Definition float_of_int (s : list ascii) : option R := option_map IZR (py_int s).
Definition text2 : list ascii := list_ascii_of_string "0,0,2" ++ [newline] ++ list_ascii_of_string "1,1,1" ++ [newline].
Lemma text2_file : rating_file float_of_int "u1.base.csv" text2 [2; 2]%nat es2.
Proof.
  split; [left; split; [unfold no_dot; cbn; intuition discriminate|right; exists "u1.base"%string; reflexivity]|].
  split; [discriminate|]. split; [unfold rated, es2; cbn; destruct (Req_EM_T 2 0); [lra|discriminate]|].
  split; [apply es2_file|]. split; [apply es2_file|].
  pose (f := fun c : ascii => [c]).
  exists [[f "0"; f "0"; f "2"]; [f "1"; f "1"; f "1"]]%char. split.
  - assert (P : forall c s, forallb (fun c => negb (existsb (Ascii.eqb c) [comma; newline; return_; nul; quote])) (c :: s) = true -> field_text (c :: s) (c :: s)).
    { intros c s H. left. split; [|reflexivity]. rewrite forallb_forall in H. split.
      - intros d Hd. specialize (H d Hd). repeat split; intros ->; discriminate H.
      - cbn [hd]. intros ->. specialize (H quote (or_introl eq_refl)). discriminate H. }
    exists [newline], [list_ascii_of_string "0,0,2"; list_ascii_of_string "1,1,1"]. split; [left; reflexivity|]. split; [|left; reflexivity].
    constructor; [|constructor; [|constructor]].
    + exists [f "0"; f "0"; f "2"]%char. split; [repeat (apply Forall2_cons; [apply P; reflexivity|]); apply Forall2_nil|]. split; [reflexivity|discriminate].
    + exists [f "1"; f "1"; f "1"]%char. split; [repeat (apply Forall2_cons; [apply P; reflexivity|]); apply Forall2_nil|]. split; [reflexivity|discriminate].
  - assert (G : forall a b v x y z, py_int a = Some x -> py_int b = Some y -> py_int v = Some z -> row_says float_of_int 2 [a; b; v] ([x; y], IZR z)).
    { intros a b v x y z A B C. exists [a; b], v. split; [reflexivity|]. split; [reflexivity|]. split; [|unfold float_of_int; rewrite C; reflexivity].
      constructor; [apply py_int_iff, A|constructor; [apply py_int_iff, B|constructor]]. }
    repeat (apply Forall2_cons; [apply G; reflexivity|]); apply Forall2_nil.
Qed.
