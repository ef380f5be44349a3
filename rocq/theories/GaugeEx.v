(** Cases to which the theorems of PropsGauge.v apply. *)

From Coq Require Import ZArith List Bool Arith Lia Reals Lra Psatz.
From Verif Require Import Num Py Tensor TF TensorFacts TFFacts Sums Ops OpsLemmas Types Loss Fact Train Spec SpecR LayoutFacts SpecFacts MulFacts TtmFacts SkipFacts TtmLemmas Matricize
  KronFacts RSums MatR KronAlg NormFacts SpecTucker MultiR SvdFacts TuckerFacts TuckerRun TuckerLemmas SpecTrain TrainLemmas AlsLemmas SvdExists QuasiOpt SpecFix FixEx
  SpecScale SpecSym SymFacts SymTrain SymBcu SpecGauge GaugeAlg GaugeFacts GaugeRun.
Import ListNotations.
Local Open Scope R_scope.

Definition I2 : tensor R := mkT [2; 2]%nat [1; 0; 0; 1].
Definition J2 : tensor R := mkT [2; 2]%nat [0; 1; 1; 0].

Lemma two2 (P : nat -> nat -> Prop) : P 0%nat 0%nat -> P 0%nat 1%nat -> P 1%nat 0%nat -> P 1%nat 1%nat -> forall i j, (i < 2)%nat -> (j < 2)%nat -> P i j.
Proof. intros A B C D [|[|i]] [|[|j]]; auto; lia. Qed.
Lemma I2_ortho : orthonormal I2.
Proof. intros i j Hi Hj. cbn in Hi, Hj. revert i j Hi Hj. apply two2; unfold mget, get; cbn; Rn; lra. Qed.
Lemma J2_ortho : orthonormal J2.
Proof. intros i j Hi Hj. cbn in Hi, Hj. revert i j Hi Hj. apply two2; unfold mget, get; cbn; Rn; lra. Qed.

(** diag(2, 1) *)
Definition sd (p : nat) : R := match p with O => 2 | S _ => 1 end.
Lemma Xd_svd : thin_svd Xd I2 sd I2.
Proof.
  unfold thin_svd. change (Nat.min (nrows Xd) (ncols Xd)) with 2%nat. split; [split; reflexivity|]. split; [split; reflexivity|]. split; [apply I2_ortho|]. split; [apply I2_ortho|].
  split; [intros [|p] _; unfold sd; lra|]. split; [intros [|p] [|q] H _; unfold sd; try lra; lia|].
  intros i j Hi Hj. cbn in Hi, Hj. revert i j Hi Hj. apply two2; unfold mget, get; cbn; Rn; lra.
Qed.
Lemma Xd_unfold n M : (n < 2)%nat -> unfold Xd (Z.of_nat n) = Ok M -> M = Xd.
Proof. destruct n as [|[|n]]; [| |lia]; intros _ H; cbn in H; injection H as <-; reflexivity. Qed.
Lemma Xd_gaps : hosvd_gaps Xd [1; 1]%nat.
Proof.
  intros n M Hn EM. apply Xd_unfold in EM; [|exact Hn]. subst M. change (Nat.min (nrows Xd) (ncols Xd)) with 2%nat.
  replace (Nat.min (nth n [1; 1]%nat 0%nat) 2) with 1%nat by (destruct n as [|[|n]]; [reflexivity|reflexivity|cbn in Hn; lia]).
  right. exists I2, sd, I2. split; [apply Xd_svd|].
  split; [intros p Hp; destruct p; unfold sd; lra|]. intros p q Hp Hq _. assert (p = 0)%nat by lia. subst p. destruct q; [lia|unfold sd; lra].
Qed.

(** both factors are the first unit vector up to the sign *)
Definition axis (A : list (tensor R)) : Prop := exists a b, a * a = 1 /\ b * b = 1 /\ A = [mkT [2; 1]%nat [a; 0]; mkT [2; 1]%nat [b; 0]].

Lemma column_gap (M : tensor R) svdU a : left_svd svdU -> a <> 0 -> M = mkT [2; 1]%nat [a; 0] ->
  gap_at M 1 /\ exists b, b * b = 1 /\ leading (svdU M) 1 = mkT [2; 1]%nat [b; 0].
Proof.
  intros HS Ha ->. set (M := mkT [2; 1]%nat [a; 0]). destruct (HS M ltac:(split; reflexivity) ltac:(discriminate) ltac:(discriminate)) as (s & W & HT). pose proof HT as HT0.
  destruct HT as (HU & HW & OU & OW & S1 & _ & HM). change (nrows M) with 2%nat in *. change (ncols M) with 1%nat in *. cbn [Nat.min] in *.
  pose proof (HM 0%nat 0%nat ltac:(lia) ltac:(lia)) as A0. pose proof (HM 1%nat 0%nat ltac:(lia) ltac:(lia)) as A1. cbn in A0, A1.
  change (mget M 0 0) with a in A0. change (mget M 1 0) with 0 in A1. pose proof (S1 0%nat ltac:(lia)) as S0.
  assert (U0 : shp (svdU M) = [2; 1]%nat) by apply HU. 
  pose proof (OU 0%nat 0%nat) as Q. unfold ncols, nrows in Q. rewrite U0 in Q. specialize (Q ltac:(cbn; lia) ltac:(cbn; lia)). cbn in Q.
  revert A0 A1 Q. Rn. intros A0 A1 Q.
  set (u := mget (svdU M) 0 0) in *. set (v := mget (svdU M) 1 0) in *. set (w := mget W 0 0) in *.
  assert (D : s 0%nat * w <> 0) by (intros D; apply Ha; rewrite A0; replace (u * s 0%nat * w) with (u * (s 0%nat * w)) by ring; rewrite D; ring).
  assert (V : v = 0) by (apply (Rmult_eq_reg_r (s 0%nat * w)); [lra|exact D]).
  split.
  - right. exists (svdU M), s, W. split; [exact HT0|]. split; [intros p Hp; assert (p = 0)%nat by lia; subst p|intros p q _ H1 H2; cbn in H2; lia].
    destruct (Req_dec (s 0%nat) 0) as [Z|Z]; [|lra]. exfalso. apply D. rewrite Z. ring.
  - exists u. split; [rewrite V in Q; lra|]. unfold leading. unfold nrows, ncols. rewrite U0. unfold mgen, gen. cbn. fold u v. rewrite V. reflexivity.
Qed.

Section Any.
  Variable svdU : tensor R -> tensor R.
  Hypothesis HS : left_svd svdU.
  Let rk := map Z.of_nat [1; 1]%nat.
  Lemma axis_state A : axis A -> factor_state Xd [1; 1]%nat A.
  Proof.
    intros (a & b & Ha & Hb & ->). split; [reflexivity|]. apply two; (split; [split; reflexivity|]); intros i j Hi Hj; cbn in Hi, Hj; assert (i = 0)%nat by lia; assert (j = 0)%nat by lia; subst;
      unfold mget, get; cbn; Rn; lra.
  Qed.
  Lemma axis_mode A n : axis A -> (n < 2)%nat ->
    (forall Y M, ttm Xd A None true (SkInt (Z.of_nat n)) = Ok Y -> unfold Y (Z.of_nat n) = Ok M -> gap_at M 1) /\
    forall A1, hooi_mode svdU Xd rk n A = Ok A1 -> axis A1.
  Proof.
    intros HA Hn. pose proof (axis_state A HA) as HF. pose proof (partial_run Xd [1; 1]%nat eq_refl eq_refl ltac:(cbn; lia) A n HF Hn) as EP.
    destruct (hooi_mode_cases svdU Xd [1; 1]%nat HS eq_refl Xd_ne ltac:(repeat constructor; discriminate) eq_refl ltac:(cbn; lia) A n HF Hn) as (M & EM & E).
    destruct HA as (a & b & Ha & Hb & ->).
    assert (F : exists c, c <> 0 /\ M = mkT [2; 1]%nat [c; 0]).
    { destruct n as [|[|n]]; [| |lia].
      - exists (2 * b). split; [intros C; nra|]. clear E EP. cbn in EM. injection EM as <-. unfold gen. cbn. Rn. f_equal. apply (f_equal2 cons); [lra|]. apply (f_equal2 cons); [lra|reflexivity].
      - exists (2 * a). split; [intros C; nra|]. clear E EP. cbn in EM. injection EM as <-. unfold gen. cbn. Rn. f_equal. apply (f_equal2 cons); [lra|]. apply (f_equal2 cons); [lra|reflexivity]. }
    destruct F as (c & Hc & EC). destruct (column_gap M svdU c HS Hc EC) as [G (d & Hd & Hl)]. split.
    - intros Y M1 EY EM1. rewrite EP in EY. injection EY as <-. rewrite EM in EM1. injection EM1 as <-. exact G.
    - intros A1 E1. unfold rk in E1. rewrite E in E1. destruct (Nat.leb _ _); [|discriminate]. injection E1 as <-.
      destruct n as [|[|n]]; [| |lia]; cbn [nth]; rewrite Hl; [exists d, b|exists a, d]; auto.
  Qed.
  Lemma axis_sweep modes : forall A, axis A -> (forall n, In n modes -> (n < 2)%nat) -> sweep_gaps svdU Xd [1; 1]%nat modes A /\ forall A1, hooi_modes svdU Xd rk modes A = Ok A1 -> axis A1.
  Proof.
    induction modes as [|n modes IH]; intros A HA Hm; [split; [exact I|intros A1 H; injection H as <-; exact HA]|].
    pose proof (Hm n (or_introl eq_refl)) as Hn. destruct (axis_mode A n HA Hn) as [G1 G2]. cbn [sweep_gaps hooi_modes]. split.
    - split; [|intros A1 E; apply IH; auto; intros j Hj; apply Hm; right; exact Hj].
      intros Y M EY EM. replace (nth n [1; 1]%nat 0%nat) with 1%nat by (destruct n as [|[|n]]; [reflexivity|reflexivity|lia]). apply (G1 Y M EY EM).
    - intros A1 E. apply bind_ok in E as (B & EB & E). apply (proj2 (IH B (G2 B EB) (fun j Hj => Hm j (or_intror Hj))) A1 E).
  Qed.
  Lemma axis_init A : hooi_init svdU Xd rk = Ok A -> axis A.
  Proof.
    intros E. destruct (hosvd_ok svdU Xd [1; 1]%nat HS eq_refl Xd_ne ltac:(cbn; lia) ltac:(cbn; lia)) as (o & Eo & F & _ & _ & FU).
    rewrite <- (hooi_init_hosvd svdU Xd rk A o E Eo).
    assert (K : forall n, (n < 2)%nat -> exists a, a * a = 1 /\ mat_at (tu_A o) n = mkT [2; 1]%nat [a; 0]).
    { intros n Hn. destruct (FU n Hn) as (M & EM & ->). apply Xd_unfold in EM; [|exact Hn]. subst M.
      replace (nth n [1; 1]%nat 0%nat) with 1%nat by (destruct n as [|[|n]]; [reflexivity|reflexivity|lia]).
      destruct (HS Xd ltac:(split; reflexivity) ltac:(discriminate) ltac:(discriminate)) as (s & W & HT).
      assert (SP : same_span (fun i => i) (leading I2 1) (leading (svdU Xd) 1)).
      { apply (leading_same Xd (fun _ i => i) ltac:(intros k _; split; auto) 0 Xd Xd I2 (svdU Xd) I2 W sd s); auto;
          try (split; reflexivity); [cbn; lia|apply Xd_svd|]. exact (Xd_gaps 0%nat Xd ltac:(cbn; lia) eq_refl). }
      destruct SP as (_ & _ & SP). pose proof (SP 0%nat 0%nat ltac:(cbn; lia) ltac:(cbn; lia)) as S0. pose proof (SP 1%nat 1%nat ltac:(cbn; lia) ltac:(cbn; lia)) as S1.
      assert (U0 : shp (svdU Xd) = [2; 2]%nat) by apply (proj1 HT).
      unfold outer in S0, S1. unfold leading, nrows, ncols in S0, S1. rewrite U0 in S0, S1. cbn in S0, S1. unfold mget in S0, S1. unfold get in S0, S1. cbn in S0, S1. revert S0 S1. Rn. intros S0 S1.
      exists (mget (svdU Xd) 0 0). unfold leading, nrows, ncols. rewrite U0. unfold mgen, gen. cbn. unfold mget in *. unfold get. change (@n0 R NumR) with 0. split; [lra|]. f_equal. apply (f_equal2 cons); [reflexivity|]. apply (f_equal2 cons); [|reflexivity]. apply Rsqr_0_uniq. unfold Rsqr. lra. }
    destruct F as [FL _]. cbn in FL. destruct (K 0%nat ltac:(lia)) as (a & Ha & E0). destruct (K 1%nat ltac:(lia)) as (b & Hb & E1). exists a, b. split; [exact Ha|]. split; [exact Hb|].
    destruct (tu_A o) as [|x [|y [|z l]]]; try discriminate FL. cbn in E0, E1. rewrite E0, E1. reflexivity.
  Qed.
  Lemma Xd_hooi_gaps steps : hooi_gaps svdU Xd [1; 1]%nat steps.
  Proof.
    split; [apply Xd_gaps|]. intros j A _ HA. apply axis_sweep; [|intros n Hn; apply in_seq in Hn; cbn in Hn; lia].
    induction HA as [A E|j A o HA IH E]; [apply axis_init, E|]. unfold hooi_step in E. apply bind_ok in E as (B & EB & E). apply bind_ok in E as (g & _ & E). apply bind_ok in E as (f & _ & E).
    apply bind_ok in E as (m & _ & E). injection E as <-. cbn [ho_A]. apply (proj2 (axis_sweep (seq 0 (ndims Xd)) A IH ltac:(intros n Hn; apply in_seq in Hn; cbn in Hn; lia)) B EB).
  Qed.
End Any.

(** ** without a gap *)
Definition choose (V : tensor R) (svdU : tensor R -> tensor R) (M : tensor R) : tensor R :=
  if list_eq_dec Nat.eq_dec (shp M) [2; 2]%nat then if list_eq_dec Req_EM_T (dat M) [1; 0; 0; 1] then V else svdU M else svdU M.
Lemma choose_I2 V svdU : choose V svdU I2 = V.
Proof.
  unfold choose, I2. cbn [shp dat]. destruct (list_eq_dec Nat.eq_dec [2; 2]%nat [2; 2]%nat) as [_|C]; [|exfalso; apply C; reflexivity].
  destruct (list_eq_dec Req_EM_T [1; 0; 0; 1] [1; 0; 0; 1]) as [_|C]; [reflexivity|exfalso; apply C; reflexivity].
Qed.
Lemma choose_left V svdU : V = I2 \/ V = J2 -> left_svd svdU -> left_svd (choose V svdU).
Proof.
  intros HV HS M HM H1 H2. unfold choose. destruct (list_eq_dec Nat.eq_dec (shp M) [2; 2]%nat) as [Es|]; [|apply HS; auto].
  destruct (list_eq_dec Req_EM_T (dat M) [1; 0; 0; 1]) as [Ed|]; [|apply HS; auto].
  destruct M as [s d]. cbn [shp dat] in Es, Ed. subst. exists (fun _ => 1), V. unfold thin_svd. change (Nat.min (nrows (mkT [2; 2]%nat [1; 0; 0; 1])) (ncols (mkT [2; 2]%nat [1; 0; 0; 1]))) with 2%nat.
  assert (O : orthonormal V) by (destruct HV as [-> | -> ]; [apply I2_ortho|apply J2_ortho]).
  assert (Q : is_mat V 2 2) by (destruct HV as [-> | -> ]; split; reflexivity).
  split; [exact Q|]. split; [exact Q|]. split; [exact O|]. split; [exact O|]. split; [intros; lra|]. split; [intros; lra|].
  intros i j Hi Hj. cbn in Hi, Hj. revert i j Hi Hj. destruct HV as [-> | -> ]; apply two2; unfold mget, get; cbn; Rn; lra.
Qed.
Lemma no_gap : exists svdU svdU' (X : tensor R) ranks o o', left_svd svdU /\ left_svd svdU' /\ wf X /\ nonempty (shp X) /\ length ranks = ndims X /\
  hosvd svdU X (map Z.of_nat ranks) = Ok o /\ hosvd svdU' X (map Z.of_nat ranks) = Ok o' /\ tu_full o <> tu_full o'.
Proof.
  destruct left_svd_exists as (s & HS). exists (choose I2 s), (choose J2 s), I2, [1; 1]%nat.
  assert (K : forall V, V = I2 \/ V = J2 -> exists o, hosvd (choose V s) I2 (map Z.of_nat [1; 1]%nat) = Ok o /\ get (tu_full o) [0; 0]%nat = mget V 0 0 * mget V 0 0 * (mget V 0 0 * mget V 0 0 + mget V 1 0 * mget V 1 0)).
  { intros V HV. destruct (hosvd_ok (choose V s) I2 [1; 1]%nat (choose_left V s HV HS) eq_refl ltac:(repeat constructor; discriminate) ltac:(cbn; lia) ltac:(cbn; lia)) as (o & Eo & (FL & _) & FG & FF & FU).
    exists o. split; [exact Eo|]. destruct (FU 0%nat ltac:(cbn; lia)) as (M & EM & E0). destruct (FU 1%nat ltac:(cbn; lia)) as (M' & EM' & E1).
    cbn in EM, EM'. injection EM as <-. injection EM' as <-. change (gen _ _) with I2 in E0, E1. rewrite choose_I2 in E0, E1.
    destruct (tu_A o) as [|x [|y [|z l]]] eqn:EA; try discriminate FL. cbn in E0, E1. subst x y. rewrite FF, FG.
    destruct HV as [-> | -> ]; unfold tucker_tensor, project, gen, I2, J2, leading, mgen, mat_at, mget, get, nrows, ncols, msum, bigsum; cbn; unfold gen; cbn; unfold get; cbn; Rn; lra. }
  destruct (K I2 (or_introl eq_refl)) as (o & Eo & G). destruct (K J2 (or_intror eq_refl)) as (o' & Eo' & G'). exists o, o'.
  split; [apply choose_left; auto|]. split; [apply choose_left; auto|]. split; [reflexivity|]. split; [repeat constructor; discriminate|]. split; [reflexivity|]. split; [exact Eo|]. split; [exact Eo'|].
  intros C. rewrite C, G' in G. unfold mget, get in G. cbn in G. lra.
Qed.

(** the rows of the first mode change places *)
Definition flip (k i : nat) : nat := match k with O => (1 - i)%nat | S _ => i end.
Lemma flip_ok : relabelling (shp Xd) flip.
Proof. intros k Hk. cbn in Hk. destruct k as [|[|k]]; [| |lia]; cbn -[Nat.sub]; split; intros; lia. Qed.
Lemma ex102_gaps : wf Xd /\ nonempty (shp Xd) /\ nonempty [1; 1]%nat /\ relabelling (shp Xd) flip /\ relabel flip Xd = mkT [2; 2]%nat [0; 1; 2; 0] /\
  hosvd_gaps Xd [1; 1]%nat /\ forall svdU, left_svd svdU -> forall steps, hooi_gaps svdU Xd [1; 1]%nat steps.
Proof.
  split; [reflexivity|]. split; [apply Xd_ne|]. split; [repeat constructor; discriminate|]. split; [apply flip_ok|]. split; [reflexivity|]. split; [apply Xd_gaps|apply Xd_hooi_gaps].
Qed.
Lemma ex102_train : exists svdU svdU', left_svd svdU /\ left_svd svdU' /\
  let o := mkObj (Some ((mkArgs (1/10) 1%Z false, map Z.of_nat [1; 1]%nat), 7%nat)) pub0 in
  same_obj flip o o /\ exists q q' h, hooi_train svdU Xd (mkW [7%nat] true) o tt 5 = (q, Ok h) /\
    hooi_train svdU' (relabel flip Xd) (mkW [7%nat] true) o tt 5 = (q', Ok h) /\ p_finish (o_pub q) = true /\ p_finish (o_pub q') = true.
Proof.
  destruct left_svd_exists as (s & HS). exists (choose I2 s), (choose J2 s). pose proof (choose_left I2 s (or_introl eq_refl) HS) as H1. pose proof (choose_left J2 s (or_intror eq_refl) HS) as H2.
  split; [exact H1|]. split; [exact H2|]. intros o.
  assert (HO : same_obj flip o o) by (split; [reflexivity|]; repeat split). split; [exact HO|].
  assert (R1 : nonempty [1; 1]%nat) by (repeat constructor; discriminate).
  assert (G : exists q h, hooi_train (choose I2 s) Xd (mkW [7%nat] true) o tt 5 = (q, Ok h)).
  { eapply (c54_hooi_total (choose I2 s) Xd [1; 1]%nat); eauto; try reflexivity; try apply Xd_ne; try (cbn; lia).
    - apply two; vm_compute; lia. }
  destruct G as (q & h & E).
  pose proof (proj2 (hooi_train_relabel (choose I2 s) (choose J2 s) Xd [1; 1]%nat flip H1 H2 eq_refl Xd_ne flip_ok R1 eq_refl ltac:(cbn; lia) (mkW [7%nat] true) _ 7%nat 5 o o
    (Xd_hooi_gaps (choose I2 s) H1 5) eq_refl HO)) as K. rewrite E in K. cbn [snd] in K.
  destruct (hooi_train (choose J2 s) (relabel flip Xd) (mkW [7%nat] true) o tt 5) as [q' r'] eqn:E'. cbn [snd] in K. subst r'.
  exists q, q', h. split; [exact E|]. split; [reflexivity|].
  assert (F : forall U Y p, hooi_train U Y (mkW [7%nat] true) o tt 5 = (p, Ok h) -> p_finish (o_pub p) = true).
  { intros U Y p Q. unfold hooi_train, obj_train in Q. cbn [o_built o] in Q. destruct (negb _); [discriminate|]. destruct (hooi_body _ _ _ _ _ _ _) as [p1 [h1|]]; [|discriminate].
    injection Q as <- _. reflexivity. }
  split; eapply F; [exact E|exact E'].
Qed.
Lemma ex102_units : exists svdU svdU', left_svd svdU /\ left_svd svdU' /\
  let o := mkObj (Some ((mkArgs (1/10) 1%Z false, map Z.of_nat [1; 1]%nat), 7%nat)) pub0 in
  same_obj flip o o /\ exists q q' h h', hooi_train svdU Xd (mkW [7%nat] true) o tt 5 = (q, Ok h) /\
    hooi_train svdU' (scale 3 (relabel flip Xd)) (mkW [7%nat] true) o tt 5 = (q', Ok h').
Proof.
  destruct left_svd_exists as (s & HS). exists (choose I2 s), (choose J2 s). pose proof (choose_left I2 s (or_introl eq_refl) HS) as H1. pose proof (choose_left J2 s (or_intror eq_refl) HS) as H2.
  split; [exact H1|]. split; [exact H2|]. intros o. split; [split; [reflexivity|]; repeat split|].
  assert (R1 : nonempty [1; 1]%nat) by (repeat constructor; discriminate).
  assert (G : forall svdU Y, left_svd svdU -> shp Y = [2; 2]%nat -> wf Y -> exists q h, hooi_train svdU Y (mkW [7%nat] true) o tt 5 = (q, Ok h)).
  { intros svdU Y HU ES HY. assert (Hne : nonempty (shp Y)) by (rewrite ES; repeat constructor; discriminate). assert (Hd : ndims Y = 2%nat) by (unfold ndims; rewrite ES; reflexivity).
    eapply (c54_hooi_total svdU Y [1; 1]%nat); eauto; try reflexivity; try (cbn; lia).
    all: try (rewrite Hd); try (rewrite ES); try lia.
    - apply two; vm_compute; lia. }
  destruct (G (choose I2 s) Xd H1 eq_refl eq_refl) as (q & h & E). destruct (G (choose J2 s) (scale 3 (relabel flip Xd)) H2 eq_refl eq_refl) as (q' & h' & E').
  exists q, q', h, h'. split; assumption.
Qed.
