(** Rounding errors of programs of tensor operations. *)

From Coq Require Import ZArith Reals List Bool Arith SpecFloat Lia Lra Permutation.
From Verif Require Import Num Py Tensor TF Ops Types Loss TProg ParamFacts FloatFacts SpecRound Sums TensorFacts TFFacts LayoutFacts MulFacts Spec Matricize RSums.
Import ListNotations.
Local Open Scope R_scope.

Lemma NumFl_32 : NumFl 24 128 = NumF32.
Proof. reflexivity. Qed.

Section Fmt.
  Variables prec emax : Z.
  Hypothesis F : format prec emax.
  Let Hp : (1 < prec)%Z := proj1 F.
  Let Hpe : (2 * prec < emax)%Z := proj2 F.
  Notation u := (unit_roundoff prec).
  Notation eta := (underflow_unit prec emax).
  Local Definition NF : Num spec_float := NumFl prec emax.

  Lemma u_pos : 0 < u.
  Proof. apply b2_pos. Qed.
  Lemma eta_pos : 0 < eta.
  Proof. apply b2_pos. Qed.

  (** constants *)
  Lemma one_spec : f_multiple prec emax (@n1 _ NF) /\ f_finite (@n1 _ NF) /\ f_val (@n1 _ NF) = 1.
  Proof.
    apply (normalize_int prec emax Hp Hpe 1 0 false 1); [cbn; lra|]. pose proof (Z.pow_pos_nonneg 2 prec). lia.
  Qed.
  Lemma ofZ_spec z : (Z.abs z <= 2 ^ prec)%Z -> f_multiple prec emax (@nofZ _ NF z) /\ f_finite (@nofZ _ NF z) /\ f_val (@nofZ _ NF z) = IZR z.
  Proof. intros H. apply (normalize_int prec emax Hp Hpe z 0 false z); [cbn; lra|exact H]. Qed.

  (** 0.5 *)
  Lemma half_spec : f_multiple prec emax (@nhalf _ NF) /\ f_finite (@nhalf _ NF) /\ f_val (@nhalf _ NF) = 1 / 2.
  Proof.
    destruct one_spec as (_ & A2 & A3). assert (P : (2 ^ 1 <= 2 ^ prec)%Z) by (apply Z.pow_le_mono_r; lia). change (2 ^ 1)%Z with 2%Z in P.
    destruct (ofZ_spec 2 ltac:(lia)) as (_ & B2 & B3). split.
    - exact (proj1 (div_spec prec emax Hp _ _ A2 B2)).
    - assert (E : f_val (@n1 _ NF) / f_val (@nofZ _ NF 2) = 1 / 2) by (rewrite A3, B3; reflexivity). unfold nhalf. rewrite <- E.
      apply (div_repr prec emax Hp Hpe _ _ 1 (-1)); auto; try lra; try lia.
      rewrite E. change (b2 (-1)) with (/ (2 * 1)). lra.
  Qed.

  (** exact value, value with absolute values, enlarged value *)
  Local Definition Num3 : Num (R * R * R) := {|
    n0 := (0, 0, 0); n1 := (1, 1, 1);
    nadd := fun a b => (fst (fst a) + fst (fst b), snd (fst a) + snd (fst b), (1 + u) * (snd a + snd b));
    nsub := fun a b => (fst (fst a) - fst (fst b), snd (fst a) + snd (fst b), (1 + u) * (snd a + snd b));
    nmul := fun a b => (fst (fst a) * fst (fst b), snd (fst a) * snd (fst b), (1 + u) * (snd a * snd b) + eta);
    ndiv := fun a b => (fst (fst a) / fst (fst b), snd (fst a) / snd (fst b), snd a / snd b);
    nopp := fun a => a; nsqrt := fun a => a; nabs := fun a => a; nltb := fun _ _ => false; neqb := fun _ _ => false;
    nofZ := fun z => (IZR z, IZR z, IZR z) |}.
  Definition err_rel (x : spec_float) (p : R * R * R) : Prop :=
    f_multiple prec emax x /\ Rabs (fst (fst p)) <= snd (fst p) <= snd p /\ (f_finite x -> Rabs (f_val x - fst (fst p)) <= snd p - snd (fst p)).

  Lemma tri a b c : Rabs (a - c) <= Rabs (a - b) + Rabs (b - c).
  Proof. replace (a - c) with ((a - b) + (b - c)) by ring. apply Rabs_triang. Qed.
  Lemma near_abs v b e : Rabs (v - b) <= e -> Rabs v <= Rabs b + e.
  Proof. intros H. replace v with ((v - b) + b) by ring. pose proof (Rabs_triang (v - b) b). lra. Qed.

  Lemma err_0 : err_rel (@n0 _ NF) (@n0 _ Num3).
  Proof. split; [exact I|]. cbn. rewrite Rminus_0_r, Rabs_R0. lra. Qed.
  Lemma err_const x v : f_multiple prec emax x -> f_val x = v -> err_rel x (v, Rabs v, Rabs v).
  Proof. intros H <-. split; [exact H|]. cbn. split; [lra|]. intros _. rewrite Rminus_diag_eq, Rabs_R0 by reflexivity. lra. Qed.
  Lemma err_1 : err_rel (@n1 _ NF) (@n1 _ Num3).
  Proof. destruct one_spec as (A & _ & B). pose proof (err_const _ _ A B) as H. rewrite Rabs_pos_eq in H by lra. exact H. Qed.
  Lemma err_half : err_rel (@nhalf _ NF) (@nhalf _ Num3).
  Proof. destruct half_spec as (A & _ & B). pose proof (err_const _ _ A B) as H. rewrite Rabs_pos_eq in H by lra. exact H. Qed.
  Lemma err_add a p b q : err_rel a p -> err_rel b q -> err_rel (@nadd _ NF a b) (@nadd _ Num3 p q).
  Proof.
    intros (M1 & B1 & E1) (M2 & B2 & E2). destruct p as [[x c] d], q as [[x' c'] d']. cbn [fst snd] in *.
    destruct (add_spec prec emax Hp Hpe a b M1 M2) as (M & H & _). pose proof u_pos as U. split; [exact M|]. cbn [nadd Num3 fst snd]. split.
    - pose proof (Rabs_triang x x'). pose proof (Rabs_pos x). pose proof (Rabs_pos x'). split; [lra|]. nra.
    - intros Fz. destruct (H Fz) as (Fa & Fb & K). specialize (E1 Fa). specialize (E2 Fb).
      pose proof (near_abs _ _ _ E1). pose proof (near_abs _ _ _ E2). pose proof (Rabs_triang (f_val a) (f_val b)).
      pose proof (tri (f_val (SFadd prec emax a b)) (f_val a + f_val b) (x + x')) as T.
      assert (S1 : Rabs (f_val a + f_val b - (x + x')) <= (d - c) + (d' - c')).
      { replace (f_val a + f_val b - (x + x')) with ((f_val a - x) + (f_val b - x')) by ring. pose proof (Rabs_triang (f_val a - x) (f_val b - x')). lra. }
      assert (u * Rabs (f_val a + f_val b) <= u * (d + d')) by (apply Rmult_le_compat_l; lra).
      unfold NF. cbn [nadd NumFl]. lra.
  Qed.
  Lemma err_sub a p b q : err_rel a p -> err_rel b q -> err_rel (@nsub _ NF a b) (@nsub _ Num3 p q).
  Proof.
    intros (M1 & B1 & E1) (M2 & B2 & E2). destruct p as [[x c] d], q as [[x' c'] d']. cbn [fst snd] in *.
    destruct (sub_spec prec emax Hp Hpe a b M1 M2) as (M & H & _). pose proof u_pos as U. split; [exact M|]. cbn [nsub Num3 fst snd]. split.
    - pose proof (Rabs_triang x (- x')) as T. rewrite Rabs_Ropp in T. pose proof (Rabs_pos x). pose proof (Rabs_pos x'). split; [unfold Rminus; lra|]. nra.
    - intros Fz. destruct (H Fz) as (Fa & Fb & K). specialize (E1 Fa). specialize (E2 Fb).
      pose proof (near_abs _ _ _ E1). pose proof (near_abs _ _ _ E2). pose proof (Rabs_triang (f_val a) (- f_val b)) as T0. rewrite Rabs_Ropp in T0.
      pose proof (tri (f_val (SFsub prec emax a b)) (f_val a - f_val b) (x - x')) as T.
      assert (S1 : Rabs (f_val a - f_val b - (x - x')) <= (d - c) + (d' - c')).
      { replace (f_val a - f_val b - (x - x')) with ((f_val a - x) + - (f_val b - x')) by ring. pose proof (Rabs_triang (f_val a - x) (- (f_val b - x'))) as T1. rewrite Rabs_Ropp in T1. lra. }
      assert (u * Rabs (f_val a - f_val b) <= u * (d + d')) by (apply Rmult_le_compat_l; [lra|]; unfold Rminus; lra).
      unfold NF. cbn [nsub NumFl]. lra.
  Qed.
  Lemma err_mul a p b q : err_rel a p -> err_rel b q -> err_rel (@nmul _ NF a b) (@nmul _ Num3 p q).
  Proof.
    intros (M1 & B1 & E1) (M2 & B2 & E2). destruct p as [[x c] d], q as [[x' c'] d']. cbn [fst snd] in *.
    destruct (mul_spec prec emax Hp Hpe a b) as (M & H & _). pose proof u_pos as U. pose proof eta_pos as Et. split; [exact M|]. cbn [nmul Num3 fst snd].
    pose proof (Rabs_pos x) as X0. pose proof (Rabs_pos x') as X0'.
    assert (CD : c * c' <= d * d') by (apply Rmult_le_compat; lra). split.
    - split; [rewrite Rabs_mult; apply Rmult_le_compat; lra|]. assert (0 <= d * d') by (apply Rmult_le_pos; lra). nra.
    - intros Fz. destruct (H Fz) as (Fa & Fb & K). specialize (E1 Fa). specialize (E2 Fb).
      pose proof (near_abs _ _ _ E1). pose proof (near_abs _ _ _ E2).
      pose proof (tri (f_val (SFmul prec emax a b)) (f_val a * f_val b) (x * x')) as T.
      assert (S1 : Rabs (f_val a * f_val b - x * x') <= d * d' - c * c').
      { replace (f_val a * f_val b - x * x') with (f_val a * (f_val b - x') + (f_val a - x) * x') by ring.
        pose proof (Rabs_triang (f_val a * (f_val b - x')) ((f_val a - x) * x')) as T1. rewrite !Rabs_mult in T1.
        assert (Rabs (f_val a) * Rabs (f_val b - x') <= d * (d' - c')) by (apply Rmult_le_compat; try apply Rabs_pos; lra).
        assert (Rabs (f_val a - x) * Rabs x' <= (d - c) * c') by (apply Rmult_le_compat; try apply Rabs_pos; lra). lra. }
      assert (Rabs (f_val a * f_val b) <= d * d') by (rewrite Rabs_mult; apply Rmult_le_compat; try apply Rabs_pos; lra).
      assert (u * Rabs (f_val a * f_val b) <= u * (d * d')) by (apply Rmult_le_compat_l; lra).
      unfold NF. cbn [nmul NumFl]. lra.
  Qed.

  (** ** programs *)
  Definition inj3 (x : spec_float) : R * R * R := (f_val x, abs_val x, abs_val x).
  Lemma trel_inj3 t : of_format prec emax t -> trel err_rel t (tmap inj3 t).
  Proof.
    intros H. split; [reflexivity|]. cbn. unfold of_format in H. induction H as [|x l Hx H IH]; cbn; [constructor|]. constructor; [|exact IH]. exact (err_const x (f_val x) Hx eq_refl).
  Qed.
  Lemma trel_map {A B} (P : A -> B -> Prop) (f : A -> B) t : (forall x, P x (f x)) -> trel P t (tmap f t).
  Proof. intros H. split; [reflexivity|]. cbn. induction (dat t); cbn; constructor; auto. Qed.
  Lemma trel_fun {A B} (f : A -> B) t s : trel (fun a b => f a = b) t s -> s = tmap f t.
  Proof. intros [H1 H2]. destruct t as [st dt], s as [ss ds]. cbn in *. subst ss. unfold tmap. cbn. f_equal. induction H2; cbn; [reflexivity|]. congruence. Qed.

  Lemma env_rel {A B} (P : A -> B -> Prop) (Q : tensor A -> Prop) (f : A -> B) env :
    (forall t, Q t -> trel P t (tmap f t)) -> Forall Q env -> Forall2 (trel P) env (map (tmap f) env).
  Proof. intros K. induction 1; cbn; constructor; auto. Qed.

  Lemma proj_hom {B} (NB : Num B) (f : R * R * R -> B) (g : spec_float -> B) env e Y :
    (forall x, f (inj3 x) = g x) ->
    f (@n0 _ Num3) = n0 -> f (@n1 _ Num3) = n1 -> f (@nhalf _ Num3) = nhalf ->
    (forall a b, f (@nadd _ Num3 a b) = nadd (f a) (f b)) -> (forall a b, f (@nsub _ Num3 a b) = nsub (f a) (f b)) -> (forall a b, f (@nmul _ Num3 a b) = nmul (f a) (f b)) ->
    teval (N := Num3) (map (tmap inj3) env) e = Ok Y -> teval (map (tmap g) env) e = Ok (tmap f Y).
  Proof.
    intros Hg H0 H1 Hh Ha Hs Hm HY.
    assert (R : rrel (trel (fun a b => f a = b)) (teval (N := Num3) (map (tmap inj3) env) e) (teval (map (tmap g) env) e)).
    { apply (teval_rel (N1 := Num3) (fun a b => f a = b)); auto; try (intros; subst; auto).
      clear HY. induction env as [|t env IH]; cbn; [constructor|]. constructor; [|exact IH]. split; [reflexivity|]. cbn. clear -Hg. induction (dat t); cbn; constructor; auto. }
    rewrite HY in R. destruct (teval (map (tmap g) env) e) as [y|]; [|contradiction]. cbn in R. f_equal. apply trel_fun, R.
  Qed.

  Theorem program_error env e : Forall (of_format prec emax) env ->
    match teval (N := NF) env e with
    | Raise x => teval (map (tmap f_val) env) e = Raise x
    | Ok Y => exists B C D,
        teval (map (tmap f_val) env) e = Ok B /\
        teval (N := NumAbs) (map (tmap abs_val) env) e = Ok C /\
        teval (N := NumInfl u eta) (map (tmap abs_val) env) e = Ok D /\
        shp Y = shp B /\ shp C = shp B /\ shp D = shp B /\
        length (dat Y) = length (dat B) /\ length (dat C) = length (dat B) /\ length (dat D) = length (dat B) /\
        forall k, (k < length (dat Y))%nat -> f_finite (nth k (dat Y) S754_nan) ->
          Rabs (f_val (nth k (dat Y) S754_nan) - nth k (dat B) 0) <= nth k (dat D) 0 - nth k (dat C) 0
    end.
  Proof.
    intros HE. assert (R : rrel (trel err_rel) (teval (N := NF) env e) (teval (N := Num3) (map (tmap inj3) env) e)).
    { apply (teval_rel (N1 := NF) (N2 := Num3) err_rel); auto using err_0, err_1, err_half, err_add, err_sub, err_mul.
      apply (env_rel err_rel (of_format prec emax)); [exact trel_inj3|exact HE]. }
    destruct (teval (N := NF) env e) as [Y|x] eqn:EY.
    - destruct (teval (N := Num3) (map (tmap inj3) env) e) as [P|] eqn:EP; [|contradiction]. cbn in R.
      exists (tmap (fun p => fst (fst p)) P), (tmap (fun p => snd (fst p)) P), (tmap snd P).
      split; [apply (proj_hom NumR (fun p => fst (fst p)) f_val env e P); auto|].
      split; [apply (proj_hom NumAbs (fun p => snd (fst p)) abs_val env e P); auto|].
      split; [apply (proj_hom (NumInfl u eta) snd abs_val env e P); auto|].
      destruct R as [R1 R2]. cbn [tmap shp dat]. rewrite !map_length, R1, (Forall2_len' _ _ _ R2). repeat (split; [reflexivity|]).
      intros k Hk Fk. pose proof (Forall2_nth_d err_rel (dat Y) (dat P) S754_nan (0, 0, 0) R2) as N.
      assert (Nd : err_rel S754_nan (0, 0, 0)). { split; [exact I|]. cbn. rewrite Rabs_R0. split; [lra|intros []]. }
      specialize (N Nd k). destruct N as (_ & _ & N). specialize (N Fk).
      pose proof (map_nth (fun p : R * R * R => fst (fst p)) (dat P) (0, 0, 0) k) as N1.
      pose proof (map_nth (fun p : R * R * R => snd (fst p)) (dat P) (0, 0, 0) k) as N2.
      pose proof (map_nth (@snd (R * R) R) (dat P) (0, 0, 0) k) as N3. cbn [fst snd] in N1, N2, N3. rewrite N1, N2, N3. exact N.
    - destruct (teval (N := Num3) (map (tmap inj3) env) e) as [P|y] eqn:EP; [contradiction|]. cbn in R. subst y.
      assert (R' : rrel (trel (fun (a : R * R * R) b => fst (fst a) = b)) (teval (N := Num3) (map (tmap inj3) env) e) (teval (map (tmap f_val) env) e)).
      { apply (teval_rel (N1 := Num3) (fun a b => fst (fst a) = b)); auto; try (intros; subst; auto).
        clear. induction env as [|t env IH]; cbn; [constructor|]. constructor; [|exact IH]. split; [reflexivity|]. cbn. induction (dat t); cbn; constructor; auto. }
      rewrite EP in R'. destruct (teval (map (tmap f_val) env) e); [contradiction|]. cbn in R'. congruence.
  Qed.
End Fmt.

(** ** depth *)
Definition NumProd {A B} (NA : Num A) (NB : Num B) : Num (A * B) := {|
  n0 := (n0, n0); n1 := (n1, n1);
  nadd := fun a b => (nadd (fst a) (fst b), nadd (snd a) (snd b));
  nsub := fun a b => (nsub (fst a) (fst b), nsub (snd a) (snd b));
  nmul := fun a b => (nmul (fst a) (fst b), nmul (snd a) (snd b));
  ndiv := fun a b => (ndiv (fst a) (fst b), ndiv (snd a) (snd b));
  nopp := fun a => a; nsqrt := fun a => a; nabs := fun a => a; nltb := fun _ _ => false; neqb := fun _ _ => false;
  nofZ := fun z => (nofZ z, nofZ z) |}.

Lemma trel_maps {A B C} (P : B -> C -> Prop) (f : A -> B) (g : A -> C) t : (forall x, P (f x) (g x)) -> trel P (tmap f t) (tmap g t).
Proof. intros H. split; [reflexivity|]. cbn. induction (dat t); cbn; constructor; auto. Qed.
Lemma env_maps {A B C} (P : B -> C -> Prop) (f : A -> B) (g : A -> C) env : (forall x, P (f x) (g x)) -> Forall2 (trel P) (map (tmap f) env) (map (tmap g) env).
Proof. intros H. induction env; cbn; constructor; [apply trel_maps, H|assumption]. Qed.

(** a map that respects the arithmetic commutes with programs *)
Lemma teval_hom {A B} {NA : Num A} {NB : Num B} (f : A -> B) env e :
  f n0 = n0 -> f n1 = n1 -> f nhalf = nhalf ->
  (forall a b, f (nadd a b) = nadd (f a) (f b)) -> (forall a b, f (nsub a b) = nsub (f a) (f b)) -> (forall a b, f (nmul a b) = nmul (f a) (f b)) ->
  teval (map (tmap f) env) e = res_map (tmap f) (teval env e).
Proof.
  intros H0 H1 Hh Ha Hs Hm.
  assert (R : rrel (trel (fun a b => f a = b)) (teval env e) (teval (map (tmap f) env) e)).
  { apply teval_rel; auto; try (intros; subst; auto). clear. induction env as [|t env IH]; cbn; [constructor|]. constructor; [|exact IH]. apply trel_map. reflexivity. }
  destruct (teval env e), (teval (map (tmap f) env) e); cbn in *; try contradiction; [f_equal; apply trel_fun, R|congruence].
Qed.

Lemma pow1u u n : 0 <= u -> 1 <= (1 + u) ^ n.
Proof. intros H. apply pow_R1_Rle. lra. Qed.
Lemma powu_mono u n m : 0 <= u -> (n <= m)%nat -> (1 + u) ^ n <= (1 + u) ^ m.
Proof. intros H L. apply Rle_pow; [lra|exact L]. Qed.

Section Depth.
  Variables u eta : R.
  Hypothesis Hu : 0 <= u.
  Hypothesis He : 0 <= eta.
  Local Definition NED : Num (R * nat) := NumProd (NumInfl 0 eta) NumDepth.
  Definition dep_rel (d : R) (p : R * nat) : Prop := 0 <= d /\ d <= (1 + u) ^ snd p * fst p /\ 0 <= fst p.

  Lemma dep_add a p b q : dep_rel a p -> dep_rel b q -> dep_rel (@nadd _ (NumInfl u eta) a b) (@nadd _ NED p q).
  Proof.
    intros (A0 & A1 & A2) (B0 & B1 & B2). destruct p as [x n], q as [y m]. cbn [fst snd nadd NED NumProd NumInfl NumDepth] in *. unfold dep_rel. cbn [fst snd].
    split; [apply Rmult_le_pos; lra|]. split; [|lra]. cbn [pow]. rewrite Rmult_assoc. apply Rmult_le_compat_l; [lra|]. rewrite Rplus_0_r, Rmult_1_l, Rmult_plus_distr_l.
    pose proof (powu_mono u n (Nat.max n m) Hu ltac:(lia)). pose proof (powu_mono u m (Nat.max n m) Hu ltac:(lia)).
    apply Rplus_le_compat; [apply Rle_trans with ((1 + u) ^ n * x); [exact A1|]|apply Rle_trans with ((1 + u) ^ m * y); [exact B1|]]; apply Rmult_le_compat_r; assumption.
  Qed.
  Lemma dep_mul a p b q : dep_rel a p -> dep_rel b q -> dep_rel (@nmul _ (NumInfl u eta) a b) (@nmul _ NED p q).
  Proof.
    intros (A0 & A1 & A2) (B0 & B1 & B2). destruct p as [x n], q as [y m]. cbn [fst snd nmul NED NumProd NumInfl NumDepth] in *. unfold dep_rel. cbn [fst snd].
    assert (P1 : 0 <= a * b) by (apply Rmult_le_pos; lra). assert (P2 : 0 <= x * y) by (apply Rmult_le_pos; lra).
    split; [apply Rplus_le_le_0_compat; [apply Rmult_le_pos; lra|exact He]|]. split; [|lra].
    assert (H : a * b <= (1 + u) ^ (n + m) * (x * y)).
    { rewrite pow_add. replace ((1 + u) ^ n * (1 + u) ^ m * (x * y)) with (((1 + u) ^ n * x) * ((1 + u) ^ m * y)) by ring. apply Rmult_le_compat; assumption. }
    pose proof (pow1u u (S (n + m)) Hu) as Q. rewrite Rmult_plus_distr_l. apply Rplus_le_compat.
    - cbn [pow]. rewrite Rmult_assoc. apply Rmult_le_compat_l; [lra|]. rewrite Rplus_0_r, Rmult_1_l. exact H.
    - rewrite <- (Rmult_1_l eta) at 1. apply Rmult_le_compat_r; assumption.
  Qed.

  Theorem program_depth (env : list (tensor spec_float)) e D :
    teval (N := NumInfl u eta) (map (tmap abs_val) env) e = Ok D ->
    exists E d, teval (N := NumInfl 0 eta) (map (tmap abs_val) env) e = Ok E /\
      teval (N := NumDepth) (map (tmap (fun _ => 0%nat)) env) e = Ok d /\
      shp E = shp D /\ shp d = shp D /\ length (dat E) = length (dat D) /\ length (dat d) = length (dat D) /\
      forall k, 0 <= nth k (dat D) 0 <= (1 + u) ^ nth k (dat d) 0%nat * nth k (dat E) 0.
  Proof.
    intros HD. set (inj := fun x : spec_float => (abs_val x, 0%nat)).
    assert (R : rrel (trel dep_rel) (teval (N := NumInfl u eta) (map (tmap abs_val) env) e) (teval (N := NED) (map (tmap inj) env) e)).
    { apply (teval_rel (N1 := NumInfl u eta) (N2 := NED) dep_rel); auto using dep_add, dep_mul.
      - unfold dep_rel. cbn. lra.
      - unfold dep_rel. cbn. lra.
      - unfold dep_rel, nhalf. cbn. lra.
      - exact dep_add.
      - apply env_maps. intros x. unfold dep_rel, inj. cbn. pose proof (Rabs_pos (f_val x)). unfold abs_val. lra. }
    rewrite HD in R. destruct (teval (N := NED) (map (tmap inj) env) e) as [P|] eqn:EP; [|contradiction]. cbn in R.
    pose proof (teval_hom (NA := NED) (NB := NumInfl 0 eta) fst (map (tmap inj) env) e eq_refl eq_refl eq_refl ltac:(reflexivity) ltac:(reflexivity) ltac:(reflexivity)) as H1.
    pose proof (teval_hom (NA := NED) (NB := NumDepth) snd (map (tmap inj) env) e eq_refl eq_refl eq_refl ltac:(reflexivity) ltac:(reflexivity) ltac:(reflexivity)) as H2.
    rewrite EP in H1, H2. cbn [res_map] in H1, H2. rewrite map_map in H1, H2.
    exists (tmap fst P), (tmap snd P). destruct R as [R1 R2]. split; [|split; [|cbn [tmap shp dat]; rewrite !map_length, R1, (Forall2_len' _ _ _ R2); repeat (split; [reflexivity|])]].
    - rewrite <- H1. f_equal. apply map_ext. intros t. unfold tmap. cbn. rewrite map_map. reflexivity.
    - rewrite <- H2. f_equal. apply map_ext. intros t. unfold tmap. cbn. rewrite map_map. reflexivity.
    - intros k. assert (Nd : dep_rel 0 (0, 0%nat)) by (unfold dep_rel; cbn; lra).
      pose proof (Forall2_nth_d dep_rel (dat D) (dat P) 0 (0, 0%nat) R2 Nd k) as (K0 & K1 & _).
      pose proof (map_nth (@fst R nat) (dat P) (0, 0%nat) k) as N1. pose proof (map_nth (@snd R nat) (dat P) (0, 0%nat) k) as N2. cbn [fst snd] in N1, N2. rewrite N1, N2. split; assumption.
  Qed.
End Depth.

(** ** rearrangements *)
Lemma moves_hom {A B} {NA : Num A} {NB : Num B} (f : A -> B) env e : f n0 = n0 -> moves e ->
  teval (map (tmap f) env) e = res_map (tmap f) (teval env e).
Proof.
  intros H0 M. set (P := fun (a : A) (b : B) => f a = b).
  assert (R : rrel (trel P) (teval env e) (teval (map (tmap f) env) e)).
  { induction M; cbn [teval].
    - revert i. induction env as [|t env IH]; intros [|i]; cbn [map nth_error]; [reflexivity|reflexivity|apply trel_map; reflexivity|apply IH].
    - apply (rrel_bind (trel P)); [exact IHM|]. intros. apply unfold_rel; assumption.
    - apply (rrel_bind (trel P)); [exact IHM|]. intros. apply fold_rel; assumption.
    - apply (rrel_bind (trel P)); [exact IHM|]. intros. apply t2mat_rel; assumption.
    - apply (rrel_bind (trel P)); [exact IHM|]. intros. apply vectorize_rel; assumption.
    - apply (rrel_bind (trel P)); [exact IHM|]. intros. apply reshape_rel; assumption.
    - apply (rrel_bind (trel P)); [exact IHM|]. intros. apply getitem_rel; assumption. }
  destruct (teval env e), (teval (map (tmap f) env) e); cbn in *; try contradiction; [f_equal; apply trel_fun, R|congruence].
Qed.

(** ** sums in any order *)
Lemma Rsum_app l m : Rsum (l ++ m) = Rsum l + Rsum m.
Proof. unfold Rsum. induction l; cbn; [lra|]. rewrite IHl. lra. Qed.
Lemma Rsum_perm l m : Permutation l m -> Rsum l = Rsum m.
Proof. unfold Rsum. induction 1; cbn; lra. Qed.
Lemma leaves_pos t : (0 < length (leaves t))%nat.
Proof. induction t; cbn; [lia|]. rewrite app_length. lia. Qed.

Section Tree.
  Variables prec emax : Z.
  Hypothesis F : format prec emax.
  Notation u := (unit_roundoff prec).

  Lemma tree_err x t : Forall (f_multiple prec emax) x ->
    let y := tree_sum (N := NumFl prec emax) x t in
    let v := fun i => f_val (nth i x (S754_zero false)) in
    f_multiple prec emax y /\ (f_finite y ->
      Rabs (f_val y - Rsum (map v (leaves t))) <= ((1 + u) ^ (length (leaves t) - 1) - 1) * Rsum (map (fun i => Rabs (v i)) (leaves t))).
  Proof.
    intros HX. cbn zeta. pose proof (b2_pos (- prec)) as U. fold (unit_roundoff prec) in U.
    assert (AB : forall l, Rabs (Rsum (map (fun i => f_val (nth i x (S754_zero false))) l)) <= Rsum (map (fun i => Rabs (f_val (nth i x (S754_zero false)))) l)).
    { unfold Rsum. induction l as [|i l IH]; cbn; [rewrite Rabs_R0; lra|]. eapply Rle_trans; [apply Rabs_triang|]. lra. }
    induction t as [i|a [Ma Ea] b [Mb Eb]]; cbn [tree_sum leaves].
    - split.
      + change (f_multiple prec emax (nth i x (S754_zero false))). destruct (nth_in_or_default i x (S754_zero false)) as [H|E]; [|rewrite E; exact I]. rewrite Forall_forall in HX. apply HX, H.
      + intros _. cbn. rewrite Rplus_0_r, Rminus_diag_eq by reflexivity. rewrite Rabs_R0. lra.
    - destruct (add_spec prec emax (proj1 F) (proj2 F) _ _ Ma Mb) as (M & H & _). cbn zeta in *. split; [exact M|]. intros Fy. destruct (H Fy) as (Fa & Fb & K). specialize (Ea Fa). specialize (Eb Fb).
      rewrite !map_app, !Rsum_app, app_length. change (@nadd spec_float (NumFl prec emax)) with (SFadd prec emax).
      pose proof (AB (leaves a)) as Aa. pose proof (AB (leaves b)) as Ab. pose proof (leaves_pos a) as La. pose proof (leaves_pos b) as Lb. clear AB H M.
      change (@nadd spec_float (NumFl prec emax)) with (SFadd prec emax) in *.
      generalize dependent (length (leaves a)). generalize dependent (length (leaves b)).
      generalize dependent (Rsum (map (fun i => f_val (nth i x (S754_zero false))) (leaves a))). generalize dependent (Rsum (map (fun i => f_val (nth i x (S754_zero false))) (leaves b))).
      generalize dependent (Rsum (map (fun i => Rabs (f_val (nth i x (S754_zero false)))) (leaves a))). generalize dependent (Rsum (map (fun i => Rabs (f_val (nth i x (S754_zero false)))) (leaves b))).
      generalize dependent (@tree_sum spec_float (NumFl prec emax) x a). intros ya. generalize dependent (@tree_sum spec_float (NumFl prec emax) x b). intros yb.
      intros Mb Fb Ma Fy Fa K Tb Ta Sb Ab Sa Aa nb Eb Lb na Ea La. pose proof (Rabs_pos Sa). pose proof (Rabs_pos Sb).
      set (q := (1 + u) ^ (na + nb - 2)). assert (Qa : (1 + u) ^ (na - 1) <= q) by (apply powu_mono; [lra|lia]). assert (Qb : (1 + u) ^ (nb - 1) <= q) by (apply powu_mono; [lra|lia]).
      assert (Eq : (1 + u) ^ (na + nb - 1) = (1 + u) * q). { replace (na + nb - 1)%nat with (S (na + nb - 2)) by lia. reflexivity. } rewrite Eq.
      assert (Ea' : Rabs (f_val ya - Sa) <= (q - 1) * Ta). { eapply Rle_trans; [exact Ea|]. apply Rmult_le_compat_r; lra. }
      assert (Eb' : Rabs (f_val yb - Sb) <= (q - 1) * Tb). { eapply Rle_trans; [exact Eb|]. apply Rmult_le_compat_r; lra. }
      pose proof (near_abs _ _ _ Ea') as Va'. pose proof (near_abs _ _ _ Eb') as Vb'.
      pose proof (Rabs_triang (f_val ya) (f_val yb)) as T1. pose proof (tri (f_val (SFadd prec emax ya yb)) (f_val ya + f_val yb) (Sa + Sb)) as T2.
      assert (S1 : Rabs (f_val ya + f_val yb - (Sa + Sb)) <= (q - 1) * (Ta + Tb)).
      { replace (f_val ya + f_val yb - (Sa + Sb)) with ((f_val ya - Sa) + (f_val yb - Sb)) by ring. pose proof (Rabs_triang (f_val ya - Sa) (f_val yb - Sb)). lra. }
      assert (V2 : Rabs (f_val ya + f_val yb) <= q * (Ta + Tb)) by lra.
      assert (u * Rabs (f_val ya + f_val yb) <= u * (q * (Ta + Tb))) by (apply Rmult_le_compat_l; lra).
      lra.
  Qed.

  Theorem any_order x t : Forall (f_multiple prec emax) x -> Permutation (leaves t) (seq 0 (length x)) ->
    let y := tree_sum (N := NumFl prec emax) x t in
    f_finite y -> Rabs (f_val y - Rsum (map f_val x)) <= ((1 + u) ^ (length x - 1) - 1) * Rsum (map abs_val x).
  Proof.
    intros HX HP. cbn zeta. intros Fy. pose proof (proj2 (tree_err x t HX) Fy) as H. cbn zeta in H.
    rewrite (Permutation_length HP), seq_length in H.
    assert (G : forall g : spec_float -> R, Rsum (map (fun i => g (nth i x (S754_zero false))) (leaves t)) = Rsum (map g x)).
    { intros g. transitivity (Rsum (map (fun i => g (nth i x (S754_zero false))) (seq 0 (length x)))); [apply Rsum_perm, Permutation_map, HP|]. f_equal.
      clear. induction x as [|a l IH]; cbn; [reflexivity|]. f_equal. rewrite <- seq_shift, map_map. exact IH. }
    rewrite (G f_val), (G (fun z => Rabs (f_val z))) in H. exact H.
  Qed.
End Tree.

(** ** integers *)
Section Ints.
  Variables prec emax : Z.
  Hypothesis F : format prec emax.
  Notation NF := (NumFl prec emax).
  Notation NC := (NumChk (2 ^ prec)).
  Definition int_rel (x : spec_float) (p : Z * bool) : Prop := f_multiple prec emax x /\ (snd p = true -> f_finite x /\ f_val x = IZR (fst p)).

  Lemma chk_true z p : (p && (Z.abs z <=? 2 ^ prec)%Z)%bool = true -> p = true /\ (Z.abs z <= 2 ^ prec)%Z.
  Proof. intros H. apply andb_prop in H. destruct H as [H1 H2]. split; [exact H1|]. apply Z.leb_le, H2. Qed.
  Lemma int_add a p b q : int_rel a p -> int_rel b q -> int_rel (@nadd _ NF a b) (@nadd _ NC p q).
  Proof.
    intros [M1 H1] [M2 H2]. destruct (add_spec prec emax (proj1 F) (proj2 F) a b M1 M2) as (M & _ & H). split; [exact M|]. cbn [nadd NumChk fst snd]. intros C.
    apply chk_true in C. destruct C as [C1 C2]. apply andb_prop in C1. destruct C1 as [C1 C3]. destruct (H1 C1) as [Fa Va]. destruct (H2 C3) as [Fb Vb]. apply (H _ _ Fa Fb Va Vb C2).
  Qed.
  Lemma int_sub a p b q : int_rel a p -> int_rel b q -> int_rel (@nsub _ NF a b) (@nsub _ NC p q).
  Proof.
    intros [M1 H1] [M2 H2]. destruct (sub_spec prec emax (proj1 F) (proj2 F) a b M1 M2) as (M & _ & H). split; [exact M|]. cbn [nsub NumChk fst snd]. intros C.
    apply chk_true in C. destruct C as [C1 C2]. apply andb_prop in C1. destruct C1 as [C1 C3]. destruct (H1 C1) as [Fa Va]. destruct (H2 C3) as [Fb Vb]. apply (H _ _ Fa Fb Va Vb C2).
  Qed.
  Lemma int_mul a p b q : int_rel a p -> int_rel b q -> int_rel (@nmul _ NF a b) (@nmul _ NC p q).
  Proof.
    intros [M1 H1] [M2 H2]. destruct (mul_spec prec emax (proj1 F) (proj2 F) a b) as (M & _ & H). split; [exact M|]. cbn [nmul NumChk fst snd]. intros C.
    apply chk_true in C. destruct C as [C1 C2]. apply andb_prop in C1. destruct C1 as [C1 C3]. destruct (H1 C1) as [Fa Va]. destruct (H2 C3) as [Fb Vb]. apply (H _ _ Fa Fb Va Vb C2).
  Qed.

  Theorem program_exact env zenv e P : Forall2 (int_tensor prec emax) env zenv ->
    teval (N := NC) (map (tmap (fun z => (z, true))) zenv) e = Ok P ->
    exists Y, teval (N := NF) env e = Ok Y /\ teval (N := NumZ) zenv e = Ok (tmap fst P) /\ shp Y = shp P /\ length (dat Y) = length (dat P) /\
      forall k, (k < length (dat Y))%nat -> snd (nth k (dat P) (0%Z, false)) = true ->
        f_finite (nth k (dat Y) S754_nan) /\ f_val (nth k (dat Y) S754_nan) = IZR (fst (nth k (dat P) (0%Z, false))).
  Proof.
    intros HE HP. destruct F as [Hp Hpe].
    assert (R : rrel (trel int_rel) (teval (N := NF) env e) (teval (N := NC) (map (tmap (fun z => (z, true))) zenv) e)).
    { apply (teval_rel (N1 := NF) (N2 := NC) int_rel); auto using int_add, int_sub, int_mul.
      - split; [exact I|]. intros _. split; [exact I|reflexivity].
      - destruct (one_spec prec emax F) as (A & B & C). split; [exact A|]. intros _. split; [exact B|exact C].
      - split; [exact (proj1 (half_spec prec emax F))|]. cbn. discriminate.
      - clear HP. induction HE as [|t z env zenv [H1 H2] HE IH]; cbn; [constructor|]. constructor; [|exact IH]. split; [exact H1|]. cbn. clear -H2.
        induction H2 as [|x y l m (A & B & C) H IH]; cbn; [constructor|]. constructor; [|exact IH]. split; [exact A|]. intros _. split; [exact B|exact C]. }
    rewrite HP in R. destruct (teval (N := NF) env e) as [Y|]; [|contradiction]. exists Y. split; [reflexivity|]. destruct R as [R1 R2].
    pose proof (teval_hom (NA := NC) (NB := NumZ) fst (map (tmap (fun z => (z, true))) zenv) e eq_refl eq_refl eq_refl ltac:(reflexivity) ltac:(reflexivity) ltac:(reflexivity)) as H1.
    rewrite HP, map_map in H1. cbn [res_map] in H1. split.
    { rewrite <- H1. f_equal. rewrite <- (map_id zenv) at 1. apply map_ext. intros t. unfold tmap. cbn. rewrite map_map, map_id. destruct t; reflexivity. }
    split; [exact R1|]. split; [apply (Forall2_len' _ _ _ R2)|]. intros k Hk Hs.
    assert (Nd : int_rel S754_nan (0%Z, false)). { split; [exact I|]. cbn. discriminate. }
    exact (proj2 (Forall2_nth_d int_rel (dat Y) (dat P) S754_nan (0%Z, false) R2 Nd k) Hs).
  Qed.
End Ints.

(** ** how deep the operations are *)
Section DepthOf.
  #[local] Existing Instance NumDepth.
  Definition deep (b : nat) (t : tensor nat) : Prop := Forall (fun x => (x <= b)%nat) (dat t).

  Lemma deep_get b t i : deep b t -> (get t i <= b)%nat.
  Proof.
    intros H. unfold get. destruct (nth_in_or_default (ravel (shp t) i) (dat t) n0) as [K|E]; [|rewrite E; cbn; lia]. unfold deep in H. rewrite Forall_forall in H. apply H, K.
  Qed.
  Lemma deep_gen b s f : (forall i, (f i <= b)%nat) -> deep b (gen s f).
  Proof. intros H. unfold deep, gen. cbn. apply Forall_forall. intros x Hx. apply in_map_iff in Hx. destruct Hx as (i & <- & _). apply H. Qed.
  Lemma deep_reshape b t s r : deep b t -> tf_reshape t s = Ok r -> deep b r.
  Proof.
    intros H E. unfold tf_reshape in E. destruct (existsb _ _); [discriminate|]. destruct (filter _ s) as [|x [|y l]]; [| |discriminate].
    - destruct (_ =? _)%Z; [|discriminate]. injection E as <-. exact H.
    - destruct (zprod _ =? 0)%Z; [discriminate|]. destruct (_ mod _ =? 0)%Z; [|discriminate]. injection E as <-. exact H.
  Qed.
  Lemma deep_transpose b t p r : deep b t -> tf_transpose t p = Ok r -> deep b r.
  Proof. intros H E. unfold tf_transpose in E. destruct (perm_ok _ _); [|discriminate]. injection E as <-. apply deep_gen. intros i. apply deep_get, H. Qed.
  Lemma deep_lsum b l : Forall (fun x => (x <= b)%nat) l -> (lsum l <= length l + b)%nat.
  Proof. unfold lsum. induction 1; cbn; [lia|]. cbn in IHForall. lia. Qed.
  Lemma deep_lprod b l : Forall (fun x => (x <= b)%nat) l -> (lprod l <= length l * S b)%nat.
  Proof. unfold lprod. induction 1; cbn; [lia|]. cbn in IHForall. lia. Qed.
  Lemma deep_matmul ta tb a b A B r k : deep a A -> deep b B -> shp B = [k; nth 1 (shp B) 0%nat] -> tb = false -> tf_matmul ta tb A B = Ok r -> deep (k + S (a + b)) r.
  Proof.
    intros HA HB HS -> E. unfold tf_matmul in E. destruct (shp A) as [|a1 [|a2 [|]]]; try discriminate. rewrite HS in E. cbn [nth] in E. destruct (Nat.eqb_spec (if ta then a1 else a2) k) as [K|]; [|discriminate].
    rewrite <- K. injection E as <-. apply deep_gen. intros i. unfold sumn.
    eapply Nat.le_trans; [apply (deep_lsum (S (a + b)))|rewrite map_length, seq_length; lia].
    apply Forall_forall. intros x Hx. apply in_map_iff in Hx. destruct Hx as (l & <- & _). cbn.
    assert (H1 : ((if ta then mget A l (nth 0 i 0) else mget A (nth 0 i 0) l) <= a)%nat) by (destruct ta; apply deep_get, HA).
    pose proof (deep_get b B [l; nth 1 i 0%nat] HB) as H2. unfold mget in *. lia.
  Qed.
  Lemma deep_einsum ins out ops r : Forall (deep 0) ops -> (forall l, In l (concat ins) -> In l out) -> tf_einsum ins out ops = Ok r -> deep (1 + length ops) r.
  Proof.
    intros HD HO E. unfold tf_einsum in E. repeat match type of E with context [if ?b then _ else _] => destruct b; [discriminate|] end. injection E as <-.
    apply deep_gen. intros i.
    assert (S0 : filter (fun l => negb (zmem l out)) (dedup [] (concat ins)) = []).
    { assert (D : forall l seen, (forall x, In x l -> In x out) -> filter (fun x => negb (zmem x out)) (dedup seen l) = []).
      { induction l as [|x l IH]; intros seen H; cbn [dedup]; [reflexivity|]. destruct (zmem x seen); [apply IH; intros; apply H; right; assumption|].
        cbn [filter]. assert (M : zmem x out = true). { unfold zmem. apply existsb_exists. exists x. split; [apply H; left; reflexivity|apply Z.eqb_refl]. }
        rewrite M. cbn. apply IH. intros; apply H; right; assumption. }
      apply D, HO. }
    rewrite S0. cbn [map indices].
    match goal with |- (lsum [?x] <= _)%nat => change (lsum [x]) with (S (Nat.max x 0)); assert (L : (x <= length ops)%nat); [|lia] end.
    eapply Nat.le_trans; [apply (deep_lprod 0)|rewrite map_length, combine_length; lia].
    apply Forall_forall. intros x Hx. apply in_map_iff in Hx. destruct Hx as (p & <- & Hp). apply deep_get. destruct p as [a t]. apply in_combine_r in Hp. rewrite Forall_forall in HD. apply HD, Hp.
  Qed.
  Lemma deep_khatri l s rv r : Forall (deep 0) l -> khatri l s rv = Ok r -> deep (1 + length l) r.
  Proof.
    intros HD E. unfold khatri in E.
    assert (HS : Forall (deep 0) (skip_ l s)).
    { destruct s; [exact HD| |]; cbn [skip_]; apply Forall_forall; intros t Ht; apply in_map_iff in Ht; destruct Ht as (p & <- & Hp); apply filter_In in Hp; destruct Hp as [Hp _]; destruct p as [a t]; apply in_combine_r in Hp; rewrite Forall_forall in HD; apply HD, Hp. }
    assert (LS : (length (skip_ l s) <= length l)%nat).
    { assert (G : forall f : nat * tensor nat -> bool, (length (map snd (filter f (enumerate l))) <= length l)%nat).
      { intros f. rewrite map_length. apply Nat.le_trans with (length (enumerate l)); [|apply Nat.eq_le_incl; unfold enumerate; rewrite combine_length, seq_length, Nat.min_id; reflexivity].
        generalize (enumerate l). intros m. induction m; cbn; [lia|]. destruct (f a); cbn; lia. }
      destruct s; [cbn; lia|apply G|apply G]. }
    set (m := if rv then rev (skip_ l s) else skip_ l s) in *.
    assert (Hm : Forall (deep 0) m) by (unfold m; destruct rv; [apply Forall_rev, HS|exact HS]).
    assert (Lm : (length m <= length l)%nat) by (unfold m; destruct rv; [rewrite rev_length; exact LS|exact LS]).
    cbn zeta in E. fold m in E. destruct (tf_einsum _ _ m) as [x|] eqn:EE; [|discriminate]. cbn [bind] in E.
    assert (Dx : deep (1 + length m) x).
    { eapply deep_einsum; [exact Hm| |exact EE]. intros y Hy. apply in_concat in Hy. destruct Hy as (g & Hg & Hy). apply in_map_iff in Hg. destruct Hg as (i & <- & Hi).
      apply in_or_app. destruct Hy as [<-|[<-|[]]]; [left; exact Hi|right; left; reflexivity]. }
    destruct (mapM _ m); [|discriminate]. cbn [bind] in E. destruct (pynth m 0); [|discriminate]. cbn [bind] in E. destruct (dim _ 1); [|discriminate]. cbn [bind] in E.
    apply (deep_reshape _ _ _ _ Dx) in E. unfold deep in *. eapply Forall_impl; [|exact E]. cbn. intros; lia.
  Qed.
  Lemma deep_kt l lam r rk : Forall (deep 0) l -> deep 0 lam -> shp lam = [rk; 1%nat] -> kt_extract l lam = Ok r -> deep (rk + length l + 2) r.
  Proof.
    intros HD HL HS E. unfold kt_extract in E. destruct (khatri l SkNone false) as [x|] eqn:EK; [|discriminate]. cbn [bind] in E.
    destruct (mapM _ l); [|discriminate]. cbn [bind] in E. destruct (tf_matmul false false x lam) as [y|] eqn:EM; [|discriminate]. cbn [bind] in E.
    apply (deep_reshape _ _ _ _) with (2 := E). pose proof (deep_matmul false false _ 0 x lam y rk (deep_khatri _ _ _ _ HD EK) HL) as H.
    rewrite HS in H. cbn [nth] in H. specialize (H eq_refl eq_refl EM). unfold deep in *. eapply Forall_impl; [|exact H]. cbn. intros; lia.
  Qed.
  Lemma t2mat_rest t r : t2mat t r (AInt (-1)) =
    match r with
    | AInt z => do d <- dim t z; let c := filter (fun i => negb (zmem i [z])) (zrange (ndims t)) in
                do cs <- mapM (dim t) c; do tr <- tf_transpose t ([z] ++ c); tf_reshape tr [Z.of_nat d; Z.of_nat (prod cs)]
    | AList l => do ds <- mapM (dim t) l; let c := filter (fun i => negb (zmem i l)) (zrange (ndims t)) in
                do cs <- mapM (dim t) c; do tr <- tf_transpose t (l ++ c); tf_reshape tr [Z.of_nat (prod ds); Z.of_nat (prod cs)]
    | ATuple l => do ds <- mapM (dim t) l; Raise TypeError
    end.
  Proof.
    unfold t2mat, t2mat_full. destruct r as [z|l|l]; [destruct (dim t z)|destruct (mapM (dim t) l)|destruct (mapM (dim t) l)]; reflexivity.
  Qed.
  Lemma deep_t2mat t a r : deep 0 t -> t2mat t a (AInt (-1)) = Ok r -> deep 0 r.
  Proof.
    intros H E. rewrite t2mat_rest in E.
    destruct a as [z|l|l]; [destruct (dim t z); [|discriminate]|destruct (mapM (dim t) l); [|discriminate]|destruct (mapM (dim t) l); discriminate]; cbn [bind] in E; cbv zeta in E.
    all: match type of E with bind ?x _ = _ => destruct x; [|discriminate] end; cbn [bind] in E.
    all: destruct (tf_transpose _ _) as [y|] eqn:ET; [|discriminate]; cbn [bind] in E; apply (deep_reshape _ _ _ _ (deep_transpose _ _ _ _ H ET) E).
  Qed.
  Lemma rows_t2mat (t : tensor nat) (l : list Z) ds r : mapM (dim t) l = Ok ds -> t2mat t (AList l) (AInt (-1)) = Ok r -> nth 0 (shp r) 0%nat = prod ds /\ length (shp r) = 2%nat.
  Proof.
    intros HD E. rewrite t2mat_rest, HD in E. cbn [bind] in E. cbv zeta in E. match type of E with bind ?x _ = _ => destruct x as [cs|]; [|discriminate] end; cbn [bind] in E.
    destruct (tf_transpose _ _) as [y|] eqn:ET; [|discriminate]; cbn [bind] in E. unfold tf_reshape in E.
    assert (K : filter (fun d => (d =? -1)%Z) [Z.of_nat (prod ds); Z.of_nat (prod cs)] = []).
    { cbn [filter]. destruct (Z.eqb_spec (Z.of_nat (prod ds)) (-1)); [lia|]. destruct (Z.eqb_spec (Z.of_nat (prod cs)) (-1)); [lia|]. reflexivity. }
    rewrite K in E. destruct (existsb _ _); [discriminate|]. destruct (_ =? _)%Z; [|discriminate]. injection E as <-. cbn. rewrite Nat2Z.id. auto.
  Qed.
  Lemma deep_mul A B (a : list Z) b ds r : deep 0 A -> deep 0 B -> mapM (dim A) a = Ok ds -> mul A B (AList a) b = Ok r -> deep (prod ds + 1) r.
  Proof.
    intros HA HB HD E. unfold mul in E. cbn [ax_list] in E. destruct (t2mat A (AList a) (AInt (-1))) as [X|] eqn:EX; [|discriminate]. cbn [bind] in E.
    destruct (t2mat B (ax_list b) (AInt (-1))) as [Y|] eqn:EY; [|discriminate]. cbn [bind] in E. destruct (tf_matmul true false X Y) as [M|] eqn:EM; [|discriminate]. cbn [bind] in E.
    apply (deep_reshape _ _ _ _) with (2 := E). destruct (rows_t2mat A a ds X HD EX) as [R1 R2].
    assert (Y2 : shp Y = [prod ds; nth 1 (shp Y) 0%nat]).
    { unfold tf_matmul in EM. destruct (shp X) as [|x1 [|x2 [|]]]; try discriminate. destruct (shp Y) as [|y1 [|y2 [|]]]; try discriminate. destruct (Nat.eqb_spec x1 y1); [|discriminate]. cbn in *. congruence. }
    pose proof (deep_matmul true false 0 0 X Y M (prod ds) (deep_t2mat _ _ _ HA EX) (deep_t2mat _ _ _ HB EY) Y2 eq_refl EM) as H. unfold deep in *. eapply Forall_impl; [|exact H]. cbn. intros; lia.
  Qed.
  Lemma deep_inner A B r : wf A -> wf B -> deep 0 A -> deep 0 B -> inner A B = Ok r -> (r <= prod (shp A) + 1)%nat.
  Proof.
    intros WA WB HA HB E. destruct (list_eq_dec Nat.eq_dec (shp A) (shp B)) as [S|S]; [|rewrite inner_err in E by exact S; discriminate].
    rewrite inner_ok in E by assumption. injection E as <-. unfold isum. eapply Nat.le_trans; [apply (deep_lsum 1)|rewrite map_length, length_indices; lia].
    apply Forall_forall. intros x Hx. apply in_map_iff in Hx. destruct Hx as (i & <- & _). cbn. pose proof (deep_get 0 A i HA). pose proof (deep_get 0 B i HB). lia.
  Qed.
End DepthOf.

(** ** bounds *)
Section Bounds.
  Variables prec emax : Z.
  Hypothesis F : format prec emax.
  Notation u := (unit_roundoff prec).
  Notation eta := (underflow_unit prec emax).
  Notation NFl := (NumFl prec emax).

  Theorem program_bound env e Y : Forall (of_format prec emax) env -> teval (N := NFl) env e = Ok Y ->
    exists B C E d,
      teval (map (tmap f_val) env) e = Ok B /\
      teval (N := NumAbs) (map (tmap abs_val) env) e = Ok C /\
      teval (N := NumInfl 0 eta) (map (tmap abs_val) env) e = Ok E /\
      teval (N := NumDepth) (map (tmap (fun _ => 0%nat)) env) e = Ok d /\
      (shp Y = shp B /\ shp C = shp B /\ shp E = shp B /\ shp d = shp B) /\
      (length (dat Y) = length (dat B) /\ length (dat C) = length (dat B) /\ length (dat E) = length (dat B) /\ length (dat d) = length (dat B)) /\
      forall k, (k < length (dat Y))%nat -> f_finite (nth k (dat Y) S754_nan) ->
        Rabs (f_val (nth k (dat Y) S754_nan) - nth k (dat B) 0) <= (1 + u) ^ nth k (dat d) 0%nat * nth k (dat E) 0 - nth k (dat C) 0.
  Proof.
    intros HE HY. pose proof (program_error prec emax F env e HE) as P. change (teval (N := NF prec emax) env e = Ok Y) in HY. rewrite HY in P. destruct P as (B & C & D & P1 & P2 & P3 & P4 & P5 & P6 & P7 & P8 & P9 & P10).
    destruct (program_depth u eta (Rlt_le _ _ (u_pos prec)) (Rlt_le _ _ (eta_pos prec emax)) env e D P3) as (E & d & Q1 & Q2 & Q3 & Q4 & Q5 & Q6 & Q7).
    exists B, C, E, d. repeat (split; [first [assumption|repeat split; congruence]|]). intros k Hk Fk. specialize (P10 k Hk Fk). specialize (Q7 k). lra.
  Qed.

  Lemma deep_zero (t : tensor spec_float) : deep 0 (tmap (fun _ => 0%nat) t).
  Proof. unfold deep, tmap. cbn. induction (dat t); cbn; constructor; auto. Qed.
  Lemma deep_zeros (l : list (tensor spec_float)) : Forall (deep 0) (map (tmap (fun _ => 0%nat)) l).
  Proof. induction l; cbn; constructor; auto using deep_zero. Qed.
  Lemma deep_nth b d k : deep b d -> (nth k (dat d) 0 <= b)%nat.
  Proof. intros H. destruct (nth_in_or_default k (dat d) 0%nat) as [K|E]; [|lia]. unfold deep in H. rewrite Forall_forall in H. apply H, K. Qed.

  (** evaluation of the variables of an environment *)
  Lemma vars_eval {T} {N : Num T} (l r pre : list (tensor T)) : tevals (pre ++ l ++ r) (map XVar (seq (length pre) (length l))) = Ok l.
  Proof.
    revert pre. induction l as [|t l IH]; intros pre; [reflexivity|]. cbn [length seq map tevals teval].
    assert (E : nth_error (pre ++ (t :: l) ++ r) (length pre) = Some t). { rewrite nth_error_app2, Nat.sub_diag by lia. reflexivity. }
    rewrite E. cbn [bind]. specialize (IH (pre ++ [t])). rewrite <- app_assoc in IH. cbn [app] in IH. rewrite app_length in IH. cbn [length] in IH. rewrite Nat.add_1_r in IH.
    change ((fix evals (l0 : list texpr) : res (list (tensor T)) := match l0 with [] => Ok [] | x :: r0 => do y <- teval (pre ++ (t :: l) ++ r) x; do ys <- evals r0; Ok (y :: ys) end)) with (tevals (pre ++ (t :: l) ++ r)).
    cbn [app]. rewrite IH. reflexivity.
  Qed.

  (** KTensor.extract *)
  Theorem kt_bound U lam rk Y : Forall (of_format prec emax) U -> of_format prec emax lam -> shp lam = [rk; 1%nat] ->
    kt_extract (N := NFl) U lam = Ok Y ->
    exists B C E,
      kt_extract (map (tmap f_val) U) (tmap f_val lam) = Ok B /\
      kt_extract (map (tmap abs_val) U) (tmap abs_val lam) = Ok C /\
      kt_extract (N := NumInfl 0 eta) (map (tmap abs_val) U) (tmap abs_val lam) = Ok E /\
      shp Y = shp B /\ shp C = shp B /\ shp E = shp B /\
      forall k, (k < length (dat Y))%nat -> f_finite (nth k (dat Y) S754_nan) ->
        Rabs (f_val (nth k (dat Y) S754_nan) - nth k (dat B) 0) <= (1 + u) ^ (rk + length U + 2) * nth k (dat E) 0 - nth k (dat C) 0.
  Proof.
    intros HU HL HS HY. set (ex := XKt (map XVar (seq 0 (length U))) (XVar (length U))).
    assert (EV : forall (T : Type) (N : Num T) (l : list (tensor T)) w, length l = length U -> teval (l ++ [w]) ex = kt_extract l w).
    { intros T N l w Hl. unfold ex. cbn [teval]. pose proof (vars_eval l [w] []) as V. cbn [app length] in V. rewrite Hl in V. unfold tevals in V. rewrite V. cbn [bind].
      rewrite nth_error_app2, Hl, Nat.sub_diag by lia. reflexivity. }
    rewrite <- EV in HY by reflexivity. destruct (program_bound (U ++ [lam]) ex Y) as (B & C & E & d & P1 & P2 & P3 & P4 & P5 & P6 & P7); [apply Forall_app; auto|exact HY|].
    rewrite map_app in P1, P2, P3, P4. cbn [map] in P1, P2, P3, P4. rewrite EV in P1, P2, P3, P4 by (rewrite map_length; reflexivity).
    exists B, C, E. split; [exact P1|]. split; [exact P2|]. split; [exact P3|]. destruct P5 as (S1 & S2 & S3 & S4). repeat (split; [assumption|]).
    intros k Hk Fk. specialize (P7 k Hk Fk). eapply Rle_trans; [exact P7|]. apply Rplus_le_compat_r.
    assert (E0 : 0 <= nth k (dat E) 0).
    { assert (P3' : teval (N := NumInfl 0 eta) (map (tmap abs_val) (U ++ [lam])) ex = Ok E) by (rewrite map_app; cbn [map]; rewrite EV by (rewrite map_length; reflexivity); exact P3).
      destruct (program_depth 0 eta (Rle_refl 0) (Rlt_le _ _ (eta_pos prec emax)) _ _ E P3') as (? & ? & ? & ? & ? & ? & ? & ? & Q). apply Q. }
    apply Rmult_le_compat_r; [exact E0|]. apply powu_mono; [apply Rlt_le, u_pos|].
    pose proof (deep_kt _ _ d rk (deep_zeros U) (deep_zero lam) HS P4) as Dk. rewrite map_length in Dk. apply deep_nth, Dk.
  Qed.

  (** mul: contraction over the axes a *)
  Theorem mul_bound A B0 (a : list Z) b ds Y : of_format prec emax A -> of_format prec emax B0 -> mapM (dim A) a = Ok ds ->
    mul (N := NFl) A B0 (AList a) b = Ok Y ->
    exists B C E,
      mul (tmap f_val A) (tmap f_val B0) (AList a) b = Ok B /\
      mul (tmap abs_val A) (tmap abs_val B0) (AList a) b = Ok C /\
      mul (N := NumInfl 0 eta) (tmap abs_val A) (tmap abs_val B0) (AList a) b = Ok E /\
      shp Y = shp B /\ shp C = shp B /\ shp E = shp B /\
      forall k, (k < length (dat Y))%nat -> f_finite (nth k (dat Y) S754_nan) ->
        Rabs (f_val (nth k (dat Y) S754_nan) - nth k (dat B) 0) <= (1 + u) ^ (prod ds + 1) * nth k (dat E) 0 - nth k (dat C) 0.
  Proof.
    intros HA HB HD HY. set (ex := XMul (XVar 0) (XVar 1) (AList a) b).
    destruct (program_bound [A; B0] ex Y) as (B & C & E & d & P1 & P2 & P3 & P4 & P5 & P6 & P7); [repeat constructor; assumption|exact HY|].
    exists B, C, E. split; [exact P1|]. split; [exact P2|]. split; [exact P3|]. destruct P5 as (S1 & S2 & S3 & S4). repeat (split; [assumption|]).
    intros k Hk Fk. specialize (P7 k Hk Fk). eapply Rle_trans; [exact P7|]. apply Rplus_le_compat_r.
    assert (E0 : 0 <= nth k (dat E) 0).
    { destruct (program_depth 0 eta (Rle_refl 0) (Rlt_le _ _ (eta_pos prec emax)) [A; B0] ex E P3) as (? & ? & ? & ? & ? & ? & ? & ? & Q). apply Q. }
    apply Rmult_le_compat_r; [exact E0|]. apply powu_mono; [apply Rlt_le, u_pos|].
    apply deep_nth. eapply deep_mul; [apply deep_zero|apply deep_zero| |exact P4]. exact HD.
  Qed.

  Lemma infl0_sum (l : list (list nat)) (f : list nat -> R) : @lsum _ (NumInfl 0 eta) (map (fun i => (1 + 0) * f i + eta) l) = Rsum (map f l) + INR (length l) * eta.
  Proof. unfold lsum, Rsum. induction l as [|i l IH]; [cbn; lra|]. cbn [map fold_right length]. rewrite IH, S_INR. cbn. lra. Qed.

  (** inner *)
  Theorem inner_bound A B v : wf A -> wf B -> shp A = shp B -> of_format prec emax A -> of_format prec emax B ->
    inner (N := NFl) A B = Ok v -> f_finite v ->
    exists b c, inner (tmap f_val A) (tmap f_val B) = Ok b /\ inner (tmap abs_val A) (tmap abs_val B) = Ok c /\
      let n := prod (shp A) in
      Rabs (f_val v - b) <= ((1 + u) ^ (n + 1) - 1) * c + INR n * (1 + u) ^ (n + 1) * eta.
  Proof.
    intros WA WB HS HA HB HY Fv. set (ex := XInner (XVar 0) (XVar 1)).
    assert (WW : forall (T : Type) (f : spec_float -> T) t, wf t -> wf (tmap f t)) by (intros T f t W; unfold wf, tmap; cbn; rewrite map_length; exact W).
    destruct (program_bound [A; B] ex (mkT [] [v])) as (B' & C & E & d & P1 & P2 & P3 & P4 & P5 & P6 & P7); [repeat constructor; assumption|unfold ex; cbn [teval nth_error bind]; rewrite HY; reflexivity|].
    specialize (P7 0%nat ltac:(cbn; lia) Fv). cbn [dat nth] in P7.
    unfold ex in P1, P2, P3, P4. cbn [teval nth_error bind map] in P1, P2, P3, P4.
    rewrite inner_ok in P1 by (auto; apply HS). rewrite inner_ok in P2 by (auto; apply HS). rewrite inner_ok in P3 by (auto; apply HS).
    destruct (inner (N := NumDepth) _ _) as [dd|] eqn:ED; [|discriminate]. cbn [bind] in P1, P2, P3, P4. injection P1 as <-. injection P2 as <-. injection P3 as <-. injection P4 as <-.
    cbn [dat nth] in P7. set (f := fun i => get (tmap abs_val A) i * get (tmap abs_val B) i).
    exists (isum (shp A) (fun i => nmul (get (tmap f_val A) i) (get (tmap f_val B) i))), (Rsum (map f (indices (shp A)))).
    split; [rewrite inner_ok by (auto; apply HS); reflexivity|]. split; [rewrite inner_ok by (auto; apply HS); reflexivity|]. cbn zeta.
    pose proof (deep_inner _ _ dd (WW _ _ _ WA) (WW _ _ _ WB) (deep_zero A) (deep_zero B) ED) as Dd. cbn [tmap shp] in Dd.
    set (s := Rsum (map f (indices (shp A)))) in *.
    assert (EE : @isum _ (NumInfl 0 eta) (shp A) (fun i => @nmul _ (NumInfl 0 eta) (@get _ (NumInfl 0 eta) (tmap abs_val A) i) (@get _ (NumInfl 0 eta) (tmap abs_val B) i)) = s + INR (prod (shp A)) * eta).
    { unfold isum. rewrite <- (length_indices (shp A)). apply infl0_sum. }
    assert (Q : Rabs (f_val v - isum (shp A) (fun i => nmul (get (tmap f_val A) i) (get (tmap f_val B) i))) <= (1 + u) ^ dd * (s + INR (prod (shp A)) * eta) - s) by (rewrite <- EE; exact P7).
    eapply Rle_trans; [exact Q|]. clear EE P7 Q.
    assert (F0 : 0 <= s).
    { assert (G : forall i, 0 <= f i). { intros i. unfold f, get, tmap. cbn [dat shp]. apply Rmult_le_pos; [destruct (nth_in_or_default (ravel (shp A) i) (map abs_val (dat A)) n0) as [K|E0]|destruct (nth_in_or_default (ravel (shp B) i) (map abs_val (dat B)) n0) as [K|E0]].
        all: try (rewrite E0; cbn; lra). all: apply in_map_iff in K; destruct K as (x & <- & _); apply Rabs_pos. }
      unfold s, Rsum. induction (indices (shp A)); cbn; [lra|]. specialize (G a). lra. }
    pose proof (powu_mono u dd (prod (shp A) + 1) (Rlt_le _ _ (u_pos prec)) Dd) as PM.
    pose proof (pos_INR (prod (shp A))) as NP. pose proof (eta_pos prec emax) as EP. assert (0 <= INR (prod (shp A)) * eta) by (apply Rmult_le_pos; lra).
    apply Rle_trans with ((1 + u) ^ (prod (shp A) + 1) * (s + INR (prod (shp A)) * eta) - s); [|lra]. apply Rplus_le_compat_r. apply Rmult_le_compat_r; lra.
  Qed.
End Bounds.

(** ** integer sums in any order *)
Section TreeInt.
  Variables prec emax : Z.
  Hypothesis F : format prec emax.

  Theorem tree_exact x z t : Forall2 (is_int prec emax) x z -> Permutation (leaves t) (seq 0 (length x)) -> (zsum (map Z.abs z) <= 2 ^ prec)%Z ->
    is_int prec emax (tree_sum (N := NumFl prec emax) x t) (zsum z).
  Proof.
    destruct F as [Hp Hpe]. intros HX HP HB.
    assert (NX : forall i, is_int prec emax (nth i x (S754_zero false)) (nth i z 0%Z)).
    { intros i. apply (Forall2_nth_d (is_int prec emax)); [exact HX|]. split; [exact I|]. split; [exact I|reflexivity]. }
    set (g := fun (h : Z -> Z) (t : sumtree) => zsum (map (fun i => h (nth i z 0%Z)) (leaves t))).
    assert (ZA : forall l m, zsum (l ++ m) = (zsum l + zsum m)%Z) by (intros l m; unfold zsum; induction l as [|a l IH]; cbn; [reflexivity|rewrite IH; lia]).
    assert (ZP : forall l m, Permutation l m -> zsum l = zsum m) by (unfold zsum; induction 1; cbn; lia).
    assert (GA : forall h a b, g h (Node a b) = (g h a + g h b)%Z) by (intros h a b; unfold g; cbn [leaves]; rewrite map_app, ZA; reflexivity).
    assert (G0 : forall t, (Z.abs (g (fun v => v) t) <= g Z.abs t)%Z).
    { induction t0 as [i|a IHa b IHb]; [unfold g, zsum; cbn; lia|]. rewrite !GA. lia. }
    assert (M : forall t, (g Z.abs t <= 2 ^ prec)%Z -> is_int prec emax (tree_sum (N := NumFl prec emax) x t) (g (fun v => v) t)).
    { induction t0 as [i|a IHa b IHb]; intros K.
      - unfold g, zsum. cbn. rewrite Z.add_0_r. apply NX.
      - rewrite GA in *. pose proof (G0 a). pose proof (G0 b). destruct (IHa ltac:(lia)) as (A1 & A2 & A3). destruct (IHb ltac:(lia)) as (B1 & B2 & B3).
        destruct (add_spec prec emax Hp Hpe _ _ A1 B1) as (C1 & _ & C3). destruct (C3 _ _ A2 B2 A3 B3 ltac:(lia)) as [C4 C5]. split; [exact C1|]. split; [exact C4|exact C5]. }
    assert (L : length z = length x) by (symmetry; apply (Forall2_len' _ _ _ HX)).
    assert (E : forall h, g h t = zsum (map h z)).
    { intros h. unfold g. rewrite (ZP _ _ (Permutation_map _ HP)). f_equal. rewrite <- L. clear. induction z as [|a l IH]; cbn; [reflexivity|]. f_equal. rewrite <- seq_shift, map_map. exact IH. }
    specialize (M t). rewrite !E, map_id in M. apply M, HB.
  Qed.

  Theorem inner_exact A B ZA ZB : wf A -> wf B -> shp A = shp B -> int_tensor prec emax A ZA -> int_tensor prec emax B ZB ->
    (isum (shp A) (fun i => Z.abs (get ZA i * get ZB i)) <= 2 ^ prec)%Z ->
    exists v, inner (N := NumFl prec emax) A B = Ok v /\ is_int prec emax v (isum (shp A) (fun i => (get ZA i * get ZB i)%Z)).
  Proof.
    destruct F as [Hp Hpe]. intros WA WB HS [SA IA] [SB IB] H. rewrite inner_ok by assumption. eexists. split; [reflexivity|].
    assert (GA : forall i, is_int prec emax (get (N := NumFl prec emax) A i) (get ZA i)).
    { intros i. unfold get. rewrite SA. apply (Forall2_nth_d (is_int prec emax)); [exact IA|]. split; [exact I|]. split; [exact I|reflexivity]. }
    assert (GB : forall i, is_int prec emax (get (N := NumFl prec emax) B i) (get ZB i)).
    { intros i. unfold get. rewrite SB. apply (Forall2_nth_d (is_int prec emax)); [exact IB|]. split; [exact I|]. split; [exact I|reflexivity]. }
    unfold isum in *. revert H. induction (indices (shp A)) as [|i l IH]; cbn [map]; intros H.
    - split; [exact I|]. split; [exact I|reflexivity].
    - unfold lsum in *. cbn [map fold_right] in *. cbn [nadd NumZ] in *.
      assert (P0 : (Z.abs (fold_right Z.add 0 (map (fun i0 => (get ZA i0 * get ZB i0)%Z) l)) <= fold_right Z.add 0 (map (fun i0 => Z.abs (get ZA i0 * get ZB i0)) l))%Z) by (clear; induction l; cbn; lia).
      cbn [n0] in *. specialize (IH ltac:(lia)). destruct IH as (I1 & I2 & I3). destruct (GA i) as (A1 & A2 & A3). destruct (GB i) as (B1 & B2 & B3).
      destruct (mul_spec prec emax Hp Hpe (get (N := NumFl prec emax) A i) (get (N := NumFl prec emax) B i)) as (M1 & _ & M3). assert (HM : (Z.abs (get ZA i * get ZB i) <= 2 ^ prec)%Z). { change (Z.abs (get ZA i * get ZB i) + fold_right Z.add 0 (map (fun i0 => Z.abs (get ZA i0 * get ZB i0)) l) <= 2 ^ prec)%Z in H. lia. }
      destruct (M3 _ _ A2 B2 A3 B3 HM) as [M4 M5].
      destruct (add_spec prec emax Hp Hpe _ _ M1 I1) as (C1 & _ & C3). 
      assert (HC : (Z.abs (get ZA i * get ZB i + fold_right Z.add 0 (map (fun i0 => (get ZA i0 * get ZB i0)%Z) l)) <= 2 ^ prec)%Z).
      { change (Z.abs (get ZA i * get ZB i) + fold_right Z.add 0 (map (fun i0 => Z.abs (get ZA i0 * get ZB i0)) l) <= 2 ^ prec)%Z in H. lia. }
      destruct (C3 _ _ M4 I2 M5 I3 HC) as [C4 C5]. split; [exact C1|]. split; [exact C4|exact C5].
  Qed.
End TreeInt.

(** KTensor.extract against the formula *)
Lemma tmap_matrix {A B} (f : A -> B) M : matrix M -> matrix (tmap f M).
Proof. intros [W E]. split; [unfold wf, tmap; cbn; rewrite map_length; exact W|exact E]. Qed.
Theorem kt_formula prec emax (F : format prec emax) U lam r Y : U <> [] -> (length U <= 25)%nat ->
  (forall M, In M U -> matrix M /\ ncols M = r) -> is_mat lam r 1 ->
  Forall (of_format prec emax) U -> of_format prec emax lam ->
  kt_extract (N := NumFl prec emax) U lam = Ok Y ->
  exists E, kt_extract (N := NumInfl 0 (underflow_unit prec emax)) (map (tmap abs_val) U) (tmap abs_val lam) = Ok E /\
    shp Y = map nrows U /\ shp E = map nrows U /\
    forall k, (k < length (dat Y))%nat -> f_finite (nth k (dat Y) S754_nan) ->
      Rabs (f_val (nth k (dat Y) S754_nan) - nth k (dat (cp_tensor r (tmap f_val lam) (map (tmap f_val) U))) 0)
      <= (1 + unit_roundoff prec) ^ (r + length U + 2) * nth k (dat E) 0 - nth k (dat (cp_tensor r (tmap abs_val lam) (map (tmap abs_val) U))) 0.
Proof.
  intros H1 H2 H3 H4 H5 H6 HY.
  assert (K : forall f : spec_float -> R, kt_extract (map (tmap f) U) (tmap f lam) = Ok (cp_tensor r (tmap f lam) (map (tmap f) U))).
  { intros f. apply (kt_extract_ok RLR).
    - destruct U; [congruence|discriminate].
    - rewrite map_length. exact H2.
    - intros M HM. apply in_map_iff in HM. destruct HM as (M' & <- & HM). destruct (H3 M' HM) as [A B]. split; [apply tmap_matrix, A|exact B].
    - destruct H4 as [A B]. split; [unfold wf, tmap; cbn; rewrite map_length; exact A|exact B]. }
  destruct (kt_bound prec emax F U lam r Y H5 H6 (proj2 H4) HY) as (B & C & E & P1 & P2 & P3 & P4 & P5 & P6 & P7).
  rewrite K in P1, P2. injection P1 as <-. injection P2 as <-. exists E. split; [exact P3|].
  assert (EN : shp (cp_tensor r (tmap f_val lam) (map (tmap f_val) U)) = map nrows U) by (unfold cp_tensor; rewrite shp_gen, map_map; reflexivity).
  rewrite P4, P6, EN. split; [reflexivity|]. split; [reflexivity|exact P7].
Qed.

(** ** statements of the properties *)
Lemma operations prec emax (F : format prec emax) :
  let u := unit_roundoff prec in let eta := underflow_unit prec emax in
  forall x y, f_multiple prec emax x -> f_multiple prec emax y ->
  (let z := @nadd _ (NumFl prec emax) x y in f_multiple prec emax z /\ (f_finite z -> Rabs (f_val z - (f_val x + f_val y)) <= u * Rabs (f_val x + f_val y))) /\
  (let z := @nsub _ (NumFl prec emax) x y in f_multiple prec emax z /\ (f_finite z -> Rabs (f_val z - (f_val x - f_val y)) <= u * Rabs (f_val x - f_val y))) /\
  (let z := @nmul _ (NumFl prec emax) x y in f_multiple prec emax z /\ (f_finite z -> Rabs (f_val z - f_val x * f_val y) <= u * Rabs (f_val x * f_val y) + eta)) /\
  (f_finite x -> f_finite y -> let z := @ndiv _ (NumFl prec emax) x y in
     f_multiple prec emax z /\ (f_finite z -> f_val y <> 0 /\ Rabs (f_val z - f_val x / f_val y) <= u * Rabs (f_val x / f_val y) + eta)) /\
  (f_finite x -> let z := @nsqrt _ (NumFl prec emax) x in
     f_multiple prec emax z /\ (f_finite z -> 0 <= f_val x /\ Rabs (f_val z - sqrt (f_val x)) <= u * sqrt (f_val x) + eta)).
Proof.
  destruct F as [Hp Hpe]. intros u eta x y Mx My. subst u eta.
  split; [|split; [|split; [|split]]]; cbn zeta.
  - destruct (add_spec prec emax Hp Hpe x y Mx My) as (A & B & _). split; [exact A|]. intros Fz. apply (B Fz).
  - destruct (sub_spec prec emax Hp Hpe x y Mx My) as (A & B & _). split; [exact A|]. intros Fz. apply (B Fz).
  - destruct (mul_spec prec emax Hp Hpe x y) as (A & B & _). split; [exact A|]. intros Fz. apply (B Fz).
  - intros Fx Fy. exact (div_spec prec emax Hp x y Fx Fy).
  - intros Fx. exact (sqrt_spec prec emax Hp x Fx).
Qed.

Lemma inner_formula prec emax (F : format prec emax) A B v : wf A -> wf B -> shp A = shp B ->
  of_format prec emax A -> of_format prec emax B -> inner (N := NumFl prec emax) A B = Ok v -> f_finite v ->
  let u := unit_roundoff prec in let n := prod (shp A) in
  Rabs (f_val v - Rsum (map (fun i => get (tmap f_val A) i * get (tmap f_val B) i) (indices (shp A)))) <=
  ((1 + u) ^ (n + 1) - 1) * Rsum (map (fun i => Rabs (get (tmap f_val A) i * get (tmap f_val B) i)) (indices (shp A)))
  + INR n * (1 + u) ^ (n + 1) * underflow_unit prec emax.
Proof.
  intros WA WB HS HA HB HY Fv. cbn zeta. destruct (inner_bound prec emax F A B v WA WB HS HA HB HY Fv) as (b & c & E1 & E2 & H). cbn zeta in H.
  assert (WW : forall (f : spec_float -> R) t, wf t -> wf (tmap f t)) by (intros f t W; unfold wf, tmap; cbn; rewrite map_length; exact W).
  rewrite inner_ok in E1 by (auto; apply HS). rewrite inner_ok in E2 by (auto; apply HS). injection E1 as <-. injection E2 as <-.
  assert (GA : forall t i, get (tmap abs_val t) i = Rabs (get (tmap f_val t) i)).
  { intros t i. unfold get, tmap, abs_val. cbn [shp dat]. rewrite <- (map_map f_val Rabs). rewrite <- Rabs_R0 at 1. exact (map_nth Rabs _ _ _). }
  assert (EC : Rsum (map (fun i => Rabs (get (tmap f_val A) i * get (tmap f_val B) i)) (indices (shp A))) = isum (shp (tmap abs_val A)) (fun i => nmul (get (tmap abs_val A) i) (get (tmap abs_val B) i))).
  { unfold isum, lsum, Rsum. f_equal. apply map_ext. intros i. rewrite !GA, Rabs_mult. reflexivity. }
  rewrite EC. exact H.
Qed.

Lemma beyond : exists x y, is_int 24 128 x (2 ^ 24) /\ is_int 24 128 y 1 /\
  f_val (@nadd _ (NumFl 24 128) x y) = IZR (2 ^ 24) /\ f_val (@nadd _ (NumFl 24 128) x y) <> f_val x + f_val y.
Proof.
  assert (F : format 24 128) by (split; lia).
  exists (@nofZ _ (NumFl 24 128) (2 ^ 24)), (@nofZ _ (NumFl 24 128) 1).
  destruct (ofZ_spec 24 128 F (2 ^ 24) ltac:(cbn; lia)) as (A1 & A2 & A3). destruct (ofZ_spec 24 128 F 1 ltac:(cbn; lia)) as (B1 & B2 & B3).
  split; [split; [exact A1|split; [exact A2|exact A3]]|]. split; [split; [exact B1|split; [exact B2|exact B3]]|].
  assert (E : @nadd _ (NumFl 24 128) (@nofZ _ (NumFl 24 128) (2 ^ 24)) (@nofZ _ (NumFl 24 128) 1) = @nofZ _ (NumFl 24 128) (2 ^ 24)) by (vm_compute; reflexivity).
  rewrite E. split; [exact A3|]. change (f_val (@nofZ _ (NumFl 24 128) (2 ^ 24))) with (f_val (@nofZ _ (NF 24 128) (2 ^ 24))). change (f_val (@nofZ _ (NumFl 24 128) 1)) with (f_val (@nofZ _ (NF 24 128) 1)).
  rewrite A3, B3. lra.
Qed.

(** the constructors of programs are the methods and functions of the library *)
Lemma terms_run {T} {N : Num T} env e f l A B ms : teval env e = Ok A -> teval env f = Ok B -> tevals env l = Ok ms ->
  let call c := snd (dcall_exec (dtensor_init A) c) in let other := OD (dtensor_init B) in
  (forall m, teval env (XUnfold e m) = call (CUnfold m)) /\ (forall m s, teval env (XFold e m s) = fold A m s) /\
  (forall r c, teval env (XT2mat e r c) = call (CT2mat r c)) /\ teval env (XVec e) = call CVectorize /\
  (forall s, teval env (XVecTo e s) = vec_to_tensor A s) /\ (forall a b, teval env (XMul e f a b) = call (CMul other a b)) /\
  (forall ax t sk, teval env (XTtm e l ax t sk) = ttm A ms ax t sk) /\ (forall v, inner A B = Ok v -> teval env (XInner e f) = Ok (mkT [] [v])) /\
  (forall sk, teval env (XHad l sk) = hadamard ms sk) /\ (forall sk rv, teval env (XKron l sk rv) = kron ms sk rv) /\
  (forall sk rv, teval env (XKhatri l sk rv) = khatri ms sk rv) /\ teval env (XAdd e f) = call (CAdd other) /\
  teval env (XSub e f) = call (CSub other) /\ teval env (XMulE e f) = call (CMulE other) /\
  (forall i, teval env (XGet e i) = call (CGetitem i)) /\ teval env (XKt l e) = kt_extract ms A /\ teval env (XTt e l) = tt_extract A ms /\
  (forall v, l2 A B = Ok v -> teval env (XL2 e f) = Ok (mkT [] [v])).
Proof.
  intros HA HB HM call other. unfold tevals in HM. subst call other. cbn [teval]. rewrite ?HA, ?HB, ?HM. cbn [bind dcall_exec dtensor_init d_T d_unfold operand_val snd].
  repeat split; intros; try reflexivity; try (rewrite H; reflexivity).
  destruct (unfold A m); reflexivity.
Qed.
