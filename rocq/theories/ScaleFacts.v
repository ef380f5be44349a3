(** The tensor operations on tensors multiplied by a number. *)

From Coq Require Import ZArith List Bool Arith Reals Lra Lia.
From Verif Require Import Num Py Tensor TF Ops Types Loss Fact Train SpecScale ParamFacts Spec.
Import ListNotations.
Local Open Scope R_scope.

(** b = c a *)
Definition sc (c a b : R) : Prop := b = c * a.
Notation tsc c := (trel (sc c)).

Lemma sc0 c : sc c 0 0.
Proof. unfold sc. ring. Qed.
Lemma sc_add c a b a' b' : sc c a b -> sc c a' b' -> sc c (a + a') (b + b').
Proof. unfold sc. intros -> ->. ring. Qed.
Lemma sc_sub c a b a' b' : sc c a b -> sc c a' b' -> sc c (a - a') (b - b').
Proof. unfold sc. intros -> ->. ring. Qed.
Lemma sc_mul c d a b a' b' : sc c a b -> sc d a' b' -> sc (c * d) (a * a') (b * b').
Proof. unfold sc. intros -> ->. ring. Qed.
Lemma sc_div c d a b a' b' : sc c a b -> sc d a' b' -> sc (c / d) (a / a') (b / b').
Proof. unfold sc. intros -> ->. unfold Rdiv. rewrite Rinv_mult. ring. Qed.
Lemma sc_relu c a b : 0 <= c -> sc c a b -> sc c (nrelu a) (nrelu b).
Proof.
  unfold sc, nrelu. cbn. intros Hc ->. destruct (Rlt_dec a 0) as [H|H], (Rlt_dec (c * a) 0) as [K|K]; try reflexivity.
  - lra.
  - assert (c * a <= 0) by (rewrite <- (Rmult_0_r c); apply Rmult_le_compat_l; lra). lra.
  - exfalso. assert (0 <= c * a) by (apply Rmult_le_pos; lra). lra.
Qed.
Lemma sc_max c a b a' b' : 0 < c -> sc c a b -> sc c a' b' -> sc c (nmax a a') (nmax b b').
Proof.
  unfold sc, nmax. cbn. intros Hc -> ->. destruct (Rlt_dec a a') as [H|H], (Rlt_dec (c * a) (c * a')) as [K|K]; try reflexivity; exfalso.
  - apply K. apply Rmult_lt_compat_l; assumption.
  - apply H. apply Rmult_lt_reg_l in K; assumption.
Qed.
Lemma sc_tfmax c l m : 0 < c -> Forall2 (sc c) l m -> sc c (tf_max l) (tf_max m).
Proof.
  intros Hc H. destruct H as [|a b l m Hab H]; cbn [tf_max]; [apply sc0|]. revert a b Hab. induction H as [|a' b' l m Hab' H IH]; intros a b Hab; cbn [fold_left]; [exact Hab|].
  apply IH. apply sc_max; assumption.
Qed.

Lemma tsc_scale c t : tsc c t (scale c t).
Proof. split; [reflexivity|]. cbn. induction (dat t); cbn; constructor; [reflexivity|assumption]. Qed.
Lemma tsc_eq c t t' : tsc c t t' -> t' = scale c t.
Proof. intros [H K]. destruct t as [s d], t' as [s' d']. cbn in *. subst s'. unfold scale. cbn. f_equal. induction K as [|a b l m Hab K IH]; cbn; [reflexivity|]. unfold sc in Hab. congruence. Qed.
Lemma tsc_refl t : tsc 1 t t.
Proof. split; [reflexivity|]. induction (dat t); constructor; [unfold sc; ring|assumption]. Qed.
Lemma tsc_one t t' : tsc 1 t t' -> t' = t.
Proof. intros H. rewrite (tsc_eq _ _ _ H). destruct t as [s d]. unfold scale. cbn. f_equal. rewrite <- (map_id d) at 2. apply map_ext. intros a. ring. Qed.
Lemma tsc_cast c d t t' : c = d -> tsc c t t' -> tsc d t t'.
Proof. intros ->. auto. Qed.
Lemma tscs_refl l : Forall2 (tsc 1) l l.
Proof. induction l; constructor; [apply tsc_refl|assumption]. Qed.
Lemma tscs_scale c l : Forall2 (tsc c) l (map (scale c) l).
Proof. induction l; cbn; constructor; [apply tsc_scale|assumption]. Qed.
Lemma tscs_eq c l m : Forall2 (tsc c) l m -> m = map (scale c) l.
Proof. induction 1; cbn; [reflexivity|]. f_equal; [apply tsc_eq; assumption|assumption]. Qed.
Lemma tscs_one l m : Forall2 (tsc 1) l m -> m = l.
Proof. induction 1; cbn; [reflexivity|]. f_equal; [apply tsc_one; assumption|assumption]. Qed.
Lemma scale_one t : scale 1 t = t.
Proof. apply tsc_one, tsc_scale. Qed.
Lemma rrel_cast c d x y : c = d -> rrel (tsc c) x y -> rrel (tsc d) x y.
Proof. intros ->. auto. Qed.

Lemma sc_lsum c l m : Forall2 (sc c) l m -> sc c (lsum l) (lsum m).
Proof. apply (lsum_rel (sc c)); [apply sc0|]. intros. apply sc_add; assumption. Qed.
Lemma sc_get c t t' i : tsc c t t' -> sc c (get t i) (get t' i).
Proof. apply (get_rel (sc c)), sc0. Qed.

Lemma sc_matmul c d ta tb A A' B B' : tsc c A A' -> tsc d B B' -> rrel (tsc (c * d)) (tf_matmul ta tb A B) (tf_matmul ta tb A' B').
Proof.
  intros HA HB. unfold tf_matmul. rewrite (proj1 HA), (proj1 HB). destruct (shp A') as [|a1 [|a2 [|]]]; try reflexivity.
  destruct (shp B') as [|b1 [|b2 [|]]]; try reflexivity. destruct (Nat.eqb _ _); [|reflexivity]. apply mgen_rel. intros i j. unfold sumn. apply sc_lsum, Forall2_map_same. intros l.
  apply sc_mul; [destruct ta|destruct tb]; apply sc_get; assumption.
Qed.
Lemma sc_bin c d e op A A' B B' : (forall a b a' b', sc c a b -> sc d a' b' -> sc e (op a a') (op b b')) ->
  tsc c A A' -> tsc d B B' -> rrel (tsc e) (tf_bin op A B) (tf_bin op A' B').
Proof.
  intros K HA HB. unfold tf_bin. rewrite (proj1 HA), (proj1 HB). destruct (bshape _ _); [|reflexivity]. apply gen_rel. intros i. apply K; apply sc_get; assumption.
Qed.
Lemma sc_map c d f g t t' : (forall a b, sc c a b -> sc d (f a) (g b)) -> tsc c t t' -> tsc d (tf_map f t) (tf_map g t').
Proof. intros K [H1 H2]. split; [exact H1|]. cbn. apply (Forall2_map' (sc c)); assumption. Qed.

(** ** einsum with one coefficient per operand *)
Inductive scs : list R -> list (tensor R) -> list (tensor R) -> Prop :=
| scs_nil : scs [] [] []
| scs_cons c t t' cs l m : tsc c t t' -> scs cs l m -> scs (c :: cs) (t :: l) (t' :: m).
Lemma scs_repeat c l m : Forall2 (tsc c) l m -> scs (repeat c (length l)) l m.
Proof. induction 1; cbn; constructor; assumption. Qed.
Definition same_shape (t t' : tensor R) : Prop := shp t = shp t'.
Lemma scs_shapes cs l m : scs cs l m -> Forall2 same_shape l m.
Proof. induction 1 as [|c t t' cs l m [H _] _ IH]; constructor; assumption. Qed.
Lemma lprod_repeat c n : lprod (repeat c n) = c ^ n.
Proof. induction n; [reflexivity|]. change (lprod (repeat c (S n))) with (c * lprod (repeat c n)). rewrite IHn. reflexivity. Qed.

Lemma sc_einsum cs ins out l m : scs cs l m -> rrel (tsc (lprod cs)) (tf_einsum ins out l) (tf_einsum ins out m).
Proof.
  intros H. pose proof (scs_shapes _ _ _ H) as HS. unfold tf_einsum.
  assert (ED : einsum_dims ins l = einsum_dims ins m).
  { unfold einsum_dims. f_equal. pose proof (Forall2_combine same_shape ins l m HS) as C.
    induction C as [|p q l' m' [H1 H2] C IH]; cbn; [reflexivity|]. unfold same_shape in H2. rewrite IH, H1, H2. reflexivity. }
  rewrite ED, (Forall2_len' _ l m HS).
  replace (forallb (fun p => Nat.eqb (length (fst p)) (ndims (snd p))) (combine ins l))
    with (forallb (fun p => Nat.eqb (length (fst p)) (ndims (snd p))) (combine ins m)).
  2:{ pose proof (Forall2_combine same_shape ins l m HS) as C. induction C as [|p q l' m' [H1 H2] C IH]; cbn [forallb]; [reflexivity|]. unfold ndims, same_shape in *. rewrite H1, H2. f_equal. exact IH. }
  destruct (negb _); [reflexivity|]. destruct (match ins with [] => true | _ => _ end); [reflexivity|]. destruct (negb (Nat.eqb (length ins) (length m))) eqn:EL; [reflexivity|].
  apply negb_false_iff, Nat.eqb_eq in EL.
  repeat match goal with |- context [if ?b then _ else _] => destruct b; [reflexivity|] end.
  apply gen_rel. intros oi. apply sc_lsum, Forall2_map_same. intros si. set (env := combine _ (oi ++ si)).
  clear ED HS. clearbody env. revert ins EL. induction H as [|c t t' cs l m Ht H IH]; intros ins EL.
  - destruct ins; [|discriminate]. cbn. unfold sc. ring.
  - destruct ins as [|i ins]; [discriminate|]. cbn [combine map lprod fold_right]. cbn [fst snd]. apply sc_mul; [apply sc_get, Ht|]. apply IH. injection EL as EL. exact EL.
Qed.

(** ** ops.py, type.py *)
Lemma sc_unfold c t t' n : tsc c t t' -> rrel (tsc c) (unfold t n) (unfold t' n).
Proof. apply (unfold_rel (sc c)), sc0. Qed.
Lemma sc_reshape c t t' s : tsc c t t' -> rrel (tsc c) (tf_reshape t s) (tf_reshape t' s).
Proof. apply (reshape_rel (sc c)). Qed.
Lemma sc_dim c t t' i : tsc c t t' -> dim t i = dim t' i.
Proof. intros H. apply (dim_rel (sc c)), H. Qed.
Lemma sc_mapM_dims c l m i : Forall2 (tsc c) l m -> mapM (fun t => dim t i) l = mapM (fun t => dim t i) m.
Proof. apply (mapM_dims (sc c)). Qed.
Lemma sc_skip c l m s : Forall2 (tsc c) l m -> Forall2 (tsc c) (skip_ l s) (skip_ m s).
Proof. apply (skip_rel (sc c)). Qed.

Lemma sc_khatri c l m s rv : Forall2 (tsc c) l m -> rrel (tsc (c ^ length (skip_ l s))) (khatri l s rv) (khatri m s rv).
Proof.
  intros H. unfold khatri. pose proof (rev_if_rel (sc c) rv _ _ (sc_skip c l m s H)) as K. rewrite (Forall2_len' _ _ _ K).
  assert (L : length (if rv then rev (skip_ l s) else skip_ l s) = length (skip_ l s)) by (destruct rv; [apply rev_length|reflexivity]).
  apply (rrel_bind (tsc (c ^ length (skip_ l s)))).
  { pose proof (sc_einsum _ (map (fun i => [i; 122%Z]) (letters (length (if rv then rev (skip_ m s) else skip_ m s)))) (letters (length (if rv then rev (skip_ m s) else skip_ m s)) ++ [122%Z]) _ _ (scs_repeat _ _ _ K)) as E.
    rewrite lprod_repeat, L in E. exact E. }
  intros a b E. rewrite (sc_mapM_dims c _ _ 0%Z K). apply rrel_bind_same. intros r.
  apply (rrel_bind (tsc c)); [apply pynth_rel, K|]. intros m1 m2 M. rewrite (sc_dim c m1 m2 _ M). apply rrel_bind_same. intros d. apply sc_reshape, E.
Qed.

Lemma sc_reduce_mul c l m : Forall2 (tsc c) l m -> rrel (tsc (c ^ length l)) (py_reduce (tf_bin nmul) l) (py_reduce (tf_bin nmul) m).
Proof.
  intros H. destruct H as [|a b l m Hab H]; cbn [py_reduce]; [reflexivity|].
  assert (G : forall k a b, tsc (c ^ k) a b -> rrel (tsc (c ^ (k + length l))) (reduceM (tf_bin nmul) a l) (reduceM (tf_bin nmul) b m)).
  { clear a b Hab. induction H as [|a' b' l m Hab' H IH]; intros k a b Hab; cbn [reduceM length]; [rewrite Nat.add_0_r; exact Hab|].
    apply (rrel_bind (tsc (c ^ S k))).
    - apply (rrel_cast (c ^ k * c)); [cbn; ring|]. apply (sc_bin (c ^ k) c); [intros; apply sc_mul; assumption|exact Hab|exact Hab'].
    - intros x y Hxy. rewrite <- Nat.add_succ_comm. apply IH, Hxy. }
  specialize (G 1%nat a b). cbn [Nat.add length] in *. apply G. cbn. rewrite Rmult_1_r. exact Hab.
Qed.
Lemma sc_hadamard c l m s : Forall2 (tsc c) l m -> rrel (tsc (c ^ length (skip_ l s))) (hadamard l s) (hadamard m s).
Proof. intros H. apply sc_reduce_mul, sc_skip, H. Qed.

Lemma sc_ttm a c t t' l m ax tr s : tsc a t t' -> Forall2 (tsc c) l m -> rrel (tsc (a * c ^ length (skip_ l s))) (ttm t l ax tr s) (ttm t' m ax tr s).
Proof.
  intros H HL. unfold ttm, ndims. rewrite (proj1 H), (Forall2_len' _ l m HL).
  pose proof (sc_skip c l m s HL) as K.
  assert (E : forall i o, rrel (tsc (a * c ^ length (skip_ l s))) (tf_einsum i o (t :: skip_ l s)) (tf_einsum i o (t' :: skip_ m s))).
  { intros i o. pose proof (sc_einsum _ i o _ _ (scs_cons _ _ _ _ _ _ H (scs_repeat _ _ _ K))) as E.
    change (lprod (a :: repeat c (length (skip_ l s)))) with (a * lprod (repeat c (length (skip_ l s)))) in E. rewrite lprod_repeat in E. exact E. }
  destruct ax as [ax|], s; try reflexivity.
  all: apply rrel_bind_same; intros top; apply rrel_bind_same; intros mo; apply rrel_bind_same; intros tg; apply E.
Qed.

Lemma sc_kt a c l m w w' : Forall2 (tsc c) l m -> tsc a w w' -> rrel (tsc (c ^ length l * a)) (kt_extract l w) (kt_extract m w').
Proof.
  intros H K. unfold kt_extract. apply (rrel_bind (tsc (c ^ length l))); [apply (sc_khatri c l m SkNone), H|]. intros x y E. rewrite (sc_mapM_dims c _ _ 0%Z H). apply rrel_bind_same. intros s.
  apply (rrel_bind (tsc (c ^ length l * a))); [apply sc_matmul; assumption|]. intros p q P. apply sc_reshape, P.
Qed.
Lemma sc_tt a c l m g g' : tsc a g g' -> Forall2 (tsc c) l m -> rrel (tsc (a * c ^ length l)) (tt_extract g l) (tt_extract g' m).
Proof. intros H K. apply (sc_ttm a c g g' l m _ _ SkNone); assumption. Qed.

Lemma sc_grams c l m : Forall2 (tsc c) l m -> rrel (Forall2 (tsc (c * c))) (grams l) (grams m).
Proof. intros H. unfold grams. apply (mapM_rel (tsc c)); [|exact H]. intros a b K. apply sc_matmul; exact K. Qed.
Lemma sc_unfold_all c t t' : tsc c t t' -> rrel (Forall2 (tsc c)) (unfold_all t) (unfold_all t').
Proof.
  intros H. unfold unfold_all, ndims. rewrite (proj1 H). apply (mapM_rel eq).
  - intros a b ->. apply sc_unfold, H.
  - induction (zrange _); constructor; auto.
Qed.

(** ** norms *)
Lemma sc_norm c t t' : 0 <= c -> tsc c t t' -> sc c (tf_norm t) (tf_norm t').
Proof.
  intros Hc [_ H]. unfold tf_norm. assert (E : sc (c * c) (lsum (map nsq (dat t))) (lsum (map nsq (dat t')))).
  { apply sc_lsum. apply (Forall2_map' (sc c)); [|exact H]. intros a b K. apply sc_mul; exact K. }
  unfold sc in *. rewrite E. cbn. rewrite sqrt_mult_alt by (apply Rmult_le_pos; assumption). rewrite sqrt_square by assumption. reflexivity.
Qed.
Lemma sc_ne0 c a b : 0 < c -> sc c a b -> sc 1 (ne0 a) (ne0 b).
Proof.
  unfold sc, ne0. cbn. intros Hc ->. destruct (Req_EM_T a 0) as [E|E], (Req_EM_T (c * a) 0) as [F|F]; try ring; exfalso.
  - apply F. rewrite E. ring.
  - apply Rmult_integral in F. destruct F; lra.
Qed.
Lemma sc_rmse c A A' B B' : 0 < c -> tsc c A A' -> tsc c B B' -> rrel (sc c) (rmse_ignore_zero A B) (rmse_ignore_zero A' B').
Proof.
  intros Hc HA HB. unfold rmse_ignore_zero. rewrite (proj1 HA), (proj1 HB). destruct (negb _); [reflexivity|].
  assert (HM : tsc 1 (tf_map ne0 A) (tf_map ne0 A')) by (apply (sc_map c); [intros; apply (sc_ne0 c); assumption|exact HA]).
  apply (rrel_bind (tsc c)). { apply (rrel_cast (c * 1)); [ring|]. apply (sc_bin c 1); [intros; apply sc_mul; assumption|exact HB|exact HM]. }
  intros x y Hxy. apply (rrel_bind (tsc c)). { apply (sc_bin c c); [intros; apply sc_sub; assumption|exact HA|exact Hxy]. }
  intros d d' [_ Hd]. cbn [rrel]. rewrite (tsc_one _ _ HM).
  assert (E : sc (c * c) (tf_sum (tf_map nsq d)) (tf_sum (tf_map nsq d'))).
  { apply sc_lsum. cbn. apply (Forall2_map' (sc c)); [|exact Hd]. intros a b K. apply sc_mul; exact K. }
  unfold sc in *. rewrite E. cbn. unfold Rdiv. rewrite Rmult_assoc, sqrt_mult_alt by (apply Rmult_le_pos; lra). rewrite sqrt_square by lra. reflexivity.
Qed.

Definition met_rel (c : R) (m m' : metrics R) : Prop := m' = scale_metrics c m /\ 0 <= m_obj m /\ 0 <= m_rel m.
Lemma half_R : nhalf = 1 / 2 :> R.
Proof. reflexivity. Qed.
Lemma sc_metrics c X X' F F' : 0 < c -> tsc c X X' -> tsc c F F' -> rrel (met_rel c) (metrics_of X F) (metrics_of X' F').
Proof.
  intros Hc HX HF. unfold metrics_of. apply (rrel_bind (sc c)); [apply sc_rmse; assumption|]. intros l l' HL.
  apply (rrel_bind (tsc c)). { apply (sc_bin c c); [intros; apply sc_sub; assumption|exact HF|exact HX]. }
  intros d d' Hd. cbn [rrel]. pose proof (sc_norm c d d' ltac:(lra) Hd) as ND. pose proof (sc_norm c X X' ltac:(lra) HX) as NX. unfold sc in *.
  split.
  - unfold scale_metrics. cbn [m_loss m_obj m_rel]. f_equal; [exact HL| |].
    + rewrite ND. unfold nsq. cbn -[tf_norm]. ring.
    + rewrite ND, NX. cbn -[tf_norm]. unfold Rdiv. rewrite Rinv_mult. replace (c * tf_norm d * (/ c * / tf_norm X)) with (c * / c * (tf_norm d * / tf_norm X)) by ring. rewrite Rinv_r by lra. ring.
  - cbn -[tf_norm]. unfold nsq. cbn -[tf_norm]. pose proof (Rle_0_sqr (tf_norm d)) as Q. unfold Rsqr in Q. split; [lra|].
    assert (N0 : forall t, 0 <= tf_norm t) by (intros; unfold tf_norm; apply sqrt_pos).
    apply Rmult_le_pos; [apply N0|]. destruct (N0 X) as [K|K]; [left; apply Rinv_0_lt_compat, K|]. rewrite <- K, Rinv_0. lra.
Qed.
