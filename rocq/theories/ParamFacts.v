(** The tensor operations preserve every relation between two kinds of scalars that
    their arithmetic preserves. *)

From Coq Require Import ZArith List Bool Arith Lia.
From Verif Require Import Num Py Tensor TF Ops Types.
Import ListNotations.

(** related outcomes: the same exception, or related values *)
Definition rrel {A B} (P : A -> B -> Prop) (x : res A) (y : res B) : Prop :=
  match x, y with
  | Ok a, Ok b => P a b
  | Raise e, Raise f => e = f
  | _, _ => False
  end.

Lemma rrel_bind {A B A' B'} (P : A -> B -> Prop) (Q : A' -> B' -> Prop) x y f g :
  rrel P x y -> (forall a b, P a b -> rrel Q (f a) (g b)) -> rrel Q (bind x f) (bind y g).
Proof. destruct x, y; cbn; intros H K; try contradiction; [apply K, H|exact H]. Qed.
Lemma rrel_refl {A} (x : res A) : rrel eq x x.
Proof. destruct x; reflexivity. Qed.
Lemma rrel_bind_same {A A' B'} (Q : A' -> B' -> Prop) (x : res A) f g :
  (forall a, rrel Q (f a) (g a)) -> rrel Q (bind x f) (bind x g).
Proof. intros K. destruct x; cbn; [apply K|reflexivity]. Qed.
Lemma rrel_impl {A B} (P Q : A -> B -> Prop) x y : (forall a b, P a b -> Q a b) -> rrel P x y -> rrel Q x y.
Proof. destruct x, y; cbn; auto. Qed.

Lemma mapM_rel {A B A' B'} (P : A -> B -> Prop) (Q : A' -> B' -> Prop) f g l m :
  (forall a b, P a b -> rrel Q (f a) (g b)) -> Forall2 P l m -> rrel (Forall2 Q) (mapM f l) (mapM g m).
Proof.
  intros K H. induction H as [|a b l m Hab H IH]; cbn [mapM]; [constructor|].
  apply (rrel_bind Q); [apply K, Hab|]. intros a' b' H1. apply (rrel_bind (Forall2 Q)); [exact IH|]. intros l' m' H2. constructor; assumption.
Qed.
Lemma Forall2_nth_d {A B} (P : A -> B -> Prop) l m d e : Forall2 P l m -> P d e -> forall k, P (nth k l d) (nth k m e).
Proof. intros H K. induction H; intros [|k]; cbn; auto. Qed.
Lemma Forall2_len' {A B} (P : A -> B -> Prop) l m : Forall2 P l m -> length l = length m.
Proof. induction 1; cbn; congruence. Qed.
Lemma Forall2_map' {A B A' B'} (P : A -> B -> Prop) (Q : A' -> B' -> Prop) f g l m :
  (forall a b, P a b -> Q (f a) (g b)) -> Forall2 P l m -> Forall2 Q (map f l) (map g m).
Proof. intros K. induction 1; cbn; constructor; auto. Qed.
Lemma Forall2_map_same {A A' B'} (Q : A' -> B' -> Prop) f g (l : list A) :
  (forall a, Q (f a) (g a)) -> Forall2 Q (map f l) (map g l).
Proof. intros K. induction l; cbn; constructor; auto. Qed.
Lemma Forall2_app' {A B} (P : A -> B -> Prop) l m l' m' : Forall2 P l m -> Forall2 P l' m' -> Forall2 P (l ++ l') (m ++ m').
Proof. induction 1; cbn; auto. Qed.
Lemma Forall2_rev {A B} (P : A -> B -> Prop) l m : Forall2 P l m -> Forall2 P (rev l) (rev m).
Proof. induction 1; cbn; [constructor|]. apply Forall2_app'; [assumption|]. constructor; [assumption|constructor]. Qed.
Lemma Forall2_combine {A B C} (P : A -> B -> Prop) (c : list C) l m :
  Forall2 P l m -> Forall2 (fun p q => fst p = fst q /\ P (snd p) (snd q)) (combine c l) (combine c m).
Proof. intros H. revert c. induction H; intros [|k c]; cbn; constructor; cbn; auto. Qed.
Lemma Forall2_filter {A B} (P : A -> B -> Prop) f g l m :
  (forall a b, P a b -> f a = g b) -> Forall2 P l m -> Forall2 P (filter f l) (filter g m).
Proof. intros K. induction 1; cbn; [constructor|]. rewrite (K _ _ H). destruct (g y); auto. Qed.

Section Rel.
  Context {T1 T2 : Type} {N1 : Num T1} {N2 : Num T2}.
  Variable Rel : T1 -> T2 -> Prop.
  Hypothesis R0 : Rel n0 n0.
  Hypothesis R1 : Rel n1 n1.
  Hypothesis Radd : forall a b c d, Rel a b -> Rel c d -> Rel (nadd a c) (nadd b d).
  Hypothesis Rmul : forall a b c d, Rel a b -> Rel c d -> Rel (nmul a c) (nmul b d).

  (** the same shape and related entries *)
  Definition trel (t1 : tensor T1) (t2 : tensor T2) : Prop := shp t1 = shp t2 /\ Forall2 Rel (dat t1) (dat t2).

  Lemma lsum_rel l m : Forall2 Rel l m -> Rel (lsum l) (lsum m).
  Proof. unfold lsum. induction 1; cbn; [exact R0|]. apply Radd; assumption. Qed.
  Lemma lprod_rel l m : Forall2 Rel l m -> Rel (lprod l) (lprod m).
  Proof. unfold lprod. induction 1; cbn; [exact R1|]. apply Rmul; assumption. Qed.
  Lemma sumn_rel n f g : (forall i, Rel (f i) (g i)) -> Rel (sumn n f) (sumn n g).
  Proof. intros K. unfold sumn. apply lsum_rel, Forall2_map_same, K. Qed.

  Lemma get_rel t1 t2 idx : trel t1 t2 -> Rel (get t1 idx) (get t2 idx).
  Proof. intros [H K]. unfold get. rewrite H. apply Forall2_nth_d; assumption. Qed.
  Lemma gen_rel s f g : (forall i, Rel (f i) (g i)) -> trel (gen s f) (gen s g).
  Proof. intros K. split; [reflexivity|]. cbn. apply Forall2_map_same, K. Qed.
  Lemma mget_rel t1 t2 i j : trel t1 t2 -> Rel (mget t1 i j) (mget t2 i j).
  Proof. apply get_rel. Qed.
  Lemma mgen_rel r c f g : (forall i j, Rel (f i j) (g i j)) -> trel (mgen r c f) (mgen r c g).
  Proof. intros K. apply gen_rel. intros i. apply K. Qed.
  Lemma mkT_rel s t1 t2 : trel t1 t2 -> trel (mkT s (dat t1)) (mkT s (dat t2)).
  Proof. intros [H K]. split; [reflexivity|exact K]. Qed.

  Lemma reshape_rel t1 t2 s : trel t1 t2 -> rrel trel (tf_reshape t1 s) (tf_reshape t2 s).
  Proof.
    intros H. unfold tf_reshape. rewrite (proj1 H). destruct (existsb _ _); [reflexivity|].
    destruct (filter (fun d => (d =? -1)%Z) s) as [|x [|y r]]; [| |reflexivity].
    - destruct (_ =? _)%Z; [|reflexivity]. apply mkT_rel, H.
    - destruct (zprod _ =? 0)%Z; [reflexivity|]. destruct (_ mod _ =? 0)%Z; [|reflexivity]. apply mkT_rel, H.
  Qed.
  Lemma transpose_rel t1 t2 p : trel t1 t2 -> rrel trel (tf_transpose t1 p) (tf_transpose t2 p).
  Proof.
    intros H. unfold tf_transpose, ndims. rewrite (proj1 H). destruct (perm_ok _ _); [|reflexivity]. apply gen_rel. intros i. apply get_rel, H.
  Qed.
  Lemma matmul_rel ta tb A1 A2 B1 B2 : trel A1 A2 -> trel B1 B2 -> rrel trel (tf_matmul ta tb A1 B1) (tf_matmul ta tb A2 B2).
  Proof.
    intros HA HB. unfold tf_matmul. rewrite (proj1 HA), (proj1 HB). destruct (shp A2) as [|a1 [|a2 [|]]]; try reflexivity.
    destruct (shp B2) as [|b1 [|b2 [|]]]; try reflexivity. destruct (Nat.eqb _ _); [|reflexivity]. apply mgen_rel. intros i j. apply sumn_rel. intros l.
    apply Rmul; [destruct ta|destruct tb]; apply mget_rel; assumption.
  Qed.
  Lemma bin_rel op1 op2 A1 A2 B1 B2 : (forall a b c d, Rel a b -> Rel c d -> Rel (op1 a c) (op2 b d)) ->
    trel A1 A2 -> trel B1 B2 -> rrel trel (tf_bin op1 A1 B1) (tf_bin op2 A2 B2).
  Proof.
    intros K HA HB. unfold tf_bin. rewrite (proj1 HA), (proj1 HB). destruct (bshape _ _); [|reflexivity]. apply gen_rel. intros i. apply K; apply get_rel; assumption.
  Qed.
  Lemma map_rel f g t1 t2 : (forall a b, Rel a b -> Rel (f a) (g b)) -> trel t1 t2 -> trel (tf_map f t1) (tf_map g t2).
  Proof. intros K [H1 H2]. split; [exact H1|]. cbn. apply (Forall2_map' Rel); assumption. Qed.
  Lemma tsum_rel t1 t2 : trel t1 t2 -> Rel (tf_sum t1) (tf_sum t2).
  Proof. intros [_ H]. apply lsum_rel, H. Qed.
  Lemma ones_rel s : trel (tf_ones s) (tf_ones s).
  Proof. apply gen_rel. intros _. exact R1. Qed.

  Notation Trel := (Forall2 trel).

  Lemma dims_rel ins l m : Trel l m -> einsum_dims ins l = einsum_dims ins m.
  Proof.
    intros H. unfold einsum_dims. f_equal. pose proof (Forall2_combine trel ins l m H) as C.
    induction C as [|p q l' m' [H1 [H2 _]] C IH]; cbn; [reflexivity|]. rewrite IH, H1, H2. reflexivity.
  Qed.
  Lemma einsum_rel ins out l m : Trel l m -> rrel trel (tf_einsum ins out l) (tf_einsum ins out m).
  Proof.
    intros H. unfold tf_einsum. rewrite (dims_rel ins l m H), (Forall2_len' trel l m H).
    replace (forallb (fun p => Nat.eqb (length (fst p)) (ndims (snd p))) (combine ins l))
      with (forallb (fun p => Nat.eqb (length (fst p)) (ndims (snd p))) (combine ins m)).
    2:{ pose proof (Forall2_combine trel ins l m H) as C. induction C as [|p q l' m' [H1 [H2 _]] C IH]; cbn [forallb]; [reflexivity|]. unfold ndims. rewrite H1, H2. f_equal. exact IH. }
    repeat match goal with |- context [if ?b then _ else _] => destruct b; [reflexivity|] end.
    apply gen_rel. intros oi. apply lsum_rel, Forall2_map_same. intros si. apply lprod_rel.
    apply (Forall2_map' (fun p q => fst p = fst q /\ trel (snd p) (snd q))); [|apply Forall2_combine, H].
    intros p q [E K]. rewrite E. apply get_rel, K.
  Qed.

  Lemma unfold_rel t1 t2 mode : trel t1 t2 -> rrel trel (unfold t1 mode) (unfold t2 mode).
  Proof.
    intros H. unfold unfold, ndims. rewrite (proj1 H). apply rrel_bind_same. intros perm.
    apply (rrel_bind trel); [apply transpose_rel, H|]. intros a b K. apply rrel_bind_same. intros d. apply reshape_rel, K.
  Qed.
  Lemma fold_rel t1 t2 mode s : trel t1 t2 -> rrel trel (fold t1 mode s) (fold t2 mode s).
  Proof.
    intros H. unfold fold. apply rrel_bind_same. intros perm. apply rrel_bind_same. intros now.
    apply (rrel_bind trel); [apply reshape_rel, H|]. intros a b K. apply transpose_rel, K.
  Qed.
  Lemma dim_rel t1 t2 : trel t1 t2 -> forall i, dim t1 i = dim t2 i.
  Proof. intros H i. unfold dim. rewrite (proj1 H). reflexivity. Qed.
  Lemma mapM_dim_rel t1 t2 l : trel t1 t2 -> mapM (dim t1) l = mapM (dim t2) l.
  Proof. intros H. induction l; cbn; [reflexivity|]. rewrite (dim_rel t1 t2 H), IHl. reflexivity. Qed.
  Lemma t2mat_rel t1 t2 r c : trel t1 t2 -> rrel trel (t2mat t1 r c) (t2mat t2 r c).
  Proof.
    intros H. unfold t2mat, t2mat_full.
    assert (E : match r with
              | AInt z => do d <- dim t1 z; Ok (AList [z], d)
              | AList l => do ds <- mapM (dim t1) l; Ok (AList l, prod ds)
              | ATuple l => do ds <- mapM (dim t1) l; Ok (ATuple l, prod ds)
              end = match r with
              | AInt z => do d <- dim t2 z; Ok (AList [z], d)
              | AList l => do ds <- mapM (dim t2) l; Ok (AList l, prod ds)
              | ATuple l => do ds <- mapM (dim t2) l; Ok (ATuple l, prod ds)
              end) by (destruct r; rewrite ?(dim_rel t1 t2 H), ?(mapM_dim_rel t1 t2 _ H); reflexivity).
    rewrite E. clear E. match goal with |- context [match ?x with Ok _ => _ | Raise _ => _ end] => destruct x as [[indies rs]|e] end; [|reflexivity].
    unfold ndims. rewrite (proj1 H).
    match goal with |- context [match ?x with AInt _ => _ | AList _ => _ | ATuple _ => _ end] => idtac end.
    set (c' := match c with AInt z => if (z =? -1)%Z then AList (filter _ (zrange (length (shp t2)))) else c | _ => c end).
    clearbody c'. destruct c' as [z|l|l].
    - destruct indies as [z'|l'|l']; try reflexivity. cbn [snd]. rewrite (dim_rel t1 t2 H). apply rrel_bind_same. intros cs.
      apply (rrel_bind trel); [apply transpose_rel, H|]. intros a b K. apply reshape_rel, K.
    - cbn [snd]. apply rrel_bind_same. intros ind. rewrite (mapM_dim_rel t1 t2 _ H). apply rrel_bind_same. intros cs.
      apply (rrel_bind trel); [apply transpose_rel, H|]. intros a b K. apply reshape_rel, K.
    - cbn [snd]. apply rrel_bind_same. intros ind. rewrite (mapM_dim_rel t1 t2 _ H). apply rrel_bind_same. intros cs.
      apply (rrel_bind trel); [apply transpose_rel, H|]. intros a b K. apply reshape_rel, K.
  Qed.
  Lemma vectorize_rel t1 t2 : trel t1 t2 -> rrel trel (vectorize t1) (vectorize t2).
  Proof. apply reshape_rel. Qed.
  Lemma mul_rel A1 A2 B1 B2 a b : trel A1 A2 -> trel B1 B2 -> rrel trel (mul A1 B1 a b) (mul A2 B2 a b).
  Proof.
    intros HA HB. unfold mul. apply (rrel_bind trel); [apply t2mat_rel, HA|]. intros X1 X2 HX.
    apply (rrel_bind trel); [apply t2mat_rel, HB|]. intros Y1 Y2 HY. apply (rrel_bind trel); [apply matmul_rel; assumption|]. intros M1 M2 HM.
    unfold free_dims. rewrite (proj1 HA), (proj1 HB). apply reshape_rel, HM.
  Qed.
  Lemma skip_rel l m s : Trel l m -> Trel (skip_ l s) (skip_ m s).
  Proof.
    intros H. destruct s; cbn [skip_]; [exact H| |].
    all: unfold enumerate; rewrite (Forall2_len' trel l m H); apply (Forall2_map' (fun p q => fst p = fst q /\ trel (snd p) (snd q))); [intros p q [_ K]; exact K|].
    all: apply Forall2_filter; [intros p q [E _]; rewrite E; reflexivity|apply Forall2_combine, H].
  Qed.
  Lemma ttm_rel t1 t2 l m ax tr s : trel t1 t2 -> Trel l m -> rrel trel (ttm t1 l ax tr s) (ttm t2 m ax tr s).
  Proof.
    intros H HL. unfold ttm, ndims. rewrite (proj1 H), (Forall2_len' trel l m HL).
    destruct ax as [ax|], s; try reflexivity.
    all: apply rrel_bind_same; intros top; apply rrel_bind_same; intros mo; apply rrel_bind_same; intros tg; apply einsum_rel; constructor; [exact H|apply skip_rel, HL].
  Qed.
  Lemma inner_rel A1 A2 B1 B2 : trel A1 A2 -> trel B1 B2 -> rrel Rel (inner A1 B1) (inner A2 B2).
  Proof.
    intros HA HB. unfold inner. rewrite (proj1 HA), (proj1 HB). destruct (negb _); [reflexivity|].
    apply (rrel_bind trel); [apply vectorize_rel, HA|]. intros X1 X2 HX. apply (rrel_bind trel); [apply vectorize_rel, HB|]. intros Y1 Y2 HY.
    apply (rrel_bind trel); [apply bin_rel; [exact Rmul|exact HX|exact HY]|]. intros P1 P2 HP. apply tsum_rel, HP.
  Qed.
  Lemma reduce_rel {A B} (P : A -> B -> Prop) f g l m : (forall a b c d, P a b -> P c d -> rrel P (f a c) (g b d)) ->
    Forall2 P l m -> rrel P (py_reduce f l) (py_reduce g m).
  Proof.
    intros K H. destruct H as [|a b l m Hab H]; cbn [py_reduce]; [reflexivity|]. revert a b Hab.
    induction H as [|c d l m Hcd H IH]; intros a b Hab; cbn [reduceM]; [exact Hab|]. apply (rrel_bind P); [apply K; assumption|]. exact IH.
  Qed.
  Lemma hadamard_rel l m s : Trel l m -> rrel trel (hadamard l s) (hadamard m s).
  Proof. intros H. unfold hadamard. apply reduce_rel; [|apply skip_rel, H]. intros. apply bin_rel; assumption. Qed.
  Lemma mapM_dims l m i : Trel l m -> mapM (fun t => dim t i) l = mapM (fun t => dim t i) m.
  Proof. induction 1 as [|a b l m H HL IH]; cbn; [reflexivity|]. rewrite (dim_rel a b H), IH. reflexivity. Qed.
  Lemma rev_if_rel (rv : bool) l m : Trel l m -> Trel (if rv then rev l else l) (if rv then rev m else m).
  Proof. intros H. destruct rv; [apply Forall2_rev, H|exact H]. Qed.
  Lemma pynth_rel {A B} (P : A -> B -> Prop) l m i : Forall2 P l m -> rrel P (pynth l i) (pynth m i).
  Proof.
    intros H. unfold pynth. rewrite (Forall2_len' P l m H). destruct (_ && _); [|reflexivity].
    assert (K : forall k, match nth_error l k, nth_error m k with Some a, Some b => P a b | None, None => True | _, _ => False end).
    { clear - H. induction H; intros [|k]; cbn; auto. apply IHForall2. }
    specialize (K (Z.to_nat (if (i <? 0)%Z then (i + Z.of_nat (length m))%Z else i))). destruct (nth_error l _), (nth_error m _); try contradiction; [exact K|reflexivity].
  Qed.
  Lemma kron_rel l m s rv : Trel l m -> rrel trel (kron l s rv) (kron m s rv).
  Proof.
    intros H. unfold kron. pose proof (rev_if_rel rv _ _ (skip_rel l m s H)) as K. rewrite (Forall2_len' trel _ _ K).
    apply (rrel_bind trel); [apply einsum_rel, K|]. intros a b E. rewrite (mapM_dims _ _ 0%Z K). apply rrel_bind_same. intros r.
    rewrite (mapM_dims _ _ 1%Z K). apply rrel_bind_same. intros c. apply reshape_rel, E.
  Qed.
  Lemma khatri_rel l m s rv : Trel l m -> rrel trel (khatri l s rv) (khatri m s rv).
  Proof.
    intros H. unfold khatri. pose proof (rev_if_rel rv _ _ (skip_rel l m s H)) as K. rewrite (Forall2_len' trel _ _ K).
    apply (rrel_bind trel); [apply einsum_rel, K|]. intros a b E. rewrite (mapM_dims _ _ 0%Z K). apply rrel_bind_same. intros r.
    apply (rrel_bind trel); [apply pynth_rel, K|]. intros m1 m2 M. rewrite (dim_rel m1 m2 M). apply rrel_bind_same. intros c. apply reshape_rel, E.
  Qed.
  Lemma kt_extract_rel l m a b : Trel l m -> trel a b -> rrel trel (kt_extract l a) (kt_extract m b).
  Proof.
    intros H K. unfold kt_extract. apply (rrel_bind trel); [apply khatri_rel, H|]. intros x y E. rewrite (mapM_dims _ _ 0%Z H). apply rrel_bind_same. intros s.
    apply (rrel_bind trel); [apply matmul_rel; assumption|]. intros p q P. apply reshape_rel, P.
  Qed.
  Lemma tt_extract_rel l m a b : trel a b -> Trel l m -> rrel trel (tt_extract a l) (tt_extract b m).
  Proof. intros H K. apply ttm_rel; assumption. Qed.
  Lemma getitem_rel t1 t2 idx : trel t1 t2 -> rrel trel (tf_getitem t1 idx) (tf_getitem t2 idx).
  Proof.
    intros H. unfold tf_getitem. rewrite (proj1 H). apply rrel_bind_same. intros p. apply gen_rel. intros i. apply get_rel, H.
  Qed.
End Rel.

(** ** programs *)
From Verif Require Import Loss TProg.

Section Ind.
  Variable P : texpr -> Prop.
  Hypothesis HVar : forall i, P (XVar i).
  Hypothesis HUnfold : forall e m, P e -> P (XUnfold e m).
  Hypothesis HFold : forall e m s, P e -> P (XFold e m s).
  Hypothesis HT2mat : forall e r c, P e -> P (XT2mat e r c).
  Hypothesis HVec : forall e, P e -> P (XVec e).
  Hypothesis HVecTo : forall e s, P e -> P (XVecTo e s).
  Hypothesis HMul : forall e f a b, P e -> P f -> P (XMul e f a b).
  Hypothesis HTtm : forall e l ax tr s, P e -> Forall P l -> P (XTtm e l ax tr s).
  Hypothesis HInner : forall e f, P e -> P f -> P (XInner e f).
  Hypothesis HHad : forall l s, Forall P l -> P (XHad l s).
  Hypothesis HKron : forall l s r, Forall P l -> P (XKron l s r).
  Hypothesis HKhatri : forall l s r, Forall P l -> P (XKhatri l s r).
  Hypothesis HAdd : forall e f, P e -> P f -> P (XAdd e f).
  Hypothesis HSub : forall e f, P e -> P f -> P (XSub e f).
  Hypothesis HMulE : forall e f, P e -> P f -> P (XMulE e f).
  Hypothesis HGet : forall e i, P e -> P (XGet e i).
  Hypothesis HKt : forall l e, Forall P l -> P e -> P (XKt l e).
  Hypothesis HTt : forall e l, P e -> Forall P l -> P (XTt e l).
  Hypothesis HL2 : forall e f, P e -> P f -> P (XL2 e f).
  Fixpoint texpr_all (e : texpr) : P e :=
    let all := fix all (l : list texpr) : Forall P l :=
      match l with [] => Forall_nil P | x :: r => Forall_cons x (texpr_all x) (all r) end in
    match e with
    | XVar i => HVar i
    | XUnfold e m => HUnfold e m (texpr_all e)
    | XFold e m s => HFold e m s (texpr_all e)
    | XT2mat e r c => HT2mat e r c (texpr_all e)
    | XVec e => HVec e (texpr_all e)
    | XVecTo e s => HVecTo e s (texpr_all e)
    | XMul e f a b => HMul e f a b (texpr_all e) (texpr_all f)
    | XTtm e l ax tr s => HTtm e l ax tr s (texpr_all e) (all l)
    | XInner e f => HInner e f (texpr_all e) (texpr_all f)
    | XHad l s => HHad l s (all l)
    | XKron l s r => HKron l s r (all l)
    | XKhatri l s r => HKhatri l s r (all l)
    | XAdd e f => HAdd e f (texpr_all e) (texpr_all f)
    | XSub e f => HSub e f (texpr_all e) (texpr_all f)
    | XMulE e f => HMulE e f (texpr_all e) (texpr_all f)
    | XGet e i => HGet e i (texpr_all e)
    | XKt l e => HKt l e (all l) (texpr_all e)
    | XTt e l => HTt e l (texpr_all e) (all l)
    | XL2 e f => HL2 e f (texpr_all e) (texpr_all f)
    end.
End Ind.

Section Prog.
  Context {T1 T2 : Type} {N1 : Num T1} {N2 : Num T2}.
  Variable Rel : T1 -> T2 -> Prop.
  Hypothesis R0 : Rel n0 n0.
  Hypothesis R1 : Rel n1 n1.
  Hypothesis Rhalf : Rel nhalf nhalf.
  Hypothesis Radd : forall a b c d, Rel a b -> Rel c d -> Rel (nadd a c) (nadd b d).
  Hypothesis Rsub : forall a b c d, Rel a b -> Rel c d -> Rel (nsub a c) (nsub b d).
  Hypothesis Rmul : forall a b c d, Rel a b -> Rel c d -> Rel (nmul a c) (nmul b d).

  Lemma l2_rel A1 A2 B1 B2 : trel Rel A1 A2 -> trel Rel B1 B2 -> rrel Rel (l2 A1 B1) (l2 A2 B2).
  Proof.
    intros HA HB. unfold l2. apply (rrel_bind (trel Rel)); [apply bin_rel; assumption|]. intros d1 d2 D. cbn [rrel].
    apply Rmul; [exact Rhalf|]. apply tsum_rel; [exact R0|exact Radd|]. apply map_rel; [|exact D]. intros a b H. apply Rmul; exact H.
  Qed.

  Lemma teval_rel env1 env2 : Forall2 (trel Rel) env1 env2 -> forall e, rrel (trel Rel) (teval env1 e) (teval env2 e).
  Proof.
    intros HE. assert (LS : forall l, Forall (fun e => rrel (trel Rel) (teval env1 e) (teval env2 e)) l -> rrel (Forall2 (trel Rel)) (tevals env1 l) (tevals env2 l)).
    { induction 1 as [|x l Hx Hl IH]; cbn [tevals]; [constructor|]. apply (rrel_bind (trel Rel)); [exact Hx|]. intros a b K. apply (rrel_bind (Forall2 (trel Rel))); [exact IH|]. intros c d K'. cbn [rrel]. constructor; assumption. }
    apply texpr_all; intros; cbn [teval].
    - clear LS. revert i. induction HE as [|a b l m H HE IH]; intros [|i]; cbn [nth_error]; [reflexivity|reflexivity|exact H|apply IH].
    - apply (rrel_bind (trel Rel)); [assumption|]. intros. apply unfold_rel; assumption.
    - apply (rrel_bind (trel Rel)); [assumption|]. intros. apply fold_rel; assumption.
    - apply (rrel_bind (trel Rel)); [assumption|]. intros. apply t2mat_rel; assumption.
    - apply (rrel_bind (trel Rel)); [assumption|]. intros. apply vectorize_rel; assumption.
    - apply (rrel_bind (trel Rel)); [assumption|]. intros. apply reshape_rel; assumption.
    - apply (rrel_bind (trel Rel)); [assumption|]. intros. apply (rrel_bind (trel Rel)); [assumption|]. intros. apply mul_rel; assumption.
    - apply (rrel_bind (trel Rel)); [assumption|]. intros. apply (rrel_bind (Forall2 (trel Rel))); [apply LS; assumption|]. intros. apply ttm_rel; assumption.
    - apply (rrel_bind (trel Rel)); [assumption|]. intros. apply (rrel_bind (trel Rel)); [assumption|]. intros.
      apply (rrel_bind Rel); [apply inner_rel; assumption|]. intros. split; [reflexivity|]. cbn. constructor; [assumption|constructor].
    - apply (rrel_bind (Forall2 (trel Rel))); [apply LS; assumption|]. intros. apply hadamard_rel; assumption.
    - apply (rrel_bind (Forall2 (trel Rel))); [apply LS; assumption|]. intros. apply kron_rel; assumption.
    - apply (rrel_bind (Forall2 (trel Rel))); [apply LS; assumption|]. intros. apply khatri_rel; assumption.
    - apply (rrel_bind (trel Rel)); [assumption|]. intros. apply (rrel_bind (trel Rel)); [assumption|]. intros. apply bin_rel; assumption.
    - apply (rrel_bind (trel Rel)); [assumption|]. intros. apply (rrel_bind (trel Rel)); [assumption|]. intros. apply bin_rel; assumption.
    - apply (rrel_bind (trel Rel)); [assumption|]. intros. apply (rrel_bind (trel Rel)); [assumption|]. intros. apply bin_rel; assumption.
    - apply (rrel_bind (trel Rel)); [assumption|]. intros. apply getitem_rel; assumption.
    - apply (rrel_bind (Forall2 (trel Rel))); [apply LS; assumption|]. intros. apply (rrel_bind (trel Rel)); [assumption|]. intros. apply kt_extract_rel; assumption.
    - apply (rrel_bind (trel Rel)); [assumption|]. intros. apply (rrel_bind (Forall2 (trel Rel))); [apply LS; assumption|]. intros. apply tt_extract_rel; assumption.
    - apply (rrel_bind (trel Rel)); [assumption|]. intros. apply (rrel_bind (trel Rel)); [assumption|]. intros.
      apply (rrel_bind Rel); [apply l2_rel; assumption|]. intros. split; [reflexivity|]. cbn. constructor; [assumption|constructor].
  Qed.
End Prog.
