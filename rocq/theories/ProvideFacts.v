(** Facts about providers, Environment and feeding. *)

From Coq Require Import ZArith List Bool Arith Lia.
From Verif Require Import Num Py Tensor TFFacts Ops MulFacts LossFacts Fact Train SpecTrain Provide SpecProvide.
Import ListNotations.

Section F.
  Context {T : Type} {N : Num T} {A R : Type}.
  Variables (unbuilt : exc) (resets : bool) (build_chk : A -> res unit).
  Variable body : tensor T -> A -> R -> bool -> Z -> pub T -> pub T * res (hist T).
  Let ec := @ecalls T A R unbuilt resets build_chk body.

  Lemma build_calls (h : heap T) P n w (o : eobj T A) a id : shaped P -> build_chk a = Ok tt -> fst (ebuild build_chk h P n w o a id) = n + 2.
  Proof.
    intros HP Hc. unfold ebuild. rewrite Hc. unfold env_full_shape, env_full_data. destruct (HP n) as (v & Ev & Hv). rewrite Ev. cbn [bind].
    destruct (HP (S n)) as (v' & Ev' & _). destruct v as [l|X|X]; [| |exfalso; apply (Hv X); reflexivity]; cbn [attr_shape]; rewrite Ev'; cbn [fst]; lia.
  Qed.
  Lemma script_calls P cs : shaped P -> (forall a, build_chk a = Ok tt) -> forall s, s_calls (fst (ec P s cs)) = s_calls s + 2 * builds cs.
  Proof.
    intros HP Hc. induction cs as [|c cs IH]; intros s; [cbn; lia|]. unfold ec in *. cbn [ecalls]. destruct (ecall1 unbuilt resets build_chk body P s c) as [s1 l1] eqn:E1.
    specialize (IH s1). destruct (ecalls unbuilt resets build_chk body P s1 cs) as [s2 l2]. cbn [fst] in *. rewrite IH. clear IH.
    destruct c as [a id|rnd steps|key|id|l X]; cbn [ecall1 builds] in *.
    - pose proof (build_calls (s_heap s) P (s_calls s) (s_world s) (s_obj s) a id HP (Hc a)) as B.
      destruct (ebuild build_chk (s_heap s) P (s_calls s) (s_world s) (s_obj s) a id) as [n [[w o] r]]. injection E1 as <- <-. cbn [fst s_calls] in *. lia.
    - destruct (etrain unbuilt resets body (s_heap s) (s_world s) (s_obj s) rnd steps) as [o r]. injection E1 as <- <-. reflexivity.
    - injection E1 as <- <-. reflexivity.
    - injection E1 as <- <-. reflexivity.
    - injection E1 as <- <-. reflexivity.
  Qed.

  (** no build: the feed and the arguments stay; the arrays hold what was written last *)
  Lemma train_keeps h w (o : eobj T A) rnd steps : o_built (fst (etrain unbuilt resets body h w o rnd steps)) = o_built o.
  Proof.
    unfold etrain, obj_train. destruct (o_built o) as [[a id]|] eqn:E; [|reflexivity]. destruct (negb (w_path w)); [reflexivity|].
    destruct (ebody body h a rnd _ steps _) as [p [hh|e]]; reflexivity.
  Qed.
  Lemma script_keeps P cs : builds cs = 0 -> forall s, o_built (s_obj (fst (ec P s cs))) = o_built (s_obj s) /\
    forall l, s_heap (fst (ec P s cs)) l = contents cs l (s_heap s l).
  Proof.
    induction cs as [|c cs IH]; intros HB s; [split; reflexivity|]. unfold ec in *. cbn [ecalls]. destruct (ecall1 unbuilt resets build_chk body P s c) as [s1 l1] eqn:E1.
    assert (HB' : builds cs = 0) by (destruct c; [discriminate HB|exact HB..]).
    specialize (IH HB' s1). destruct (ecalls unbuilt resets build_chk body P s1 cs) as [s2 l2]. cbn [fst] in *. destruct IH as [I1 I2].
    destruct c as [a id|rnd steps|key|id|l X]; cbn [ecall1 contents] in *; [discriminate HB|..].
    - pose proof (train_keeps (s_heap s) (s_world s) (s_obj s) rnd steps) as K.
      destruct (etrain unbuilt resets body (s_heap s) (s_world s) (s_obj s) rnd steps) as [o r]. injection E1 as <- <-. cbn [fst s_obj s_heap] in *. split; [congruence|exact I2].
    - injection E1 as <- <-. split; assumption.
    - injection E1 as <- <-. split; assumption.
    - injection E1 as <- <-. cbn [s_obj s_heap] in *. split; [exact I1|]. intros k. rewrite I2. unfold write. reflexivity.
  Qed.

  (** train after any script *)
  Lemma obj_plain h w (o : eobj T A) rnd steps s v X : (forall a id, o_built o = Some (a, id) -> snd a = (s, v)) -> feed h s v = Ok X ->
    plain_obj (fst (etrain unbuilt resets body h w o rnd steps)) = fst (obj_train unbuilt resets (body X) w (plain_obj o) rnd steps) /\
    snd (etrain unbuilt resets body h w o rnd steps) = snd (obj_train unbuilt resets (body X) w (plain_obj o) rnd steps).
  Proof.
    intros HO HF. unfold etrain, obj_train, plain_obj. destruct (o_built o) as [[[a sv] id]|] eqn:E; cbn [o_built o_pub]; [|rewrite ?E; split; reflexivity].
    specialize (HO _ _ eq_refl). cbn [snd] in HO. subst sv. destruct (negb (w_path w)); [cbn [fst snd]; rewrite ?E; split; reflexivity|].
    unfold ebody. rewrite HF. destruct (body X a rnd _ steps _) as [p [hh|e]]; cbn [fst snd o_built o_pub]; split; reflexivity.
  Qed.

  Lemma build_then_train P s0 a id cs rnd steps v1 v2 : build_chk a = Ok tt -> P (s_calls s0) = Ok v1 -> P (S (s_calls s0)) = Ok v2 -> builds cs = 0 ->
    forall sh, attr_shape (s_heap s0) v1 = Ok sh ->
    let s := fst (ec P s0 (EBuild a id :: cs)) in
    let q := etrain unbuilt resets body (s_heap s) (s_world s) (s_obj s) rnd steps in
    o_built (s_obj s) = Some ((a, (sh, v2)), id) /\
    (forall l, s_heap s l = contents cs l (s_heap s0 l)) /\
    forall X, feed (s_heap s) sh v2 = Ok X ->
      plain_obj (fst q) = fst (obj_train unbuilt resets (body X) (s_world s) (plain_obj (s_obj s)) rnd steps) /\
      snd q = snd (obj_train unbuilt resets (body X) (s_world s) (plain_obj (s_obj s)) rnd steps).
  Proof.
    intros Hc E1 E2 HB sh Hsh. unfold ec. cbn [ecalls ecall1]. unfold ebuild. rewrite Hc. unfold env_full_shape, env_full_data. rewrite E1. cbn [bind]. rewrite Hsh, E2.
    cbn [obj_build]. unfold obj_build. set (s1 := mkES _ _ _ _). pose proof (script_keeps P cs HB s1) as [K1 K2]. unfold ec in K1, K2.
    destruct (ecalls unbuilt resets build_chk body P s1 cs) as [s2 l2]. cbn [fst] in *. split; [exact K1|]. split; [exact K2|].
    intros X HF. apply (obj_plain _ _ _ _ _ sh v2 X); [|exact HF]. intros b i HO. rewrite K1 in HO. cbn in HO. injection HO as <- <-. reflexivity.
  Qed.

  (** a provider that always returns the same unchanged array: the model of Train.v *)
  Section Array.
    Variables (P : provider T) (l : nat).
    Hypothesis HP : forall n, P n = Ok (PArr l).
    Lemma feed_same (h : heap T) : feed h (shp (h l)) (PArr l) = Ok (h l).
    Proof. cbn [feed]. rewrite shape_eqb_refl. reflexivity. Qed.
    Definition fed (h : heap T) (o : eobj T A) : Prop := forall a id, o_built o = Some (a, id) -> snd a = (shp (h l), PArr l).
    Lemma script_array cs : writes cs = false -> forall s, fed (s_heap s) (s_obj s) ->
      let X := s_heap s l in
      let q := ec P s cs in
      let r := do_calls build_chk (obj_train unbuilt resets (body X)) (s_world s) (plain_obj (s_obj s)) (plain cs) in
      s_world (fst q) = fst (fst r) /\ plain_obj (s_obj (fst q)) = snd (fst r) /\ snd q = snd r.
    Proof.
      cbv zeta. induction cs as [|c cs IH]; intros HW s HF; [split; [|split]; reflexivity|]. unfold ec in *. cbn [ecalls].
      destruct (ecall1 unbuilt resets build_chk body P s c) as [s1 l1] eqn:E1.
      assert (HW' : writes cs = false) by (destruct c; [exact HW..|discriminate HW]).
      specialize (IH HW' s1).
      destruct c as [a id|rnd steps|key|id|k X]; cbn [ecall1] in E1; [| | | |discriminate HW].
      - unfold ebuild in E1. cbn [plain do_calls do_call]. unfold obj_build. destruct (build_chk a) as [[]|e] eqn:Hc.
        + unfold env_full_shape, env_full_data in E1. rewrite !HP in E1. cbn [bind attr_shape] in E1. unfold obj_build in E1. injection E1 as <- <-. cbn [s_heap s_world s_obj] in *.
          destruct (ecalls unbuilt resets build_chk body P _ cs) as [s2 l2]. cbn [fst snd] in *.
          assert (HF' : fed (s_heap s) (mkObj (Some ((a, (shp (s_heap s l), PArr l)), id)) (o_pub (s_obj s)))) by (intros b i HO; cbn in HO; injection HO as <- <-; reflexivity).
          specialize (IH HF').
          assert (EO : plain_obj (mkObj (Some ((a, (shp (s_heap s l), PArr l)), id)) (o_pub (s_obj s))) = mkObj (Some (a, id)) (o_pub (plain_obj (s_obj s)))) by reflexivity.
          rewrite EO in IH. cbn [fst snd].
          destruct (do_calls _ _ _ _ _) as [[w2 o2] l3]. cbn [fst snd app] in *. exact IH.
        + injection E1 as <- <-. cbn [s_heap s_world s_obj] in *. destruct (ecalls unbuilt resets build_chk body P _ cs) as [s2 l2]. cbn [fst snd] in *. specialize (IH HF).
          destruct (do_calls _ _ _ _ _) as [[w2 o2] l3]. cbn [fst snd app] in *. exact IH.
      - cbn [plain do_calls do_call].
        pose proof (obj_plain (s_heap s) (s_world s) (s_obj s) rnd steps _ _ _ HF (feed_same (s_heap s))) as [O1 O2].
        pose proof (train_keeps (s_heap s) (s_world s) (s_obj s) rnd steps) as K.
        destruct (etrain unbuilt resets body (s_heap s) (s_world s) (s_obj s) rnd steps) as [o r]. injection E1 as <- <-. cbn [fst snd s_heap s_world s_obj] in *.
        destruct (obj_train unbuilt resets (body (s_heap s l)) (s_world s) (plain_obj (s_obj s)) rnd steps) as [o' r']. cbn [fst snd] in *. subst o' r'.
        assert (HF' : fed (s_heap s) o) by (intros b i HO; rewrite K in HO; apply (HF b i HO)). specialize (IH HF').
        destruct (ecalls unbuilt resets build_chk body P _ cs) as [s2 l2]. destruct (do_calls _ _ _ _ _) as [[w2 o2] l3]. cbn [fst snd] in *.
        destruct IH as (I1 & I2 & I3). split; [exact I1|]. split; [exact I2|]. rewrite I3. reflexivity.
      - injection E1 as <- <-. cbn [plain do_calls do_call]. specialize (IH HF). destruct (ecalls unbuilt resets build_chk body P _ cs) as [s2 l2]. destruct (do_calls _ _ _ _ _) as [[w2 o2] l3]. cbn [fst snd app] in *. exact IH.
      - injection E1 as <- <-. cbn [plain do_calls do_call s_heap s_world s_obj] in *. specialize (IH HF). destruct (ecalls unbuilt resets build_chk body P _ cs) as [s2 l2]. destruct (do_calls _ _ _ _ _) as [[w2 o2] l3]. cbn [fst snd app] in *. exact IH.
    Qed.
  End Array.

  (** a provider that returns a tf.Tensor, as provider.py documents *)
  Lemma tensor_provider P s a id cs rnd steps : (forall n, exists X, P n = Ok (PTensor X)) -> build_chk a = Ok tt -> builds cs = 0 ->
    let s' := fst (ec P s (EBuild a id :: cs)) in
    let q := etrain unbuilt resets body (s_heap s') (s_world s') (s_obj s') rnd steps in
    snd q = Raise TypeError /\ o_pub (fst q) = (if resets then set_finish false (o_pub (s_obj s')) else o_pub (s_obj s')).
  Proof.
    intros HP Hc HB. destruct (HP (s_calls s)) as (X1 & E1). destruct (HP (S (s_calls s))) as (X2 & E2).
    destruct (build_then_train P s a id cs rnd steps (PTensor X1) (PTensor X2) Hc E1 E2 HB (shp X1) eq_refl) as (B1 & _ & _). cbv zeta.
    set (s' := fst (ec P s (EBuild a id :: cs))) in *. unfold etrain, obj_train. rewrite B1.
    destruct (negb (w_path (s_world s'))); [split; reflexivity|]. cbn [ebody feed]. split; reflexivity.
  Qed.
  (** a second value of another shape *)
  Lemma shape_changed P s a id cs rnd steps v1 l2 sh : build_chk a = Ok tt -> builds cs = 0 ->
    P (s_calls s) = Ok v1 -> attr_shape (s_heap s) v1 = Ok sh -> P (S (s_calls s)) = Ok (PArr l2) -> shp (contents cs l2 (s_heap s l2)) <> sh ->
    let s' := fst (ec P s (EBuild a id :: cs)) in w_path (s_world s') = true ->
    snd (etrain unbuilt resets body (s_heap s') (s_world s') (s_obj s') rnd steps) = Raise ValueError.
  Proof.
    intros Hc HB E1 Hsh E2 Hne s' Hw'. destruct (build_then_train P s a id cs rnd steps v1 (PArr l2) Hc E1 E2 HB sh Hsh) as (B1 & B2 & _). fold s' in B1, B2.
    unfold etrain, obj_train. rewrite B1, Hw'. cbn [negb ebody feed]. rewrite B2.
    destruct (shape_eqb sh (shp (contents cs l2 (s_heap s l2)))) eqn:E; [|reflexivity]. apply shape_eqb_spec in E. exfalso. apply Hne. symmetry. exact E.
  Qed.
  Lemma base_build h n w (o : eobj T A) a id : build_chk a = Ok tt -> ebuild build_chk h base_provider n w o a id = (S n, (w, o, Raise NotImplementedErr)).
  Proof. intros Hc. unfold ebuild. rewrite Hc. reflexivity. Qed.
End F.

(** no value suits both kinds of classes *)
Lemma no_common {T} (h : heap T) (v : pval T) : (exists s X, feed h s v = Ok X) -> get_shape v = Raise AttributeError.
Proof. intros (s & X & H). destruct v; [reflexivity|discriminate H|reflexivity]. Qed.

Lemma pitf_values T (h : heap T) (P : provider T) n v : P n = Ok v ->
  ((exists s X, feed h s v = Ok X) -> snd (pitf_data P n) = Raise AttributeError) /\
  ((exists l, v = PArr l) -> snd (eval_data P n) = Raise AttributeError) /\
  (forall X, v = PTensor X -> snd (pitf_data P n) = Ok (shp X) /\ snd (eval_data P n) = Ok X).
Proof.
  intros E. unfold pitf_data, eval_data, env_full_data. rewrite E. cbn [snd bind]. split; [intros H; apply (no_common h v H)|]. split.
  - intros (l & ->). reflexivity.
  - intros X ->. split; reflexivity.
Qed.

Lemma data_at_train T (A R : Type) unbuilt resets build_chk (body : tensor T -> A -> R -> bool -> Z -> pub T -> pub T * res (hist T)) (P : provider T) s0 a id cs rnd steps l1 l2 :
  build_chk a = Ok tt -> P (s_calls s0) = Ok (PArr l1) -> P (S (s_calls s0)) = Ok (PArr l2) -> builds cs = 0 ->
  let X := contents cs l2 (s_heap s0 l2) in
  let s := fst (ecalls unbuilt resets build_chk body P s0 (EBuild a id :: cs)) in
  let q := etrain unbuilt resets body (s_heap s) (s_world s) (s_obj s) rnd steps in
  (shp X = shp (s_heap s0 l1) ->
     plain_obj (fst q) = fst (obj_train unbuilt resets (body X) (s_world s) (plain_obj (s_obj s)) rnd steps) /\
     snd q = snd (obj_train unbuilt resets (body X) (s_world s) (plain_obj (s_obj s)) rnd steps)) /\
  (shp X <> shp (s_heap s0 l1) -> w_path (s_world s) = true -> snd q = Raise ValueError).
Proof.
  intros Hc E1 E2 HB X s q. destruct (build_then_train unbuilt resets build_chk body P s0 a id cs rnd steps _ _ Hc E1 E2 HB _ eq_refl) as (B1 & B2 & B3). fold s in B1, B2, B3. split.
  - intros ES. apply B3. cbn [feed]. rewrite B2. fold X. rewrite ES, shape_eqb_refl. reflexivity.
  - intros ES Hw. apply (shape_changed unbuilt resets build_chk body P s0 a id cs rnd steps (PArr l1) l2 (shp (s_heap s0 l1))); auto.
Qed.
Lemma tensor_provider' T (A R : Type) unbuilt resets build_chk (body : tensor T -> A -> R -> bool -> Z -> pub T -> pub T * res (hist T)) (P : provider T) s a id cs rnd steps :
  (forall n, exists X, P n = Ok (PTensor X)) -> build_chk a = Ok tt -> builds cs = 0 ->
  let s' := fst (ecalls unbuilt resets build_chk body P s (EBuild a id :: cs)) in
  let q := etrain unbuilt resets body (s_heap s') (s_world s') (s_obj s') rnd steps in
  o_built (s_obj s') <> None /\ snd q = Raise TypeError /\ o_pub (fst q) = (if resets then set_finish false (o_pub (s_obj s')) else o_pub (s_obj s')).
Proof.
  intros HP Hc HB s' q. split; [|apply (tensor_provider unbuilt resets build_chk body P s a id cs rnd steps HP Hc HB)].
  destruct (HP (s_calls s)) as (X1 & E1). destruct (HP (S (s_calls s))) as (X2 & E2).
  destruct (build_then_train unbuilt resets build_chk body P s a id cs rnd steps _ _ Hc E1 E2 HB (shp X1) eq_refl) as (B1 & _ & _). fold s' in B1. rewrite B1. discriminate.
Qed.

(** arguments of a wrong type, a first value without a shape *)
Lemma build_fails T (A : Type) (build_chk : A -> res unit) (P : provider T) (h : heap T) n w (o : eobj T A) a id :
  (forall e, build_chk a = Raise e -> ebuild build_chk h P n w o a id = (n, (w, o, Raise e))) /\
  (build_chk a = Ok tt -> (forall X, P n = Ok (PList X) -> ebuild build_chk h P n w o a id = (S n, (w, o, Raise AttributeError))) /\
                          (forall e, P n = Raise e -> ebuild build_chk h P n w o a id = (S n, (w, o, Raise e)))).
Proof.
  split; [intros e E; unfold ebuild; rewrite E; reflexivity|]. intros Hc.
  split; [intros X E|intros e E]; unfold ebuild, env_full_shape, env_full_data; rewrite Hc, E; reflexivity.
Qed.
(** the second value is a list *)
Lemma list_fed T (A R : Type) unbuilt resets build_chk (body : tensor T -> A -> R -> bool -> Z -> pub T -> pub T * res (hist T)) (P : provider T) s0 a id cs rnd steps l1 X :
  build_chk a = Ok tt -> P (s_calls s0) = Ok (PArr l1) -> P (S (s_calls s0)) = Ok (PList X) -> builds cs = 0 ->
  let s := fst (ecalls unbuilt resets build_chk body P s0 (EBuild a id :: cs)) in
  let q := etrain unbuilt resets body (s_heap s) (s_world s) (s_obj s) rnd steps in
  (shp X = shp (s_heap s0 l1) ->
     plain_obj (fst q) = fst (obj_train unbuilt resets (body X) (s_world s) (plain_obj (s_obj s)) rnd steps) /\
     snd q = snd (obj_train unbuilt resets (body X) (s_world s) (plain_obj (s_obj s)) rnd steps)) /\
  (shp X <> shp (s_heap s0 l1) -> w_path (s_world s) = true -> snd q = Raise ValueError).
Proof.
  intros Hc E1 E2 HB s q. destruct (build_then_train unbuilt resets build_chk body P s0 a id cs rnd steps _ _ Hc E1 E2 HB _ eq_refl) as (B1 & B2 & B3). fold s in B1, B2, B3. split.
  - intros ES. apply B3. cbn [feed]. rewrite ES, shape_eqb_refl. reflexivity.
  - intros ES Hw. unfold q, etrain, obj_train. rewrite B1, Hw. cbn [negb ebody feed].
    destruct (shape_eqb (shp (s_heap s0 l1)) (shp X)) eqn:E; [|reflexivity]. apply shape_eqb_spec in E. exfalso. apply ES. symmetry. exact E.
Qed.
