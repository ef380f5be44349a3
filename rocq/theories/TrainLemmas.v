(** Facts about the train methods and call histories behind C36-C43, C67, C68. *)

From Coq Require Import ZArith List Bool Arith Lia Reals Lra SpecFloat.
From Verif Require Import Num Py Tensor TF Ops Types Loss Fact Train Spec SpecR SpecTypes SpecTrain TensorFacts TFFacts Sums SpecFacts
  RSums MulFacts TypeFacts LayoutFacts Matricize LossFacts TrainFacts.
Import ListNotations.

Ltac mon H :=
  repeat match type of H with
  | bind ?e _ = Ok _ => let x := fresh "v" in let E := fresh "E" in
      destruct e as [x|] eqn:E; cbn [bind] in H; [|discriminate H]
  | (let '(_, _) := ?e in _) = Ok _ => let a := fresh "a" in let b := fresh "b" in destruct e as [a b]
  end.

(** ** one step *)
Section Steps.
  Context {T : Type} {N : Num T}.

  Lemma cp_run_obs pinv (X : tensor T) rank A A' ob : cp_run pinv X rank A = Ok (A', ob) ->
    exists lam, ob_factors ob = A' /\ ob_aux ob = Some lam /\
      kt_extract A' (mkT (shp lam ++ [1]) (dat lam)) = Ok (ob_full ob) /\ metrics_of X (ob_full ob) = Ok (ob_met ob).
  Proof.
    unfold cp_run, cp_step. intros H. mon H. injection H as <- <-. mon E. injection E as <-.
    simpl. eauto.
  Qed.

  Lemma hooi_run_obs svdU (X : tensor T) ranks A A' ob : hooi_run svdU X ranks A = Ok (A', ob) ->
    exists g, ob_factors ob = A' /\ ob_aux ob = Some g /\
      tt_extract g A' = Ok (ob_full ob) /\ metrics_of X (ob_full ob) = Ok (ob_met ob).
  Proof.
    unfold hooi_run, hooi_step. intros H. mon H. injection H as <- <-. mon E. injection E as <-.
    simpl. eauto.
  Qed.

  Lemma ncp_run_obs svals (X : tensor T) s s' ob : ncp_run svals X s = Ok (s', ob) ->
    exists lam, ob_factors ob = n_A s' /\ ob_aux ob = None /\ ncp_ones (n_A s') = Ok lam /\
      kt_extract (n_A s') lam = Ok (ob_full ob) /\ metrics_of X (ob_full ob) = Ok (ob_met ob).
  Proof.
    unfold ncp_run, ncp_step. intros H. mon H. injection H as <- <-. mon E. injection E as <- <- <-.
    simpl in *. eauto 8.
  Qed.

  Lemma nt_modes_g svals (mats : list (tensor T)) modes : forall s s', nt_modes svals mats modes s = Ok s' -> q_g s' = q_g s.
  Proof.
    induction modes as [|m r IH]; intros s s' H; simpl in H; [congruence|]. mon H. apply IH in H. rewrite H.
    unfold nt_mode in E. mon E. injection E as <-. reflexivity.
  Qed.

  Lemma nt_run_obs svals (X : tensor T) s s' ob : nt_factors svals X s = Ok (s', ob) ->
    ob_factors ob = q_A s' /\ ob_aux ob = None /\ q_g s' = q_g s /\
      tt_extract (q_g s) (q_A s') = Ok (ob_full ob) /\ metrics_of X (ob_full ob) = Ok (ob_met ob).
  Proof.
    unfold nt_factors, nt_fact. intros H. mon H. injection H as <- <-. mon E.
    injection E as <- <- <-. simpl in *. apply nt_modes_g in E1. rewrite <- E1. auto.
  Qed.

  Lemma nt_pre_core svals (X : tensor T) s s1 c : nt_pre svals X s = Ok (s1, c) -> c = Some (q_g s1).
  Proof. unfold nt_pre. intros H. mon H. congruence. Qed.

  Lemma metrics_shape (X full : tensor T) m : metrics_of X full = Ok m -> shp full = shp X.
  Proof.
    unfold metrics_of, rmse_ignore_zero. destruct (shape_eqb (shp X) (shp full)) eqn:E; [|discriminate].
    intros _. symmetry. apply shape_eqb_spec. exact E.
  Qed.
End Steps.

Section Real.
  Local Open Scope R_scope.
  Lemma norm_gen s (f : list nat -> R) : tf_norm (gen s f) = sqrt (isum s (fun i => (f i)²)).
  Proof.
    unfold tf_norm, gen, isum. simpl. rewrite map_map. reflexivity.
  Qed.

  Lemma tf_norm_R (X : tensor R) : wf X -> tf_norm X = sqrt (msum (shp X) (fun i => (get X i)²)).
  Proof.
    intros H. rewrite <- (gen_get X H) at 1. rewrite norm_gen, (isum_msum RLR). reflexivity.
  Qed.

  Lemma metrics_R (X full : tensor R) m : wf X -> metrics_of X full = Ok m -> measured X full m.
  Proof.
    intros HX H. pose proof (metrics_shape _ _ _ H) as Hs. unfold metrics_of in H.
    rewrite (rmse_iz_R X full HX (eq_sym Hs)) in H. cbn [bind] in H.
    rewrite bin_same in H by auto. cbn [bind] in H. rewrite norm_gen, (tf_norm_R X HX) in H.
    assert (Em := f_equal (fun r => match r with Ok x => x | Raise _ => m end) H). cbv beta iota in Em. rewrite <- Em. unfold measured; cbn [m_loss m_obj m_rel].
    split; [reflexivity|]. rewrite half_R.
    assert (E : isum (shp full) (fun i => (nsub (get full i) (get X i))²) = sqdist full X).
    { rewrite sqdist_isum. reflexivity. }
    split.
    - rewrite E. unfold nsq. Rn. rewrite sqrt_sqrt by apply sqdist_nonneg. reflexivity.
    - rewrite E. reflexivity.
  Qed.
End Real.

(** ** objects *)
Section Objects.
  Context {T : Type} {N : Num T} {A R : Type}.
  Variable unbuilt : exc.
  Variable resets : bool.
  Variable build_chk : A -> res unit.
  Variable body : A -> R -> bool -> Z -> pub T -> pub T * res (hist T).

  Let train := obj_train unbuilt resets body.

  Lemma train_ok w o rnd steps o' h : train w o rnd steps = (o', Ok h) ->
    exists a id p p', o_built o = Some (a, id) /\ w_path w = true /\ p_factors p = p_factors (o_pub o) /\
      body a rnd (forallb (Nat.eqb id) (w_sums w)) steps p = (p', Ok h) /\ o' = mkObj (o_built o) (set_finish true p').
  Proof.
    unfold train, obj_train. destruct (o_built o) as [[a id]|] eqn:Eb; [|discriminate].
    destruct (w_path w); [|discriminate]. cbn [negb].
    destruct (body a rnd _ steps _) as [p' [h'|]] eqn:E; [|discriminate]. intros H. injection H as <- <-.
    exists a, id, (if resets then set_finish false (o_pub o) else o_pub o), p'. repeat split; auto. destruct resets; auto.
  Qed.

  Lemma train_built w o rnd steps : o_built (fst (train w o rnd steps)) = o_built o.
  Proof.
    unfold train, obj_train. destruct (o_built o) as [[a id]|] eqn:Eb; auto.
    destruct (w_path w); cbn [negb]; auto.
    destruct (body a rnd _ steps _) as [p' [h'|]]; auto.
  Qed.

  Hypothesis Hfin : forall a rnd sok steps p, p_finish (fst (body a rnd sok steps p)) = p_finish p.

  Lemma train_fin w o rnd steps : p_finish (o_pub (fst (train w o rnd steps))) =
    match snd (train w o rnd steps) with Ok _ => true | Raise _ => if resets then false else p_finish (o_pub o) end.
  Proof.
    unfold train, obj_train. destruct (o_built o) as [[a id]|] eqn:Eb; [|simpl; destruct resets; reflexivity].
    destruct (w_path w); cbn [negb]; [|simpl; destruct resets; reflexivity].
    pose proof (Hfin a rnd (forallb (Nat.eqb id) (w_sums w)) steps (if resets then set_finish false (o_pub o) else o_pub o)) as H.
    destruct (body a rnd _ steps _) as [p' [h'|]]; [reflexivity|]. simpl in *. rewrite H. destruct resets; reflexivity.
  Qed.

  Lemma last_completed_cons r l : l <> [] -> (last_completed (r :: l) <-> last_completed (T := T) l).
  Proof.
    intros Hl. split.
    - intros (l' & h & E). destruct l' as [|r' l']; simpl in E; injection E as E1 E2; [congruence|]. exists l', h. auto.
    - intros (l' & h & E). exists (r :: l'), h. rewrite E. reflexivity.
  Qed.
  Lemma last_completed_one (r : res (hist T)) : last_completed [r] <-> exists h, r = Ok h.
  Proof.
    split.
    - intros (l' & h & E). destruct l' as [|r' [|]]; simpl in E; try discriminate. exists h. congruence.
    - intros [h ->]. exists [], h. reflexivity.
  Qed.
  Lemma last_completed_nil : ~ @last_completed T [].
  Proof. intros (l' & h & E). destruct l'; discriminate. Qed.

  (** train_finish after a history that starts in any state *)
  Lemma finish_history cs : forall w o,
    let o' := object_after build_chk train w o cs in
    let l := outcomes build_chk train w o cs in
    (resets = true -> (p_finish (o_pub o') = true <-> (l = [] /\ p_finish (o_pub o) = true) \/ last_completed l)) /\
    (resets = false -> (p_finish (o_pub o') = true <-> p_finish (o_pub o) = true \/ some_completed l)).
  Proof.
    unfold object_after, outcomes. induction cs as [|c cs IH]; intros w o.
    - simpl. split; intros _.
      + split; [tauto|]. intros [[_ H]|H]; auto. exfalso. exact (last_completed_nil H).
      + split; [tauto|]. intros [H|[h []]]; auto.
    - cbn [do_calls]. destruct (do_call build_chk train w o c) as [[w1 o1] l1] eqn:Ec.
      specialize (IH w1 o1). destruct (do_calls build_chk train w1 o1 cs) as [[w2 o2] l2] eqn:Ed. simpl in *.
      assert (Hc : (l1 = [] /\ p_finish (o_pub o1) = p_finish (o_pub o)) \/
              exists r, l1 = [r] /\ p_finish (o_pub o1) = match r with Ok _ => true | Raise _ => if resets then false else p_finish (o_pub o) end).
      { destruct c as [a id|rnd steps|key|id]; simpl in Ec.
        - injection Ec as E1 <-. left. split; auto. unfold obj_build in E1. destruct (build_chk a); injection E1 as <- <-; reflexivity.
        - pose proof (train_fin w o rnd steps) as Hf. destruct (train w o rnd steps) as [o2' r]. injection Ec as <- <- <-.
          right. exists r. split; auto.
        - injection Ec as <- <- <-. left; auto.
        - injection Ec as <- <- <-. left; auto. }
      destruct IH as [IH1 IH2]. split; intros Hr.
      + rewrite (IH1 Hr). rewrite Hr in Hc. destruct Hc as [[-> Hp]|[r [-> Hp]]].
        * simpl. rewrite Hp. tauto.
        * simpl. destruct l2 as [|r2 l2].
          -- rewrite last_completed_one. rewrite Hp. split.
             ++ intros [[_ H]|H]; [|exfalso; exact (last_completed_nil H)]. destruct r; [right; eauto|discriminate].
             ++ intros [[H _]|[h ->]]; [discriminate|auto].
          -- rewrite (last_completed_cons r (r2 :: l2)) by discriminate. split; [intros [[H _]|H]; [discriminate|auto]|intros [[H _]|H]; [discriminate|auto]].
      + rewrite (IH2 Hr). rewrite Hr in Hc. unfold some_completed. destruct Hc as [[-> Hp]|[r [-> Hp]]].
        * simpl. rewrite Hp. tauto.
        * simpl. rewrite Hp. destruct r as [h|e].
          -- split; [|auto]. intros _. right. exists h. auto.
          -- split; [intros [H|[h H]]; eauto|]. intros [H|[h [H|H]]]; [auto|discriminate|eauto].
  Qed.

  Lemma finish_fresh cs w :
    (resets = true -> (p_finish (o_pub (object_after build_chk train w fresh cs)) = true <-> last_completed (outcomes build_chk train w fresh cs))) /\
    (resets = false -> (p_finish (o_pub (object_after build_chk train w fresh cs)) = true <-> some_completed (outcomes build_chk train w fresh cs))).
  Proof.
    destruct (finish_history cs w fresh) as [H1 H2]. split; intros Hr.
    - rewrite (H1 Hr). simpl. split; [intros [[_ H]|H]; [discriminate|auto]|auto].
    - rewrite (H2 Hr). simpl. split; [intros [H|H]; [discriminate|auto]|auto].
  Qed.

  (** failing trains leave train_finish unset *)
  Lemma train_not_finished w o rnd steps e : snd (train w o rnd steps) = Raise e ->
    (p_finish (o_pub (fst (train w o rnd steps))) = if resets then false else p_finish (o_pub o)).
  Proof. intros H. rewrite train_fin, H. reflexivity. Qed.

  Lemma train_unbuilt w o rnd steps : o_built o = None -> snd (train w o rnd steps) = Raise unbuilt.
  Proof. intros H. unfold train, obj_train. rewrite H. reflexivity. Qed.

  Lemma train_nopath w o rnd steps : w_path w = false -> exists e, snd (train w o rnd steps) = Raise e.
  Proof.
    intros H. unfold train, obj_train. rewrite H. cbn [negb]. destruct (o_built o) as [[a id]|]; simpl; eauto.
  Qed.
  Lemma train_nopath_built w o rnd steps a id : o_built o = Some (a, id) -> w_path w = false ->
    snd (train w o rnd steps) = Raise TypeError.
  Proof. intros Hb H. unfold train, obj_train. rewrite H, Hb. reflexivity. Qed.

  (** a history of trains and predicts keeps the model and the graph *)
  Definition keeps (c : call A R) : Prop := match c with Train _ _ | Predict _ => True | _ => False end.
  Lemma keeps_built cs : (forall c, In c cs -> keeps c) -> forall w o,
    fst (fst (do_calls build_chk train w o cs)) = w /\ o_built (object_after build_chk train w o cs) = o_built o.
  Proof.
    unfold object_after. induction cs as [|c cs IH]; intros H w o; [auto|]. cbn [do_calls].
    destruct (do_call build_chk train w o c) as [[w1 o1] l1] eqn:Ec.
    assert (Hc : w1 = w /\ o_built o1 = o_built o).
    { specialize (H c (or_introl eq_refl)). destruct c as [a id|rnd steps|key|id]; simpl in H; try contradiction; simpl in Ec.
      - pose proof (train_built w o rnd steps) as Hf. destruct (train w o rnd steps) as [o2' r]. injection Ec as <- <- <-. auto.
      - injection Ec as <- <- <-. auto. }
    destruct Hc as [-> Hb]. specialize (IH (fun c Hc => H c (or_intror Hc)) w o1).
    destruct (do_calls build_chk train w o1 cs) as [[w2 o2] l2]. simpl in *. destruct IH as [IH1 IH2]. split; auto. congruence.
  Qed.

  (** same outcome and same public fields whatever state the object was in *)
  Hypothesis Hsnd : forall a rnd sok steps p q, snd (body a rnd sok steps p) = snd (body a rnd sok steps q).
  Hypothesis Hind : forall a rnd sok steps p q p' h, body a rnd sok steps p = (p', Ok h) ->
    exists q', body a rnd sok steps q = (q', Ok h) /\ same true p' q'.

  Lemma train_indep w o1 o2 rnd steps : o_built o1 = o_built o2 ->
    snd (train w o1 rnd steps) = snd (train w o2 rnd steps) /\
    forall h, snd (train w o1 rnd steps) = Ok h -> o_pub (fst (train w o1 rnd steps)) = o_pub (fst (train w o2 rnd steps)).
  Proof.
    intros Hb. unfold train, obj_train. rewrite Hb. destruct (o_built o2) as [[a id]|]; [|split; [reflexivity|discriminate]].
    destruct (w_path w); [|split; [reflexivity|discriminate]]. cbn [negb].
    set (p := if resets then set_finish false (o_pub o1) else _). set (q := if resets then set_finish false (o_pub o2) else _).
    pose proof (Hsnd a rnd (forallb (Nat.eqb id) (w_sums w)) steps p q) as Hs.
    destruct (body a rnd _ steps p) as [p' [h'|]] eqn:E.
    - destruct (Hind _ _ _ _ _ q _ _ E) as (q' & Eq & Hsame). rewrite Eq. split; [reflexivity|]. intros h _. simpl.
      destruct Hsame as (S1 & S2 & S3). specialize (S3 eq_refl). destruct p', q'; simpl in *; unfold set_finish; simpl. congruence.
    - destruct (body a rnd _ steps q) as [q' [h2|]]; simpl in Hs; [discriminate|]. split; [simpl; congruence|discriminate].
  Qed.

  Lemma train_history_indep w o cs rnd steps : (forall c, In c cs -> keeps c) ->
    let o' := object_after build_chk train w o cs in
    snd (train w o' rnd steps) = snd (train w o rnd steps) /\
    forall h, snd (train w o rnd steps) = Ok h -> o_pub (fst (train w o' rnd steps)) = o_pub (fst (train w o rnd steps)).
  Proof.
    intros H o'. destruct (keeps_built cs H w o) as [_ Hb]. destruct (train_indep w o o' rnd steps (eq_sym Hb)) as [S1 S2].
    split; [auto|]. intros h Hh. symmetry. eapply S2; eauto.
  Qed.

  (** summaries of another model in the default graph *)
  Hypothesis Hsum : forall a rnd steps p p' h, body a rnd false steps p = (p', Ok h) -> False.
  Lemma train_foreign w o rnd steps a id id' : o_built o = Some (a, id) -> In id' (w_sums w) -> id' <> id ->
    exists e, snd (train w o rnd steps) = Raise e.
  Proof.
    intros Hb Hin Hne. unfold train, obj_train. rewrite Hb. destruct (w_path w); simpl; [|eauto].
    assert (Hf : forallb (Nat.eqb id) (w_sums w) = false).
    { destruct (forallb _ _) eqn:E; auto. rewrite forallb_forall in E. apply E in Hin. apply Nat.eqb_eq in Hin. congruence. }
    rewrite Hf. destruct (body a rnd false steps _) as [p' [h|]] eqn:E; [exfalso; eapply Hsum; eauto|simpl; eauto].
  Qed.

  (** a graph that holds only this model: train is its body *)
  Lemma train_alone w o rnd steps a id : o_built o = Some (a, id) -> w_path w = true ->
    (forall id', In id' (w_sums w) -> id' = id) ->
    let p := if resets then set_finish false (o_pub o) else o_pub o in
    snd (train w o rnd steps) = snd (body a rnd true steps p) /\
    forall h, snd (body a rnd true steps p) = Ok h -> o_pub (fst (train w o rnd steps)) = set_finish true (fst (body a rnd true steps p)).
  Proof.
    intros Hb Hp Hall p. unfold train, obj_train. rewrite Hb, Hp. cbn [negb].
    assert (Hf : forallb (Nat.eqb id) (w_sums w) = true).
    { apply forallb_forall. intros x Hx. apply Nat.eqb_eq. symmetry. auto. }
    rewrite Hf. fold p. destruct (body a rnd true steps p) as [p' [h|]]; simpl; split; auto. discriminate.
  Qed.
End Objects.

Ltac bodies H := cbv beta delta [cp_body hooi_body ncp_body nt_body] in H.

(** ** the five classes *)
Section Classes.
  Context {T : Type} {N : Num T}.
  Variable pinv svdU : tensor T -> tensor T.
  Variable svals : tensor T -> list T.
  Variable pow : T -> T -> T.
  Variable X : tensor T.

  Lemma cp_fin a rnd sok steps p : p_finish (fst (cp_body pinv X a rnd sok steps p)) = p_finish p.
  Proof. apply als_finish. Qed.
  Lemma hooi_fin a rnd sok steps p : p_finish (fst (hooi_body svdU X a rnd sok steps p)) = p_finish p.
  Proof. apply als_finish. Qed.
  Lemma ncp_fin a rnd sok steps p : p_finish (fst (ncp_body pow svals X a rnd sok steps p)) = p_finish p.
  Proof. apply bcu_finish. Qed.
  Lemma nt_fin a rnd sok steps p : p_finish (fst (nt_body pow svals X a rnd sok steps p)) = p_finish p.
  Proof. apply bcu_finish. Qed.
  Lemma hosvd_fin a rnd sok steps p : p_finish (fst (hosvd_body svdU X a rnd sok steps p)) = p_finish p.
  Proof. unfold hosvd_body. destruct (hosvd svdU X a); auto. destruct sok; auto. Qed.

  (** C36: the history *)
  Lemma cp_history w o rnd steps o' h : cp_train pinv X w o rnd steps = (o', Ok h) ->
    exists args rank id os, o_built o = Some ((args, rank), id) /\ als_run (cp_run pinv X rank) rnd os /\ h = map entry os /\
      stopped_by (fires (a_tol args) ref_first os) steps (length os).
  Proof.
    intros H. apply train_ok in H as ([args rank] & id & p & p' & Hb & _ & _ & H & _).
    bodies H. apply als_body_ok in H as (s0 & os & Hi & Hr & Hh & Hs & _). simpl in *.
    exists args, rank, id, os. split; auto. split; [congruence|auto].
  Qed.
  Lemma hooi_history w o rnd steps o' h : hooi_train svdU X w o rnd steps = (o', Ok h) ->
    exists args ranks id A0 os, o_built o = Some ((args, ranks), id) /\ hooi_init svdU X ranks = Ok A0 /\
      als_run (hooi_run svdU X ranks) A0 os /\ h = map entry os /\
      stopped_by (fires (a_tol args) ref_first os) steps (length os).
  Proof.
    intros H. apply train_ok in H as ([args rank] & id & p & p' & Hb & _ & _ & H & _).
    bodies H. apply als_body_ok in H as (s0 & os & Hi & Hr & Hh & Hs & _). simpl in *.
    exists args, rank, id, s0, os. auto.
  Qed.
  Lemma ncp_history w o rnd steps o' h : ncp_train pow svals X w o rnd steps = (o', Ok h) ->
    exists args rank id os, o_built o = Some ((args, rank), id) /\
      bcu_run (ncp_run svals X) (fun s => Ok (s, None)) ncp_accept (fun s => Ok (ncp_reject s)) (ncp_init pow X rnd) os /\
      h = map entry os /\ stopped_by (fires (a_tol args) ref_best os) steps (length os).
  Proof.
    intros H. apply train_ok in H as ([args rank] & id & p & p' & Hb & _ & _ & H & _).
    bodies H. apply bcu_body_ok in H as (s0 & os & p1 & Hi & Hr & (Hh & Hs & _) & _). simpl in *.
    exists args, rank, id, os. split; auto. split; [congruence|auto].
  Qed.
  Lemma nt_history w o rnd steps o' h : nt_train pow svals X w o rnd steps = (o', Ok h) ->
    exists args id os, o_built o = Some (args, id) /\
      bcu_run (nt_factors svals X) (nt_pre svals X) nt_accept (fun s => Ok (nt_reject s)) (nt_init pow X (fst rnd) (snd rnd)) os /\
      h = map entry os /\ stopped_by (fires (a_tol args) ref_best os) steps (length os).
  Proof.
    intros H. apply train_ok in H as (args & id & p & p' & Hb & _ & _ & H & _).
    bodies H. apply bcu_body_ok in H as (s0 & os & p1 & Hi & Hr & (Hh & Hs & _) & _). simpl in *.
    exists args, id, os. split; auto. split; [congruence|auto].
  Qed.

  (** C39: the published full tensor *)
  Lemma last_validates args steps (os : list (sobs T)) p o : nth_error os (length os - 1) = Some o ->
    validates args steps (Z.of_nat (length os)) -> full_of_last_validation args steps os p -> p_full p = Some (ob_full o).
  Proof.
    intros Ho Hv (j & oj & Hj & _ & Hmax & Hf).
    assert (j < length os) by (apply nth_error_Some; congruence).
    destruct (Nat.eq_dec j (length os - 1)) as [->|]; [congruence|].
    exfalso. apply (Hmax (length os - 1)); [lia|]. replace (length os - 1 + 1) with (length os) by lia. auto.
  Qed.

  Lemma last_obs (os : list (sobs T)) : 1 <= length os -> exists o, nth_error os (length os - 1) = Some o.
  Proof. intros H. destruct (nth_error os (length os - 1)) eqn:E; eauto. apply nth_error_None in E. lia. Qed.

  Definition stops_at_validation (o : option (targs T)) (steps : Z) (h : hist T) : Prop :=
    exists args, o = Some args /\ validates args steps (Z.of_nat (length h)).

  Lemma cp_full_ok w o rnd steps o' h args rank id : o_built o = Some ((args, rank), id) ->
    validates args steps (Z.of_nat (length h)) ->
    cp_train pinv X w o rnd steps = (o', Ok h) -> exists A lam full,
      p_factors (o_pub o') = Some A /\ p_aux (o_pub o') = Some lam /\ p_full (o_pub o') = Some full /\
      kt_extract A (mkT (shp lam ++ [1]) (dat lam)) = Ok full.
  Proof.
    intros Hb Hv H. apply train_ok in H as ([args' rank'] & id' & p & p' & Hb' & _ & _ & H & ->).
    assert (args' = args) by congruence. subst args'.
    bodies H. apply als_body_ok in H as (s0 & os & Hi & (st & _ & Hr) & Hh & [Hn Hs] & (_ & _ & Hf & Hfull) & _). simpl in *.
    destruct (last_obs os Hn) as [ob Ho]. subst h. rewrite map_length in Hv.
    assert (Hne : os <> []) by (destruct os; [simpl in Hn; lia|discriminate]).
    pose proof (last_validates args steps os p' ob Ho Hv (Hfull Hne)) as F. destruct (Hf _ Ho) as [F1 F2].
    apply Hr in Ho. apply cp_run_obs in Ho as (lam & E1 & E2 & E3 & _).
    exists (ob_factors ob), lam, (ob_full ob). rewrite E1. rewrite <- E1. repeat split; auto. congruence.
  Qed.

  Lemma hooi_full_ok w o rnd steps o' h args ranks id : o_built o = Some ((args, ranks), id) ->
    validates args steps (Z.of_nat (length h)) ->
    hooi_train svdU X w o rnd steps = (o', Ok h) -> exists A g full,
      p_factors (o_pub o') = Some A /\ p_aux (o_pub o') = Some g /\ p_full (o_pub o') = Some full /\
      tt_extract g A = Ok full.
  Proof.
    intros Hb Hv H. apply train_ok in H as ([args' rank'] & id' & p & p' & Hb' & _ & _ & H & ->).
    assert (args' = args) by congruence. subst args'.
    bodies H. apply als_body_ok in H as (s0 & os & Hi & (st & _ & Hr) & Hh & [Hn Hs] & (_ & _ & Hf & Hfull) & _). simpl in *.
    destruct (last_obs os Hn) as [ob Ho]. subst h. rewrite map_length in Hv.
    assert (Hne : os <> []) by (destruct os; [simpl in Hn; lia|discriminate]).
    pose proof (last_validates args steps os p' ob Ho Hv (Hfull Hne)) as F. destruct (Hf _ Ho) as [F1 F2].
    apply Hr in Ho. apply hooi_run_obs in Ho as (lam & E1 & E2 & E3 & _).
    exists (ob_factors ob), lam, (ob_full ob). rewrite E1. rewrite <- E1. repeat split; auto. congruence.
  Qed.

  Lemma ncp_full_ok w o rnd steps o' h args rank id : o_built o = Some ((args, rank), id) ->
    validates args steps (Z.of_nat (length h)) ->
    ncp_train pow svals X w o rnd steps = (o', Ok h) -> exists A lam full,
      p_factors (o_pub o') = Some A /\ p_full (o_pub o') = Some full /\ ncp_ones A = Ok lam /\
      kt_extract A lam = Ok full.
  Proof.
    intros Hb Hv H. apply train_ok in H as ([args' rank'] & id' & p & p' & Hb' & _ & _ & H & ->).
    assert (args' = args) by congruence. subst args'.
    bodies H. apply bcu_body_ok in H as (s0 & os & p1 & Hi & (st & _ & Hr) & (Hh & [Hn Hs] & (_ & _ & Hf & Hfull) & _) & -> & _). simpl in *.
    destruct (last_obs os Hn) as [ob Ho]. subst h. rewrite map_length in Hv.
    assert (Hne : os <> []) by (destruct os; [simpl in Hn; lia|discriminate]).
    pose proof (last_validates args steps os p1 ob Ho Hv (Hfull Hne)) as F. destruct (Hf _ Ho) as [F1 F2].
    apply Hr in Ho as (s1 & c & s2 & _ & Ho & _). apply ncp_run_obs in Ho as (lam & E1 & E2 & E3 & E4 & _).
    exists (n_A s2), lam, (ob_full ob). repeat split; auto. congruence.
  Qed.

  Lemma nt_full_ok w o rnd steps o' h args id : o_built o = Some (args, id) ->
    validates args steps (Z.of_nat (length h)) ->
    nt_train pow svals X w o rnd steps = (o', Ok h) -> exists A g full,
      p_factors (o_pub o') = Some A /\ p_aux (o_pub o') = Some g /\ p_full (o_pub o') = Some full /\
      tt_extract g A = Ok full.
  Proof.
    intros Hb Hv H. apply train_ok in H as (args' & id' & p & p' & Hb' & _ & _ & H & ->).
    assert (args' = args) by congruence. subst args'.
    bodies H. apply bcu_body_ok in H as (s0 & os & p1 & Hi & (st & _ & Hr) & (Hh & [Hn Hs] & (_ & _ & Hf & Hfull) & _) & -> & Hc). simpl in *.
    destruct Hc as (s & s1 & c & s2 & ob & Ho & Hpre & Hrun & Haux). subst h. rewrite map_length in Hv.
    assert (Hne : os <> []) by (destruct os; [simpl in Hn; lia|discriminate]).
    pose proof (last_validates args steps os p1 ob Ho Hv (Hfull Hne)) as F. destruct (Hf _ Ho) as [F1 F2].
    apply nt_pre_core in Hpre. apply nt_run_obs in Hrun as (E1 & E2 & E3 & E4 & _).
    exists (q_A s2), (q_g s1), (ob_full ob). repeat split; auto. congruence.
  Qed.

  (** the exact behaviour without the guard *)
  Lemma cp_pub_ok w o rnd steps o' h : cp_train pinv X w o rnd steps = (o', Ok h) ->
    exists args rank id os ob, o_built o = Some ((args, rank), id) /\ als_run (cp_run pinv X rank) rnd os /\ h = map entry os /\
      nth_error os (length os - 1) = Some ob /\ p_factors (o_pub o') = Some (ob_factors ob) /\ p_aux (o_pub o') = ob_aux ob /\
      full_of_last_validation args steps os (o_pub o').
  Proof.
    intros H. apply train_ok in H as ([args rank] & id & p & p' & Hb & _ & _ & H & ->).
    bodies H. apply als_body_ok in H as (s0 & os & Hi & (st & Hst & Hr) & Hh & [Hn Hs] & (_ & _ & Hf & Hfull) & _). simpl in *.
    destruct (last_obs os Hn) as [ob Ho].
    assert (Hne : os <> []) by (destruct os; [simpl in Hn; lia|discriminate]).
    destruct (Hf _ Ho) as [F1 F2]. pose proof (Hr _ _ Ho) as Hl. apply cp_run_obs in Hl as (lam & E1 & E2 & E3 & _).
    exists args, rank, id, os, ob. split; auto. split; [injection Hi as ->; exists st; auto|]. split; auto. split; auto.
    split; auto. split; [rewrite (F2 _ E2); auto|]. exact (Hfull Hne).
  Qed.

  (** HOSVD *)
  Lemma hosvd_full_ok w o rnd steps o' h : hosvd_train svdU X w o rnd steps = (o', Ok h) -> exists A g full,
      p_factors (o_pub o') = Some A /\ p_aux (o_pub o') = Some g /\ p_full (o_pub o') = Some full /\
      tt_extract g A = Ok full.
  Proof.
    intros H. apply train_ok in H as (ranks & id & p & p' & _ & _ & _ & H & ->). unfold hosvd_body in H.
    destruct (hosvd svdU X ranks) as [tu|] eqn:E; [|discriminate]. destruct (forallb _ _); [|discriminate].
    injection H as <- <-. unfold hosvd in E. mon E. injection E as <-. simpl. eauto 8.
  Qed.

  (** C43 *)
  Lemma cp_aux_some rank s s1 o : cp_run pinv X rank s = Ok (s1, o) -> ob_aux o <> None.
  Proof. intros H. apply cp_run_obs in H as (lam & _ & -> & _). discriminate. Qed.
  Lemma hooi_aux_some ranks s s1 o : hooi_run svdU X ranks s = Ok (s1, o) -> ob_aux o <> None.
  Proof. intros H. apply hooi_run_obs in H as (lam & _ & -> & _). discriminate. Qed.

  Lemma cp_indep bc w o cs rnd steps : (forall c, In c cs -> keeps c) ->
    let o' := object_after bc (cp_train pinv X) w o cs in
    snd (cp_train pinv X w o' rnd steps) = snd (cp_train pinv X w o rnd steps) /\
    forall h, snd (cp_train pinv X w o rnd steps) = Ok h ->
      o_pub (fst (cp_train pinv X w o' rnd steps)) = o_pub (fst (cp_train pinv X w o rnd steps)).
  Proof.
    apply train_history_indep.
    - intros. apply als_snd.
    - intros a r sok st p q p' h. apply als_indep. apply cp_aux_some.
  Qed.
  Lemma hooi_indep bc w o cs rnd steps : (forall c, In c cs -> keeps c) ->
    let o' := object_after bc (hooi_train svdU X) w o cs in
    snd (hooi_train svdU X w o' rnd steps) = snd (hooi_train svdU X w o rnd steps) /\
    forall h, snd (hooi_train svdU X w o rnd steps) = Ok h ->
      o_pub (fst (hooi_train svdU X w o' rnd steps)) = o_pub (fst (hooi_train svdU X w o rnd steps)).
  Proof.
    apply train_history_indep.
    - intros. apply als_snd.
    - intros a r sok st p q p' h. apply als_indep. apply hooi_aux_some.
  Qed.
  Lemma ncp_indep bc w o cs rnd steps : (forall c, In c cs -> keeps c) ->
    let o' := object_after bc (ncp_train pow svals X) w o cs in
    snd (ncp_train pow svals X w o' rnd steps) = snd (ncp_train pow svals X w o rnd steps) /\
    forall h, snd (ncp_train pow svals X w o rnd steps) = Ok h ->
      o_pub (fst (ncp_train pow svals X w o' rnd steps)) = o_pub (fst (ncp_train pow svals X w o rnd steps)).
  Proof.
    apply train_history_indep.
    - intros. apply bcu_snd.
    - intros a r sok st p q p' h. apply bcu_indep. right. discriminate.
  Qed.
  Lemma nt_indep bc w o cs rnd steps : (forall c, In c cs -> keeps c) ->
    let o' := object_after bc (nt_train pow svals X) w o cs in
    snd (nt_train pow svals X w o' rnd steps) = snd (nt_train pow svals X w o rnd steps) /\
    forall h, snd (nt_train pow svals X w o rnd steps) = Ok h ->
      o_pub (fst (nt_train pow svals X w o' rnd steps)) = o_pub (fst (nt_train pow svals X w o rnd steps)).
  Proof.
    apply train_history_indep.
    - intros. apply bcu_snd.
    - intros a r sok st p q p' h. apply bcu_indep. left. intros s s1 c Hp. apply nt_pre_core in Hp. congruence.
  Qed.
  Lemma hosvd_indep bc w o cs rnd steps : (forall c, In c cs -> keeps c) ->
    let o' := object_after bc (hosvd_train svdU X) w o cs in
    snd (hosvd_train svdU X w o' rnd steps) = snd (hosvd_train svdU X w o rnd steps) /\
    forall h, snd (hosvd_train svdU X w o rnd steps) = Ok h ->
      o_pub (fst (hosvd_train svdU X w o' rnd steps)) = o_pub (fst (hosvd_train svdU X w o rnd steps)).
  Proof.
    apply train_history_indep.
    - intros. unfold hosvd_body. destruct (hosvd svdU X a); auto. destruct sok; auto.
    - intros a r sok st p q p' h. unfold hosvd_body. destruct (hosvd svdU X a); [|discriminate]. destruct sok; [|discriminate].
      intros H. injection H as <- <-. eexists. split; [reflexivity|]. split; [|split]; auto.
  Qed.

  (** C41 *)
  Lemma cp_bad_args w o rnd steps :
    ((steps <= 0)%Z -> exists e, snd (cp_train pinv X w o rnd steps) = Raise e) /\
    (forall args rank id h, o_built o = Some ((args, rank), id) -> a_vi args = 0%Z -> a_verbose args = false -> (2 < steps)%Z ->
       snd (cp_train pinv X w o rnd steps) = Ok h -> length h = 1) /\
    (o_built o = None -> snd (cp_train pinv X w o rnd steps) = Raise TypeError) /\
    (forall e, snd (cp_train pinv X w o rnd steps) = Raise e -> p_finish (o_pub (fst (cp_train pinv X w o rnd steps))) = false).
  Proof.
    split; [|split; [|split]].
    - intros H. destruct (cp_train pinv X w o rnd steps) as [o' [h|]] eqn:E; [|simpl; eauto]. exfalso.
      apply train_ok in E as (a & id & p & p' & _ & _ & _ & E & _). unfold cp_body in E.
      pose proof (als_nosteps (cp_run pinv X (snd a)) (forallb (Nat.eqb id) (w_sums w)) (fst a) steps (Ok rnd) p H) as [e He].
      rewrite E in He. discriminate.
    - intros args rank id h Hb V1 V2 H Hh. destruct (cp_train pinv X w o rnd steps) as [o' r] eqn:E. simpl in Hh. subst r.
      apply train_ok in E as (a & id' & p & p' & Hb' & _ & _ & E & _). assert (a = (args, rank)) by congruence. subst a.
      bodies E. eapply als_vi0 in E; eauto.
    - apply train_unbuilt.
    - intros e. apply (train_not_finished TypeError true); auto. apply cp_fin.
  Qed.
  Lemma hooi_bad_args w o rnd steps :
    ((steps <= 0)%Z -> exists e, snd (hooi_train svdU X w o rnd steps) = Raise e) /\
    (forall args ranks id h, o_built o = Some ((args, ranks), id) -> a_vi args = 0%Z -> a_verbose args = false -> (2 < steps)%Z ->
       snd (hooi_train svdU X w o rnd steps) = Ok h -> length h = 1) /\
    (o_built o = None -> snd (hooi_train svdU X w o rnd steps) = Raise AttributeError) /\
    (forall e, snd (hooi_train svdU X w o rnd steps) = Raise e ->
       p_finish (o_pub (fst (hooi_train svdU X w o rnd steps))) = p_finish (o_pub o)).
  Proof.
    split; [|split; [|split]].
    - intros H. destruct (hooi_train svdU X w o rnd steps) as [o' [h|]] eqn:E; [|simpl; eauto]. exfalso.
      apply train_ok in E as (a & id & p & p' & _ & _ & _ & E & _). unfold hooi_body in E.
      pose proof (als_nosteps (hooi_run svdU X (snd a)) (forallb (Nat.eqb id) (w_sums w)) (fst a) steps (hooi_init svdU X (snd a)) p H) as [e He].
      rewrite E in He. discriminate.
    - intros args rank id h Hb V1 V2 H Hh. destruct (hooi_train svdU X w o rnd steps) as [o' r] eqn:E. simpl in Hh. subst r.
      apply train_ok in E as (a & id' & p & p' & Hb' & _ & _ & E & _). assert (a = (args, rank)) by congruence. subst a.
      bodies E. eapply als_vi0 in E; eauto.
    - apply train_unbuilt.
    - intros e. apply (train_not_finished AttributeError false); auto. apply hooi_fin.
  Qed.
  Lemma ncp_bad_args w o rnd steps :
    ((steps <= 0)%Z -> exists e, snd (ncp_train pow svals X w o rnd steps) = Raise e) /\
    (forall args rank id h, o_built o = Some ((args, rank), id) -> a_vi args = 0%Z -> a_verbose args = false -> (2 < steps)%Z ->
       snd (ncp_train pow svals X w o rnd steps) = Ok h -> length h = 1) /\
    (o_built o = None -> snd (ncp_train pow svals X w o rnd steps) = Raise AttributeError) /\
    (forall e, snd (ncp_train pow svals X w o rnd steps) = Raise e -> p_finish (o_pub (fst (ncp_train pow svals X w o rnd steps))) = false).
  Proof.
    split; [|split; [|split]].
    - intros H. destruct (ncp_train pow svals X w o rnd steps) as [o' [h|]] eqn:E; [|simpl; eauto]. exfalso.
      apply train_ok in E as (a & id & p & p' & _ & _ & _ & E & _). unfold ncp_body in E.
      edestruct (bcu_nosteps (ncp_run svals X) (forallb (Nat.eqb id) (w_sums w)) (fst a) steps) as [e He]; [exact H|].
      rewrite E in He. discriminate.
    - intros args rank id h Hb V1 V2 H Hh. destruct (ncp_train pow svals X w o rnd steps) as [o' r] eqn:E. simpl in Hh. subst r.
      apply train_ok in E as (a & id' & p & p' & Hb' & _ & _ & E & _). assert (a = (args, rank)) by congruence. subst a.
      bodies E. eapply bcu_vi0 in E; eauto.
    - apply train_unbuilt.
    - intros e. apply (train_not_finished AttributeError true); auto. apply ncp_fin.
  Qed.
  Lemma nt_bad_args w o rnd steps :
    ((steps <= 0)%Z -> exists e, snd (nt_train pow svals X w o rnd steps) = Raise e) /\
    (forall args id h, o_built o = Some (args, id) -> a_vi args = 0%Z -> a_verbose args = false -> (2 < steps)%Z ->
       snd (nt_train pow svals X w o rnd steps) = Ok h -> length h = 1) /\
    (o_built o = None -> snd (nt_train pow svals X w o rnd steps) = Raise AttributeError) /\
    (forall e, snd (nt_train pow svals X w o rnd steps) = Raise e -> p_finish (o_pub (fst (nt_train pow svals X w o rnd steps))) = false).
  Proof.
    split; [|split; [|split]].
    - intros H. destruct (nt_train pow svals X w o rnd steps) as [o' [h|]] eqn:E; [|simpl; eauto]. exfalso.
      apply train_ok in E as (a & id & p & p' & _ & _ & _ & E & _). unfold nt_body in E.
      edestruct (bcu_nosteps (nt_factors svals X) (forallb (Nat.eqb id) (w_sums w)) a steps) as [e He]; [exact H|].
      rewrite E in He. discriminate.
    - intros args id h Hb V1 V2 H Hh. destruct (nt_train pow svals X w o rnd steps) as [o' r] eqn:E. simpl in Hh. subst r.
      apply train_ok in E as (a & id' & p & p' & Hb' & _ & _ & E & _). assert (a = args) by congruence. subst a.
      bodies E. eapply bcu_vi0 in E; eauto.
    - apply train_unbuilt.
    - intros e. apply (train_not_finished AttributeError true); auto. apply nt_fin.
  Qed.

  (** C67 *)
  Lemma cp_foreign w o rnd steps a id id' : o_built o = Some (a, id) -> In id' (w_sums w) -> id' <> id ->
    exists e, snd (cp_train pinv X w o rnd steps) = Raise e.
  Proof. apply train_foreign. intros. bodies H. apply als_sum in H. discriminate. Qed.
  Lemma hooi_foreign w o rnd steps a id id' : o_built o = Some (a, id) -> In id' (w_sums w) -> id' <> id ->
    exists e, snd (hooi_train svdU X w o rnd steps) = Raise e.
  Proof. apply train_foreign. intros. bodies H. apply als_sum in H. discriminate. Qed.
  Lemma ncp_foreign w o rnd steps a id id' : o_built o = Some (a, id) -> In id' (w_sums w) -> id' <> id ->
    exists e, snd (ncp_train pow svals X w o rnd steps) = Raise e.
  Proof. apply train_foreign. intros. bodies H. apply bcu_sum in H. discriminate. Qed.
  Lemma nt_foreign w o rnd steps a id id' : o_built o = Some (a, id) -> In id' (w_sums w) -> id' <> id ->
    exists e, snd (nt_train pow svals X w o rnd steps) = Raise e.
  Proof. apply train_foreign. intros. bodies H. apply bcu_sum in H. discriminate. Qed.
  Lemma hosvd_foreign w o rnd steps a id id' : o_built o = Some (a, id) -> In id' (w_sums w) -> id' <> id ->
    exists e, snd (hosvd_train svdU X w o rnd steps) = Raise e.
  Proof.
    apply train_foreign. intros a0 r st p p' h. unfold hosvd_body. destruct (hosvd svdU X a0); discriminate.
  Qed.

  (** C42 *)
  Lemma forallb_map {A B} (f : B -> bool) (g : A -> B) l : forallb f (map g l) = forallb (fun a => f (g a)) l.
  Proof. induction l as [|a l IH]; cbn; congruence. Qed.
  Lemma item_indices : forall (s : list nat) (ks : list Z), length ks = length s ->
    mapM (fun p => let '(i, d) := p in let j := if (i <? 0)%Z then (i + Z.of_nat d)%Z else i in
                 if ((0 <=? j) && (j <? Z.of_nat d))%Z%bool then Ok (Z.to_nat j) else Raise IndexError) (combine ks s)
    = if forallb (fun k => ((- Z.of_nat (nth k s 0%nat) <=? nth k ks 0) && (nth k ks 0 <? Z.of_nat (nth k s 0%nat)))%Z%bool) (seq 0 (length s))
      then Ok (map (fun k => py_index (nth k s 0) (nth k ks 0%Z)) (seq 0 (length s))) else Raise IndexError.
  Proof.
    induction s as [|d s IH]; intros [|z ks] L; try discriminate; [reflexivity|].
    cbn [combine mapM length seq forallb map nth]. rewrite <- seq_shift, forallb_map, map_map.
    set (jj := if (z <? 0)%Z then (z + Z.of_nat d)%Z else z).
    assert (E : ((0 <=? jj) && (jj <? Z.of_nat d))%Z%bool = ((- Z.of_nat d <=? z) && (z <? Z.of_nat d))%Z%bool).
    { unfold jj. destruct (Z.ltb_spec z 0); destruct (Z.leb_spec (- Z.of_nat d) z); destruct (Z.ltb_spec z (Z.of_nat d)); cbn [andb];
        try lia; repeat match goal with |- context [(?a <=? ?b)%Z] => destruct (Z.leb_spec a b) | |- context [(?a <? ?b)%Z] => destruct (Z.ltb_spec a b) end; cbn; auto; lia. }
    rewrite E. destruct ((- Z.of_nat d <=? z) && (z <? Z.of_nat d))%Z%bool; [|reflexivity]. cbn [andb bind]. rewrite IH by (simpl in L; lia). cbn [nth].
    destruct (forallb _ _); reflexivity.
  Qed.
  Definition in_bounds (d : nat) (z : Z) : bool := ((- Z.of_nat d <=? z) && (z <? Z.of_nat d))%Z%bool.
  Lemma in_bounds_true d z : in_bounds d z = true <-> (- Z.of_nat d <= z < Z.of_nat d)%Z.
  Proof. unfold in_bounds. rewrite andb_true_iff, Z.leb_le, Z.ltb_lt. reflexivity. Qed.
  Lemma in_bounds_false d z : in_bounds d z = false <-> ~ (- Z.of_nat d <= z < Z.of_nat d)%Z.
  Proof. rewrite <- in_bounds_true. destruct (in_bounds d z); split; congruence. Qed.
  Lemma pynth_any (l : list T) z : pynth l z = if in_bounds (length l) z then Ok (nth (py_index (length l) z) l n0) else Raise IndexError.
  Proof.
    unfold pynth, py_index. set (j := if (z <? 0)%Z then (z + Z.of_nat (length l))%Z else z).
    destruct (in_bounds (length l) z) eqn:E; [apply in_bounds_true in E|apply in_bounds_false in E].
    - assert (Hj : (0 <= j < Z.of_nat (length l))%Z) by (unfold j; destruct (Z.ltb_spec z 0); lia).
      destruct (Z.leb_spec 0 j); [|lia]. destruct (Z.ltb_spec j (Z.of_nat (length l))); [|lia]. cbn [andb].
      rewrite (nth_error_nth' l n0) by lia. reflexivity.
    - assert (Hj : (j < 0 \/ Z.of_nat (length l) <= j)%Z) by (unfold j; destruct (Z.ltb_spec z 0); lia).
      destruct (Z.leb_spec 0 j); [|reflexivity]. destruct (Z.ltb_spec j (Z.of_nat (length l))); [lia|]. reflexivity.
  Qed.

  Lemma predict_any (p : pub T) t key : p_full p = Some t -> wf t -> length key = ndims t -> 1 <= ndims t ->
    predict_plain p key = if forallb (fun k => in_bounds (nth k (shp t) 0%nat) (nth k key 0%Z)) (seq 0 (ndims t))
      then Ok (get t (map (fun k => py_index (nth k (shp t) 0) (nth k key 0%Z)) (seq 0 (ndims t)))) else Raise IndexError.
  Proof.
    intros Hf Hw Hl H1. unfold predict_plain. rewrite Hf. unfold nd_item.
    destruct key as [|i [|j key']]; [simpl in Hl; lia| |].
    - unfold ndims in *. unfold wf in Hw. unfold get. destruct (shp t) as [|d [|]]; try discriminate Hl. cbn [length seq forallb map nth ravel prod fold_right] in *.
      rewrite pynth_any, Hw. change (prod [d]) with (d * 1). rewrite Nat.mul_1_r. destruct (in_bounds d i); cbn [andb]; [|reflexivity].
      f_equal. f_equal. lia.
    - set (key := i :: j :: key') in *. cbv iota. rewrite Hl, Nat.eqb_refl. cbn [negb]. rewrite item_indices by exact Hl.
      change (length (shp t)) with (ndims t). unfold in_bounds. destruct (forallb _ _); reflexivity.
  Qed.

  Lemma predict_plain_ok (p : pub T) t key : p_full p = Some t -> wf t -> length key = ndims t -> 1 <= ndims t ->
    (forall k, k < ndims t -> (- Z.of_nat (nth k (shp t) 0%nat) <= nth k key 0 < Z.of_nat (nth k (shp t) 0%nat))%Z) ->
    predict_plain p key = Ok (get t (map (fun k => py_index (nth k (shp t) 0) (nth k key 0%Z)) (seq 0 (ndims t)))).
  Proof.
    intros Hf Hw Hl H1 Hk. rewrite (predict_any p t key Hf Hw Hl H1).
    replace (forallb _ _) with true; [reflexivity|]. symmetry. apply forallb_forall. intros k Hin. apply in_seq in Hin. apply in_bounds_true, Hk. lia.
  Qed.
  Lemma predict_plain_out (p : pub T) t key k : p_full p = Some t -> wf t -> length key = ndims t -> k < ndims t ->
    ~ (- Z.of_nat (nth k (shp t) 0%nat) <= nth k key 0 < Z.of_nat (nth k (shp t) 0%nat))%Z -> predict_plain p key = Raise IndexError.
  Proof.
    intros Hf Hw Hl Hk Ho. rewrite (predict_any p t key Hf Hw Hl ltac:(lia)).
    destruct (forallb _ _) eqn:E; [|reflexivity]. exfalso. apply Ho. apply in_bounds_true. rewrite forallb_forall in E. apply E. apply in_seq. lia.
  Qed.
  Lemma predict_plain_arity (p : pub T) t key : p_full p = Some t -> length key <> ndims t -> length key <> 1 -> (key = [] -> length (dat t) <> 1) ->
    predict_plain p key = Raise ValueError.
  Proof.
    intros Hf Hl H1 H0. unfold predict_plain. rewrite Hf. unfold nd_item. destruct key as [|i [|j key']].
    - specialize (H0 eq_refl). destruct (dat t) as [|x [|y l]]; try reflexivity. simpl in H0. lia.
    - simpl in H1. lia.
    - destruct (Nat.eqb_spec (length (i :: j :: key')) (ndims t)); [contradiction|reflexivity].
  Qed.
  Lemma predict_plain_flat (p : pub T) t : p_full p = Some t -> wf t ->
    (forall idx, valid (shp t) idx -> predict_plain p [Z.of_nat (rowmajor (shp t) idx)] = Ok (get t idx)) /\
    (forall z, ~ (- Z.of_nat (nprod (shp t)) <= z < Z.of_nat (nprod (shp t)))%Z -> predict_plain p [z] = Raise IndexError).
  Proof.
    intros Hf Hw. unfold predict_plain. rewrite Hf. cbn [nd_item]. unfold wf in Hw. split.
    - intros idx Hv. rewrite <- ravel_rowmajor by (apply valid_length, Hv). rewrite pynth_any. pose proof (ravel_lt (shp t) idx Hv) as Hlt. rewrite Hw.
      replace (in_bounds _ _) with true by (symmetry; apply in_bounds_true; lia). unfold get, py_index. f_equal. f_equal.
      destruct (Z.ltb_spec (Z.of_nat (ravel (shp t) idx)) 0); lia.
    - intros z Hz. rewrite pynth_any, Hw, prod_nprod. replace (in_bounds _ _) with false; [reflexivity|]. symmetry. apply in_bounds_false. exact Hz.
  Qed.

  Lemma predict_checked_many (p : pub T) t key : p_full p = Some t -> 2 <= length (dat t) ->
    predict_checked p key = Raise ValueError.
  Proof.
    intros Hf Hl. unfold predict_checked, not_full. rewrite Hf. destruct (dat t) as [|a [|b l]]; simpl in Hl; try lia. reflexivity.
  Qed.
  Lemma predict_checked_one (p : pub T) t x key : p_full p = Some t -> dat t = [x] ->
    predict_checked p key = if neqb x n0 then Raise TensorErr else predict_plain p key.
  Proof. intros Hf Hd. unfold predict_checked, predict_plain, not_full. rewrite Hf, Hd. cbn [bind]. destruct (neqb x n0); reflexivity. Qed.
  Lemma predict_none (p : pub T) key : p_full p = None ->
    predict_checked p key = Raise TensorErr /\ predict_plain p key = Raise AttributeError.
  Proof. intros H. unfold predict_checked, predict_plain. rewrite H. auto. Qed.
End Classes.

(** C37: over the reals the reference is the smallest objective so far *)
Lemma ref_best_min (os : list (sobs R)) k : 0 < k ->
  (forall j, j < k -> (ref_best os k <= m_obj (met os j))%R) /\
  (exists j, j < k /\ ref_best os k = m_obj (met os j)).
Proof.
  induction k as [|k IH]; intros Hk; [lia|]. cbn [ref_best].
  destruct k as [|k'].
  - cbn [ref_best]. set (o := m_obj (met os 0)).
    assert (E : nltb o (nadd o n1) = true) by (apply nltb_R; Rn; lra).
    rewrite E. split; [|exists 0; auto]. intros j Hj. assert (j = 0) by lia. subst. unfold o. lra.
  - destruct (IH ltac:(lia)) as [I1 (j0 & Hj0 & I2)]. set (r := ref_best os (S k')) in *.
    destruct (nltb (m_obj (met os (S k'))) r) eqn:E.
    + apply nltb_R in E. split; [|exists (S k'); auto]. intros j Hj.
      destruct (Nat.eq_dec j (S k')) as [->|]; [lra|]. specialize (I1 j ltac:(lia)). lra.
    + apply nltb_R_false in E. split; [|exists j0; split; [lia|auto]]. intros j Hj.
      destruct (Nat.eq_dec j (S k')) as [->|]; [exact E|]. apply I1. lia.
Qed.

Lemma steps_measured (X : tensor R) : wf X ->
  (forall pinv rank A A' ob, cp_run pinv X rank A = Ok (A', ob) ->
     exists lam, ob_factors ob = A' /\ ob_aux ob = Some lam /\
       kt_extract A' (mkT (shp lam ++ [1]) (dat lam)) = Ok (ob_full ob) /\ measured X (ob_full ob) (ob_met ob)) /\
  (forall svdU ranks A A' ob, hooi_run svdU X ranks A = Ok (A', ob) ->
     exists g, ob_factors ob = A' /\ ob_aux ob = Some g /\
       tt_extract g A' = Ok (ob_full ob) /\ measured X (ob_full ob) (ob_met ob)) /\
  (forall svals s s' ob, ncp_run svals X s = Ok (s', ob) ->
     exists ones, ob_factors ob = n_A s' /\ ncp_ones (n_A s') = Ok ones /\
       kt_extract (n_A s') ones = Ok (ob_full ob) /\ measured X (ob_full ob) (ob_met ob)) /\
  (forall svals s s' ob, nt_factors svals X s = Ok (s', ob) ->
     ob_factors ob = q_A s' /\ q_g s' = q_g s /\
       tt_extract (q_g s) (q_A s') = Ok (ob_full ob) /\ measured X (ob_full ob) (ob_met ob)).
Proof.
  intros HX. split; [|split; [|split]].
  - intros. apply cp_run_obs in H as (lam & H1 & H2 & H3 & H4). exists lam. repeat (split; auto); apply metrics_R; auto.
  - intros. apply hooi_run_obs in H as (lam & H1 & H2 & H3 & H4). exists lam. repeat (split; auto); apply metrics_R; auto.
  - intros. apply ncp_run_obs in H as (lam & H1 & H2 & H3 & H4 & H5). exists lam. repeat (split; auto); apply metrics_R; auto.
  - intros. apply nt_run_obs in H as (H1 & H2 & H3 & H4 & H5). repeat (split; auto); apply metrics_R; auto.
Qed.

Section All.
  Context {T : Type} {N : Num T}.
  Variable pinv svdU : tensor T -> tensor T.
  Variable svals : tensor T -> list T.
  Variable pow : T -> T -> T.
  Variable X : tensor T.
  Variable w : world.

  Lemma finish_all :
    (forall bc cs, p_finish (o_pub (object_after bc (cp_train pinv X) w fresh cs)) = true
               <-> last_completed (outcomes bc (cp_train pinv X) w fresh cs)) /\
    (forall bc cs, p_finish (o_pub (object_after bc (ncp_train pow svals X) w fresh cs)) = true
               <-> last_completed (outcomes bc (ncp_train pow svals X) w fresh cs)) /\
    (forall bc cs, p_finish (o_pub (object_after bc (nt_train pow svals X) w fresh cs)) = true
               <-> last_completed (outcomes bc (nt_train pow svals X) w fresh cs)) /\
    (forall bc cs, p_finish (o_pub (object_after bc (hosvd_train svdU X) w fresh cs)) = true
               <-> last_completed (outcomes bc (hosvd_train svdU X) w fresh cs)).
  Proof.
    split; [|split; [|split]]; intros.
    - apply (finish_fresh TypeError true); auto. apply cp_fin.
    - apply (finish_fresh AttributeError true); auto. apply ncp_fin.
    - apply (finish_fresh AttributeError true); auto. apply nt_fin.
    - apply (finish_fresh TypeError true); auto. apply hosvd_fin.
  Qed.
  Lemma finish_hooi bc cs : p_finish (o_pub (object_after bc (hooi_train svdU X) w fresh cs)) = true
    <-> some_completed (outcomes bc (hooi_train svdU X) w fresh cs).
  Proof. apply (finish_fresh AttributeError false); auto. apply hooi_fin. Qed.

  Lemma indep_all :
    (forall bc o cs rnd steps, (forall c, In c cs -> keeps c) ->
      let o' := object_after bc (cp_train pinv X) w o cs in
      snd (cp_train pinv X w o' rnd steps) = snd (cp_train pinv X w o rnd steps) /\
      forall h, snd (cp_train pinv X w o rnd steps) = Ok h ->
        o_pub (fst (cp_train pinv X w o' rnd steps)) = o_pub (fst (cp_train pinv X w o rnd steps))) /\
    (forall bc o cs rnd steps, (forall c, In c cs -> keeps c) ->
      let o' := object_after bc (hooi_train svdU X) w o cs in
      snd (hooi_train svdU X w o' rnd steps) = snd (hooi_train svdU X w o rnd steps) /\
      forall h, snd (hooi_train svdU X w o rnd steps) = Ok h ->
        o_pub (fst (hooi_train svdU X w o' rnd steps)) = o_pub (fst (hooi_train svdU X w o rnd steps))) /\
    (forall bc o cs rnd steps, (forall c, In c cs -> keeps c) ->
      let o' := object_after bc (ncp_train pow svals X) w o cs in
      snd (ncp_train pow svals X w o' rnd steps) = snd (ncp_train pow svals X w o rnd steps) /\
      forall h, snd (ncp_train pow svals X w o rnd steps) = Ok h ->
        o_pub (fst (ncp_train pow svals X w o' rnd steps)) = o_pub (fst (ncp_train pow svals X w o rnd steps))) /\
    (forall bc o cs rnd steps, (forall c, In c cs -> keeps c) ->
      let o' := object_after bc (nt_train pow svals X) w o cs in
      snd (nt_train pow svals X w o' rnd steps) = snd (nt_train pow svals X w o rnd steps) /\
      forall h, snd (nt_train pow svals X w o rnd steps) = Ok h ->
        o_pub (fst (nt_train pow svals X w o' rnd steps)) = o_pub (fst (nt_train pow svals X w o rnd steps))) /\
    (forall bc o cs rnd steps, (forall c, In c cs -> keeps c) ->
      let o' := object_after bc (hosvd_train svdU X) w o cs in
      snd (hosvd_train svdU X w o' rnd steps) = snd (hosvd_train svdU X w o rnd steps) /\
      forall h, snd (hosvd_train svdU X w o rnd steps) = Ok h ->
        o_pub (fst (hosvd_train svdU X w o' rnd steps)) = o_pub (fst (hosvd_train svdU X w o rnd steps))).
  Proof.
    split; [|split; [|split; [|split]]]; intros.
    - apply cp_indep; auto.
    - apply hooi_indep; auto.
    - apply ncp_indep; auto.
    - apply nt_indep; auto.
    - apply hosvd_indep; auto.
  Qed.

  Lemma alone_all rnd steps id : w_path w = true -> (forall id', In id' (w_sums w) -> id' = id) ->
    (forall o a, o_built o = Some (a, id) ->
      snd (cp_train pinv X w o rnd steps) = snd (cp_body pinv X a rnd true steps (o_pub o))) /\
    (forall rnd o a, o_built o = Some (a, id) ->
      snd (hooi_train svdU X w o rnd steps) = snd (hooi_body svdU X a rnd true steps (o_pub o))) /\
    (forall o a, o_built o = Some (a, id) ->
      snd (ncp_train pow svals X w o rnd steps) = snd (ncp_body pow svals X a rnd true steps (o_pub o))) /\
    (forall rnd o a, o_built o = Some (a, id) ->
      snd (nt_train pow svals X w o rnd steps) = snd (nt_body pow svals X a rnd true steps (o_pub o))) /\
    (forall rnd o a, o_built o = Some (a, id) ->
      snd (hosvd_train svdU X w o rnd steps) = snd (hosvd_body svdU X a rnd true steps (o_pub o))).
  Proof.
    intros Hp Hi. split; [|split; [|split; [|split]]]; intros.
    - edestruct (train_alone TypeError true (cp_body pinv X) w o rnd steps a id) as [E _]; auto.
      unfold cp_train. rewrite E. apply als_snd.
    - edestruct (train_alone AttributeError false (hooi_body svdU X) w o rnd0 steps a id) as [E _]; auto.
    - edestruct (train_alone AttributeError true (ncp_body pow svals X) w o rnd steps a id) as [E _]; auto.
      unfold ncp_train. rewrite E. apply bcu_snd.
    - edestruct (train_alone AttributeError true (nt_body pow svals X) w o rnd0 steps a id) as [E _]; auto.
      unfold nt_train. rewrite E. apply bcu_snd.
    - edestruct (train_alone TypeError true (hosvd_body svdU X) w o rnd0 steps a id) as [E _]; auto.
      unfold hosvd_train. rewrite E. unfold hosvd_body. destruct (hosvd svdU X a); reflexivity.
  Qed.

  Lemma foreign_all steps id id' : In id' (w_sums w) -> id' <> id ->
    (forall rnd o a, o_built o = Some (a, id) -> exists e, snd (cp_train pinv X w o rnd steps) = Raise e) /\
    (forall rnd o a, o_built o = Some (a, id) -> exists e, snd (hooi_train svdU X w o rnd steps) = Raise e) /\
    (forall rnd o a, o_built o = Some (a, id) -> exists e, snd (ncp_train pow svals X w o rnd steps) = Raise e) /\
    (forall rnd o a, o_built o = Some (a, id) -> exists e, snd (nt_train pow svals X w o rnd steps) = Raise e) /\
    (forall rnd o a, o_built o = Some (a, id) -> exists e, snd (hosvd_train svdU X w o rnd steps) = Raise e).
  Proof.
    intros H1 H2. split; [|split; [|split; [|split]]]; intros.
    - eapply cp_foreign; eauto.
    - eapply hooi_foreign; eauto.
    - eapply ncp_foreign; eauto.
    - eapply nt_foreign; eauto.
    - eapply hosvd_foreign; eauto.
  Qed.

  Lemma nopath_all steps : w_path w = false ->
    (forall rnd o a id, o_built o = Some (a, id) -> snd (cp_train pinv X w o rnd steps) = Raise TypeError) /\
    (forall rnd o a id, o_built o = Some (a, id) -> snd (hooi_train svdU X w o rnd steps) = Raise TypeError) /\
    (forall rnd o a id, o_built o = Some (a, id) -> snd (ncp_train pow svals X w o rnd steps) = Raise TypeError) /\
    (forall rnd o a id, o_built o = Some (a, id) -> snd (nt_train pow svals X w o rnd steps) = Raise TypeError) /\
    (forall rnd o a id, o_built o = Some (a, id) -> snd (hosvd_train svdU X w o rnd steps) = Raise TypeError).
  Proof.
    intros H. split; [|split; [|split; [|split]]]; intros; eapply train_nopath_built; eauto.
  Qed.
End All.
