(** Facts about scripts (C97). *)

From Coq Require Import ZArith List Bool Arith Lia.
From Verif Require Import Num Py Tensor Fact Train SpecTrain TrainFacts TrainLemmas Process SpecProc.
Import ListNotations.

Section F.
  Context {T : Type} {N : Num T}.

  Lemma upd_length {A} (l : list A) : forall i x, length (upd l i x) = length l.
  Proof. induction l as [|y l IH]; intros [|i] x; cbn; auto. Qed.
  Lemma upd_last {A} (l : list A) y x : upd (l ++ [y]) (length l) x = l ++ [x].
  Proof. induction l as [|z l IH]; cbn; [reflexivity|]. f_equal. exact IH. Qed.
  Lemma nth_last {A} (l : list A) y d : nth (length l) (l ++ [y]) d = y.
  Proof. rewrite app_nth2, Nat.sub_diag; auto. Qed.
  Lemma nth_error_last {A} (l : list A) y : nth_error (l ++ [y]) (length l) = Some y.
  Proof. rewrite nth_error_app2, Nat.sub_diag; auto. Qed.

  Lemma run_app (p : proc T) cs ds : run p (cs ++ ds) =
    match run p cs with
    | (q, Ok hs) => match run q ds with (q', Ok hs') => (q', Ok (hs ++ hs')) | (q', Raise e) => (q', Raise e) end
    | (q, Raise e) => (q, Raise e)
    end.
  Proof.
    revert p. induction cs as [|c cs IH]; intros p; cbn [run app].
    - destruct (run p ds) as [q [hs|e]]; reflexivity.
    - destruct (exec p c) as [p' [h|e]]; [|reflexivity]. rewrite IH. destruct (run p' cs) as [q [hs|e]]; [|reflexivity].
      destruct (run q ds) as [q' [hs'|e]]; [|reflexivity]. rewrite app_assoc. reflexivity.
  Qed.

  (** a train does not care about the number of its placeholder *)
  Lemma train_renumber (c : cls T) a i j p d steps :
    let t k := obj_train (c_unbuilt c) (c_resets c) (c_body c) (mkW [k] true) (mkObj (Some (a, k)) p) d steps in
    o_pub (fst (t i)) = o_pub (fst (t j)) /\ snd (t i) = snd (t j).
  Proof.
    cbv zeta. unfold obj_train. cbn [o_built w_path w_sums o_pub negb forallb]. rewrite !Nat.eqb_refl. cbn [andb].
    destruct (c_body c a d true steps _) as [p' [h|e]]; split; reflexivity.
  Qed.

  (** one decomposition in its own graph *)
  Lemma own_graph_step (p : proc T) m j : length (p_sums p) = 2 * m + 1 -> p_stack p = [] -> length (p_objs p) = m ->
    let '(q, r) := run p (in_own_graph m j) in
    match result j with
    | Ok h => r = Ok [h] /\ length (p_sums q) = length (p_sums p) + 2 /\ p_stack q = [] /\
              exists b, p_objs q = p_objs p ++ [b] /\ o_pub (b_obj b) = model j
    | Raise e => r = Raise e
    end.
  Proof.
    intros Hs Hst Ho. destruct p as [sums dflt stack ph objs]. cbn [p_sums p_stack p_objs] in *. subst stack.
    unfold in_own_graph. rewrite <- Hs. clear Hs. rewrite <- Ho. clear Ho.
    cbn [run exec app p_sums p_dflt p_stack p_ph p_objs current hd tl].
    rewrite nth_error_last. cbn [b_path b_obj b_cls]. unfold obj_build, current. cbn [hd p_stack p_dflt p_sums w_sums w_path fresh o_pub].
    rewrite nth_last. cbn [app]. rewrite !upd_last. cbn [p_objs p_sums p_dflt p_stack p_ph].
    rewrite nth_error_last. unfold ptrain, current. cbn [b_obj b_path b_graph b_cls o_built hd p_stack p_dflt p_sums].
    rewrite Nat.eqb_refl. cbn [negb andb]. rewrite nth_last.
    destruct (train_renumber (j_cls j) (j_args j) ph 0 pub0 (j_draws j) (j_steps j)) as [E1 E2].
    unfold result, model, alone. rewrite <- E1, <- E2.
    destruct (obj_train _ _ _ _ _ _ _) as [o [h|e]]; cbn [fst snd p_stack p_sums p_objs tl app]; [|reflexivity].
    rewrite upd_last. split; [reflexivity|]. split; [rewrite !app_length; cbn; lia|]. split; [reflexivity|]. eexists. split; reflexivity.
  Qed.

  Lemma own_graphs_run (jobs : list (job T)) : forall m (p : proc T), length (p_sums p) = 2 * m + 1 -> p_stack p = [] -> length (p_objs p) = m ->
    let '(q, r) := run p (concat (map (fun p => in_own_graph (fst p) (snd p)) (combine (seq m (length jobs)) jobs))) in
    r = mapM result jobs /\ (forall hs, r = Ok hs -> map (fun b => o_pub (b_obj b)) (p_objs q) = map (fun b => o_pub (b_obj b)) (p_objs p) ++ map model jobs).
  Proof.
    induction jobs as [|j jobs IH]; intros m p H1 H2 H3.
    - cbn. split; [reflexivity|]. intros hs _. rewrite app_nil_r. reflexivity.
    - cbn [length seq combine map concat fst snd mapM]. rewrite run_app. pose proof (own_graph_step p m j H1 H2 H3) as G.
      destruct (run p (in_own_graph m j)) as [q r]. destruct (result j) as [h|e].
      + destruct G as (-> & G1 & G2 & b & G3 & G4). cbn [bind]. specialize (IH (S m) q ltac:(lia) G2 ltac:(rewrite G3, app_length; cbn; lia)).
        destruct (run q _) as [q' [hs|e]]; destruct IH as [I1 I2]; rewrite <- I1; cbn [bind]; (split; [reflexivity|]).
        * intros hs' _. rewrite (I2 hs eq_refl), G3, map_app. cbn [map]. rewrite G4, <- app_assoc. reflexivity.
        * intros hs' E. discriminate E.
      + subst r. cbn [bind]. split; [reflexivity|]. discriminate.
  Qed.

  Lemma c97_own_graphs (jobs : list (job T)) :
    snd (run start (own_graphs jobs)) = mapM result jobs /\
    forall hs, snd (run start (own_graphs jobs)) = Ok hs -> map (fun b => o_pub (b_obj b)) (p_objs (fst (run start (own_graphs jobs)))) = map model jobs.
  Proof.
    pose proof (own_graphs_run jobs 0 start eq_refl eq_refl eq_refl) as G. unfold own_graphs. destruct (run start _) as [q r]. exact G.
  Qed.

  (** ** the default graph *)
  Lemma class_foreign (c : cls T) w o d steps a id id' : tensord_class c -> o_built o = Some (a, id) -> In id' (w_sums w) -> id' <> id ->
    exists e, snd (obj_train (c_unbuilt c) (c_resets c) (c_body c) w o d steps) = Raise e.
  Proof.
    intros [(pinv & X & ->)|[(svdU & X & ->)|[(svdU & X & ->)|[(pow & svals & X & ->)|(pow & svals & X & ->)]]]] Hb Hin Hne;
      eapply train_foreign; eauto; cbn [c_body CP_ALS HOSVD HOOI NCP_BCU NTUCKER_BCU]; clear.
    - intros a d st p p' h H. bodies H. apply als_sum in H. discriminate.
    - intros a d st p p' h H. unfold hosvd_body in H. destruct (hosvd _ _ _); discriminate.
    - intros a d st p p' h H. bodies H. apply als_sum in H. discriminate.
    - intros a d st p p' h H. bodies H. apply bcu_sum in H. discriminate.
    - intros a d st p p' h H. bodies H. apply bcu_sum in H. discriminate.
  Qed.

  (** the second decomposition in the default graph never trains *)
  Lemma default_graph_step (p : proc T) m j sums : p_sums p = [sums] -> p_dflt p = 0 -> p_stack p = [] -> length (p_objs p) = m ->
    let '(q, r) := run p (in_default_graph m j) in
    (forall h, r = Ok h -> p_sums q = [sums ++ [p_ph p]] /\ p_dflt q = 0 /\ p_stack q = [] /\ length (p_objs q) = S m /\ p_ph q = S (p_ph p)) /\
    (tensord_class (j_cls j) -> (exists i, In i sums /\ i <> p_ph p) -> exists e, r = Raise e).
  Proof.
    intros Hs Hd Hst Ho. destruct p as [sums' dflt stack ph objs]. cbn [p_sums p_stack p_objs p_dflt p_ph] in *. subst stack sums' dflt m.
    unfold in_default_graph. cbn [run exec app p_sums p_dflt p_stack p_ph p_objs].
    rewrite nth_error_last. cbn [b_path b_obj b_cls]. unfold obj_build, current. cbn [hd p_stack p_dflt p_sums w_sums w_path fresh o_pub nth].
    cbn [app upd]. rewrite !upd_last. cbn [p_objs p_sums p_dflt p_stack p_ph].
    rewrite nth_error_last. unfold ptrain, current. cbn [b_obj b_path b_graph b_cls o_built hd p_stack p_dflt p_sums nth].
    rewrite Nat.eqb_refl. cbn [negb andb].
    assert (HF : tensord_class (j_cls j) -> (exists i, In i sums /\ i <> ph) ->
      exists e, snd (obj_train (c_unbuilt (j_cls j)) (c_resets (j_cls j)) (c_body (j_cls j)) (mkW (sums ++ [ph]) true) (mkObj (Some (j_args j, ph)) pub0) (j_draws j) (j_steps j)) = Raise e).
    { intros HC (i & Hi & Hne). eapply (class_foreign _ _ _ _ _ (j_args j) ph i HC); [reflexivity| |exact Hne]. apply in_or_app. left. exact Hi. }
    destruct (obj_train _ _ _ _ _ _ _) as [o [h'|e]]; cbn [fst snd p_stack p_sums p_objs p_dflt p_ph app] in *; split.
    - intros h _. rewrite upd_length, app_length. cbn [length]. repeat split; lia.
    - intros HC HI. destruct (HF HC HI) as (e & He). discriminate.
    - intros h Hh. discriminate.
    - intros _ _. exists e. reflexivity.
  Qed.
  Lemma c97_default_graph (j1 j2 : job T) js : tensord_class (j_cls j2) -> exists e, snd (run start (default_graph (j1 :: j2 :: js))) = Raise e.
  Proof.
    intros HC. unfold default_graph. cbn [length seq combine map concat fst snd]. rewrite run_app.
    pose proof (default_graph_step start 0 j1 [] eq_refl eq_refl eq_refl eq_refl) as G. destruct (run start _) as [q [h|e]]; [|eexists; reflexivity].
    destruct G as [G _]. destruct (G h eq_refl) as (G1 & G2 & G3 & G4 & G5). rewrite run_app.
    pose proof (default_graph_step q 1 j2 _ G1 G2 G3 G4) as G'. destruct (run q _) as [q' r]. destruct G' as [_ G']. destruct (G' HC) as (e & ->); [|eexists; reflexivity].
    exists 0. rewrite G5. split; [left; reflexivity|discriminate].
  Qed.

  (** the default graph is reset after every decomposition *)
  Lemma reset_step (p : proc T) m j : nth (p_dflt p) (p_sums p) [] = [] -> p_dflt p < length (p_sums p) -> p_stack p = [] -> length (p_objs p) = m ->
    let '(q, r) := run p (in_default_graph m j ++ [CReset]) in
    match result j with
    | Ok h => r = Ok [h] /\ nth (p_dflt q) (p_sums q) [] = [] /\ p_dflt q < length (p_sums q) /\ p_stack q = [] /\
              exists b, p_objs q = p_objs p ++ [b] /\ o_pub (b_obj b) = model j
    | Raise e => r = Raise e
    end.
  Proof.
    intros Hs Hd Hst Ho. destruct p as [sums dflt stack ph objs]. cbn [p_sums p_stack p_objs p_dflt] in *. subst stack m.
    unfold in_default_graph. cbn [run exec app p_sums p_dflt p_stack p_ph p_objs].
    rewrite nth_error_last. cbn [b_path b_obj b_cls]. unfold obj_build, current. cbn [hd p_stack p_dflt p_sums w_sums w_path fresh o_pub].
    rewrite Hs. cbn [app]. rewrite !upd_last. cbn [p_objs p_sums p_dflt p_stack p_ph].
    rewrite nth_error_last. unfold ptrain, current. cbn [b_obj b_path b_graph b_cls o_built hd p_stack p_dflt p_sums].
    rewrite Nat.eqb_refl. cbn [negb andb].
    assert (E : nth dflt (upd sums dflt [ph]) [] = [ph]).
    { clear - Hd. revert dflt Hd. induction sums as [|x l IH]; intros [|d] Hd; cbn in *; try lia; [reflexivity|]. apply IH. lia. }
    rewrite E. destruct (train_renumber (j_cls j) (j_args j) ph 0 pub0 (j_draws j) (j_steps j)) as [E1 E2].
    unfold result, model, alone. rewrite <- E1, <- E2.
    destruct (obj_train _ _ _ _ _ _ _) as [o [h|e]]; cbn [fst snd p_stack p_sums p_objs p_dflt app]; [|reflexivity].
    rewrite upd_last, nth_last, app_length. cbn [length]. split; [reflexivity|]. split; [reflexivity|]. split; [lia|]. split; [reflexivity|]. eexists. split; reflexivity.
  Qed.
  Lemma resets_run (jobs : list (job T)) : forall m (p : proc T), nth (p_dflt p) (p_sums p) [] = [] -> p_dflt p < length (p_sums p) -> p_stack p = [] -> length (p_objs p) = m ->
    let '(q, r) := run p (concat (map (fun p => in_default_graph (fst p) (snd p) ++ [CReset]) (combine (seq m (length jobs)) jobs))) in
    r = mapM result jobs /\ (forall hs, r = Ok hs -> map (fun b => o_pub (b_obj b)) (p_objs q) = map (fun b => o_pub (b_obj b)) (p_objs p) ++ map model jobs).
  Proof.
    induction jobs as [|j jobs IH]; intros m p H0 H1 H2 H3.
    - cbn. split; [reflexivity|]. intros hs _. rewrite app_nil_r. reflexivity.
    - cbn [length seq combine map concat fst snd mapM]. rewrite run_app. pose proof (reset_step p m j H0 H1 H2 H3) as G.
      destruct (run p (in_default_graph m j ++ [CReset])) as [q r]. destruct (result j) as [h|e].
      + destruct G as (-> & G0 & G1 & G2 & b & G3 & G4). cbn [bind]. specialize (IH (S m) q G0 G1 G2 ltac:(rewrite G3, app_length; cbn; lia)).
        destruct (run q _) as [q' [hs|e]]; destruct IH as [I1 I2]; rewrite <- I1; cbn [bind]; (split; [reflexivity|]).
        * intros hs' _. rewrite (I2 hs eq_refl), G3, map_app. cbn [map]. rewrite G4, <- app_assoc. reflexivity.
        * intros hs' E. discriminate E.
      + subst r. cbn [bind]. split; [reflexivity|]. discriminate.
  Qed.
  Lemma c97_reset (jobs : list (job T)) :
    snd (run start (default_graph_reset jobs)) = mapM result jobs /\
    forall hs, snd (run start (default_graph_reset jobs)) = Ok hs -> map (fun b => o_pub (b_obj b)) (p_objs (fst (run start (default_graph_reset jobs)))) = map model jobs.
  Proof.
    pose proof (resets_run jobs 0 start eq_refl ltac:(cbn; lia) eq_refl eq_refl) as G. unfold default_graph_reset. destruct (run start _) as [q r]. exact G.
  Qed.

  (** build_model outside the graph of train *)
  Lemma c97_wrong_graph (p : proc T) b d steps x : o_built (b_obj b) = Some x -> b_path b = true -> b_graph b <> current p ->
    snd (ptrain p b d steps) = Raise ValueError.
  Proof.
    intros Hb Hp Hg. unfold ptrain. rewrite Hb, Hp. apply Nat.eqb_neq in Hg. rewrite Hg. reflexivity.
  Qed.
  Lemma c97_build_outside (j : job T) : snd (run start [CGraph; CNew (j_cls j) true; CBuild 0 (j_args j); CEnter 1; CTrain 0 (j_draws j) (j_steps j)]) = Raise ValueError.
  Proof. reflexivity. Qed.
  (** a with block inside another: after the inner one the outer graph is current again *)
  Lemma c97_nested (j1 j2 : job T) :
    snd (run start [CGraph; CGraph; CNew (j_cls j1) true; CNew (j_cls j2) true; CEnter 1; CBuild 0 (j_args j1); CEnter 2; CBuild 1 (j_args j2);
                    CTrain 1 (j_draws j2) (j_steps j2); CLeave; CTrain 0 (j_draws j1) (j_steps j1)])
    = (do h2 <- result j2; do h1 <- result j1; Ok [h2; h1]).
  Proof.
    destruct j1 as [[u1 r1 b1] a1 d1 n1], j2 as [[u2 r2 b2] a2 d2 n2]. unfold result, alone. cbn.
    destruct r2; destruct (b2 a2 d2 true n2 _) as [p2 [h2|e2]]; cbn; try reflexivity; destruct r1; destruct (b1 a1 d1 true n1 _) as [p1 [h1|e1]]; reflexivity.
  Qed.

  (** a trained object trained again in another graph *)
  Lemma c97_stale (j : job T) h : result j = Ok h -> forall d steps,
    let q := run start [CGraph; CNew (j_cls j) true; CBuild 0 (j_args j); CTrain 0 (j_draws j) (j_steps j); CEnter 1; CTrain 0 d steps] in
    snd q = Raise ValueError /\
    map (fun b => o_pub (b_obj b)) (p_objs (fst q)) = [if c_resets (j_cls j) then set_finish false (model j) else model j].
  Proof.
    destruct j as [[u r b] a d0 n]. unfold result, model, alone. intros H d steps. revert H. cbn.
    destruct r; destruct (b a d0 true n _) as [p [h1|e1]]; cbn; intros H; try discriminate H; split; reflexivity.
  Qed.

  (** tf.reset_default_graph() inside a with block *)
  Lemma c97_reset_inside (j : job T) h : result j = Ok h ->
    let q := run start [CGraph; CNew (j_cls j) true; CEnter 1; CBuild 0 (j_args j); CTrain 0 (j_draws j) (j_steps j); CReset] in
    snd q = Raise AssertionErr /\ map (fun b => o_pub (b_obj b)) (p_objs (fst q)) = [model j].
  Proof.
    destruct j as [[u r b] a d0 n]. unfold result, model, alone. cbn.
    destruct r; destruct (b a d0 true n _) as [p [h1|e1]]; cbn; intros H; try discriminate H; split; reflexivity.
  Qed.
End F.
