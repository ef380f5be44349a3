(** The training loops (C36-C43, C67, C68). *)

From Coq Require Import ZArith List Bool Arith Lia.
From Verif Require Import Num Py Tensor Fact Train SpecTrain TensorFacts.
Import ListNotations.

Section S.
  Context {T : Type} {N : Num T} {S : Type}.
  Variable run : S -> res (S * sobs T).
  Variable sum_ok : bool.
  Variable args : targs T.
  Variable steps : Z.
  Variable pre : S -> res (S * option (tensor T)).
  Variable accept reject : S -> res S.

  (** both loops in one: [u] says whether the reference objective is renewed *)
  Fixpoint gen_loop (u : bool) (fuel : nat) (step : Z) (s : S) (obj0 : T) (nstall : nat)
           (h : hist T) (p : pub T) : pub T * res (hist T) :=
    match fuel with
    | 0 => (p, Ok h)
    | Datatypes.S fuel' =>
        match pre s with
        | Raise e => (p, Raise e)
        | Ok (s1, core) =>
            let p1 := set_aux core p in
            match validate args steps step with
            | Raise e => (p1, Raise e)
            | Ok v =>
                match run_v run sum_ok v s1 with
                | Raise e => (p1, Raise e)
                | Ok (s', o) =>
                    let p' := publish v o p1 in
                    let m := ob_met o in
                    let h' := h ++ [(m_loss m, m_rel m)] in
                    let obj0' := if (step =? 1)%Z then nadd (m_obj m) n1 else obj0 in
                    let nst := stall_next args (m_obj m) obj0' nstall in
                    if stop_now args nst (m_rel m) then (p', Ok h')
                    else
                      match (if nltb (m_obj m) obj0' then accept s' else reject s') with
                      | Raise e => (p', Raise e)
                      | Ok s'' => gen_loop u fuel' (step + 1) s''
                                    (if (u && nltb (m_obj m) obj0')%bool then m_obj m else obj0') nst h' p'
                      end
                end
            end
        end
    end.

  Lemma bcu_gen fuel : forall step s obj0 nstall h p,
    bcu_loop run sum_ok args steps pre accept reject fuel step s obj0 nstall h p
    = gen_loop true fuel step s obj0 nstall h p.
  Proof.
    induction fuel as [|fuel IH]; intros; [reflexivity|]. cbn [bcu_loop gen_loop].
    destruct (pre s) as [[s1 c]|]; auto. destruct (validate args steps step); auto.
    destruct (run_v run sum_ok a s1) as [[s' o]|]; auto. cbv zeta.
    destruct (stop_now _ _ _); auto. destruct (nltb _ _); cbn [andb].
    - destruct (accept s'); auto.
    - destruct (reject s'); auto.
  Qed.

  (** reference objective in use *)
  Definition ref_of (u : bool) : list (sobs T) -> nat -> T := if u then ref_best else ref_first.

  Lemma met_app1 os o2 k : k < length os -> met (os ++ o2) k = met os k.
  Proof. intros H. unfold met. rewrite map_app, app_nth1 by (rewrite map_length; auto). reflexivity. Qed.

  Lemma ref_app os o2 u k : k <= length os -> os <> [] -> ref_of u (os ++ o2) k = ref_of u os k.
  Proof.
    intros Hk Hne. assert (0 < length os) by (destruct os; [congruence|simpl; lia]).
    destruct u; simpl.
    - induction k as [|k IH]; simpl; [rewrite met_app1 by auto; reflexivity|].
      rewrite IH by lia. rewrite met_app1 by lia. reflexivity.
    - unfold ref_first. rewrite met_app1 by auto. reflexivity.
  Qed.

  Lemma ref_app_lt os o2 u k : k < length os -> ref_of u (os ++ o2) k = ref_of u os k.
  Proof. intros H. apply ref_app; [lia|]. destruct os; [simpl in H; lia|discriminate]. Qed.

  (** consecutive small changes at the end of the first k steps *)
  Fixpoint stalls (u : bool) (os : list (sobs T)) (k : nat) : nat :=
    match k with
    | 0 => 0
    | Datatypes.S j => stall_next args (m_obj (met os j)) (ref_of u os j) (stalls u os j)
    end.

  Lemma stalls_app u os o2 k : k <= length os -> stalls u (os ++ o2) k = stalls u os k.
  Proof.
    induction k as [|k IH]; intros Hk; simpl; auto.
    rewrite IH by lia. rewrite ref_app_lt by lia. rewrite met_app1 by lia. reflexivity.
  Qed.

  Lemma stalls_fire u os k : (forall j, j < k -> stalls u os (j + 1) < 3) ->
    (3 <= stalls u os (k + 1) <->
     (2 <= k /\ forall j, k - 2 <= j <= k -> small_change (a_tol args) (ref_of u os j) (m_obj (met os j)))).
  Proof.
    intros Hlt. unfold small_change.
    assert (Hs : forall j, stalls u os (j + 1) = if nltb (ndiv (nabs (nsub (m_obj (met os j)) (ref_of u os j))) (nadd (ref_of u os j) n1)) (a_tol args)
                                              then Datatypes.S (stalls u os j) else 0).
    { intros j. rewrite Nat.add_1_r. reflexivity. }
    assert (H0 : stalls u os 0 = 0) by reflexivity.
    destruct k as [|[|k]].
    - split; [|lia]. rewrite Hs, H0. destruct (nltb _ _); lia.
    - split; [|lia]. assert (E1 := Hs 1). assert (E0 := Hs 0). rewrite !Nat.add_1_r in *.
      rewrite E1, E0, H0. destruct (nltb _ _); [|lia]. destruct (nltb _ _); lia.
    - replace (Datatypes.S (Datatypes.S k) - 2) with k by lia.
      assert (E2 := Hs (Datatypes.S (Datatypes.S k))). assert (E1 := Hs (Datatypes.S k)). assert (E0 := Hs k).
      rewrite !Nat.add_1_r in *. 
      assert (L1 := Hlt (Datatypes.S k) ltac:(lia)). rewrite !Nat.add_1_r in *. 
      split.
      + intros H. split; [lia|].
        rewrite E2 in H. destruct (nltb _ _) eqn:B2 in H; [|lia].
        rewrite E1 in H. destruct (nltb _ _) eqn:B1 in H; [|lia].
        rewrite E0 in H. destruct (nltb _ _) eqn:B0 in H; [|lia].
        intros j Hj. assert (j = k \/ j = Datatypes.S k \/ j = Datatypes.S (Datatypes.S k)) as [->|[->| ->]] by lia; auto.
      + intros [_ H]. rewrite E2, (H (Datatypes.S (Datatypes.S k))) by lia.
        rewrite E1, (H (Datatypes.S k)) by lia. rewrite E0, (H k) by lia. lia.
  Qed.

  Lemma stop_fires u os k : (forall j, j < k -> stalls u os (j + 1) < 3) ->
    (stop_now args (stalls u os (k + 1)) (m_rel (met os k)) = true <-> fires (a_tol args) (ref_of u) os k).
  Proof.
    intros H. unfold stop_now, fires. rewrite orb_true_iff, Nat.leb_le. rewrite stalls_fire by auto. tauto.
  Qed.

  Lemma validate_spec step v : validate args steps step = Ok v -> (v = true <-> validates args steps step).
  Proof.
    unfold validate, validates.
    destruct (Z.eqb_spec step steps) as [E1|E1]; cbn [orb]; [intros H; injection H as <-; tauto|].
    destruct (a_verbose args); cbn [orb]; [intros H; injection H as <-; tauto|].
    destruct (Z.eqb_spec step 1) as [E2|E2]; [intros H; injection H as <-; tauto|].
    destruct (Z.eqb_spec (a_vi args) 0) as [E3|E3]; [discriminate|].
    intros H. injection H as <-. rewrite andb_true_iff, negb_true_iff, Z.eqb_eq, Z.eqb_neq.
    rewrite Z.mod_divide by auto. split; [tauto|]. intros [?|[?|[?|?]]]; try congruence; try tauto.
  Qed.

  (** the published fields after the steps os (all starting from p) *)
  Definition pub_ok (os : list (sobs T)) (p p' : pub T) : Prop :=
    p_finish p' = p_finish p /\
    (os = [] -> p_factors p' = p_factors p /\ p_full p' = p_full p) /\
    (forall o, nth_error os (length os - 1) = Some o -> p_factors p' = Some (ob_factors o) /\
       (forall x, ob_aux o = Some x -> p_aux p' = Some x)) /\
    (os <> [] -> full_of_last_validation args steps os p').

  Lemma nth_error_snoc {A} (l : list A) x : nth_error (l ++ [x]) (length l) = Some x.
  Proof. rewrite nth_error_app2, Nat.sub_diag by lia. reflexivity. Qed.

  Lemma snoc_inv {A} (l : list A) x k o : nth_error (l ++ [x]) k = Some o ->
    (k < length l /\ nth_error l k = Some o) \/ (k = length l /\ o = x).
  Proof.
    intros H. destruct (lt_dec k (length l)).
    - left. split; auto. rewrite nth_error_app1 in H; auto.
    - right. assert (k < length (l ++ [x])) by (apply nth_error_Some; congruence). rewrite app_length in H0. simpl in H0.
      assert (k = length l) by lia. subst. split; auto. rewrite nth_error_snoc in H. congruence.
  Qed.

  Lemma pub_step os o v p p1 core : pub_ok os p p1 ->
    validate args steps (Z.of_nat (length os) + 1) = Ok v ->
    (os = [] -> v = true) ->
    pub_ok (os ++ [o]) p (publish v o (set_aux core p1)).
  Proof.
    intros (H1 & H2 & H3 & H4) Hv Hv1. unfold pub_ok. rewrite app_length. simpl length.
    replace (length os + 1 - 1) with (length os) by lia.
    split; [|split; [|split]].
    - simpl. auto.
    - intros E. destruct os; discriminate.
    - intros o' Ho'. rewrite nth_error_snoc in Ho'. injection Ho' as <-. simpl. split; auto.
      intros x ->. reflexivity.
    - intros _. pose proof (validate_spec _ _ Hv) as Hs.
      replace (Z.of_nat (length os) + 1)%Z with (Z.of_nat (length os + 1)) in Hs by lia.
      destruct v.
      + exists (length os), o. rewrite nth_error_snoc, app_length. simpl length. split; auto. split; [tauto|].
        split; [intros; lia|reflexivity].
      + destruct os as [|o0 os0] eqn:Eo; [specialize (Hv1 eq_refl); discriminate|]. rewrite <- Eo in *.
        destruct H4 as (j & oj & Hj & Hvj & Hmax & Hf); [subst; discriminate|].
        exists j, oj. assert (j < length os) by (apply nth_error_Some; congruence).
        rewrite nth_error_app1 by auto. split; auto. split; auto. split; [|exact Hf].
        rewrite app_length. simpl length. intros i Hi. destruct (Nat.eq_dec i (length os)) as [->|Hne].
        * intros Hc. apply Hs in Hc. discriminate.
        * apply Hmax. lia.
  Qed.

  (** the run relation, extended by the state after the last accept/reject; [p] is the
      public state, whose aux field holds the last core unless the run published one *)
  Definition core_shown (p : pub T) (os : list (sobs T)) (k : nat) (o : sobs T) (c : option (tensor T)) : Prop :=
    Datatypes.S k = length os -> ob_aux o = None -> forall x, c = Some x -> p_aux p = Some x.
  Definition ends (u : bool) (s0 : S) (os : list (sobs T)) (s : S) (p : pub T) : Prop :=
    exists st : nat -> S, st 0 = s0 /\ st (length os) = s /\
      forall k o, nth_error os k = Some o -> exists s1 c s2,
        pre (st k) = Ok (s1, c) /\ run s1 = Ok (s2, o) /\ core_shown p os k o c /\
        (if nltb (m_obj (met os k)) (ref_of u os k) then accept s2 else reject s2) = Ok (st (Datatypes.S k)).
  Definition ends_last (u : bool) (s0 : S) (os : list (sobs T)) (p : pub T) : Prop :=
    exists st : nat -> S, st 0 = s0 /\
      forall k o, nth_error os k = Some o -> exists s1 c s2,
        pre (st k) = Ok (s1, c) /\ run s1 = Ok (s2, o) /\ core_shown p os k o c /\
        (Datatypes.S k < length os ->
         (if nltb (m_obj (met os k)) (ref_of u os k) then accept s2 else reject s2) = Ok (st (Datatypes.S k))).

  Lemma ends_weaken u s0 os s p : ends u s0 os s p -> ends_last u s0 os p.
  Proof.
    intros (st & H0 & _ & H). exists st. split; auto. intros k o Ho. destruct (H k o Ho) as (s1 & c & s2 & A & B & C & D).
    exists s1, c, s2. auto.
  Qed.

  Lemma core_shown_publish p os o v c : core_shown (publish v o (set_aux c p)) os (length os - 1) o c.
  Proof. intros _ H x ->. cbn [publish p_aux]. rewrite H. reflexivity. Qed.

  Lemma ends_snoc_last u s0 os s p o s1 c s2 v : ends u s0 os s p -> pre s = Ok (s1, c) -> run s1 = Ok (s2, o) ->
    ends_last u s0 (os ++ [o]) (publish v o (set_aux c p)).
  Proof.
    intros (st & H0 & Hs & H) Hp Hr. exists st. split; auto. intros k o' Ho'.
    apply snoc_inv in Ho' as [[Hk Ho']|[-> ->]].
    - destruct (H k o' Ho') as (t1 & d & t2 & A & B & C & D). exists t1, d, t2. split; auto. split; auto. split.
      { intros Hl. rewrite app_length in Hl. simpl in Hl. lia. }
      intros _. rewrite met_app1, ref_app_lt by auto. exact D.
    - exists s1, c, s2. rewrite Hs. split; auto. split; auto. split.
      { intros _ Hn x ->. cbn [publish p_aux]. rewrite Hn. reflexivity. }
      rewrite app_length. simpl. lia.
  Qed.

  Lemma ends_snoc u s0 os s p o s1 c s2 s3 v : ends u s0 os s p -> pre s = Ok (s1, c) -> run s1 = Ok (s2, o) ->
    (if nltb (m_obj (ob_met o)) (ref_of u (os ++ [o]) (length os)) then accept s2 else reject s2) = Ok s3 ->
    ends u s0 (os ++ [o]) s3 (publish v o (set_aux c p)).
  Proof.
    intros (st & H0 & Hs & H) Hp Hr Ha.
    exists (fun k => if k <=? length os then st k else s3).
    split; [exact H0|]. split.
    { rewrite app_length. simpl. destruct (Nat.leb_spec (length os + 1) (length os)); [lia|reflexivity]. }
    intros k o' Ho'. apply snoc_inv in Ho' as [[Hk Ho']|[-> ->]].
    - destruct (H k o' Ho') as (t1 & d & t2 & A & B & C & D). exists t1, d, t2.
      destruct (Nat.leb_spec k (length os)); [|lia]. destruct (Nat.leb_spec (Datatypes.S k) (length os)); [|lia].
      split; auto. split; auto. split.
      { intros Hl. rewrite app_length in Hl. simpl in Hl. lia. }
      rewrite met_app1, ref_app_lt by auto. exact D.
    - exists s1, c, s2. rewrite Nat.leb_refl. destruct (Nat.leb_spec (Datatypes.S (length os)) (length os)); [lia|].
      rewrite Hs. split; auto. split; auto. split.
      { intros _ Hn x ->. cbn [publish p_aux]. rewrite Hn. reflexivity. }
      replace (met (os ++ [o]) (length os)) with (ob_met o); auto.
      unfold met. rewrite map_app, app_nth2, map_length, Nat.sub_diag by (rewrite map_length; lia). reflexivity.
  Qed.

  Lemma met_snoc os o : met (os ++ [o]) (length os) = ob_met o.
  Proof. unfold met. rewrite map_app, app_nth2, map_length, Nat.sub_diag by (rewrite map_length; lia). reflexivity. Qed.

  Lemma ref_next u os o : ref_of u (os ++ [o]) (length os + 1) =
    if (u && nltb (m_obj (ob_met o)) (ref_of u (os ++ [o]) (length os)))%bool
    then m_obj (ob_met o) else ref_of u (os ++ [o]) (length os).
  Proof.
    rewrite Nat.add_1_r. destruct u; [|reflexivity]. cbn [ref_of ref_best andb]. rewrite met_snoc. reflexivity.
  Qed.

  Lemma run_v_ok v s r : run_v run sum_ok v s = Ok r -> run s = Ok r /\ (v = true -> sum_ok = true).
  Proof.
    unfold run_v. destruct v; cbn [andb].
    - destruct sum_ok; cbn [negb]; [auto|discriminate].
    - intros H. split; auto. discriminate.
  Qed.

  (** the invariant of the loop: [os] are the observations so far *)
  Lemma gen_loop_ok u s0 p0 fuel : forall os s obj0 p,
    (Z.of_nat (fuel + length os) = steps) ->
    ends u s0 os s p -> pub_ok os p0 p ->
    (os <> [] -> obj0 = ref_of u os (length os)) ->
    (forall k, k < length os -> stop_now args (stalls u os (k + 1)) (m_rel (met os k)) = false) ->
    forall p' h', gen_loop u fuel (Z.of_nat (length os) + 1) s obj0 (stalls u os (length os)) (map entry os) p = (p', Ok h') ->
    exists os2, let os' := os ++ os2 in
      h' = map entry os' /\ ends_last u s0 os' p' /\ pub_ok os' p0 p' /\
      (length os' <= fuel + length os) /\ (fuel <> 0 -> os2 <> []) /\
      (forall k, k + 1 < length os' -> stop_now args (stalls u os' (k + 1)) (m_rel (met os' k)) = false) /\
      (length os' < fuel + length os -> stop_now args (stalls u os' (length os' - 1 + 1)) (m_rel (met os' (length os' - 1))) = true) /\
      (os = [] -> fuel <> 0 -> sum_ok = true).
  Proof.
    induction fuel as [|fuel IH]; intros os s obj0 p Hst He Hp Hr Hno p' h' E.
    - simpl in E. injection E as <- <-. exists []. cbv zeta. rewrite app_nil_r.
      split; auto. split; [eapply ends_weaken; eauto|]. split; auto. simpl. split; [lia|]. split; [congruence|].
      split; [intros; apply Hno; lia|]. split; [lia|congruence].
    - cbn [gen_loop] in E.
      destruct (pre s) as [[s1 core]|] eqn:Epre; [|discriminate].
      destruct (validate args steps (Z.of_nat (length os) + 1)) as [v|] eqn:Ev; [|discriminate].
      destruct (run_v run sum_ok v s1) as [[s' o]|] eqn:Erun; [|discriminate].
      apply run_v_ok in Erun as [Erun Hsum]. cbv zeta in E.
      set (obj0' := if (Z.of_nat (length os) + 1 =? 1)%Z then nadd (m_obj (ob_met o)) n1 else obj0) in E.
      assert (Ev1 : os = [] -> v = true).
      { intros ->. simpl in Ev. unfold validate in Ev. simpl in Ev. rewrite !orb_true_r in Ev. congruence. }
      assert (Eo : obj0' = ref_of u (os ++ [o]) (length os)).
      { unfold obj0'. destruct os as [|o0 os0] eqn:Eos.
        - simpl. destruct u; reflexivity.
        - rewrite <- Eos in *. destruct (Z.eqb_spec (Z.of_nat (length os) + 1) 1); [subst; simpl in *; lia|].
          rewrite Hr by (subst; discriminate). symmetry. apply ref_app; [lia|subst; discriminate]. }
      assert (Est : stall_next args (m_obj (ob_met o)) obj0' (stalls u os (length os)) = stalls u (os ++ [o]) (length os + 1)).
      { rewrite Nat.add_1_r. cbn [stalls]. rewrite met_snoc, <- Eo, stalls_app by lia. reflexivity. }
      rewrite Est in E. rewrite <- (met_snoc os o) in E.
      assert (Eh : map entry os ++ [(m_loss (met (os ++ [o]) (length os)), m_rel (met (os ++ [o]) (length os)))] = map entry (os ++ [o])).
      { rewrite map_app, met_snoc. reflexivity. }
      rewrite Eh in E.
      assert (Hp' : pub_ok (os ++ [o]) p0 (publish v o (set_aux core p))) by (apply (pub_step os o v p0 p core); auto).
      assert (Hno' : forall k, k < length os -> stop_now args (stalls u (os ++ [o]) (k + 1)) (m_rel (met (os ++ [o]) k)) = false).
      { intros k Hk. rewrite stalls_app, met_app1 by lia. apply Hno; auto. }
      destruct (stop_now args (stalls u (os ++ [o]) (length os + 1)) (m_rel (met (os ++ [o]) (length os)))) eqn:Estop.
      + injection E as <- <-. exists [o]. cbv zeta. rewrite app_length. simpl length.
        split; auto. split; [eapply ends_snoc_last; eauto|]. split; auto. split; [lia|]. split; [discriminate|].
        split; [intros k Hk; apply Hno'; lia|]. split; [|intros E0 _; auto].
        intros _. replace (length os + 1 - 1) with (length os) by lia. exact Estop.
      + rewrite met_snoc, Eo in E.
        destruct (if nltb (m_obj (ob_met o)) (ref_of u (os ++ [o]) (length os)) then accept s' else reject s') as [s3|] eqn:Ea; [|discriminate].
        rewrite <- ref_next in E.
        replace (Z.of_nat (length os) + 1 + 1)%Z with (Z.of_nat (length (os ++ [o])) + 1)%Z in E by (rewrite app_length; simpl; lia).
        replace (length os + 1) with (length (os ++ [o])) in E by (rewrite app_length; simpl; lia).
        destruct (IH (os ++ [o]) s3 (ref_of u (os ++ [o]) (length (os ++ [o]))) _ ltac:(rewrite app_length; simpl; lia)
                     (ends_snoc u s0 os s p o s1 core s' s3 v He Epre Erun Ea) Hp' (fun _ => eq_refl)) with (p' := p') (h' := h')
          as (os2 & A1 & A2 & A3 & A4 & A5 & A6 & A7 & A8).
        * intros k Hk. rewrite app_length in Hk. simpl in Hk. destruct (Nat.eq_dec k (length os)) as [->|]; auto.
          apply Hno'. lia.
        * exact E.
        * exists (o :: os2). cbv zeta. rewrite <- app_assoc in *. cbn [app] in *.
          split; auto. split; auto. split; auto. split; [rewrite !app_length in *; simpl in *; lia|]. split; [discriminate|]. split; auto. split; [|intros E0 _; auto].
          intros H. apply A7. rewrite !app_length in *. simpl in *. lia.
  Qed.
End S.

Section Bodies.
  Context {T : Type} {N : Num T} {S : Type}.
  Variable run : S -> res (S * sobs T).
  Variable sum_ok : bool.
  Variable args : targs T.
  Variable steps : Z.

  Let idpre : S -> res (S * option (tensor T)) := fun s => Ok (s, None).
  Let idok : S -> res S := fun s => Ok s.

  Lemma set_aux_none (p : pub T) : set_aux None p = p.
  Proof. destruct p; reflexivity. Qed.

  Lemma als_gen fuel : forall step s obj0 nstall h p,
    als_loop run sum_ok args steps fuel step s obj0 nstall h p
    = gen_loop run sum_ok args steps idpre idok idok false fuel step s obj0 nstall h p.
  Proof.
    induction fuel as [|fuel IH]; intros; [reflexivity|]. cbn [als_loop gen_loop idpre]. unfold idpre at 1.
    rewrite set_aux_none. destruct (validate args steps step); auto.
    destruct (run_v run sum_ok a s) as [[s' o]|]; auto. cbv zeta.
    destruct (stop_now _ _ _); auto. cbn [andb]. unfold idok at 1 2. destruct (nltb _ _); apply IH.
  Qed.

  (** what a completed train shows, up to the kind of run *)
  Definition completed (u : bool) (os : list (sobs T)) (h : hist T) (p p' : pub T) : Prop :=
    h = map entry os /\ stopped_by (fires (a_tol args) (ref_of u) os) steps (length os) /\
    pub_ok args steps os p p' /\ sum_ok = true.

  Lemma loop_done u pre accept reject s0 p p' h : (0 < steps)%Z ->
    gen_loop run sum_ok args steps pre accept reject u (Z.to_nat steps) 1 s0 n0 0 [] p = (p', Ok h) ->
    exists os, ends_last run pre accept reject u s0 os p' /\ completed u os h p p'.
  Proof.
    intros Hs E.
    destruct (gen_loop_ok run sum_ok args steps pre accept reject u s0 p (Z.to_nat steps) [] s0 n0 p) with (p' := p') (h' := h)
      as (os & A1 & A2 & A3 & A4 & A5 & A6 & A7 & A8); auto; try (simpl in *; lia); try congruence.
    - exists (fun _ => s0). split; auto. split; auto. intros [|k] o Ho; discriminate.
    - unfold pub_ok. split; auto. split; auto. split; [intros o Ho; discriminate|congruence].
    - simpl app in *. exists os. split; auto. split; auto.
      assert (F : forall k, k + 1 < length os -> stalls args u os (k + 1) < 3).
      { intros k Hk. specialize (A6 k Hk). unfold stop_now in A6. apply orb_false_iff in A6 as [A6 _].
        apply Nat.leb_gt in A6. exact A6. }
      assert (Hn : 1 <= length os).
      { destruct os; simpl; [|lia]. exfalso. apply A5; auto. lia. }
      split; [|split; [|apply A8; auto; lia]].
      + split; auto. simpl in A4. split; [lia|]. split.
        * intros k Hk Hf. specialize (A6 k Hk). apply stop_fires in Hf; [congruence|]. intros j Hj. apply F. lia.
        * intros Hlt. apply stop_fires; [intros j Hj; apply F; lia|]. apply A7. simpl. lia.
      + exact A3.
  Qed.

  Lemma als_body_ok init p p' h : als_body run sum_ok args steps init p = (p', Ok h) ->
    exists s0 os, init = Ok s0 /\ als_run run s0 os /\ completed false os h p p'.
  Proof.
    unfold als_body. destruct init as [s0|]; [|discriminate]. destruct (Z.leb_spec steps 0); [discriminate|].
    rewrite als_gen. intros E. apply loop_done in E as (os & (st & H0 & H1) & Hc); [|lia].
    exists s0, os. split; auto. split; auto.
    assert (Hn : exists o, nth_error os (length os - 1) = Some o).
    { destruct Hc as (_ & [Hn _] & _). destruct (nth_error os (length os - 1)) eqn:En; [eauto|].
      apply nth_error_None in En. lia. }
    destruct Hn as [ol Hol]. destruct (H1 _ _ Hol) as (t1 & c & sl & B1 & B2 & _ & _). injection B1 as <- <-.
    exists (fun k => if k =? length os then sl else st k). split.
    { destruct os; [discriminate|]. simpl. exact H0. }
    intros k o Ho. assert (k < length os) by (apply nth_error_Some; congruence).
    destruct (Nat.eqb_spec k (length os)); [lia|]. destruct (Nat.eqb_spec (Datatypes.S k) (length os)).
    - assert (k = length os - 1) by lia. subst k. rewrite Hol in Ho. injection Ho as <-. auto.
    - destruct (H1 _ _ Ho) as (t1' & c' & s2 & C1 & C2 & _ & C3). injection C1 as <- <-.
      specialize (C3 ltac:(lia)). assert (s2 = st (Datatypes.S k)); [|subst; auto].
      destruct (nltb _ _); unfold idok in C3; congruence.
  Qed.

  Lemma bcu_body_ok pre accept reject init post p p' h :
    bcu_body run sum_ok args steps pre accept reject init post p = (p', Ok h) ->
    exists s0 os p1, init = Ok s0 /\ bcu_run run pre accept reject s0 os /\ completed true os h p p1 /\ p' = set_aux post p1 /\
      exists s s1 c s2 o, nth_error os (length os - 1) = Some o /\ pre s = Ok (s1, c) /\ run s1 = Ok (s2, o) /\
        (ob_aux o = None -> forall x, c = Some x -> p_aux p1 = Some x).
  Proof.
    unfold bcu_body. destruct init as [s0|]; [|discriminate]. destruct (Z.leb_spec steps 0); [discriminate|].
    rewrite bcu_gen. destruct (gen_loop _ _ _ _ _ _ _ _ _ _ _ _ _ _) as [p1 [h1|]] eqn:E; [|discriminate].
    intros Eq. injection Eq as <- <-. apply loop_done in E as (os & He & Hc); [|lia].
    exists s0, os, p1. split; auto. destruct He as (st & He0 & He). split.
    { exists st. split; auto. intros k o Ho. destruct (He k o Ho) as (s1 & c & s2 & A & B & _ & D). exists s1, c, s2. auto. }
    split; auto. split; auto.
    destruct (nth_error os (length os - 1)) as [o|] eqn:Eo.
    2:{ apply nth_error_None in Eo. destruct Hc as (_ & [Hn _] & _). lia. }
    destruct (He _ _ Eo) as (s1 & c & s2 & A & B & C & _). exists (st (length os - 1)), s1, c, s2, o.
    split; auto. split; auto. split; auto. apply C. destruct Hc as (_ & [Hn _] & _). lia.
  Qed.

  (** train never returns a history when the summaries cannot be evaluated *)
  Lemma als_sum init p p' h : als_body run sum_ok args steps init p = (p', Ok h) -> sum_ok = true.
  Proof. intros E. apply als_body_ok in E as (s0 & os & _ & _ & _ & _ & _ & H). exact H. Qed.
  Lemma bcu_sum pre accept reject init post p p' h :
    bcu_body run sum_ok args steps pre accept reject init post p = (p', Ok h) -> sum_ok = true.
  Proof. intros E. apply bcu_body_ok in E as (s0 & os & p1 & _ & _ & (_ & _ & _ & H) & _ & _). exact H. Qed.

  (** the loops never touch train_finish *)
  Lemma gen_finish u pre accept reject fuel : forall step s obj0 nstall h p,
    p_finish (fst (gen_loop run sum_ok args steps pre accept reject u fuel step s obj0 nstall h p)) = p_finish p.
  Proof.
    induction fuel as [|fuel IH]; intros; [reflexivity|]. cbn [gen_loop].
    destruct (pre s) as [[s1 c]|]; auto. destruct (validate args steps step); auto.
    destruct (run_v run sum_ok a s1) as [[s' o]|]; auto. cbv zeta. destruct (stop_now _ _ _); auto.
    destruct (if nltb _ _ then _ else _); auto. rewrite IH. reflexivity.
  Qed.
  Lemma als_finish init p : p_finish (fst (als_body run sum_ok args steps init p)) = p_finish p.
  Proof.
    unfold als_body. destruct init; auto. destruct (_ <=? _)%Z; auto. rewrite als_gen. apply gen_finish.
  Qed.
  Lemma bcu_finish pre accept reject init post p :
    p_finish (fst (bcu_body run sum_ok args steps pre accept reject init post p)) = p_finish p.
  Proof.
    unfold bcu_body. destruct init; auto. destruct (_ <=? _)%Z; auto.
    rewrite bcu_gen.
    match goal with |- context[gen_loop ?a1 ?a2 ?a3 ?a4 ?a5 ?a6 ?a7 ?a8 ?a9 ?b1 ?b2 ?b3 ?b4 ?b5 ?b6] =>
      pose proof (gen_finish a8 a5 a6 a7 a9 b1 b2 b3 b4 b5 b6) as H;
      destruct (gen_loop a1 a2 a3 a4 a5 a6 a7 a8 a9 b1 b2 b3 b4 b5 b6) as [p1 [h|]] end; exact H.
  Qed.

  (** steps <= 0 *)
  Lemma als_nosteps init p : (steps <= 0)%Z -> exists e, snd (als_body run sum_ok args steps init p) = Raise e.
  Proof. intros H. unfold als_body. destruct init; [|simpl; eauto]. destruct (Z.leb_spec steps 0); [simpl; eauto|lia]. Qed.
  Lemma bcu_nosteps pre accept reject init post p : (steps <= 0)%Z ->
    exists e, snd (bcu_body run sum_ok args steps pre accept reject init post p) = Raise e.
  Proof. intros H. unfold bcu_body. destruct init; [|simpl; eauto]. destruct (Z.leb_spec steps 0); [simpl; eauto|lia]. Qed.

  (** validation_internal = 0 *)
  Lemma gen_vi0 u pre accept reject fuel step s obj0 nstall h p p' h' :
    a_vi args = 0%Z -> a_verbose args = false -> (1 < step)%Z -> (step < steps)%Z ->
    gen_loop run sum_ok args steps pre accept reject u (Datatypes.S fuel) step s obj0 nstall h p = (p', Ok h') -> False.
  Proof.
    intros V1 V2 H1 H2. cbn [gen_loop]. destruct (pre s) as [[s1 c]|]; [|discriminate].
    unfold validate. rewrite V1, V2. destruct (Z.eqb_spec step steps); [lia|]. destruct (Z.eqb_spec step 1); [lia|].
    cbn [orb Z.eqb]. discriminate.
  Qed.
  Lemma gen_vi0_first u pre accept reject s p p' h :
    a_vi args = 0%Z -> a_verbose args = false -> (2 < steps)%Z ->
    gen_loop run sum_ok args steps pre accept reject u (Z.to_nat steps) 1 s n0 0 [] p = (p', Ok h) -> length h = 1.
  Proof.
    intros V1 V2 H. destruct (Z.to_nat steps) as [|[|fuel]] eqn:Ef; try lia.
    cbn [gen_loop]. destruct (pre s) as [[s1 c]|]; [|discriminate]. destruct (validate args steps 1); [|discriminate].
    destruct (run_v run sum_ok a s1) as [[s' o]|]; [|discriminate]. cbv zeta.
    destruct (stop_now _ _ _); [intros E; injection E as <- <-; reflexivity|].
    destruct (if nltb _ _ then _ else _); [|discriminate]. intros E. exfalso.
    eapply gen_vi0 in E; eauto; lia.
  Qed.
  Lemma als_vi0 init p p' h : a_vi args = 0%Z -> a_verbose args = false -> (2 < steps)%Z ->
    als_body run sum_ok args steps init p = (p', Ok h) -> length h = 1.
  Proof.
    intros V1 V2 H. unfold als_body. destruct init; [|discriminate]. destruct (_ <=? _)%Z; [discriminate|].
    rewrite als_gen. apply gen_vi0_first; auto.
  Qed.
  Lemma bcu_vi0 pre accept reject init post p p' h : a_vi args = 0%Z -> a_verbose args = false -> (2 < steps)%Z ->
    bcu_body run sum_ok args steps pre accept reject init post p = (p', Ok h) -> length h = 1.
  Proof.
    intros V1 V2 H. unfold bcu_body. destruct init; [|discriminate]. destruct (_ <=? _)%Z; [discriminate|].
    rewrite bcu_gen. destruct (gen_loop _ _ _ _ _ _ _ _ _ _ _ _ _ _) as [p1 [h1|]] eqn:E; [|discriminate].
    intros Eq. injection Eq as <- <-. eapply gen_vi0_first; eauto.
  Qed.

  (** independence of the public fields the call starts from *)
  Definition same (b : bool) (p q : pub T) : Prop :=
    p_factors p = p_factors q /\ p_full p = p_full q /\ (b = true -> p_aux p = p_aux q).

  Lemma gen_indep b u pre accept reject fuel : forall step s obj0 nstall h p q, same b p q ->
    snd (gen_loop run sum_ok args steps pre accept reject u fuel step s obj0 nstall h p)
    = snd (gen_loop run sum_ok args steps pre accept reject u fuel step s obj0 nstall h q) /\
    same b (fst (gen_loop run sum_ok args steps pre accept reject u fuel step s obj0 nstall h p))
           (fst (gen_loop run sum_ok args steps pre accept reject u fuel step s obj0 nstall h q)).
  Proof.
    induction fuel as [|fuel IH]; intros step s obj0 nstall h p q E; [split; auto|]. cbn [gen_loop].
    destruct (pre s) as [[s1 c]|]; [|split; auto].
    assert (E1 : same b (set_aux c p) (set_aux c q)).
    { destruct E as (E1 & E2 & E3). split; auto. split; auto. simpl. destruct c; auto. }
    destruct (validate args steps step) as [v|]; [|split; auto].
    destruct (run_v run sum_ok v s1) as [[s' o]|]; [|split; auto]. cbv zeta.
    assert (E2 : same b (publish v o (set_aux c p)) (publish v o (set_aux c q))).
    { destruct E1 as (F1 & F2 & F3). split; auto. split; [simpl; destruct v; auto|]. cbn [publish p_aux]. destruct (ob_aux o); auto. }
    destruct (stop_now _ _ _); [split; auto|]. destruct (if nltb _ _ then _ else _); [|split; auto].
    apply IH. exact E2.
  Qed.

  (** the first step overwrites everything *)
  Lemma gen_first b u pre accept reject s p q p' h : (0 < steps)%Z ->
    (b = true -> (forall s s1 c, pre s = Ok (s1, c) -> c <> None) \/ (forall s s1 o, run s = Ok (s1, o) -> ob_aux o <> None)) ->
    gen_loop run sum_ok args steps pre accept reject u (Z.to_nat steps) 1 s n0 0 [] p = (p', Ok h) ->
    exists q', gen_loop run sum_ok args steps pre accept reject u (Z.to_nat steps) 1 s n0 0 [] q = (q', Ok h) /\ same b p' q'.
  Proof.
    intros Hs Hb. destruct (Z.to_nat steps) as [|fuel] eqn:Ef; [lia|].
    cbn [gen_loop]. destruct (pre s) as [[s1 c]|] eqn:Ep; [|discriminate].
    assert (Ev : validate args steps 1 = Ok true). { unfold validate. simpl. rewrite !orb_true_r. reflexivity. }
    rewrite Ev. destruct (run_v run sum_ok true s1) as [[s' o]|] eqn:Er; [|discriminate]. cbv zeta.
    assert (E1 : same b (publish true o (set_aux c p)) (publish true o (set_aux c q))).
    { split; auto. split; auto. intros Hbt. cbn [publish p_aux].
      destruct (ob_aux o) eqn:Eo; auto. simpl. destruct c eqn:Ec; auto. exfalso.
      destruct (Hb Hbt) as [H|H]; [apply H in Ep; congruence|].
      apply run_v_ok in Er as [Er _]. apply H in Er. congruence. }
    destruct (stop_now _ _ _); [intros E; injection E as <- <-; eauto|].
    destruct (if nltb _ _ then _ else _) as [s2|]; [|discriminate].
    match goal with |- gen_loop ?a1 ?a2 ?a3 ?a4 ?a5 ?a6 ?a7 ?a8 ?a9 ?b1 ?b2 ?b3 ?b4 ?b5 ?b6 = _ -> _ =>
      intros E; pose proof (gen_indep b a8 a5 a6 a7 a9 b1 b2 b3 b4 b5 _ _ E1) as [G1 G2] end.
    rewrite E in G1, G2. cbn [fst snd] in G1, G2.
    match goal with |- exists q', ?g = _ /\ _ => destruct g as [q' r] eqn:Eq end. simpl in G1, G2. subst r. eauto.
  Qed.

  Lemma als_indep init p q p' h :
    (forall s s1 o, run s = Ok (s1, o) -> ob_aux o <> None) ->
    als_body run sum_ok args steps init p = (p', Ok h) ->
    exists q', als_body run sum_ok args steps init q = (q', Ok h) /\ same true p' q'.
  Proof.
    intros Ha. unfold als_body. destruct init as [s|]; [|discriminate]. destruct (Z.leb_spec steps 0); [discriminate|].
    rewrite !als_gen. apply gen_first; auto.
  Qed.

  Lemma set_aux_same b post p q : same b p q -> (b = true \/ post <> None) -> same true (set_aux post p) (set_aux post q).
  Proof.
    intros (H1 & H2 & H3) H. split; auto. split; auto. intros _. simpl. destruct post; auto.
    destruct H as [->|H]; [auto|congruence].
  Qed.

  Lemma bcu_indep pre accept reject init post p q p' h :
    ((forall s s1 c, pre s = Ok (s1, c) -> c <> None) \/ post <> None) ->
    bcu_body run sum_ok args steps pre accept reject init post p = (p', Ok h) ->
    exists q', bcu_body run sum_ok args steps pre accept reject init post q = (q', Ok h) /\ same true p' q'.
  Proof.
    intros Ha. unfold bcu_body. destruct init as [s|]; [|discriminate]. destruct (Z.leb_spec steps 0); [discriminate|].
    rewrite !bcu_gen. destruct (gen_loop _ _ _ _ _ _ _ _ _ _ _ _ _ _ p) as [p1 [h1|]] eqn:E; [|discriminate].
    intros Eq. injection Eq as <- <-.
    destruct Ha as [Ha|Ha].
    - apply (gen_first true) with (q := q) in E as (q' & E & Hsm); [|lia|auto].
      rewrite E. eexists. split; eauto. eapply set_aux_same; eauto.
    - apply (gen_first false) with (q := q) in E as (q' & E & Hsm); [|lia|discriminate].
      rewrite E. eexists. split; eauto. eapply set_aux_same; eauto.
  Qed.

  (** when train raises, so it does from any other public state, with the same exception *)
  Lemma gen_snd u pre accept reject s p q : (0 < steps)%Z ->
    snd (gen_loop run sum_ok args steps pre accept reject u (Z.to_nat steps) 1 s n0 0 [] p)
    = snd (gen_loop run sum_ok args steps pre accept reject u (Z.to_nat steps) 1 s n0 0 [] q).
  Proof.
    intros H. destruct (Z.to_nat steps) as [|fuel] eqn:Ef; [lia|]. cbn [gen_loop]. destruct (pre s) as [[s1 c]|]; auto.
    assert (Ev : validate args steps 1 = Ok true). { unfold validate. simpl. rewrite !orb_true_r. reflexivity. }
    rewrite Ev. destruct (run_v run sum_ok true s1) as [[s' o]|] eqn:Er; [|reflexivity]. cbv zeta.
    destruct (stop_now _ _ _); auto. destruct (if nltb _ _ then _ else _) as [s2|]; auto.
    apply (gen_indep false). split; auto. split; auto. discriminate.
  Qed.
  Lemma als_snd init p q : snd (als_body run sum_ok args steps init p) = snd (als_body run sum_ok args steps init q).
  Proof.
    unfold als_body. destruct init as [s|]; auto. destruct (Z.leb_spec steps 0); auto. rewrite !als_gen.
    apply gen_snd. auto.
  Qed.
  Lemma bcu_snd pre accept reject init post p q :
    snd (bcu_body run sum_ok args steps pre accept reject init post p) = snd (bcu_body run sum_ok args steps pre accept reject init post q).
  Proof.
    unfold bcu_body. destruct init as [s|]; auto. destruct (Z.leb_spec steps 0); auto. rewrite !bcu_gen.
    pose proof (gen_snd true pre accept reject s p q H) as G.
    destruct (gen_loop _ _ _ _ _ _ _ _ _ _ _ _ _ _ p) as [p1 [h1|]];
      destruct (gen_loop _ _ _ _ _ _ _ _ _ _ _ _ _ _ q) as [q1 [h2|]]; simpl in *; congruence.
  Qed.
End Bodies.
