(** NCP_BCU and NTUCKER_BCU: signs, weights, Lipschitz constants (C47, C48, C51, C52). *)

From Coq Require Import ZArith List Bool Arith Lia Reals Lra.
From Verif Require Import Num Py Tensor TF Ops Types Loss Fact Train Spec SpecR SpecTrain SpecBcu TensorFacts TFFacts Sums SpecFacts
  RSums MulFacts TtmFacts TrainFacts TrainLemmas.
Import ListNotations.

(** ** lists of variables *)
Lemma upd_length {A} (l : list A) k v : length (upd l k v) = length l.
Proof. apply set_nth_length. Qed.

Lemma nth_upd {A} (l : list A) : forall k v j d, nth j (upd l k v) d = if Nat.eqb j k && Nat.ltb j (length l) then v else nth j l d.
Proof.
  unfold upd. induction l as [|x l IH]; intros k v j d; simpl.
  - destruct j; rewrite andb_false_r; reflexivity.
  - destruct k; destruct j; simpl; auto. rewrite IH. reflexivity.
Qed.

Lemma upd_in {A} (l : list A) k v x : In x (upd l k v) -> x = v \/ In x l.
Proof.
  unfold upd. revert k; induction l as [|y l IH]; intros k; simpl; [tauto|].
  destruct k; simpl; [intuition|]. intros [<-|H]; auto. apply IH in H. tauto.
Qed.

Lemma pynth_of_nat {A} (l : list A) k (v d : A) : pynth l (Z.of_nat k) = Ok v -> k < length l /\ v = nth k l d.
Proof.
  destruct (lt_dec k (length l)) as [H|H].
  - rewrite (pynth_nat l k d) by auto. intros E; injection E as <-. auto.
  - rewrite pynth_nat_out by lia. discriminate.
Qed.

(** ** publishing invariants of the loop *)
Section Inv.
  Context {T : Type} {N : Num T} {S : Type}.
  Variable run : S -> res (S * sobs T).
  Variable sum_ok : bool.
  Variable args : targs T.
  Variable steps : Z.
  Variable pre : S -> res (S * option (tensor T)).
  Variable accept reject : S -> res S.
  Variable I I1 I2 : S -> Prop.
  Variable P : pub T -> Prop.
  Hypothesis Hpre : forall s s1 c p, I s -> pre s = Ok (s1, c) -> P p -> I1 s1 /\ P (set_aux c p).
  Hypothesis Hrun : forall s s' o v p, I1 s -> run s = Ok (s', o) -> P p -> I2 s' /\ P (publish v o p).
  Hypothesis Hacc : forall s s', I2 s -> accept s = Ok s' -> I s'.
  Hypothesis Hrej : forall s s', I2 s -> reject s = Ok s' -> I s'.

  Lemma bcu_loop_inv fuel : forall step s obj0 nstall h p, I s -> P p ->
    P (fst (bcu_loop run sum_ok args steps pre accept reject fuel step s obj0 nstall h p)).
  Proof.
    induction fuel as [|fuel IH]; intros step s obj0 nstall h p HI HP; [exact HP|].
    cbn [bcu_loop]. destruct (pre s) as [[s1 c]|] eqn:E1; [|exact HP].
    destruct (Hpre _ _ _ _ HI E1 HP) as [H1 P1].
    destruct (validate args steps step) as [v|]; [|exact P1].
    unfold run_v. destruct (v && negb sum_ok); [exact P1|].
    destruct (run s1) as [[s' o]|] eqn:E2; [|exact P1].
    destruct (Hrun _ _ _ v _ H1 E2 P1) as [H2 P2]. cbv zeta.
    destruct (stop_now _ _ _); [exact P2|].
    destruct (nltb _ _).
    - destruct (accept s') eqn:E3; [|exact P2]. apply IH; eauto.
    - destruct (reject s') eqn:E3; [|exact P2]. apply IH; eauto.
  Qed.

  Lemma bcu_body_inv s post p : I s -> (forall p, P p -> P (set_aux post p)) -> P p ->
    P (fst (bcu_body run sum_ok args steps pre accept reject (Ok s) post p)).
  Proof.
    intros HI Hpost HP. unfold bcu_body. destruct (steps <=? 0)%Z; [apply Hpost, HP|].
    pose proof (bcu_loop_inv (Z.to_nat steps) 1 s n0 0 [] p HI HP) as H.
    destruct (bcu_loop _ _ _ _ _ _ _ _ _ _ _ _ _ _) as [p1 [h|e]]; cbn [fst] in *; auto.
  Qed.

  Lemma reach_inv s0 s : (forall s s1 c, I s -> pre s = Ok (s1, c) -> I1 s1) ->
    (forall s s' o, I1 s -> run s = Ok (s', o) -> I2 s') -> I s0 -> reach pre run accept reject s0 s -> I s.
  Proof. intros H1 H2 H0 H. induction H; eauto. Qed.
End Inv.

(** every call history keeps an invariant of the public fields that each train keeps *)
Section Hist.
  Context {T : Type} {N : Num T} {A R : Type}.
  Variable unbuilt : exc.
  Variable resets : bool.
  Variable bc : A -> res unit.
  Variable body : A -> R -> bool -> Z -> pub T -> pub T * res (hist T).
  Variable P : pub T -> Prop.
  Variable okrnd : R -> Prop.
  Hypothesis Pfin : forall p b, P p -> P (set_finish b p).
  Hypothesis Pbody : forall a rnd sok steps p, okrnd rnd -> P p -> P (fst (body a rnd sok steps p)).

  Lemma obj_train_inv w o rnd steps : okrnd rnd -> P (o_pub o) ->
    P (o_pub (fst (obj_train unbuilt resets body w o rnd steps))).
  Proof.
    intros Hr HP. unfold obj_train.
    assert (HP' : P (if resets then set_finish false (o_pub o) else o_pub o)) by (destruct resets; auto).
    destruct (o_built o) as [[a id]|]; [|exact HP'].
    destruct (negb (w_path w)); [exact HP'|].
    pose proof (Pbody a rnd (forallb (Nat.eqb id) (w_sums w)) steps _ Hr HP') as H.
    destruct (body _ _ _ _ _) as [p' [h|e]]; simpl in *; auto.
  Qed.

  Lemma history_inv cs : forall w o, (forall rnd steps, In (Train rnd steps) cs -> okrnd rnd) -> P (o_pub o) ->
    P (o_pub (object_after bc (obj_train unbuilt resets body) w o cs)).
  Proof.
    induction cs as [|c cs IH]; intros w o Hr HP; [exact HP|].
    unfold object_after. cbn [do_calls].
    destruct (do_call bc (obj_train unbuilt resets body) w o c) as [[w1 o1] l1] eqn:E.
    assert (H1 : P (o_pub o1)).
    { destruct c as [a id|rnd steps|key|id]; simpl in E.
      - unfold obj_build in E. destruct (bc a); simpl in E; injection E as <- <- <-; exact HP.
      - pose proof (obj_train_inv w o rnd steps (Hr _ _ (or_introl eq_refl)) HP) as H.
        destruct (obj_train _ _ _ _ _ _ _) as [o' r]; injection E as <- <- <-; exact H.
      - injection E as <- <- <-; exact HP.
      - injection E as <- <- <-; exact HP. }
    specialize (IH w1 o1 (fun rnd steps H => Hr rnd steps (or_intror H)) H1). unfold object_after in IH.
    destruct (do_calls _ _ w1 o1 cs) as [[w2 o2] l2]. exact IH.
  Qed.
End Hist.

(** ** signs *)
Section Sign.
  Context {T : Type} {N : Num T}.
  Hypothesis Hlt : nltb (n0 : T) n0 = false.

  Lemma relu_not_negative (t : tensor T) : not_negative (tf_map nrelu t).
  Proof.
    intros x Hx. unfold tf_map in Hx. simpl in Hx. apply in_map_iff in Hx as (y & <- & _).
    unfold nrelu. destruct (nltb y n0) eqn:E; auto.
  Qed.

  Definition pos_upto (k : nat) (A : list (tensor T)) : Prop :=
    forall j, j < k -> j < length A -> not_negative (nth j A (mkT [] [])).

  Lemma pos_upd k (A : list (tensor T)) v : pos_upto k A -> not_negative v -> pos_upto (k + 1) (upd A k v).
  Proof.
    intros H Hv j Hj HL. rewrite upd_length in HL. rewrite nth_upd.
    destruct (Nat.eqb j k) eqn:E.
    - apply Nat.ltb_lt in HL as ->. exact Hv.
    - apply Nat.eqb_neq in E. apply H; lia.
  Qed.

  Lemma pos_all (A : list (tensor T)) : pos_upto (length A) A -> all_not_negative A.
  Proof. intros H t Ht. destruct (In_nth _ _ (mkT [] []) Ht) as (j & Hj & <-). apply H; auto. Qed.

  Lemma ncp_modes_pos svals (mats : list (tensor T)) n : forall k s s', ncp_modes svals mats (seq k n) s = Ok s' ->
    pos_upto k (n_A s) -> pos_upto (k + n) (n_A s') /\ length (n_A s') = length (n_A s).
  Proof.
    induction n as [|n IH]; intros k s s' H HP; cbn [seq ncp_modes] in H.
    - injection H as <-. rewrite Nat.add_0_r. auto.
    - mon H. apply IH in H.
      + destruct H as [H1 H2]. replace (k + S n) with (S k + n) by lia. split; auto. rewrite H2.
        unfold ncp_mode in E. mon E. injection E as <-. simpl. apply upd_length.
      + unfold ncp_mode in E. mon E. injection E as <-. simpl. replace (S k) with (k + 1) by lia.
        apply pos_upd; auto. apply relu_not_negative.
  Qed.

  Lemma ncp_run_pos svals (X : tensor T) s s' o : length (n_A s) = ndims X -> ncp_run svals X s = Ok (s', o) ->
    all_not_negative (ob_factors o) /\ length (n_A s') = ndims X /\ ob_factors o = n_A s'.
  Proof.
    intros HL H. unfold ncp_run in H. mon H. injection H as <- <-. unfold ncp_step in E. mon E. injection E as <- <- <-.
    simpl in *. apply ncp_modes_pos in E1; [|intros j Hj; lia]. destruct E1 as [H1 H2]. simpl in H1.
    split; [|split; [congruence|reflexivity]]. apply pos_all. rewrite H2, HL. exact H1.
  Qed.

  Lemma ncp_accept_A (s s' : ncp_state T) : ncp_accept s = Ok s' -> n_A s' = n_A s.
  Proof. unfold ncp_accept. intros H. mon H. injection H as <-. reflexivity. Qed.

  Lemma nt_modes_pos svals (mats : list (tensor T)) n : forall k s s', nt_modes svals mats (seq k n) s = Ok s' ->
    pos_upto k (q_A s) -> pos_upto (k + n) (q_A s') /\ length (q_A s') = length (q_A s).
  Proof.
    induction n as [|n IH]; intros k s s' H HP; cbn [seq nt_modes] in H.
    - injection H as <-. rewrite Nat.add_0_r. auto.
    - mon H. apply IH in H.
      + destruct H as [H1 H2]. replace (k + S n) with (S k + n) by lia. split; auto. rewrite H2.
        unfold nt_mode in E. mon E. injection E as <-. simpl. apply upd_length.
      + unfold nt_mode in E. mon E. injection E as <-. simpl. replace (S k) with (k + 1) by lia.
        apply pos_upd; auto. apply relu_not_negative.
  Qed.

  Lemma nt_run_pos svals (X : tensor T) s s' o : length (q_A s) = ndims X -> nt_factors svals X s = Ok (s', o) ->
    all_not_negative (ob_factors o) /\ length (q_A s') = ndims X /\ ob_factors o = q_A s'.
  Proof.
    intros HL H. unfold nt_factors in H. mon H. injection H as <- <-. unfold nt_fact in E. mon E. injection E as <- <- <-.
    simpl in *. apply nt_modes_pos in E1; [|intros j Hj; lia]. destruct E1 as [H1 H2]. simpl in H1.
    split; [|split; [congruence|reflexivity]]. apply pos_all. rewrite H2, HL. exact H1.
  Qed.

  Lemma nt_pre_pos svals (X : tensor T) s s1 c : nt_pre svals X s = Ok (s1, c) ->
    c = Some (q_g s1) /\ not_negative (q_g s1) /\ q_A s1 = q_A s.
  Proof.
    intros H. pose proof (nt_pre_core _ _ _ _ _ H) as ->. split; auto.
    unfold nt_pre in H. mon H. injection H as <-. unfold nt_core in E. mon E. injection E as <-. simpl.
    split; auto. apply relu_not_negative.
  Qed.

  Lemma nt_accept_A (s s' : nt_state T) : nt_accept s = Ok s' -> q_A s' = q_A s.
  Proof. unfold nt_accept. intros H. mon H. injection H as <-. reflexivity. Qed.

  Definition pub_pos (p : pub T) : Prop := forall A, p_factors p = Some A -> all_not_negative A.
  Definition pub_pos_core (p : pub T) : Prop := pub_pos p /\ forall g, p_aux p = Some g -> not_negative g.

  Lemma ncp_body_pos pow svals (X : tensor T) ar rnd sok steps p : length rnd = ndims X -> pub_pos p ->
    pub_pos (fst (ncp_body pow svals X ar rnd sok steps p)).
  Proof.
    intros HL HP. unfold ncp_body. set (I := fun s : ncp_state T => length (n_A s) = ndims X).
    apply bcu_body_inv with (I := I) (I1 := I) (I2 := I); auto.
    - intros s s1 c q HI E Hq. injection E as <- <-. split; auto.
    - intros s s' o v q HI E Hq. apply ncp_run_pos in E as (H1 & H2 & H3); [|exact HI].
      split; [exact H2|]. intros A HA. cbn in HA. injection HA as <-. exact H1.
    - intros s s' HI E. apply ncp_accept_A in E. unfold I in *. congruence.
    - intros s s' HI E. injection E as <-. exact HI.
    - unfold I, ncp_init. cbn [n_A]. rewrite map_length. exact HL.
  Qed.

  Lemma nt_body_pos pow svals (X : tensor T) ar rnd sok steps p : length (fst rnd) = ndims X -> pub_pos_core p ->
    pub_pos_core (fst (nt_body pow svals X ar rnd sok steps p)).
  Proof.
    intros HL HP. unfold nt_body. set (I := fun s : nt_state T => length (q_A s) = ndims X).
    apply bcu_body_inv with (I := I) (I1 := I) (I2 := I); auto.
    - intros s s1 c q HI E Hq. apply nt_pre_pos in E as (-> & H1 & H2). split; [unfold I in *; congruence|].
      destruct Hq as [Hq1 Hq2]. split; [exact Hq1|]. intros g Hg. cbn in Hg. injection Hg as <-. exact H1.
    - intros s s' o v q HI E [Hq1 Hq2]. pose proof (proj1 (proj2 (nt_run_obs _ _ _ _ _ E))) as Hx.
      apply nt_run_pos in E as (H1 & H2 & H3); [|exact HI].
      split; [exact H2|]. split.
      + intros A HA. cbn in HA. injection HA as <-. exact H1.
      + intros g Hg. cbn in Hg. rewrite Hx in Hg. auto.
    - intros s s' HI E. apply nt_accept_A in E. unfold I in *. congruence.
    - intros s s' HI E. injection E as <-. exact HI.
    - unfold I, nt_init. cbn [q_A]. rewrite map_length. exact HL.
  Qed.

  Lemma ncp_pos pow svals (X : tensor T) bc w cs A : (forall rnd steps, In (Train rnd steps) cs -> length rnd = ndims X) ->
    p_factors (o_pub (object_after bc (ncp_train pow svals X) w fresh cs)) = Some A -> all_not_negative A.
  Proof.
    intros HL HA. refine (_ A HA). clear A HA. change (pub_pos (o_pub (object_after bc (ncp_train pow svals X) w fresh cs))).
    unfold ncp_train. apply history_inv with (okrnd := fun r => length r = ndims X); auto.
    - intros. apply ncp_body_pos; auto.
    - intros A HA. discriminate.
  Qed.

  Lemma nt_pos pow svals (X : tensor T) bc w cs : (forall rnd steps, In (Train rnd steps) cs -> length (fst rnd) = ndims X) ->
    pub_pos_core (o_pub (object_after bc (nt_train pow svals X) w fresh cs)).
  Proof.
    intros HL. unfold nt_train. apply history_inv with (okrnd := fun r => length (fst r) = ndims X); auto.
    - intros. apply nt_body_pos; auto.
    - split; intros A HA; discriminate.
  Qed.
End Sign.

(** ** the reconstruction from non-negative parts is non-negative (exact arithmetic) *)
Section FullSign.
  Local Open Scope R_scope.
  Definition nnR (t : tensor R) : Prop := forall x, In x (dat t) -> 0 <= x.

  Lemma nnR_spec (t : tensor R) : not_negative t <-> nnR t.
  Proof.
    unfold not_negative, nnR. split; intros H x Hx; specialize (H x Hx).
    - apply nltb_R_false in H. exact H.
    - apply nltb_R_false. exact H.
  Qed.
  Lemma nnR_get (t : tensor R) i : nnR t -> 0 <= get t i.
  Proof.
    intros H. unfold get. destruct (nth_in_or_default (ravel (shp t) i) (dat t) n0) as [Hi | -> ]; [auto|].
    apply Rle_refl.
  Qed.
  Lemma nnR_gen s (f : list nat -> R) : (forall i, 0 <= f i) -> nnR (gen s f).
  Proof. intros H x Hx. simpl in Hx. apply in_map_iff in Hx as (i & <- & _). apply H. Qed.
  Lemma lprod_nn (l : list R) : (forall x, In x l -> 0 <= x) -> 0 <= lprod l.
  Proof.
    induction l as [|x l IH]; intros H; [cbn; lra|]. unfold lprod in *. cbn [fold_right].
    apply Rmult_le_pos; [apply H; simpl; auto|apply IH; intros; apply H; simpl; auto].
  Qed.
  Lemma nnR_einsum ins out ops t : (forall o, In o ops -> nnR o) -> tf_einsum ins out ops = Ok t -> nnR t.
  Proof.
    intros H. unfold tf_einsum. 
    repeat (match goal with |- (if ?b then _ else _) = _ -> _ => destruct b; [discriminate|] end).
    intros E. injection E as <-. apply nnR_gen. intros i. apply lsumR_nonneg. intros si _.
    apply lprod_nn. intros x Hx. apply in_map_iff in Hx as ([l o] & <- & Ho). apply in_combine_r in Ho.
    apply nnR_get. auto.
  Qed.
  Lemma nnR_reshape t s r : nnR t -> tf_reshape t s = Ok r -> nnR r.
  Proof.
    intros H E. unfold tf_reshape in E.
    destruct (existsb _ _); [discriminate|]. destruct (filter (fun d => (d =? -1)%Z) s) as [|? [|? ?]]; [| |discriminate].
    - destruct (zprod s =? _)%Z; [|discriminate]. injection E as <-. exact H.
    - destruct (zprod _ =? 0)%Z; [discriminate|]. destruct (_ mod _ =? 0)%Z; [|discriminate]. injection E as <-. exact H.
  Qed.
  Lemma nnR_matmul ta tb A B C : nnR A -> nnR B -> tf_matmul ta tb A B = Ok C -> nnR C.
  Proof.
    intros HA HB. unfold tf_matmul. destruct (shp A) as [|a1 [|a2 [|? ?]]]; try discriminate.
    destruct (shp B) as [|b1 [|b2 [|? ?]]]; try discriminate. cbv zeta. destruct (Nat.eqb _ _); [|discriminate].
    intros E. injection E as <-. apply nnR_gen. intros i. apply sumnR_nonneg. intros l _.
    apply Rmult_le_pos; [destruct ta|destruct tb]; apply nnR_get; auto.
  Qed.
  Lemma nnR_kt (U : list (tensor R)) lam t : (forall M, In M U -> nnR M) -> nnR lam -> kt_extract U lam = Ok t -> nnR t.
  Proof.
    intros HU Hl H. unfold kt_extract in H. mon H. eapply nnR_reshape; [|exact H].
    eapply nnR_matmul; [| |exact E1]; auto. unfold khatri in E. mon E. eapply nnR_reshape; [|exact E].
    eapply nnR_einsum; [|exact E2]. intros o Ho. apply HU. exact Ho.
  Qed.
  Lemma nnR_tt (U : list (tensor R)) g t : (forall M, In M U -> nnR M) -> nnR g -> tt_extract g U = Ok t -> nnR t.
  Proof.
    intros HU Hg H. unfold tt_extract, ttm in H. mon H. eapply nnR_einsum; [|exact H].
    intros o [<-|Ho]; auto.
  Qed.
  Lemma nnR_ones s : nnR (tf_ones s).
  Proof. apply nnR_gen. intros _. cbn. lra. Qed.

  Lemma ltR00 : nltb (n0 : R) n0 = false.
  Proof. apply nltb_R_false. apply Rle_refl. Qed.

  Lemma ncp_run_full svals (X : tensor R) s s' o : length (n_A s) = ndims X -> ncp_run svals X s = Ok (s', o) -> nnR (ob_full o).
  Proof.
    intros HL H. pose proof (ncp_run_pos ltR00 _ _ _ _ _ HL H) as (H1 & H2 & H3).
    apply ncp_run_obs in H as (lam & _ & _ & Hl & Hk & _). rewrite <- H3 in Hk.
    eapply nnR_kt; [| |exact Hk].
    - intros M HM. apply nnR_spec, H1, HM.
    - unfold ncp_ones in Hl. mon Hl. injection Hl as <-. apply nnR_ones.
  Qed.

  Definition pub_posR (p : pub R) : Prop := forall t, p_full p = Some t -> nnR t.

  Lemma ncp_full_pos pow svals (X : tensor R) bc w cs t : (forall rnd steps, In (Train rnd steps) cs -> length rnd = ndims X) ->
    p_full (o_pub (object_after bc (ncp_train pow svals X) w fresh cs)) = Some t -> nnR t.
  Proof.
    intros HL HA. refine (_ t HA). clear t HA. change (pub_posR (o_pub (object_after bc (ncp_train pow svals X) w fresh cs))).
    unfold ncp_train. apply history_inv with (okrnd := fun r => length r = ndims X); auto.
    - intros a rnd sok steps p Hr Hp. unfold ncp_body. set (I := fun s : ncp_state R => length (n_A s) = ndims X).
      apply bcu_body_inv with (I := I) (I1 := I) (I2 := I); auto.
      + intros s s1 c q HI E Hq. injection E as <- <-. split; auto.
      + intros s s' o v q HI E Hq. pose proof (ncp_run_full _ _ _ _ _ HI E) as Hf.
        apply ncp_run_pos in E as (H1 & H2 & H3); [|exact ltR00|exact HI].
        split; [exact H2|]. intros t Ht. cbn in Ht. destruct v; [injection Ht as <-; exact Hf|auto].
      + intros s s' HI E. apply ncp_accept_A in E. unfold I in *. congruence.
      + intros s s' HI E. injection E as <-. exact HI.
      + unfold I, ncp_init. cbn [n_A]. rewrite map_length. exact Hr.
    - intros t Ht. discriminate.
  Qed.

  Lemma nt_full_pos pow svals (X : tensor R) bc w cs t : (forall rnd steps, In (Train rnd steps) cs -> length (fst rnd) = ndims X) ->
    p_full (o_pub (object_after bc (nt_train pow svals X) w fresh cs)) = Some t -> nnR t.
  Proof.
    intros HL HA. refine (_ t HA). clear t HA. change (pub_posR (o_pub (object_after bc (nt_train pow svals X) w fresh cs))).
    unfold nt_train. apply history_inv with (okrnd := fun r => length (fst r) = ndims X); auto.
    - intros a rnd sok steps p Hr Hp. unfold nt_body. set (I := fun s : nt_state R => length (q_A s) = ndims X).
      apply bcu_body_inv with (I := I) (I1 := fun s => I s /\ not_negative (q_g s)) (I2 := I); auto.
      + intros s s1 c q HI E Hq. apply nt_pre_pos in E as (-> & H1 & H2); [|exact ltR00].
        split; [split; [unfold I in *; congruence|exact H1]|auto].
      + intros s s' o v q [HI Hg] E Hq.
        pose proof (nt_run_obs _ _ _ _ _ E) as (F1 & _ & _ & F4 & _).
        apply nt_run_pos in E as (H1 & H2 & H3); [|exact ltR00|exact HI].
        split; [exact H2|]. intros t Ht. cbn in Ht. destruct v; [|auto]. injection Ht as <-.
        eapply nnR_tt; [| |exact F4].
        * intros M HM. apply nnR_spec. apply H1. congruence.
        * apply nnR_spec, Hg.
      + intros s s' HI E. apply nt_accept_A in E. unfold I in *. congruence.
      + intros s s' HI E. injection E as <-. exact HI.
      + unfold I, nt_init. cbn [q_A]. rewrite map_length. exact Hr.
    - intros t Ht. discriminate.
  Qed.
End FullSign.

(** ** extrapolation weights (exact arithmetic) *)
Section Weights.
  Local Open Scope R_scope.

  Lemma t_next_ge (t0 : R) : 1 <= t0 -> t0 + / 2 <= t_next t0.
  Proof.
    intros H. unfold t_next. Rn.
    assert (2 * t0 <= sqrt (1 + 4 * (t0 * t0))).
    { rewrite <- (sqrt_square (2 * t0)) by lra. apply sqrt_le_1; nra. }
    lra.
  Qed.

  Lemma weights_range (t0 t : R) L0 L w : 1 <= t0 -> t0 < t -> In w (weights t0 t L0 L) -> 0 <= w < 1.
  Proof.
    intros H1 H2 Hw. unfold weights in Hw. apply in_map_iff in Hw as (p & <- & _). rewrite nmin_R. Rn.
    assert (0 <= (t0 - 1) / t < 1).
    { split; [apply Rmult_le_pos; [lra|left; apply Rinv_0_lt_compat; lra]|].
      apply Rmult_lt_reg_r with t; [lra|]. unfold Rdiv. rewrite Rmult_assoc, Rinv_l by lra. lra. }
    pose proof (sqrt_pos (fst p / snd p)).
    unfold Rmin. destruct (Rle_dec _ _); lra.
  Qed.

  (** t at the beginning of a step, between the runs of a step, and weights *)
  Lemma ncp_run_t svals (X : tensor R) s s' o : ncp_run svals X s = Ok (s', o) ->
    n_t0 s' = n_t0 s /\ n_t s' = t_next (n_t0 s) /\ n_w s' = n_w s.
  Proof.
    intros H. unfold ncp_run in H. mon H. injection H as <- <-. unfold ncp_step in E. mon E. injection E as <- <- <-. simpl.
    assert (G : forall modes s s', ncp_modes svals v modes s = Ok s' -> n_t0 s' = n_t0 s /\ n_w s' = n_w s).
    { clear. induction modes as [|m r IH]; intros s s' H; simpl in H; [injection H as <-; auto|].
      mon H. apply IH in H. unfold ncp_mode in E. mon E. injection E as <-. exact H. }
    apply G in E1. destruct E1 as [-> ->]. auto.
  Qed.
  Lemma nt_run_t svals (X : tensor R) s s' o : nt_factors svals X s = Ok (s', o) ->
    q_t0 s' = q_t0 s /\ q_t s' = t_next (q_t0 s) /\ q_w s' = q_w s.
  Proof.
    intros H. unfold nt_factors in H. mon H. injection H as <- <-. unfold nt_fact in E. mon E. injection E as <- <- <-. simpl.
    assert (G : forall modes s s', nt_modes svals v modes s = Ok s' -> q_t0 s' = q_t0 s /\ q_w s' = q_w s).
    { clear. induction modes as [|m r IH]; intros s s' H; simpl in H; [injection H as <-; auto|].
      mon H. apply IH in H. unfold nt_mode in E. mon E. injection E as <-. exact H. }
    apply G in E1. destruct E1 as [-> ->]. auto.
  Qed.
  Lemma nt_core_t svals (X : tensor R) s s' c : nt_pre svals X s = Ok (s', c) ->
    q_t0 s' = q_t0 s /\ q_t s' = q_t s /\ q_w s' = q_w s.
  Proof. intros H. unfold nt_pre in H. mon H. injection H as <- <-. unfold nt_core in E. mon E. injection E as <-. auto. Qed.

  Definition t_ok (t t0 : R) : Prop := 1 <= t0 /\ t0 <= t.

  Lemma ncp_reach_t pow svals (X : tensor R) rnd s :
    reach (fun s => Ok (s, None)) (ncp_run svals X) ncp_accept (fun s => Ok (ncp_reject s)) (ncp_init pow X rnd) s ->
    t_ok (n_t s) (n_t0 s).
  Proof.
    intros H. induction H as [|s s1 c s2 o s3 H IH E1 E2 E3|s s1 c s2 o s3 H IH E1 E2 E3].
    - unfold t_ok, ncp_init. cbn [n_t n_t0]. Rn. lra.
    - injection E1 as <- <-. apply ncp_run_t in E2 as (H1 & H2 & _). unfold ncp_accept in E3. mon E3. injection E3 as <-.
      unfold t_ok in *. cbn [n_t n_t0]. rewrite H2. pose proof (t_next_ge (n_t0 s) (proj1 IH)). lra.
    - injection E1 as <- <-. apply ncp_run_t in E2 as (H1 & H2 & _). injection E3 as <-.
      unfold t_ok in *. cbn [n_t n_t0 ncp_reject]. rewrite H1, H2. pose proof (t_next_ge (n_t0 s) (proj1 IH)). lra.
  Qed.

  Lemma nt_reach_t pow svals (X : tensor R) rnd s :
    reach (nt_pre svals X) (nt_factors svals X) nt_accept (fun s => Ok (nt_reject s)) (nt_init pow X (fst rnd) (snd rnd)) s ->
    t_ok (q_t s) (q_t0 s).
  Proof.
    intros H. induction H as [|s s1 c s2 o s3 H IH E1 E2 E3|s s1 c s2 o s3 H IH E1 E2 E3].
    - unfold t_ok, nt_init. cbn [q_t q_t0]. Rn. lra.
    - apply nt_core_t in E1 as (G1 & G2 & _). apply nt_run_t in E2 as (H1 & H2 & _). unfold nt_accept in E3. mon E3. injection E3 as <-.
      unfold t_ok in *. cbn [q_t q_t0]. rewrite H2. rewrite <- G1 in IH. pose proof (t_next_ge (q_t0 s1) (proj1 IH)). lra.
    - apply nt_core_t in E1 as (G1 & G2 & _). apply nt_run_t in E2 as (H1 & H2 & _). injection E3 as <-.
      unfold t_ok in *. cbn [q_t q_t0 nt_reject]. rewrite H1, H2. rewrite <- G1 in IH. pose proof (t_next_ge (q_t0 s1) (proj1 IH)). lra.
  Qed.

  Lemma ncp_weights pow svals (X : tensor R) rnd s s2 o s3 :
    reach (fun s => Ok (s, None)) (ncp_run svals X) ncp_accept (fun s => Ok (ncp_reject s)) (ncp_init pow X rnd) s ->
    ncp_run svals X s = Ok (s2, o) ->
    1 <= n_t0 s2 /\ n_t0 s2 <= n_t s2 /\
    (ncp_accept s2 = Ok s3 -> 1 <= n_t0 s3 /\ n_t0 s3 <= n_t s3 /\ forall w, In w (n_w s3) -> 0 <= w < 1).
  Proof.
    intros HR E2. apply ncp_reach_t in HR. apply ncp_run_t in E2 as (H1 & H2 & _).
    pose proof (t_next_ge (n_t0 s) (proj1 HR)) as Ht. unfold t_ok in HR. rewrite H1, H2.
    split; [lra|]. split; [lra|]. intros E3. unfold ncp_accept in E3. mon E3. injection E3 as <-. cbn [n_t n_t0 n_w].
    rewrite H2. split; [lra|]. split; [lra|]. intros w Hw. rewrite H1 in Hw. eapply weights_range; [| |exact Hw]; lra.
  Qed.

  Lemma nt_weights pow svals (X : tensor R) rnd s s1 c s2 o s3 :
    reach (nt_pre svals X) (nt_factors svals X) nt_accept (fun s => Ok (nt_reject s)) (nt_init pow X (fst rnd) (snd rnd)) s ->
    nt_pre svals X s = Ok (s1, c) -> nt_factors svals X s1 = Ok (s2, o) ->
    1 <= q_t0 s2 /\ q_t0 s2 <= q_t s2 /\
    (nt_accept s2 = Ok s3 -> 1 <= q_t0 s3 /\ q_t0 s3 <= q_t s3 /\ forall w, In w (q_w s3) -> 0 <= w < 1).
  Proof.
    intros HR E1 E2. apply nt_reach_t in HR. apply nt_core_t in E1 as (G1 & G2 & _). rewrite <- G1 in HR. apply nt_run_t in E2 as (H1 & H2 & _).
    pose proof (t_next_ge (q_t0 s1) (proj1 HR)) as Ht. unfold t_ok in HR. rewrite H1, H2.
    split; [lra|]. split; [lra|]. intros E3. unfold nt_accept in E3. mon E3. injection E3 as <-. cbn [q_t q_t0 q_w].
    rewrite H2. split; [lra|]. split; [lra|]. intros w Hw. rewrite H1 in Hw. eapply weights_range; [| |exact Hw]; lra.
  Qed.

  (** accepted objectives decrease strictly *)
  Lemma ref_best_mono (os : list (sobs R)) j k : (j < k)%nat -> accepted os j -> ref_best os k <= m_obj (met os j).
  Proof.
    intros Hjk [_ Ha]. induction k as [|k IH]; [lia|]. cbn [ref_best].
    destruct (Nat.eq_dec j k) as [->|Hne].
    - rewrite Ha. apply Rle_refl.
    - specialize (IH ltac:(lia)). destruct (nltb (m_obj (met os k)) (ref_best os k)) eqn:E; [apply nltb_R in E; lra|exact IH].
  Qed.
  Lemma accepted_decrease (os : list (sobs R)) j k : (j < k)%nat -> accepted os j -> accepted os k ->
    m_obj (met os k) < m_obj (met os j).
  Proof.
    intros Hjk Hj [_ Hk]. apply nltb_R in Hk. pose proof (ref_best_mono os j k Hjk Hj). lra.
  Qed.
  Lemma first_accepted (os : list (sobs R)) : os <> [] -> accepted os 0.
  Proof. intros H. split; [destruct os; [congruence|simpl; lia]|]. apply nltb_R. cbn [ref_best]. Rn. lra. Qed.
End Weights.

(** ** Lipschitz constants *)
Section Lip.
  Context {T : Type} {N : Num T}.

  Lemma map_upd_skip {A} (l : list A) k v : k < length l -> firstn (k + 1) (upd l k v) = firstn k l ++ [v].
  Proof.
    unfold upd. revert k; induction l as [|x l IH]; intros k H; simpl in *; [lia|].
    destruct k; simpl; [reflexivity|]. rewrite IH by lia. reflexivity.
  Qed.

  Definition const_of svals (g : tensor T) (A : list (tensor T)) k (L : T) : Prop :=
    exists Y B Bsq, ttm g A None false (SkInt (Z.of_nat k)) = Ok Y /\ unfold Y (Z.of_nat k) = Ok B /\
      tf_matmul false true B B = Ok Bsq /\ L = tf_max (svals Bsq).

  Lemma list_nth_ext {A} (l l' : list A) d : length l = length l' -> (forall k, k < length l -> nth k l d = nth k l' d) -> l = l'.
  Proof. intros. eapply nth_ext; eauto. Qed.

  Lemma nth_mixed k (new old : list (tensor T)) j d : length new = length old -> k <= length old ->
    nth j (mixed k new old) d = if Nat.ltb j k then nth j new d else nth j old d.
  Proof.
    intros HL Hk. unfold mixed. destruct (Nat.ltb j k) eqn:E.
    - apply Nat.ltb_lt in E. rewrite app_nth1 by (rewrite firstn_length; lia).
      rewrite <- (firstn_skipn k new) at 2. rewrite app_nth1 by (rewrite firstn_length; lia). reflexivity.
    - apply Nat.ltb_ge in E. rewrite app_nth2 by (rewrite firstn_length; lia). rewrite firstn_length.
      rewrite Nat.min_l by lia. rewrite <- (firstn_skipn k old) at 2.
      rewrite app_nth2 by (rewrite firstn_length; lia). rewrite firstn_length, Nat.min_l by lia. reflexivity.
  Qed.
  Lemma mixed_length k (new old : list (tensor T)) : length new = length old -> k <= length old -> length (mixed k new old) = length old.
  Proof. intros HL Hk. unfold mixed. rewrite app_length, firstn_length, skipn_length. lia. Qed.

  (** state before mode k+n of a sweep started in s0 *)
  Lemma nt_modes_L svals (mats : list (tensor T)) n : forall k s s', nt_modes svals mats (seq k n) s = Ok s' ->
    length (q_L0 s) = length (q_L s) -> k + n <= length (q_L s) -> k + n <= length (q_A s) ->
    length (q_A s') = length (q_A s) /\ length (q_L s') = length (q_L s) /\ length (q_L0 s') = length (q_L0 s) /\ q_g s' = q_g s /\
    (forall j, (j < k \/ k + n <= j) -> nth j (q_L0 s') n0 = nth j (q_L0 s) n0 /\ nth j (q_L s') n0 = nth j (q_L s) n0 /\
       forall d, nth j (q_A s') d = nth j (q_A s) d) /\
    (forall j, k <= j < k + n -> nth j (q_L0 s') n0 = nth j (q_L s) n0 /\
       const_of svals (q_g s) (mixed j (q_A s') (q_A s)) j (nth j (q_L s') n0)).
  Proof.
    induction n as [|n IH]; intros k s s' H HL H1 H2; cbn [seq nt_modes] in H.
    - injection H as <-. do 4 (split; auto). split; [auto|]. intros j Hj; lia.
    - mon H. rename v into s1.
      unfold nt_mode in E. mon E. injection E as <-. 
      apply IH in H; cbn [q_A q_L q_L0 q_g]; rewrite ?upd_length; try lia.
      cbn [q_A q_L q_L0 q_g] in H. rewrite ?upd_length in H. destruct H as (F1 & F2 & F3 & F4 & F5 & F6).
      split; [auto|]. split; [auto|]. split; [auto|]. split; [auto|].
      match goal with Q : pynth (q_L s) _ = Ok _ |- _ => apply (pynth_of_nat _ _ _ n0) in Q as [Q1 Q2] end. subst. split.
      + intros j Hj. destruct (F5 j ltac:(lia)) as (G1 & G2 & G3). rewrite G1, G2, !nth_upd.
        replace (j =? k) with false by (symmetry; apply Nat.eqb_neq; lia). simpl. split; auto. split; auto.
        intros d. rewrite G3, nth_upd. replace (j =? k) with false by (symmetry; apply Nat.eqb_neq; lia). reflexivity.
      + intros j Hj. destruct (Nat.eq_dec j k) as [->|Hne].
        * destruct (F5 k ltac:(lia)) as (G1 & G2 & G3). rewrite G1, G2, !nth_upd, Nat.eqb_refl. 
          rewrite !(proj2 (Nat.ltb_lt _ _)) by lia. simpl. split; [auto|].
          unfold const_of. replace (mixed k (q_A s') (q_A s)) with (q_A s); [eauto 8|].
          apply (list_nth_ext _ _ (mkT [] [])).
          -- rewrite mixed_length; auto. lia.
          -- intros i Hi. rewrite nth_mixed by lia. destruct (Nat.ltb i k) eqn:Ei; auto. apply Nat.ltb_lt in Ei.
             destruct (F5 i ltac:(lia)) as (_ & _ & G). rewrite G, nth_upd. replace (i =? k) with false by (symmetry; apply Nat.eqb_neq; lia). reflexivity.
        * destruct (F6 j ltac:(lia)) as (G1 & G2). rewrite G1, nth_upd. replace (j =? k) with false by (symmetry; apply Nat.eqb_neq; lia).
          simpl. split; auto. 
          match type of G2 with const_of _ _ (mixed _ _ (upd _ _ ?z)) _ _ =>
            assert (EM : mixed j (q_A s') (upd (q_A s) k z) = mixed j (q_A s') (q_A s)); [|rewrite EM in G2; exact G2] end.
          apply (list_nth_ext _ _ (mkT [] [])).
          -- rewrite !mixed_length; rewrite ?upd_length; auto; lia.
          -- intros i Hi. rewrite !nth_mixed; rewrite ?upd_length; try lia. destruct (Nat.ltb i j) eqn:Ei; auto. apply Nat.ltb_ge in Ei.
             rewrite nth_upd. replace (i =? k) with false by (symmetry; apply Nat.eqb_neq; lia). reflexivity.
  Qed.

  Lemma nt_tracks svals (X : tensor T) s s1 c s2 o : length (q_A s) = ndims X ->
    length (q_L s) = ndims X + 1 -> length (q_L0 s) = ndims X + 1 ->
    nt_pre svals X s = Ok (s1, c) -> nt_factors svals X s1 = Ok (s2, o) ->
    q_L0 s2 = q_L s /\ length (q_L s2) = ndims X + 1 /\ length (q_A s2) = ndims X /\
    (forall k, k < ndims X -> const_of svals (q_g s2) (mixed k (q_A s2) (q_A s)) k (nth k (q_L s2) n0)) /\
    (exists AtA, mapM (fun a => tf_matmul true false a a) (q_A s) = Ok AtA /\
       max_single_value_mul svals AtA SkNone = Ok (nth (ndims X) (q_L s2) n0)).
  Proof.
    intros HA HL HL0 Hp Hr. unfold nt_pre in Hp. mon Hp. injection Hp as <- <-. unfold nt_core in E. mon E. injection E as <-.
    match goal with Q : pynth (q_L s) _ = Ok _ |- _ => apply (pynth_of_nat _ _ _ n0) in Q as [Q1 Q2] end. subst.
    unfold nt_factors in Hr. mon Hr. injection Hr as <- <-. unfold nt_fact in E. mon E. injection E as <- <- <-.
    cbn [q_L q_L0 q_A q_g]. match goal with Q : nt_modes _ _ _ _ = Ok _ |- _ => rename Q into QM end. apply nt_modes_L in QM; cbn [q_L q_L0 q_A q_g] in *; rewrite ?upd_length in *; try lia.
    destruct QM as (F1 & F2 & F3 & F4 & F5 & F6). rewrite F4.
    destruct (F5 (ndims X) ltac:(lia)) as (G1 & G2 & _).
    rewrite nth_upd, Nat.eqb_refl, (proj2 (Nat.ltb_lt _ _)) in G1 by lia.
    rewrite nth_upd, Nat.eqb_refl, (proj2 (Nat.ltb_lt _ _)) in G2 by lia. cbn [andb] in G1, G2.
    split; [|split; [congruence|split; [congruence|split]]].
    - apply (list_nth_ext _ _ n0); [congruence|]. intros k Hk.
      destruct (Nat.eq_dec k (ndims X)) as [->|Hne]; [congruence|].
      destruct (F6 k ltac:(lia)) as (G3 & _). rewrite G3, nth_upd. replace (k =? ndims X) with false by (symmetry; apply Nat.eqb_neq; auto). reflexivity.
    - intros k Hk. apply F6. lia.
    - exists v0. rewrite G2.
      split; assumption.
  Qed.

  Lemma nt_reach_len pow svals (X : tensor T) rnd s : length (fst rnd) = ndims X ->
    reach (nt_pre svals X) (nt_factors svals X) nt_accept (fun s => Ok (nt_reject s)) (nt_init pow X (fst rnd) (snd rnd)) s ->
    length (q_A s) = ndims X /\ length (q_L s) = ndims X + 1 /\ length (q_L0 s) = ndims X + 1.
  Proof.
    intros HL H. induction H as [|s s1 c s2 o s3 H IH E1 E2 E3|s s1 c s2 o s3 H IH E1 E2 E3].
    - unfold nt_init. cbn [q_A q_L q_L0]. rewrite map_length, !repeat_length. auto.
    - destruct IH as (I1 & I2 & I3). destruct (nt_tracks _ _ _ _ _ _ _ I1 I2 I3 E1 E2) as (T1 & T2 & T3 & _).
      unfold nt_accept in E3. mon E3. injection E3 as <-. cbn [q_A q_L q_L0]. rewrite T1. auto.
    - destruct IH as (I1 & I2 & I3). destruct (nt_tracks _ _ _ _ _ _ _ I1 I2 I3 E1 E2) as (T1 & T2 & T3 & _).
      injection E3 as <-. cbn [q_A q_L q_L0 nt_reject]. rewrite T1. auto.
  Qed.
End Lip.

(** ** every step of every run *)
Section Steps.
  Context {T : Type} {N : Num T}.
  Lemma ncp_reach_len pow svals (X : tensor T) rnd s : length rnd = ndims X ->
    reach (fun s => Ok (s, None)) (ncp_run svals X) ncp_accept (fun s => Ok (ncp_reject s)) (ncp_init pow X rnd) s ->
    length (n_A s) = ndims X.
  Proof.
    intros HL H.
    assert (HR : forall s s' o, ncp_run svals X s = Ok (s', o) -> length (n_A s') = length (n_A s)).
    { clear. intros s s' o H. unfold ncp_run in H. mon H. injection H as <- <-. unfold ncp_step in E. mon E. injection E as <- <- <-. cbn [n_A].
      assert (G : forall modes s s', ncp_modes svals v modes s = Ok s' -> length (n_A s') = length (n_A s)).
      { clear. induction modes as [|m r IH]; intros s s' H; simpl in H; [injection H as <-; auto|].
        mon H. apply IH in H. rewrite H. unfold ncp_mode in E. mon E. injection E as <-. cbn [n_A]. apply upd_length. }
      eapply G; eauto. }
    induction H as [|s s1 c s2 o s3 H IH E1 E2 E3|s s1 c s2 o s3 H IH E1 E2 E3].
    - unfold ncp_init. cbn [n_A]. rewrite map_length. exact HL.
    - injection E1 as <- <-. apply HR in E2. apply ncp_accept_A in E3. congruence.
    - injection E1 as <- <-. apply HR in E2. injection E3 as <-. cbn [n_A ncp_reject]. congruence.
  Qed.

  Lemma c47_step : nltb (n0 : T) n0 = false -> forall pow svals (X : tensor T) rnd s s2 o, length rnd = ndims X ->
    reach (fun s => Ok (s, None)) (ncp_run svals X) ncp_accept (fun s => Ok (ncp_reject s)) (ncp_init pow X rnd) s ->
    ncp_run svals X s = Ok (s2, o) -> all_not_negative (ob_factors o).
  Proof. intros H0 pow svals X rnd s s2 o HL HR HE. eapply ncp_run_pos; eauto. eapply ncp_reach_len; eauto. Qed.

  Lemma c51_step : nltb (n0 : T) n0 = false -> forall pow svals (X : tensor T) rnd s s1 c s2 o, length (fst rnd) = ndims X ->
    reach (nt_pre svals X) (nt_factors svals X) nt_accept (fun s => Ok (nt_reject s)) (nt_init pow X (fst rnd) (snd rnd)) s ->
    nt_pre svals X s = Ok (s1, c) -> nt_factors svals X s1 = Ok (s2, o) ->
    all_not_negative (ob_factors o) /\ exists g, c = Some g /\ not_negative g.
  Proof.
    intros H0 pow svals X rnd s s1 c s2 o HL HR H1 H2. destruct (nt_reach_len _ _ _ _ _ HL HR) as (L1 & _).
    apply nt_pre_pos in H1 as (-> & G1 & G2); auto. split; [|eauto].
    eapply nt_run_pos; [exact H0| |exact H2]. rewrite G2. exact L1.
  Qed.

  Lemma c52 pow svals (X : tensor T) rnd s s1 c s2 o : length (fst rnd) = ndims X ->
    reach (nt_pre svals X) (nt_factors svals X) nt_accept (fun s => Ok (nt_reject s)) (nt_init pow X (fst rnd) (snd rnd)) s ->
    nt_pre svals X s = Ok (s1, c) -> nt_factors svals X s1 = Ok (s2, o) ->
    q_L0 s2 = q_L s /\ length (q_L s2) = ndims X + 1 /\
    (forall k, k < ndims X -> exists Y B Bsq,
       ttm (q_g s2) (mixed k (q_A s2) (q_A s)) None false (SkInt (Z.of_nat k)) = Ok Y /\
       unfold Y (Z.of_nat k) = Ok B /\ tf_matmul false true B B = Ok Bsq /\ nth k (q_L s2) n0 = tf_max (svals Bsq)) /\
    (exists AtA, mapM (fun a => tf_matmul true false a a) (q_A s) = Ok AtA /\
       max_single_value_mul svals AtA SkNone = Ok (nth (ndims X) (q_L s2) n0)).
  Proof.
    intros HL HR H1 H2. destruct (nt_reach_len _ _ _ _ _ HL HR) as (L1 & L2 & L3).
    destruct (nt_tracks _ _ _ _ _ _ _ L1 L2 L3 H1 H2) as (T1 & T2 & _ & T4 & T5). auto.
  Qed.
End Steps.

Section StepsR.
  Local Open Scope R_scope.
  Lemma c47_full pow svals (X : tensor R) rnd s s2 o : length rnd = ndims X ->
    reach (fun s => Ok (s, None)) (ncp_run svals X) ncp_accept (fun s => Ok (ncp_reject s)) (ncp_init pow X rnd) s ->
    ncp_run svals X s = Ok (s2, o) -> forall x, In x (dat (ob_full o)) -> 0 <= x.
  Proof. intros HL HR HE. eapply ncp_run_full; [|exact HE]. eapply ncp_reach_len; eauto. Qed.

  Lemma c51_full pow svals (X : tensor R) rnd s s1 c s2 o : length (fst rnd) = ndims X ->
    reach (nt_pre svals X) (nt_factors svals X) nt_accept (fun s => Ok (nt_reject s)) (nt_init pow X (fst rnd) (snd rnd)) s ->
    nt_pre svals X s = Ok (s1, c) -> nt_factors svals X s1 = Ok (s2, o) -> forall x, In x (dat (ob_full o)) -> 0 <= x.
  Proof.
    intros HL HR H1 H2. destruct (nt_reach_len _ _ _ _ _ HL HR) as (L1 & _).
    apply nt_pre_pos in H1 as (-> & G1 & G2); [|exact ltR00].
    pose proof (nt_run_obs _ _ _ _ _ H2) as (F1 & _ & _ & F4 & _).
    apply nt_run_pos in H2 as (P1 & P2 & P3); [|exact ltR00|congruence].
    eapply nnR_tt; [| |exact F4].
    - intros M HM. apply nnR_spec, P1. congruence.
    - apply nnR_spec, G1.
  Qed.

  (** the extrapolated point is A + w (A - A0) *)
  Lemma extrapolate_spec w (a a0 m : tensor R) : shp a = shp a0 -> extrapolate w a a0 = Ok m ->
    shp m = shp a /\ forall i, valid (shp a) i -> get m i = get a i + w * (get a i - get a0 i).
  Proof.
    intros Hs H. unfold extrapolate in H. mon H.
    rewrite bin_same in E by auto. injection E as <-. rewrite tf_map_gen in H.
    rewrite bin_same in H by reflexivity. injection H as <-. split; [reflexivity|]. intros i Hi.
    rewrite !get_gen by exact Hi. reflexivity.
  Qed.
End StepsR.

Section Accept.
  Local Open Scope R_scope.
  Lemma map3M_nth {A B C D} (f : A -> B -> C -> res D) a b c l da db dc dd : map3M f a b c = Ok l ->
    length a = length b -> length b = length c ->
    length l = length a /\ forall k, (k < length a)%nat -> f (nth k a da) (nth k b db) (nth k c dc) = Ok (nth k l dd).
  Proof.
    unfold map3M. revert b c l. induction a as [|x a IH]; intros [|y b] [|z c] l H H1 H2; simpl in *; try lia.
    - injection H as <-. split; auto. intros; lia.
    - mon H. injection H as <-. destruct (IH b c _ E0 ltac:(lia) ltac:(lia)) as [G1 G2]. simpl. split; [lia|].
      intros [|k] Hk; auto. apply G2. lia.
  Qed.

  Lemma weights_nth (t0 t : R) L0 L k : length L0 = length L -> (k < length L)%nat ->
    nth k (weights t0 t L0 L) 0 = Rmin ((t0 - 1) / t) (sqrt (nth k L0 0 / nth k L 0)).
  Proof.
    unfold weights. revert L k. induction L0 as [|x L0 IH]; intros [|y L] k H1 H2; simpl in *; try lia.
    destruct k; [apply nmin_R|]. apply IH; lia.
  Qed.

  Lemma ncp_accept_spec (s s3 : ncp_state R) (d : tensor R) n : ncp_accept s = Ok s3 ->
    length (n_A s) = n -> length (n_A0 s) = n -> length (n_L s) = n -> length (n_L0 s) = n ->
    n_A0 s3 = n_A s /\ n_t0 s3 = n_t s /\
    forall k, (k < n)%nat ->
      nth k (n_w s3) 0 = Rmin ((n_t0 s - 1) / n_t s) (sqrt (nth k (n_L0 s) 0 / nth k (n_L s) 0)) /\
      (shp (nth k (n_A s) d) = shp (nth k (n_A0 s) d) ->
       forall i, valid (shp (nth k (n_A s) d)) i ->
       get (nth k (n_Am s3) d) i =
         get (nth k (n_A s) d) i + nth k (n_w s3) 0 * (get (nth k (n_A s) d) i - get (nth k (n_A0 s) d) i)).
  Proof.
    intros H HA HA0 HL HL0. unfold ncp_accept in H. mon H. injection H as <-. cbn [n_A0 n_A n_t0 n_w n_Am].
    split; auto. split; auto. intros k Hk.
    apply (map3M_nth _ _ _ _ _ (0:R) d d d) in E; [|unfold weights; rewrite map_length, combine_length; lia|lia].
    destruct E as [G1 G2]. unfold weights at 1 in G2. rewrite map_length, combine_length in G2.
    specialize (G2 k ltac:(lia)). split.
    - apply weights_nth; lia.
    - intros Hs i Hi. apply extrapolate_spec in G2; auto. destruct G2 as [_ G2]. apply G2, Hi.
  Qed.

  Lemma nt_accept_spec (s s3 : nt_state R) (d : tensor R) n : nt_accept s = Ok s3 ->
    length (q_A s) = n -> length (q_A0 s) = n -> length (q_L s) = S n -> length (q_L0 s) = S n ->
    q_A0 s3 = q_A s /\ q_g0 s3 = q_g s /\ q_t0 s3 = q_t s /\
    (forall k, (k <= n)%nat ->
      nth k (q_w s3) 0 = Rmin ((q_t0 s - 1) / q_t s) (sqrt (nth k (q_L0 s) 0 / nth k (q_L s) 0))) /\
    (forall k, (k < n)%nat -> shp (nth k (q_A s) d) = shp (nth k (q_A0 s) d) ->
       forall i, valid (shp (nth k (q_A s) d)) i ->
       get (nth k (q_Am s3) d) i =
         get (nth k (q_A s) d) i + nth k (q_w s3) 0 * (get (nth k (q_A s) d) i - get (nth k (q_A0 s) d) i)) /\
    (shp (q_g s) = shp (q_g0 s) -> forall i, valid (shp (q_g s)) i ->
       get (q_gm s3) i = get (q_g s) i + nth n (q_w s3) 0 * (get (q_g s) i - get (q_g0 s) i)).
  Proof.
    intros H HA HA0 HL HL0. unfold nt_accept in H. cbv zeta in H. set (ws := weights _ _ _ _) in H.
    apply bind_ok in H as (Am & E & H). apply bind_ok in H as (gm & Eg & H). injection H as <-. cbn [q_A0 q_A q_t0 q_w q_Am q_g0 q_g q_gm].
    assert (Lw : length ws = S n) by (unfold ws, weights; rewrite map_length, combine_length; lia).
    split; [reflexivity|]. split; [reflexivity|]. split; [reflexivity|]. split; [intros k Hk; apply weights_nth; lia|]. split.
    - intros k Hk Hs i Hi. apply (map3M_nth _ _ _ _ _ (0:R) d d d) in E; [|rewrite firstn_length; lia|lia].
      destruct E as [_ G2]. rewrite firstn_length in G2. specialize (G2 k ltac:(lia)). 
      assert (F : forall (l : list R) m j, (j < m)%nat -> nth j (firstn m l) 0 = nth j l 0).
      { induction l as [|x l IH]; intros [|m] [|j] Hj; try lia; try reflexivity. cbn. apply IH. lia. }
      rewrite F in G2 by lia.
      apply extrapolate_spec in G2; auto. destruct G2 as [_ G2]. apply G2, Hi.
    - intros Hs i Hi. rewrite HA in Eg. apply extrapolate_spec in Eg; auto. destruct Eg as [_ G2]. apply G2, Hi.
  Qed.
End Accept.

Lemma is_ok_pair {A B} (r : res (A * B)) : match r with Ok _ => true | Raise _ => false end = true -> exists a b, r = Ok (a, b).
Proof. destruct r as [[a b]|]; [eauto|discriminate]. Qed.

Section Final.
  Local Open Scope R_scope.
  Lemma c48_ncp pow svals (X : tensor R) rnd s s2 o s3 :
    reach (fun s => Ok (s, None)) (ncp_run svals X) ncp_accept (fun s => Ok (ncp_reject s)) (ncp_init pow X rnd) s ->
    ncp_run svals X s = Ok (s2, o) ->
    (1 <= n_t0 s2 /\ n_t0 s2 <= n_t s2) /\
    (ncp_accept s2 = Ok s3 -> 1 <= n_t0 s3 /\ n_t0 s3 <= n_t s3 /\ forall w, In w (n_w s3) -> 0 <= w < 1).
  Proof. intros H1 H2. destruct (ncp_weights _ _ _ _ _ _ _ s3 H1 H2) as (A & B & C). auto. Qed.
  Lemma c48_nt pow svals (X : tensor R) rnd s s1 c s2 o s3 :
    reach (nt_pre svals X) (nt_factors svals X) nt_accept (fun s => Ok (nt_reject s)) (nt_init pow X (fst rnd) (snd rnd)) s ->
    nt_pre svals X s = Ok (s1, c) -> nt_factors svals X s1 = Ok (s2, o) ->
    (1 <= q_t0 s2 /\ q_t0 s2 <= q_t s2) /\
    (nt_accept s2 = Ok s3 -> 1 <= q_t0 s3 /\ q_t0 s3 <= q_t s3 /\ forall w, In w (q_w s3) -> 0 <= w < 1).
  Proof. intros H1 H2 H3. destruct (nt_weights _ _ _ _ _ _ _ _ _ s3 H1 H2 H3) as (A & B & C). auto. Qed.
  Lemma c48_decrease (os : list (sobs R)) :
    (os <> [] -> accepted os 0) /\
    forall j k, (j < k)%nat -> accepted os j -> accepted os k -> m_obj (met os k) < m_obj (met os j).
  Proof. split; [apply first_accepted|apply accepted_decrease]. Qed.

  Definition X48 : tensor R := mkT [2; 2]%nat [2; -3; 0; 1].
  Definition sv48 : tensor R -> list R := fun _ => [2].
  Definition A48 : list (tensor R) := [mkT [2; 1]%nat [1; 1]; mkT [2; 1]%nat [1; 1]].
  Definition isok {A} (r : res A) : bool := match r with Ok _ => true | Raise _ => false end.
  Lemma isok_ex {A} (r : res A) : isok r = true -> exists a, r = Ok a.
  Proof. destruct r; [eauto|discriminate]. Qed.
  Lemma ex48_ncp : exists s s2 o, reach (fun s => Ok (s, None)) (ncp_run sv48 X48) ncp_accept (fun s => Ok (ncp_reject s))
       (ncp_init (fun a b => a) X48 A48) s /\ ncp_run sv48 X48 s = Ok (s2, o) /\ exists s3, ncp_accept s2 = Ok s3.
  Proof.
    set (s0 := ncp_init (fun a b => a) X48 A48).
    assert (H : isok (do r <- ncp_run sv48 X48 s0; do s <- ncp_accept (fst r); do r2 <- ncp_run sv48 X48 s; ncp_accept (fst r2)) = true)
      by (vm_compute; reflexivity).
    apply isok_ex in H as [s3 H]. mon H. destruct v as [u o1], v1 as [u2 o2]. cbn [fst] in *.
    exists v0, u2, o2. split; [|split; eauto]. eapply reach_accept; [apply reach_start|reflexivity|exact E|exact E0].
  Qed.
  Lemma ex48_nt : exists s s1 c s2 o, reach (nt_pre sv48 X48) (nt_factors sv48 X48) nt_accept (fun s => Ok (nt_reject s))
       (nt_init (fun a b => a) X48 A48 (mkT [1; 1]%nat [1])) s /\
     nt_pre sv48 X48 s = Ok (s1, c) /\ nt_factors sv48 X48 s1 = Ok (s2, o) /\ exists s3, nt_accept s2 = Ok s3.
  Proof.
    set (s0 := nt_init (fun a b => a) X48 A48 (mkT [1; 1]%nat [1])).
    assert (H : isok (do p <- nt_pre sv48 X48 s0; do r <- nt_factors sv48 X48 (fst p); do s <- nt_accept (fst r);
                      do p2 <- nt_pre sv48 X48 s; do r2 <- nt_factors sv48 X48 (fst p2); nt_accept (fst r2)) = true)
      by (vm_compute; reflexivity).
    apply isok_ex in H as [s3 H]. mon H. destruct v as [p o1], v0 as [u o2], v2 as [p2 o3], v3 as [u2 o4]. cbn [fst] in *.
    exists v1, p2, o3, u2, o4. split; [|split; eauto]. eapply reach_accept; [apply reach_start|exact E|exact E0|exact E1].
  Qed.
End Final.
