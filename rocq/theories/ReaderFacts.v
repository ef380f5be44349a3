(** reader.py (C32-C35). *)

From Coq Require Import String Ascii ZArith List Bool Arith Lia Permutation.
From Verif Require Import Num Py Tensor TF TensorFacts TFFacts Reader Ops TtmFacts SkipFacts SpecReader.
Import ListNotations.
Open Scope nat_scope.
Open Scope list_scope.

(** ** file type *)

Lemma file_type_aux s : forall acc, 
  (no_dot s /\ after_last_dot_aux s acc = acc) \/
  (exists pre ext, no_dot ext /\ s = String.append pre (String "."%char ext) /\ after_last_dot_aux s acc = ext).
Proof.
  induction s as [|c s IH]; intros acc.
  - left. split; [intros []|reflexivity].
  - simpl. destruct (Ascii.eqb_spec c "."%char) as [->|Hc].
    + destruct (IH s) as [[Hn E]|(pre & ext & Hn & E1 & E2)].
      * right. exists EmptyString, s. repeat split; auto.
      * right. exists (String "."%char pre), ext. repeat split; auto. simpl. rewrite E1. reflexivity.
    + destruct (IH acc) as [[Hn E]|(pre & ext & Hn & E1 & E2)].
      * left. split; auto. intros [H|H]; [congruence|auto].
      * right. exists (String c pre), ext. repeat split; auto. simpl. rewrite E1. reflexivity.
Qed.

Lemma file_type_spec path : after_last_dot path (file_type path).
Proof.
  unfold file_type. destruct (file_type_aux path path) as [[Hn E]|(pre & ext & Hn & E1 & E2)].
  - rewrite E. split; auto.
  - rewrite E2. split; auto. right. exists pre. auto.
Qed.

Lemma in_append c a b : In c (list_ascii_of_string (String.append a b)) <->
  In c (list_ascii_of_string a) \/ In c (list_ascii_of_string b).
Proof. induction a; simpl; [tauto|]. rewrite IHa. tauto. Qed.

Lemma append_dot_inj p1 : forall p2 e1 e2, no_dot e1 -> no_dot e2 ->
  String.append p1 (String "."%char e1) = String.append p2 (String "."%char e2) -> e1 = e2.
Proof.
  induction p1 as [|c p1 IH]; intros [|c2 p2] e1 e2 H1 H2 E; simpl in E.
  - congruence.
  - injection E as _ E. exfalso. apply H1. rewrite E. apply in_append. right. left. reflexivity.
  - injection E as _ E. exfalso. apply H2. rewrite <- E. apply in_append. right. left. reflexivity.
  - injection E as _ E. eapply IH; eauto.
Qed.

Lemma after_last_dot_unique path a b : after_last_dot path a -> after_last_dot path b -> a = b.
Proof.
  intros [Ha [Ea|[pa Ea]]] [Hb [Eb|[pb Eb]]]; try congruence.
  - exfalso. apply Ha. rewrite <- Ea, Eb. apply in_append. right. left. reflexivity.
  - exfalso. apply Hb. rewrite <- Eb, Ea. apply in_append. right. left. reflexivity.
  - apply (append_dot_inj pa pb); auto. congruence.
Qed.

Lemma file_type_iff path ext : file_type path = ext <-> after_last_dot path ext.
Proof.
  split.
  - intros <-. apply file_type_spec.
  - intros H. eapply after_last_dot_unique; eauto using file_type_spec.
Qed.

Section S.
  Context {T : Type} {N : Num T}.

  (** ** sparse_to_dense *)

  Lemma set_nth_nth {A} (l : list A) k v j d : nth j (set_nth l k v) d = if andb (Nat.eqb j k) (k <? length l) then v else nth j l d.
  Proof.
    revert k j. induction l as [|x l IH]; intros k j; simpl.
    - rewrite andb_false_r. reflexivity.
    - destruct k, j; simpl; auto. rewrite IH. reflexivity.
  Qed.

  Lemma zvalid_spec s c : zvalid s c = true <-> in_range s c.
  Proof.
    unfold zvalid, in_range. rewrite andb_true_iff, Nat.eqb_eq. revert c.
    induction s as [|d s IH]; intros [|z c]; simpl; split; intros H; try (destruct H; discriminate);
      try (inversion H; fail); try (constructor; fail); try (split; reflexivity).
    - destruct H as [HL H]. apply andb_true_iff in H as [H1 H2]. apply andb_true_iff in H1 as [H1 H3].
      constructor; [apply Z.leb_le in H1; apply Z.ltb_lt in H3; lia|]. apply IH. split; auto.
    - inversion H as [|? ? ? ? Hz Hr]; subst. apply IH in Hr as [HL Hr]. split; [lia|]. rewrite Hr.
      rewrite andb_true_r. apply andb_true_iff. split; [apply Z.leb_le|apply Z.ltb_lt]; lia.
  Qed.

  Lemma in_range_valid s c : in_range s c -> valid s (map Z.to_nat c).
  Proof. unfold in_range, valid. induction 1; simpl; constructor; auto. lia. Qed.

  Lemma in_range_of_nat s c idx : in_range s c -> valid s idx -> (map Z.to_nat c = idx <-> c = map Z.of_nat idx).
  Proof.
    intros H _. split; [intros <-|intros ->].
    - rewrite map_map. induction H; simpl; auto. f_equal; [lia|auto].
    - apply map_to_of_nat.
  Qed.

  Lemma sparse_write_ok s (es : list (list Z * T)) : forall buf, length buf = prod s ->
    (forall e, In e es -> in_range s (fst e)) ->
    exists buf', sparse_write s buf es = Ok buf' /\ length buf' = prod s /\
      forall idx, valid s idx -> nth (ravel s idx) buf' n0 =
        match last_for es (map Z.of_nat idx) with Some v => v | None => nth (ravel s idx) buf n0 end.
  Proof.
    induction es as [|[c v] es IH]; intros buf HL H.
    - exists buf. simpl. auto.
    - assert (Hc : in_range s c) by (apply (H (c, v)); left; reflexivity).
      simpl. rewrite (proj2 (zvalid_spec s c) Hc).
      destruct (IH (set_nth buf (ravel s (map Z.to_nat c)) v)) as (buf' & E & HL' & HG).
      { rewrite set_nth_length. auto. }
      { intros e He. apply H. right; auto. }
      exists buf'. split; auto. split; auto. intros idx Hi. rewrite HG by auto.
      destruct (last_for es (map Z.of_nat idx)); auto.
      rewrite set_nth_nth, HL.
      assert (Hlt := ravel_lt s _ (in_range_valid s c Hc)). apply Nat.ltb_lt in Hlt. rewrite Hlt, andb_true_r.
      destruct (list_eq_dec Z.eq_dec c (map Z.of_nat idx)) as [E1|E1].
      + apply (in_range_of_nat s c idx Hc Hi) in E1. rewrite E1, Nat.eqb_refl. reflexivity.
      + destruct (Nat.eqb_spec (ravel s idx) (ravel s (map Z.to_nat c))) as [E2|E2]; auto.
        exfalso. apply E1. apply (in_range_of_nat s c idx Hc Hi).
        symmetry. eapply ravel_inj; eauto. apply in_range_valid; auto.
  Qed.

  Lemma sparse_write_bad s (es : list (list Z * T)) e : In e es -> ~ in_range s (fst e) ->
    forall buf, sparse_write s buf es = Raise InvalidArgument.
  Proof.
    induction es as [|[c v] es IH]; intros Hin Hb buf; [contradiction|]. simpl.
    destruct (zvalid s c) eqn:E; [|reflexivity].
    destruct Hin as [<-|Hin]; [exfalso; apply Hb, zvalid_spec, E|]. apply IH; auto.
  Qed.

  Lemma sparse_ok s (es : list (list Z * T)) : (forall e, In e es -> in_range s (fst e)) ->
    exists X, tf_sparse_to_dense s es = Ok X /\ wf X /\ shp X = s /\
      forall idx, valid s idx -> get X idx = match last_for es (map Z.of_nat idx) with Some v => v | None => n0 end.
  Proof.
    intros H. destruct (sparse_write_ok s es (repeat n0 (prod s))) as (buf & E & HL & HG); auto using repeat_length.
    exists (mkT s buf). unfold tf_sparse_to_dense. rewrite E. repeat split; auto.
    intros idx Hi. unfold get. simpl. rewrite HG by auto.
    destruct (last_for es (map Z.of_nat idx)); auto. apply nth_repeat.
  Qed.

  Lemma sparse_bad s (es : list (list Z * T)) e : In e es -> ~ in_range s (fst e) ->
    tf_sparse_to_dense s es = Raise InvalidArgument.
  Proof. intros H1 H2. unfold tf_sparse_to_dense. rewrite (sparse_write_bad s es e); auto. Qed.

  (** ** rows *)
  Context {tok : Type}.
  Variable parse_int : tok -> option Z.
  Variable parse_float : tok -> option T.
  Notation row_lists := (row_lists parse_int parse_float).
  Notation read := (read parse_int parse_float).

  Lemma nonblank_filter (rows : list (list tok)) :
    filter (fun r => negb (Nat.eqb (length r) 0)) rows = nonblank rows.
  Proof. unfold nonblank. apply filter_ext. intros [|]; reflexivity. Qed.

  Lemma mapM_fields (cs : list tok) zs rest : Forall2 (fun c z => parse_int c = Some z) cs zs ->
    mapM (fun mode => do f <- pynth (cs ++ rest) mode; pint parse_int f) (zrange (length zs)) = Ok zs.
  Proof.
    intros H. unfold zrange. rewrite mapM_map.
    assert (HL : length cs = length zs) by (eapply Forall2_len; eauto).
    rewrite (mapM_ok _ (fun k => nth k zs 0%Z)).
    - rewrite map_nth_seq. reflexivity.
    - intros k Hk. apply in_seq in Hk. destruct cs as [|c0 cs0] eqn:Ec; [simpl in HL; lia|]. rewrite <- Ec in *. clear Ec.
      rewrite (pynth_nat _ k c0) by (rewrite app_length; lia). cbn [bind]. rewrite app_nth1 by lia.
      unfold pint. assert (G := Forall2_nth _ _ _ H k c0 0%Z). simpl in G. rewrite G by lia. reflexivity.
  Qed.

  Lemma read_entry_ok order row e : row_lists order row e -> read_entry parse_int parse_float order row = Ok e.
  Proof.
    intros (cs & v & -> & H & HL & Hv). unfold read_entry. subst order.
    rewrite (mapM_fields cs (fst e) [v] H). cbn [bind].
    assert (E : pynth (cs ++ [v]) (-1) = Ok v).
    { rewrite (pynth_neg (cs ++ [v]) 0 v) || idtac.
      unfold pynth. rewrite app_length. cbn [length].
      replace (-1 <? 0)%Z with true by reflexivity.
      replace (-1 + Z.of_nat (length cs + 1))%Z with (Z.of_nat (length cs)) by lia.
      replace ((0 <=? Z.of_nat (length cs)) && (Z.of_nat (length cs) <? Z.of_nat (length cs + 1)))%Z%bool with true
        by (symmetry; apply andb_true_iff; rewrite Z.leb_le, Z.ltb_lt; lia).
      rewrite Nat2Z.id, nth_error_app2, Nat.sub_diag by lia. reflexivity. }
    rewrite E. cbn [bind]. unfold pfloat. rewrite Hv. cbn [bind]. destruct e; reflexivity.
  Qed.

  Lemma mapM_rows order rows es : Forall2 (row_lists order) rows es ->
    mapM (read_entry parse_int parse_float order) rows = Ok es.
  Proof.
    induction 1; simpl; [reflexivity|]. rewrite (read_entry_ok order x y) by auto. cbn [bind]. rewrite IHForall2. reflexivity.
  Qed.

  Lemma row_lists_len order row e : row_lists order row e -> length row = S order.
  Proof.
    intros (cs & v & -> & H & HL & _). rewrite app_length. simpl. apply Forall2_len in H. lia.
  Qed.

  Definition out_shape (order : nat) (fs : option (list nat)) (es : list (list Z * T)) : list nat :=
    match fs with Some s => s | None => map Z.to_nat (infer_shape order (map fst es)) end.

  Lemma infer_length order l : length (infer_shape order l) = order.
  Proof. unfold infer_shape. rewrite map_length, seq_length. reflexivity. Qed.

  Lemma read_dense path rows fs order es : file_type path = "csv"%string \/ file_type path = "txt"%string ->
    0 < order -> es <> [] -> Forall2 (row_lists order) (nonblank rows) es ->
    match fs with Some s => length s = order | None => True end ->
    read path rows (option_map (map Z.of_nat) fs) = tf_sparse_to_dense (out_shape order fs es) es.
  Proof.
    intros Hty Ho Hne HR Hs. unfold Reader.read.
    replace (String.eqb (file_type path) "csv" || String.eqb (file_type path) "txt")%bool with true
      by (destruct Hty as [-> | ->]; reflexivity).
    rewrite nonblank_filter.
    destruct (nonblank rows) as [|r0 rs] eqn:Er; [inversion HR; subst; congruence|].
    change (pynth (r0 :: rs) 0) with (Ok r0). cbn [bind].
    inversion HR as [|? e0 ? es0 H0 Hr]; subst.
    rewrite (row_lists_len _ _ _ H0). replace (S order - 1) with order by lia.
    rewrite (mapM_rows order _ _ HR). cbn [bind].
    destruct (Nat.eqb_spec order 0); [lia|].
    unfold out_shape. destruct fs as [s|]; cbn [option_map].
    - rewrite map_length, Hs, Nat.eqb_refl. cbn [negb].
      replace (existsb (fun d => (d <? 0)%Z) (map Z.of_nat s)) with false.
      + rewrite map_to_of_nat. reflexivity.
      + symmetry. clear. induction s; simpl; auto. rewrite IHs. destruct (Z.ltb_spec (Z.of_nat a) 0); auto; lia.
    - rewrite infer_length, Nat.eqb_refl. reflexivity.
  Qed.

  (** ** the inferred shape *)
  Lemma fold_max_spec l : forall x, (forall y, In y (x :: l) -> (y <= fold_left Z.max l x)%Z) /\ In (fold_left Z.max l x) (x :: l).
  Proof.
    induction l as [|y l IH]; intros x; cbn [fold_left].
    - split; [intros y [<-|[]]; lia|left; reflexivity].
    - destruct (IH (Z.max x y)) as [H1 H2]. split.
      + intros z [<-|[<-|Hz]].
        * apply Z.le_trans with (Z.max x y); [lia|apply H1; left; reflexivity].
        * apply Z.le_trans with (Z.max x y); [lia|apply H1; left; reflexivity].
        * apply H1. right; auto.
      + destruct H2 as [H2|H2]; [|right; right; auto]. rewrite <- H2.
        destruct (Z.max_spec x y) as [[_ ->]|[_ ->]]; simpl; auto.
  Qed.
  Lemma zmax_spec l : l <> [] -> (forall y, In y l -> (y <= zmax_list l)%Z) /\ In (zmax_list l) l.
  Proof. destruct l; [congruence|]. intros _. apply fold_max_spec. Qed.

  Lemma infer_max order (es : list (list Z * T)) : es <> [] -> (forall e m, In e es -> m < order -> (0 <= nth m (fst e) 0)%Z) ->
    max_plus_one order es (map Z.to_nat (infer_shape order (map fst es))).
  Proof.
    intros Hne Hnn. split; [rewrite map_length; apply infer_length|].
    intros m Hm.
    assert (E : nth m (map Z.to_nat (infer_shape order (map fst es))) 0%nat =
                Z.to_nat (zmax_list (map (fun i => nth m i 0%Z) (map fst es)) + 1)).
    { unfold infer_shape. rewrite map_map. rewrite nth_map_lt with (da := 0%nat) by (rewrite seq_length; auto).
      rewrite seq_nth by auto. reflexivity. }
    rewrite E. rewrite map_map. clear E.
    destruct (zmax_spec (map (fun e : list Z * T => nth m (fst e) 0%Z) es)) as [H1 H2].
    { destruct es; [congruence|discriminate]. }
    set (M := zmax_list _) in *. apply in_map_iff in H2 as (e0 & E0 & Hin0).
    assert (0 <= M)%Z by (rewrite <- E0; apply Hnn; auto).
    split.
    - intros e He. rewrite Z2Nat.id by lia. assert (nth m (fst e) 0 <= M)%Z by (apply H1, in_map_iff; eauto). lia.
    - exists e0. split; auto. rewrite Z2Nat.id by lia. lia.
  Qed.

  Lemma max_unique order es s s' : max_plus_one order es s -> max_plus_one (T := T) order es s' -> s = s'.
  Proof.
    intros [L1 H1] [L2 H2]. apply nth_ext with (d := 0) (d' := 0); [congruence|].
    intros m Hm. rewrite L1 in Hm. destruct (H1 m Hm) as [A1 (e1 & I1 & B1)], (H2 m Hm) as [A2 (e2 & I2 & B2)].
    pose proof (A1 e2 I2). pose proof (A2 e1 I1). lia.
  Qed.

  Lemma max_perm order es es' s : Permutation es es' -> max_plus_one order es s -> max_plus_one (T := T) order es' s.
  Proof.
    intros HP [L H]. split; auto. intros m Hm. destruct (H m Hm) as [A (e & I & B)]. split.
    - intros e' He'. apply A. eapply Permutation_in; [symmetry; eauto|auto].
    - exists e. split; auto. eapply Permutation_in; eauto.
  Qed.

  Lemma max_in_range order es s e : max_plus_one (T := T) order es s -> In e es -> length (fst e) = order ->
    (forall m, m < order -> (0 <= nth m (fst e) 0)%Z) -> in_range s (fst e).
  Proof.
    intros [L H] He HL Hnn. apply nth_Forall2 with (da := 0%Z) (db := 0%nat); [congruence|].
    intros m Hm. rewrite HL in Hm. destruct (H m Hm) as [A _]. specialize (A e He). specialize (Hnn m Hm). lia.
  Qed.

  Lemma rows_len order rows es e : Forall2 (row_lists order) rows es -> In e es -> length (fst e) = order.
  Proof.
    intros H. induction H as [|r e' rows es Hr H IH]; intros Hin; [contradiction|].
    destruct Hin as [<-|Hin]; auto. destruct Hr as (cs & v & _ & _ & HL & _). auto.
  Qed.

  Lemma in_range_nonneg s c m : in_range s c -> (0 <= nth m c 0)%Z.
  Proof.
    intros H. revert m. induction H as [|z d c s Hz H IH]; intros [|m]; simpl; try lia. apply IH.
  Qed.

  (** ** C32 / C33 *)
  Lemma last_for_in (es : list (list Z * T)) c : forall v, last_for es c = Some v -> In (c, v) es.
  Proof.
    induction es as [|[d w] es IH]; intros v; simpl; [discriminate|].
    destruct (last_for es c) as [u|] eqn:E.
    - intros H. injection H as <-. right. apply IH. reflexivity.
    - destruct (list_eq_dec Z.eq_dec d c); [|discriminate]. intros H. injection H as <-. left. congruence.
  Qed.
  Lemma last_for_none es c : last_for (T := T) es c = None <-> ~ In c (map fst es).
  Proof.
    induction es as [|[d w] es IH]; simpl; [tauto|].
    destruct (last_for es c) as [u|] eqn:E.
    - split; [discriminate|]. intros H. exfalso. apply H. right. apply in_map_iff. exists (c, u). split; auto.
      apply last_for_in. auto.
    - destruct (list_eq_dec Z.eq_dec d c) as [->|Hd].
      + split; [discriminate|tauto].
      + rewrite (proj1 IH eq_refl) || (pose proof (proj1 IH eq_refl); tauto).
  Qed.
  Lemma last_for_nodup es c v : NoDup (map fst es) -> In (c, v) es -> last_for (T := T) es c = Some v.
  Proof.
    induction es as [|[d w] es IH]; simpl; intros Hnd Hin; [contradiction|].
    inversion Hnd as [|? ? Hd Hnd']; subst. destruct Hin as [E|Hin].
    - injection E as -> ->. rewrite (proj2 (last_for_none es c)) by auto.
      destruct (list_eq_dec Z.eq_dec c c); congruence.
    - rewrite IH by auto. reflexivity.
  Qed.
  Lemma last_for_app es1 es2 c : last_for (T := T) (es1 ++ es2) c =
    match last_for es2 c with Some v => Some v | None => last_for es1 c end.
  Proof.
    induction es1 as [|[d w] es IH]; simpl; [destruct (last_for es2 c); reflexivity|].
    rewrite IH. destruct (last_for es2 c); auto.
  Qed.

  Lemma read_given path rows order es s : after_last_dot path "csv" \/ after_last_dot path "txt" ->
    0 < order -> es <> [] -> Forall2 (row_lists order) (nonblank rows) es ->
    length s = order -> (forall e, In e es -> in_range s (fst e)) ->
    exists X, read path rows (Some (map Z.of_nat s)) = Ok X /\ wf X /\ shp X = s /\
      forall idx, valid s idx -> get X idx = match last_for es (map Z.of_nat idx) with Some v => v | None => n0 end.
  Proof.
    intros Hp Ho Hne HR HL Hr. rewrite <- !file_type_iff in Hp.
    change (Some (map Z.of_nat s)) with (option_map (map Z.of_nat) (Some s)). rewrite (read_dense path rows (Some s) order es) by auto. apply sparse_ok. exact Hr.
  Qed.

  Lemma read_inferred path rows order es : after_last_dot path "csv" \/ after_last_dot path "txt" ->
    0 < order -> es <> [] -> Forall2 (row_lists order) (nonblank rows) es ->
    (forall e z, In e es -> In z (fst e) -> (0 <= z)%Z) ->
    exists X, read path rows None = Ok X /\ wf X /\ max_plus_one order es (shp X) /\
      forall idx, valid (shp X) idx -> get X idx = match last_for es (map Z.of_nat idx) with Some v => v | None => n0 end.
  Proof.
    intros Hp Ho Hne HR Hnn. rewrite <- !file_type_iff in Hp.
    assert (Hn' : forall e m, In e es -> m < order -> (0 <= nth m (fst e) 0)%Z).
    { intros e m He Hm. apply (Hnn e); auto. apply nth_In. rewrite (rows_len _ _ _ _ HR He). auto. }
    pose proof (infer_max order es Hne Hn') as HM.
    change None with (option_map (map Z.of_nat) None).
    rewrite (read_dense path rows None order es) by auto. unfold out_shape.
    destruct (sparse_ok (map Z.to_nat (infer_shape order (map fst es))) es) as (X & E & Hw & Hs & HG).
    { intros e He. eapply max_in_range; eauto. eapply rows_len; eauto. }
    exists X. rewrite Hs. auto.
  Qed.

  Lemma read_bad_given path rows order es s e : after_last_dot path "csv" \/ after_last_dot path "txt" ->
    0 < order -> Forall2 (row_lists order) (nonblank rows) es -> length s = order ->
    In e es -> ~ in_range s (fst e) ->
    read path rows (Some (map Z.of_nat s)) = Raise InvalidArgument.
  Proof.
    intros Hp Ho HR HL He Hb. rewrite <- !file_type_iff in Hp.
    change (Some (map Z.of_nat s)) with (option_map (map Z.of_nat) (Some s)).
    rewrite (read_dense path rows (Some s) order es); auto; [|intros ->; contradiction].
    apply (sparse_bad _ _ e); auto.
  Qed.

  Lemma read_bad_inferred path rows order es e z : after_last_dot path "csv" \/ after_last_dot path "txt" ->
    0 < order -> Forall2 (row_lists order) (nonblank rows) es ->
    In e es -> In z (fst e) -> (z < 0)%Z ->
    read path rows None = Raise InvalidArgument.
  Proof.
    intros Hp Ho HR He Hz Hneg. rewrite <- !file_type_iff in Hp.
    change None with (option_map (map Z.of_nat) None).
    rewrite (read_dense path rows None order es); auto; [|intros ->; contradiction].
    apply (sparse_bad _ _ e); auto. intros H. apply In_nth with (d := 0%Z) in Hz as (m & Hm & <-).
    pose proof (in_range_nonneg _ _ m H). lia.
  Qed.

  Lemma Forall2_perm_ex {A B} (P : A -> B -> Prop) l l' : Permutation l l' -> forall m, Forall2 P l m ->
    exists m', Permutation m m' /\ Forall2 P l' m'.
  Proof.
    induction 1; intros m HF.
    - inversion HF; subst. exists []. auto.
    - inversion HF as [|? b ? m0 Hb Hm]; subst. destruct (IHPermutation _ Hm) as (m' & HP & HF').
      exists (b :: m'). auto.
    - inversion HF as [|? b ? m0 Hb Hm]; subst. inversion Hm as [|? b' ? m1 Hb' Hm']; subst.
      exists (b' :: b :: m1). split; [constructor|]. auto.
    - destruct (IHPermutation1 _ HF) as (m1 & P1 & F1). destruct (IHPermutation2 _ F1) as (m2 & P2 & F2).
      exists m2. split; auto. eapply perm_trans; eauto.
  Qed.

  Lemma nonblank_perm (rows rows' : list (list tok)) : Permutation rows rows' -> Permutation (nonblank rows) (nonblank rows').
  Proof.
    unfold nonblank. induction 1; simpl; auto.
    - destruct x; auto.
    - destruct x, y; auto. constructor.
    - eapply perm_trans; eauto.
  Qed.

  Lemma last_for_perm es es' c : NoDup (map fst es) -> Permutation es es' -> last_for (T := T) es c = last_for es' c.
  Proof.
    intros Hnd HP.
    assert (Hnd' : NoDup (map fst es')) by (eapply Permutation_NoDup; [apply Permutation_map; eauto|auto]).
    destruct (last_for es c) as [v|] eqn:E.
    - symmetry. apply last_for_nodup; auto. eapply Permutation_in; eauto. apply last_for_in; auto.
    - symmetry. apply last_for_none. apply last_for_none in E. intros H. apply E.
      eapply Permutation_in; [|exact H]. apply Permutation_map. symmetry; auto.
  Qed.

  Lemma read_order path rows rows' fs order es : after_last_dot path "csv" \/ after_last_dot path "txt" ->
    0 < order -> es <> [] -> Forall2 (row_lists order) (nonblank rows) es -> NoDup (map fst es) ->
    (forall e z, In e es -> In z (fst e) -> (0 <= z)%Z) ->
    match fs with Some s => length s = order | None => True end ->
    Permutation rows rows' ->
    read path rows (option_map (map Z.of_nat) fs) = read path rows' (option_map (map Z.of_nat) fs).
  Proof.
    intros Hp Ho Hne HR Hnd Hnn Hfs HP.
    destruct (Forall2_perm_ex _ _ _ (nonblank_perm _ _ HP) _ HR) as (es' & HPe & HR').
    assert (Hne' : es' <> []) by (intros ->; apply Permutation_sym, Permutation_nil in HPe; auto).
    assert (Hin : forall e, In e es' -> In e es) by (intros e He; eapply Permutation_in; [symmetry; eauto|auto]).
    destruct fs as [s|].
    - destruct (Forall_dec (fun e => in_range s (fst e)) (fun e => match zvalid s (fst e) as b return zvalid s (fst e) = b -> _ with
         true => fun E => left (proj1 (zvalid_spec s (fst e)) E) | false => fun E => right (fun H => eq_ind true (fun b => if b then True else False) I false (eq_trans (eq_sym (proj2 (zvalid_spec s (fst e)) H)) E)) end eq_refl) es) as [Hall|Hex].
      + rewrite Forall_forall in Hall.
        destruct (read_given path rows order es s) as (X & E & Hw & Hs & HG); auto.
        destruct (read_given path rows' order es' s) as (X' & E' & Hw' & Hs' & HG'); auto.
        cbn [option_map]. rewrite E, E'. f_equal. apply tensor_ext; auto; [congruence|].
        intros idx Hi. rewrite Hs in Hi. rewrite HG, HG' by auto. rewrite (last_for_perm es es') by auto. reflexivity.
      + apply neg_Forall_Exists_neg in Hex.
        * apply Exists_exists in Hex as (e & He & Hb). cbn [option_map].
          rewrite (read_bad_given path rows order es s e), (read_bad_given path rows' order es' s e); auto.
          eapply Permutation_in; eauto.
        * intros e. destruct (zvalid s (fst e)) eqn:Ez; [left; apply zvalid_spec; auto|right].
          intros H. apply zvalid_spec in H. congruence.
    - destruct (read_inferred path rows order es) as (X & E & Hw & Hs & HG); auto.
      destruct (read_inferred path rows' order es') as (X' & E' & Hw' & Hs' & HG'); eauto.
      cbn [option_map]. rewrite E, E'. f_equal.
      assert (Es : shp X = shp X') by (eapply max_unique; [eapply max_perm; eauto|auto]).
      apply tensor_ext; auto. intros idx Hi. rewrite HG by auto. rewrite HG' by (rewrite <- Es; auto).
      rewrite (last_for_perm es es') by auto. reflexivity.
  Qed.

  (** ** C34: rows of another length *)
  Lemma read_entry_short order row : length row < order -> forall e, read_entry parse_int parse_float order row <> Ok e.
  Proof.
    intros H e E. unfold read_entry in E. apply bind_ok in E as (idx & E & _).
    apply mapM_inv in E.
    assert (G : In (Z.of_nat (length row)) (zrange order)) by (apply in_zrange; lia).
    revert G. clear -E. induction E as [|z y l l' Hz E IH]; intros G; [contradiction|].
    destruct G as [->|G]; [|auto]. rewrite pynth_nat_out in Hz by lia. discriminate.
  Qed.

  Lemma mapM_bad {A B} (f : A -> res B) l x : In x l -> (forall y, f x <> Ok y) -> forall r, mapM f l <> Ok r.
  Proof.
    intros Hin Hb r E. apply mapM_inv in E. revert Hin. induction E as [|a b l l' Ha E IH]; intros Hin; [contradiction|].
    destruct Hin as [->|Hin]; [exact (Hb _ Ha)|auto].
  Qed.

  Lemma read_short_raises path rows first rest row fs :
    nonblank rows = first :: rest -> In row rest -> length row + 1 < length first ->
    forall X, read path rows fs <> Ok X.
  Proof.
    intros Hnb Hin Hlen X E. unfold Reader.read in E. destruct (_ || _)%bool; [|discriminate].
    rewrite nonblank_filter, Hnb in E. change (pynth (first :: rest) 0) with (Ok first) in E. cbn [bind] in E.
    apply bind_ok in E as (es & E & _). revert E. apply mapM_bad with (x := row); [right; auto|].
    apply read_entry_short. lia.
  Qed.

  (** a longer row is read as its first [order] fields and its last one *)
  Lemma read_entry_long order (cs ext : list tok) v zs x : Forall2 (fun c z => parse_int c = Some z) cs zs ->
    length zs = order -> parse_float v = Some x ->
    read_entry parse_int parse_float order (cs ++ ext ++ [v]) = Ok (zs, x).
  Proof.
    intros H HL Hv. unfold read_entry. subst order. rewrite (mapM_fields cs zs _ H). cbn [bind].
    assert (E : pynth (cs ++ ext ++ [v]) (-1) = Ok v).
    { rewrite app_assoc. unfold pynth. rewrite app_length. cbn [length].
      replace (-1 <? 0)%Z with true by reflexivity. set (L := cs ++ ext).
      replace (-1 + Z.of_nat (length L + 1))%Z with (Z.of_nat (length L)) by lia.
      replace ((0 <=? Z.of_nat (length L)) && (Z.of_nat (length L) <? Z.of_nat (length L + 1)))%Z%bool with true
        by (symmetry; apply andb_true_iff; rewrite Z.leb_le, Z.ltb_lt; lia).
      rewrite Nat2Z.id, nth_error_app2, Nat.sub_diag by lia. reflexivity. }
    rewrite E. cbn [bind]. unfold pfloat. rewrite Hv. reflexivity.
  Qed.

  (** a row one field short is read with its last coordinate doubling as the value *)
  Lemma read_entry_one_short order (cs : list tok) c zs z x : Forall2 (fun c z => parse_int c = Some z) (cs ++ [c]) (zs ++ [z]) ->
    length (zs ++ [z]) = order -> parse_float c = Some x ->
    read_entry parse_int parse_float order (cs ++ [c]) = Ok (zs ++ [z], x).
  Proof.
    intros H HL Hv. unfold read_entry. subst order.
    pose proof (mapM_fields (cs ++ [c]) (zs ++ [z]) [] H) as E0. rewrite app_nil_r in E0. rewrite E0. cbn [bind].
    assert (E : pynth (cs ++ [c]) (-1) = Ok c).
    { unfold pynth. rewrite app_length. cbn [length].
      replace (-1 <? 0)%Z with true by reflexivity.
      replace (-1 + Z.of_nat (length cs + 1))%Z with (Z.of_nat (length cs)) by lia.
      replace ((0 <=? Z.of_nat (length cs)) && (Z.of_nat (length cs) <? Z.of_nat (length cs + 1)))%Z%bool with true
        by (symmetry; apply andb_true_iff; rewrite Z.leb_le, Z.ltb_lt; lia).
      rewrite Nat2Z.id, nth_error_app2, Nat.sub_diag by lia. reflexivity. }
    rewrite E. cbn [bind]. unfold pfloat. rewrite Hv. reflexivity.
  Qed.

  (** ** C35 *)
  Lemma mapM_raise {A B} (f : A -> res B) l e : mapM f l = Raise e -> exists x, In x l /\ f x = Raise e.
  Proof.
    induction l as [|x l IH]; simpl; [discriminate|].
    destruct (f x) as [y|e'] eqn:E; cbn [bind].
    - destruct (mapM f l) as [ys|e'] eqn:E2; cbn [bind]; [discriminate|].
      intros H. injection H as ->. destruct (IH eq_refl) as (z & Hz & Ez). eauto.
    - intros H. injection H as ->. eauto.
  Qed.

  Lemma pynth_raise {A} (l : list A) z e : pynth l z = Raise e -> e = IndexError.
  Proof.
    unfold pynth. destruct (_ && _)%bool; [|congruence]. destruct (nth_error l _); congruence.
  Qed.

  Lemma read_entry_raise order row e : read_entry parse_int parse_float order row = Raise e -> e = IndexError \/ e = ValueError.
  Proof.
    unfold read_entry.
    destruct (mapM _ (zrange order)) as [idx|e'] eqn:E; cbn [bind].
    - destruct (pynth row (-1)) as [f|e'] eqn:E2; cbn [bind].
      + unfold pfloat. destruct (parse_float f); cbn [bind]; [discriminate|]. intros H; injection H as <-; auto.
      + intros H; injection H as ->. apply pynth_raise in E2. auto.
    - intros H; injection H as ->. apply mapM_raise in E as (z & _ & E).
      destruct (pynth row z) as [f|e'] eqn:E2; cbn [bind] in E.
      + unfold pint in E. destruct (parse_int f); [discriminate|]. injection E as <-; auto.
      + injection E as ->. apply pynth_raise in E2. auto.
  Qed.

  Lemma sparse_raise s (es : list (list Z * T)) e : tf_sparse_to_dense s es = Raise e -> e = InvalidArgument.
  Proof.
    unfold tf_sparse_to_dense. generalize (repeat (n0 : T) (prod s)). induction es as [|[c v] es IH]; intros buf; cbn [sparse_write].
    - discriminate.
    - destruct (zvalid s c); [apply IH|cbn [bind]; congruence].
  Qed.

  Lemma read_type path rows fs :
    (read path rows fs = Raise ArgumentErr <-> ~ (after_last_dot path "csv" \/ after_last_dot path "txt")).
  Proof.
    rewrite <- !file_type_iff. unfold Reader.read.
    assert (G : forall si fs, (do first <- pynth si 0;
      let order := length first - 1 in
      do entries <- mapM (read_entry parse_int parse_float order) si;
      if Nat.eqb order 0 then Raise ValueError
      else
        let max_dim := match fs with
                       | None => infer_shape order (map fst entries)
                       | Some s => s
                       end in
        if negb (Nat.eqb (length max_dim) order) then Raise ValueError
        else if match fs with
                | Some s => existsb (fun d => (d <? 0)%Z) s | None => false end
          then Raise InvalidArgument
        else tf_sparse_to_dense (map Z.to_nat max_dim) entries) <> Raise ArgumentErr).
    { clear. intros si fs. destruct (pynth si 0) as [first|e] eqn:E0; cbn [bind].
      2: { apply pynth_raise in E0. congruence. }
      cbv zeta. destruct (mapM _ si) as [es|e] eqn:E; cbn [bind].
      2: { apply mapM_raise in E as (r & _ & E). apply read_entry_raise in E as [->| ->]; discriminate. }
      destruct (Nat.eqb _ 0); [discriminate|]. destruct (negb _); [discriminate|].
      match goal with |- (if ?b then _ else _) <> _ => destruct b end; [discriminate|].
      intros H. apply sparse_raise in H. discriminate. }
    destruct (String.eqb_spec (file_type path) "csv") as [E1|E1]; cbn [orb].
    - split; [intros H; exfalso; exact (G _ _ H)|intros H; exfalso; apply H; auto].
    - destruct (String.eqb_spec (file_type path) "txt") as [E2|E2].
      + split; [intros H; exfalso; exact (G _ _ H)|intros H; exfalso; apply H; auto].
      + split; [intros _ [?|?]; contradiction|reflexivity].
  Qed.

  Lemma read_empty path rows fs : after_last_dot path "csv" \/ after_last_dot path "txt" ->
    nonblank rows = [] -> read path rows fs = Raise IndexError.
  Proof.
    rewrite <- !file_type_iff. intros Hp Hn. unfold Reader.read. rewrite nonblank_filter, Hn.
    destruct Hp as [-> | ->]; reflexivity.
  Qed.

  Lemma read_blank path (rows rows' : list (list tok)) fs : nonblank rows = nonblank rows' ->
    read path rows fs = read path rows' fs.
  Proof. intros H. unfold Reader.read. rewrite !nonblank_filter, H. reflexivity. Qed.

  Lemma read_distinct path rows order es (fs : option (list nat)) X :
    after_last_dot path "csv" \/ after_last_dot path "txt" ->
    0 < order -> es <> [] -> Forall2 (row_lists order) (nonblank rows) es ->
    NoDup (map fst es) -> (forall e z, In e es -> In z (fst e) -> (0 <= z)%Z) ->
    match fs with Some s => length s = order | None => True end ->
    read path rows (option_map (map Z.of_nat) fs) = Ok X ->
    (forall c v, In (c, v) es -> get X (map Z.to_nat c) = v) /\
    (forall idx, valid (shp X) idx -> ~ In (map Z.of_nat idx) (map fst es) -> get X idx = n0).
  Proof.
    intros Hp Ho Hne HR Hnd Hnn Hfs E.
    assert (G : (forall e, In e es -> in_range (shp X) (fst e)) /\
      forall idx, valid (shp X) idx -> get X idx = match last_for es (map Z.of_nat idx) with Some v => v | None => n0 end).
    { destruct fs as [s|]; cbn [option_map] in E.
      - assert (Hr : forall e, In e es -> in_range s (fst e)).
        { intros e He. destruct (zvalid s (fst e)) eqn:Ez; [apply zvalid_spec; auto|]. exfalso.
          rewrite (read_bad_given path rows order es s e) in E; auto; [discriminate|].
          intros H. apply zvalid_spec in H. congruence. }
        destruct (read_given path rows order es s) as (X' & E' & Hw & Hs & HG); auto.
        rewrite E' in E. injection E as <-. rewrite Hs. auto.
      - destruct (read_inferred path rows order es) as (X' & E' & Hw & Hs & HG); auto.
        rewrite E' in E. injection E as <-. split; auto.
        intros e He. eapply max_in_range; eauto.
        + eapply rows_len; eauto.
        + intros m Hm. apply (Hnn e); auto. apply nth_In. rewrite (rows_len _ _ _ _ HR He). auto. }
    destruct G as [Hr HG]. split.
    - intros c v Hin. rewrite HG by (apply in_range_valid, (Hr (c, v) Hin)).
      assert (Ec : map Z.of_nat (map Z.to_nat c) = c).
      { symmetry. apply (in_range_of_nat (shp X)); auto; [apply (Hr (c, v) Hin)|apply in_range_valid, (Hr (c, v) Hin)]. }
      rewrite Ec, (last_for_nodup es c v); auto.
    - intros idx Hi Hn. rewrite HG by auto. rewrite (proj2 (last_for_none es _)) by auto. reflexivity.
  Qed.
End S.

Lemma c34_refuted : exists (rows rows' : list (list Z)) (X X' : tensor Z) first row row',
  rows = [first; row] /\ rows' = [first; row'] /\
  length first < length row /\ length row' < length first /\
  read Some Some "a.csv" rows None = Ok X /\ read Some Some "a.csv" rows' None = Ok X'.
Proof.
  do 4 eexists. exists [0; 1; 5]%Z, [1; 2; 3; 4]%Z, [1; 2]%Z.
  split; [reflexivity|]. split; [reflexivity|]. split; [simpl; lia|]. split; [simpl; lia|].
  split; vm_compute; reflexivity.
Qed.
