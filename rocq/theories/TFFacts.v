(** Characterising lemmas for the TensorFlow primitives. *)

From Coq Require Import ZArith List Bool Arith Lia Permutation.
From Verif Require Import Num Py Tensor TF TensorFacts.
Import ListNotations.

(** ** Python lists *)

Lemma pynth_nat {A} (l : list A) (n : nat) (d : A) :
  n < length l -> pynth l (Z.of_nat n) = Ok (nth n l d).
Proof.
  intros H. unfold pynth.
  destruct (Z.ltb_spec (Z.of_nat n) 0); [lia|].
  destruct (Z.leb_spec 0 (Z.of_nat n)); [|lia].
  destruct (Z.ltb_spec (Z.of_nat n) (Z.of_nat (length l))); [|lia]. simpl.
  rewrite Nat2Z.id. rewrite (nth_error_nth' l d H). reflexivity.
Qed.

Lemma pynth_nat_out {A} (l : list A) (n : nat) :
  length l <= n -> pynth l (Z.of_nat n) = Raise IndexError.
Proof.
  intros H. unfold pynth.
  destruct (Z.ltb_spec (Z.of_nat n) 0); [lia|].
  destruct (Z.leb_spec 0 (Z.of_nat n)); [|lia].
  destruct (Z.ltb_spec (Z.of_nat n) (Z.of_nat (length l))); [lia|]. reflexivity.
Qed.

Lemma pynth_neg {A} (l : list A) (n : nat) (d : A) :
  0 < n <= length l -> pynth l (- Z.of_nat n) = Ok (nth (length l - n) l d).
Proof.
  intros H. unfold pynth.
  destruct (Z.ltb_spec (- Z.of_nat n) 0); [|lia].
  replace (- Z.of_nat n + Z.of_nat (length l))%Z with (Z.of_nat (length l - n)) by lia.
  destruct (Z.leb_spec 0 (Z.of_nat (length l - n))); [|lia].
  destruct (Z.ltb_spec (Z.of_nat (length l - n)) (Z.of_nat (length l))); [|lia]. simpl.
  rewrite Nat2Z.id. rewrite (nth_error_nth' l d) by lia. reflexivity.
Qed.

Lemma mapM_ok {A B} (f : A -> res B) (g : A -> B) (l : list A) :
  (forall a, In a l -> f a = Ok (g a)) -> mapM f l = Ok (map g l).
Proof.
  induction l as [|a l IH]; intros H; simpl; [reflexivity|].
  rewrite H by (simpl; auto). simpl. rewrite IH by (intros; apply H; simpl; auto). reflexivity.
Qed.

Lemma mapM_inv {A B} (f : A -> res B) (l : list A) r :
  mapM f l = Ok r -> Forall2 (fun a b => f a = Ok b) l r.
Proof.
  revert r. induction l as [|a l IH]; intros r H; simpl in H.
  - injection H as <-. constructor.
  - destruct (f a) as [b|e] eqn:E; simpl in H; [|discriminate].
    destruct (mapM f l) as [r'|e]; simpl in H; [|discriminate].
    injection H as <-. constructor; auto.
Qed.

Lemma mapM_map {A B C} (f : B -> res C) (g : A -> B) (l : list A) :
  mapM f (map g l) = mapM (fun a => f (g a)) l.
Proof. induction l as [|a l IH]; simpl; [reflexivity|]. rewrite IH. reflexivity. Qed.

Lemma mapM_ext {A B} (f g : A -> res B) (l : list A) :
  (forall a, In a l -> f a = g a) -> mapM f l = mapM g l.
Proof.
  induction l as [|a l IH]; intros H; simpl; [reflexivity|].
  rewrite H by (simpl; auto). rewrite IH by (intros; apply H; simpl; auto). reflexivity.
Qed.

Lemma mapM_length {A B} (f : A -> res B) l r : mapM f l = Ok r -> length r = length l.
Proof. intros H. apply mapM_inv in H. symmetry. eapply Forall2_len; eauto. Qed.

Lemma bind_ok {A B} (x : res A) (f : A -> res B) b :
  bind x f = Ok b -> exists a, x = Ok a /\ f a = Ok b.
Proof. destruct x as [a|e]; simpl; intros H; [eauto | discriminate]. Qed.

Lemma zrange_length n : length (zrange n) = n.
Proof. unfold zrange. rewrite map_length, seq_length. reflexivity. Qed.

Lemma in_zrange n z : In z (zrange n) <-> (0 <= z < Z.of_nat n)%Z.
Proof.
  unfold zrange. rewrite in_map_iff. split.
  - intros (k & <- & Hk). apply in_seq in Hk. lia.
  - intros H. exists (Z.to_nat z). split; [lia|]. apply in_seq. lia.
Qed.

Lemma NoDup_map_inj {A B} (f : A -> B) l :
  (forall a b, In a l -> In b l -> f a = f b -> a = b) -> NoDup l -> NoDup (map f l).
Proof.
  induction l as [|a l IH]; intros Hf Hn; simpl; [constructor|].
  inversion Hn; subst. constructor.
  - rewrite in_map_iff. intros (b & Hb & Hin).
    assert (b = a) by (apply Hf; simpl; auto). subst. auto.
  - apply IH; auto. intros; apply Hf; simpl; auto.
Qed.

Lemma NoDup_zrange n : NoDup (zrange n).
Proof. apply NoDup_map_inj; [intros; lia | apply seq_NoDup]. Qed.

Lemma zmem_In x l : zmem x l = true <-> In x l.
Proof.
  unfold zmem. rewrite existsb_exists. split.
  - intros (y & Hy & E). apply Z.eqb_eq in E. subst; auto.
  - intros H. exists x. split; auto. apply Z.eqb_refl.
Qed.

Lemma zmem_false x l : zmem x l = false <-> ~ In x l.
Proof. rewrite <- zmem_In. destruct (zmem x l); split; congruence. Qed.

(** ** zprod *)
Lemma zprod_of_nat l : zprod (map Z.of_nat l) = Z.of_nat (prod l).
Proof. induction l as [|a l IH]; simpl; [reflexivity|]. unfold zprod in *. simpl. rewrite IH. lia. Qed.

Lemma filter_all {A} (f : A -> bool) l : (forall a, In a l -> f a = true) -> filter f l = l.
Proof.
  induction l as [|a l IH]; intros H; simpl; [reflexivity|].
  rewrite H by (simpl; auto). rewrite IH by (intros; apply H; simpl; auto). reflexivity.
Qed.
Lemma filter_none {A} (f : A -> bool) l : (forall a, In a l -> f a = false) -> filter f l = [].
Proof.
  induction l as [|a l IH]; intros H; simpl; [reflexivity|].
  rewrite H by (simpl; auto). apply IH. intros; apply H; simpl; auto.
Qed.

(** ** positions and permutations *)

Lemma pos_lt a l : In a l -> pos a l < length l.
Proof.
  induction l as [|x l IH]; simpl; intros H; [contradiction|].
  destruct (Nat.eqb_spec a x); [lia|]. destruct H; [congruence|]. apply IH in H. lia.
Qed.

Lemma nth_pos a l d : In a l -> nth (pos a l) l d = a.
Proof.
  induction l as [|x l IH]; simpl; intros H; [contradiction|].
  destruct (Nat.eqb_spec a x); [auto|]. destruct H; [congruence|]. apply IH; auto.
Qed.

Lemma pos_nth l : NoDup l -> forall k d, k < length l -> pos (nth k l d) l = k.
Proof.
  intros Hn k d Hk.
  assert (Hin : In (nth k l d) l) by (apply nth_In; auto).
  apply (proj1 (NoDup_nth l d) Hn); auto using pos_lt.
  apply nth_pos; auto.
Qed.

Lemma perm_ok_spec n perm :
  perm_ok n perm = true <-> Permutation perm (zrange n).
Proof.
  unfold perm_ok. rewrite andb_true_iff, forallb_forall, Nat.eqb_eq. split.
  - intros [Hl Hall]. apply Permutation_sym, NoDup_Permutation_bis.
    + apply NoDup_zrange.
    + rewrite zrange_length. lia.
    + intros z Hz. apply zmem_In, Hall, Hz.
  - intros H. split.
    + apply Permutation_length in H. rewrite zrange_length in H. auto.
    + intros z Hz. apply zmem_In. eapply Permutation_in; [apply Permutation_sym, H | auto].
Qed.

Lemma map_of_to_nat l n : (forall z, In z l -> In z (zrange n)) -> map Z.of_nat (map Z.to_nat l) = l.
Proof.
  intros H. rewrite map_map. rewrite <- (map_id l) at 2. apply map_ext_in. intros z Hz.
  apply H, in_zrange in Hz. lia.
Qed.

Lemma map_to_of_nat l : map Z.to_nat (map Z.of_nat l) = l.
Proof. rewrite map_map. rewrite <- (map_id l) at 2. apply map_ext. intros; apply Nat2Z.id. Qed.

Lemma perm_to_nat n perm : Permutation perm (zrange n) -> Permutation (map Z.to_nat perm) (seq 0 n).
Proof.
  intros H. apply (Permutation_map Z.to_nat) in H. unfold zrange in H.
  rewrite map_map in H. rewrite map_ext with (g := fun x => x) in H by (intros; apply Nat2Z.id).
  rewrite map_id in H. exact H.
Qed.

Lemma perm_of_nat n p : Permutation p (seq 0 n) -> Permutation (map Z.of_nat p) (zrange n).
Proof. intros H. apply Permutation_map, H. Qed.

(** gathering along a permutation *)
Definition gather {A} (d : A) (p : list nat) (l : list A) : list A := map (fun a => nth a l d) p.

Lemma gather_length {A} (d : A) p l : length (gather d p l) = length p.
Proof. apply map_length. Qed.

Lemma gather_perm {A} (d : A) p l : Permutation p (seq 0 (length l)) -> Permutation (gather d p l) l.
Proof.
  intros H. unfold gather. transitivity (map (fun a => nth a l d) (seq 0 (length l))).
  - apply Permutation_map, H.
  - rewrite map_nth_seq. reflexivity.
Qed.

Lemma gather_seq {A} (d : A) l : gather d (seq 0 (length l)) l = l.
Proof. apply map_nth_seq. Qed.

Lemma gather_valid s idx p :
  (forall a, In a p -> a < length s) -> valid s idx -> valid (gather 0 p s) (gather 0 p idx).
Proof.
  intros Hp Hv. unfold gather. induction p as [|a p IH]; simpl; constructor.
  - apply valid_nth; auto. apply Hp; simpl; auto.
  - apply IH. intros; apply Hp; simpl; auto.
Qed.

Lemma perm_in_lt p n : Permutation p (seq 0 n) -> forall a, In a p -> a < n.
Proof. intros H a Ha. apply (Permutation_in _ H) in Ha. apply in_seq in Ha. lia. Qed.

Lemma perm_NoDup p n : Permutation p (seq 0 n) -> NoDup p.
Proof. intros H. eapply Permutation_NoDup; [apply Permutation_sym, H | apply seq_NoDup]. Qed.

(** the inverse gather used by transpose *)
Lemma scatter_gather (p : list nat) (idx : list nat) :
  Permutation p (seq 0 (length idx)) ->
  map (fun a => nth (pos a p) (gather 0 p idx) 0) (seq 0 (length idx)) = idx.
Proof.
  intros H. transitivity (map (fun i => nth i idx 0) (seq 0 (length idx))); [|apply map_nth_seq]. apply map_ext_in. intros a Ha.
  assert (Hin : In a p) by (eapply Permutation_in; [apply Permutation_sym, H | auto]).
  unfold gather. rewrite nth_map_lt with (da := 0) by (apply pos_lt; auto).
  rewrite nth_pos; auto.
Qed.

Lemma gather_surj (p : list nat) s j :
  Permutation p (seq 0 (length s)) -> valid (gather 0 p s) j ->
  exists idx, valid s idx /\ gather 0 p idx = j.
Proof.
  intros H Hv. pose proof (valid_length _ _ Hv) as Hl. rewrite gather_length in Hl.
  pose proof (perm_NoDup _ _ H) as Hnd.
  assert (Hlp : length p = length s) by (rewrite (Permutation_length H), seq_length; auto).
  exists (map (fun a => nth (pos a p) j 0) (seq 0 (length s))). split.
  - apply nth_Forall2 with (da := 0) (db := 0); [rewrite map_length, seq_length; auto|].
    rewrite map_length, seq_length. intros n Hn.
    rewrite nth_map_lt with (da := 0) by (rewrite seq_length; auto).
    rewrite seq_nth by auto. simpl.
    assert (Hin : In n p).
    { eapply Permutation_in; [apply Permutation_sym, H|]. apply in_seq; lia. }
    assert (E := valid_nth _ _ (pos n p) Hv).
    rewrite gather_length in E. specialize (E (pos_lt _ _ Hin)).
    unfold gather in E. rewrite nth_map_lt with (da := 0) in E by (apply pos_lt; auto).
    rewrite nth_pos in E; auto.
  - unfold gather. apply nth_ext with (d := 0) (d' := 0); [rewrite map_length; lia|].
    intros k Hk. rewrite map_length in Hk. rewrite nth_map_lt with (da := 0) by auto.
    assert (Hin : In (nth k p 0) p) by (apply nth_In; auto).
    pose proof (perm_in_lt _ _ H _ Hin).
    rewrite nth_map_lt with (da := 0) by (rewrite seq_length; auto).
    rewrite seq_nth by auto. simpl. rewrite pos_nth; auto.
Qed.

Section TF.
  Context {T : Type} {N : Num T}.
  Implicit Types t : tensor T.

  (** ** reshape *)

  Lemma reshape_nat t s :
    tf_reshape t (map Z.of_nat s) =
    if Nat.eqb (prod s) (prod (shp t)) then Ok (mkT s (dat t)) else Raise ValueError.
  Proof.
    unfold tf_reshape.
    rewrite (filter_all (fun d => negb (d =? -1)%Z)).
    2:{ intros z Hz. apply in_map_iff in Hz as (k & <- & _).
        destruct (Z.eqb_spec (Z.of_nat k) (-1)); [lia | reflexivity]. }
    rewrite (filter_none (fun d => (d =? -1)%Z)).
    2:{ intros z Hz. apply in_map_iff in Hz as (k & <- & _).
        destruct (Z.eqb_spec (Z.of_nat k) (-1)); [lia | reflexivity]. }
    destruct (existsb (fun d => (d <? 0)%Z) (map Z.of_nat s)) eqn:E.
    { apply existsb_exists in E as (z & Hz & Hlt). apply in_map_iff in Hz as (k & <- & _).
      apply Z.ltb_lt in Hlt. lia. }
    rewrite zprod_of_nat.
    destruct (Nat.eqb_spec (prod s) (prod (shp t))) as [Heq|Hne].
    - rewrite Heq, Z.eqb_refl. rewrite map_map. f_equal. f_equal.
      rewrite map_ext with (g := fun x => x) by (intros; apply Nat2Z.id). apply map_id.
    - destruct (Z.eqb_spec (Z.of_nat (prod s)) (Z.of_nat (prod (shp t)))); [lia | reflexivity].
  Qed.

  Lemma reshape_ok t s : prod s = prod (shp t) ->
    tf_reshape t (map Z.of_nat s) = Ok (mkT s (dat t)).
  Proof. intros H. rewrite reshape_nat, H, Nat.eqb_refl. reflexivity. Qed.

  (** (d, -1) *)
  Lemma reshape_d_m1 t d : 
    tf_reshape t [Z.of_nat d; (-1)%Z] =
    if Nat.eqb d 0 then Raise ValueError
    else if Nat.eqb (prod (shp t) mod d) 0
         then Ok (mkT [d; prod (shp t) / d] (dat t)) else Raise ValueError.
  Proof.
    unfold tf_reshape. simpl filter.
    destruct (Z.eqb_spec (Z.of_nat d) (-1)) as [|Hd]; [lia|]. simpl.
    destruct (Z.ltb_spec (Z.of_nat d) 0) as [|Hd']; [lia|]. simpl.
    rewrite Z.mul_1_r.
    destruct (Nat.eqb_spec d 0) as [->|Hd0]; [reflexivity|].
    destruct (Z.eqb_spec (Z.of_nat d) 0); [lia|].
    rewrite <- Nat2Z.inj_mod, <- Nat2Z.inj_div, !Nat2Z.id.
    destruct (Nat.eqb_spec (prod (shp t) mod d) 0) as [E|Hne].
    - rewrite E. simpl. destruct (Z.eqb_spec (Z.of_nat d) (-1)); [lia|].
      rewrite Nat2Z.id. reflexivity.
    - destruct (Z.eqb_spec (Z.of_nat (prod (shp t) mod d)) 0); [lia | reflexivity].
  Qed.

  Lemma reshape_d_m1_ok t d k : d <> 0 -> prod (shp t) = d * k ->
    tf_reshape t [Z.of_nat d; (-1)%Z] = Ok (mkT [d; k] (dat t)).
  Proof.
    intros Hd Hp. rewrite reshape_d_m1. destruct (Nat.eqb_spec d 0); [contradiction|].
    rewrite Hp. rewrite Nat.mul_comm, Nat.mod_mul, Nat.eqb_refl by auto.
    rewrite Nat.div_mul by auto. reflexivity.
  Qed.

  Lemma reshape_m1 t : tf_reshape t [(-1)%Z] = Ok (mkT [prod (shp t)] (dat t)).
  Proof.
    unfold tf_reshape. simpl. unfold zprod. simpl.
    rewrite Z.mod_1_r, Z.div_1_r, Nat2Z.id. reflexivity.
  Qed.

  Lemma wf_reshape t s : wf t -> prod s = prod (shp t) -> wf (mkT s (dat t)).
  Proof. unfold wf; simpl. congruence. Qed.

  (** ** transpose *)

  Lemma transpose_err t perm :
    ~ Permutation perm (zrange (ndims t)) -> tf_transpose t perm = Raise ValueError.
  Proof.
    intros H. unfold tf_transpose. destruct (perm_ok (ndims t) perm) eqn:E; [|reflexivity].
    apply perm_ok_spec in E. contradiction.
  Qed.

  Lemma transpose_ok t p : Permutation p (seq 0 (ndims t)) ->
    exists r, tf_transpose t (map Z.of_nat p) = Ok r /\ wf r /\
      shp r = gather 0 p (shp t) /\
      forall idx, valid (shp t) idx -> get r (gather 0 p idx) = get t idx.
  Proof.
    intros H. unfold tf_transpose.
    rewrite (proj2 (perm_ok_spec _ _) (perm_of_nat _ _ H)).
    rewrite map_to_of_nat. eexists. split; [reflexivity|].
    split; [apply wf_gen|]. split; [reflexivity|].
    intros idx Hv. rewrite get_gen.
    - f_equal. unfold ndims in *. rewrite <- (valid_length _ _ Hv) in *.
      apply scatter_gather; auto.
    - apply gather_valid; auto. intros a Ha. apply (perm_in_lt _ _ H a Ha).
  Qed.

  (** transposing permutes the buffer *)
  Lemma transpose_ok_perm t p r : wf t -> Permutation p (seq 0 (ndims t)) ->
    tf_transpose t (map Z.of_nat p) = Ok r -> Permutation (dat r) (dat t).
  Proof.
    intros Hwf H Hr. destruct (transpose_ok t p H) as (r' & Hr' & Hw & Hs & Hg).
    rewrite Hr in Hr'. injection Hr' as <-.
    rewrite (dat_gen_get r Hw), (dat_gen_get t Hwf), Hs.
    transitivity (map (get r) (map (gather 0 p) (indices (shp t)))).
    - apply Permutation_map. apply Permutation_sym, NoDup_Permutation_bis.
      + apply NoDup_map_inj; [|apply NoDup_indices].
        intros a b Ha Hb E. apply in_indices in Ha, Hb.
        rewrite <- (scatter_gather p a), <- (scatter_gather p b).
        * rewrite E. f_equal. rewrite (valid_length _ _ Ha), (valid_length _ _ Hb). reflexivity.
        * rewrite (valid_length _ _ Hb). auto.
        * rewrite (valid_length _ _ Ha). auto.
      + rewrite map_length, !length_indices.
        rewrite (prod_perm _ _ (gather_perm 0 p (shp t) H)). lia.
      + intros x Hx. apply in_map_iff in Hx as (i & <- & Hi). apply in_indices in Hi.
        apply in_indices. apply gather_valid; auto. intros a Ha. apply (perm_in_lt _ _ H a Ha).
    - rewrite map_map. erewrite map_ext_in; [reflexivity|].
      intros i Hi. apply in_indices in Hi. apply Hg; auto.
  Qed.

  (** ** matmul *)

  Lemma matmul_ok (ta tb : bool) (A B : tensor T) m k n :
    shp A = (if ta then [k; m] else [m; k]) -> shp B = (if tb then [n; k] else [k; n]) ->
    tf_matmul ta tb A B =
    Ok (mgen m n (fun i j => sumn k (fun l =>
          nmul (if ta then mget A l i else mget A i l) (if tb then mget B j l else mget B l j)))).
  Proof.
    intros HA HB. unfold tf_matmul. rewrite HA, HB.
    destruct ta, tb; rewrite Nat.eqb_refl; reflexivity.
  Qed.

  (** ** elementwise *)

  Lemma bshape_rev_same s : bshape_rev s s = Some s.
  Proof. induction s as [|d s IH]; simpl; [reflexivity|]. rewrite IH, Nat.eqb_refl. reflexivity. Qed.

  Lemma bshape_same s : bshape s s = Some s.
  Proof. unfold bshape. rewrite bshape_rev_same. simpl. rewrite rev_involutive. reflexivity. Qed.

  Lemma bidx_same s idx : valid s idx -> bidx s idx = idx.
  Proof.
    intros H. unfold bidx. rewrite (valid_length _ _ H), Nat.sub_diag. simpl.
    induction H as [|i d idx s Hlt Hr IH]; simpl; [reflexivity|].
    rewrite IH. destruct (Nat.eqb_spec d 1); f_equal; lia.
  Qed.

  Lemma bin_same op (A B : tensor T) : shp A = shp B ->
    tf_bin op A B = Ok (gen (shp A) (fun idx => op (get A idx) (get B idx))).
  Proof.
    intros H. unfold tf_bin. rewrite <- H, bshape_same. f_equal. apply gen_ext.
    intros idx Hv. rewrite bidx_same by auto. reflexivity.
  Qed.

  Lemma get_map f (t : tensor T) idx : wf t -> valid (shp t) idx ->
    get (tf_map f t) idx = f (get t idx).
  Proof.
    intros Hw Hv. unfold get, tf_map; simpl.
    apply nth_map_lt. rewrite Hw. apply ravel_lt; auto.
  Qed.

  Lemma wf_map f (t : tensor T) : wf t -> wf (tf_map f t).
  Proof. unfold wf, tf_map; simpl. rewrite map_length. auto. Qed.

  Lemma tf_map_gen f s (g : list nat -> T) : tf_map f (gen s g) = gen s (fun i => f (g i)).
  Proof. unfold tf_map, gen; simpl. rewrite map_map. reflexivity. Qed.
End TF.
