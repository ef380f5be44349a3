(** mul, inner, hadamard, _skip (C08-C10, C14, C15, C20). *)

From Coq Require Import ZArith Reals List Bool Arith Lia Lra Permutation.
From Verif Require Import Num Py Tensor TF TensorFacts TFFacts Sums Ops Spec LayoutFacts SpecFacts.
Import ListNotations.
Close Scope R_scope.

Section Mul.
  Context {T : Type} {N : Num T}.
  Implicit Types A B : tensor T.

  Lemma free_dims_ok A a : free_dims A (AList (map Z.of_nat a)) = pick (free_axes a (ndims A)) (shp A).
  Proof.
    unfold free_dims. rewrite (enumerate_eq _ 0). rewrite filter_map, map_map. simpl.
    unfold pick, free_axes, ndims. rewrite (filter_ext _ (fun k => negb (existsb (Nat.eqb k) a))).
    - apply map_ext. reflexivity.
    - intros k. simpl. rewrite zmem_of_nat. reflexivity.
  Qed.

  Lemma mul_ok (RL : RingLaws T) A B a b :
    NoDup a -> NoDup b -> (forall x, In x a -> x < ndims A) -> (forall x, In x b -> x < ndims B) ->
    pick a (shp A) = pick b (shp B) ->
    exists r, mul A B (AList (map Z.of_nat a)) (AList (map Z.of_nat b)) = Ok r /\ wf r /\
      shp r = pick (free_axes a (ndims A)) (shp A) ++ pick (free_axes b (ndims B)) (shp B) /\
      forall i j, valid (pick (free_axes a (ndims A)) (shp A)) i ->
                  valid (pick (free_axes b (ndims B)) (shp B)) j ->
        get r (i ++ j) = msum (pick a (shp A)) (fun k =>
          nmul (get A (merge (ndims A) a k i)) (get B (merge (ndims B) b k j))).
  Proof.
    intros Ha Hb Hra Hrb Hdim. unfold mul. simpl ax_list. rewrite !t2mat_m1.
    destruct (t2mat_list A a (remaining a (ndims A))) as (MA & HMA & [[HwA HsA] HgA]).
    { apply remaining_perm; auto. }
    destruct (t2mat_list B b (remaining b (ndims B))) as (MB & HMB & [[HwB HsB] HgB]).
    { apply remaining_perm; auto. }
    rewrite HMA, HMB. unfold bind at 1 2.
    change (remaining a (ndims A)) with (free_axes a (ndims A)) in *.
    change (remaining b (ndims B)) with (free_axes b (ndims B)) in *.
    change (gather 0) with pick in *.
    set (fa := free_axes a (ndims A)) in *. set (fb := free_axes b (ndims B)) in *.
    rewrite (matmul_ok true false MA MB (prod (pick fa (shp A))) (prod (pick a (shp A))) (prod (pick fb (shp B)))).
    2: exact HsA. 2: rewrite Hdim; exact HsB.
    unfold bind. rewrite !free_dims_ok. fold fa fb. rewrite reshape_ok.
    2:{ rewrite prod_app. simpl. lia. }
    eexists; split; [reflexivity|]. split.
    { apply wf_reshape; [apply wf_gen|]. rewrite prod_app. simpl. lia. }
    split; [reflexivity|]. intros i j Hi Hj.
    assert (Hri : ravel (pick fa (shp A)) i < prod (pick fa (shp A))) by (apply ravel_lt; auto).
    assert (Hrj : ravel (pick fb (shp B)) j < prod (pick fb (shp B))) by (apply ravel_lt; auto).
    transitivity (mget (mgen (prod (pick fa (shp A))) (prod (pick fb (shp B)))
       (fun i0 j0 => sumn (prod (pick a (shp A))) (fun l => nmul (mget MA l i0) (mget MB l j0))))
       (ravel (pick fa (shp A)) i) (ravel (pick fb (shp B)) j)).
    { unfold mget at 1. apply get_reshape. rewrite ravel_app by (apply valid_length; auto).
      simpl. lia. }
    rewrite mget_mgen by auto. rewrite sumn_isum. rewrite (isum_msum RL). apply msum_ext.
    intros k Hk. unfold fa, fb in *. clear fa fb. f_equal.
    - rewrite <- HgA.
      + change (gather 0) with pick. rewrite merge_ax, merge_free; auto.
        * rewrite (valid_length _ _ Hi). unfold pick. rewrite map_length. reflexivity.
        * rewrite (valid_length _ _ Hk). unfold pick. rewrite map_length. reflexivity.
      + apply merge_valid; auto.
    - rewrite Hdim in *. rewrite <- HgB.
      + change (gather 0) with pick. rewrite merge_ax, merge_free; auto.
        * rewrite (valid_length _ _ Hj). unfold pick. rewrite map_length. reflexivity.
        * rewrite (valid_length _ _ Hk). unfold pick. rewrite map_length. reflexivity.
      + apply merge_valid; auto.
  Qed.

  (** the only size check is on the products of the contracted sizes *)
  Lemma mul_err A B a b :
    NoDup a -> NoDup b -> (forall x, In x a -> x < ndims A) -> (forall x, In x b -> x < ndims B) ->
    nprod (pick a (shp A)) <> nprod (pick b (shp B)) ->
    mul A B (AList (map Z.of_nat a)) (AList (map Z.of_nat b)) = Raise ValueError.
  Proof.
    intros Ha Hb Hra Hrb Hdim. unfold mul. simpl ax_list. rewrite !t2mat_m1.
    destruct (t2mat_list A a (remaining a (ndims A))) as (MA & HMA & [[HwA HsA] HgA]).
    { apply remaining_perm; auto. }
    destruct (t2mat_list B b (remaining b (ndims B))) as (MB & HMB & [[HwB HsB] HgB]).
    { apply remaining_perm; auto. }
    rewrite HMA, HMB. unfold bind at 1 2. unfold tf_matmul. rewrite HsA, HsB.
    destruct (Nat.eqb_spec (prod (gather 0 a (shp A))) (prod (gather 0 b (shp B)))); [contradiction|].
    reflexivity.
  Qed.

  Lemma mul_tuple A B a b : (forall x, In x a -> x < ndims A) ->
    mul A B (ATuple (map Z.of_nat a)) b = Raise TypeError.
  Proof.
    intros Ha. unfold mul, t2mat, t2mat_full. simpl ax_list. cbv iota beta.
    rewrite dims_ok by auto. reflexivity.
  Qed.

  Lemma mul_tuple_r A B a b : NoDup a -> (forall x, In x a -> x < ndims A) -> (forall x, In x b -> x < ndims B) ->
    mul A B (AList (map Z.of_nat a)) (ATuple (map Z.of_nat b)) = Raise TypeError.
  Proof.
    intros Hn Ha Hb. unfold mul. simpl ax_list. rewrite t2mat_m1.
    destruct (t2mat_list A a (remaining a (ndims A))) as (MA & HMA & [[HwA HsA] HgA]).
    { apply remaining_perm; auto. }
    rewrite HMA. unfold bind at 1. unfold t2mat, t2mat_full. rewrite dims_ok by auto. reflexivity.
  Qed.

  (** matrices *)
  Lemma mul_1_0 (RL : RingLaws T) A B m k n : is_mat A m k -> is_mat B k n ->
    exists C, mul A B (AInt 1) (AInt 0) = Ok C /\ is_mat C m n /\
      forall i j, i < m -> j < n -> mget C i j = bigsum k (fun l => nmul (mget A i l) (mget B l j)).
  Proof.
    intros [HwA HsA] [HwB HsB].
    change (mul A B (AInt 1) (AInt 0)) with (mul A B (AList (map Z.of_nat [1])) (AList (map Z.of_nat [0]))).
    destruct (mul_ok RL A B [1] [0]) as (C & HC & HwC & HsC & HgC).
    { repeat constructor; simpl; tauto. } { repeat constructor; simpl; tauto. }
    { unfold ndims; rewrite HsA; simpl. intuition lia. } { unfold ndims; rewrite HsB; simpl. intuition lia. }
    { rewrite HsA, HsB. reflexivity. }
    unfold ndims in *. rewrite HsA, HsB in *. simpl in HsC.
    exists C. split; [exact HC|]. split; [split; auto|]. intros i j Hi Hj.
    specialize (HgC [i] [j]). simpl in HgC. unfold mget at 1.
    rewrite HgC; [reflexivity | | ]; repeat constructor; auto.
  Qed.

  Lemma mul_0_1 (RL : RingLaws T) A B m k n : is_mat A k m -> is_mat B n k ->
    exists C, mul A B (AInt 0) (AInt 1) = Ok C /\ is_mat C m n /\
      forall i j, i < m -> j < n -> mget C i j = bigsum k (fun l => nmul (mget B j l) (mget A l i)).
  Proof.
    intros [HwA HsA] [HwB HsB].
    change (mul A B (AInt 0) (AInt 1)) with (mul A B (AList (map Z.of_nat [0])) (AList (map Z.of_nat [1]))).
    destruct (mul_ok RL A B [0] [1]) as (C & HC & HwC & HsC & HgC).
    { repeat constructor; simpl; tauto. } { repeat constructor; simpl; tauto. }
    { unfold ndims; rewrite HsA; simpl. intuition lia. } { unfold ndims; rewrite HsB; simpl. intuition lia. }
    { rewrite HsA, HsB. reflexivity. }
    unfold ndims in *. rewrite HsA, HsB in *. simpl in HsC.
    exists C. split; [exact HC|]. split; [split; auto|]. intros i j Hi Hj.
    specialize (HgC [i] [j]). simpl in HgC. unfold mget at 1.
    rewrite HgC; [|repeat constructor; auto|repeat constructor; auto].
    apply bigsum_ext. intros l _. rewrite (Ring_theory.Rmul_comm RL). reflexivity.
  Qed.

  (** ** inner *)

  Lemma shape_eqb_spec a b : shape_eqb a b = true <-> a = b.
  Proof.
    unfold shape_eqb. rewrite andb_true_iff, Nat.eqb_eq. revert b.
    induction a as [|x a IH]; intros [|y b]; simpl; split; intros H; try (destruct H; discriminate); try discriminate; auto.
    - destruct H as [Hl H]. apply andb_true_iff in H as [H1 H2]. apply Nat.eqb_eq in H1. f_equal; auto.
      apply IH. auto.
    - injection H as -> ->. rewrite Nat.eqb_refl. split; auto. simpl. apply IH. auto.
  Qed.

  Lemma isum_dat A (f : T -> T) : wf A -> lsum (map f (dat A)) = isum (shp A) (fun i => f (get A i)).
  Proof. intros H. rewrite (dat_gen_get A H) at 1. rewrite map_map. reflexivity. Qed.

  Lemma get_vec (s : list nat) (d : list T) k : get (mkT [prod s] d) [k] = nth k d n0.
  Proof. unfold get; simpl. rewrite Nat.mul_1_r, Nat.add_0_r. reflexivity. Qed.

  Lemma inner_ok A B : wf A -> wf B -> shp A = shp B ->
    inner A B = Ok (isum (shp A) (fun i => nmul (get A i) (get B i))).
  Proof.
    intros HA HB Hs. unfold inner. rewrite (proj2 (shape_eqb_spec _ _) Hs). simpl negb. cbv iota.
    rewrite !vectorize_ok. unfold bind. rewrite bin_same by (simpl; rewrite Hs; auto).
    f_equal. unfold tf_sum, gen. cbn [dat shp]. unfold isum. simpl indices.
    rewrite flat_map_concat_map. cbn [map]. rewrite concat_map, !map_map. cbn [map].
    replace (concat (map (fun x => [nmul (get (mkT [prod (shp A)] (dat A)) [x]) (get (mkT [prod (shp B)] (dat B)) [x])]) (seq 0 (prod (shp A)))))
      with (map (fun k => nmul (nth k (dat A) n0) (nth k (dat B) n0)) (seq 0 (prod (shp A)))).
    2:{ induction (seq 0 (prod (shp A))) as [|x l IH]; simpl; [reflexivity|].
        rewrite !get_vec, IH. reflexivity. }
    rewrite <- map_ravel_indices, map_map. f_equal. apply map_ext. intros i. unfold get. rewrite Hs. reflexivity.
  Qed.

  Lemma inner_err A B : shp A <> shp B -> inner A B = Raise ValueError.
  Proof.
    intros H. unfold inner. destruct (shape_eqb (shp A) (shp B)) eqn:E; [|reflexivity].
    apply shape_eqb_spec in E. contradiction.
  Qed.

  (** ** hadamard *)

  Lemma reduce_had (l : list (tensor T)) : forall A s, wf A -> shp A = s ->
    (forall B, In B l -> wf B /\ shp B = s) ->
    reduceM (tf_bin nmul) A l = Ok (gen s (fun idx => fold_left (fun acc B => nmul acc (get B idx)) l (get A idx))).
  Proof.
    induction l as [|B l IH]; intros A s HA Hs Hall; simpl.
    - f_equal. rewrite <- Hs. symmetry. apply gen_get; auto.
    - destruct (Hall B) as [HwB HsB]; [simpl; auto|].
      rewrite bin_same by congruence. simpl. rewrite IH with (s := s).
      + f_equal. apply gen_ext. intros idx Hv. rewrite Hs. rewrite get_gen by auto. reflexivity.
      + apply wf_gen.
      + exact Hs.
      + intros C HC. apply Hall. simpl; auto.
  Qed.

  Lemma fold_left_mul (RL : RingLaws T) (l : list (tensor T)) idx : forall x,
    fold_left (fun acc B => nmul acc (get B idx)) l x = nmul x (lprod (map (fun B => get B idx) l)).
  Proof.
    induction l as [|B l IH]; intros x; simpl.
    - unfold lprod; simpl. rewrite (Ring_theory.Rmul_comm RL), (Ring_theory.Rmul_1_l RL). reflexivity.
    - rewrite IH. unfold lprod; simpl. rewrite (Ring_theory.Rmul_assoc RL). reflexivity.
  Qed.

  Lemma hadamard_ok (RL : RingLaws T) (l : list (tensor T)) s : l <> [] ->
    (forall B, In B l -> wf B /\ shp B = s) ->
    hadamard l SkNone = Ok (gen s (fun idx => lprod (map (fun B => get B idx) l))).
  Proof.
    intros Hne Hall. unfold hadamard. simpl skip_. destruct l as [|A l]; [congruence|].
    simpl py_reduce. destruct (Hall A) as [Hw Hs]; [simpl; auto|].
    rewrite reduce_had with (s := s); auto.
    - f_equal. apply gen_ext. intros idx Hv. rewrite (fold_left_mul RL). reflexivity.
    - intros B HB. apply Hall. simpl; auto.
  Qed.

  Lemma hadamard_nil skip : skip_ (@nil (tensor T)) skip = [] /\ hadamard [] skip = Raise TypeError.
  Proof. destruct skip; auto. Qed.
End Mul.

(** ** _skip *)

(** the elements of l whose position (counted from k) is not in the set *)
Section Skip.
  Context {A : Type}.

  Fixpoint keep_from (k : nat) (drop : Z -> bool) (l : list A) : list A :=
    match l with
    | [] => []
    | x :: r => if drop (Z.of_nat k) then keep_from (S k) drop r else x :: keep_from (S k) drop r
    end.

  Lemma skip_keep (l : list A) s : skip_ l s = keep_from 0 (in_skip s) l.
  Proof.
    assert (G : forall k, map snd (filter (fun p => negb (in_skip s (Z.of_nat (fst p)))) (combine (seq k (length l)) l))
              = keep_from k (in_skip s) l).
    { induction l as [|x l IH]; intros k; simpl; [reflexivity|].
      destruct (in_skip s (Z.of_nat k)); simpl; rewrite IH; reflexivity. }
    destruct s; simpl; try apply G.
    assert (G' : forall k, keep_from k (fun _ => false) l = l).
    { clear G. induction l as [|x l IH]; intros k; simpl; [reflexivity|]. rewrite IH. reflexivity. }
    symmetry. apply G'.
  Qed.
End Skip.
