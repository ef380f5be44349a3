(** The property theorems of PropsOps.v in the form stated there. *)

From Coq Require Import ZArith List Bool Arith Lia Permutation Reals Lra.
From Verif Require Import Num Py Tensor TF TensorFacts TFFacts Sums Ops Spec SpecR LayoutFacts SpecFacts EinsumFacts MulFacts KronFacts KronAlg TtmFacts SkipFacts RSums NormFacts XcbFacts.
Import ListNotations.

Section L.
  Context {T : Type} {N : Num T}.

  Lemma c09 : RingLaws T -> forall (A B : tensor T) m k n, is_mat A m k -> is_mat B k n ->
    exists C, mul A B (AInt 1) (AInt 0) = Ok C /\ matprod A B C.
  Proof.
    intros RL A B m k n HA HB. destruct (mul_1_0 RL A B m k n HA HB) as (C & E & HC & G).
    exists C. split; auto. exists m, k, n. auto.
  Qed.

  Lemma c09_01 : RingLaws T -> forall (A B : tensor T) m k n, is_mat A k m -> is_mat B n k ->
    exists C P, mul A B (AInt 0) (AInt 1) = Ok C /\ matprod B A P /\ transposed P C.
  Proof.
    intros RL A B m k n HA HB. destruct (mul_0_1 RL A B m k n HA HB) as (C & E & HC & G).
    exists C, (mgen n m (fun i j => bigsum k (fun l => nmul (mget B i l) (mget A l j)))).
    split; [exact E|]. split.
    - exists n, k, m. split; [auto|]. split; [auto|]. split; [apply is_mat_mgen|].
      intros i j Hi Hj. rewrite mget_mgen by auto. reflexivity.
    - exists n, m. split; [apply is_mat_mgen|]. split; [auto|].
      intros i j Hi Hj. rewrite mget_mgen by auto. apply G; auto.
  Qed.

  Lemma c10 (A B : tensor T) (a b : list nat) :
    NoDup a -> (forall x, In x a -> x < ndims A) -> (forall x, In x b -> x < ndims B) ->
    mul A B (ATuple (map Z.of_nat a)) (AList (map Z.of_nat b)) = Raise TypeError /\
    mul A B (ATuple (map Z.of_nat a)) (ATuple (map Z.of_nat b)) = Raise TypeError /\
    mul A B (AList (map Z.of_nat a)) (ATuple (map Z.of_nat b)) = Raise TypeError.
  Proof.
    intros Hn Ha Hb. repeat split; try (apply mul_tuple; auto). apply mul_tuple_r; auto.
  Qed.

  Lemma c14 : RingLaws T -> forall A B : tensor T, wf A -> wf B -> shp A = shp B ->
    inner A B = Ok (msum (shp A) (fun i => nmul (get A i) (get B i))).
  Proof. intros RL A B HA HB E. rewrite inner_ok by auto. rewrite (isum_msum RL). reflexivity. Qed.

  Section Ring.
    Context (RL : RingLaws T).
    Let RLu : ring_theory n0 n1 nadd nmul nsub nopp (@eq T) := RL.
    Add Ring TRing : RLu.

    Lemma c14_sym' (A B : tensor T) : wf A -> wf B -> shp A = shp B -> inner A B = inner B A.
    Proof.
      intros HA HB E. rewrite !inner_ok by auto. rewrite E. f_equal.
      apply isum_ext. intros i _. ring.
    Qed.

    Lemma msum_lin s (f g : list nat -> T) x y :
      msum s (fun i => nadd (nmul x (f i)) (nmul y (g i))) = nadd (nmul x (msum s f)) (nmul y (msum s g)).
    Proof.
      revert f g. induction s as [|d s IH]; intros f g; [reflexivity|]. cbn [msum].
      induction d as [|d IHd]; cbn [bigsum]; [ring|]. rewrite IHd, IH. ring.
    Qed.

    Lemma c14_bil' (A A' B C : tensor T) (x y u v : T) :
      wf A -> wf A' -> wf B -> wf C -> shp A' = shp A -> shp B = shp A -> shp C = shp A ->
      (forall i, valid (shp A) i -> get C i = nadd (nmul x (get A i)) (nmul y (get A' i))) ->
      inner A B = Ok u -> inner A' B = Ok v ->
      inner C B = Ok (nadd (nmul x u) (nmul y v)).
    Proof.
      intros HA HA' HB HC E1 E2 E3 G. rewrite !inner_ok by congruence.
      rewrite E1, E3. intros Eu Ev. injection Eu as <-. injection Ev as <-. f_equal.
      rewrite !(isum_msum RL), <- msum_lin, <- !(isum_msum RL).
      apply isum_ext. intros i Hi. rewrite G by auto. ring.
    Qed.

    Lemma c15' (l : list (tensor T)) (s : list nat) : l <> [] ->
      (forall M, In M l -> wf M /\ shp M = s) ->
      exists H, hadamard l SkNone = Ok H /\ wf H /\ shp H = s /\
        forall i, valid s i -> get H i = bigprod (length l) (fun k => get (mat_at l k) i).
    Proof.
      intros Hn Hm. rewrite (hadamard_ok RL l s Hn Hm). eexists. split; [reflexivity|].
      split; [apply wf_gen|]. split; [reflexivity|]. intros i Hi. rewrite get_gen by auto.
      rewrite (lprod_bigprod RL), map_length. apply bigprod_ext. intros k Hk.
      unfold mat_at. rewrite nth_indep with (d' := get (mkT [] []) i) by (rewrite map_length; auto).
      apply (map_nth (fun B : tensor T => get B i)).
    Qed.

    Lemma c15_perm' (l l' : list (tensor T)) (s : list nat) :
      (forall M, In M l -> wf M /\ shp M = s) -> Permutation l l' ->
      hadamard l SkNone = hadamard l' SkNone.
    Proof.
      intros Hm P. destruct l as [|a l].
      { apply Permutation_nil in P. subst. reflexivity. }
      rewrite (hadamard_ok RL (a :: l) s); [|discriminate|auto].
      rewrite (hadamard_ok RL l' s).
      - f_equal. apply gen_ext. intros i _. apply (lprod_perm RL), Permutation_map, P.
      - intros ->. apply Permutation_sym, Permutation_nil in P. discriminate.
      - intros M HM. apply Hm. eapply Permutation_in; [apply Permutation_sym, P|auto].
    Qed.
  End Ring.
  Definition c14_sym : RingLaws T -> _ := fun RL => c14_sym' RL.
  Definition c14_bil : RingLaws T -> _ := fun RL => c14_bil' RL.
  Definition c15 : RingLaws T -> _ := fun RL => c15' RL.
  Definition c15_perm : RingLaws T -> _ := fun RL => c15_perm' RL.

  Lemma c15_nil (l : list (tensor T)) (s : skiparg) : without (skipset s) l = [] -> hadamard l s = Raise TypeError.
  Proof. intros H. unfold hadamard. rewrite skip_without, H. reflexivity. Qed.

  Lemma c16_lim (l : list (tensor T)) : l = [] \/ 13 < length l -> kron l SkNone false = Raise ValueError.
  Proof. intros [->|H]; [reflexivity|apply kron_err_many; auto]. Qed.
  Lemma c18_lim (l : list (tensor T)) : l = [] \/ 25 < length l -> khatri l SkNone false = Raise ValueError.
  Proof. intros [->|H]; [reflexivity|apply khatri_err_many; auto]. Qed.

  Lemma kron_inv (RL : RingLaws T) (l : list (tensor T)) K : kron l SkNone false = Ok K ->
    (forall M, In M l -> matrix M) -> l <> [] /\ length l <= 13 /\ is_kron l K.
  Proof.
    intros H Hm. assert (l <> []) by (intros ->; discriminate).
    assert (length l <= 13).
    { destruct (le_gt_dec (length l) 13); auto. rewrite kron_err_many in H by auto. discriminate. }
    repeat split; auto; destruct (kron_ok RL l) as (K' & E & HK); auto; rewrite H in E; injection E as <-; apply HK; auto.
  Qed.

  Lemma c17_mixed : RingLaws T -> forall (As Bs Cs : list (tensor T)) (KA KB KC : tensor T),
    length As = length Bs -> length As = length Cs ->
    (forall k, k < length As -> matprod (mat_at As k) (mat_at Bs k) (mat_at Cs k)) ->
    kron As SkNone false = Ok KA -> kron Bs SkNone false = Ok KB -> kron Cs SkNone false = Ok KC ->
    matprod KA KB KC.
  Proof.
    intros RL As Bs Cs KA KB KC L1 L2 H EA EB EC.
    assert (G : forall l : list (tensor T), length As = length l -> (forall k, k < length As -> matrix (mat_at l k)) -> forall M, In M l -> matrix M).
    { intros l L Hl M HM. apply (In_nth _ _ (mkT [] [])) in HM as (k & Hk & <-). apply Hl. lia. }
    apply (kron_inv RL) in EA as (_ & _ & EA); [apply (kron_inv RL) in EB as (_ & _ & EB); [apply (kron_inv RL) in EC as (_ & _ & EC)|]|].
    - exact (kron_mixed RL As Bs Cs KA KB KC L1 L2 H EA EB EC).
    - apply G; auto. intros k Hk. destruct (matprod_shapes _ _ _ (H k Hk)) as (? & ? & ? & _). auto.
    - apply G; auto. intros k Hk. destruct (matprod_shapes _ _ _ (H k Hk)) as (? & ? & ? & _). auto.
    - apply G; auto. intros k Hk. destruct (matprod_shapes _ _ _ (H k Hk)) as (? & ? & ? & _). auto.
  Qed.

  Lemma c17_id : RingLaws T -> forall (l : list (tensor T)) (K : tensor T),
    (forall A, In A l -> is_identity (nrows A) A) -> kron l SkNone false = Ok K ->
    is_identity (nprod (map nrows l)) K.
  Proof.
    intros RL l K H E. apply (kron_inv RL) in E as (_ & _ & E).
    - apply (kron_identity RL); auto.
    - intros M HM. destruct (H M HM) as [HA _]. destruct (matrix_is_mat _ _ _ HA); auto.
  Qed.

  Lemma c17_assoc : RingLaws T -> forall (l1 l2 : list (tensor T)) (K1 K2 : tensor T),
    (forall M, In M (l1 ++ l2) -> matrix M) -> length (l1 ++ l2) <= 13 ->
    kron l1 SkNone false = Ok K1 -> kron l2 SkNone false = Ok K2 ->
    kron (l1 ++ l2) SkNone false = kron [K1; K2] SkNone false.
  Proof.
    intros RL l1 l2 K1 K2 Hm HL E1 E2.
    apply (kron_inv RL) in E1 as (N1 & _ & E1); [|intros; apply Hm, in_app_iff; auto].
    apply (kron_inv RL) in E2 as (N2 & _ & E2); [|intros; apply Hm, in_app_iff; auto].
    destruct (kron_ok RL (l1 ++ l2)) as (K & E & HK); auto.
    { intros E. apply app_eq_nil in E as [? _]. auto. }
    destruct (kron_ok RL [K1; K2]) as (K' & E' & HK'); [discriminate|simpl; lia| |].
    { intros M [<-|[<-|[]]]; [destruct E1 as [E1 _]; destruct (matrix_is_mat _ _ _ E1); auto|destruct E2 as [E2 _]; destruct (matrix_is_mat _ _ _ E2); auto]. }
    rewrite E, E'. f_equal. eapply is_kron_unique; [|exact HK']. eapply kron_assoc; eauto.
  Qed.

  Lemma c18_cols (l : list (tensor T)) (A B : tensor T) :
    (forall M, In M l -> matrix M) -> In A l -> In B l -> ncols A <> ncols B ->
    khatri l SkNone false = Raise ValueError.
  Proof.
    intros Hm HA HB Hne. unfold khatri. cbn [skip_].
    destruct (tf_einsum _ _ l) as [r|e] eqn:E.
    - exfalso. apply Hne. apply einsum_ok_inv in E as (_ & _ & _ & _ & _ & _ & _ & _ & E).
      assert (G : forall M, In M l -> In (122%Z, ncols M) (einsum_dims (map (fun i => [i; 122%Z]) (letters (length l))) l)).
      { intros M HM. pose proof (Hm M HM) as [_ HsM]. apply (In_nth _ _ (mkT [] [])) in HM as (k & Hk & EM).
        unfold einsum_dims. apply in_concat. exists (combine [nth k (letters (length l)) 0%Z; 122%Z] (shp M)). split.
        - apply in_map_iff. exists ([nth k (letters (length l)) 0%Z; 122%Z], M). split; [reflexivity|].
          rewrite (combine_nth_map _ l [0%Z; 122%Z] (mkT [] [])).
          + apply in_map_iff. exists k. split.
            * rewrite (map_nth (fun i => [i; 122%Z])). congruence.
            * apply in_seq. rewrite map_length. unfold letters. rewrite length_map_seq. lia.
          + rewrite map_length. unfold letters. apply length_map_seq.
        - rewrite HsM. cbn [combine In]. auto. }
      eapply E; apply G; auto.
    - apply einsum_res in E. subst. reflexivity.
  Qed.

  Lemma c19 : RingLaws T -> forall (l : list (tensor T)) (R : nat) (K : tensor T),
    l <> [] -> (forall M, In M l -> matrix M /\ ncols M = R) ->
    khatri l SkNone false = Ok K ->
    exists Gs H, mapM (fun M => tf_matmul true false M M) l = Ok Gs /\
      hadamard Gs SkNone = Ok H /\ tf_matmul true false K K = Ok H.
  Proof.
    intros RL l R K Hn Hm E. apply (khatri_gram RL l R K Hn Hm).
    destruct (khatri_ok RL l R) as (K' & E' & HK); auto.
    { destruct (le_gt_dec (length l) 25); auto. rewrite khatri_err_many in E by auto. discriminate. }
    rewrite E in E'. injection E' as <-. exact HK.
  Qed.

  Lemma c20 (l : list (tensor T)) (s : skiparg) (rv : bool) (svals : tensor T -> list T) (X : tensor T) (tr : bool) :
    hadamard l s = hadamard (without (skipset s) l) SkNone /\
    kron l s rv = kron (without (skipset s) l) SkNone rv /\
    khatri l s rv = khatri (without (skipset s) l) SkNone rv /\
    max_single_value_mul svals l s = max_single_value_mul svals (without (skipset s) l) SkNone /\
    (s <> SkNone -> length l <= ndims X ->
     ttm X l None tr s =
     ttm X (without (skipset s) l) (Some (map Z.of_nat (kept (skipset s) (length l)))) tr SkNone).
  Proof.
    unfold hadamard, kron, khatri, max_single_value_mul. rewrite !skip_without. cbn [skipset].
    assert (E : forall A (l : list A), without [] l = l) by (intros; apply without_none; intros z []).
    rewrite !E. repeat split. intros Hs Hl. rewrite ttm_skip by auto. rewrite Nat.min_r by auto. reflexivity.
  Qed.
End L.

Lemma c20_without (A : Type) (drop : list Z) (l : list A) (d : A) :
  without drop l = map (fun k => nth k l d) (kept drop (length l)) /\
  (forall k, In k (kept drop (length l)) <-> k < length l /\ ~ In (Z.of_nat k) drop) /\
  ((forall z, In z drop -> (z < 0 \/ Z.of_nat (length l) <= z)%Z) -> without drop l = l).
Proof.
  split; [apply without_nth|]. split; [|apply without_none].
  intros k. unfold kept. rewrite filter_In, in_seq, negb_true_iff. split.
  - intros [H1 H2]. split; [lia|]. intros Hin. apply not_true_iff_false in H2. apply H2.
    apply existsb_exists. exists (Z.of_nat k). split; auto. apply Z.eqb_refl.
  - intros [H1 H2]. split; [lia|]. apply not_true_is_false. intros E.
    apply existsb_exists in E as (z & Hz & E). apply Z.eqb_eq in E. subst. auto.
Qed.

Lemma c08_merge n ax k i : NoDup ax -> (forall a, In a ax -> a < n) ->
  length k = length ax -> length i = length (free_axes ax n) ->
  length (merge n ax k i) = n /\ pick ax (merge n ax k i) = k /\
  pick (free_axes ax n) (merge n ax k i) = i.
Proof.
  intros. repeat split; [apply merge_length|apply merge_ax; auto|apply merge_free; auto].
Qed.

Lemma c69_refuted : exists (A B : tensor Z) r,
  wf A /\ wf B /\ pick [0; 1] (shp A) <> pick [0; 1] (shp B) /\
  mul A B (AList [0%Z; 1%Z]) (AList [0%Z; 1%Z]) = Ok r.
Proof.
  exists (mkT [2; 3] [1; 2; 3; 4; 5; 6]%Z), (mkT [3; 2] [1; 2; 3; 4; 5; 6]%Z). eexists.
  split; [reflexivity|]. split; [reflexivity|]. split; [discriminate|]. vm_compute. reflexivity.
Qed.

Lemma c09_refuted : exists (A B P : tensor Z),
  matprod B A P /\ mul A B (AInt 0) (AInt 1) <> Ok P.
Proof.
  exists (mkT [2; 2] [1; 2; 3; 4]%Z), (mkT [2; 2] [0; 1; 1; 0]%Z), (mkT [2; 2] [3; 4; 1; 2]%Z). split.
  - exists 2, 2, 2. repeat split.
    intros [|[|i]] [|[|j]] Hi Hj; try lia; reflexivity.
  - vm_compute. 
    discriminate.
Qed.

Lemma c10_refuted : exists (A B : tensor Z) (a b : list Z) r,
  mul A B (AList a) (AList b) = Ok r /\ mul A B (ATuple a) (ATuple b) <> Ok r.
Proof.
  exists (mkT [2; 2] [1; 2; 3; 4]%Z), (mkT [2; 2] [0; 1; 1; 1]%Z), [1%Z], [0%Z]. eexists.
  split; [vm_compute; reflexivity|]. vm_compute. discriminate.
Qed.

Lemma ex_c17 :
  let exM : tensor Z := mkT [2; 2] [1; 2; 3; 4]%Z in let exN : tensor Z := mkT [1; 2] [5; -1]%Z in
  kron [exM; exN; exM] SkNone false =
  (do K <- kron [exM; exN] SkNone false; kron [K; exM] SkNone false)
  /\ is_identity 2 (mkT [2; 2] [1; 0; 0; 1]%Z)
  /\ matprod exN exM (mkT [1; 2] [2; 6]%Z).
Proof.
  split; [vm_compute; reflexivity|]. split.
  - split; [split; reflexivity|]. intros [|[|i]] [|[|j]] Hi Hj; try lia; reflexivity.
  - exists 1, 2, 2. repeat split. intros [|i] [|[|j]] Hi Hj; try lia; reflexivity.
Qed.

Lemma c22 : forall (T : Type) (N : Num T), RingLaws T ->
  (forall x : T, neqb x n0 = true -> x = n0) ->
  forall (X C B : tensor T) I J K R, wf X -> shp X = [I; J; K] -> I <> 0 -> R <> 0 ->
  is_mat C K R -> is_mat B J R ->
  exists U H Y, unfold X 0 = Ok U /\ khatri [C; B] SkNone false = Ok H /\ xcb X C B = Ok Y /\
    matprod U H Y.
Proof.
  intros T N RL He X C B I J K R HX HsX HI HR HC HB.
  destruct (xcb_ok RL He X C B I J K R HX HsX HI HR HC HB) as (U & H & Y & EU & EH & EY & EM).
  exists U, H, Y. repeat (split; [assumption|]).
  (* sizes *)
  destruct (khatri_ok RL [C; B] R) as (H' & EH' & [HH _]); [discriminate|simpl; lia| |].
  { intros M [<-|[<-|[]]]; [destruct (matrix_is_mat _ _ _ HC) as (? & _ & ?)|destruct (matrix_is_mat _ _ _ HB) as (? & _ & ?)]; auto. }
  rewrite EH in EH'. injection EH' as <-.
  unfold tf_matmul in EM. destruct HH as [HwH HsH]. rewrite HsH in EM.
  destruct (shp U) as [|u [|v [|]]] eqn:EsU; try discriminate.
  cbv zeta in EM. destruct (Nat.eqb_spec v (nprod (map nrows [C; B]))) as [Ev|]; [|discriminate].
  injection EM as <-. exists u, v, R. split; [|split; [|split; [apply is_mat_mgen|]]].
  - destruct (unfold_ok X 0) as (U' & EU' & (HU' & _)).
    { unfold ndims. rewrite HsX. simpl. lia. } { rewrite HsX. simpl. auto. }
    change (Z.of_nat 0) with 0%Z in EU'. rewrite EU in EU'. injection EU' as <-. destruct HU' as [HU' _]. split; auto.
  - split; auto. rewrite HsH. congruence.
  - intros i j Hi Hj. rewrite mget_mgen by auto. rewrite (sumn_bigsum RL). reflexivity.
Qed.

Local Open Scope R_scope.
Lemma c14_pos (A : tensor R) : wf A ->
  exists v, inner A A = Ok v /\ 0 <= v /\ (v = 0 <-> forall i, valid (shp A) i -> get A i = 0).
Proof.
  intros HA. rewrite inner_ok by auto. eexists. split; [reflexivity|].
  assert (P : forall i, 0 <= get A i * get A i) by (intros; nra).
  split; [apply isumR_nonneg; intros; apply P|]. split.
  - intros E i Hi. 
    pose proof (isumR_zero_inv (shp A) (fun i => get A i * get A i)) as Z.
    assert (get A i * get A i = 0); [|nra]. apply Z; auto.
  - intros E. apply (isum_zero RLR). intros i Hi. rewrite E by auto. Rn. ring.
Qed.

Lemma c21 (svals : tensor R -> list R) (l : list (tensor R)) (s : skiparg) :
  (forall M, In M l -> svals M <> []) -> without (skipset s) l <> [] ->
  exists sig : tensor R -> R,
    (forall M, In M l -> In (sig M) (svals M) /\ forall x, In x (svals M) -> x <= sig M) /\
    max_single_value_mul svals l s = Ok (listprod (map sig (without (skipset s) l))).
Proof.
  intros H1 H2. exists (fun M => tf_max (svals M)). split.
  - intros M HM. apply tf_max_R; auto.
  - apply (max_single_ok RLR); auto.
Qed.

Lemma c21_lip (svals : tensor R -> list R) (l : list (tensor R)) (v : R) (K : tensor R) :
  (forall M, In M l -> matrix M /\ nrows M = ncols M /\ 0 <= tf_max (svals M) /\
             stretches_at_most M (tf_max (svals M))) ->
  max_single_value_mul svals l SkNone = Ok v -> kron l SkNone false = Ok K ->
  stretches_at_most K v /\
  forall x : nat -> R, quadform K x <= v * bigsum (ncols K) (fun j => x j * x j).
Proof.
  intros H Ev EK. assert (Hn : l <> []) by (intros ->; discriminate).
  rewrite (max_single_ok RLR) in Ev by (rewrite without_none; [auto|intros z []]).
  rewrite without_none in Ev by (intros z []). injection Ev as <-.
  apply (kron_inv RLR) in EK as (_ & _ & EK); [|intros; apply H; auto].
  assert (S : stretches_at_most K (listprod (map (fun m => tf_max (svals m)) l))).
  { apply (kron_norm l K (fun m => tf_max (svals m))); auto; intros; apply H; auto. }
  split; [exact S|]. intros x. apply (norm_bound_quad K _ x); auto.
  - clear -H. induction l as [|a l IH]; simpl; Rn; [lra|]. apply Rmult_le_pos; [apply H; left; auto|].
    apply IH. intros; apply H; right; auto.
  - destruct EK as [HK _]. destruct (matrix_is_mat _ _ _ HK) as (_ & -> & ->). f_equal.
    apply map_ext_in. intros a Ha. apply H; auto.
Qed.

Lemma ex_c21 : max_single_value_mul (fun M : tensor R => [1; 3; 2]) [mkT [1;1]%nat [1]; mkT [1;1]%nat [1]] SkNone = Ok 9.
Proof.
  rewrite (max_single_ok RLR) by discriminate. f_equal. cbn [without skipset without_from existsb map listprod tf_max fold_left].
  rewrite !nmax_R. Rn. replace (Rmax (Rmax 1 3) 2) with 3; [ring|].
  rewrite (Rmax_right 1 3) by lra. rewrite Rmax_left; lra.
Qed.

Lemma ex_c21_lip : let M := mkT [2; 2]%nat [2; 0; 0; 3] in matrix M /\ stretches_at_most M 3.
Proof.
  split; [split; reflexivity|]. intros x. cbn. Rn. unfold Rsqr.
  assert (0 <= x 0%nat * x 0%nat) by nra. nra.
Qed.
