(** Algebra of Kronecker and Khatri-Rao products (C17, C19). *)

From Coq Require Import ZArith List Bool Arith Lia Permutation.
From Verif Require Import Num Py Tensor TF TensorFacts TFFacts Sums Ops Spec LayoutFacts SpecFacts EinsumFacts MulFacts KronFacts.
Import ListNotations.

Section KronAlg.
  Context {T : Type} {N : Num T} (RL : RingLaws T).
  Let RLu : ring_theory n0 n1 nadd nmul nsub nopp (@eq T) := RL.
  Add Ring TRing : RLu.

  Lemma bigprod_mul n (f g : nat -> T) :
    bigprod n (fun k => nmul (f k) (g k)) = nmul (bigprod n f) (bigprod n g).
  Proof. induction n as [|n IH]; simpl; [ring|]. rewrite IH. ring. Qed.

  Lemma bigprod_app m n (f : nat -> T) :
    bigprod (m + n) f = nmul (bigprod m f) (bigprod n (fun k => f (m + k))).
  Proof.
    induction n as [|n IH]; simpl.
    - rewrite Nat.add_0_r. ring.
    - rewrite Nat.add_succ_r. simpl. rewrite IH. ring.
  Qed.

  Lemma bigprod_one n (f : nat -> T) : (forall k, k < n -> f k = n1) -> bigprod n f = n1.
  Proof. induction n as [|n IH]; simpl; intros H; [reflexivity|]. rewrite IH, H by auto. ring. Qed.

  Lemma bigprod_zero n (f : nat -> T) k : k < n -> f k = n0 -> bigprod n f = n0.
  Proof.
    induction n as [|n IH]; simpl; intros Hk H; [lia|].
    destruct (Nat.eq_dec k n) as [->|Hne]; [rewrite H; ring|]. rewrite IH by (auto; lia). ring.
  Qed.

  (** sum over multi-indices of a product = product of sums *)
  Lemma isum_bigprod (s : list nat) (f : nat -> nat -> T) :
    isum s (fun k => bigprod (length s) (fun p => f p (nth p k 0)))
    = bigprod (length s) (fun p => bigsum (nth p s 0) (f p)).
  Proof.
    pose proof (isum_prod RL s f 0) as H.
    rewrite (enumerate_eq s 0), map_map, (lprod_seq RL) in H. cbn [fst snd] in H.
    etransitivity; [|etransitivity; [exact H|]].
    - apply isum_ext. intros k Hk. pose proof (valid_length _ _ Hk) as Hl.
      rewrite (enumerate_eq k 0), map_map, (lprod_seq RL), Hl. reflexivity.
    - apply bigprod_ext. intros p Hp. apply sumn_bigsum, RL.
  Qed.

  Lemma bigsum_rowmajor s (f : nat -> T) :
    bigsum (prod s) f = isum s (fun k => f (ravel s k)).
  Proof. rewrite <- (sumn_bigsum RL). apply sumn_isum. Qed.

  (** is_kron with the model's [ravel] *)
  Lemma is_kron_ravel l K : is_kron l K -> forall i j, valid (map nrows l) i -> valid (map ncols l) j ->
    mget K (ravel (map nrows l) i) (ravel (map ncols l) j)
    = bigprod (length l) (fun k => mget (mat_at l k) (nth k i 0) (nth k j 0)).
  Proof.
    intros [_ H] i j Hi Hj. rewrite <- H by auto.
    rewrite <- !ravel_rowmajor; auto using valid_length.
  Qed.

  Lemma is_khatri_ravel l R K : is_khatri l R K -> forall i r, valid (map nrows l) i -> r < R ->
    mget K (ravel (map nrows l) i) r = bigprod (length l) (fun k => mget (mat_at l k) (nth k i 0) r).
  Proof.
    intros [_ H] i j Hi Hj. rewrite <- H by auto.
    rewrite <- !ravel_rowmajor; auto using valid_length.
  Qed.

  Lemma is_kron_intro l K : is_mat K (prod (map nrows l)) (prod (map ncols l)) ->
    (forall i j, valid (map nrows l) i -> valid (map ncols l) j ->
      mget K (ravel (map nrows l) i) (ravel (map ncols l) j)
      = bigprod (length l) (fun k => mget (mat_at l k) (nth k i 0) (nth k j 0))) -> is_kron l K.
  Proof.
    intros HK H. split; [exact HK|]. intros i j Hi Hj. rewrite <- H by auto.
    rewrite <- !ravel_rowmajor; auto using valid_length.
  Qed.

  Lemma is_kron_unique l K K' : is_kron l K -> is_kron l K' -> K = K'.
  Proof.
    intros H H'. apply mat_ext with (r := prod (map nrows l)) (c := prod (map ncols l)).
    - apply H. - apply H'.
    - intros i j Hi Hj.
      rewrite <- (ravel_unravel _ i Hi), <- (ravel_unravel _ j Hj).
      rewrite (is_kron_ravel l K H), (is_kron_ravel l K' H'); auto using unravel_valid.
  Qed.

  Lemma is_khatri_unique l R K K' : is_khatri l R K -> is_khatri l R K' -> K = K'.
  Proof.
    intros H H'. apply mat_ext with (r := prod (map nrows l)) (c := R).
    - apply H. - apply H'.
    - intros i j Hi Hj. rewrite <- (ravel_unravel _ i Hi).
      rewrite (is_khatri_ravel l R K H), (is_khatri_ravel l R K' H'); auto using unravel_valid.
  Qed.

  (** matprod facts *)
  Lemma matprod_shapes (A B C : tensor T) : matprod A B C ->
    matrix A /\ matrix B /\ matrix C /\ ncols A = nrows B /\ nrows C = nrows A /\ ncols C = ncols B /\
    forall i j, i < nrows A -> j < ncols B ->
      mget C i j = bigsum (ncols A) (fun l => nmul (mget A i l) (mget B l j)).
  Proof.
    intros (m & k & n & [HwA HA] & [HwB HB] & [HwC HC] & H).
    unfold matrix, is_mat, nrows, ncols. rewrite HA, HB, HC. simpl. repeat split; auto.
  Qed.

  Lemma matrix_is_mat (A : tensor T) m n : is_mat A m n -> matrix A /\ nrows A = m /\ ncols A = n.
  Proof. intros [Hw Hs]. unfold matrix, is_mat, nrows, ncols. rewrite Hs. simpl. auto. Qed.

  (** C17: mixed product rule for lists of any length *)
  Lemma kron_mixed (As Bs Cs : list (tensor T)) (KA KB KC : tensor T) :
    length As = length Bs -> length As = length Cs ->
    (forall k, k < length As -> matprod (mat_at As k) (mat_at Bs k) (mat_at Cs k)) ->
    is_kron As KA -> is_kron Bs KB -> is_kron Cs KC -> matprod KA KB KC.
  Proof.
    intros L1 L2 Hp HA HB HC.
    assert (Ein : map ncols As = map nrows Bs).
    { rewrite (map_via_nth ncols As (mkT [] [])), (map_via_nth nrows Bs (mkT [] [])), L1.
      apply map_ext_in. intros k Hk. apply in_seq in Hk.
      destruct (matprod_shapes _ _ _ (Hp k ltac:(lia))) as (_ & _ & _ & E & _). exact E. }
    assert (Er : map nrows Cs = map nrows As).
    { rewrite (map_via_nth nrows As (mkT [] [])), (map_via_nth nrows Cs (mkT [] [])), <- L2.
      apply map_ext_in. intros k Hk. apply in_seq in Hk.
      destruct (matprod_shapes _ _ _ (Hp k ltac:(lia))) as (_ & _ & _ & _ & E & _). exact E. }
    assert (Ec : map ncols Cs = map ncols Bs).
    { rewrite (map_via_nth ncols Bs (mkT [] [])), (map_via_nth ncols Cs (mkT [] [])), <- L2, L1.
      apply map_ext_in. intros k Hk. apply in_seq in Hk.
      destruct (matprod_shapes _ _ _ (Hp k ltac:(lia))) as (_ & _ & _ & _ & _ & E & _). exact E. }
    exists (prod (map nrows As)), (prod (map ncols As)), (prod (map ncols Bs)).
    split; [apply HA|]. split; [rewrite Ein; apply HB|].
    split; [rewrite <- Er, <- Ec; apply HC|].
    intros i j Hi Hj. rewrite bigsum_rowmajor.
    rewrite <- (ravel_unravel _ i Hi), <- (ravel_unravel _ j Hj).
    pose proof (unravel_valid _ i Hi) as Vi. pose proof (unravel_valid _ j Hj) as Vj.
    set (iv := unravel (map nrows As) i) in *. set (jv := unravel (map ncols Bs) j) in *.
    rewrite <- Er, <- Ec. rewrite (is_kron_ravel Cs KC HC) by (rewrite ?Er, ?Ec; auto).
    rewrite Er, Ec.
    transitivity (isum (map ncols As) (fun k =>
       bigprod (length (map ncols As)) (fun p => nmul (mget (mat_at As p) (nth p iv 0) (nth p k 0))
                                                 (mget (mat_at Bs p) (nth p k 0) (nth p jv 0))))).
    - rewrite (isum_bigprod (map ncols As)
        (fun p x => nmul (mget (mat_at As p) (nth p iv 0) x) (mget (mat_at Bs p) x (nth p jv 0)))).
      rewrite map_length, <- L2. apply bigprod_ext. intros p Hpl.
      destruct (matprod_shapes _ _ _ (Hp p Hpl)) as (_ & _ & _ & _ & _ & _ & E).
      rewrite nth_map_lt with (da := mkT [] []) by auto. apply E.
      + apply valid_nth with (n := p) in Vi; [|rewrite map_length; auto].
        rewrite nth_map_lt with (da := mkT [] []) in Vi by auto. exact Vi.
      + apply valid_nth with (n := p) in Vj; [|rewrite map_length; lia].
        rewrite nth_map_lt with (da := mkT [] []) in Vj by lia. exact Vj.
    - apply isum_ext. intros k Hk.
      rewrite (is_kron_ravel As KA HA) by auto. rewrite Ein, (is_kron_ravel Bs KB HB) by (rewrite <- ?Ein; auto).
      rewrite map_length, <- L1, L1, <- bigprod_mul. reflexivity.
  Qed.

  (** the identity matrix *)
  Lemma kron_identity (l : list (tensor T)) K : (forall A, In A l -> is_identity (nrows A) A) -> is_kron l K ->
    is_identity (nprod (map nrows l)) K.
  Proof.
    intros Hid HK.
    assert (E : map ncols l = map nrows l).
    { apply map_ext_in. intros A HA. destruct (Hid A HA) as [[_ Hs] _]. unfold ncols. rewrite Hs. reflexivity. }
    split.
    - destruct HK as [HK _]. rewrite E in HK. exact HK.
    - intros i j Hi Hj. change (nprod (map nrows l)) with (prod (map nrows l)) in *.
      rewrite <- (ravel_unravel _ i Hi), <- (ravel_unravel _ j Hj).
      pose proof (unravel_valid _ i Hi) as Vi. pose proof (unravel_valid _ j Hj) as Vj.
      set (iv := unravel _ i) in *. set (jv := unravel _ j) in *.
      pose proof (is_kron_ravel l K HK iv jv Vi) as G. rewrite E in G. rewrite G by auto.
      pose proof (valid_length _ _ Vi) as Li. pose proof (valid_length _ _ Vj) as Lj. rewrite map_length in Li, Lj.
      assert (Hk : forall k, k < length l -> mget (mat_at l k) (nth k iv 0) (nth k jv 0) =
                   if Nat.eqb (nth k iv 0) (nth k jv 0) then n1 else n0).
      { intros k Hk. assert (Hin : In (mat_at l k) l) by (apply nth_In; auto).
        destruct (Hid _ Hin) as [_ H]. apply H.
        - apply valid_nth with (n := k) in Vi; [|rewrite map_length; auto].
          rewrite nth_map_lt with (da := mkT [] []) in Vi by auto. exact Vi.
        - apply valid_nth with (n := k) in Vj; [|rewrite map_length; auto].
          rewrite nth_map_lt with (da := mkT [] []) in Vj by auto. exact Vj. }
      rewrite (bigprod_ext _ _ _ Hk).
      destruct (Nat.eqb_spec (ravel (map nrows l) iv) (ravel (map nrows l) jv)) as [He|Hne].
      + apply ravel_inj in He; auto. rewrite He. apply bigprod_one. intros k _. rewrite Nat.eqb_refl. reflexivity.
      + assert (Hd : exists k, k < length l /\ nth k iv 0 <> nth k jv 0).
        { clear -Hne Li Lj. assert (iv <> jv) as Hd by congruence. clear Hne.
          clearbody iv jv. revert iv jv Li Lj Hd. induction l as [|A l' IH]; intros [|a iv] [|b jv] Li Lj Hd; simpl in *; try discriminate; [congruence|].
          destruct (Nat.eq_dec a b) as [->|Hab].
          - destruct (IH iv jv) as (k & Hk & Hn); try lia; [congruence|]. exists (S k). split; [lia|exact Hn].
          - exists 0. split; [lia|exact Hab]. }
        destruct Hd as (k & Hkl & Hn). apply bigprod_zero with (k := k); auto.
        destruct (Nat.eqb_spec (nth k iv 0) (nth k jv 0)); [contradiction|reflexivity].
  Qed.

  Lemma valid2_of s d : valid [s] d -> exists i, d = [i] /\ i < s.
  Proof. intros H. inversion H; subst. inversion H4; subst. eauto. Qed.

  (** associativity: kron of a concatenation *)
  Lemma kron_assoc (l1 l2 : list (tensor T)) K1 K2 K : is_kron l1 K1 -> is_kron l2 K2 ->
    is_kron (l1 ++ l2) K -> is_kron [K1; K2] K.
  Proof.
    intros H1 H2 H.
    destruct (matrix_is_mat _ _ _ (proj1 H1)) as (_ & R1 & C1).
    destruct (matrix_is_mat _ _ _ (proj1 H2)) as (_ & R2 & C2).
    change nprod with prod in *.
    apply is_kron_intro.
    - simpl. rewrite R1, R2, C1, C2. pose proof (proj1 H) as G. rewrite !map_app in G.
      change nprod with prod in G. rewrite !prod_app in G. rewrite !Nat.mul_1_r. exact G.
    - intros i j Hi Hj. simpl in Hi, Hj. apply valid2_inv in Hi as (i1 & i2 & -> & Hi1 & Hi2).
      apply valid2_inv in Hj as (j1 & j2 & -> & Hj1 & Hj2).
      cbn [map]. rewrite !ravel2. rewrite R1 in Hi1. rewrite R2 in Hi2. rewrite C1 in Hj1. rewrite C2 in Hj2.
      rewrite R2, C2.
      rewrite <- (ravel_unravel _ i1 Hi1), <- (ravel_unravel _ i2 Hi2).
      rewrite <- (ravel_unravel _ j1 Hj1), <- (ravel_unravel _ j2 Hj2).
      pose proof (unravel_valid _ i1 Hi1) as Vi1. pose proof (unravel_valid _ i2 Hi2) as Vi2.
      pose proof (unravel_valid _ j1 Hj1) as Vj1. pose proof (unravel_valid _ j2 Hj2) as Vj2.
      set (a1 := unravel _ i1) in *. set (a2 := unravel _ i2) in *.
      set (b1 := unravel _ j1) in *. set (b2 := unravel _ j2) in *.
      rewrite <- !ravel_app by (auto using valid_length).
      rewrite <- !map_app. rewrite (is_kron_ravel _ K H) by (rewrite map_app; apply valid_app; auto).
      cbn [length bigprod nth]. rewrite app_length, bigprod_app.
      unfold mat_at at 3 4. cbn [nth].
      rewrite (is_kron_ravel _ K1 H1), (is_kron_ravel _ K2 H2) by auto.
      pose proof (valid_length _ _ Vi1) as La1. pose proof (valid_length _ _ Vj1) as Lb1.
      rewrite map_length in La1, Lb1.
      transitivity (nmul (bigprod (length l1) (fun k => mget (mat_at l1 k) (nth k a1 0) (nth k b1 0)))
                         (bigprod (length l2) (fun k => mget (mat_at l2 k) (nth k a2 0) (nth k b2 0)))); [|ring].
      f_equal; apply bigprod_ext; intros k Hk; unfold mat_at.
      + rewrite !app_nth1 by lia. reflexivity.
      + rewrite !app_nth2 by lia. rewrite La1, Lb1. replace (length l1 + k - length l1) with k by lia. reflexivity.
  Qed.

  (** C19 *)
  Lemma khatri_gram (l : list (tensor T)) R K : l <> [] -> (forall M, In M l -> matrix M /\ ncols M = R) ->
    is_khatri l R K ->
    exists Gs H, mapM (fun M => tf_matmul true false M M) l = Ok Gs /\ hadamard Gs SkNone = Ok H /\
                 tf_matmul true false K K = Ok H.
  Proof.
    intros Hne Hm HK.
    set (gram := fun M => mgen R R (fun i j => sumn (nrows M) (fun x => nmul (mget M x i) (mget M x j)))).
    exists (map gram l). eexists. split; [|split].
    - apply mapM_ok. intros M HM. destruct (Hm M HM) as [[_ Hs] Hc]. rewrite Hc in Hs.
      rewrite (matmul_ok true false M M R (nrows M) R) by exact Hs. reflexivity.
    - apply hadamard_ok with (s := [R; R]); auto.
      + destruct l; [congruence|discriminate].
      + intros B HB. apply in_map_iff in HB as (M & <- & _). split; [apply wf_gen|reflexivity].
    - pose proof HK as [[_ HsK] _]. rewrite (matmul_ok true false K K R (nprod (map nrows l)) R) by exact HsK.
      f_equal. unfold mgen. apply gen_ext. intros idx Hidx. apply valid2_inv in Hidx as (i & j & -> & Hi & Hj).
      cbn [nth]. change nprod with prod. rewrite sumn_isum.
      rewrite map_map, (map_via_nth (fun x => get (gram x) [i; j]) l (mkT [] [])), (lprod_seq RL).
      transitivity (isum (map nrows l) (fun k => bigprod (length (map nrows l))
         (fun p => nmul (mget (mat_at l p) (nth p k 0) i) (mget (mat_at l p) (nth p k 0) j)))).
      + apply isum_ext. intros k Hk. rewrite !(is_khatri_ravel l R K HK) by auto.
        rewrite map_length, <- bigprod_mul. reflexivity.
      + rewrite (isum_bigprod (map nrows l)
          (fun p x => nmul (mget (mat_at l p) x i) (mget (mat_at l p) x j))).
        rewrite map_length. apply bigprod_ext. intros p Hp. unfold gram.
        change (get (mgen R R ?f) [i; j]) with (mget (mgen R R f) i j).
        rewrite mget_mgen by auto. rewrite (sumn_bigsum RL).
        rewrite nth_map_lt with (da := mkT [] []) by auto. reflexivity.
  Qed.
End KronAlg.
