(** ttm as a sequence of n-mode products (C11-C13). *)

From Coq Require Import ZArith List Bool Arith Lia Permutation.
From Verif Require Import Num Py Tensor TF TensorFacts TFFacts Sums Ops Spec LayoutFacts SpecFacts EinsumFacts MulFacts KronFacts KronAlg.
Import ListNotations.

Definition inb (i : nat) (l : list nat) : bool := existsb (Nat.eqb i) l.

Lemma replace_length {A} n (v : A) l : length (replace n v l) = length l.
Proof. revert n. induction l as [|x l IH]; intros [|n]; simpl; auto. Qed.

Lemma nth_replace {A} n (v : A) l d k : n < length l ->
  nth k (replace n v l) d = if Nat.eqb k n then v else nth k l d.
Proof.
  revert n k. induction l as [|x l IH]; intros [|n] [|k] H; simpl in *; try lia; auto. apply IH. lia.
Qed.

Lemma nth_replace_ne {A} n (v : A) l d k : k <> n -> nth k (replace n v l) d = nth k l d.
Proof.
  revert n k. induction l as [|x l IH]; intros [|n] [|k] H; simpl in *; try lia; auto.
Qed.

Lemma valid_replace s idx n k d : n < length s -> valid (replace n d s) idx -> k < nth n s 0 ->
  valid s (replace n k idx).
Proof.
  intros Hn Hv Hk. pose proof (valid_length _ _ Hv) as Hl. rewrite replace_length in Hl.
  apply nth_Forall2 with (da := 0) (db := 0).
  - rewrite replace_length; auto.
  - intros p Hp. rewrite replace_length in Hp. rewrite nth_replace by lia.
    destruct (Nat.eqb_spec p n) as [->|Hne]; auto.
    pose proof (valid_nth _ _ p Hv) as H. rewrite replace_length in H. rewrite nth_replace in H by auto.
    destruct (Nat.eqb_spec p n); [contradiction|]. apply H. lia.
Qed.

(** idx with the coordinates on the axes l replaced by the environment e *)
Definition subst_env (n : nat) (l : list nat) (e : nat -> nat) (idx : list nat) : list nat :=
  map (fun i => if inb i l then e i else nth i idx 0) (seq 0 n).

Lemma subst_env_length n l e idx : length (subst_env n l e idx) = n.
Proof. apply length_map_seq. Qed.

Lemma nth_subst_env n l e idx i : i < n ->
  nth i (subst_env n l e idx) 0 = if inb i l then e i else nth i idx 0.
Proof. intros H. unfold subst_env. apply nth_map_seq with (d := 0); auto. Qed.

Section Env.
  Context {T : Type} {N : Num T} (RL : RingLaws T).
  Let RLu : ring_theory n0 n1 nadd nmul nsub nopp (@eq T) := RL.
  Add Ring TRing : RLu.

  (** sum over all environments assigning to each axis x of l a value < d x *)
  Fixpoint esum (d : nat -> nat) (l : list nat) (F : (nat -> nat) -> T) : T :=
    match l with
    | [] => F (fun _ => 0)
    | x :: r => sumn (d x) (fun k => esum d r (fun e => F (fun i => if Nat.eqb i x then k else e i)))
    end.

  (** F only looks at the axes l *)
  Definition on_axes (l : list nat) (F : (nat -> nat) -> T) : Prop :=
    forall e e', (forall i, In i l -> e i = e' i) -> F e = F e'.

  Lemma esum_ext d l : forall F G,
    (forall e, (forall x, In x l -> e x < d x) -> F e = G e) -> NoDup l ->
    (forall x, In x l -> True) -> esum d l F = esum d l G.
  Proof.
    induction l as [|x l IH]; intros F G H Hn _; simpl.
    - apply H. simpl. tauto.
    - inversion Hn; subst. apply sumn_ext. intros k Hk. apply IH; auto. intros e He. apply H.
      intros y [<-|Hy]; [rewrite Nat.eqb_refl; auto|].
      destruct (Nat.eqb_spec y x); [subst; contradiction|]. auto.
  Qed.

  Lemma esum_perm d l l' : Permutation l l' -> NoDup l -> forall F, on_axes l F -> esum d l F = esum d l' F.
  Proof.
    induction 1 as [|x l l' HP IH|x y l|l l' l'' H1 IH1 H2 IH2]; intros Hn F HF.
    - reflexivity.
    - simpl. inversion Hn; subst. apply sumn_ext. intros k _. apply IH; auto.
      intros e e' He. apply HF. intros i [<-|Hi]; [rewrite Nat.eqb_refl; reflexivity|].
      destruct (Nat.eqb i x); auto.
    - simpl. rewrite (sumn_exchange RL). apply sumn_ext. intros j _. apply sumn_ext. intros k _.
      inversion Hn as [|? ? Hy Hn']; subst. inversion Hn' as [|? ? Hx Hn'']; subst.
      apply esum_ext; auto. intros e _. apply HF. intros i Hi.
      destruct (Nat.eqb_spec i x), (Nat.eqb_spec i y); subst; auto. exfalso. apply Hy. simpl; auto.
    - rewrite IH1 by auto. apply IH2.
      + eapply Permutation_NoDup; eauto.
      + intros e e' He. apply HF. intros i Hi. apply He. eapply Permutation_in; eauto.
  Qed.

  Lemma esum_mul_r d l : forall F c, esum d l (fun e => nmul (F e) c) = nmul (esum d l F) c.
  Proof.
    induction l as [|x l IH]; intros F c; simpl; [reflexivity|].
    rewrite <- (sumn_mul_r RL). apply sumn_ext. intros k _. apply IH.
  Qed.

  Lemma esum_sumn d l : forall n (F : nat -> (nat -> nat) -> T),
    esum d l (fun e => sumn n (fun k => F k e)) = sumn n (fun k => esum d l (F k)).
  Proof.
    induction l as [|x l IH]; intros n F; simpl; [reflexivity|].
    rewrite (sumn_exchange RL). apply sumn_ext. intros k _. apply IH.
  Qed.

  (** a sum over multi-indices of the listed axes *)
  Lemma isum_esum d l : NoDup l -> forall F, on_axes l F ->
    isum (map d l) (fun ks => F (fun i => nth (pos i l) ks 0)) = esum d l F.
  Proof.
    induction l as [|x l IH]; intros Hn F HF; simpl.
    - rewrite (isum_nil RL). apply HF. simpl. tauto.
    - inversion Hn as [|? ? Hx Hn']; subst. rewrite (isum_cons RL). apply sumn_ext. intros k _.
      rewrite <- IH; auto.
      + apply isum_ext. intros ks _. apply HF. intros i [<-|Hi].
        * rewrite !Nat.eqb_refl. reflexivity.
        * destruct (Nat.eqb_spec i x); [subst; contradiction|]. reflexivity.
      + intros e e' He. apply HF. intros i [<-|Hi]; [rewrite Nat.eqb_refl; reflexivity|].
        destruct (Nat.eqb i x); auto.
  Qed.

  (** *** closed form of a sequence of mode products *)
  Definition pair_fits (s : list nat) (p : tensor T * nat) : Prop :=
    snd p < length s /\ matrix (fst p) /\ ncols (fst p) = nth (snd p) s 0.

  (** sizes of the result *)
  Definition rshape (s : list nat) (l : list (tensor T * nat)) : list nat :=
    fold_left (fun s p => replace (snd p) (nrows (fst p)) s) l s.

  Lemma rshape_length l : forall s, length (rshape s l) = length s.
  Proof.
    induction l as [|p l IH]; intros s; simpl; [reflexivity|]. rewrite IH. apply replace_length.
  Qed.

  Lemma rshape_out l : forall s k, ~ In k (map snd l) -> nth k (rshape s l) 0 = nth k s 0.
  Proof.
    induction l as [|p l IH]; intros s k H; simpl; [reflexivity|]. simpl in H.
    rewrite IH by tauto. apply nth_replace_ne. intros E. apply H. auto.
  Qed.

  Lemma rshape_in l : forall s M k, NoDup (map snd l) -> In (M, k) l -> k < length s ->
    nth k (rshape s l) 0 = nrows M.
  Proof.
    induction l as [|p l IH]; intros s M k Hn Hin Hk; simpl; [contradiction|].
    simpl in Hn. inversion Hn as [|? ? Hp Hn']; subst. destruct Hin as [->|Hin].
    - cbn [fst snd] in *. rewrite rshape_out by auto. rewrite nth_replace by auto. rewrite Nat.eqb_refl. reflexivity.
    - apply IH; auto. rewrite replace_length; auto.
  Qed.

  Lemma shp_mode_products l : forall X, shp (mode_products X l) = rshape (shp X) l.
  Proof. induction l as [|p l IH]; intros X; simpl; [reflexivity|]. apply (IH (mode_product X (fst p) (snd p))). Qed.

  Lemma wf_mode_products l : forall X, wf X -> wf (mode_products X l).
  Proof. induction l as [|p l IH]; intros X H; simpl; [auto|]. apply IH, wf_gen. Qed.

  Lemma pair_fits_replace s p q n : pair_fits s q -> snd q <> n -> pair_fits (replace n p s) q.
  Proof.
    intros (H1 & H2 & H3) Hne. split; [rewrite replace_length; auto|]. split; auto.
    rewrite nth_replace_ne by auto. auto.
  Qed.

  Lemma get_mode_products l : forall X, NoDup (map snd l) -> (forall p, In p l -> pair_fits (shp X) p) ->
    forall idx, valid (rshape (shp X) l) idx ->
    get (mode_products X l) idx =
    esum (fun i => nth i (shp X) 0) (map snd l) (fun e =>
      nmul (get X (subst_env (ndims X) (map snd l) e idx))
           (lprod (map (fun p => mget (fst p) (nth (snd p) idx 0) (e (snd p))) l))).
  Proof.
    induction l as [|[M n] l IH]; intros X Hn Hf idx Hv; simpl in Hv.
    - simpl. unfold lprod. simpl. rewrite (Ring_theory.Rmul_comm RL), (Ring_theory.Rmul_1_l RL). f_equal.
      pose proof (valid_length _ _ Hv) as Hl. unfold subst_env, ndims. rewrite <- Hl. simpl.
      symmetry. apply map_nth_seq.
    - cbn [map snd fst] in Hn. inversion Hn as [|? ? Hnx Hn']; subst.
      destruct (Hf (M, n)) as (F1 & F2 & F3); [simpl; auto|]. cbn [fst snd] in F1, F2, F3.
      cbn [fst snd] in Hv.
      assert (Hf' : forall p, In p l -> pair_fits (shp (mode_product X M n)) p).
      { intros q Hq. simpl. apply pair_fits_replace; [apply Hf; simpl; auto|].
        intros E. apply Hnx. rewrite <- E. apply in_map, Hq. }
      change (mode_products X ((M, n) :: l)) with (mode_products (mode_product X M n) l).
      rewrite IH by auto.
      pose proof (valid_length _ _ Hv) as Hl. rewrite rshape_length, replace_length in Hl.
      cbn [map snd esum]. rewrite <- esum_sumn.
      assert (Hnd : ndims (mode_product X M n) = ndims X).
      { unfold ndims. simpl. apply replace_length. }
      rewrite Hnd.
      transitivity (esum (fun i => nth i (shp X) 0) (map snd l) (fun e =>
         sumn (nth n (shp X) 0) (fun k =>
           nmul (get X (subst_env (ndims X) (n :: map snd l) (fun i => if Nat.eqb i n then k else e i) idx))
             (lprod (map (fun p => mget (fst p) (nth (snd p) idx 0) (if Nat.eqb (snd p) n then k else e (snd p)))
                ((M, n) :: l)))))).
      + assert (Hd : forall l' F, ~ In n l' -> NoDup l' ->
                 esum (fun i => nth i (shp (mode_product X M n)) 0) l' F = esum (fun i => nth i (shp X) 0) l' F).
        { clear. intros l' F. revert F. induction l' as [|x l' IHl]; intros F Hn Hd; simpl; [reflexivity|].
          simpl in Hn. inversion Hd; subst. rewrite nth_replace_ne by (intros E; apply Hn; auto).
          apply sumn_ext. intros k _. apply IHl; auto. }
        rewrite Hd by auto. apply esum_ext; auto. intros e He.
        cbn [map fst snd]. rewrite Nat.eqb_refl.
        assert (Hsub : valid (shp (mode_product X M n)) (subst_env (ndims X) (map snd l) e idx)).
        { simpl. apply nth_Forall2 with (da := 0) (db := 0).
          - rewrite subst_env_length, replace_length. reflexivity.
          - intros i Hi. rewrite subst_env_length in Hi. rewrite nth_subst_env by auto.
            destruct (inb i (map snd l)) eqn:E.
            + apply existsb_In in E. assert (i <> n) by (intros ->; contradiction).
              rewrite nth_replace_ne by auto. apply He. auto.
            + apply existsb_nIn in E. pose proof (valid_nth _ _ i Hv) as Hvi.
              rewrite rshape_length, replace_length in Hvi. specialize (Hvi Hi).
              rewrite rshape_out in Hvi by auto. exact Hvi. }
        unfold mode_product at 1. rewrite get_gen by exact Hsub.
        rewrite <- (sumn_bigsum RL), <- (sumn_mul_r RL). rewrite F3. apply sumn_ext. intros k _.
        assert (E1 : replace n k (subst_env (ndims X) (map snd l) e idx) =
                     subst_env (ndims X) (n :: map snd l) (fun i => if Nat.eqb i n then k else e i) idx).
        { apply nth_ext with (d := 0) (d' := 0).
          - rewrite replace_length, !subst_env_length. reflexivity.
          - intros i Hi. rewrite replace_length, subst_env_length in Hi.
            rewrite nth_replace by (rewrite subst_env_length; auto).
            rewrite !nth_subst_env by auto. unfold inb. simpl.
            destruct (Nat.eqb_spec i n); simpl; [reflexivity|]. reflexivity. }
        rewrite E1. rewrite nth_subst_env by auto.
        assert (E2 : inb n (map snd l) = false) by (apply existsb_nIn; auto). rewrite E2.
        assert (E3 : map (fun p : tensor T * nat => mget (fst p) (nth (snd p) idx 0) (if Nat.eqb (snd p) n then k else e (snd p))) l
                   = map (fun p => mget (fst p) (nth (snd p) idx 0) (e (snd p))) l).
        { apply map_ext_in. intros q Hq. destruct (Nat.eqb_spec (snd q) n) as [E|E]; [|reflexivity].
          exfalso. apply Hnx. rewrite <- E. apply in_map, Hq. }
        rewrite E3. unfold lprod at 2. cbn [fold_right]. fold (lprod (map (fun p : tensor T * nat => mget (fst p) (nth (snd p) idx 0) (e (snd p))) l)).
        ring.
      + reflexivity.
  Qed.

  Lemma on_axes_closed (X : tensor T) (l : list (tensor T * nat)) idx :
    on_axes (map snd l) (fun e =>
      nmul (get X (subst_env (ndims X) (map snd l) e idx))
           (lprod (map (fun p => mget (fst p) (nth (snd p) idx 0) (e (snd p))) l))).
  Proof.
    intros e e' He. f_equal.
    - f_equal. unfold subst_env. apply map_ext. intros i. destruct (inb i (map snd l)) eqn:E; auto.
      apply He. apply existsb_In, E.
    - f_equal. apply map_ext_in. intros p Hp. rewrite He; auto. apply in_map, Hp.
  Qed.

  Lemma rshape_perm s l l' : Permutation l l' -> NoDup (map snd l) -> (forall p, In p l -> snd p < length s) ->
    rshape s l = rshape s l'.
  Proof.
    intros HP Hn Hlt. apply nth_ext with (d := 0) (d' := 0).
    - rewrite !rshape_length. reflexivity.
    - intros k Hk. rewrite rshape_length in Hk.
      assert (Hn' : NoDup (map snd l')) by (eapply Permutation_NoDup; [apply Permutation_map, HP | auto]).
      destruct (in_dec Nat.eq_dec k (map snd l)) as [Hin|Hin].
      + apply in_map_iff in Hin as ((M & k') & Ek & Hin). simpl in Ek. subst k'.
        rewrite (rshape_in l s M k), (rshape_in l' s M k); auto. eapply Permutation_in; eauto.
      + rewrite !rshape_out; auto. intros Hin'. apply Hin.
        eapply Permutation_in; [apply Permutation_sym, Permutation_map, HP | auto].
  Qed.

  (** C12 for mode products *)
  Lemma mode_products_perm X l l' : wf X -> Permutation l l' -> NoDup (map snd l) ->
    (forall p, In p l -> pair_fits (shp X) p) -> mode_products X l = mode_products X l'.
  Proof.
    intros Hw HP Hn Hf.
    assert (Hn' : NoDup (map snd l')) by (eapply Permutation_NoDup; [apply Permutation_map, HP | auto]).
    assert (Hf' : forall p, In p l' -> pair_fits (shp X) p).
    { intros p Hp. apply Hf. eapply Permutation_in; [apply Permutation_sym, HP | auto]. }
    assert (Hs : rshape (shp X) l = rshape (shp X) l').
    { apply rshape_perm; auto. intros p Hp. apply Hf, Hp. }
    apply tensor_ext; auto using wf_mode_products.
    - rewrite !shp_mode_products. auto.
    - intros idx Hv. rewrite shp_mode_products in Hv. rewrite !get_mode_products; auto; [|congruence].
      erewrite esum_perm; [|apply Permutation_map, HP | auto | apply on_axes_closed].
      apply esum_ext; auto. intros e _. f_equal.
      + f_equal. unfold subst_env. apply map_ext. intros i.
        assert (E : inb i (map snd l) = inb i (map snd l')).
        { apply eq_true_iff_eq. unfold inb. rewrite !existsb_In. split; intros H; (eapply Permutation_in; [|exact H]).
          - apply Permutation_map, HP. - apply Permutation_sym, Permutation_map, HP. }
        rewrite E. reflexivity.
      + apply (lprod_perm RL), Permutation_map, HP.
  Qed.

  (** *** the label strings *)
  Variable X : tensor T.
  Let n := ndims X.
  Definition tl (i : nat) : Z := (122 - Z.of_nat (ndims X) + 1 + Z.of_nat i)%Z.
  Definition ml (i : nat) : Z := (97 + Z.of_nat i)%Z.

  Lemma set_nth_map_seq (f : nat -> Z) m i v : 
    set_nth (map f (seq 0 m)) i v = map (fun j => if Nat.eqb j i then v else f j) (seq 0 m).
  Proof.
    assert (G : forall i k, set_nth (map f (seq k m)) i v = map (fun j => if Nat.eqb j (k + i) then v else f j) (seq k m)).
    { clear i. induction m as [|m IH]; intros i k; [destruct i; reflexivity|].
      simpl. destruct i as [|i].
      - rewrite Nat.add_0_r, Nat.eqb_refl. f_equal. apply map_ext_in. intros j Hj. apply in_seq in Hj.
        destruct (Nat.eqb_spec j k); [lia|reflexivity].
      - destruct (Nat.eqb_spec k (k + S i)); [lia|]. f_equal. rewrite IH. apply map_ext. intros j.
        replace (S k + i) with (k + S i) by lia. reflexivity. }
    apply (G i 0).
  Qed.

  Lemma set_targets_ok m ax : (forall a, In a ax -> a < m) -> forall f : nat -> Z,
    set_targets (map f (seq 0 m)) 97 (map Z.of_nat ax) =
    Ok (map (fun i => if inb i ax then ml i else f i) (seq 0 m)).
  Proof.
    induction ax as [|a ax IH]; intros Ha f; simpl; [reflexivity|].
    unfold set_pynth. rewrite length_map_seq.
    destruct (Z.ltb_spec (Z.of_nat a) 0); [lia|].
    assert (a < m) by (apply Ha; simpl; auto).
    destruct (Z.leb_spec 0 (Z.of_nat a)); [|lia]. destruct (Z.ltb_spec (Z.of_nat a) (Z.of_nat m)); [|lia].
    simpl. rewrite Nat2Z.id, set_nth_map_seq. rewrite IH by (intros; apply Ha; simpl; auto).
    f_equal. apply map_ext. intros i. unfold inb. simpl. change (existsb (Nat.eqb i) ax) with (inb i ax).
    destruct (Nat.eqb_spec i a) as [->|]; simpl; [|reflexivity].
    destruct (inb a ax); reflexivity.
  Qed.

  Lemma set_nth_length {A} (l : list A) : forall k v, length (set_nth l k v) = length l.
  Proof. induction l as [|x l IH]; intros [|k] v; simpl; auto. Qed.

  Lemma set_targets_err m ax : (exists a, In a ax /\ m <= a) -> forall l, length l = m ->
    set_targets l 97 (map Z.of_nat ax) = Raise IndexError.
  Proof.
    intros (a & Hin & Ha). induction ax as [|b ax IH]; intros l Hl; [contradiction|].
    cbn [map set_targets]. unfold set_pynth. rewrite Hl.
    destruct (Z.ltb_spec (Z.of_nat b) 0); [lia|].
    destruct (Z.leb_spec 0 (Z.of_nat b)); [|lia]. destruct (Z.ltb_spec (Z.of_nat b) (Z.of_nat m)); cbn [andb bind]; [|reflexivity].
    destruct Hin as [->|Hin]; [lia|]. apply IH; auto.
    rewrite set_nth_length. exact Hl.
  Qed.

  (** what ttm computes before calling einsum, for in-range axes *)
  Definition mat_labels (tr : bool) (a : nat) : list Z := if tr then [tl a; ml a] else [ml a; tl a].
  Definition target (ax : list nat) : list Z :=
    map (fun i => if inb i ax then ml i else tl i) (seq 0 (ndims X)).

  Lemma pychr_ok z : (0 <= z < 1114112)%Z -> pychr z = Ok z.
  Proof.
    intros [H1 H2]. unfold pychr. destruct (Z.leb_spec 0 z); [|lia]. destruct (Z.ltb_spec z 1114112); [|lia]. reflexivity.
  Qed.

  Lemma ttm_einsum mats ax tr : ndims X <= 123 -> ax <> [] -> (forall a, In a ax -> a < ndims X) ->
    ttm X mats (Some (map Z.of_nat ax)) tr SkNone =
    tf_einsum (map tl (seq 0 (ndims X)) :: map (mat_labels tr) ax) (target ax) (X :: mats).
  Proof.
    intros Hord Hne Ha. unfold ttm. simpl skip_. cbv zeta iota.
    assert (E1 : mapM (fun i => pychr (122 - Z.of_nat (ndims X) + 1 + i)) (zrange (ndims X)) = Ok (map tl (seq 0 (ndims X)))).
    { unfold zrange. rewrite mapM_map. apply mapM_ok. intros i Hi. apply in_seq in Hi. apply pychr_ok. unfold tl. lia. }
    rewrite E1. unfold bind at 1.
    assert (E2 : mapM (fun i => do c1 <- pychr (122 - Z.of_nat (ndims X) + 1 + i);
                                    do c2 <- pychr (97 + i);
                                    Ok (if tr then [c1; c2] else [c2; c1])) (map Z.of_nat ax) = Ok (map (mat_labels tr) ax)).
    { rewrite mapM_map. apply mapM_ok. intros a Hin. apply Ha in Hin. rewrite !pychr_ok by lia. reflexivity. }
    rewrite E2. unfold bind at 1. rewrite set_targets_ok by auto. unfold bind.
    destruct ax; [congruence|]. reflexivity.
  Qed.

  Hypothesis HwX : wf X.

  Lemma tl_inj i j : tl i = tl j -> i = j. Proof. unfold tl. lia. Qed.
  Lemma ml_inj i j : ml i = ml j -> i = j. Proof. unfold ml. lia. Qed.

  Section Good.
    Variable ax : list nat.
    Hypothesis Hnd : NoDup ax.
    Hypothesis Hax : forall a, In a ax -> a < ndims X.
    Hypothesis Hlab : forall a, In a ax -> a + ndims X < 26.
    Hypothesis Hne : ax <> [].

    Let asc := filter (fun i => inb i ax) (seq 0 (ndims X)).

    Lemma ndims_lt : ndims X < 26.
    Proof. destruct ax as [|a r]; [congruence|]. specialize (Hlab a (or_introl eq_refl)). lia. Qed.

    Lemma tl_ml a i : In a ax -> i < ndims X -> tl i <> ml a.
    Proof. intros Ha Hi. apply Hlab in Ha. unfold tl, ml. lia. Qed.

    Lemma in_asc i : In i asc <-> In i ax.
    Proof.
      unfold asc. rewrite filter_In, in_seq. unfold inb. rewrite existsb_In. split; [tauto|].
      intros H. split; auto. apply Hax in H. lia.
    Qed.
    Lemma asc_perm : Permutation asc ax.
    Proof.
      apply NoDup_Permutation; auto.
      - apply NoDup_filter, seq_NoDup.
      - intros i. apply in_asc.
    Qed.

    Lemma target_nodup : NoDup (target ax).
    Proof.
      unfold target. apply NoDup_map_inj; [|apply seq_NoDup]. intros i j Hi Hj H.
      apply in_seq in Hi, Hj.
      destruct (inb i ax) eqn:Ei, (inb j ax) eqn:Ej.
      - apply ml_inj, H.
      - apply existsb_In in Ei. exfalso. symmetry in H. eapply tl_ml; [exact Ei| |exact H]. lia.
      - apply existsb_In in Ej. exfalso. eapply tl_ml; [exact Ej| |exact H]. lia.
      - apply tl_inj, H.
    Qed.

    Lemma target_in z : In z (target ax) <-> exists i, i < ndims X /\ z = (if inb i ax then ml i else tl i).
    Proof.
      unfold target. rewrite in_map_iff. split.
      - intros (i & <- & Hi). apply in_seq in Hi. exists i. split; [lia|reflexivity].
      - intros (i & Hi & ->). exists i. split; [reflexivity|]. apply in_seq. lia.
    Qed.

    Lemma ml_in_target a : In a ax -> In (ml a) (target ax).
    Proof.
      intros Ha. apply target_in. exists a. split; auto. unfold inb. rewrite (proj2 (existsb_In a ax) Ha). reflexivity.
    Qed.
    Lemma tl_in_target i : i < ndims X -> (In (tl i) (target ax) <-> ~ In i ax).
    Proof.
      intros Hi. rewrite target_in. split.
      - intros (j & Hj & E) Hin. destruct (inb j ax) eqn:Ej.
        + apply existsb_In in Ej. eapply tl_ml; [exact Ej|exact Hi|exact E].
        + apply tl_inj in E. subst j. apply existsb_nIn in Ej. contradiction.
      - intros Hn'. exists i. split; auto. unfold inb. rewrite (proj2 (existsb_nIn i ax) Hn'). reflexivity.
    Qed.

    Lemma summed_ttm tr : summed_labels (map tl (seq 0 (ndims X)) :: map (mat_labels tr) ax) (target ax) = map tl asc.
    Proof.
      unfold summed_labels. simpl concat.
      destruct (dedup_app (map tl (seq 0 (ndims X))) [] (concat (map (mat_labels tr) ax))) as (seen & E & Hs).
      { apply NoDup_map_inj; [intros i j _ _; apply tl_inj | apply seq_NoDup]. }
      { simpl. tauto. }
      rewrite E, filter_app.
      rewrite (filter_none _ (dedup seen _)).
      - rewrite app_nil_r. unfold asc. rewrite filter_map. f_equal. apply filter_ext_in. intros i Hi.
        apply in_seq in Hi. destruct (inb i ax) eqn:Ei.
        + apply negb_true_iff, zmem_false. rewrite tl_in_target by lia. apply existsb_In in Ei. tauto.
        + apply negb_false_iff, zmem_In. apply tl_in_target; [lia|]. apply existsb_nIn, Ei.
      - intros z Hz. apply in_dedup in Hz as [Hz Hns]. apply negb_false_iff, zmem_In.
        apply in_concat in Hz as (g & Hg & Hz). apply in_map_iff in Hg as (a & <- & Ha).
        assert (Hz' : z = tl a \/ z = ml a) by (unfold mat_labels in Hz; destruct tr; cbn [In] in Hz; intuition congruence).
        destruct Hz' as [->| ->]; [|apply ml_in_target, Ha].
        exfalso. apply Hns. apply Hs. left. apply in_map, in_seq. apply Hax in Ha. lia.
    Qed.

    Variable mats : list (tensor T).
    Hypothesis Hlen : length mats = length ax.
    Variable tr : bool.
    Let eff (M : tensor T) : tensor T := if tr then mtrans M else M.
    Hypothesis Hfit : forall k, k < length ax ->
      matrix (mat_at mats k) /\
      (if tr then nrows (mat_at mats k) else ncols (mat_at mats k)) = nth (nth k ax 0) (shp X) 0.

    Definition tsize (z : Z) : nat :=
      if (122 - Z.of_nat (ndims X) + 1 <=? z)%Z
      then nth (Z.to_nat (z - (122 - Z.of_nat (ndims X) + 1))) (shp X) 0
      else let M := mat_at mats (pos (Z.to_nat (z - 97)) ax) in if tr then ncols M else nrows M.

    Lemma tsize_tl i : tsize (tl i) = nth i (shp X) 0.
    Proof.
      unfold tsize, tl. destruct (Z.leb_spec (122 - Z.of_nat (ndims X) + 1) (122 - Z.of_nat (ndims X) + 1 + Z.of_nat i)); [|lia].
      f_equal. lia.
    Qed.
    Lemma tsize_ml a : In a ax -> tsize (ml a) = let M := mat_at mats (pos a ax) in if tr then ncols M else nrows M.
    Proof.
      intros Ha. apply Hlab in Ha. unfold tsize, ml.
      destruct (Z.leb_spec (122 - Z.of_nat (ndims X) + 1) (97 + Z.of_nat a)); [lia|].
      replace (Z.to_nat (97 + Z.of_nat a - 97)) with a by lia. reflexivity.
    Qed.

    Lemma combine_mats_ax : combine mats ax = map (fun k => (mat_at mats k, nth k ax 0)) (seq 0 (length ax)).
    Proof. rewrite <- Hlen. apply (combine_nth_map mats ax (mkT [] []) 0 Hlen). Qed.

    Let pairs := map (fun p : tensor T * nat => (eff (fst p), snd p)) (combine mats ax).

    Lemma pairs_snd : map snd pairs = ax.
    Proof.
      unfold pairs. rewrite map_map. cbn [snd]. rewrite combine_mats_ax, map_map. cbn [snd]. apply map_nth_seq.
    Qed.

    Lemma eff_fit k : k < length ax -> matrix (eff (mat_at mats k)) /\
      ncols (eff (mat_at mats k)) = nth (nth k ax 0) (shp X) 0 /\
      nrows (eff (mat_at mats k)) = (if tr then ncols (mat_at mats k) else nrows (mat_at mats k)).
    Proof.
      intros Hk. destruct (Hfit k Hk) as [Hm Hc]. unfold eff. destruct tr; [|auto].
      split; [|split].
      - apply (matrix_is_mat _ _ _ (is_mat_mgen _ _ _)).
      - exact Hc.
      - reflexivity.
    Qed.

    Lemma pairs_fit p : In p pairs -> pair_fits (shp X) p.
    Proof.
      intros Hp. unfold pairs in Hp. rewrite combine_mats_ax, map_map in Hp. cbn [fst snd] in Hp.
      apply in_map_iff in Hp as (k & <- & Hk). apply in_seq in Hk.
      destruct (eff_fit k ltac:(lia)) as (H1 & H2 & _).
      split; [|split]; cbn [fst snd]; auto. apply Hax, nth_In. lia.
    Qed.

    Lemma ttm_ok : ttm X mats (Some (map Z.of_nat ax)) tr SkNone = Ok (mode_products X pairs).
    Proof.
      pose proof ndims_lt as Hord.
      rewrite ttm_einsum by (auto; lia).
      rewrite (einsum_ok _ _ (X :: mats) tsize).
      2: discriminate.
      2: { intros g [<-|Hg].
           - intros E. apply (f_equal (@length Z)) in E. rewrite length_map_seq in E.
             destruct ax as [|a r]; [congruence|]. specialize (Hax a (or_introl eq_refl)). simpl in E. lia.
           - apply in_map_iff in Hg as (a & <- & _). unfold mat_labels. destruct tr; discriminate. }
      2: { intros g z Hg Hz.
           assert (Hz' : (exists i, i < ndims X /\ z = tl i) \/ (exists a, In a ax /\ z = ml a)).
           { destruct Hg as [<-|Hg].
             - apply in_map_iff in Hz as (i & <- & Hi). apply in_seq in Hi. left. exists i. split; [lia|auto].
             - apply in_map_iff in Hg as (a & <- & Ha). unfold mat_labels in Hz.
               destruct tr; cbn [In] in Hz; destruct Hz as [<-|[<-|[]]]; eauto. }
           unfold lower. destruct Hz' as [(i & Hi & ->)|(a & Ha & ->)]; apply andb_true_iff; split; apply Z.leb_le; unfold tl, ml.
           - lia. - lia. - lia. - apply Hlab in Ha. lia. }
      2: { constructor.
           - rewrite map_map. rewrite (map_ext _ _ tsize_tl). symmetry. apply map_nth_seq.
           - apply nth_Forall2 with (da := []) (db := mkT [] []).
             + rewrite map_length; auto.
             + rewrite map_length. intros k Hk. destruct (Hfit k Hk) as [[_ Hs] Hc].
               fold (mat_at mats k). rewrite Hs. rewrite nth_map_lt with (da := 0) by auto.
               assert (Hin : In (nth k ax 0) ax) by (apply nth_In; auto).
               pose proof (tsize_ml _ Hin) as E1. pose proof (tsize_tl (nth k ax 0)) as E2. cbv zeta in E1.
               rewrite (pos_nth ax Hnd k 0) in E1 by auto. clear -Hc E1 E2. revert E1 E2. generalize tsize.
               intros sz E1 E2. unfold mat_labels. destruct tr; cbn [map]; rewrite E1, E2, Hc; reflexivity. }
      2: { intros g [<-|Hg].
           - apply NoDup_map_inj; [intros i j _ _; apply tl_inj | apply seq_NoDup].
           - apply in_map_iff in Hg as (a & <- & Ha).
             assert (Hd : tl a <> ml a) by (apply tl_ml; auto).
             unfold mat_labels. destruct tr; (constructor; [simpl; intuition congruence | repeat constructor; simpl; tauto]). }
      2: apply target_nodup.
      2: { intros z Hz. apply target_in in Hz as (i & Hi & ->). simpl concat. apply in_app_iff.
           destruct (inb i ax) eqn:Ei.
           - right. apply existsb_In in Ei. apply in_concat. exists (mat_labels tr i).
             split; [apply in_map, Ei|]. unfold mat_labels. destruct tr; simpl; auto.
           - left. apply in_map, in_seq. lia. }
      f_equal.
      assert (Eshape : map tsize (target ax) = rshape (shp X) pairs).
      { apply nth_ext with (d := 0) (d' := 0).
        - rewrite rshape_length. unfold target. rewrite map_length, length_map_seq. reflexivity.
        - intros i Hi. unfold target in Hi. rewrite map_length, length_map_seq in Hi.
          rewrite nth_map_lt with (da := 0%Z) by (unfold target; rewrite length_map_seq; auto).
          unfold target. rewrite nth_map_seq by auto.
          destruct (inb i ax) eqn:Ei.
          + apply existsb_In in Ei. rewrite tsize_ml by auto. cbv zeta.
            pose proof (pos_lt i ax Ei) as Hp.
            rewrite (rshape_in pairs (shp X) (eff (mat_at mats (pos i ax))) i).
            * destruct (eff_fit (pos i ax) Hp) as (_ & _ & E). rewrite E. reflexivity.
            * rewrite pairs_snd; auto.
            * unfold pairs. rewrite combine_mats_ax, map_map. apply in_map_iff. exists (pos i ax).
              cbn [fst snd]. rewrite nth_pos by auto. split; [reflexivity|]. apply in_seq. lia.
            * exact Hi.
          + apply existsb_nIn in Ei. rewrite tsize_tl. rewrite rshape_out; auto. rewrite pairs_snd. auto. }
      rewrite Eshape. apply tensor_ext.
      - apply wf_gen.
      - apply wf_mode_products; auto.
      - rewrite shp_gen, shp_mode_products. reflexivity.
      - intros oi Hoi. rewrite shp_gen in Hoi. rewrite get_gen by auto.
        rewrite get_mode_products; auto; [|rewrite pairs_snd; auto | apply pairs_fit].
        pose proof (valid_length _ _ Hoi) as Loi. rewrite rshape_length in Loi.
        rewrite summed_ttm, map_map. rewrite (map_ext _ _ tsize_tl).
        rewrite pairs_snd.
        erewrite <- esum_perm.
        2: exact asc_perm.
        2: apply NoDup_filter, seq_NoDup.
        2: { intros e e' He. rewrite <- pairs_snd. apply on_axes_closed. rewrite pairs_snd.
             intros i Hi. apply He. apply in_asc, Hi. }
        rewrite <- isum_esum.
        2: apply NoDup_filter, seq_NoDup.
        2: { intros e e' He. rewrite <- pairs_snd. apply on_axes_closed. rewrite pairs_snd.
             intros i Hi. apply He. apply in_asc, Hi. }
        apply isum_ext. intros si Hsi. pose proof (valid_length _ _ Hsi) as Lsi. rewrite map_length in Lsi.
        assert (Ltar : length (target ax) = ndims X) by (unfold target; apply length_map_seq).
        assert (HND : NoDup (target ax ++ map tl asc)).
        { rewrite <- (summed_ttm tr). apply NoDup_env, target_nodup. }
        assert (LK1 : forall i, i < ndims X ->
            lookup 0 (if inb i ax then ml i else tl i) (combine (target ax ++ map tl asc) (oi ++ si)) = nth i oi 0).
        { intros i Hi. replace (if inb i ax then ml i else tl i) with (nth i (target ax ++ map tl asc) 0%Z).
          - rewrite lookup_combine with (dl := 0); auto.
            + apply app_nth1. unfold ndims in Hi. lia.
            + rewrite app_length. lia.
            + rewrite !app_length, map_length. unfold ndims in Ltar. lia.
          - rewrite app_nth1 by lia. unfold target. rewrite nth_map_seq by auto. reflexivity. }
        assert (LK2 : forall a, In a ax ->
            lookup 0 (tl a) (combine (target ax ++ map tl asc) (oi ++ si)) = nth (pos a asc) si 0).
        { intros a Ha. apply in_asc in Ha. pose proof (pos_lt a asc Ha) as Hp.
          replace (tl a) with (nth (ndims X + pos a asc) (target ax ++ map tl asc) 0%Z).
          - rewrite lookup_combine with (dl := 0); auto.
            + rewrite app_nth2 by (unfold ndims; lia). f_equal. unfold ndims. lia.
            + rewrite app_length, map_length. lia.
            + rewrite !app_length, map_length. unfold ndims in Ltar. lia.
          - rewrite app_nth2 by lia. rewrite Ltar. replace (ndims X + pos a asc - ndims X) with (pos a asc) by lia.
            rewrite nth_map_lt with (da := 0) by auto. rewrite nth_pos by auto. reflexivity. }
        cbn [combine map fst snd]. unfold lprod at 1; cbn [fold_right]; f_equal.
        + f_equal. unfold subst_env. rewrite map_map. apply map_ext_in. intros i Hi. apply in_seq in Hi.
          destruct (inb i ax) eqn:Ei.
          * apply LK2. apply existsb_In, Ei.
          * specialize (LK1 i ltac:(lia)). rewrite Ei in LK1. exact LK1.
        + unfold lprod. f_equal. unfold pairs. rewrite combine_mats_ax, !map_map. cbn [fst snd].
          rewrite (combine_nth_map _ mats [] (mkT [] [])) by (rewrite map_length; auto).
          rewrite map_length, map_map. apply map_ext_in. intros k Hk. apply in_seq in Hk. cbn [fst snd].
          rewrite nth_map_lt with (da := 0) by lia.
          assert (Hin : In (nth k ax 0) ax) by (apply nth_In; lia).
          pose proof (LK1 (nth k ax 0) (Hax _ Hin)) as K1. unfold inb in K1.
          rewrite (proj2 (existsb_In _ _) Hin) in K1.
          pose proof (LK2 (nth k ax 0) Hin) as K2.
          assert (B1 : nth (nth k ax 0) oi 0 < if tr then ncols (mat_at mats k) else nrows (mat_at mats k)).
          { pose proof (valid_nth _ _ (nth k ax 0) Hoi) as Hv. rewrite rshape_length in Hv.
            specialize (Hv (Hax _ Hin)).
            rewrite <- Eshape in Hv. rewrite nth_map_lt with (da := 0%Z) in Hv by (rewrite Ltar; auto).
            unfold target in Hv. rewrite nth_map_seq in Hv by auto. unfold inb in Hv.
            rewrite (proj2 (existsb_In _ _) Hin), tsize_ml in Hv by auto. cbv zeta in Hv.
            rewrite (pos_nth ax Hnd k 0) in Hv by lia. exact Hv. }
          assert (B2 : nth (pos (nth k ax 0) asc) si 0 < nth (nth k ax 0) (shp X) 0).
          { apply in_asc in Hin as Hin'. pose proof (pos_lt _ _ Hin') as Hp.
            pose proof (valid_nth _ _ (pos (nth k ax 0) asc) Hsi) as Hv. rewrite map_length in Hv. specialize (Hv Hp).
            rewrite nth_map_lt with (da := 0) in Hv by auto. rewrite nth_pos in Hv by auto. exact Hv. }
          destruct (Hfit k ltac:(lia)) as [_ Hc]. rewrite <- Hc in B2.
          fold (mat_at mats k). unfold eff, mat_labels. clear -K1 K2 B1 B2. destruct tr; cbn [map]; rewrite K1, K2.
          * unfold mtrans. rewrite mget_mgen by auto. reflexivity.
          * reflexivity.
    Qed.
  End Good.
End Env.
