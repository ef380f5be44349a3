(** Evaluation of tf.einsum on well-formed label strings. *)

From Coq Require Import ZArith List Bool Arith Lia Permutation.
From Verif Require Import Num Py Tensor TF TensorFacts TFFacts Sums.
Import ListNotations.

Lemma nodupb_spec l : nodupb l = true <-> NoDup l.
Proof.
  induction l as [|x l IH]; simpl; [split; auto; constructor|].
  rewrite andb_true_iff, negb_true_iff, IH. split.
  - intros [H1 H2]. constructor; auto. apply zmem_false; auto.
  - intros H. inversion H; subst. split; auto. apply zmem_false; auto.
Qed.

Lemma in_dedup l : forall seen x, In x (dedup seen l) <-> In x l /\ ~ In x seen.
Proof.
  induction l as [|y l IH]; intros seen x; simpl; [tauto|].
  destruct (zmem y seen) eqn:E.
  - apply zmem_In in E. rewrite IH. split; [tauto|]. intros [[->|H] H']; tauto.
  - apply zmem_false in E. simpl. rewrite IH. simpl. split.
    + intros [->|[H1 H2]]; tauto.
    + intros [[->|H1] H2]; [tauto|]. destruct (Z.eq_dec y x); tauto.
Qed.

Lemma NoDup_dedup l : forall seen, NoDup (dedup seen l).
Proof.
  induction l as [|y l IH]; intros seen; simpl; [constructor|].
  destruct (zmem y seen); auto. constructor; auto. rewrite in_dedup. simpl. tauto.
Qed.

Lemma dedup_app l1 : forall seen l2, NoDup l1 -> (forall x, In x l1 -> ~ In x seen) ->
  exists seen', dedup seen (l1 ++ l2) = l1 ++ dedup seen' l2 /\ (forall x, In x seen' <-> In x l1 \/ In x seen).
Proof.
  induction l1 as [|y l1 IH]; intros seen l2 Hn Hd; simpl.
  - exists seen. split; [reflexivity|]. tauto.
  - inversion Hn as [|? ? Hy Hn']; subst.
    assert (E : zmem y seen = false) by (apply zmem_false, Hd; simpl; auto).
    rewrite E. destruct (IH (y :: seen) l2 Hn') as (s' & Hs & Hin).
    { intros x Hx [->|Hx']; [contradiction|]. apply (Hd x); simpl; auto. }
    exists s'. rewrite Hs. split; [reflexivity|]. intros x. rewrite Hin. simpl. tauto.
Qed.

Lemma lookup_combine {A} (d dl : A) ls : forall vs k dz,
  NoDup ls -> k < length ls -> length vs = length ls ->
  lookup d (nth k ls dz) (combine ls vs) = nth k vs dl.
Proof.
  induction ls as [|x ls IH]; intros [|v vs] k dz Hn Hk Hl; simpl in *; try lia.
  inversion Hn; subst. destruct k as [|k].
  - rewrite Z.eqb_refl. reflexivity.
  - destruct (Z.eqb_spec (nth k ls dz) x) as [E|E].
    + subst x. exfalso. apply H1. apply nth_In. lia.
    + apply IH; auto; lia.
Qed.

Lemma lookup_map {A} (d : A) (f : Z -> A) ls l : In l ls ->
  lookup d l (map (fun x => (x, f x)) ls) = f l.
Proof.
  induction ls as [|x ls IH]; simpl; intros H; [contradiction|].
  destruct (Z.eqb_spec l x); [subst; auto|]. destruct H; [congruence|]. auto.
Qed.

Lemma combine_map_self {A B} (f : A -> B) l : combine l (map f l) = map (fun x => (x, f x)) l.
Proof. induction l; simpl; congruence. Qed.

Lemma Forall2_combine {A B} (P : A -> B -> Prop) l l' :
  Forall2 P l l' -> forall p, In p (combine l l') -> P (fst p) (snd p).
Proof.
  induction 1; simpl; intros p Hp; [contradiction|]. destruct Hp as [<-|Hp]; auto.
Qed.

Section Einsum.
  Context {T : Type} {N : Num T}.

  Definition summed_labels (ins : list (list Z)) (out : list Z) : list Z :=
    filter (fun l => negb (zmem l out)) (dedup [] (concat ins)).

  Lemma dims_size ins (ops : list (tensor T)) (size : Z -> nat) :
    Forall2 (fun l t => shp t = map size l) ins ops ->
    einsum_dims ins ops = map (fun l => (l, size l)) (concat ins).
  Proof.
    unfold einsum_dims. induction 1 as [|l t ins ops E _ IH]; simpl; [reflexivity|].
    rewrite E, combine_map_self, IH, map_app. reflexivity.
  Qed.

  Lemma einsum_ok ins out (ops : list (tensor T)) (size : Z -> nat) :
    ins <> [] -> (forall l, In l ins -> l <> []) ->
    (forall l x, In l ins -> In x l -> lower x = true) ->
    Forall2 (fun l t => shp t = map size l) ins ops ->
    (forall l, In l ins -> NoDup l) -> NoDup out -> incl out (concat ins) ->
    tf_einsum ins out ops =
    Ok (gen (map size out) (fun oi =>
          isum (map size (summed_labels ins out)) (fun si =>
             lprod (map (fun p => get (snd p)
                (map (fun l => lookup 0 l (combine (out ++ summed_labels ins out) (oi ++ si))) (fst p)))
                (combine ins ops))))).
  Proof.
    intros Hne Hnil Hlow Hshp Hnd Hndo Hincl. unfold tf_einsum.
    assert (HL : forallb (forallb lower) ins && forallb lower out = true).
    { rewrite andb_true_iff, !forallb_forall. split.
      - intros l Hl. apply forallb_forall. intros x Hx. eapply Hlow; eauto.
      - intros x Hx. apply Hincl in Hx. apply in_concat in Hx as (l & Hl & Hx). eapply Hlow; eauto. }
    rewrite HL. simpl negb.
    assert (HE : (match ins with [] => true | _ => existsb (fun l => Nat.eqb (length l) 0) ins end) = false).
    { destruct ins as [|i0 ins']; [congruence|]. destruct (existsb _ (i0 :: ins')) eqn:E; auto.
      apply existsb_exists in E as (l & Hl & E). apply Nat.eqb_eq in E. destruct l; [|discriminate].
      exfalso. apply (Hnil [] Hl). reflexivity. }
    rewrite HE. rewrite (Forall2_len _ _ _ Hshp), Nat.eqb_refl. simpl negb.
    assert (HD : forallb (fun p => Nat.eqb (length (fst p)) (ndims (snd p))) (combine ins ops) = true).
    { apply forallb_forall. intros p Hp. apply (Forall2_combine _ _ _ Hshp) in Hp.
      unfold ndims. rewrite Hp, map_length. apply Nat.eqb_refl. }
    rewrite HD.
    assert (HN : forallb nodupb ins && nodupb out = true).
    { rewrite andb_true_iff. split; [|apply nodupb_spec; auto].
      apply forallb_forall. intros l Hl. apply nodupb_spec; auto. }
    rewrite HN.
    assert (HI : forallb (fun l => zmem l (concat ins)) out = true).
    { apply forallb_forall. intros x Hx. apply zmem_In, Hincl, Hx. }
    rewrite HI. rewrite (dims_size _ _ _ Hshp).
    assert (HS : forallb (fun p => Nat.eqb (snd p) (lookup 0 (fst p) (map (fun l => (l, size l)) (concat ins))))
                   (map (fun l => (l, size l)) (concat ins)) = true).
    { apply forallb_forall. intros p Hp. apply in_map_iff in Hp as (l & <- & Hl). simpl.
      rewrite lookup_map by auto. apply Nat.eqb_refl. }
    rewrite HS. cbn [negb].
    assert (S1 : map (fun l => lookup 0 l (map (fun l => (l, size l)) (concat ins))) out = map size out).
    { apply map_ext_in. intros x Hx. apply lookup_map; auto. }
    assert (S2 : map (fun l => lookup 0 l (map (fun l => (l, size l)) (concat ins))) (summed_labels ins out)
                 = map size (summed_labels ins out)).
    { apply map_ext_in. intros x Hx. apply lookup_map.
      apply filter_In in Hx as [Hx _]. apply in_dedup in Hx. tauto. }
    rewrite S1. unfold summed_labels in S2. rewrite S2. reflexivity.
  Qed.

  Lemma NoDup_env ins out : NoDup out -> NoDup (out ++ summed_labels ins out).
  Proof.
    intros H. apply NoDup_app_intro; auto.
    - apply NoDup_filter, NoDup_dedup.
    - intros x Hx Hx'. apply filter_In in Hx' as [_ Hx']. apply negb_true_iff, zmem_false in Hx'. auto.
  Qed.

  (** when nothing is summed *)
  Lemma summed_nil ins out : incl (concat ins) out -> summed_labels ins out = [].
  Proof.
    intros H. unfold summed_labels. apply filter_none. intros x Hx. apply in_dedup in Hx as [Hx _].
    apply negb_false_iff, zmem_In, H, Hx.
  Qed.

  (** errors *)
  Lemma einsum_err_count ins out (ops : list (tensor T)) :
    length ins <> length ops -> tf_einsum ins out ops = Raise ValueError.
  Proof.
    intros H. unfold tf_einsum.
    destruct (negb (forallb (forallb lower) ins && forallb lower out)); [reflexivity|].
    destruct (match ins with [] => true | _ => existsb (fun l => Nat.eqb (length l) 0) ins end); [reflexivity|].
    destruct (Nat.eqb_spec (length ins) (length ops)); [contradiction | reflexivity].
  Qed.

  Lemma einsum_res ins out (ops : list (tensor T)) e : tf_einsum ins out ops = Raise e -> e = ValueError.
  Proof.
    unfold tf_einsum.
    repeat match goal with |- (if ?b then _ else _) = _ -> _ => destruct b; [intros H; injection H; auto|] end.
    discriminate.
  Qed.

  Lemma einsum_ok_inv ins out (ops : list (tensor T)) r : tf_einsum ins out ops = Ok r ->
    (forall l x, In l ins -> In x l -> lower x = true) /\
    (forall x, In x out -> lower x = true) /\
    (forall l, In l ins -> l <> []) /\
    length ins = length ops /\
    (forall p, In p (combine ins ops) -> length (fst p) = ndims (snd p)) /\
    (forall l, In l ins -> NoDup l) /\ NoDup out /\ incl out (concat ins) /\
    (forall l d d', In (l, d) (einsum_dims ins ops) -> In (l, d') (einsum_dims ins ops) -> d = d').
  Proof.
    unfold tf_einsum.
    destruct (forallb (forallb lower) ins && forallb lower out) eqn:E1; [|discriminate]. cbn [negb].
    destruct (match ins with [] => true | _ => existsb (fun l => Nat.eqb (length l) 0) ins end) eqn:E2; [discriminate|].
    destruct (Nat.eqb_spec (length ins) (length ops)) as [E3|]; [|discriminate]. cbn [negb].
    destruct (forallb (fun p => Nat.eqb (length (fst p)) (ndims (snd p))) (combine ins ops)) eqn:E4; [|discriminate]. cbn [negb].
    destruct (forallb nodupb ins && nodupb out) eqn:E5; [|discriminate]. cbn [negb].
    destruct (forallb (fun l => zmem l (concat ins)) out) eqn:E6; [|discriminate]. cbn [negb].
    destruct (forallb (fun p => Nat.eqb (snd p) (lookup 0 (fst p) (einsum_dims ins ops))) (einsum_dims ins ops)) eqn:E7; [|discriminate].
    intros _. rewrite andb_true_iff, !forallb_forall in E1, E5. rewrite forallb_forall in E4, E6, E7.
    destruct E1 as [E1 E1']. destruct E5 as [E5 E5'].
    refine (conj _ (conj (proj1 (forallb_forall _ _) E1') (conj _ (conj E3 (conj _ (conj _ (conj _ (conj _ _)))))))).
    - intros l x Hl Hx. specialize (E1 l Hl). rewrite forallb_forall in E1. auto.
    - intros l Hl ->. destruct ins as [|i0 ins']; [contradiction|].
      assert (existsb (fun l => Nat.eqb (length l) 0) (i0 :: ins') = true); [|congruence].
      apply existsb_exists. exists []. auto.
    - intros p Hp. apply Nat.eqb_eq, E4, Hp.
    - intros l Hl. apply nodupb_spec; auto.
    - apply nodupb_spec; auto.
    - intros x Hx. apply zmem_In, E6, Hx.
    - intros l d d' H H'. apply E7 in H, H'. apply Nat.eqb_eq in H, H'. simpl in *. congruence.
  Qed.
End Einsum.
