(** Finite sums and products over a commutative ring. *)

From Coq Require Import ZArith List Bool Arith Lia Permutation Ring.
From Verif Require Import Num Py Tensor TF TensorFacts.
Import ListNotations.

Section Sums.
  Context {T : Type} {N : Num T} (RL : RingLaws T).
  Let RLu : ring_theory n0 n1 nadd nmul nsub nopp (@eq T) := RL.
  Add Ring TRing : RLu.

  Local Notation "a +! b" := (nadd a b) (at level 50, left associativity).
  Local Notation "a *! b" := (nmul a b) (at level 40, left associativity).

  Lemma lsum_nil : lsum (@nil T) = n0. Proof. reflexivity. Qed.
  Lemma lsum_cons (x : T) l : lsum (x :: l) = x +! lsum l. Proof. reflexivity. Qed.

  Lemma lsum_app (a b : list T) : lsum (a ++ b) = lsum a +! lsum b.
  Proof. unfold lsum. induction a as [|x a IH]; simpl; [ring|]. rewrite IH. ring. Qed.

  Lemma lprod_app (a b : list T) : lprod (a ++ b) = lprod a *! lprod b.
  Proof. unfold lprod. induction a as [|x a IH]; simpl; [ring|]. rewrite IH. ring. Qed.

  Lemma lsum_perm (a b : list T) : Permutation a b -> lsum a = lsum b.
  Proof. unfold lsum. induction 1; simpl; try ring; congruence. Qed.

  Lemma lprod_perm (a b : list T) : Permutation a b -> lprod a = lprod b.
  Proof. unfold lprod. induction 1; simpl; try ring; congruence. Qed.

  Lemma lsum_zero {A} (l : list A) (f : A -> T) :
    (forall a, In a l -> f a = n0) -> lsum (map f l) = n0.
  Proof.
    induction l as [|a l IH]; intros H; [reflexivity|].
    change (f a +! lsum (map f l) = n0).
    rewrite IH by (intros; apply H; simpl; auto). rewrite H by (simpl; auto). ring.
  Qed.

  Lemma lsum_map_add {A} (f g : A -> T) l :
    lsum (map (fun a => f a +! g a) l) = lsum (map f l) +! lsum (map g l).
  Proof. unfold lsum. induction l as [|x a IH]; simpl; [ring|]. rewrite IH. ring. Qed.

  Lemma lsum_map_sub {A} (f g : A -> T) l :
    lsum (map (fun a => nsub (f a) (g a)) l) = nsub (lsum (map f l)) (lsum (map g l)).
  Proof. unfold lsum. induction l as [|x a IH]; simpl; [ring|]. rewrite IH. ring. Qed.

  Lemma lsum_map_opp {A} (f : A -> T) l :
    lsum (map (fun a => nopp (f a)) l) = nopp (lsum (map f l)).
  Proof. unfold lsum. induction l as [|x a IH]; simpl; [ring|]. rewrite IH. ring. Qed.

  Lemma lsum_map_mul_l {A} (c : T) (f : A -> T) l :
    lsum (map (fun a => c *! f a) l) = c *! lsum (map f l).
  Proof. unfold lsum. induction l as [|x a IH]; simpl; [ring|]. rewrite IH. ring. Qed.

  Lemma lsum_map_mul_r {A} (c : T) (f : A -> T) l :
    lsum (map (fun a => f a *! c) l) = lsum (map f l) *! c.
  Proof. unfold lsum. induction l as [|x a IH]; simpl; [ring|]. rewrite IH. ring. Qed.

  Lemma lsum_exchange {A B} (f : A -> B -> T) (la : list A) (lb : list B) :
    lsum (map (fun a => lsum (map (f a) lb)) la) =
    lsum (map (fun b => lsum (map (fun a => f a b) la)) lb).
  Proof.
    induction la as [|a la IH].
    - symmetry. apply lsum_zero. reflexivity.
    - rewrite map_cons, lsum_cons, IH. rewrite <- lsum_map_add. apply f_equal, map_ext. intros b. reflexivity.
  Qed.

  Lemma lsum_flat_map {A} (f : A -> list T) l :
    lsum (flat_map f l) = lsum (map (fun a => lsum (f a)) l).
  Proof.
    induction l as [|a l IH]; [reflexivity|]. simpl. rewrite lsum_app, IH. reflexivity.
  Qed.

  Lemma lprod_map_mul {A} (f g : A -> T) l :
    lprod (map (fun a => f a *! g a) l) = lprod (map f l) *! lprod (map g l).
  Proof. unfold lprod. induction l as [|x a IH]; simpl; [ring|]. rewrite IH. ring. Qed.

  Lemma lprod_ones {A} (l : list A) (f : A -> T) :
    (forall a, In a l -> f a = n1) -> lprod (map f l) = n1.
  Proof.
    induction l as [|a l IH]; intros H; [reflexivity|].
    change (f a *! lprod (map f l) = n1).
    rewrite IH by (intros; apply H; simpl; auto). rewrite H by (simpl; auto). ring.
  Qed.

  (** sums over [seq] *)
  Lemma sumn_ext n (f g : nat -> T) : (forall i, i < n -> f i = g i) -> sumn n f = sumn n g.
  Proof.
    intros H. unfold sumn. f_equal. apply map_ext_in. intros i Hi. apply in_seq in Hi. apply H. lia.
  Qed.

  Lemma sumn_S n (f : nat -> T) : sumn (S n) f = sumn n f +! f n.
  Proof.
    unfold sumn. rewrite seq_S, map_app, lsum_app. cbn [map plus]. rewrite lsum_cons, lsum_nil. ring.
  Qed.

  Lemma sumn_0 (f : nat -> T) : sumn 0 f = n0. Proof. reflexivity. Qed.

  Lemma sumn_add n (f g : nat -> T) : sumn n (fun i => f i +! g i) = sumn n f +! sumn n g.
  Proof. apply lsum_map_add. Qed.
  Lemma sumn_sub n (f g : nat -> T) : sumn n (fun i => nsub (f i) (g i)) = nsub (sumn n f) (sumn n g).
  Proof. apply lsum_map_sub. Qed.
  Lemma sumn_mul_l n c (f : nat -> T) : sumn n (fun i => c *! f i) = c *! sumn n f.
  Proof. apply lsum_map_mul_l. Qed.
  Lemma sumn_mul_r n c (f : nat -> T) : sumn n (fun i => f i *! c) = sumn n f *! c.
  Proof. apply lsum_map_mul_r. Qed.
  Lemma sumn_zero n (f : nat -> T) : (forall i, i < n -> f i = n0) -> sumn n f = n0.
  Proof. intros H. apply lsum_zero. intros i Hi. apply in_seq in Hi. apply H. lia. Qed.

  Lemma sumn_exchange m n (f : nat -> nat -> T) :
    sumn m (fun i => sumn n (f i)) = sumn n (fun j => sumn m (fun i => f i j)).
  Proof. apply lsum_exchange. Qed.

  (** Kronecker delta *)
  Lemma sumn_delta n k (f : nat -> T) : k < n ->
    sumn n (fun i => if Nat.eqb i k then f i else n0) = f k.
  Proof.
    induction n as [|n IH]; intros H; [lia|].
    rewrite sumn_S. destruct (Nat.eq_dec k n) as [->|Hne].
    - rewrite Nat.eqb_refl. rewrite sumn_zero; [ring|].
      intros i Hi. destruct (Nat.eqb_spec i n); [lia | reflexivity].
    - rewrite IH by lia. destruct (Nat.eqb_spec n k); [lia | ring].
  Qed.

  (** a sum over multi-indices of a shape *)
  Definition isum (s : list nat) (f : list nat -> T) : T := lsum (map f (indices s)).

  Lemma isum_ext s f g : (forall i, valid s i -> f i = g i) -> isum s f = isum s g.
  Proof.
    intros H. unfold isum. f_equal. apply map_ext_in. intros i Hi. apply H, in_indices; auto.
  Qed.

  Lemma isum_cons d s f : isum (d :: s) f = sumn d (fun i => isum s (fun r => f (i :: r))).
  Proof.
    unfold isum, sumn. simpl. rewrite flat_map_concat_map, concat_map, map_map.
    rewrite <- flat_map_concat_map. rewrite lsum_flat_map. f_equal. apply map_ext. intros i.
    rewrite map_map. reflexivity.
  Qed.

  Lemma isum_nil f : isum [] f = f []. Proof. unfold isum, lsum. simpl. ring. Qed.

  Lemma isum_app s1 s2 f :
    isum (s1 ++ s2) f = isum s1 (fun i1 => isum s2 (fun i2 => f (i1 ++ i2))).
  Proof.
    revert f. induction s1 as [|d s IH]; intros f.
    - rewrite isum_nil. reflexivity.
    - simpl. rewrite !isum_cons. apply sumn_ext. intros i _. rewrite IH. reflexivity.
  Qed.

  (** offset form *)
  Lemma isum_sumn s f : isum s f = sumn (prod s) (fun k => f (unravel s k)).
  Proof. unfold isum, sumn. rewrite indices_unravel, map_map. reflexivity. Qed.

  Lemma sumn_isum s (f : nat -> T) : sumn (prod s) f = isum s (fun i => f (ravel s i)).
  Proof.
    unfold isum, sumn. rewrite <- map_ravel_indices, map_map. reflexivity.
  Qed.

  Lemma isum_add s f g : isum s (fun i => f i +! g i) = isum s f +! isum s g.
  Proof. apply lsum_map_add. Qed.
  Lemma isum_mul_l s c f : isum s (fun i => c *! f i) = c *! isum s f.
  Proof. apply lsum_map_mul_l. Qed.
  Lemma isum_mul_r s c f : isum s (fun i => f i *! c) = isum s f *! c.
  Proof. apply lsum_map_mul_r. Qed.
  Lemma isum_exchange s1 s2 f :
    isum s1 (fun i => isum s2 (f i)) = isum s2 (fun j => isum s1 (fun i => f i j)).
  Proof. apply lsum_exchange. Qed.
  Lemma isum_zero s f : (forall i, valid s i -> f i = n0) -> isum s f = n0.
  Proof. intros H. apply lsum_zero. intros i Hi. apply H, in_indices; auto. Qed.

  (** a sum is invariant under a bijective re-indexing *)
  Lemma lsum_reindex {A B} (f : B -> T) (g : A -> B) (la : list A) (lb : list B) :
    Permutation (map g la) lb -> lsum (map (fun a => f (g a)) la) = lsum (map f lb).
  Proof.
    intros H. rewrite <- (map_map g f). apply lsum_perm, Permutation_map, H.
  Qed.

  (** product of sums = sum over multi-indices of products *)
  Lemma isum_prod (s : list nat) : forall (f : nat -> nat -> T) (k : nat),
    isum s (fun idx => lprod (map (fun p => f (k + fst p) (snd p)) (enumerate idx))) =
    lprod (map (fun p => sumn (snd p) (f (k + fst p))) (enumerate s)).
  Proof.
    assert (E : forall A (x : A) l, enumerate (x :: l) = (0, x) :: map (fun p => (S (fst p), snd p)) (enumerate l)).
    { intros A x l. unfold enumerate. simpl. f_equal. rewrite <- seq_shift.
      generalize (seq 0 (length l)). induction l as [|y l IH]; intros q; destruct q; simpl; auto.
      f_equal. apply IH. }
    induction s as [|d s IH]; intros f k.
    - rewrite isum_nil. reflexivity.
    - rewrite isum_cons, E. rewrite map_cons, map_map. cbn [fst snd].
      transitivity (sumn d (fun i => f (k + 0) i *!
         isum s (fun r => lprod (map (fun p => f (S k + fst p) (snd p)) (enumerate r))))).
      + apply sumn_ext. intros i _. rewrite <- isum_mul_l. apply isum_ext. intros r _.
        rewrite E. rewrite map_cons, map_map. cbn [fst snd].
        transitivity (f (k + 0) i *! lprod (map (fun x => f (k + S (fst x)) (snd x)) (enumerate r)));
          [reflexivity|]. f_equal. f_equal. apply map_ext. intros p. f_equal. lia.
      + rewrite sumn_mul_r. rewrite IH.
        transitivity (sumn d (f (k + 0)) *! lprod (map (fun x => sumn (snd x) (f (k + S (fst x)))) (enumerate s)));
          [|reflexivity]. f_equal. f_equal. apply map_ext. intros p. f_equal. f_equal. lia.
  Qed.
End Sums.
