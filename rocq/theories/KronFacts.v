(** kron and khatri (C16-C19). *)

From Coq Require Import ZArith List Bool Arith Lia Permutation.
From Verif Require Import Num Py Tensor TF TensorFacts TFFacts Sums Ops Spec LayoutFacts SpecFacts EinsumFacts.
Import ListNotations.

Lemma combine_nth_map {A B} (la : list A) (lb : list B) (da : A) (db : B) : length la = length lb ->
  combine la lb = map (fun k => (nth k la da, nth k lb db)) (seq 0 (length la)).
Proof.
  revert lb. induction la as [|a la IH]; intros [|b lb] H; simpl in *; try discriminate; [reflexivity|].
  f_equal. rewrite <- seq_shift, map_map. apply IH. lia.
Qed.

Lemma list_map_nth {A} (l : list A) d : l = map (fun k => nth k l d) (seq 0 (length l)).
Proof. symmetry. apply map_nth_seq. Qed.

Lemma map_via_nth {A B} (f : A -> B) (l : list A) (d : A) :
  map f l = map (fun k => f (nth k l d)) (seq 0 (length l)).
Proof. rewrite (list_map_nth l d) at 1. apply map_map. Qed.

Lemma length_map_seq {A} (f : nat -> A) n : length (map f (seq 0 n)) = n.
Proof. rewrite map_length, seq_length. reflexivity. Qed.

Section Kron.
  Context {T : Type} {N : Num T} (RL : RingLaws T).
  Let dT : tensor T := mkT [] [].

  Lemma matrix_shp (A : tensor T) : matrix A -> shp A = [nrows A; ncols A].
  Proof. intros [_ H]. exact H. Qed.

  Lemma dims_rows (l : list (tensor T)) : (forall M, In M l -> matrix M) ->
    mapM (fun m => dim m 0) l = Ok (map nrows l).
  Proof.
    intros H. apply mapM_ok. intros M HM. unfold dim. rewrite (matrix_shp M (H M HM)) at 1. reflexivity.
  Qed.
  Lemma dims_cols (l : list (tensor T)) : (forall M, In M l -> matrix M) ->
    mapM (fun m => dim m 1) l = Ok (map ncols l).
  Proof.
    intros H. apply mapM_ok. intros M HM. unfold dim. rewrite (matrix_shp M (H M HM)) at 1. reflexivity.
  Qed.

  Lemma isum_unit (f : list nat -> T) : isum [] f = f [].
  Proof. apply isum_nil, RL. Qed.

  (** product over a list of matrices, by position *)
  Lemma lprod_seq n (f : nat -> T) : lprod (map f (seq 0 n)) = bigprod n f.
  Proof.
    rewrite (lprod_bigprod RL), length_map_seq. apply bigprod_ext. intros k Hk.
    apply nth_map_seq; auto.
  Qed.

  (** *** kron *)
  Definition ksize (l : list (tensor T)) (z : Z) : nat :=
    let k := Z.to_nat ((z - 97) / 2) in
    if Z.even (z - 97) then nrows (nth k l dT) else ncols (nth k l dT).

  Lemma ksize_even l k : ksize l (97 + 2 * Z.of_nat k) = nrows (nth k l dT).
  Proof.
    unfold ksize. cbv zeta. replace (97 + 2 * Z.of_nat k - 97)%Z with (2 * Z.of_nat k)%Z by lia.
    rewrite Z.even_mul. cbn [Z.even orb].
    replace (2 * Z.of_nat k / 2)%Z with (Z.of_nat k); [rewrite Nat2Z.id; reflexivity|].
    rewrite Z.mul_comm, Z.div_mul; lia.
  Qed.
  Lemma ksize_odd l k : ksize l (97 + 2 * Z.of_nat k + 1) = ncols (nth k l dT).
  Proof.
    unfold ksize. cbv zeta. replace (97 + 2 * Z.of_nat k + 1 - 97)%Z with (2 * Z.of_nat k + 1)%Z by lia.
    rewrite Z.even_add, Z.even_mul. cbn [Z.even orb Bool.eqb].
    replace ((2 * Z.of_nat k + 1) / 2)%Z with (Z.of_nat k); [rewrite Nat2Z.id; reflexivity|].
    apply Z.div_unique with 1%Z; lia.
  Qed.

  Definition kron_ins (n : nat) : list (list Z) :=
    map (fun k => [(97 + 2 * Z.of_nat k)%Z; (97 + 2 * Z.of_nat k + 1)%Z]) (seq 0 n).

  Lemma kron_source n : map (fun p => [fst p; snd p]) (combine (evens n) (odds n)) = kron_ins n.
  Proof.
    unfold evens, odds, kron_ins. induction (seq 0 n) as [|x l IH]; [reflexivity|]. cbn [map combine fst snd]. f_equal. exact IH.
  Qed.

  Lemma evens_odds_nodup n : NoDup (evens n ++ odds n).
  Proof.
    apply NoDup_app_intro.
    - apply NoDup_map_inj; [intros; lia | apply seq_NoDup].
    - apply NoDup_map_inj; [intros; lia | apply seq_NoDup].
    - intros x H1 H2. apply in_map_iff in H1 as (a & <- & _). apply in_map_iff in H2 as (b & E & _). lia.
  Qed.

  Lemma in_kron_concat n x : In x (concat (kron_ins n)) <-> In x (evens n ++ odds n).
  Proof.
    rewrite in_concat, in_app_iff. unfold kron_ins, evens, odds. split.
    - intros (l & Hl & Hx). apply in_map_iff in Hl as (k & <- & Hk). cbn [In] in Hx.
      destruct Hx as [<-|[<-|[]]]; [left | right]; apply in_map_iff; exists k; auto.
    - intros [H|H]; apply in_map_iff in H as (k & <- & Hk);
        eexists; (split; [apply in_map_iff; exists k; split; [reflexivity|exact Hk] | simpl; auto]).
  Qed.

  Lemma kron_einsum (l : list (tensor T)) : l <> [] -> length l <= 13 -> (forall M, In M l -> matrix M) ->
    tf_einsum (kron_ins (length l)) (evens (length l) ++ odds (length l)) l =
    Ok (gen (map nrows l ++ map ncols l) (fun oi =>
          bigprod (length l) (fun k => mget (nth k l dT) (nth k oi 0) (nth (length l + k) oi 0)))).
  Proof.
    intros Hne Hlen Hm. set (n := length l) in *.
    rewrite (einsum_ok _ _ l (ksize l)).
    - rewrite summed_nil by (intros x Hx; apply in_kron_concat; auto).
      assert (E : map (ksize l) (evens n ++ odds n) = map nrows l ++ map ncols l).
      { rewrite map_app. unfold evens, odds. rewrite !map_map. f_equal.
        - rewrite (map_via_nth nrows l dT). apply map_ext. intros k. apply ksize_even.
        - rewrite (map_via_nth ncols l dT). apply map_ext. intros k. apply ksize_odd. }
      rewrite E. f_equal. apply gen_ext. intros oi Hoi. simpl map at 1. rewrite isum_unit. rewrite !app_nil_r.
      assert (Loi : length oi = n + n).
      { rewrite (valid_length _ _ Hoi), app_length, !map_length. reflexivity. }
      rewrite <- lprod_seq. f_equal. unfold kron_ins.
      rewrite (combine_nth_map _ l [] dT) by (rewrite length_map_seq; reflexivity).
      rewrite length_map_seq, map_map. apply map_ext_in. intros k Hk. apply in_seq in Hk.
      cbn [fst snd]. rewrite nth_map_seq by lia. unfold mget. f_equal. cbn [map].
      assert (Le : length (evens n) = n) by apply length_map_seq.
      assert (Lo : length (odds n) = n) by apply length_map_seq.
      f_equal; [|f_equal].
      + replace (97 + 2 * Z.of_nat k)%Z with (nth k (evens n ++ odds n) 0%Z).
        * rewrite lookup_combine with (dl := 0); [reflexivity | apply evens_odds_nodup | |]; rewrite ?app_length; lia.
        * rewrite app_nth1 by lia. unfold evens. rewrite nth_map_seq by lia. reflexivity.
      + replace (97 + 2 * Z.of_nat k + 1)%Z with (nth (n + k) (evens n ++ odds n) 0%Z).
        * rewrite lookup_combine with (dl := 0); [reflexivity | apply evens_odds_nodup | |]; rewrite ?app_length; lia.
        * rewrite app_nth2 by lia. rewrite Le. replace (n + k - n) with k by lia.
          unfold odds. rewrite nth_map_seq by lia. reflexivity.
    - unfold kron_ins. destruct l; [congruence|]. simpl in *. unfold n. simpl. discriminate.
    - intros g Hg. apply in_map_iff in Hg as (k & <- & _). discriminate.
    - intros g x Hg Hx. apply in_map_iff in Hg as (k & <- & Hk). apply in_seq in Hk. cbn [In] in Hx.
      unfold lower. destruct Hx as [<-|[<-|[]]]; apply andb_true_iff; split; apply Z.leb_le; lia.
    - apply nth_Forall2 with (da := []) (db := dT).
      + unfold kron_ins. rewrite length_map_seq. reflexivity.
      + unfold kron_ins. rewrite length_map_seq. intros k Hk. rewrite nth_map_seq by auto.
        cbn [map]. rewrite ksize_even, ksize_odd. apply matrix_shp, Hm, nth_In. auto.
    - intros g Hg. apply in_map_iff in Hg as (k & <- & _). constructor; [|repeat constructor; simpl; tauto].
      cbn [In]. intros [E|[]]. lia.
    - apply evens_odds_nodup.
    - intros x Hx. apply in_kron_concat; auto.
  Qed.

  Lemma kron_unfold (l : list (tensor T)) skip rv :
    kron l skip rv = kron (if rv then rev (skip_ l skip) else skip_ l skip) SkNone false.
  Proof. reflexivity. Qed.

  Lemma kron_ok (l : list (tensor T)) : l <> [] -> length l <= 13 -> (forall M, In M l -> matrix M) ->
    exists K, kron l SkNone false = Ok K /\ is_kron l K.
  Proof.
    intros Hne Hlen Hm. unfold kron. simpl skip_. rewrite kron_source, kron_einsum by auto.
    unfold bind at 1. rewrite dims_rows, dims_cols by auto. unfold bind.
    pose proof (reshape_ok (gen (map nrows l ++ map ncols l)
         (fun oi => bigprod (length l) (fun k => mget (nth k l dT) (nth k oi 0) (nth (length l + k) oi 0))))
      [prod (map nrows l); prod (map ncols l)]) as E.
    simpl map in E. rewrite E by (simpl; rewrite prod_app; lia). clear E.
    eexists; split; [reflexivity|]. split.
    - split; [|reflexivity]. apply wf_reshape; [apply wf_gen|]. simpl. rewrite prod_app. lia.
    - intros i j Hi Hj.
      pose proof (valid_length _ _ Hi) as Li. pose proof (valid_length _ _ Hj) as Lj.
      rewrite map_length in Li, Lj.
      rewrite <- !ravel_rowmajor by (rewrite ?map_length; auto).
      unfold mget at 1. rewrite get_reshape with (idx := i ++ j).
      + rewrite get_gen by (apply valid_app; auto). apply bigprod_ext. intros k Hk.
        rewrite app_nth1 by lia. rewrite app_nth2 by lia. f_equal. f_equal. lia.
      + rewrite ravel2, shp_gen, ravel_app by (rewrite map_length; auto). reflexivity.
  Qed.

  Lemma kron_err_nil : kron (@nil (tensor T)) SkNone false = Raise ValueError.
  Proof. reflexivity. Qed.

  Lemma kron_err_many (l : list (tensor T)) : 13 < length l -> kron l SkNone false = Raise ValueError.
  Proof.
    intros H. unfold kron. simpl skip_. rewrite kron_source.
    destruct (tf_einsum (kron_ins (length l)) (evens (length l) ++ odds (length l)) l) as [r|e] eqn:E.
    - apply einsum_ok_inv in E as (E & _). exfalso.
      assert (Hl : lower (97 + 2 * Z.of_nat 13) = true); [|discriminate].
      eapply E with (l := [(97 + 2 * Z.of_nat 13)%Z; (97 + 2 * Z.of_nat 13 + 1)%Z]); [|left; reflexivity].
      unfold kron_ins. apply in_map_iff. exists 13. split; [reflexivity|]. apply in_seq. lia.
    - apply einsum_res in E. subst. reflexivity.
  Qed.

  (** *** khatri *)
  Definition krsize (l : list (tensor T)) (R : nat) (z : Z) : nat :=
    if (z =? 122)%Z then R else nrows (nth (Z.to_nat (z - 97)) l dT).

  Definition kr_ins (n : nat) : list (list Z) := map (fun k => [(97 + Z.of_nat k)%Z; 122%Z]) (seq 0 n).

  Lemma kr_source n : map (fun i => [i; 122%Z]) (letters n) = kr_ins n.
  Proof. unfold letters, kr_ins. rewrite map_map. reflexivity. Qed.

  Lemma letters_nodup n : n <= 25 -> NoDup (letters n ++ [122%Z]).
  Proof.
    intros H. apply NoDup_app_intro.
    - apply NoDup_map_inj; [intros; lia | apply seq_NoDup].
    - repeat constructor; simpl; tauto.
    - intros x H1 H2. apply in_map_iff in H1 as (a & <- & Ha). apply in_seq in Ha.
      destruct H2 as [E|[]]. lia.
  Qed.

  Lemma in_kr_concat n x : 0 < n -> (In x (concat (kr_ins n)) <-> In x (letters n ++ [122%Z])).
  Proof.
    intros Hn. rewrite in_concat, in_app_iff. unfold kr_ins, letters. split.
    - intros (l & Hl & Hx). apply in_map_iff in Hl as (k & <- & Hk). cbn [In] in Hx.
      destruct Hx as [<-|[<-|[]]]; [left; apply in_map_iff; exists k; auto | right; simpl; auto].
    - intros [H|[<-|[]]].
      + apply in_map_iff in H as (k & <- & Hk). eexists.
        split; [apply in_map_iff; exists k; split; [reflexivity|exact Hk] | simpl; auto].
      + eexists. split; [apply in_map_iff; exists 0; split; [reflexivity|apply in_seq; lia] | simpl; auto].
  Qed.

  Lemma khatri_einsum (l : list (tensor T)) R : l <> [] -> length l <= 25 ->
    (forall M, In M l -> matrix M /\ ncols M = R) ->
    tf_einsum (kr_ins (length l)) (letters (length l) ++ [122%Z]) l =
    Ok (gen (map nrows l ++ [R]) (fun oi =>
          bigprod (length l) (fun k => mget (nth k l dT) (nth k oi 0) (nth (length l) oi 0)))).
  Proof.
    intros Hne Hlen Hm. set (n := length l) in *.
    assert (Hpos : 0 < n) by (unfold n; destruct l; [congruence | simpl; lia]).
    assert (S1 : forall k, k < n -> krsize l R (97 + Z.of_nat k) = nrows (nth k l dT)).
    { intros k Hk. unfold krsize. destruct (Z.eqb_spec (97 + Z.of_nat k) 122); [lia|].
      replace (97 + Z.of_nat k - 97)%Z with (Z.of_nat k) by lia. rewrite Nat2Z.id. reflexivity. }
    rewrite (einsum_ok _ _ l (krsize l R)).
    - rewrite summed_nil by (intros x Hx; apply in_kr_concat; auto).
      assert (E : map (krsize l R) (letters n ++ [122%Z]) = map nrows l ++ [R]).
      { rewrite map_app. unfold letters. rewrite !map_map. f_equal.
        rewrite (map_via_nth nrows l dT). apply map_ext_in. intros k Hk. apply in_seq in Hk. apply S1. lia. }
      rewrite E. f_equal. apply gen_ext. intros oi Hoi. simpl map at 1. rewrite isum_unit. rewrite !app_nil_r.
      assert (Loi : length oi = n + 1).
      { rewrite (valid_length _ _ Hoi), app_length, !map_length. reflexivity. }
      rewrite <- lprod_seq. f_equal. unfold kr_ins.
      rewrite (combine_nth_map _ l [] dT) by (rewrite length_map_seq; reflexivity).
      rewrite length_map_seq, map_map. apply map_ext_in. intros k Hk. apply in_seq in Hk.
      cbn [fst snd]. rewrite nth_map_seq by lia. unfold mget. f_equal. cbn [map].
      assert (Le : length (letters n) = n) by apply length_map_seq.
      f_equal; [|f_equal].
      + replace (97 + Z.of_nat k)%Z with (nth k (letters n ++ [122%Z]) 0%Z).
        * rewrite lookup_combine with (dl := 0); [reflexivity | apply letters_nodup; auto | |]; rewrite ?app_length; simpl; lia.
        * rewrite app_nth1 by lia. unfold letters. rewrite nth_map_seq by lia. reflexivity.
      + replace 122%Z with (nth n (letters n ++ [122%Z]) 0%Z) at 1.
        * rewrite lookup_combine with (dl := 0); [reflexivity | apply letters_nodup; auto | |]; rewrite ?app_length; simpl; lia.
        * rewrite app_nth2 by lia. rewrite Le, Nat.sub_diag. reflexivity.
    - unfold kr_ins. destruct l; [congruence|]. simpl in *. unfold n. simpl. discriminate.
    - intros g Hg. apply in_map_iff in Hg as (k & <- & _). discriminate.
    - intros g x Hg Hx. apply in_map_iff in Hg as (k & <- & Hk). apply in_seq in Hk. cbn [In] in Hx.
      unfold lower. destruct Hx as [<-|[<-|[]]]; apply andb_true_iff; split; apply Z.leb_le; lia.
    - apply nth_Forall2 with (da := []) (db := dT).
      + unfold kr_ins. rewrite length_map_seq. reflexivity.
      + unfold kr_ins. rewrite length_map_seq. intros k Hk. rewrite nth_map_seq by auto.
        cbn [map]. rewrite S1 by auto. destruct (Hm (nth k l dT)) as [Hmk Hck]; [apply nth_In; auto|].
        rewrite matrix_shp by auto. rewrite Hck. reflexivity.
    - intros g Hg. apply in_map_iff in Hg as (k & <- & Hk). apply in_seq in Hk. constructor; [|repeat constructor; simpl; tauto].
      cbn [In]. intros [E|[]]. lia.
    - apply letters_nodup; auto.
    - intros x Hx. apply in_kr_concat; auto.
  Qed.

  Lemma khatri_unfold (l : list (tensor T)) skip rv :
    khatri l skip rv = khatri (if rv then rev (skip_ l skip) else skip_ l skip) SkNone false.
  Proof. reflexivity. Qed.

  Lemma khatri_ok (l : list (tensor T)) R : l <> [] -> length l <= 25 ->
    (forall M, In M l -> matrix M /\ ncols M = R) ->
    exists K, khatri l SkNone false = Ok K /\ is_khatri l R K.
  Proof.
    intros Hne Hlen Hm. unfold khatri. simpl skip_. cbv zeta. rewrite kr_source, khatri_einsum with (R := R) by auto.
    unfold bind at 1. rewrite dims_rows by (intros; apply Hm; auto). unfold bind at 1.
    assert (H0 : pynth l 0 = Ok (nth 0 l dT)).
    { apply (pynth_nat l 0 dT). destruct l; [congruence | simpl; lia]. }
    rewrite H0. unfold bind at 1.
    destruct (Hm (nth 0 l dT)) as [Hm0 Hc0]; [apply nth_In; destruct l; [congruence | simpl; lia]|].
    assert (H1 : dim (nth 0 l dT) 1 = Ok R).
    { unfold dim. rewrite (matrix_shp _ Hm0), Hc0. reflexivity. }
    rewrite H1. unfold bind.
    pose proof (reshape_ok (gen (map nrows l ++ [R])
         (fun oi => bigprod (length l) (fun k => mget (nth k l dT) (nth k oi 0) (nth (length l) oi 0))))
      [prod (map nrows l); R]) as E.
    simpl map in E. rewrite E by (simpl; rewrite prod_app; simpl; lia). clear E.
    eexists; split; [reflexivity|]. split.
    - split; [|reflexivity]. apply wf_reshape; [apply wf_gen|]. simpl. rewrite prod_app. simpl. lia.
    - intros i r Hi Hr.
      pose proof (valid_length _ _ Hi) as Li. rewrite map_length in Li.
      rewrite <- !ravel_rowmajor by (rewrite ?map_length; auto).
      unfold mget at 1. rewrite get_reshape with (idx := i ++ [r]).
      + rewrite get_gen by (apply valid_app; auto; repeat constructor; auto). apply bigprod_ext. intros k Hk.
        rewrite app_nth1 by lia. rewrite app_nth2 by lia. rewrite Li, Nat.sub_diag. reflexivity.
      + rewrite ravel2, shp_gen, ravel_app by (rewrite map_length; auto). simpl. lia.
  Qed.

  Lemma khatri_err_nil : khatri (@nil (tensor T)) SkNone false = Raise ValueError.
  Proof. reflexivity. Qed.

  Lemma khatri_err_many (l : list (tensor T)) : 25 < length l -> khatri l SkNone false = Raise ValueError.
  Proof.
    intros H. unfold khatri. simpl skip_. cbv zeta. rewrite kr_source.
    destruct (tf_einsum (kr_ins (length l)) (letters (length l) ++ [122%Z]) l) as [r|e] eqn:E.
    - apply einsum_ok_inv in E as (_ & _ & _ & _ & _ & _ & E & _). exfalso.
      apply NoDup_remove in E as [_ E]. rewrite app_nil_r in E. apply E.
      unfold letters. apply in_map_iff. exists 25. split; [reflexivity|]. apply in_seq. lia.
    - apply einsum_res in E. subst. reflexivity.
  Qed.
End Kron.
