(** DTensor histories, broadcasting and dtypes (C23, C24, C25, C26). *)

From Coq Require Import ZArith List Bool Arith Lia Permutation.
From Verif Require Import Num Py Tensor TF TensorFacts TFFacts Sums Ops Types Spec SpecTypes LayoutFacts SpecFacts KronFacts OpsLemmas Matricize.
Import ListNotations.

(** ** broadcasting *)

Definition bc (x y : nat) : nat := if Nat.eqb x 1 then y else x.

Lemma bshape_rev_ok a : forall b, (forall k, nth k a 1 = nth k b 1 \/ nth k a 1 = 1 \/ nth k b 1 = 1) ->
  bshape_rev a b = Some (map (fun k => bc (nth k a 1) (nth k b 1)) (seq 0 (Nat.max (length a) (length b)))).
Proof.
  induction a as [|x a IH]; intros b H.
  - simpl. f_equal. rewrite <- (map_nth_seq b 1) at 1. apply map_ext. intros k. destruct k; reflexivity.
  - destruct b as [|y b].
    + simpl length. rewrite Nat.max_0_r. simpl bshape_rev. f_equal. rewrite <- (map_nth_seq (x :: a) 1) at 1.
      apply map_ext. intros k. unfold bc. replace (nth k [] 1) with 1 by (destruct k; reflexivity).
      destruct (Nat.eqb_spec (nth k (x :: a) 1) 1); auto.
    + cbn [bshape_rev]. rewrite IH by (intros k; apply (H (S k))). simpl length. cbn [Nat.max seq map].
      rewrite <- seq_shift, map_map. cbn [nth]. specialize (H 0). cbn [nth] in H.
      destruct (Nat.eqb_spec x y) as [->|Exy].
      * f_equal. f_equal. unfold bc. destruct (Nat.eqb_spec y 1); auto.
      * assert (E : bc x y = if Nat.eqb x 1 then y else x) by reflexivity. rewrite E.
        destruct (Nat.eqb_spec x 1); auto. destruct (Nat.eqb_spec y 1); auto. lia.
Qed.

Lemma bshape_rev_inv a : forall b r, bshape_rev a b = Some r ->
  forall k, nth k a 1 = nth k b 1 \/ nth k a 1 = 1 \/ nth k b 1 = 1.
Proof.
  induction a as [|x a IH]; intros b r H k.
  - right; left. destruct k; reflexivity.
  - destruct b as [|y b]; [right; right; destruct k; reflexivity|].
    cbn [bshape_rev] in H. destruct (bshape_rev a b) as [r'|] eqn:E; [|discriminate].
    destruct k as [|k]; [|apply (IH b r' E k)]. cbn [nth].
    destruct (Nat.eqb_spec x y); auto. destruct (Nat.eqb_spec x 1); auto. destruct (Nat.eqb_spec y 1); auto. discriminate.
Qed.

Lemma bshape_ok a b : broadcastable a b -> bshape a b = Some (broadcast_shape a b).
Proof.
  intros H. unfold bshape. rewrite bshape_rev_ok by exact H. unfold broadcast_shape. rewrite !rev_length. reflexivity.
Qed.

Lemma bshape_err a b : ~ broadcastable a b -> bshape a b = None.
Proof.
  intros H. unfold bshape. destruct (bshape_rev (rev a) (rev b)) eqn:E; [|reflexivity].
  exfalso. apply H. intros k. apply (bshape_rev_inv _ _ _ E).
Qed.

Lemma bidx_ok s idx : length s <= length idx -> bidx s idx = broadcast_index s idx.
Proof.
  intros H. unfold bidx, broadcast_index.
  assert (L : length (skipn (length idx - length s) idx) = length s) by (rewrite skipn_length; lia).
  apply nth_ext with (d := 0) (d' := 0).
  { rewrite map_length, combine_length, rev_length, map_length, seq_length. lia. }
  intros k Hk. rewrite map_length, combine_length, L, Nat.min_id in Hk.
  rewrite nth_map_lt with (da := (0, 0)) by (rewrite combine_length; lia).
  rewrite combine_nth by auto. cbn [fst snd].
  rewrite rev_nth by (rewrite map_length, seq_length; auto). rewrite map_length, seq_length.
  rewrite nth_map_seq by lia. unfold last_dim.
  rewrite (rev_nth s) by lia. rewrite (rev_nth idx) by lia.
  replace (length s - S (length s - S k)) with k by lia.
  rewrite (nth_indep s 1 0) by auto.
  destruct (Nat.eqb (nth k s 0) 1); auto.
  assert (G : forall n (l : list nat) k, nth k (skipn n l) 0 = nth (n + k) l 0).
  { clear. induction n; intros [|x l] k; cbn [skipn nth Nat.add]; auto. destruct k; auto. }
  rewrite G. f_equal. lia.
Qed.

Section T.
  Context {T : Type} {N : Num T}.

  Lemma bin_broadcast op (A B : tensor T) : broadcastable (shp A) (shp B) ->
    tf_bin op A B = Ok (gen (broadcast_shape (shp A) (shp B)) (fun idx =>
      op (get A (broadcast_index (shp A) idx)) (get B (broadcast_index (shp B) idx)))).
  Proof.
    intros H. unfold tf_bin. rewrite bshape_ok by auto. f_equal. apply gen_ext. intros idx Hi.
    apply valid_length in Hi. unfold broadcast_shape in Hi. rewrite rev_length, map_length, seq_length in Hi.
    rewrite !bidx_ok by lia. reflexivity.
  Qed.

  Lemma bin_broadcast_err op (A B : tensor T) : ~ broadcastable (shp A) (shp B) ->
    tf_bin op A B = Raise ValueError.
  Proof. intros H. unfold tf_bin. rewrite bshape_err by auto. reflexivity. Qed.

  (** ** DTensor *)

  Lemma dcall_T (d : dtensor T) c : d_T (fst (dcall_exec d c)) = d_T d.
  Proof.
    destruct c; simpl; try reflexivity.
    - destruct o; reflexivity.
    - destruct (d_unfold d); [reflexivity|]. destruct (unfold (d_T d) mode); reflexivity.
  Qed.

  Lemma dcalls_T cs : forall d : dtensor T, d_T (dcalls d cs) = d_T d.
  Proof. induction cs as [|c cs IH]; intros d; simpl; [reflexivity|]. rewrite IH. apply dcall_T. Qed.

  Lemma dcalls_unfold cs : forall d : dtensor T,
    d_unfold (dcalls d cs) =
    match d_unfold d with
    | Some u => Some u
    | None => match first_unfold (d_T d) cs with
              | Some m => match unfold (d_T d) m with Ok u => Some u | Raise _ => None end
              | None => None
              end
    end.
  Proof.
    induction cs as [|c cs IH]; intros d; simpl.
    - destruct (d_unfold d); reflexivity.
    - rewrite IH. rewrite dcall_T. destruct (d_unfold d) as [u|] eqn:E.
      + assert (E1 : d_unfold (fst (dcall_exec d c)) = Some u).
        { destruct c; simpl; rewrite ?E; try reflexivity; simpl; rewrite ?E; try reflexivity.
          destruct o; simpl; rewrite E; reflexivity. }
        rewrite E1. reflexivity.
      + destruct c; simpl; rewrite ?E; try reflexivity.
        * destruct o; simpl; rewrite E; reflexivity.
        * destruct (unfold (d_T d) mode) eqn:E2; simpl; rewrite ?E, ?E2; reflexivity.
  Qed.

  Lemma first_unfold_ok t cs m : first_unfold t cs = Some m -> exists u, unfold t m = Ok u.
  Proof.
    induction cs as [|c cs IH]; simpl; [discriminate|]. destruct c; auto.
    destruct (unfold t mode) eqn:E; auto. intros H. injection H as <-. eauto.
  Qed.

  Lemma c23_exact (t : tensor T) (cs : list (dcall T)) (n : Z) :
    snd (dcall_exec (dcalls (dtensor_init t) cs) (CUnfold n)) =
    unfold t (match first_unfold t cs with Some m => m | None => n end).
  Proof.
    cbn [dcall_exec]. rewrite dcalls_unfold, dcalls_T. cbn [dtensor_init d_unfold d_T].
    destruct (first_unfold t cs) as [m|] eqn:E.
    - destruct (first_unfold_ok _ _ _ E) as (u & Eu). rewrite Eu. reflexivity.
    - destruct (unfold t n); reflexivity.
  Qed.

  Lemma c23_partial (t : tensor T) (cs : list (dcall T)) (n : Z) :
    (forall m u, In (CUnfold m) cs -> unfold t m = Ok u -> m = n) ->
    snd (dcall_exec (dcalls (dtensor_init t) cs) (CUnfold n)) = unfold t n.
  Proof.
    intros H. rewrite c23_exact. destruct (first_unfold t cs) as [m|] eqn:E; [|reflexivity].
    destruct (first_unfold_ok _ _ _ E) as (u & Eu). rewrite (H m u); auto.
    clear -E. induction cs as [|c cs IH]; simpl in E; [discriminate|].
    destruct c; try (right; apply IH; exact E).
    destruct (unfold t mode); [injection E as <-; left; reflexivity|right; auto].
  Qed.

  (** ** KTensor dtypes *)
  Variable cast : dtype -> T -> T.

  Lemma dtype_eqb_refl d : dtype_eqb d d = true. Proof. destruct d; reflexivity. Qed.
  Lemma dtype_eqb_eq a b : dtype_eqb a b = true <-> a = b.
  Proof. destruct a, b; simpl; split; congruence. Qed.

  Lemma same_dtype_ok (l : list (arr T)) dt : (forall a, In a l -> a_dt a = dt) -> same_dtype l = Ok tt.
  Proof.
    intros H. destruct l as [|a l]; [reflexivity|]. simpl.
    replace (forallb (fun b => dtype_eqb (a_dt a) (a_dt b)) l) with true; auto.
    symmetry. apply forallb_forall. intros b Hb. rewrite (H a), (H b) by (simpl; auto). apply dtype_eqb_refl.
  Qed.

  Lemma no_np (U : list (arr T)) : (forall a, In a U -> a_kind a = TFT) -> existsb is_np U = false.
  Proof.
    intros H. destruct (existsb is_np U) eqn:E; auto. apply existsb_exists in E as (a & Ha & E).
    unfold is_np in E. rewrite (H a Ha) in E. discriminate.
  Qed.

  (** what [self.U] is *)
  Definition k_factors (U : list (arr T)) : list (arr T) :=
    match U with
    | a :: _ => if is_np a then map (fun a => mkArr TFT F32 (tf_map (cast F32) (a_t a))) U else U
    | [] => []
    end.


  Lemma k_factors_init U dt : uniform U dt -> exists f0, pynth U 0 = Ok f0 /\
    (if is_np f0 then mapM (tf_constant32 cast) U else Ok U) = Ok (k_factors U) /\
    (forall a, In a (k_factors U) -> a_kind a = TFT /\ a_dt a = k_dt U dt) /\ k_factors U <> [].
  Proof.
    intros [Hne H]. destruct U as [|f0 U]; [congruence|]. exists f0. split; [reflexivity|].
    destruct H as [H|H].
    - assert (E0 : is_np f0 = true) by (unfold is_np; rewrite (H f0); simpl; auto).
      unfold k_factors, k_dt. rewrite E0. split; [|split].
      + apply mapM_ok. intros a Ha. unfold tf_constant32. rewrite (H a Ha). reflexivity.
      + intros a Ha. apply in_map_iff in Ha as (b & <- & _). auto.
      + discriminate.
    - assert (E0 : is_np f0 = false) by (unfold is_np; rewrite (proj1 (H f0 (or_introl eq_refl))); auto).
      unfold k_factors, k_dt. rewrite E0. split; [reflexivity|]. split; [exact H|discriminate].
  Qed.

  Lemma weights_column_mat R dt l : weights_fit R dt l -> is_mat (weights_column R l) R 1.
  Proof.
    destruct l as [a|]; simpl; [intros (_ & Hw & Hs)|intros _].
    - split; [|reflexivity]. unfold wf in *. simpl. rewrite Hw. destruct Hs as [->| ->]; simpl; lia.
    - split; [apply wf_gen|reflexivity].
  Qed.

  Lemma factors_mat U dt R : (forall a, In a U -> matrix (a_t a) /\ ncols (a_t a) = R) -> uniform U dt ->
    (forall M, In M (map a_t (k_factors U)) -> matrix M /\ ncols M = R) /\ length (k_factors U) = length U.
  Proof.
    intros Hm HU. split.
    - intros M HM. apply in_map_iff in HM as (a & <- & Ha). unfold k_factors in Ha.
      destruct U as [|b U]; [contradiction|]. destruct (is_np b); auto.
      apply in_map_iff in Ha as (a' & <- & Ha'). destruct (Hm a' Ha') as [[Hw Hs] Hc]. cbn [a_t].
      unfold matrix, nrows, ncols, is_mat in *. cbn [tf_map shp]. split; [split|]; auto.
      apply wf_map; auto.
    - unfold k_factors. destruct U; auto. destruct (is_np a); auto. apply map_length.
  Qed.

  Lemma c25_k (RL : RingLaws T) (U : list (arr T)) (lam : option (arr T)) dt R :
    uniform U dt ->
    (forall a, In a U -> matrix (a_t a) /\ ncols (a_t a) = R) ->
    weights_fit R (k_dt U dt) lam ->
    exists k, ktensor_init cast U lam = Ok k /\ k_U k = k_factors U /\
      ktensor_extract k = (do t <- kt_extract (map a_t (k_U k)) (weights_column R lam); Ok (k_dt U dt, t)).
  Proof.
    intros HU Hm Hlam. destruct (k_factors_init U dt HU) as (f0 & E0 & EU & HF & HFne).
    destruct (factors_mat U dt R Hm HU) as [HmF HlF].
    unfold ktensor_init. rewrite E0. cbn [bind]. rewrite EU. cbn [bind].
    destruct (k_factors U) as [|u0 F] eqn:EF; [congruence|].
    assert (Hu0 : shp (a_t u0) = [nrows (a_t u0); R]).
    { destruct (HmF (a_t u0)) as [Hmu Hc]; [left; reflexivity|]. rewrite <- Hc. apply matrix_shp; auto. }
    assert (EL : exists la, match lam with
              | None => do u0 <- pynth (u0 :: F) 0; do r <- dim (a_t u0) 1; Ok (mkArr TFT F32 (tf_ones [r; 1]))
              | Some l => Ok (expand_if_vec (mkArr TFT (a_dt l) (a_t l)))
              end = Ok la /\ a_dt la = k_dt U dt /\ a_t la = weights_column R lam).
    { destruct lam as [l|]; simpl in Hlam.
      - destruct Hlam as (Hd & Hw & Hs). eexists; split; [reflexivity|]. unfold expand_if_vec. cbn [a_t a_dt].
        destruct Hs as [Hs|Hs]; rewrite Hs; cbn [a_t a_dt]; split; auto. simpl. rewrite <- Hs. destruct (a_t l); reflexivity.
      - change (pynth (u0 :: F) 0) with (Ok u0). cbn [bind]. unfold dim. rewrite Hu0. cbn. eexists; split; [reflexivity|].
        cbn [a_t a_dt]. split; auto. }
    destruct EL as (la & -> & Hd & Ht). cbn [bind]. eexists; split; [reflexivity|]. split; [reflexivity|].
    unfold ktensor_extract. cbn [k_U k_lam]. rewrite no_np by (intros a Ha; apply HF; auto).
    rewrite (same_dtype_ok _ (k_dt U dt)) by (intros a Ha; apply HF; auto). cbn [bind].
    change (pynth (u0 :: F) 0) with (Ok u0). cbn [bind].
    rewrite (same_dtype_ok _ (k_dt U dt)).
    2: { intros a [<-|[<-|[]]]; auto. apply HF; left; reflexivity. }
    cbn [bind]. rewrite Ht. destruct (HF u0 (or_introl eq_refl)) as [_ ->]. reflexivity.
  Qed.

  Lemma c25_full (RL : RingLaws T) (U : list (arr T)) (lam : option (arr T)) dt R :
    uniform U dt -> length U <= 25 ->
    (forall a, In a U -> matrix (a_t a) /\ ncols (a_t a) = R) ->
    weights_fit R (k_dt U dt) lam ->
    exists k, ktensor_init cast U lam = Ok k /\
      ktensor_extract k = Ok (k_dt U dt, cp_tensor R (weights_column R lam) (map a_t (k_factors U))).
  Proof.
    intros HU Hlen Hm Hlam. destruct (c25_k RL U lam dt R HU Hm Hlam) as (k & E1 & E2 & E3).
    destruct (factors_mat U dt R Hm HU) as [HmF HlF].
    exists k. split; auto. rewrite E3, E2. rewrite (kt_extract_ok RL _ _ R); auto.
    - destruct (k_factors_init U dt HU) as (f0 & _ & _ & _ & H). destruct (k_factors U); [congruence|discriminate].
    - rewrite map_length. lia.
    - eapply weights_column_mat; eauto.
  Qed.

  (** mixed dtypes: TypeError *)
  Lemma c26_bad (U : list (arr T)) (lam : option (arr T)) dt :
    uniform U dt -> (forall a, In a U -> matrix (a_t a)) ->
    match lam with Some l => a_dt l <> k_dt U dt | None => k_dt U dt <> F32 end ->
    exists k, ktensor_init cast U lam = Ok k /\ ktensor_extract k = Raise TypeError.
  Proof.
    intros HU Hm Hlam. destruct (k_factors_init U dt HU) as (f0 & E0 & EU & HF & HFne).
    unfold ktensor_init. rewrite E0. cbn [bind]. rewrite EU. cbn [bind].
    destruct (k_factors U) as [|u0 F] eqn:EF; [congruence|].
    assert (Hs : exists r c, shp (a_t u0) = [r; c]).
    { unfold k_factors in EF. destruct U as [|b U]; [discriminate|].
      assert (Hb : exists r c, shp (a_t b) = [r; c]).
      { destruct (Hm b (or_introl eq_refl)) as [_ Hs]. eauto. }
      destruct (is_np b); simpl in EF; injection EF as <- _; auto. }
    assert (EL : exists la, match lam with
              | None => do u0 <- pynth (u0 :: F) 0; do r <- dim (a_t u0) 1; Ok (mkArr TFT F32 (tf_ones [r; 1]))
              | Some l => Ok (expand_if_vec (mkArr TFT (a_dt l) (a_t l)))
              end = Ok la /\ a_dt la <> k_dt U dt).
    { destruct lam as [l|].
      - eexists; split; [reflexivity|]. unfold expand_if_vec. cbn [a_t a_dt].
        destruct (shp (a_t l)) as [|? [|]]; cbn [a_dt]; auto.
      - change (pynth (u0 :: F) 0) with (Ok u0). cbn [bind]. unfold dim.
        destruct Hs as (r & c & ->). cbn. eexists; split; [reflexivity|]. cbn [a_dt]. auto. }
    destruct EL as (la & -> & Hd). cbn [bind]. eexists; split; [reflexivity|].
    unfold ktensor_extract. cbn [k_U k_lam]. rewrite no_np by (intros a Ha; apply HF; auto).
    rewrite (same_dtype_ok _ (k_dt U dt)) by (intros a Ha; apply HF; auto). cbn [bind].
    change (pynth (u0 :: F) 0) with (Ok u0). cbn [bind].
    unfold same_dtype. cbn [forallb]. rewrite andb_true_r.
    destruct (dtype_eqb (a_dt u0) (a_dt la)) eqn:E; [|reflexivity].
    apply dtype_eqb_eq in E. exfalso. apply Hd. rewrite <- E. apply HF. left; reflexivity.
  Qed.

  Lemma kt_extract_limit (U : list (tensor T)) lam : U = [] \/ 25 < length U -> kt_extract U lam = Raise ValueError.
  Proof. intros H. unfold kt_extract. rewrite c18_lim by auto. reflexivity. Qed.

  Lemma c25_tf (RL : RingLaws T) (U : list (arr T)) (lam : option (arr T)) dt R :
    U <> [] -> (forall a, In a U -> a_kind a = TFT /\ a_dt a = dt) ->
    (forall a, In a U -> matrix (a_t a) /\ ncols (a_t a) = R) -> weights_fit R dt lam ->
    exists k, ktensor_init cast U lam = Ok k /\
      ktensor_extract k = if 25 <? length U then Raise ValueError
                          else Ok (dt, cp_tensor R (weights_column R lam) (map a_t U)).
  Proof.
    intros Hne Hk Hm Hl.
    assert (HU : uniform U dt) by (split; auto).
    assert (Ed : k_dt U dt = dt /\ k_factors U = U).
    { destruct U as [|b U]; [congruence|]. unfold k_dt, k_factors, is_np. rewrite (proj1 (Hk b (or_introl eq_refl))). auto. }
    destruct Ed as [Ed Ef].
    destruct (Nat.ltb_spec 25 (length U)).
    - destruct (c25_k RL U lam dt R HU Hm) as (k & E1 & E2 & E3); [rewrite Ed; auto|].
      exists k; split; auto. rewrite E3. rewrite kt_extract_limit; [reflexivity|].
      rewrite map_length, E2. right. rewrite Ef. auto.
    - destruct (c25_full RL U lam dt R HU) as (k & E1 & E2); auto; [rewrite Ed; auto|].
      exists k; split; auto. rewrite E2, Ed, Ef. reflexivity.
  Qed.

  Lemma c25_np (RL : RingLaws T) (U : list (arr T)) (lam : option (arr T)) R :
    U <> [] -> (forall a, In a U -> a_kind a = NP) ->
    (forall a, In a U -> matrix (a_t a) /\ ncols (a_t a) = R) -> weights_fit R F32 lam ->
    exists k, ktensor_init cast U lam = Ok k /\
      ktensor_extract k = if 25 <? length U then Raise ValueError
                          else Ok (F32, cp_tensor R (weights_column R lam) (map (fun a => tf_map (cast F32) (a_t a)) U)).
  Proof.
    intros Hne Hk Hm Hl.
    assert (HU : uniform U F32) by (split; auto).
    assert (Ed : k_dt U F32 = F32 /\ k_factors U = map (fun a => mkArr TFT F32 (tf_map (cast F32) (a_t a))) U).
    { destruct U as [|b U]; [congruence|]. unfold k_dt, k_factors, is_np. rewrite (Hk b (or_introl eq_refl)). auto. }
    destruct Ed as [Ed Ef].
    destruct (Nat.ltb_spec 25 (length U)).
    - destruct (c25_k RL U lam F32 R HU Hm) as (k & E1 & E2 & E3); [rewrite Ed; auto|].
      exists k; split; auto. rewrite E3. rewrite kt_extract_limit; [reflexivity|].
      rewrite map_length, E2. right. rewrite Ef, map_length. auto.
    - destruct (c25_full RL U lam F32 R HU) as (k & E1 & E2); auto; [rewrite Ed; auto|].
      exists k; split; auto. rewrite E2, Ed, Ef, map_map. reflexivity.
  Qed.
End T.

Section T2.
  Context {T : Type} {N : Num T}.

  Lemma c24_state (t : tensor T) (cs : list (dcall T)) : d_T (dcalls (dtensor_init t) cs) = t.
  Proof. rewrite dcalls_T. reflexivity. Qed.

  Lemma c24_ops (t u : tensor T) (cs cs' : list (dcall T)) (a b : axarg) :
    let d := dcalls (dtensor_init t) cs in
    let e := dcalls (dtensor_init u) cs' in
    snd (dcall_exec d (CMul (OD e) a b)) = mul t u a b /\
    snd (dcall_exec d (CMul (OT u) a b)) = Raise AttributeError /\
    snd (dcall_exec d (CT2mat a b)) = t2mat t a b /\
    snd (dcall_exec d CVectorize) = vectorize t /\
    (forall o, o = OD e \/ o = OT u -> snd (dcall_exec d (CKron o)) = kron [t; u] SkNone false /\
      snd (dcall_exec d (CKhatri o)) = khatri [t; u] SkNone false) /\
    (forall m mode s, snd (dcall_exec d (CFold m mode s)) = fold m mode s).
  Proof.
    intros d e. assert (Hd : d_T d = t) by apply c24_state. assert (He : d_T e = u) by apply c24_state.
    repeat split; try (cbn [dcall_exec snd]; rewrite ?Hd, ?He; reflexivity).
    all: destruct H as [->| ->]; cbn [dcall_exec snd operand_val]; rewrite ?Hd, ?He; reflexivity.
  Qed.

  Lemma c24_arith (t u : tensor T) (cs cs' : list (dcall T)) (o : operand T) :
    let d := dcalls (dtensor_init t) cs in
    o = OD (dcalls (dtensor_init u) cs') \/ o = OT u ->
    (broadcastable (shp t) (shp u) ->
      let at_t idx := get t (broadcast_index (shp t) idx) in
      let at_u idx := get u (broadcast_index (shp u) idx) in
      snd (dcall_exec d (CAdd o)) = Ok (gen (broadcast_shape (shp t) (shp u)) (fun i => nadd (at_t i) (at_u i))) /\
      snd (dcall_exec d (CSub o)) = Ok (gen (broadcast_shape (shp t) (shp u)) (fun i => nsub (at_t i) (at_u i))) /\
      snd (dcall_exec d (CMulE o)) = Ok (gen (broadcast_shape (shp t) (shp u)) (fun i => nmul (at_t i) (at_u i)))) /\
    (~ broadcastable (shp t) (shp u) ->
      snd (dcall_exec d (CAdd o)) = Raise ValueError /\ snd (dcall_exec d (CSub o)) = Raise ValueError /\
      snd (dcall_exec d (CMulE o)) = Raise ValueError).
  Proof.
    intros d Ho. assert (Hd : d_T d = t) by apply c24_state.
    assert (Hu : operand_val o = u) by (destruct Ho as [->| ->]; [apply c24_state|reflexivity]).
    split; intros H; [intros at_t at_u|]; cbn [dcall_exec snd]; rewrite Hd, Hu;
      rewrite ?bin_broadcast, ?bin_broadcast_err by auto; auto.
  Qed.

  Lemma norm_index_ok s : forall idx, length idx <= length s ->
    (forall k, k < length idx -> (- Z.of_nat (nth k s 0%nat) <= nth k idx 0 < Z.of_nat (nth k s 0%nat))%Z) ->
    norm_index s idx = Ok (map (fun k => py_index (nth k s 0) (nth k idx 0%Z)) (seq 0 (length idx))).
  Proof.
    induction s as [|d s IH]; intros [|i idx] Hl H; simpl in Hl; try lia; try reflexivity.
    simpl norm_index. assert (H0 := H 0 ltac:(simpl; lia)). simpl in H0.
    replace ((0 <=? (if (i <? 0)%Z then (i + Z.of_nat d)%Z else i))%Z &&
      ((if (i <? 0)%Z then (i + Z.of_nat d)%Z else i) <? Z.of_nat d)%Z)%bool with true.
    2: { symmetry. apply andb_true_iff. rewrite Z.leb_le, Z.ltb_lt. destruct (Z.ltb_spec i 0); lia. }
    rewrite IH; [|lia|intros k Hk; apply (H (S k)); simpl; lia]. cbn [bind].
    simpl length. cbn [seq map]. rewrite <- seq_shift, map_map. reflexivity.
  Qed.

  Lemma norm_index_err s : forall idx, (length s < length idx \/
    exists k, k < length idx /\ k < length s /\ (nth k idx 0 < - Z.of_nat (nth k s 0%nat) \/ Z.of_nat (nth k s 0%nat) <= nth k idx 0)%Z) ->
    norm_index s idx = Raise ValueError.
  Proof.
    induction s as [|d s IH]; intros [|i idx] H; simpl in H.
    - destruct H as [H|(k & H & _)]; lia.
    - reflexivity.
    - destruct H as [H|(k & H & _)]; lia.
    - simpl. destruct (_ && _)%bool eqn:E; [|reflexivity].
      rewrite IH; [reflexivity|]. destruct H as [H|(k & Hk & Hk2 & H)]; [left; lia|].
      right. destruct k as [|k]; [|exists k; repeat split; auto; lia].
      exfalso. apply andb_true_iff in E as [E1 E2]. apply Z.leb_le in E1. apply Z.ltb_lt in E2.
      destruct (Z.ltb_spec i 0); lia.
  Qed.

  Lemma c24_getitem (t : tensor T) (cs : list (dcall T)) (idx : list Z) :
    let d := dcalls (dtensor_init t) cs in
    (length idx <= ndims t ->
     (forall k, k < length idx -> (- Z.of_nat (nth k (shp t) 0%nat) <= nth k idx 0 < Z.of_nat (nth k (shp t) 0%nat))%Z) ->
     snd (dcall_exec d (CGetitem idx)) =
       Ok (gen (skipn (length idx) (shp t)) (fun r =>
             get t (map (fun k => py_index (nth k (shp t) 0) (nth k idx 0%Z)) (seq 0 (length idx)) ++ r)))) /\
    ((ndims t < length idx \/ exists k, k < length idx /\ k < ndims t /\
        (nth k idx 0 < - Z.of_nat (nth k (shp t) 0%nat) \/ Z.of_nat (nth k (shp t) 0%nat) <= nth k idx 0)%Z) ->
     snd (dcall_exec d (CGetitem idx)) = Raise ValueError).
  Proof.
    intros d. assert (Hd : d_T d = t) by apply c24_state. unfold ndims.
    split; intros H; [intros H2|]; cbn [dcall_exec snd]; rewrite Hd; unfold tf_getitem.
    - rewrite norm_index_ok by auto. cbn [bind]. rewrite map_length, seq_length. reflexivity.
    - rewrite norm_index_err by auto. reflexivity.
  Qed.

  Context (RL : RingLaws T).

  Lemma c27 (U : list (tensor T)) (lam X : tensor T) R n : kt_extract U lam = Ok X ->
    (forall M, In M U -> matrix M /\ ncols M = R) -> is_mat lam R 1 ->
    n < length U -> 2 <= length U -> nrows (mat_at U n) <> 0 ->
    exists M H, unfold X (Z.of_nat n) = Ok M /\ khatri U (SkInt (Z.of_nat n)) true = Ok H /\
      is_mat M (nrows (mat_at U n)) (nrows H) /\ is_mat H (nrows H) R /\
      forall i j, i < nrows (mat_at U n) -> j < nrows H ->
        mget M i j = bigsum R (fun r => nmul (nmul (mget (mat_at U n) i r) (mget lam r 0)) (mget H j r)).
  Proof.
    intros E Hm Hl Hn H2 H0.
    assert (L : length U <= 25).
    { destruct (le_lt_dec (length U) 25); auto. exfalso. rewrite kt_extract_limit in E by auto. discriminate. }
    rewrite (kt_extract_ok RL U lam R) in E; auto; [|intros ->; simpl in *; lia].
    injection E as <-. apply (cp_unfold RL); auto.
  Qed.

  Lemma c28 (core : arr T) (U : list (arr T)) dt :
    U <> [] -> a_dt core = dt -> (forall a, In a U -> a_dt a = dt) ->
    ((forall a, In a U -> a_kind a = NP) \/ (forall a, In a U -> a_kind a = TFT)) ->
    wf (a_t core) -> ndims (a_t core) <= 13 -> length U = ndims (a_t core) ->
    (forall k, k < length U -> matrix (mat_at (map a_t U) k) /\ ncols (mat_at (map a_t U) k) = nth k (shp (a_t core)) 0) ->
    ttensor_extract core U = Ok (dt, tucker_tensor (a_t core) (map a_t U)).
  Proof.
    intros Hne Hc Hd Hk Hw Ho Hl Hf. unfold ttensor_extract.
    destruct U as [|f0 U]; [congruence|]. change (pynth (f0 :: U) 0) with (Ok f0). cbn [bind].
    set (L := f0 :: U) in *.
    assert (E : exists U', (if is_np f0
             then mapM (fun a => if is_np a then Ok (mkArr TFT (a_dt a) (a_t a)) else Raise TypeError) L
             else Ok L) = Ok U' /\ existsb is_np U' = false /\ (forall a, In a U' -> a_dt a = dt) /\ map a_t U' = map a_t L).
    { destruct Hk as [Hk|Hk].
      - exists (map (fun a => mkArr TFT (a_dt a) (a_t a)) L).
        replace (is_np f0) with true by (unfold is_np; rewrite (Hk f0 (or_introl eq_refl)); reflexivity).
        split; [|split; [|split]].
        + apply mapM_ok. intros a Ha. unfold is_np. rewrite (Hk a Ha). reflexivity.
        + apply no_np. intros a Ha. apply in_map_iff in Ha as (b & <- & _). reflexivity.
        + intros a Ha. apply in_map_iff in Ha as (b & <- & Hb). simpl. auto.
        + rewrite map_map. reflexivity.
      - exists L. replace (is_np f0) with false by (unfold is_np; rewrite (Hk f0 (or_introl eq_refl)); reflexivity).
        split; [|split; [|split]]; auto. apply no_np. auto. }
    destruct E as (U' & -> & E2 & E3 & E4). cbn [bind]. rewrite E2.
    rewrite (same_dtype_ok _ dt). 2: { intros a [<-|Ha]; auto. }
    cbn [bind]. rewrite E4. rewrite (tt_extract_ok RL); rewrite ?map_length; auto.
    - cbn [bind]. rewrite Hc. reflexivity.
    - simpl in Hl. lia.
  Qed.

  Lemma c29 (G : tensor T) (U : list (tensor T)) X n : tt_extract G U = Ok X ->
    wf G -> 2 <= ndims G <= 13 -> length U = ndims G -> n < length U ->
    (forall k, k < length U -> matrix (mat_at U k) /\ ncols (mat_at U k) = nth k (shp G) 0) ->
    nrows (mat_at U n) <> 0 -> nth n (shp G) 0 <> 0 ->
    exists M W K P Kt, unfold X (Z.of_nat n) = Ok M /\ unfold G (Z.of_nat n) = Ok W /\
      kron U (SkInt (Z.of_nat n)) true = Ok K /\
      matprod (mat_at U n) W P /\ transposed K Kt /\ matprod P Kt M.
  Proof.
    intros E Hw Ho Hl Hn Hf H1 H2. rewrite (tt_extract_ok RL) in E; auto; try lia.
    injection E as <-. apply (tucker_unfold RL); auto; lia.
  Qed.
End T2.

(** witnesses *)
Lemma c23_refuted : exists (t : tensor Z) (m n : Z) (u : tensor Z),
  wf t /\ unfold t n = Ok u /\
  snd (dcall_exec (dcalls (dtensor_init t) [CUnfold m]) (CUnfold n)) <> Ok u.
Proof.
  exists (mkT [2; 3] [1; 2; 3; 4; 5; 6]%Z), 0%Z, 1%Z, (mkT [3; 2] [1; 4; 2; 5; 3; 6]%Z).
  repeat split; vm_compute; congruence.
Qed.

Lemma c26_np_refuted : forall cast : dtype -> Z -> Z, exists (U : list (arr Z)) (lam : arr Z) k,
  (forall a, In a U -> a_kind a = NP /\ a_dt a = F64 /\ matrix (a_t a)) /\ a_kind lam = NP /\ a_dt lam = F64 /\
  ktensor_init cast U (Some lam) = Ok k /\ ktensor_extract k = Raise TypeError.
Proof.
  intros cast. set (u := mkArr NP F64 (mkT [2; 1] [1; 2]%Z)). set (l := mkArr NP F64 (mkT [1] [3]%Z)).
  destruct (c26_bad cast [u; u] (Some l) F64) as (k & E1 & E2).
  - split; [discriminate|]. left. intros a [<-|[<-|[]]]; reflexivity.
  - intros a [<-|[<-|[]]]; (split; reflexivity).
  - simpl. discriminate.
  - exists [u; u], l, k. split; [|repeat split; auto].
    intros a [<-|[<-|[]]]; (split; [reflexivity|split; [reflexivity|split; reflexivity]]).
Qed.

Lemma c26_tf_refuted : forall cast : dtype -> Z -> Z, exists (U : list (arr Z)) k,
  (forall a, In a U -> a_kind a = TFT /\ a_dt a = F64 /\ matrix (a_t a)) /\
  ktensor_init cast U None = Ok k /\ ktensor_extract k = Raise TypeError.
Proof.
  intros cast. set (u := mkArr TFT F64 (mkT [2; 1] [1; 2]%Z)).
  destruct (c26_bad cast [u; u] None F64) as (k & E1 & E2).
  - split; [discriminate|]. right. intros a [<-|[<-|[]]]; split; reflexivity.
  - intros a [<-|[<-|[]]]; (split; reflexivity).
  - simpl. discriminate.
  - exists [u; u], k. split; [|repeat split; auto].
    intros a [<-|[<-|[]]]; (split; [reflexivity|split; [reflexivity|split; reflexivity]]).
Qed.
