(** Lemmas about the PITF operators (C59-C64). *)

From Coq Require Import ZArith List Bool Arith Lia Reals Lra Psatz.
From Verif Require Import Num Py Tensor TF PitfOps Spec SpecPitf SpecReader TensorFacts TFFacts Sums SpecFacts RSums MatR ReaderFacts.
Import ListNotations.

(** ** broadcasting *)
Section B.
  Context {T : Type} {N : Num T}.

  Lemma bin_scalar op (A : tensor T) x : tf_bin op A (scalar x) = Ok (gen (shp A) (fun i => op (get A i) x)).
  Proof.
    unfold tf_bin, scalar, bshape. cbn [shp rev].
    assert (E : bshape_rev (rev (shp A)) [] = Some (rev (shp A))) by (destruct (rev (shp A)); reflexivity).
    rewrite E. cbn [option_map]. rewrite rev_involutive. f_equal. apply gen_ext. intros idx Hv.
    rewrite (bidx_same (shp A)) by auto. reflexivity.
  Qed.
  Lemma scalar_bin op (A : tensor T) x : tf_bin op (scalar x) A = Ok (gen (shp A) (fun i => op x (get A i))).
  Proof.
    unfold tf_bin, scalar, bshape. cbn [shp rev bshape_rev option_map]. rewrite rev_involutive. f_equal. apply gen_ext. intros idx Hv.
    rewrite (bidx_same (shp A)) by auto. reflexivity.
  Qed.

  Lemma valid_pair r c i j : (i < r) -> (j < c) -> valid [r; c] [i; j].
  Proof. intros. repeat constructor; auto. Qed.

  Lemma gen_mgen r c (f : list nat -> T) : gen [r; c] f = mgen r c (fun i j => f [i; j]).
  Proof.
    unfold mgen. apply gen_ext. intros idx H. inversion H as [|? ? ? ? ? H2]; subst. inversion H2 as [|? ? ? ? ? H3]; subst.
    inversion H3; subst. reflexivity.
  Qed.

  Lemma mat_scalar op (A : tensor T) x r c : shp A = [r; c] ->
    tf_bin op A (scalar x) = Ok (mgen r c (fun i j => op (mget A i j) x)).
  Proof. intros H. rewrite bin_scalar, H, gen_mgen. reflexivity. Qed.
  Lemma scalar_mat op (A : tensor T) x r c : shp A = [r; c] ->
    tf_bin op (scalar x) A = Ok (mgen r c (fun i j => op x (mget A i j))).
  Proof. intros H. rewrite scalar_bin, H, gen_mgen. reflexivity. Qed.
  Lemma mat_mat op (A B : tensor T) r c : shp A = [r; c] -> shp B = [r; c] ->
    tf_bin op A B = Ok (mgen r c (fun i j => op (mget A i j) (mget B i j))).
  Proof. intros HA HB. rewrite bin_same by congruence. rewrite HA, gen_mgen. reflexivity. Qed.

  (** 1 x 1 against r x c *)
  Lemma one_mat op (A B : tensor T) r c : shp A = [1; 1] -> shp B = [r; c] ->
    tf_bin op A B = Ok (mgen r c (fun i j => op (mget A 0 0) (mget B i j))).
  Proof.
    intros HA HB. unfold tf_bin, bshape. rewrite HA, HB. cbn [rev app bshape_rev].
    assert (E : bshape_rev [1] [r] = Some [r]).
    { cbn [bshape_rev]. destruct (Nat.eqb_spec 1 r); subst; reflexivity. }
    cbn [bshape_rev] in E. rewrite E.
    assert (E2 : (if Nat.eqb 1 c then Some [1; r] else if Nat.eqb 1 1 then Some [c; r] else if Nat.eqb c 1 then Some [1; r] else None) = Some [c; r]).
    { destruct (Nat.eqb_spec 1 c); subst; reflexivity. }
    rewrite E2. cbn [option_map rev app]. f_equal. rewrite gen_mgen. apply mgen_ext. intros i j Hi Hj.
    rewrite (bidx_same [r; c]) by (apply valid_pair; auto). reflexivity.
  Qed.

  (** r x 1 against 1 x c *)
  Lemma col_row op (A B : tensor T) r c : shp A = [r; 1] -> shp B = [1; c] ->
    tf_bin op A B = Ok (mgen r c (fun i j => op (mget A i 0) (mget B 0 j))).
  Proof.
    intros HA HB. unfold tf_bin, bshape. rewrite HA, HB. cbn [rev app bshape_rev].
    assert (E : bshape_rev [r] [1] = Some [r]).
    { cbn [bshape_rev]. destruct (Nat.eqb_spec r 1); subst; [reflexivity|]. destruct (Nat.eqb_spec r 1); [lia|]. reflexivity. }
    cbn [bshape_rev] in E. rewrite E.
    assert (E2 : (if Nat.eqb 1 c then Some [1; r] else if Nat.eqb 1 1 then Some [c; r] else if Nat.eqb c 1 then Some [1; r] else None) = Some [c; r]).
    { destruct (Nat.eqb_spec 1 c); subst; reflexivity. }
    rewrite E2. cbn [option_map rev app]. f_equal. rewrite gen_mgen. apply mgen_ext. intros i j Hi Hj.
    unfold bidx, mget. cbn [length Nat.sub skipn combine map fst snd].
    f_equal; f_equal; [destruct (Nat.eqb_spec r 1); subst; [f_equal; lia|reflexivity]|destruct (Nat.eqb_spec c 1); subst; [do 2 f_equal; lia|reflexivity]].
  Qed.

  Lemma shp_mgen r c (f : nat -> nat -> T) : shp (mgen r c f) = [r; c]. Proof. reflexivity. Qed.
  Lemma mget_ones r c i j : i < r -> j < c -> mget (tf_ones (T := T) [r; c]) i j = n1.
  Proof. intros. unfold mget, tf_ones, tf_fill. rewrite get_gen; [reflexivity|]. apply valid_pair; auto. Qed.
  Lemma shp_ones s : shp (tf_ones (T := T) s) = s. Proof. reflexivity. Qed.
End B.

Local Open Scope R_scope.

Lemma nofnat_R n : nofnat n = INR n.
Proof. unfold nofnat. Rn. symmetry. apply INR_IZR_INZ. Qed.

Lemma bigsumR n (f : nat -> R) : bigsum n f = sumn n f.
Proof. symmetry. apply (sumn_bigsum RLR). Qed.

Lemma is_mat_rc (M : tensor R) r c : is_mat M r c -> rows M = r /\ cols M = c /\ nrows M = r /\ ncols M = c /\ shp M = [r; c].
Proof. intros [_ H]. unfold rows, cols, nrows, ncols. rewrite H. auto. Qed.

(** ** C59 *)
Lemma centralization_ok (M : tensor R) r c : is_mat M r c ->
  centralization M = Ok (mgen r c (fun i j => mget M i j - sumn r (fun k => mget M k j) / INR r)).
Proof.
  intros HM. destruct (is_mat_rc M r c HM) as (Hr & Hc & _ & _ & Hs). unfold centralization. rewrite Hr.
  rewrite (matmul_ok false false (tf_ones [r; r]) M r r c) by (auto using shp_ones). cbn [bind].
  rewrite (mat_scalar ndiv _ _ r c) by apply shp_mgen. cbn [bind].
  rewrite (mat_mat nsub M _ r c) by (auto using shp_mgen). f_equal. apply mgen_ext. intros i j Hi Hj.
  rewrite !mget_mgen by auto. rewrite nofnat_R. Rn. f_equal. f_equal. apply sumnR_ext. intros k Hk.
  rewrite mget_ones by auto. Rn. ring.
Qed.

Lemma col_sum_mgen r c (f : nat -> nat -> R) j : (j < c)%nat -> col_sum (mgen r c f) j = sumn r (fun i => f i j).
Proof.
  intros Hj. unfold col_sum, nrows. rewrite shp_mgen, bigsumR. cbn [nth]. apply sumnR_ext. intros i Hi. apply mget_mgen; auto.
Qed.

Lemma col_sum_R (M : tensor R) r c j : is_mat M r c -> col_sum M j = sumn r (fun i => mget M i j).
Proof. intros HM. destruct (is_mat_rc M r c HM) as (_ & _ & Hr & _). unfold col_sum. rewrite Hr. apply bigsumR. Qed.

Theorem c59 (M : tensor R) r c : is_mat M r c ->
  exists C, centralization M = Ok C /\ is_mat C r c /\
    (forall i j, (i < r)%nat -> (j < c)%nat -> mget C i j = mget M i j - col_sum M j / INR r) /\
    centred C /\ centralization C = Ok C /\ (centred M -> C = M).
Proof.
  intros HM. eexists. split; [apply centralization_ok; eauto|].
  set (C := mgen r c _).
  assert (HC : is_mat C r c) by apply is_mat_mgen.
  assert (Hz : forall j, (j < c)%nat -> col_sum C j = 0).
  { intros j Hj. unfold C. rewrite col_sum_mgen by auto. rewrite sumnR_sub, sumnR_const.
    destruct (Nat.eq_dec r 0) as [-> | Hr]; [rewrite !sumn_0; Rn; simpl; lra|].
    field. apply not_0_INR; auto. }
  assert (Hfix : forall A, is_mat A r c -> (forall j, (j < c)%nat -> col_sum A j = 0) ->
     mgen r c (fun i j => mget A i j - sumn r (fun k => mget A k j) / INR r) = A).
  { intros A HA Hs. apply (mat_ext _ _ r c); auto using is_mat_mgen. intros i j Hi Hj. rewrite mget_mgen by auto.
    rewrite <- (col_sum_R A r c j HA), Hs by auto. unfold Rdiv. rewrite Rmult_0_l. lra. }
  split; [exact HC|]. split; [|split; [|split]].
  - intros i j Hi Hj. unfold C. rewrite mget_mgen by auto. rewrite (col_sum_R M r c j HM). reflexivity.
  - intros j Hj. destruct (is_mat_rc C r c HC) as (_ & _ & _ & Hc & _). rewrite Hc in Hj. auto.
  - rewrite (centralization_ok C r c HC). f_equal. apply Hfix; auto.
  - intros Hm. unfold C. apply Hfix; auto. intros j Hj. apply Hm. destruct (is_mat_rc M r c HM) as (_ & _ & _ & Hc & _). rewrite Hc. auto.
Qed.

Theorem c59_linear (A B M : tensor R) (a b : R) r c : is_mat A r c -> is_mat B r c -> is_mat M r c ->
  (forall i j, (i < r)%nat -> (j < c)%nat -> mget M i j = a * mget A i j + b * mget B i j) ->
  exists CA CB CM, centralization A = Ok CA /\ centralization B = Ok CB /\ centralization M = Ok CM /\
    forall i j, (i < r)%nat -> (j < c)%nat -> mget CM i j = a * mget CA i j + b * mget CB i j.
Proof.
  intros HA HB HM H. eexists _, _, _. split; [apply centralization_ok; eauto|]. split; [apply centralization_ok; eauto|].
  split; [apply centralization_ok; eauto|]. intros i j Hi Hj. rewrite !mget_mgen by auto. rewrite H by auto.
  rewrite (sumnR_ext r (fun k => mget M k j) (fun k => a * mget A k j + b * mget B k j)) by (intros; apply H; auto).
  rewrite sumnR_add, !sumnR_scale. unfold Rdiv. ring.
Qed.

(** ** C64 *)
Lemma total_R (M : tensor R) r c : is_mat M r c -> total M = sumn c (fun j => sumn r (fun i => mget M i j)).
Proof.
  intros HM. destruct (is_mat_rc M r c HM) as (_ & _ & _ & Hc & _). unfold total. rewrite Hc, bigsumR.
  apply sumnR_ext. intros. eapply col_sum_R; eauto.
Qed.

Lemma subspace_tmp (U V : tensor R) r c k : is_mat U r k -> is_mat V c k ->
  tf_matmul false true U V = Ok (mgen r c (fun i j => sumn k (fun l => mget U i l * mget V j l))).
Proof. intros [_ HU] [_ HV]. rewrite (matmul_ok false true U V r k c) by auto. reflexivity. Qed.

Lemma total_row_col (M : tensor R) r c : is_mat M r c ->
  exists s1 s2, tf_matmul false false (tf_ones [1%nat; r]) M = Ok s1 /\ tf_matmul false false s1 (tf_ones [c; 1%nat]) = Ok s2 /\
    shp s2 = [1%nat; 1%nat] /\ mget s2 0 0 = total M.
Proof.
  intros HM. destruct (is_mat_rc M r c HM) as (_ & _ & _ & _ & Hs).
  eexists _, _. split; [apply (matmul_ok false false _ M 1 r c); auto using shp_ones|].
  split; [apply (matmul_ok false false _ _ 1 c 1); auto using shp_ones, shp_mgen|]. split; [reflexivity|].
  rewrite mget_mgen by auto. rewrite (total_R M r c HM). apply sumnR_ext. intros j Hj.
  rewrite mget_ones by auto. rewrite mget_mgen by auto. Rn. rewrite Rmult_1_r. apply sumnR_ext. intros i Hi.
  rewrite mget_ones by auto. Rn. ring.
Qed.

Theorem c64_BC (U V : tensor R) r c k m : is_mat U r k -> is_mat V c k -> m = MB \/ m = MC ->
  exists S, subspace U V m = Ok (Some S) /\ is_mat S r c /\ centred S.
Proof.
  intros HU HV Hm. unfold subspace. rewrite (subspace_tmp U V r c k HU HV). cbn [bind].
  destruct (c59 _ r c (is_mat_mgen (T := R) r c (fun i j => sumn k (fun l => mget U i l * mget V j l)))) as (C & E & HC & _ & Hz & _).
  rewrite E. exists C. destruct Hm as [-> | ->]; cbn [bind]; auto.
Qed.

Theorem c64_A (U V : tensor R) r c k : (0 < r)%nat -> (0 < c)%nat -> is_mat U r k -> is_mat V c k ->
  exists S P, subspace U V MA = Ok (Some S) /\ is_mat S r c /\ is_mat P r c /\
    (forall i j, (i < r)%nat -> (j < c)%nat -> mget P i j = bigsum k (fun l => mget U i l * mget V j l)) /\
    total S = total P /\ forall j, (j < c)%nat -> col_sum S j = total P / INR c.
Proof.
  intros Hr Hc HU HV. unfold subspace. rewrite (subspace_tmp U V r c k HU HV). cbn [bind].
  set (P := mgen r c _). assert (HP : is_mat P r c) by apply is_mat_mgen.
  destruct (is_mat_rc P r c HP) as (Er & Ec & _ & _ & _). rewrite Er, Ec.
  destruct (c59 P r c HP) as (C & EC & HC & _ & Hz & _). rewrite EC. cbn [bind].
  destruct (total_row_col P r c HP) as (s1 & s2 & E1 & E2 & Hs2 & Ht). rewrite E1. cbn [bind]. rewrite E2. cbn [bind].
  rewrite (col_row nmul _ _ r c) by apply shp_ones. cbn [bind].
  rewrite (one_mat nmul s2 _ r c) by (auto using shp_mgen). cbn [bind].
  rewrite (mat_scalar ndiv _ _ r c) by apply shp_mgen. cbn [bind].
  destruct HC as [HCw HCs].
  rewrite (mat_mat nadd C _ r c) by (auto using shp_mgen). cbn [bind].
  eexists _, P. split; [reflexivity|]. set (S := mgen r c _). assert (HS : is_mat S r c) by apply is_mat_mgen.
  assert (HcS : forall j, (j < c)%nat -> col_sum S j = total P / INR c).
  { intros j Hj. unfold S. rewrite col_sum_mgen by auto.
    rewrite (sumnR_ext r _ (fun i => mget C i j + total P / INR (r * c))).
    - rewrite sumnR_add, sumnR_const. rewrite <- (col_sum_R C r c j) by (split; auto). rewrite Hz.
      + rewrite mult_INR. field. split; apply not_0_INR; lia.
      + unfold ncols. rewrite HCs. auto.
    - intros i Hi. rewrite !mget_mgen by auto. rewrite !mget_ones by auto. rewrite Ht, nofnat_R. Rn. f_equal. f_equal. ring. }
  split; [exact HS|]. split; [exact HP|]. split; [|split; [|exact HcS]].
  - intros i j Hi Hj. unfold P. rewrite mget_mgen by auto. rewrite bigsumR. reflexivity.
  - unfold total at 1. destruct (is_mat_rc S r c HS) as (_ & _ & _ & Ec2 & _). rewrite Ec2, bigsumR.
    rewrite (sumnR_ext c _ (fun _ => total P / INR c)) by (intros; apply HcS; auto). rewrite sumnR_const.
    field. apply not_0_INR; lia.
Qed.

(** ** C60 *)
Lemma dim_axes_ok d r c o : axes_of d r c o -> dim_axes d = Ok (r, c, o) /\ (r < 3)%nat /\ (c < 3)%nat /\ (o < 3)%nat.
Proof. intros [(-> & -> & -> & ->)|[(-> & -> & -> & ->)|(-> & -> & -> & ->)]]; repeat split; lia. Qed.

Lemma Pomega_mat_ok spl (X : tensor R) ts m d r c o : axes_of d r c o -> length ts = 3%nat ->
  is_mat X (nth r ts 0%nat) (nth c ts 0%nat) ->
  positions_in m (nth r ts 0%nat) (nth c ts 0%nat) (sp_pick spl r) (sp_pick spl c) ->
  Pomega_mat spl X ts m d =
    Ok (map (fun i => mget X (nth i (sp_pick spl r) 0%nat) (nth i (sp_pick spl c) 0%nat) / sqrt (INR (nth o ts 0%nat))) (seq 0 m)).
Proof.
  intros Hd Hl HX (H1 & H2 & H3). destruct (dim_axes_ok d r c o Hd) as (E & Lr & Lc & Lo).
  unfold Pomega_mat. rewrite E. cbn [bind].
  rewrite (mapM_ok _ (fun i => mget X (nth i (sp_pick spl r) 0%nat) (nth i (sp_pick spl c) 0%nat))).
  - cbn [bind]. rewrite (pynth_nat ts o 0%nat) by lia. cbn [bind]. rewrite map_map, nofnat_R. reflexivity.
  - intros i Hi. apply in_seq in Hi. destruct (H3 i) as [Ha Hb]; [lia|].
    rewrite (pynth_nat (sp_pick spl r) i 0%nat) by lia. cbn [bind]. rewrite (pynth_nat (sp_pick spl c) i 0%nat) by lia. cbn [bind].
    unfold mget_chk. destruct (is_mat_rc _ _ _ HX) as (-> & -> & _).
    apply Nat.ltb_lt in Ha. apply Nat.ltb_lt in Hb. rewrite Ha, Hb. reflexivity.
Qed.

Lemma last_for_none {T} (es : list (list Z * T)) p : (forall e, In e es -> fst e <> p) -> last_for es p = None.
Proof.
  induction es as [|[d v] es IH]; intros H; [reflexivity|]. cbn [last_for]. rewrite IH by (intros; apply H; simpl; auto).
  destruct (list_eq_dec Z.eq_dec d p) as [E|E]; [|reflexivity]. exfalso. apply (H (d, v)); simpl; auto.
Qed.

Lemma last_for_map {T} (f : nat -> list Z) (g : nat -> T) : forall l i, In i l -> NoDup l ->
  (forall l1 l2, l = l1 ++ i :: l2 -> forall j, In j l2 -> f j <> f i) ->
  last_for (map (fun k => (f k, g k)) l) (f i) = Some (g i).
Proof.
  induction l as [|a l IH]; intros i Hi Hn H; [contradiction|]. cbn [map last_for]. inversion Hn; subst.
  destruct Hi as [-> | Hi].
  - rewrite last_for_none.
    + destruct (list_eq_dec Z.eq_dec (f i) (f i)); congruence.
    + intros e He. apply in_map_iff in He. destruct He as (j & <- & Hj). cbn [fst]. apply (H [] l); auto.
  - rewrite (IH i Hi); auto. intros l1 l2 E. apply (H (a :: l1) l2). rewrite E. reflexivity.
Qed.

Lemma seq_split_after m : forall s l1 l2 i, seq s m = l1 ++ i :: l2 -> forall j, In j l2 -> (i < j < s + m)%nat.
Proof.
  induction m as [|m IH]; intros s l1 l2 i E j Hj; [destruct l1; discriminate|].
  cbn [seq] in E. destruct l1 as [|x l1]; cbn [app] in E; injection E as E1 E2.
  - subst. apply in_seq in Hj. lia.
  - apply (IH (S s) l1 l2 i E2) in Hj. lia.
Qed.

(** the written entries: the last sample of a position wins, other entries are zero *)
Theorem c60_adj {T} {N : Num T} spl (y : list T) ts m d r c o : axes_of d r c o -> length ts = 3%nat -> (m <= length y)%nat ->
  positions_in m (nth r ts 0%nat) (nth c ts 0%nat) (sp_pick spl r) (sp_pick spl c) ->
  exists A, adjoint_operator spl y ts m d = Ok A /\ is_mat A (nth r ts 0%nat) (nth c ts 0%nat) /\
    (forall i, (i < m)%nat ->
       (forall j, (i < j < m)%nat -> ~ (nth j (sp_pick spl r) 0%nat = nth i (sp_pick spl r) 0%nat /\
                                        nth j (sp_pick spl c) 0%nat = nth i (sp_pick spl c) 0%nat)) ->
       mget A (nth i (sp_pick spl r) 0%nat) (nth i (sp_pick spl c) 0%nat) = nth i y n0) /\
    (forall a b, (a < nth r ts 0)%nat -> (b < nth c ts 0)%nat ->
       (forall i, (i < m)%nat -> ~ (nth i (sp_pick spl r) 0%nat = a /\ nth i (sp_pick spl c) 0%nat = b)) -> mget A a b = n0).
Proof.
  intros Hd Hl Hy (H1 & H2 & H3). destruct (dim_axes_ok d r c o Hd) as (E & Lr & Lc & Lo).
  unfold adjoint_operator. rewrite E. cbn [bind].
  rewrite (pynth_nat ts r 0%nat) by lia. cbn [bind]. rewrite (pynth_nat ts c 0%nat) by lia. cbn [bind].
  set (f := fun i => [Z.of_nat (nth i (sp_pick spl r) 0%nat); Z.of_nat (nth i (sp_pick spl c) 0%nat)]).
  rewrite (mapM_ok _ (fun i => (f i, nth i y n0))).
  2:{ intros i Hi. apply in_seq in Hi.
      rewrite (pynth_nat (sp_pick spl r) i 0%nat) by lia. cbn [bind]. rewrite (pynth_nat (sp_pick spl c) i 0%nat) by lia. cbn [bind].
      rewrite (pynth_nat y i n0) by lia. reflexivity. }
  cbn [bind].
  destruct (sparse_ok [nth r ts 0%nat; nth c ts 0%nat] (map (fun i => (f i, nth i y n0)) (seq 0 m))) as (A & EA & Hw & Hs & HG).
  { intros e He. apply in_map_iff in He. destruct He as (i & <- & Hi). apply in_seq in Hi. destruct (H3 i) as [Ha Hb]; [lia|].
    cbn [fst]. unfold f. repeat constructor; lia. }
  exists A. split; [exact EA|]. split; [split; auto|]. split.
  - intros i Hi Hlast. unfold mget. destruct (H3 i Hi) as [Ha Hb]. rewrite HG by (apply valid_pair; auto).
    cbn [map]. change [Z.of_nat (nth i (sp_pick spl r) 0%nat); Z.of_nat (nth i (sp_pick spl c) 0%nat)] with (f i).
    rewrite (last_for_map f (fun i => nth i y n0)); [reflexivity|apply in_seq; lia|apply seq_NoDup|].
    intros l1 l2 El j Hj. pose proof (seq_split_after m 0 l1 l2 i El j Hj). unfold f. intros Ef. injection Ef as Ef1 Ef2.
    apply (Hlast j); [lia|]. split; lia.
  - intros a b Ha Hb Hno. unfold mget. rewrite HG by (apply valid_pair; auto). rewrite last_for_none; [reflexivity|].
    intros e He. apply in_map_iff in He. destruct He as (i & <- & Hi). apply in_seq in Hi. cbn [fst map]. unfold f.
    intros Ef. injection Ef as Ef1 Ef2. apply (Hno i); [lia|]. split; lia.
Qed.

Lemma sumnR_single n k (f : nat -> R) : (k < n)%nat -> (forall i, (i < n)%nat -> i <> k -> f i = 0) -> sumn n f = f k.
Proof.
  intros Hk H. rewrite <- (sumnR_delta' n k f Hk). apply sumnR_ext. intros i Hi. unfold delta.
  destruct (Nat.eqb_spec i k); [lra|]. rewrite H by auto. lra.
Qed.

Lemma nat_search (P : nat -> Prop) (Pd : forall i, {P i} + {~ P i}) m : (exists i, (i < m)%nat /\ P i) \/ (forall i, (i < m)%nat -> ~ P i).
Proof.
  induction m as [|m [(i & Hi & HP)|IH]]; [right; lia|left; exists i; split; [lia|auto]|].
  destruct (Pd m) as [HP|HP]; [left; exists m; split; [lia|auto]|]. right. intros i Hi. destruct (Nat.eq_dec i m); [subst; auto|]. apply IH. lia.
Qed.

(** distinct positions: adjoint up to the factor sqrt(shape[o]) *)
Theorem c60_scaled spl (X : tensor R) (y : list R) ts m d r c o : axes_of d r c o -> length ts = 3%nat -> (m <= length y)%nat ->
  (0 < nth o ts 0)%nat ->
  is_mat X (nth r ts 0%nat) (nth c ts 0%nat) ->
  positions_in m (nth r ts 0%nat) (nth c ts 0%nat) (sp_pick spl r) (sp_pick spl c) ->
  positions_distinct m (sp_pick spl r) (sp_pick spl c) ->
  exists p A, Pomega_mat spl X ts m d = Ok p /\ adjoint_operator spl y ts m d = Ok A /\
    is_mat A (nth r ts 0%nat) (nth c ts 0%nat) /\ length p = m /\
    sqrt (INR (nth o ts 0%nat)) * vdot m p y = mdot X A.
Proof.
  intros Hd Hl Hy Ho HX Hp Hdis. pose proof (Pomega_mat_ok spl X ts m d r c o Hd Hl HX Hp) as EP.
  destruct (c60_adj spl y ts m d r c o Hd Hl Hy Hp) as (A & EA & HA & Hin & Hout).
  eexists _, A. split; [exact EP|]. split; [exact EA|]. split; [exact HA|]. split; [rewrite map_length, seq_length; reflexivity|].
  set (a := fun i => nth i (sp_pick spl r) 0%nat) in *. set (b := fun i => nth i (sp_pick spl c) 0%nat) in *.
  destruct Hp as (_ & _ & H3).
  assert (HAe : forall i j, (i < nth r ts 0)%nat -> (j < nth c ts 0)%nat ->
      mget A i j = sumn m (fun k => delta (a k) i * delta (b k) j * nth k y 0)).
  { intros i j Hi Hj. destruct (nat_search (fun k => a k = i /\ b k = j)) with (m := m) as [(k & Hk & Ha & Hb)|Hno].
    - intros k. destruct (Nat.eq_dec (a k) i); destruct (Nat.eq_dec (b k) j); auto; right; tauto.
    - subst i j. unfold a at 1, b at 1. rewrite Hin; auto.
      + rewrite (sumnR_single m k); auto.
        * unfold delta. rewrite !Nat.eqb_refl. Rn. lra.
        * intros k' Hk' Hne. unfold delta. destruct (Nat.eqb_spec (a k') (a k)); [|lra]. destruct (Nat.eqb_spec (b k') (b k)); [|lra].
          exfalso. apply Hne. apply Hdis; auto.
      + intros k' Hk' [E1 E2]. assert (k' = k) by (apply Hdis; auto; lia). lia.
    - rewrite (Hout i j); auto. symmetry. apply sumnR_zero. intros k Hk. specialize (Hno k Hk). unfold delta.
      destruct (Nat.eqb_spec (a k) i); [|Rn; lra]. destruct (Nat.eqb_spec (b k) j); [|Rn; lra]. exfalso; auto. }
  destruct (is_mat_rc _ _ _ HX) as (_ & _ & Er & Ec & _). unfold mdot. rewrite Er, Ec.
  transitivity (sumn m (fun k => mget X (a k) (b k) * nth k y 0)).
  - unfold vdot. rewrite bigsumR, <- sumnR_scale. apply sumnR_ext. intros k Hk.
    rewrite nth_map_seq by auto. fold (a k) (b k). field. apply Rgt_not_eq, sqrt_lt_R0, lt_0_INR. auto.
  - rewrite bigsumR. transitivity (sumn (nth r ts 0%nat) (fun i => sumn m (fun k => sumn (nth c ts 0%nat) (fun j => mget X i j * (delta (a k) i * delta (b k) j * nth k y 0))))).
    + rewrite sumnR_ex. apply sumnR_ext. intros k Hk. destruct (H3 k Hk) as [Ha Hb].
      rewrite (sumnR_single _ (a k)); [|exact Ha|].
      * rewrite (sumnR_single _ (b k)); [|exact Hb|].
        -- unfold delta. rewrite !Nat.eqb_refl. lra.
        -- intros j Hj Hne. unfold delta. destruct (Nat.eqb_spec (b k) j); [congruence|]. lra.
      * intros i Hi Hne. apply sumnR_zero. intros j Hj. unfold delta. destruct (Nat.eqb_spec (a k) i); [congruence|]. lra.
    + apply sumnR_ext. intros i Hi. rewrite bigsumR, sumnR_ex. apply sumnR_ext. intros j Hj. rewrite HAe by auto.
      rewrite <- sumnR_scale. reflexivity.
Qed.

(** the scale is 1: the adjoint identity holds *)
Corollary c60_unit spl (X : tensor R) (y : list R) ts m d r c o : axes_of d r c o -> length ts = 3%nat -> (m <= length y)%nat ->
  nth o ts 0%nat = 1%nat ->
  is_mat X (nth r ts 0%nat) (nth c ts 0%nat) ->
  positions_in m (nth r ts 0%nat) (nth c ts 0%nat) (sp_pick spl r) (sp_pick spl c) ->
  positions_distinct m (sp_pick spl r) (sp_pick spl c) ->
  exists p A, Pomega_mat spl X ts m d = Ok p /\ adjoint_operator spl y ts m d = Ok A /\
    is_mat A (nth r ts 0%nat) (nth c ts 0%nat) /\ length p = m /\ vdot m p y = mdot X A.
Proof.
  intros Hd Hl Hy Ho HX Hp Hdis. destruct (c60_scaled spl X y ts m d r c o Hd Hl Hy) as (p & A & E1 & E2 & H1 & H2 & H3); auto; [lia|].
  exists p, A. rewrite Ho in H3. simpl in H3. rewrite sqrt_1 in H3. rewrite <- H3. repeat split; auto; try apply H1. lra.
Qed.

Definition one1 : tensor R := mkT [1%nat; 1%nat] [1].
Lemma is_mat_one1 : is_mat one1 1 1. Proof. split; reflexivity. Qed.

Lemma c60_dup : exists spl X y p A,
  positions_in 2 1 1 (sp_a spl) (sp_b spl) /\ is_mat X 1 1 /\
  Pomega_mat spl X [1; 1; 1]%nat 2 0 = Ok p /\ adjoint_operator spl y [1; 1; 1]%nat 2 0 = Ok A /\ vdot 2 p y <> mdot X A.
Proof.
  set (spl := mkS [0; 0]%nat [0; 0]%nat [0; 0]%nat).
  assert (Hp : positions_in 2 1 1 (sp_a spl) (sp_b spl)).
  { split; [simpl; lia|]. split; [simpl; lia|]. intros i Hi. simpl. do 2 (destruct i; [lia|]). lia. }
  assert (Hd : axes_of 0 0 1 2) by (left; auto).
  destruct (c60_adj spl [1; 1] [1; 1; 1]%nat 2 0 0 1 2 Hd eq_refl (le_n 2) Hp) as (A & EA & HA & Hin & _).
  exists spl, one1, [1; 1], (map (fun i => mget one1 (nth i [0; 0]%nat 0%nat) (nth i [0; 0]%nat 0%nat) / sqrt (INR 1)) (seq 0 2)), A.
  split; [exact Hp|]. split; [apply is_mat_one1|]. split; [|split; [exact EA|]].
  - apply (Pomega_mat_ok spl one1 [1; 1; 1]%nat 2 0 0 1 2 Hd eq_refl is_mat_one1 Hp).
  - assert (E : mget A 0 0 = 1) by (apply (Hin 1%nat); [lia|]; intros j Hj; lia).
    unfold mdot, vdot, nrows, ncols, one1. cbn [shp nth bigsum map seq]. rewrite E. unfold mget, get. cbn [shp dat ravel prod nth Nat.mul Nat.add INR].
    Rn. rewrite sqrt_1. lra.
Qed.

Lemma c60_scale : exists spl X y p A,
  positions_in 1 1 1 (sp_a spl) (sp_b spl) /\ positions_distinct 1 (sp_a spl) (sp_b spl) /\ is_mat X 1 1 /\
  Pomega_mat spl X [1; 1; 4]%nat 1 0 = Ok p /\ adjoint_operator spl y [1; 1; 4]%nat 1 0 = Ok A /\ vdot 1 p y <> mdot X A.
Proof.
  set (spl := mkS [0]%nat [0]%nat [0]%nat).
  assert (Hp : positions_in 1 1 1 (sp_a spl) (sp_b spl)).
  { split; [simpl; lia|]. split; [simpl; lia|]. intros i Hi. simpl. destruct i; lia. }
  assert (Hd : axes_of 0 0 1 2) by (left; auto).
  destruct (c60_adj spl [1] [1; 1; 4]%nat 1 0 0 1 2 Hd eq_refl (le_n 1) Hp) as (A & EA & HA & Hin & _).
  exists spl, one1, [1], (map (fun i => mget one1 (nth i [0]%nat 0%nat) (nth i [0]%nat 0%nat) / sqrt (INR 4)) (seq 0 1)), A.
  split; [exact Hp|]. split; [intros i j Hi Hj; lia|]. split; [apply is_mat_one1|]. split; [|split; [exact EA|]].
  - apply (Pomega_mat_ok spl one1 [1; 1; 4]%nat 1 0 0 1 2 Hd eq_refl is_mat_one1 Hp).
  - assert (E : mget A 0 0 = 1) by (apply (Hin 0%nat); [lia|]; intros j Hj; lia).
    unfold mdot, vdot, nrows, ncols, one1. cbn [shp nth bigsum map seq]. rewrite E. unfold mget, get. cbn [shp dat ravel prod nth Nat.mul Nat.add].
    Rn. replace (sqrt (INR 4)) with 2; [lra|]. symmetry. apply sqrt_lem_1; simpl; lra.
Qed.

(** ** C61 *)
Lemma sumnR_trunc n m (f : nat -> R) : (m <= n)%nat -> (forall i, (m <= i < n)%nat -> f i = 0) -> sumn n f = sumn m f.
Proof.
  intros H. induction H as [|n H IH]; intros Hz; [reflexivity|].
  rewrite (sumn_S RLR). rewrite IH by (intros; apply Hz; lia). rewrite Hz by lia. Rn. lra.
Qed.

(** U diag(s) W as the two matrix products compute it *)
Lemma usv_ok (U W : tensor R) (s : list R) r c : is_mat U r r -> is_mat W c c -> length s = Nat.min r c ->
  exists us X, tf_matmul false false U (diag_mat r c s) = Ok us /\ tf_matmul false false us W = Ok X /\ is_mat X r c /\
    forall i j, (i < r)%nat -> (j < c)%nat -> mget X i j = sumn (length s) (fun k => mget U i k * nth k s 0 * mget W k j).
Proof.
  intros [_ HU] [_ HW] Hs. eexists _, _.
  split; [apply (matmul_ok false false U _ r r c); auto|].
  split; [apply (matmul_ok false false _ W r c c); auto|]. split; [apply is_mat_mgen|].
  intros i j Hi Hj. rewrite mget_mgen by auto.
  rewrite (sumnR_trunc c (length s)); [|lia|].
  - apply sumnR_ext. intros k Hk. rewrite mget_mgen by lia. f_equal.
    rewrite (sumnR_single r k); [|lia|].
    + unfold diag_mat. rewrite mget_mgen by lia. rewrite Nat.eqb_refl. reflexivity.
    + intros l Hl Hne. unfold diag_mat. rewrite mget_mgen by lia. destruct (Nat.eqb_spec l k); [congruence|]. Rn. lra.
  - intros k Hk. rewrite mget_mgen by lia. rewrite sumnR_zero; [Rn; lra|].
    intros l Hl. unfold diag_mat. rewrite mget_mgen by lia. destruct (Nat.eqb_spec l k); [|Rn; lra].
    rewrite nth_overflow by lia. Rn. lra.
Qed.

Lemma nth_map0 (f : R -> R) s k : (k < length s)%nat -> nth k (map f s) 0 = f (nth k s 0).
Proof. intros H. apply nth_map_lt; auto. Qed.

Lemma thresholded_sv tau s : singular_values s -> singular_values (thresholded tau s).
Proof.
  intros [_ H]. unfold thresholded. split.
  - intros x Hx. apply in_map_iff in Hx. destruct Hx as (z & <- & _). apply Rmax_l.
  - intros i j Hij Hj. rewrite map_length in Hj. rewrite !nth_map0 by lia.
    apply Rle_max_compat_l. specialize (H i j Hij Hj). lra.
Qed.

Lemma is_svd_center (M C : tensor R) r c U s W : is_mat M r c -> centralization M = Ok C -> is_svd C U s W ->
  is_mat C r c /\ orthogonal r U /\ orthogonal c W /\ length s = Nat.min r c /\ singular_values s /\
  forall i j, (i < r)%nat -> (j < c)%nat -> mget C i j = sumn (length s) (fun k => mget U i k * nth k s 0 * mget W k j).
Proof.
  intros HM EC (r' & c' & HC & HU & HW & Hl & Hs & HE).
  destruct (c59 M r c HM) as (C' & EC' & HC' & _). rewrite EC in EC'. injection EC' as <-.
  assert (E : [r'; c'] = [r; c]) by (destruct HC as [_ <-]; destruct HC' as [_ <-]; reflexivity). injection E as -> ->.
  repeat split; auto; try apply HC; try apply HU; try apply HW; try apply Hs.
  intros i j Hi Hj. rewrite HE by auto. apply bigsumR.
Qed.

Lemma SVT_ok svd (M C U W : tensor R) s tau : centralization M = Ok C -> svd C = (U, s, W) ->
  SVT svd M tau = Ok (U, thresholded tau s, W).
Proof.
  intros EC ES. unfold SVT. rewrite EC. cbn [bind]. rewrite ES. unfold thresholded. do 3 f_equal.
  apply map_ext. intros x. rewrite nmax_R. Rn. reflexivity.
Qed.

Theorem c61_np svd (M C U W : tensor R) s tau r c : is_mat M r c -> centralization M = Ok C -> svd C = (U, s, W) -> is_svd C U s W ->
  exists X, shrink_np svd M tau Normal = Ok X /\ is_svd X U (thresholded tau s) W /\
    (tau = 0 -> X = C) /\
    ((forall x, In x s -> x <= tau) -> forall i j, (i < r)%nat -> (j < c)%nat -> mget X i j = 0).
Proof.
  intros HM EC ES HS. destruct (is_svd_center M C r c U s W HM EC HS) as (HC & HU & HW & Hl & Hsv & HE).
  unfold shrink_np. rewrite (SVT_ok svd M C U W s tau EC ES). cbn [bind].
  destruct (is_mat_rc U r r (proj1 HU)) as (Er & _). destruct (is_mat_rc W c c (proj1 HW)) as (Ec & _). rewrite Er, Ec.
  destruct (usv_ok U W (thresholded tau s) r c) as (us & X & E1 & E2 & HX & HXe); [apply HU|apply HW|unfold thresholded; rewrite map_length; auto|].
  rewrite E1. cbn [bind]. rewrite E2. cbn [bind]. exists X. split; [reflexivity|].
  assert (Hls : length (thresholded tau s) = length s) by (unfold thresholded; apply map_length).
  split; [|split].
  - exists r, c. split; [exact HX|]. split; [exact HU|]. split; [exact HW|]. split; [lia|]. split; [apply thresholded_sv; auto|].
    intros i j Hi Hj. rewrite HXe by auto. symmetry. apply bigsumR.
  - intros ->. apply (mat_ext _ _ r c); auto. intros i j Hi Hj. rewrite HXe, HE by auto. rewrite Hls. apply sumnR_ext. intros k Hk.
    unfold thresholded. rewrite nth_map0 by auto. rewrite Rmax_right; [unfold Rminus; rewrite Ropp_0, Rplus_0_r; reflexivity|].
    assert (0 <= nth k s 0) by (apply Hsv, nth_In; auto). lra.
  - intros Hle i j Hi Hj. rewrite HXe by auto. apply sumnR_zero. intros k Hk. rewrite Hls in Hk.
    unfold thresholded. rewrite nth_map0 by auto. rewrite Rmax_left; [lra|].
    assert (nth k s 0 <= tau) by (apply Hle, nth_In; auto). lra.
Qed.

Lemma soft_R d tau : 0 <= tau -> soft d tau = soft_threshold d tau.
Proof.
  intros H. unfold soft, soft_threshold. rewrite nmax_R, nmin_R. Rn.
  destruct (Rlt_dec tau d) as [H1|H1].
  - rewrite Rmax_right by lra. rewrite Rmin_left by lra. lra.
  - destruct (Rlt_dec d (- tau)) as [H2|H2].
    + rewrite Rmax_left by lra. rewrite Rmin_right by lra. lra.
    + rewrite Rmax_left by lra. rewrite Rmin_left by lra. lra.
Qed.

Lemma mean_term_ok (M : tensor R) tau r c : is_mat M r c -> 0 <= tau ->
  mean_term M tau = Ok (mgen r c (fun _ _ => soft_threshold (total M / sqrt (INR (r * c))) tau / sqrt (INR (r * c)))).
Proof.
  intros HM Ht. unfold mean_term. destruct (is_mat_rc M r c HM) as (-> & -> & _).
  destruct (total_row_col M r c HM) as (s1 & s2 & E1 & E2 & Hs2 & Etot). rewrite E1. cbn [bind]. rewrite E2. cbn [bind].
  rewrite (scalar_mat nmul _ _ r c) by apply shp_ones. cbn [bind].
  rewrite (mat_scalar ndiv _ _ r c) by apply shp_mgen. f_equal. apply mgen_ext. intros i j Hi Hj. rewrite mget_mgen by auto.
  rewrite mget_ones by auto. rewrite Etot, nofnat_R. rewrite <- soft_R by auto. Rn. rewrite Rmult_1_r. reflexivity.
Qed.

Theorem c61_np_complicated svd (M C U W : tensor R) s tau r c : is_mat M r c -> 0 <= tau -> centralization M = Ok C -> svd C = (U, s, W) -> is_svd C U s W ->
  exists X Y, shrink_np svd M tau Normal = Ok X /\ shrink_np svd M tau Complicated = Ok Y /\ is_mat Y r c /\
    forall i j, (i < r)%nat -> (j < c)%nat ->
      mget Y i j = mget X i j + soft_threshold (total M / sqrt (INR (r * c))) tau / sqrt (INR (r * c)).
Proof.
  intros HM Ht EC ES HS. destruct (is_svd_center M C r c U s W HM EC HS) as (HC & HU & HW & Hl & Hsv & HE).
  unfold shrink_np. rewrite (SVT_ok svd M C U W s tau EC ES). cbn [bind].
  destruct (is_mat_rc U r r (proj1 HU)) as (Er & _). destruct (is_mat_rc W c c (proj1 HW)) as (Ec & _). rewrite Er, Ec.
  destruct (usv_ok U W (thresholded tau s) r c) as (us & X & E1 & E2 & HX & HXe); [apply HU|apply HW|unfold thresholded; rewrite map_length; auto|].
  rewrite E1. cbn [bind]. rewrite E2. cbn [bind]. rewrite (mean_term_ok M tau r c HM Ht). cbn [bind].
  destruct HX as [HXw HXs]. rewrite (mat_mat nadd X _ r c) by (auto using shp_mgen).
  eexists X, _. split; [reflexivity|]. split; [reflexivity|]. split; [apply is_mat_mgen|].
  intros i j Hi Hj. rewrite !mget_mgen by auto. reflexivity.
Qed.

(** TensorFlow: the same when the V returned is symmetric *)
Theorem c61_tf_sym svd (M C U V : tensor R) s tau r c : is_mat M r c -> centralization M = Ok C -> svd C = (U, s, V) -> is_svd C U s (mtrans V) ->
  (forall i j, (i < c)%nat -> (j < c)%nat -> mget V i j = mget V j i) -> is_mat V c c ->
  exists X, shrink_tf svd M tau Normal = Ok X /\ is_svd X U (thresholded tau s) V /\ (tau = 0 -> X = C).
Proof.
  intros HM EC ES HS Hsym HV. destruct (is_svd_center M C r c U s _ HM EC HS) as (HC & HU & HW & Hl & Hsv & HE).
  assert (EW : mtrans V = V).
  { destruct (is_mat_rc V c c HV) as (_ & _ & E1 & E2 & _). apply (mat_ext _ _ c c); auto.
    - unfold mtrans. rewrite E1, E2. apply is_mat_mgen.
    - intros i j Hi Hj. unfold mtrans. rewrite E1, E2, mget_mgen by auto. auto. }
  rewrite EW in *.
  unfold shrink_tf. rewrite (SVT_ok svd M C U V s tau EC ES). cbn [bind].
  destruct (is_mat_rc M r c HM) as (Er & Ec & _). rewrite Er, Ec.
  destruct (c61_np svd M C U V s tau r c HM EC ES HS) as (X & EX & HX & H0 & _).
  exists X. split; auto. rewrite <- EX. unfold shrink_np. rewrite (SVT_ok svd M C U V s tau EC ES). cbn [bind].
  destruct (is_mat_rc U r r (proj1 HU)) as (Er' & _). destruct (is_mat_rc V c c HV) as (Ec' & _). rewrite Er', Ec'. reflexivity.
Qed.

(** the counterexample: columns 0, 2 h1, h2 with h1, h2 orthogonal of squared norm 4 *)
Definition M61 : tensor R := mkT [4%nat; 3%nat] [0; 2; 1;  0; -2; 1;  0; 2; -1;  0; -2; -1].
Lemma is_mat_M61 : is_mat M61 4 3. Proof. split; reflexivity. Qed.

Ltac mcomp := unfold col_sum, mget, get, nrows, ncols, M61; cbn [shp dat ravel prod nth Nat.mul Nat.add bigsum]; Rn.

Lemma centred_M61 : centred M61.
Proof.
  intros j Hj. unfold ncols in Hj. cbn [M61 shp nth] in Hj. do 3 (destruct j as [|j]; [mcomp; lra|]). lia.
Qed.

Lemma central_M61 : centralization M61 = Ok M61.
Proof. destruct (c59 M61 4 3 is_mat_M61) as (C & E & _ & _ & _ & _ & H). rewrite E, (H centred_M61). reflexivity. Qed.

(** Gram matrix diag(0, 16, 4) *)
Definition m61 (i : nat) : R := match i with 0%nat => 0 | 1%nat => 16 | _ => 4 end.
Lemma gram_M61 i j : (i < 3)%nat -> (j < 3)%nat -> sumn 4 (fun k => mget M61 k i * mget M61 k j) = m61 i * delta i j.
Proof.
  intros Hi Hj. rewrite <- bigsumR. destruct i as [|[|[|i]]]; [| | |lia]; (destruct j as [|[|[|j]]]; [| | |lia]); mcomp; unfold delta; cbn; lra.
Qed.

Lemma orth_mf n Q : orthogonal n Q -> ortho n n (fun i j => mget Q i j) /\ ortho n n (tr (fun i j => mget Q i j)).
Proof.
  intros (_ & H1 & H2). split; intros i j Hi Hj; unfold mm, tr.
  - rewrite <- bigsumR. apply H1; auto.
  - rewrite <- bigsumR. apply H2; auto.
Qed.

Lemma V61 U s V : is_svd M61 U s (mtrans V) -> is_mat V 3 3 -> length s = 3%nat ->
  nth 0 s 0 * nth 0 s 0 = 16 /\ mget V 0 2 * mget V 0 2 = 1 /\ (forall k, (k < 3)%nat -> 0 <= nth k s 0).
Proof.
  intros HS HV Hl. destruct (is_svd_center M61 M61 4 3 U s _ is_mat_M61 central_M61 HS) as (_ & HU & HW & _ & [Hn Hd] & HE).
  rewrite Hl in *.
  assert (EW : forall k j, (k < 3)%nat -> (j < 3)%nat -> mget (mtrans V) k j = mget V j k).
  { intros k j Hk Hj. unfold mtrans. destruct (is_mat_rc V 3 3 HV) as (_ & _ & -> & -> & _). rewrite mget_mgen by auto. reflexivity. }
  set (v := fun i j => mget V i j).
  destruct (orth_mf 4 U HU) as [HU1 _]. destruct HW as (_ & HW1 & HW2).
  assert (Hv1 : forall i j, (i < 3)%nat -> (j < 3)%nat -> sumn 3 (fun k => v k i * v k j) = delta i j).
  { intros i j Hi Hj. rewrite <- bigsumR. unfold delta. change (if Nat.eqb i j then 1 else 0) with (kron_delta i j).
    rewrite <- (HW2 i j Hi Hj). apply bigsum_ext. intros k Hk. rewrite !EW by auto. reflexivity. }
  assert (Hv2 : forall i j, (i < 3)%nat -> (j < 3)%nat -> sumn 3 (fun k => v i k * v j k) = delta i j).
  { intros i j Hi Hj. rewrite <- bigsumR. unfold delta. change (if Nat.eqb i j then 1 else 0) with (kron_delta i j).
    rewrite <- (HW1 i j Hi Hj). apply bigsum_ext. intros k Hk. rewrite !EW by auto. reflexivity. }
  (* eigenvector equation *)
  assert (Heig : forall i k, (i < 3)%nat -> (k < 3)%nat -> m61 i * v i k = nth k s 0 * nth k s 0 * v i k).
  { intros i k Hi Hk.
    set (Mf := fun a b => mget M61 a b). set (Sg := fun a b => delta a b * nth b s 0).
    assert (EM : meq 4 3 Mf (mm 3 (fun a b => mget U a b) (fun a b => nth a s 0 * v b a))).
    { intros a b Ha Hb. unfold Mf. rewrite HE by auto. unfold mm. apply sumnR_ext. intros l Hlt. rewrite EW by auto. unfold v. lra. }
    assert (HU3 : forall a b, (a < 3)%nat -> (b < 3)%nat -> sumn 4 (fun k => mget U k a * mget U k b) = delta a b).
    { intros a b Ha Hb. apply (HU1 a b); lia. }
    assert (EMV : forall a, (a < 4)%nat -> sumn 3 (fun j => Mf a j * v j k) = mget U a k * nth k s 0).
    { intros a Ha. rewrite (sumnR_ext 3 _ (fun j => sumn 3 (fun l => mget U a l * nth l s 0 * (v j l * v j k)))).
      - rewrite sumnR_ex. rewrite (sumnR_ext 3 _ (fun l => (mget U a l * nth l s 0) * delta l k)).
        + apply (sumnR_delta' 3 k (fun l => mget U a l * nth l s 0) Hk).
        + intros l Hlt. rewrite sumnR_scale, Hv1 by auto. reflexivity.
      - intros j Hj. rewrite (EM a j Ha Hj). unfold mm. rewrite <- sumnR_scale_r. apply sumnR_ext. intros. lra. }
    assert (EG : sumn 4 (fun a => Mf a i * sumn 3 (fun j => Mf a j * v j k)) = m61 i * v i k).
    { rewrite (sumnR_ext 4 _ (fun a => sumn 3 (fun j => Mf a i * Mf a j * v j k))).
      - rewrite sumnR_ex. rewrite (sumnR_ext 3 _ (fun j => m61 i * (v j k * delta j i))).
        + rewrite sumnR_scale. rewrite (sumnR_delta' 3 i (fun j => v j k) Hi). reflexivity.
        + intros j Hj. rewrite sumnR_scale_r. unfold Mf. rewrite gram_M61 by auto. rewrite (delta_sym j i). lra.
      - intros a Ha. rewrite <- sumnR_scale. apply sumnR_ext. intros. lra. }
    rewrite <- EG. rewrite (sumnR_ext 4 _ (fun a => sumn 3 (fun l => (nth l s 0 * v i l * nth k s 0) * (mget U a l * mget U a k)))).
    - rewrite sumnR_ex. rewrite (sumnR_ext 3 _ (fun l => (nth l s 0 * v i l * nth k s 0) * delta l k)).
      + rewrite (sumnR_delta' 3 k (fun l => nth l s 0 * v i l * nth k s 0) Hk). lra.
      + intros l Hlt. rewrite sumnR_scale, HU3 by auto. reflexivity.
    - intros a Ha. rewrite EMV by auto. rewrite (EM a i Ha Hi). unfold mm. rewrite <- sumnR_scale_r. apply sumnR_ext. intros. lra. }
  assert (Hnn : forall k, (k < 3)%nat -> 0 <= nth k s 0) by (intros k Hk; apply Hn, nth_In; lia).
  assert (D01 : nth 1 s 0 <= nth 0 s 0) by (apply Hd; lia).
  assert (D12 : nth 2 s 0 <= nth 1 s 0) by (apply Hd; lia).
  pose proof (Hnn 0%nat ltac:(lia)) as N0. pose proof (Hnn 1%nat ltac:(lia)) as N1. pose proof (Hnn 2%nat ltac:(lia)) as N2.
  set (a := nth 0 s 0) in *. set (b := nth 1 s 0) in *. set (c := nth 2 s 0) in *.
  pose proof (Hv2 0%nat 0%nat ltac:(lia) ltac:(lia)) as R0. pose proof (Hv2 1%nat 1%nat ltac:(lia) ltac:(lia)) as R1.
  pose proof (Hv2 2%nat 2%nat ltac:(lia) ltac:(lia)) as R2.
  pose proof (Hv1 0%nat 0%nat ltac:(lia) ltac:(lia)) as C0. pose proof (Hv1 2%nat 2%nat ltac:(lia) ltac:(lia)) as C2.
  rewrite <- bigsumR in R0, R1, R2, C0, C2. cbn [bigsum] in R0, R1, R2, C0, C2. unfold delta in R0, R1, R2, C0, C2.
  cbn [Nat.eqb] in R0, R1, R2, C0, C2. Rn.
  pose proof (Heig 0%nat 0%nat ltac:(lia) ltac:(lia)) as E00. pose proof (Heig 0%nat 1%nat ltac:(lia) ltac:(lia)) as E01.
  pose proof (Heig 0%nat 2%nat ltac:(lia) ltac:(lia)) as E02. pose proof (Heig 1%nat 0%nat ltac:(lia) ltac:(lia)) as E10.
  pose proof (Heig 1%nat 1%nat ltac:(lia) ltac:(lia)) as E11. pose proof (Heig 1%nat 2%nat ltac:(lia) ltac:(lia)) as E12.
  pose proof (Heig 2%nat 0%nat ltac:(lia) ltac:(lia)) as E20. pose proof (Heig 2%nat 1%nat ltac:(lia) ltac:(lia)) as E21.
  pose proof (Heig 2%nat 2%nat ltac:(lia) ltac:(lia)) as E22. unfold m61 in *.
  fold a in E00, E10, E20. fold b in E01, E11, E21. fold c in E02, E12, E22.
  assert (Hz : forall mi D x, mi * x = D * x -> mi <> D -> x = 0).
  { intros mi D x E Hne. assert ((mi - D) * x = 0) by lra. apply Rmult_integral in H. destruct H; [lra|auto]. }
  assert (DD : forall k x0 x1 x2, (k = a \/ k = b \/ k = c) -> x0 * x0 + x1 * x1 + x2 * x2 = 1 ->
     0 * x0 = k * k * x0 -> 16 * x1 = k * k * x1 -> 4 * x2 = k * k * x2 -> k * k <= 16).
  { intros k x0 x1 x2 _ Hn1 F0 F1 F2. destruct (Rle_lt_dec (k * k) 16); auto. exfalso.
    assert (x0 = 0) by (apply (Hz 0 (k * k)); lra). assert (x1 = 0) by (apply (Hz 16 (k * k)); lra).
    assert (x2 = 0) by (apply (Hz 4 (k * k)); lra). subst. lra. }
  assert (A16 : a * a <= 16).
  { apply (DD a (v 0%nat 0%nat) (v 1%nat 0%nat) (v 2%nat 0%nat)); auto. lra. }
  assert (A16' : 16 <= a * a).
  { destruct (Rle_lt_dec 16 (a * a)); auto. exfalso.
    assert (b * b < 16) by nra. assert (c * c < 16) by nra.
    assert (v 1%nat 0%nat = 0) by (apply (Hz 16 (a * a)); lra). assert (v 1%nat 1%nat = 0) by (apply (Hz 16 (b * b)); lra).
    assert (v 1%nat 2%nat = 0) by (apply (Hz 16 (c * c)); lra). nra. }
  assert (C0' : c * c = 0).
  { destruct (Req_dec (c * c) 0); auto. exfalso. assert (0 < c * c) by nra. assert (0 < b * b) by nra.
    assert (v 0%nat 0%nat = 0) by (apply (Hz 0 (a * a)); lra). assert (v 0%nat 1%nat = 0) by (apply (Hz 0 (b * b)); lra).
    assert (v 0%nat 2%nat = 0) by (apply (Hz 0 (c * c)); lra). nra. }
  split; [lra|]. split; [|exact Hnn].
  assert (Z1 : v 1%nat 2%nat = 0) by (apply (Hz 16 (c * c)); lra). assert (Z2 : v 2%nat 2%nat = 0) by (apply (Hz 4 (c * c)); lra).
  change (v 0%nat 2%nat * v 0%nat 2%nat = 1). nra.
Qed.

Theorem c61_tf_refuted : forall svd, (forall U s V, svd M61 = (U, s, V) -> is_svd M61 U s (mtrans V) /\ is_mat V 3 3) ->
  exists X, shrink_tf svd M61 0 Normal = Ok X /\ X <> M61.
Proof.
  intros svd Hsvd. destruct (svd M61) as [[U s] V] eqn:ES. destruct (Hsvd U s V eq_refl) as [HS HV].
  destruct (is_svd_center M61 M61 4 3 U s _ is_mat_M61 central_M61 HS) as (_ & HU & HW & Hl & Hsv & HE). cbn [Nat.min] in Hl.
  destruct (V61 U s V HS HV Hl) as (H16 & H1 & Hnn).
  unfold shrink_tf. rewrite (SVT_ok svd M61 M61 U V s 0 central_M61 ES). cbn [bind].
  change (rows M61) with 4%nat. change (cols M61) with 3%nat.
  destruct (usv_ok U V (thresholded 0 s) 4 3) as (us & X & E1 & E2 & HX & HXe); [apply HU|exact HV|unfold thresholded; rewrite map_length; auto|].
  rewrite E1. cbn [bind]. rewrite E2. cbn [bind]. exists X. split; [reflexivity|]. intros ->.
  assert (Hlt : length (thresholded 0 s) = 3%nat) by (unfold thresholded; rewrite map_length; auto).
  rewrite Hlt in HXe.
  assert (Hth : forall k, (k < 3)%nat -> nth k (thresholded 0 s) 0 = nth k s 0).
  { intros k Hk. unfold thresholded. rewrite nth_map0 by lia. rewrite Rmax_right; [lra|]. specialize (Hnn k Hk). lra. }
  destruct (orth_mf 4 U HU) as [HU1 _].
  assert (HU3 : forall a b, (a < 3)%nat -> (b < 3)%nat -> sumn 4 (fun k => mget U k a * mget U k b) = delta a b).
  { intros a b Ha Hb. apply (HU1 a b); lia. }
  (* squared norm of column 2 of the result *)
  assert (EN : sumn 4 (fun i => mget M61 i 2 * mget M61 i 2) = sumn 3 (fun k => (nth k s 0 * mget V k 2) * (nth k s 0 * mget V k 2))).
  { rewrite (sumnR_ext 4 _ (fun i => sumn 3 (fun k => sumn 3 (fun l => (nth k s 0 * mget V k 2) * (nth l s 0 * mget V l 2) * (mget U i k * mget U i l))))).
    - rewrite sumnR_ex. apply sumnR_ext. intros k Hk. rewrite sumnR_ex.
      rewrite (sumnR_ext 3 _ (fun l => (nth k s 0 * mget V k 2) * (nth l s 0 * mget V l 2) * delta l k)).
      + apply (sumnR_delta' 3 k (fun l => (nth k s 0 * mget V k 2) * (nth l s 0 * mget V l 2)) Hk).
      + intros l Hl2. rewrite sumnR_scale, HU3 by auto. rewrite (delta_sym k l). reflexivity.
    - intros i Hi. rewrite HXe by lia. rewrite <- sumnR_scale_r. apply sumnR_ext. intros k Hk. rewrite <- sumnR_scale. apply sumnR_ext. intros l Hl2.
      rewrite !Hth by auto. lra. }
  rewrite gram_M61 in EN by lia. unfold m61, delta in EN. cbn [Nat.eqb] in EN.
  rewrite <- bigsumR in EN. cbn [bigsum] in EN. Rn.
  assert (nth 0 s 0 * mget V 0 2 * (nth 0 s 0 * mget V 0 2) = 16).
  { replace (nth 0 s 0 * mget V 0 2 * (nth 0 s 0 * mget V 0 2)) with ((nth 0 s 0 * nth 0 s 0) * (mget V 0 2 * mget V 0 2)) by ring. rewrite H16, H1. lra. }
  pose proof (Rle_0_sqr (nth 1 s 0 * mget V 1 2)) as Q1. pose proof (Rle_0_sqr (nth 2 s 0 * mget V 2 2)) as Q2. unfold Rsqr in *. lra.
Qed.

(** ** C62 *)
Lemma lsum_map_nth (f : R -> R) x : f 0 = 0 -> lsum (map f x) = sumn (length x) (fun k => f (nth k x 0)).
Proof. intros _. unfold sumn. f_equal. rewrite <- (map_map (fun k => nth k x 0) f). rewrite map_nth_seq. reflexivity. Qed.

Lemma vnorm_R x : vnorm x = sqrt (sqnorm x).
Proof. unfold vnorm, sqnorm. rewrite (lsum_map_nth nsq) by (Rn; lra). rewrite bigsumR. Rn. reflexivity. Qed.

Lemma sqnorm_nonneg x : 0 <= sqnorm x.
Proof. unfold sqnorm. rewrite bigsumR. apply sumnR_nonneg. intros. apply Rle_0_sqr. Qed.

Lemma nleb_R (a b : R) : nleb a b = true <-> a <= b.
Proof.
  unfold nleb. rewrite orb_true_iff, nltb_R, neqb_R. split; [intros [H|H]; lra|intros H; destruct (Rle_lt_or_eq_dec a b H); auto].
Qed.
Lemma nleb_R_false (a b : R) : nleb a b = false <-> b < a.
Proof.
  destruct (nleb a b) eqn:E.
  - apply nleb_R in E. split; [discriminate|lra].
  - split; auto. intros _. destruct (Rle_lt_dec a b) as [H|H]; auto. apply nleb_R in H. congruence.
Qed.

(** x . y <= |x| |y| *)
Lemma vdot_cs x y : length y = length x -> sumn (length x) (fun k => nth k x 0 * nth k y 0) <= sqrt (sqnorm x) * sqrt (sqnorm y).
Proof.
  intros Hl. set (n := length x). pose proof (sumnR_cauchy n (fun k => nth k x 0) (fun k => nth k y 0)) as H.
  rewrite <- sqrt_mult by apply sqnorm_nonneg. apply Rsqr_incr_0_var; [|apply sqrt_pos].
  rewrite Rsqr_sqrt by (apply Rmult_le_pos; apply sqnorm_nonneg).
  eapply Rle_trans; [apply H|]. apply Req_le. unfold sqnorm. rewrite !bigsumR, Hl. reflexivity.
Qed.

(** distances after splitting: |z-y|^2 = |z-p|^2 + 2 <z-p, p-y> + |p-y|^2 *)
Lemma dist2_split n x t p a y u : dist2 n x t y u = dist2 n x t p a + dist2 n p a y u +
  2 * (sumn n (fun k => (nth k x 0 - nth k p 0) * (nth k p 0 - nth k y 0)) + (t - a) * (a - u)).
Proof.
  unfold dist2. rewrite !bigsumR.
  rewrite (sumnR_ext n (fun k => (nth k x 0 - nth k y 0)²) (fun k => ((nth k x 0 - nth k p 0)² + (nth k p 0 - nth k y 0)²) + 2 * ((nth k x 0 - nth k p 0) * (nth k p 0 - nth k y 0)))) by (intros; unfold Rsqr; ring).
  rewrite !sumnR_add, sumnR_scale. unfold Rsqr. ring.
Qed.

Lemma sumn_sqnorm x : sumn (length x) (fun k => nth k x 0 * nth k x 0) = sqnorm x.
Proof. unfold sqnorm. rewrite bigsumR. reflexivity. Qed.

Theorem c62_np (x : list R) (t : R) : exists x' t',
  (cone_projection_np x t = CVec x' t' \/ cone_projection_np x t = CZero /\ x' = repeat 0 (length x) /\ t' = 0) /\
  length x' = length x /\ in_cone x' t' /\
  (forall y u, length y = length x -> in_cone y u ->
     dist2 (length x) x t x' t' + dist2 (length x) x' t' y u <= dist2 (length x) x t y u) /\
  (in_cone x t -> cone_projection_np x t = CVec x t).
Proof.
  unfold cone_projection_np, in_cone. rewrite !vnorm_R. set (n := sqrt (sqnorm x)).
  assert (Hn : 0 <= n) by apply sqrt_pos. assert (Hn2 : n * n = sqnorm x) by (apply sqrt_sqrt, sqnorm_nonneg).
  destruct (nleb n t) eqn:E1.
  - apply nleb_R in E1. exists x, t. split; [auto|]. split; [auto|]. split; [exact E1|]. split; [|auto].
    intros y u Hy Hc.
    assert (E : dist2 (length x) x t x t = 0).
    { unfold dist2. rewrite bigsumR. rewrite sumnR_zero; [unfold Rsqr; lra|]. intros. unfold Rsqr. lra. }
    rewrite E. lra.
  - apply nleb_R_false in E1. destruct (nleb t (nopp n)) eqn:E2.
    + apply nleb_R in E2. Rn. exists (repeat 0 (length x)), 0. split; [auto|]. split; [apply repeat_length|].
      assert (Ez : sqnorm (repeat 0 (length x)) = 0).
      { unfold sqnorm. rewrite bigsumR. apply sumnR_zero. intros. rewrite nth_repeat. lra. }
      split; [rewrite Ez, sqrt_0; lra|]. split; [|intros; lra].
      intros y u Hy Hc. rewrite (dist2_split (length x) x t (repeat 0 (length x)) 0 y u).
      assert (E : sumn (length x) (fun k => (nth k x 0 - nth k (repeat 0 (length x)) 0) * (nth k (repeat 0 (length x)) 0 - nth k y 0)) = - sumn (length x) (fun k => nth k x 0 * nth k y 0)).
      { replace (- sumn (length x) (fun k => nth k x 0 * nth k y 0)) with (-1 * sumn (length x) (fun k => nth k x 0 * nth k y 0)) by lra.
        rewrite <- sumnR_scale. apply sumnR_ext. intros. rewrite nth_repeat. lra. }
      rewrite E. pose proof (vdot_cs x y Hy) as HC. fold n in HC. pose proof (sqrt_pos (sqnorm y)). nra.
    + apply nleb_R_false in E2. Rn.
      assert (E3 : nleb (nopp n) t = true) by (apply nleb_R; Rn; lra).
      assert (E4 : nleb t n = true) by (apply nleb_R; lra). Rn. rewrite E3, E4. cbn [andb].
      assert (Hp : 0 < n) by lra.
      set (a := (n + t) / (2 * n)). assert (Ha : 0 <= a) by (unfold a; apply Rmult_le_pos; [lra|left; apply Rinv_0_lt_compat; lra]).
      assert (Ea : a * n = (n + t) / 2) by (unfold a; field; lra).
      exists (vscale a x), (a * n).
      assert (Hl : length (vscale a x) = length x) by apply map_length.
      assert (Hk : forall k, (k < length x)%nat -> nth k (vscale a x) 0 = a * nth k x 0) by (intros k Hk; unfold vscale; rewrite nth_map0 by auto; reflexivity).
      split; [auto|]. split; [exact Hl|].
      assert (En : sqnorm (vscale a x) = (a * n) * (a * n)).
      { replace (a * n * (a * n)) with (a * a * sqnorm x) by (rewrite <- Hn2; ring). unfold sqnorm. rewrite !bigsumR, Hl, <- sumnR_scale. apply sumnR_ext. intros k Hk2. rewrite Hk by auto. ring. }
      split; [rewrite En, sqrt_square; [lra|nra]|]. split; [|intros; lra].
      intros y u Hy Hc. rewrite (dist2_split (length x) x t (vscale a x) (a * n) y u).
      assert (E : sumn (length x) (fun k => (nth k x 0 - nth k (vscale a x) 0) * (nth k (vscale a x) 0 - nth k y 0)) =
        (1 - a) * (a * (n * n) - sumn (length x) (fun k => nth k x 0 * nth k y 0))).
      { rewrite Hn2. rewrite <- sumn_sqnorm. rewrite <- sumnR_scale, <- sumnR_sub, <- sumnR_scale. apply sumnR_ext. intros k Hk2. rewrite Hk by auto. ring. }
      rewrite E. assert (E5 : t - a * n = - (1 - a) * n) by (rewrite Ropp_mult_distr_l_reverse, Rmult_minus_distr_r, Ea; lra).
      rewrite E5. pose proof (vdot_cs x y Hy) as HC. fold n in HC. pose proof (sqrt_pos (sqnorm y)) as Hy0.
      assert (H1a : 0 <= 1 - a).
      { assert (a * n <= 1 * n) by lra. assert (a <= 1) by (apply (Rmult_le_reg_r n); auto). lra. }
      set (S := sumn (length x) (fun k => nth k x 0 * nth k y 0)) in *.
      assert (S <= n * u) by (eapply Rle_trans; [exact HC|]; apply Rmult_le_compat_l; auto).
      assert (0 <= (1 - a) * (n * u - S)) by (apply Rmult_le_pos; lra). nra.
Qed.

(** the nearest point is unique *)
Lemma dist2_zero n x t y u : length x = n -> length y = n -> dist2 n x t y u = 0 -> x = y /\ t = u.
Proof.
  intros Hx Hy H. unfold dist2 in H. rewrite bigsumR in H.
  assert (P1 : 0 <= sumn n (fun k => (nth k x 0 - nth k y 0)²)) by (apply sumnR_nonneg; intros; apply Rle_0_sqr).
  pose proof (Rle_0_sqr (t - u)) as P2. split.
  - apply nth_ext with (d := 0) (d' := 0); [congruence|]. intros k Hk.
    assert (E : sumn n (fun k => (nth k x 0 - nth k y 0)²) = 0) by lra.
    pose proof (sumnR_zero_inv n _ (fun i _ => Rle_0_sqr (nth i x 0 - nth i y 0)) E k ltac:(lia)) as H2. cbv beta in H2.
    apply Rsqr_0_uniq in H2. lra.
  - assert (E : (t - u)² = 0) by lra. apply Rsqr_0_uniq in E. lra.
Qed.

(** ** C63 *)
Section C63.
  Context {T : Type} {N : Num T}.

  Lemma combine_map2 (f : T -> T -> T) (a b : list T) n : length a = n -> length b = n ->
    map (fun p => f (fst p) (snd p)) (combine a b) = map (fun i => f (nth i a n0) (nth i b n0)) (seq 0 n).
  Proof.
    intros Ha Hb. apply nth_ext with (d := f n0 n0) (d' := f n0 n0).
    - rewrite !map_length, combine_length, seq_length. lia.
    - intros k Hk. rewrite map_length, combine_length in Hk.
      rewrite nth_map_lt with (da := (n0, n0)) by (rewrite combine_length; lia).
      rewrite combine_nth by congruence. rewrite nth_map_seq by lia. reflexivity.
  Qed.

  Lemma Pomega_tensor_len spl (t : tensor T) m p : Pomega_tensor spl t m = Ok p -> length p = m.
  Proof. intros H. apply mapM_length in H. rewrite seq_length in H. exact H. Qed.
  Lemma Pomega_mat_len spl (X : tensor T) s m d p : Pomega_mat spl X s m d = Ok p -> length p = m.
  Proof.
    unfold Pomega_mat. destruct (dim_axes d) as [[[r c] o]|]; [|discriminate]. cbn [bind].
    destruct (mapM _ (seq 0 m)) as [l|] eqn:E; [|discriminate]. cbn [bind]. destruct (pynth s (Z.of_nat o)); [|discriminate]. cbn [bind].
    intros H. injection H as <-. rewrite map_length. apply mapM_length in E. rewrite seq_length in E. exact E.
  Qed.
  Lemma Pomega_Pair_len spl (X Y Z : tensor T) s m p : Pomega_Pair spl X Y Z s m = Ok p -> length p = m.
  Proof.
    unfold Pomega_Pair. destruct (Pomega_mat spl X s m 0) eqn:E1; [|discriminate]. destruct (Pomega_mat spl Y s m 1) eqn:E2; [|discriminate].
    destruct (Pomega_mat spl Z s m 2) eqn:E3; [|discriminate]. cbn [bind]. intros H. injection H as <-.
    apply Pomega_mat_len in E1. apply Pomega_mat_len in E2. apply Pomega_mat_len in E3.
    unfold vadd. rewrite map_length, combine_length, map_length, combine_length. lia.
  Qed.

  Lemma pitf_iter_inv shrink t spl spn delt tao (y : list T) it : length y = spn ->
    pitf_iter shrink t spl spn delt tao y = Ok it ->
    exists A1 A2 A3 X Y Z p e,
      let s := shp t in
      adjoint_operator spl y s spn 0 = Ok A1 /\ adjoint_operator spl y s spn 1 = Ok A2 /\
      adjoint_operator spl y s spn 2 = Ok A3 /\
      shrink A1 tao Complicated = Ok X /\ shrink A2 tao Normal = Ok Y /\ shrink A3 tao Normal = Ok Z /\
      tf_bin ndiv X (scalar (nsqrt (nofnat (nth 2 s 0%nat)))) = Ok (it_X it) /\
      tf_bin ndiv Y (scalar (nsqrt (nofnat (nth 0 s 0%nat)))) = Ok (it_Y it) /\
      tf_bin ndiv Z (scalar (nsqrt (nofnat (nth 1 s 0%nat)))) = Ok (it_Z it) /\
      Pomega_tensor spl t spn = Ok p /\ Pomega_Pair spl (it_X it) (it_Y it) (it_Z it) s spn = Ok e /\
      it_y it = map (fun i => nadd (nth i y n0) (nmul delt (nsub (nth i p n0) (nth i e n0)))) (seq 0 spn) /\
      it_erate it = ndiv (vnorm (vsub p e)) (vnorm p) /\
      it_loss it = nsqrt (ndiv (lsum (map nsq (vsub p e))) (nofnat spn)).
  Proof.
    intros Hy. unfold pitf_iter. cbv zeta.
    assert (HP : forall k, pynth (shp t) (Z.of_nat k) = Ok (nth k (shp t) 0%nat) \/ exists e, pynth (shp t) (Z.of_nat k) = Raise e).
    { intros k. destruct (lt_dec k (length (shp t))) as [H|H]; [left; apply pynth_nat; auto|right; exists IndexError; apply pynth_nat_out; lia]. }
    destruct (HP 0%nat) as [E0|[? E0]]; change (Z.of_nat 0) with 0%Z in E0; rewrite E0; [|discriminate]. destruct (HP 1%nat) as [E1|[? E1]]; change (Z.of_nat 1) with 1%Z in E1; rewrite E1; [|discriminate].
    destruct (HP 2%nat) as [E2|[? E2]]; change (Z.of_nat 2) with 2%Z in E2; rewrite E2; [|discriminate]. cbn [bind].
    destruct (adjoint_operator spl y (shp t) spn 0) as [A1|] eqn:F1; [|discriminate].
    destruct (adjoint_operator spl y (shp t) spn 1) as [A2|] eqn:F2; [|discriminate].
    destruct (adjoint_operator spl y (shp t) spn 2) as [A3|] eqn:F3; [|discriminate]. cbn [bind].
    destruct (shrink A1 tao Complicated) as [X|] eqn:G1; [|discriminate]. destruct (shrink A2 tao Normal) as [Y|] eqn:G2; [|discriminate].
    destruct (shrink A3 tao Normal) as [Z|] eqn:G3; [|discriminate]. cbn [bind].
    destruct (tf_bin ndiv X _) as [X'|] eqn:H1; [|discriminate]. destruct (tf_bin ndiv Y _) as [Y'|] eqn:H2; [|discriminate].
    destruct (tf_bin ndiv Z _) as [Z'|] eqn:H3; [|discriminate]. cbn [bind].
    destruct (Pomega_tensor spl t spn) as [p|] eqn:K1; [|discriminate]. cbn [bind]. destruct (Pomega_Pair spl X' Y' Z' (shp t) spn) as [e|] eqn:K2; [|discriminate].
    cbn [bind]. intros E. injection E as <-. exists A1, A2, A3, X, Y, Z, p, e. cbn [it_X it_Y it_Z it_y it_erate it_loss].
    repeat (split; [assumption || reflexivity|]). split; [|split; reflexivity].
    apply Pomega_tensor_len in K1. apply Pomega_Pair_len in K2.
    unfold vadd. rewrite (combine_map2 nadd y _ spn); auto.
    - apply map_ext_in. intros i Hi. apply in_seq in Hi. f_equal. unfold vscale. unfold vsub. rewrite (combine_map2 nsub p e spn) by auto.
      rewrite map_map, nth_map_seq by lia. reflexivity.
    - unfold vscale, vsub. rewrite !map_length, combine_length. lia.
  Qed.

  Lemma iter_y_len shrink t spl spn delt tao (y : list T) it : length y = spn ->
    pitf_iter shrink t spl spn delt tao y = Ok it -> length (it_y it) = spn.
  Proof.
    intros Hy H. destruct (pitf_iter_inv _ _ _ _ _ _ _ _ Hy H) as (A1 & A2 & A3 & X & Y & Z & p & e & Hx). cbv zeta in Hx.
    destruct Hx as (_ & _ & _ & _ & _ & _ & _ & _ & _ & _ & _ & -> & _). rewrite map_length, seq_length. reflexivity.
  Qed.

  Definition ys_of (y : list T) (its : list (iter T)) (k : nat) : list T :=
    match k with 0%nat => y | S k' => nth k' (map it_y its) [] end.

  Lemma np_tf_loop shrink t spl spn delt tao : forall n y j its,
    np_loop shrink t spl spn delt tao y n = Ok its <-> tf_loop shrink t (fun _ => spl) spn delt tao y j n = (its, None).
  Proof.
    induction n as [|n IH]; intros y j its; cbn [np_loop tf_loop].
    - split; intros H; injection H as <-; reflexivity.
    - destruct (pitf_iter shrink t spl spn delt tao y) as [it|e]; cbn [bind]; [|split; discriminate].
      specialize (IH (it_y it) (S j)).
      destruct (np_loop shrink t spl spn delt tao (it_y it) n) as [r|e] eqn:E; cbn [bind].
      + rewrite (proj1 (IH r) eq_refl). split; intros H; injection H as <-; reflexivity.
      + destruct (tf_loop shrink t (fun _ => spl) spn delt tao (it_y it) (S j) n) as [r x] eqn:E2.
        split; [discriminate|]. intros H. injection H as <- ->. pose proof (proj2 (IH r) eq_refl). discriminate.
  Qed.

  Lemma tf_loop_spec shrink t spls spn delt tao (dit : iter T) : forall n y j its, length y = spn ->
    tf_loop shrink t spls spn delt tao y j n = (its, None) -> length its = n /\
    forall k, (k < n)%nat -> pitf_iter shrink t (spls (j + k)%nat) spn delt tao (ys_of y its k) = Ok (nth k its dit) /\
      length (ys_of y its k) = spn /\ ys_of y its (S k) = it_y (nth k its dit).
  Proof.
    induction n as [|n IH]; intros y j its Hy H; cbn [tf_loop] in H.
    - injection H as <-. split; [reflexivity|lia].
    - destruct (pitf_iter shrink t (spls j) spn delt tao y) as [it|e] eqn:E; [|discriminate].
      destruct (tf_loop shrink t spls spn delt tao (it_y it) (S j) n) as [r x] eqn:E2. injection H as <- ->.
      destruct (IH _ _ _ (iter_y_len _ _ _ _ _ _ _ _ Hy E) E2) as [Hl Hk]. split; [simpl; lia|].
      intros k Hlt. destruct k as [|k].
      + rewrite Nat.add_0_r. cbn [ys_of map nth]. auto.
      + destruct (Hk k ltac:(lia)) as (K1 & K2 & K3). replace (j + S k)%nat with (S j + k)%nat by lia.
        replace (ys_of y (it :: r) (S k)) with (ys_of (it_y it) r k) by (destruct k; reflexivity).
        replace (ys_of y (it :: r) (S (S k))) with (ys_of (it_y it) r (S k)) by reflexivity. auto.
  Qed.

  Lemma tf_loop_rec shrink t spls spn delt tao (dit : iter T) n its :
    tf_loop shrink t spls spn delt tao (repeat n0 spn) 1 n = (its, None) -> length its = n /\
    recurrence shrink t (fun k => spls (S k)) spn delt tao n (ys_of (repeat n0 spn) its) (fun k => nth k its dit).
  Proof.
    intros H. destruct (tf_loop_spec shrink t spls spn delt tao dit n _ _ _ (repeat_length n0 spn) H) as [Hl Hk]. split; [exact Hl|].
    split; [reflexivity|]. intros k Hlt. destruct (Hk k Hlt) as (K1 & K2 & K3).
    destruct (pitf_iter_inv _ _ _ _ _ _ _ _ K2 K1) as (A1 & A2 & A3 & X & Y & Z & p & e & Hx). cbv zeta in Hx.
    exists A1, A2, A3, X, Y, Z, p, e. cbv zeta. rewrite K3.
    destruct Hx as (X1 & X2 & X3 & X4 & X5 & X6 & X7 & X8 & X9 & X10 & X11 & X12 & X13 & X14).
    repeat (split; [assumption|]). split; [reflexivity|]. split; assumption.
  Qed.

  Theorem c63_np svd (t : tensor T) spl rank delt0 tao0 spn steps y it If Ef Rf :
    exact_recovery svd t spl rank delt0 tao0 spn steps = Ok (y, it, If, Ef, Rf) ->
    (0 < steps)%Z /\
    exists ys its, recurrence (shrink_np svd) t (fun _ => spl) spn (pitf_delt delt0 spn (shp t)) (pitf_tao tao0 (shp t)) (Z.to_nat steps) ys its /\
      y = ys (Z.to_nat steps) /\ it = its (Z.to_nat steps - 1)%nat /\ If = seq 0 (Z.to_nat steps) /\
      Ef = map (fun k => it_erate (its k)) (seq 0 (Z.to_nat steps)) /\ Rf = map (fun k => it_loss (its k)) (seq 0 (Z.to_nat steps)).
  Proof.
    unfold exact_recovery. destruct (shp t) as [|s0 [|s1 [|s2 [|? ?]]]] eqn:Es; try discriminate. cbv zeta.
    destruct (_ =? 0)%Z; [discriminate|].
    destruct (np_loop _ t spl spn _ _ _ _) as [its|e] eqn:E; [|discriminate]. cbn [bind].
    destruct (rev its) as [|l r] eqn:Er; [discriminate|]. intros H. injection H as <- <- <- <- <-.
    rewrite <- Es in E. apply (np_tf_loop _ _ _ _ _ _ _ _ 1) in E. destruct (tf_loop_rec _ _ _ _ _ _ l _ _ E) as [Hl Hrec].
    assert (El : its = rev r ++ [l]) by (rewrite <- (rev_involutive its), Er; reflexivity).
    assert (Hn : (0 < Z.to_nat steps)%nat) by (rewrite <- Hl, El, app_length; simpl; lia).
    assert (Hlast : nth (Z.to_nat steps - 1) its l = l).
    { rewrite <- Hl. rewrite El at 2. rewrite El, app_length. cbn [length]. rewrite app_nth2 by lia.
      replace (length (rev r) + 1 - 1 - length (rev r))%nat with 0%nat by lia. reflexivity. }
    split; [lia|]. exists (ys_of (repeat n0 spn) its), (fun k => nth k its l). rewrite <- Es.
    split; [exact Hrec|]. split; [|split; [|split; [|split]]].
    - destruct (Z.to_nat steps) as [|n] eqn:En; [lia|]. cbn [ys_of]. rewrite nth_map_lt with (da := l) by lia.
      replace (S n - 1)%nat with n in Hlast by lia. rewrite Hlast. reflexivity.
    - symmetry. exact Hlast.
    - rewrite Hl. reflexivity.
    - rewrite <- Hl. rewrite <- (map_map (fun k => nth k its l) (@it_erate T)), map_nth_seq. reflexivity.
    - rewrite <- Hl. rewrite <- (map_map (fun k => nth k its l) (@it_loss T)), map_nth_seq. reflexivity.
  Qed.

  (** the TensorFlow run: the same recurrence, but with the draw of each run *)
  Theorem c63_tf svd (t : tensor T) spls delt0 tao0 spn vi steps o o' :
    pitf_train svd t spls delt0 tao0 spn vi steps o = (o', Ok tt) ->
    (0 < steps)%Z /\
    exists ys its, recurrence (shrink_tf svd) t (fun k => spls (S k)) spn (pitf_delt delt0 spn (shp t)) (pitf_tao tao0 (shp t)) (Z.to_nat steps) ys its /\
      po_vec o' = Some (ys (Z.to_nat steps)).
  Proof.
    unfold pitf_train. cbv zeta. destruct ((vi =? 0)%Z && (2 <? steps)%Z) eqn:Ec.
    - destruct (tf_loop _ _ _ _ _ _ _ _ _) as [its [x|]]; discriminate.
    - destruct (tf_loop _ _ _ _ _ _ _ _ _) as [its x] eqn:E. destruct x; [discriminate|].
      destruct (Z.leb_spec steps 0); [discriminate|]. intros H1. injection H1 as <-. split; [lia|].
      destruct (rev its) as [|l r] eqn:Er.
      { exfalso. assert (its = []) by (rewrite <- (rev_involutive its), Er; reflexivity). subst.
        destruct (tf_loop_spec _ _ _ _ _ _ (mkI t t t n0 n0 []) _ _ _ _ (repeat_length n0 spn) E) as [Hl _]. simpl in Hl. lia. }
      destruct (tf_loop_rec _ _ _ _ _ _ l _ _ E) as [Hl Hrec].
      assert (El : its = rev r ++ [l]) by (rewrite <- (rev_involutive its), Er; reflexivity).
      eexists _, _. split; [exact Hrec|]. cbn [po_vec]. f_equal.
      destruct (Z.to_nat steps) as [|n] eqn:En; [lia|]. cbn [ys_of]. rewrite El, map_app, app_nth2.
      + rewrite map_length. assert (Hn : length (rev r) = n) by (rewrite El, app_length in Hl; simpl in Hl; lia). rewrite Hn, Nat.sub_diag. reflexivity.
      + rewrite map_length. rewrite El, app_length in Hl. simpl in Hl. lia.
  Qed.

  Theorem c63_zero_freedom svd (t : tensor T) spl rank delt0 tao0 spn steps s0 s1 s2 : shp t = [s0; s1; s2] ->
    let z := Z.of_nat in
    (rank * (z s0 + z s1 - rank) + rank * (z s1 + z s2 - rank) + rank * (z s2 + z s0 - rank) = 0)%Z ->
    exact_recovery svd t spl rank delt0 tao0 spn steps = Raise ZeroDivisionError.
  Proof. intros Hs z H. unfold exact_recovery. rewrite Hs. cbv zeta. fold z. rewrite H. reflexivity. Qed.

  (** ** C66 *)
  Theorem c66_tf svd (t : tensor T) spls delt0 tao0 spn vi steps o :
    pitf_full (fst (pitf_train svd t spls delt0 tao0 spn vi steps o)) = pitf_full o.
  Proof.
    unfold pitf_train, pitf_full. cbv zeta. destruct (tf_loop _ _ _ _ _ _ _ _ _) as [its x].
    assert (E : po_full (match rev its with [] => o | l :: _ => mkPO (po_full o) (Some (it_y l)) (po_finish o) end) = po_full o) by (destruct (rev its); reflexivity).
    destruct x; [exact E|]. destruct (_ && _); [exact E|]. destruct (_ <=? _)%Z; exact E.
  Qed.
  Theorem c66_np svd (t : tensor T) spl rank delt0 tao0 spn steps o :
    pitf_full (fst (np_recover svd t spl rank delt0 tao0 spn steps o)) = pitf_full o.
  Proof. reflexivity. Qed.
End C63.

(** ** C63: redrawing the sample changes the result *)
Definition t63 : tensor R := mkT [1; 1; 2]%nat [1; 2].
(** an SVD of every centred matrix with one row, and of every 2 x 1 matrix *)
Definition eye (n : nat) : tensor R := mgen n n (fun i j => if Nat.eqb i j then 1 else 0).
Definition svd63 (C : tensor R) : tensor R * list R * tensor R :=
  match shp C with
  | [2%nat; 1%nat] =>
      let a := mget C 0 0 in let b := mget C 1 0 in let n := sqrt (a * a + b * b) in
      let x := if Req_EM_T n 0 then 1 else a / n in let z := if Req_EM_T n 0 then 0 else b / n in
      (mkT [2%nat; 2%nat] [x; z; z; - x], [n], eye 1)
  | [r; c] => (eye r, repeat 0 (Nat.min r c), eye c)
  | _ => (C, [], C)
  end.

Lemma orthogonal_eye n : orthogonal n (eye n).
Proof.
  split; [apply is_mat_mgen|]. split; intros i j Hi Hj; rewrite bigsumR.
  - rewrite (sumnR_ext n _ (fun k => delta k j * delta k i)).
    + rewrite (sumnR_delta' n i (fun k => delta k j) Hi). reflexivity.
    + intros k Hk. unfold eye. rewrite !mget_mgen by auto. unfold delta. lra.
  - rewrite (sumnR_ext n _ (fun k => delta k j * delta k i)).
    + rewrite (sumnR_delta' n i (fun k => delta k j) Hi). reflexivity.
    + intros k Hk. unfold eye. rewrite !mget_mgen by auto. rewrite (Nat.eqb_sym i), (Nat.eqb_sym j). unfold delta. lra.
Qed.

Lemma svd63_21 (C : tensor R) : is_mat C 2 1 -> let '(U, s, V) := svd63 C in is_svd C U s (mtrans V).
Proof.
  intros HC. unfold svd63. destruct HC as [Hw Hs] eqn:E. rewrite Hs. cbv zeta.
  set (a := mget C 0 0). set (b := mget C 1 0). set (n := sqrt (a * a + b * b)).
  assert (Hn : 0 <= n) by apply sqrt_pos. assert (Hnn : n * n = a * a + b * b) by (apply sqrt_sqrt; nra).
  set (x := if Req_EM_T n 0 then 1 else a / n). set (z := if Req_EM_T n 0 then 0 else b / n).
  assert (Hx : x * n = a /\ z * n = b /\ x * x + z * z = 1).
  { unfold x, z. destruct (Req_EM_T n 0) as [H0|H0].
    - rewrite H0 in *. assert (a = 0) by nra. assert (b = 0) by nra. lra.
    - split; [field; auto|]. split; [field; auto|]. replace (a / n * (a / n) + b / n * (b / n)) with ((a * a + b * b) / (n * n)) by (field; auto). rewrite <- Hnn. field. auto. }
  destruct Hx as (Hx & Hz & Hxz).
  exists 2%nat, 1%nat. split; [exact HC|]. split; [|split; [|split; [reflexivity|split]]].
  - split; [split; reflexivity|]. split; intros i j Hi Hj; (destruct i as [|[|i]]; [| |lia]); (destruct j as [|[|j]]; [| |lia]);
      unfold mget, get, kron_delta; cbn [bigsum shp dat ravel prod nth Nat.mul Nat.add Nat.eqb]; Rn; lra.
  - replace (mtrans (eye 1)) with (eye 1); [apply orthogonal_eye|].
    apply (mat_ext _ _ 1 1); [apply is_mat_mgen|apply is_mat_mgen|]. intros i j Hi Hj. unfold mtrans, eye, nrows, ncols.
    cbn [shp mgen gen nth]. rewrite !mget_mgen by auto. rewrite Nat.eqb_sym. reflexivity.
  - split; [intros y [<-|[]]; exact Hn|]. intros i j Hij Hj. cbn [length] in Hj. assert (i = j) by lia. subst. lra.
  - intros i j Hi Hj. assert (j = 0%nat) by lia. subst j.
    assert (E1 : mget (mtrans (eye 1)) 0 0 = 1) by reflexivity. cbn [length bigsum nth].
    rewrite E1. destruct i as [|[|i]]; [| |lia].
    + change (mget (mkT [2%nat; 2%nat] [x; z; z; - x]) 0 0) with x. fold a. Rn. lra.
    + change (mget (mkT [2%nat; 2%nat] [x; z; z; - x]) 1 0) with z. fold b. Rn. lra.
Qed.

Lemma central_row (M C : tensor R) c : is_mat M 1 c -> centralization M = Ok C -> C = mgen 1 c (fun _ _ => 0).
Proof.
  intros HM. rewrite (centralization_ok M 1 c HM). intros E. injection E as <-. apply mgen_ext. intros i j Hi Hj.
  assert (i = 0%nat) by lia. subst. rewrite (sumnR_single 1 0); [simpl; lra|lia|lia].
Qed.

Lemma svd63_row (C : tensor R) c : C = mgen 1 c (fun _ _ => 0) -> let '(U, s, V) := svd63 C in is_svd C U s (mtrans V).
Proof.
  intros ->. unfold svd63. rewrite shp_mgen. exists 1%nat, c. split; [apply is_mat_mgen|].
  split; [apply orthogonal_eye|]. split; [|split; [apply repeat_length|split]].
  - replace (mtrans (eye c)) with (eye c); [apply orthogonal_eye|].
    apply (mat_ext _ _ c c); [apply is_mat_mgen|apply is_mat_mgen|]. intros i j Hi Hj. unfold mtrans, eye, nrows, ncols.
    cbn [shp mgen gen nth]. rewrite !mget_mgen by auto. rewrite Nat.eqb_sym. reflexivity.
  - split; [intros x Hx; apply repeat_spec in Hx; lra|]. intros i j _ _. rewrite !nth_repeat. lra.
  - intros i j Hi Hj. rewrite mget_mgen by auto. rewrite bigsumR. symmetry. apply sumnR_zero. intros. rewrite nth_repeat. lra.
Qed.

(** thresholds above all singular values give the zero matrix *)
Lemma shrink_tf_zero svd (M C U V : tensor R) s tau r c mode : is_mat M r c -> 0 <= tau -> centralization M = Ok C -> svd C = (U, s, V) ->
  is_mat U r r -> is_mat V c c -> length s = Nat.min r c -> (forall x, In x s -> x <= tau) ->
  Rabs (total M / sqrt (INR (r * c))) <= tau ->
  shrink_tf svd M tau mode = Ok (mgen r c (fun _ _ => 0)).
Proof.
  intros HM Ht EC ES HU HV Hl Hle Htot. unfold shrink_tf. rewrite (SVT_ok svd M C U V s tau EC ES). cbn [bind].
  destruct (is_mat_rc M r c HM) as (Er & Ec & _). rewrite Er, Ec.
  destruct (usv_ok U V (thresholded tau s) r c HU HV) as (us & X & E1 & E2 & HX & HXe); [unfold thresholded; rewrite map_length; auto|].
  rewrite E1. cbn [bind]. rewrite E2. cbn [bind].
  assert (EX : X = mgen r c (fun _ _ => 0)).
  { apply (mat_ext _ _ r c); auto using is_mat_mgen. intros i j Hi Hj. rewrite HXe by auto. rewrite mget_mgen by auto.
    apply sumnR_zero. intros k Hk. unfold thresholded in Hk |- *. rewrite map_length in Hk. rewrite nth_map0 by auto.
    rewrite Rmax_left; [lra|]. assert (nth k s 0 <= tau) by (apply Hle, nth_In; auto). lra. }
  destruct mode; [rewrite EX; reflexivity|]. rewrite (mean_term_ok M tau r c HM Ht). cbn [bind].
  destruct HX as [_ HXs]. rewrite (mat_mat nadd X _ r c) by (auto using shp_mgen). f_equal. rewrite EX. apply mgen_ext. intros i j Hi Hj.
  rewrite !mget_mgen by auto.
  assert (Es : soft_threshold (total M / sqrt (INR (r * c))) tau = 0).
  { unfold soft_threshold.
    assert (- tau <= total M / sqrt (INR (r * c)) <= tau).
    { split; [|eapply Rle_trans; [apply Rle_abs|exact Htot]].
      apply Ropp_le_cancel. rewrite Ropp_involutive. eapply Rle_trans; [|exact Htot]. rewrite <- Rabs_Ropp. apply Rle_abs. }
    destruct (Rlt_dec _ _); [lra|]. destruct (Rlt_dec _ _); [lra|]. reflexivity. }
  rewrite Es. Rn. unfold Rdiv. lra.
Qed.

Lemma total_entry (A : tensor R) r c a b v : is_mat A r c -> (a < r)%nat -> (b < c)%nat -> mget A a b = v ->
  (forall i j, (i < r)%nat -> (j < c)%nat -> ~ (a = i /\ b = j) -> mget A i j = 0) -> total A = v.
Proof.
  intros HA Ha Hb Hv Hz. rewrite (total_R A r c HA). rewrite (sumnR_single c b); auto.
  - rewrite (sumnR_single r a); auto. intros i Hi Hne. apply Hz; auto. intros [E _]. congruence.
  - intros j Hj Hne. apply sumnR_zero. intros i Hi. apply Hz; auto. intros [_ E]. congruence.
Qed.

(** one step of the recurrence, whatever the sample *)
Lemma sqrt_ge_1 x : 1 <= x -> 1 <= sqrt x.
Proof. intros H. rewrite <- sqrt_1. apply sqrt_le_1_alt. exact H. Qed.

Lemma div_small y n : (1 <= n)%nat -> Rabs (y / sqrt (INR n)) <= Rabs y.
Proof.
  intros Hn. assert (H1 : 1 <= sqrt (INR n)) by (apply sqrt_ge_1; change 1 with (INR 1); apply le_INR; auto).
  unfold Rdiv. rewrite Rabs_mult. rewrite <- (Rmult_1_r (Rabs y)) at 2. apply Rmult_le_compat_l; [apply Rabs_pos|].
  rewrite Rabs_right by (left; apply Rinv_0_lt_compat; lra). rewrite <- Rinv_1. apply Rinv_le_contravar; lra.
Qed.

Lemma adj1 spl (y : R) d r c o p : Pomega_tensor spl t63 1 = Ok p -> axes_of d r c o ->
  let ts := [1; 1; 2]%nat in
  exists A a b, adjoint_operator spl [y] ts 1 d = Ok A /\ is_mat A (nth r ts 0%nat) (nth c ts 0%nat) /\
    (a < nth r ts 0)%nat /\ (b < nth c ts 0)%nat /\ mget A a b = y /\
    (forall i j, (i < nth r ts 0)%nat -> (j < nth c ts 0)%nat -> ~ (a = i /\ b = j) -> mget A i j = 0) /\
    (forall i, (i < 3)%nat -> (nth 0 (sp_pick spl i) 0 < nth i ts 0)%nat /\ (1 <= length (sp_pick spl i))%nat).
Proof.
  intros Hp Hd ts. unfold Pomega_tensor in Hp. cbn [seq mapM] in Hp. change (Z.of_nat 0) with 0%Z in Hp.
  destruct (sp_a spl) as [|a0 la] eqn:Ea; [discriminate|]. destruct (sp_b spl) as [|b0 lb] eqn:Eb; [discriminate|].
  destruct (sp_c spl) as [|c0 lc] eqn:Ec; [discriminate|].
  change (pynth (a0 :: la) 0) with (Ok a0) in Hp. change (pynth (b0 :: lb) 0) with (Ok b0) in Hp. change (pynth (c0 :: lc) 0) with (Ok c0) in Hp.
  cbn [bind] in Hp. destruct (Nat.eqb (length (shp t63)) 3 && zvalid (shp t63) (map Z.of_nat [a0; b0; c0])) eqn:Ev; [|discriminate].
  apply andb_true_iff in Ev. destruct Ev as [_ Ev]. unfold zvalid in Ev. cbn [shp t63 map combine forallb fst snd length Nat.eqb andb] in Ev.
  rewrite !andb_true_iff in Ev. destruct Ev as ([_ Ha] & [_ Hb] & [_ Hc] & _).
  apply Z.ltb_lt in Ha. apply Z.ltb_lt in Hb. apply Z.ltb_lt in Hc.
  assert (Hin : forall i, (i < 3)%nat -> (nth 0 (sp_pick spl i) 0 < nth i ts 0)%nat /\ (1 <= length (sp_pick spl i))%nat).
  { intros i Hi. unfold sp_pick. destruct i as [|[|[|i]]]; [rewrite Ea|rewrite Eb|rewrite Ec|lia]; cbn [nth ts length]; split; lia. }
  assert (Hpos : positions_in 1 (nth r ts 0%nat) (nth c ts 0%nat) (sp_pick spl r) (sp_pick spl c)).
  { destruct (dim_axes_ok d r c o Hd) as (_ & Lr & Lc & _). destruct (Hin r Lr). destruct (Hin c Lc).
    split; auto. split; auto. intros i Hi. assert (i = 0%nat) by lia. subst. auto. }
  destruct (c60_adj spl [y] ts 1 d r c o Hd eq_refl (le_n 1) Hpos) as (A & EA & HA & Hi1 & Hi2).
  exists A, (nth 0 (sp_pick spl r) 0%nat), (nth 0 (sp_pick spl c) 0%nat). split; [exact EA|]. split; [exact HA|].
  destruct Hpos as (_ & _ & H3). destruct (H3 0%nat ltac:(lia)) as [H4 H5]. split; [exact H4|]. split; [exact H5|].
  split; [apply (Hi1 0%nat); [lia|intros; lia]|]. split; [|exact Hin].
  intros i j Hi Hj Hne. apply Hi2; auto. intros k Hk. assert (k = 0%nat) by lia. subst. exact Hne.
Qed.

Lemma Pomega_zero spl m d r c o ts : axes_of d r c o -> length ts = 3%nat ->
  positions_in m (nth r ts 0%nat) (nth c ts 0%nat) (sp_pick spl r) (sp_pick spl c) ->
  Pomega_mat spl (mgen (nth r ts 0%nat) (nth c ts 0%nat) (fun _ _ => 0)) ts m d = Ok (map (fun _ => 0) (seq 0 m)).
Proof.
  intros Hd Hl Hp. rewrite (Pomega_mat_ok spl _ ts m d r c o Hd Hl); auto using is_mat_mgen. f_equal. apply map_ext_in. intros i Hi.
  apply in_seq in Hi. destruct Hp as (_ & _ & H3). destruct (H3 i ltac:(lia)). rewrite mget_mgen by auto. unfold Rdiv. lra.
Qed.

Lemma step63 spls delt tao n ys its k y : recurrence (shrink_tf svd63) t63 spls 1 delt tao n ys its -> (k < n)%nat ->
  ys k = [y] -> Rabs y <= tao ->
  exists p, Pomega_tensor (spls k) t63 1 = Ok p /\ ys (S k) = [y + delt * nth 0 p 0].
Proof.
  intros [_ Hrec] Hk Hy Hsm. destruct (Hrec k Hk) as (A1 & A2 & A3 & X & Y & Z & p & e & Hx). cbv zeta in Hx.
  destruct Hx as (X1 & X2 & X3 & X4 & X5 & X6 & X7 & X8 & X9 & X10 & X11 & X12 & _). rewrite Hy in *.
  change (shp t63) with [1; 1; 2]%nat in *.
  exists p. split; [exact X10|]. rewrite X12. cbn [seq map]. change (nth 0 [y] n0) with y.
  assert (Ht : 0 <= tao) by (eapply Rle_trans; [apply Rabs_pos|exact Hsm]).
  destruct (adj1 (spls k) y 0 0 1 2 p X10 (or_introl (conj eq_refl (conj eq_refl (conj eq_refl eq_refl))))) as (B1 & a1 & b1 & E1 & M1 & L1 & L1' & V1 & Z1 & Hin).
  destruct (adj1 (spls k) y 1 1 2 0 p X10 (or_intror (or_introl (conj eq_refl (conj eq_refl (conj eq_refl eq_refl)))))) as (B2 & a2 & b2 & E2 & M2 & L2 & L2' & V2 & Z2 & _).
  destruct (adj1 (spls k) y 2 2 0 1 p X10 (or_intror (or_intror (conj eq_refl (conj eq_refl (conj eq_refl eq_refl)))))) as (B3 & a3 & b3 & E3 & M3 & L3 & L3' & V3 & Z3 & _).
  cbv zeta in *. rewrite X1 in E1. injection E1 as <-. rewrite X2 in E2. injection E2 as <-. rewrite X3 in E3. injection E3 as <-.
  cbn [nth] in M1, L1, L1', Z1, M2, L2, L2', Z2, M3, L3, L3', Z3.
  pose proof (total_entry A1 1 1 a1 b1 y M1 L1 L1' V1 Z1) as T1. pose proof (total_entry A2 1 2 a2 b2 y M2 L2 L2' V2 Z2) as T2.
  pose proof (total_entry A3 2 1 a3 b3 y M3 L3 L3' V3 Z3) as T3.
  destruct (c59 A1 1 1 M1) as (C1 & EC1 & HC1 & _). destruct (c59 A2 1 2 M2) as (C2 & EC2 & HC2 & _). destruct (c59 A3 2 1 M3) as (C3 & EC3 & HC3 & HC3e & _).
  assert (S1 : svd63 C1 = (eye 1, [0], eye 1)) by (unfold svd63; destruct HC1 as [_ ->]; reflexivity).
  assert (S2 : svd63 C2 = (eye 1, [0], eye 2)) by (unfold svd63; destruct HC2 as [_ ->]; reflexivity).
  assert (Q1 : shrink_tf svd63 A1 tao Complicated = Ok (mgen 1 1 (fun _ _ => 0))).
  { apply (shrink_tf_zero svd63 A1 C1 (eye 1) (eye 1) [0] tao 1 1); auto using (is_mat_mgen (T := R)); try apply is_mat_mgen.
    - intros x [<-|[]]. exact Ht.
    - rewrite T1. eapply Rle_trans; [apply (div_small y (1 * 1)); lia|exact Hsm]. }
  assert (Q2 : shrink_tf svd63 A2 tao Normal = Ok (mgen 1 2 (fun _ _ => 0))).
  { apply (shrink_tf_zero svd63 A2 C2 (eye 1) (eye 2) [0] tao 1 2); auto using (is_mat_mgen (T := R)); try apply is_mat_mgen.
    - intros x [<-|[]]. exact Ht.
    - rewrite T2. eapply Rle_trans; [apply (div_small y (1 * 2)); lia|exact Hsm]. }
  assert (Q3 : shrink_tf svd63 A3 tao Normal = Ok (mgen 2 1 (fun _ _ => 0))).
  { destruct (svd63 C3) as [[U3 s3] V3'] eqn:S3. unfold svd63 in S3. rewrite (proj2 HC3) in S3. cbv zeta in S3. injection S3 as EU Es EV.
    apply (shrink_tf_zero svd63 A3 C3 U3 V3' s3 tao 2 1); auto.
    - unfold svd63. rewrite (proj2 HC3). cbv zeta. rewrite EU, Es, EV. reflexivity.
    - rewrite <- EU. split; reflexivity.
    - rewrite <- EV. apply is_mat_mgen.
    - rewrite <- Es. reflexivity.
    - rewrite <- Es. intros x [<-|[]].
      assert (Hcs : col_sum A3 0 = y).
      { rewrite (col_sum_R A3 2 1 0 M3). rewrite (total_R A3 2 1 M3) in T3. rewrite (sumnR_single 1 0) in T3 by lia. exact T3. }
      assert (Hent : forall i, (i < 2)%nat -> mget A3 i 0 = y \/ mget A3 i 0 = 0).
      { intros i Hi. destruct (Nat.eq_dec a3 i) as [<- |Hne]; [left; assert (b3 = 0%nat) by lia; subst b3; exact V3|right; apply Z3; [exact Hi|lia|tauto]]. }
      rewrite (HC3e 0%nat 0%nat), (HC3e 1%nat 0%nat) by lia. rewrite Hcs.
      rewrite (col_sum_R A3 2 1 0 M3) in Hcs. rewrite <- bigsumR in Hcs. cbn [bigsum] in Hcs. Rn.
      assert (Hq : (mget A3 0 0 - y / INR 2) * (mget A3 0 0 - y / INR 2) + (mget A3 1 0 - y / INR 2) * (mget A3 1 0 - y / INR 2) <= y * y).
      { simpl INR. destruct (Hent 0%nat ltac:(lia)) as [W0|W0]; destruct (Hent 1%nat ltac:(lia)) as [W1|W1]; rewrite W0, W1 in *; nra. }
      eapply Rle_trans; [apply sqrt_le_1_alt, Hq|]. change (y * y) with (Rsqr y). rewrite sqrt_Rsqr_abs. exact Hsm.
    - rewrite T3. eapply Rle_trans; [apply (div_small y (2 * 1)); lia|exact Hsm]. }
  rewrite Q1 in X4. injection X4 as <-. rewrite Q2 in X5. injection X5 as <-. rewrite Q3 in X6. injection X6 as <-.
  assert (Hdiv : forall r c x W, tf_bin ndiv (mgen r c (fun _ _ => 0)) (scalar x) = Ok W -> W = mgen r c (fun _ _ => 0)).
  { intros r c x W EW. rewrite (mat_scalar ndiv _ _ r c) in EW by apply shp_mgen. injection EW as <-. apply mgen_ext. intros i j Hi Hj.
    rewrite mget_mgen by auto. Rn. unfold Rdiv. lra. }
  apply Hdiv in X7. apply Hdiv in X8. apply Hdiv in X9. rewrite X7, X8, X9 in X11.
  assert (HP : forall r c, (r < 3)%nat -> (c < 3)%nat -> positions_in 1 (nth r [1; 1; 2]%nat 0%nat) (nth c [1; 1; 2]%nat 0%nat) (sp_pick (spls k) r) (sp_pick (spls k) c)).
  { intros r c Hr Hc. destruct (Hin r Hr). destruct (Hin c Hc). split; auto. split; auto. intros i Hi. assert (i = 0%nat) by lia. subst. auto. }
  unfold Pomega_Pair in X11.
  rewrite (Pomega_zero (spls k) 1 0 0 1 2 [1; 1; 2]%nat (or_introl (conj eq_refl (conj eq_refl (conj eq_refl eq_refl)))) eq_refl (HP 0%nat 1%nat ltac:(lia) ltac:(lia)) :
     Pomega_mat (spls k) (mgen 1 1 (fun _ _ => 0)) [1; 1; 2]%nat 1 0 = _) in X11.
  rewrite (Pomega_zero (spls k) 1 1 1 2 0 [1; 1; 2]%nat (or_intror (or_introl (conj eq_refl (conj eq_refl (conj eq_refl eq_refl))))) eq_refl (HP 1%nat 2%nat ltac:(lia) ltac:(lia)) :
     Pomega_mat (spls k) (mgen 1 2 (fun _ _ => 0)) [1; 1; 2]%nat 1 1 = _) in X11.
  rewrite (Pomega_zero (spls k) 1 2 2 0 1 [1; 1; 2]%nat (or_intror (or_intror (conj eq_refl (conj eq_refl (conj eq_refl eq_refl))))) eq_refl (HP 2%nat 0%nat ltac:(lia) ltac:(lia)) :
     Pomega_mat (spls k) (mgen 2 1 (fun _ _ => 0)) [1; 1; 2]%nat 1 2 = _) in X11.
  cbn [bind seq map] in X11. injection X11 as <-. cbn [vadd map combine fst snd nth]. Rn. f_equal. change (@n0 R NumR) with 0. ring_simplify. reflexivity.
Qed.

Definition spls63 (k : nat) : sample := mkS [0%nat] [0%nat] [(k - 1)%nat].
Notation run63 := (pitf_train svd63 t63 spls63 1 100 1 1 2 pitf_fresh).

Lemma run63_ok : snd run63 = Ok tt.
Proof.
  assert (H : match snd run63 with Ok _ => true | _ => false end = true) by (vm_compute; reflexivity).
  destruct (snd run63) as [[]|]; [reflexivity|discriminate].
Qed.

Lemma Pomega63 spl p : Pomega_tensor spl t63 1 = Ok p -> nth 0 p 0 = 1 \/ nth 0 p 0 = 2.
Proof.
  intros Hp. destruct (adj1 spl 0 0 0 1 2 p Hp (or_introl (conj eq_refl (conj eq_refl (conj eq_refl eq_refl))))) as (A & a & b & _ & _ & _ & _ & _ & _ & Hin).
  destruct (Hin 0%nat ltac:(lia)) as [H0 L0]. destruct (Hin 1%nat ltac:(lia)) as [H1 L1]. destruct (Hin 2%nat ltac:(lia)) as [H2 L2].
  unfold sp_pick in *. unfold Pomega_tensor in Hp. cbn [seq mapM] in Hp. change (Z.of_nat 0) with 0%Z in Hp.
  destruct (sp_a spl) as [|a0 la]; [simpl in L0; lia|]. destruct (sp_b spl) as [|b0 lb]; [simpl in L1; lia|]. destruct (sp_c spl) as [|c0 lc]; [simpl in L2; lia|].
  cbn [nth] in H0, H1, H2. assert (a0 = 0%nat) by lia. assert (b0 = 0%nat) by lia. subst.
  destruct c0 as [|[|c0]]; [| |lia]; cbn in Hp; injection Hp as <-; [left|right]; reflexivity.
Qed.

Section Redraw.
  Variable dl ta : R.
  Hypothesis Hdl : 0 < dl <= 1.
  Hypothesis Hta : 100 <= ta.

  Lemma two_steps63 spls ys its : recurrence (shrink_tf svd63) t63 spls 1 dl ta 2 ys its ->
     exists p0 p1, Pomega_tensor (spls 0%nat) t63 1 = Ok p0 /\ Pomega_tensor (spls 1%nat) t63 1 = Ok p1 /\ ys 2%nat = [dl * nth 0 p0 0 + dl * nth 0 p1 0].
  Proof.
    intros Hr. assert (R0 : Rabs 0 <= ta) by (rewrite Rabs_R0; lra).
    destruct (step63 spls dl ta 2 ys its 0 0 Hr ltac:(lia) (proj1 Hr) R0) as (p0 & P0 & Y1).
    assert (B1 : Rabs (0 + dl * nth 0 p0 0) <= ta).
    { rewrite Rplus_0_l, Rabs_mult, (Rabs_right dl) by lra. destruct (Pomega63 _ _ P0) as [-> | ->]; rewrite Rabs_right by lra; lra. }
    destruct (step63 spls dl ta 2 ys its 1 _ Hr ltac:(lia) Y1 B1) as (p1 & P1 & Y2).
    exists p0, p1. split; auto. split; auto. rewrite Y2. f_equal. ring.
  Qed.

  Lemma differ63 spl ys its ys' its' :
    recurrence (shrink_tf svd63) t63 (fun _ => spl) 1 dl ta 2 ys its ->
    recurrence (shrink_tf svd63) t63 (fun k => spls63 (S k)) 1 dl ta 2 ys' its' -> ys 2%nat <> ys' 2%nat.
  Proof.
    intros H1 H2 E. destruct (two_steps63 _ _ _ H1) as (p0 & p1 & P0 & P1 & Y). destruct (two_steps63 _ _ _ H2) as (q0 & q1 & Q0 & Q1 & Y').
    rewrite P0 in P1. injection P1 as <-.
    change (Pomega_tensor (spls63 1) t63 1) with (Ok [1]) in Q0. change (Pomega_tensor (spls63 2) t63 1) with (Ok [2]) in Q1.
    injection Q0 as <-. injection Q1 as <-.
    rewrite Y, Y' in E. injection E as E. cbn [nth] in E. destruct (Pomega63 _ _ P0) as [Ep|Ep]; rewrite Ep in E; lra.
  Qed.
End Redraw.

Lemma dl63 : 0 < pitf_delt 1 1 (shp t63) <= 1.
Proof.
  assert (Hs : 1 <= sqrt 2) by (apply sqrt_ge_1; lra).
  unfold pitf_delt. rewrite !nofnat_R. cbn [shp t63 prod]. Rn. change (INR 1) with 1. replace (INR (1 * (1 * (2 * 1)))) with 2 by (simpl; lra).
  rewrite Rmult_1_l. unfold Rdiv. rewrite Rmult_1_l. split; [apply Rinv_0_lt_compat; lra|]. rewrite <- Rinv_1. apply Rinv_le_contravar; lra.
Qed.
Lemma ta63 : 100 <= pitf_tao 100 (shp t63).
Proof.
  assert (Hs : 1 <= sqrt 2) by (apply sqrt_ge_1; lra).
  unfold pitf_tao. rewrite nofnat_R. cbn [shp t63 prod]. Rn. replace (INR (1 * (1 * (2 * 1)))) with 2 by (simpl; lra). lra.
Qed.

Theorem c63_redraw : forall spl ys its,
  recurrence (shrink_tf svd63) t63 (fun _ => spl) 1 (pitf_delt 1 1 (shp t63)) (pitf_tao 100 (shp t63)) 2 ys its ->
  po_vec (fst run63) <> Some (ys 2%nat).
Proof.
  intros spl ys its Hrec E.
  assert (Er : run63 = (fst run63, Ok tt)) by (rewrite <- run63_ok; apply surjective_pairing).
  destruct (c63_tf _ _ _ _ _ _ _ _ _ _ Er) as (_ & ys' & its' & Hrec' & Ev).
  rewrite Ev in E. injection E as E. symmetry in E. exact (differ63 _ _ dl63 ta63 _ _ _ _ _ Hrec Hrec' E).
Qed.

(** ** a singular value decomposition of M61 *)
Definition U61 : tensor R := mkT [4%nat; 4%nat]
  [1/2; 1/2; 1/2; 1/2;  -1/2; 1/2; 1/2; -1/2;  1/2; -1/2; 1/2; -1/2;  -1/2; -1/2; 1/2; 1/2].
Definition W61 : tensor R := mkT [3%nat; 3%nat] [0; 1; 0;  0; 0; 1;  1; 0; 0].
Definition V61t : tensor R := mkT [3%nat; 3%nat] [0; 0; 1;  1; 0; 0;  0; 1; 0].
Ltac enum i n := match n with O => lia | S ?m => destruct i as [|i]; [|enum i m] end.
Lemma svd_M61 : is_svd M61 U61 [4; 2; 0] W61.
Proof.
  exists 4%nat, 3%nat. split; [exact is_mat_M61|].
  split; [|split; [|split; [reflexivity|split; [split|]]]].
  - split; [split; reflexivity|]. split; intros i j Hi Hj; enum i 4%nat; enum j 4%nat;
      unfold mget, get, U61, kron_delta; cbn [shp dat ravel prod nth Nat.mul Nat.add bigsum Nat.eqb]; Rn; lra.
  - split; [split; reflexivity|]. split; intros i j Hi Hj; enum i 3%nat; enum j 3%nat;
      unfold mget, get, W61, kron_delta; cbn [shp dat ravel prod nth Nat.mul Nat.add bigsum Nat.eqb]; Rn; lra.
  - intros x Hx. simpl in Hx. destruct Hx as [<- | [<- | [<- | []]]]; lra.
  - intros i j Hij Hj. cbn [length] in Hj. enum i 3%nat; enum j 3%nat; try lia; cbn [nth]; lra.
  - intros i j Hi Hj. enum i 4%nat; enum j 3%nat; unfold mget, get, U61, W61, M61; cbn [shp dat ravel prod nth Nat.mul Nat.add bigsum length]; Rn; lra.
Qed.
Lemma V61t_trans : mtrans V61t = W61.
Proof. reflexivity. Qed.

(** a symmetric V: a row of a centred column *)
Definition M61s : tensor R := mkT [2%nat; 1%nat] [3; -3].
Lemma central_M61s : centralization M61s = Ok M61s.
Proof.
  destruct (c59 M61s 2 1) as (C & E & _ & _ & _ & _ & H); [split; reflexivity|]. rewrite E, H; [reflexivity|].
  intros j Hj. unfold ncols in Hj. cbn in Hj. assert (j = 0%nat) by lia. subst j. unfold col_sum, mget, get, nrows, M61s. cbn [shp dat ravel prod nth Nat.mul Nat.add bigsum]. Rn. lra.
Qed.
