(** The unit tests of tensorD/base/test on all inputs of the tested shapes (C99). *)

From Coq Require Import ZArith List Bool Arith Lia Permutation Reals.
From Verif Require Import Num Py Tensor TF TensorFacts TFFacts Sums Spec SpecFacts Ops Types OpsLemmas MulFacts TtmLemmas LayoutFacts SkipFacts PitfFacts SpecTypes SpecTest PropsLayout PropsOps PropsTtm PropsTypes.
Import ListNotations.

Section F.
  Context {T : Type} {N : Num T}.

  (** an index valid for a concrete list of sizes, taken apart *)
  Ltac idx H := repeat match type of H with
    | valid _ _ => unfold valid in H
    | Forall2 _ _ [] => inversion H; clear H; subst
    | Forall2 _ _ (_ :: _) => let x := fresh "i" in let H1 := fresh "Hi" in let H2 := fresh in inversion H as [|x ? ? ? H1 H2]; clear H; subst; rename H2 into H
    end.

  Lemma transpose_gen (t : tensor T) p q f : perm_ok (ndims t) p = true -> map Z.to_nat p = q ->
    (forall j, valid (pick q (shp t)) j -> get t (map (fun a => nth (pos a q) j 0) (seq 0 (ndims t))) = f j) ->
    tf_transpose t p = Ok (gen (pick q (shp t)) f).
  Proof.
    intros H <- Hf. unfold tf_transpose. rewrite H. f_equal. apply gen_ext. exact Hf.
  Qed.

  Lemma unfold_as (t : tensor T) (n : nat) z d m p q f : wf t -> z = Z.of_nat n -> n < ndims t -> nth n (shp t) 0 = d -> d <> 0 ->
    nprod (pick (others n (ndims t)) (shp t)) = m -> gen_perm (ndims t) (Z.of_nat n) = Ok p ->
    perm_ok (ndims t) p = true -> map Z.to_nat p = q ->
    (forall j, valid (pick q (shp t)) j -> get t (map (fun a => nth (pos a q) j 0) (seq 0 (ndims t))) = f j) ->
    unfold t z = Ok (np_reshape [d; m] (gen (pick q (shp t)) f)).
  Proof.
    intros Hw -> Hn <- Hz <- Hg Hp Hq Hf. destruct (C01_unfold_kolda T N t n Hw Hn Hz) as (u & E & [_ Hs] & _).
    assert (D : dat u = dat (gen (pick q (shp t)) f)).
    { unfold Ops.unfold in E. rewrite Hg in E. cbn [bind] in E. rewrite (transpose_gen t p q f Hp Hq Hf) in E. cbn [bind] in E.
      destruct (pynth (shp t) (Z.of_nat n)) as [d|e]; [|discriminate]. cbn [bind] in E. unfold tf_reshape in E.
      repeat match type of E with context [if ?b then _ else _] => destruct b; try discriminate | context [match ?b with _ => _ end] => destruct b; try discriminate end;
        injection E as <-; reflexivity. }
    rewrite E. f_equal. unfold np_reshape. rewrite <- D, <- Hs. destruct u; reflexivity.
  Qed.

  Ltac unf n p q := eapply (unfold_as _ n _ _ _ p q); unfold ndims;
    [assumption|reflexivity|match goal with H : shp _ = _ |- _ => rewrite H end; cbn; lia|match goal with H : shp _ = _ |- _ => rewrite H end; reflexivity
    |assumption|match goal with H : shp _ = _ |- _ => rewrite H end; cbn; try ring
    |match goal with H : shp _ = _ |- _ => rewrite H end; reflexivity|match goal with H : shp _ = _ |- _ => rewrite H end; reflexivity|reflexivity
    |let j := fresh in let Hj := fresh in intros j Hj; match goal with H : shp ?t = _ |- _ => rewrite H in Hj |- * end; cbn in Hj; idx Hj; reflexivity].

  (** test_unfold *)
  Lemma t_unfold_3 (t : tensor T) a b c : wf t -> shp t = [a; b; c] -> b <> 0 ->
    unfold t 1 = Ok (np_reshape [b; c * a] (np_transpose_120 t)).
  Proof. intros Hw Hs Hb. unf 1 [1; 2; 0]%Z [1; 2; 0]. Qed.
  Lemma t_unfold_6 (t : tensor T) a b c d e f : wf t -> shp t = [a; b; c; d; e; f] -> d <> 0 ->
    unfold t 3 = Ok (np_reshape [d; a * b * c * e * f] (np_transpose_354210 t)).
  Proof. intros Hw Hs Hb. unf 3 [3; 5; 4; 2; 1; 0]%Z [3; 5; 4; 2; 1; 0]. Qed.
  Lemma t_unfold_2 (t : tensor T) a b : wf t -> shp t = [a; b] -> b <> 0 -> unfold t 1 = Ok (np_transpose_10 t).
  Proof.
    intros Hw Hs Hb. transitivity (Ok (np_reshape [b; a] (np_transpose_10 t))).
    - unf 1 [1; 0]%Z [1; 0].
    - f_equal. unfold np_reshape, np_transpose_10. rewrite Hs. reflexivity.
  Qed.
  Lemma t_unfold_1 (t : tensor T) a : wf t -> shp t = [a] -> a <> 0 -> unfold t 0 = Ok (np_reshape [a; 1] t).
  Proof.
    intros Hw Hs Hb. transitivity (Ok (np_reshape [a; 1] (gen (pick [0] (shp t)) (get t)))).
    - unf 0 [0%Z] [0].
    - f_equal. unfold np_reshape. f_equal. f_equal. replace (pick [0] (shp t)) with (shp t) by (rewrite Hs; reflexivity). apply gen_get, Hw.
  Qed.

  (** test_fold *)
  Lemma t_fold (t m : tensor T) n s : wf t -> n < ndims t -> unfold t (Z.of_nat n) = Ok m -> shp t = s -> fold m (Z.of_nat n) s = Ok t.
  Proof. intros Hw Hn Hu <-. apply C02_fold_unfold; assumption. Qed.
  Lemma t_fold_3 (t : tensor T) a b c : wf t -> shp t = [a; b; c] -> c <> 0 ->
    fold (np_reshape [c; b * a] (np_transpose_210 t)) 2 [a; b; c] = Ok t.
  Proof.
    intros Hw Hs Hc. apply (t_fold t _ 2); auto; unfold ndims; try (rewrite Hs; cbn; lia). unf 2 [2; 1; 0]%Z [2; 1; 0].
  Qed.
  Lemma t_fold_2 (t : tensor T) a b : wf t -> shp t = [a; b] -> a <> 0 ->
    fold t 1 [b; a] = Ok (np_transpose_10 t).
  Proof.
    intros Hw Hs Ha. set (u := np_transpose_10 t).
    assert (Hu : shp u = [b; a]) by (unfold u, np_transpose_10; cbn [gen shp]; rewrite Hs; reflexivity).
    assert (Wu : wf u) by apply wf_gen.
    apply (t_fold u _ 1); auto; try (unfold ndims; rewrite Hu; cbn; lia). change (Z.of_nat 1) with 1%Z. rewrite (t_unfold_2 u b a Wu Hu Ha). f_equal.
    unfold np_transpose_10 at 1. rewrite Hu. cbn [pick map nth]. transitivity (gen (shp t) (get t)); [|apply gen_get, Hw].
    rewrite Hs. apply gen_ext. intros j Hj. idx Hj. unfold u, np_transpose_10. rewrite get_gen; [reflexivity|].
    rewrite Hs. cbn. repeat constructor; assumption.
  Qed.
  Lemma t_fold_7 (t : tensor T) a b c d e f g : wf t -> shp t = [a; b; c; d; e; f; g] -> e <> 0 ->
    fold (np_reshape [e; a * b * c * d * f * g] (np_einsum_abcdefg_egfdcba t)) 4 [a; b; c; d; e; f; g] = Ok t.
  Proof.
    intros Hw Hs Hc. apply (t_fold t _ 4); auto; unfold ndims; try (rewrite Hs; cbn; lia). unf 4 [4; 6; 5; 3; 2; 1; 0]%Z [4; 6; 5; 3; 2; 1; 0].
  Qed.

  (** test_t2mat *)
  Lemma reshape_eq (t u : tensor T) s s' : tf_reshape t s = Ok u -> shp u = s' -> tf_reshape t s = Ok (np_reshape s' t).
  Proof.
    intros E <-. rewrite E. f_equal. unfold tf_reshape in E.
    repeat match type of E with context [if ?b then _ else _] => destruct b; try discriminate | context [match ?b with _ => _ end] => destruct b; try discriminate end;
      injection E as <-; reflexivity.
  Qed.
  Lemma reshape_nat (t : tensor T) s : nprod s = prod (shp t) -> tf_reshape t (map Z.of_nat s) = Ok (np_reshape s t).
  Proof.
    intros H. unfold tf_reshape.
    assert (P : zprod (map Z.of_nat s) = Z.of_nat (nprod s)).
    { clear. induction s as [|x s IH]; [reflexivity|]. cbn [map zprod fold_right]. unfold zprod in IH. rewrite IH. change (nprod (x :: s)) with (x * nprod s). lia. }
    assert (E1 : forall l, filter (fun d => (d =? -1)%Z) (map Z.of_nat l) = []).
    { induction l as [|x l IH]; [reflexivity|]. cbn [map filter]. destruct (Z.eqb_spec (Z.of_nat x) (-1)); [lia|exact IH]. }
    assert (E2 : forall l, filter (fun d => negb (d =? -1)%Z) (map Z.of_nat l) = map Z.of_nat l).
    { induction l as [|x l IH]; [reflexivity|]. cbn [map filter]. destruct (Z.eqb_spec (Z.of_nat x) (-1)); [lia|]. cbn [negb]. f_equal. exact IH. }
    assert (E3 : forall l, existsb (fun d => (d <? 0)%Z) (map Z.of_nat l) = false).
    { induction l as [|x l IH]; [reflexivity|]. cbn [map existsb]. rewrite IH. destruct (Z.ltb_spec (Z.of_nat x) 0); [lia|reflexivity]. }
    rewrite E1, E2, E3, P, H, Z.eqb_refl. f_equal. unfold np_reshape. f_equal. clear. induction s as [|x s IH]; [reflexivity|]. cbn [map]. rewrite Nat2Z.id, IH. reflexivity.
  Qed.
  Lemma t_t2mat_4 (t : tensor T) a b c d : shp t = [a; b; c; d] ->
    t2mat t (AList [1; 2]%Z) (AList [3; 0]%Z) = Ok (np_reshape [b * c; d * a] (np_transpose_1230 t)).
  Proof.
    intros Hs. unfold t2mat, t2mat_full. unfold dim. rewrite Hs. cbn [mapM].
    change (pynth [a; b; c; d] 0) with (Ok a). change (pynth [a; b; c; d] 1) with (Ok b). change (pynth [a; b; c; d] 2) with (Ok c). change (pynth [a; b; c; d] 3) with (Ok d).
    cbn [bind snd py_concat app].
    rewrite (transpose_gen t [1; 2; 3; 0]%Z [1; 2; 3; 0] (fun j => match j with [b; c; d; a] => get t [a; b; c; d] | _ => n0 end)).
    - cbn [bind]. change (np_transpose_1230 t) with (gen (pick [1; 2; 3; 0] (shp t)) (fun j => match j with [b; c; d; a] => get t [a; b; c; d] | _ => n0 end)).
      rewrite <- (reshape_nat _ [b * c; d * a]); [cbn; repeat f_equal; lia|].
      cbn [gen shp]. rewrite Hs. cbn. ring.
    - unfold ndims. rewrite Hs. reflexivity.
    - reflexivity.
    - unfold ndims. rewrite Hs. intros j Hj. cbn in Hj. idx Hj. reflexivity.
  Qed.
  Lemma t_t2mat_2 (t : tensor T) a b : wf t -> shp t = [a; b] -> t2mat t (AInt 0) (AInt 1) = Ok t.
  Proof.
    intros Hw Hs. unfold t2mat, t2mat_full, dim. rewrite Hs. change (pynth [a; b] 0) with (Ok a). change (pynth [a; b] 1) with (Ok b). cbn [bind Z.eqb snd app].
    rewrite (transpose_gen t [0; 1]%Z [0; 1] (get t)).
    - cbn [bind]. replace (pick [0; 1] (shp t)) with (shp t) by (rewrite Hs; reflexivity). rewrite gen_get by exact Hw.
      transitivity (tf_reshape t (map Z.of_nat [a; b])); [reflexivity|]. rewrite reshape_nat by (rewrite Hs; reflexivity). unfold np_reshape. rewrite <- Hs. destruct t; reflexivity.
    - unfold ndims. rewrite Hs. reflexivity.
    - reflexivity.
    - unfold ndims. rewrite Hs. intros j Hj. cbn in Hj. idx Hj. reflexivity.
  Qed.
  Lemma t_t2mat_1 (t : tensor T) a : wf t -> shp t = [a] -> t2mat t (AInt 0) (AInt (-1)) = Ok (np_reshape [a; 1] t).
  Proof.
    intros Hw Hs. unfold t2mat, t2mat_full, dim, ndims. rewrite Hs. change (pynth [a] 0) with (Ok a). cbn [bind Z.eqb Pos.eqb].
    change (filter (fun i => negb (zmem i [0%Z])) (zrange (length [a]))) with (@nil Z). cbn [snd py_concat bind app mapM].
    rewrite (transpose_gen t [0]%Z [0] (get t)).
    - cbn [bind]. replace (pick [0] (shp t)) with (shp t) by (rewrite Hs; reflexivity). rewrite gen_get by exact Hw.
      transitivity (tf_reshape t (map Z.of_nat [a; 1])); [reflexivity|]. apply reshape_nat. rewrite Hs. reflexivity.
    - unfold ndims. rewrite Hs. reflexivity.
    - reflexivity.
    - unfold ndims. rewrite Hs. intros j Hj. cbn in Hj. idx Hj. reflexivity.
  Qed.

  (** test_vectorize, test_vec_to_tensor *)
  Lemma t_vec_to_tensor (t : tensor T) a b c : wf t -> shp t = [a; b; c] ->
    vec_to_tensor (np_reshape [a * b * c] t) (map Z.of_nat [a; b; c]) = Ok t.
  Proof.
    intros Hw Hs. unfold vec_to_tensor. rewrite reshape_nat by (cbn; ring). unfold np_reshape. cbn [dat]. rewrite <- Hs. destruct t; reflexivity.
  Qed.

  (** ** tests of arithmetic, in any commutative ring *)
  Hypothesis RL : RingLaws T.
  Let RLu : ring_theory n0 n1 nadd nmul nsub nopp (@eq T) := RL.
  Add Ring TRing : RLu.

  Lemma bs_zero n : bigsum n (fun _ => n0) = n0 :> T.
  Proof. induction n as [|n IH]; [reflexivity|]. cbn [bigsum]. rewrite IH. ring. Qed.
  Lemma bs_mul_l n c (f : nat -> T) : bigsum n (fun i => nmul c (f i)) = nmul c (bigsum n f).
  Proof. induction n as [|n IH]; cbn [bigsum]; [ring|]. rewrite IH. ring. Qed.
  Lemma bs_mul_r n c (f : nat -> T) : bigsum n (fun i => nmul (f i) c) = nmul (bigsum n f) c.
  Proof. induction n as [|n IH]; cbn [bigsum]; [ring|]. rewrite IH. ring. Qed.
  Lemma bs_add n (f g : nat -> T) : bigsum n (fun i => nadd (f i) (g i)) = nadd (bigsum n f) (bigsum n g).
  Proof. induction n as [|n IH]; cbn [bigsum]; [ring|]. rewrite IH. ring. Qed.
  Lemma bs_swap m n (f : nat -> nat -> T) : bigsum m (fun i => bigsum n (fun j => f i j)) = bigsum n (fun j => bigsum m (fun i => f i j)).
  Proof. induction m as [|m IH]; cbn [bigsum]; [symmetry; apply bs_zero|]. rewrite IH, bs_add. reflexivity. Qed.

  Lemma v1 (a n : nat) : a < n -> valid [n] [a]. Proof. intros. repeat constructor; assumption. Qed.
  Lemma v2 (a b n m : nat) : a < n -> b < m -> valid [n; m] [a; b]. Proof. intros. repeat constructor; assumption. Qed.
  Lemma v4 (a b c d n m p q : nat) : a < n -> b < m -> c < p -> d < q -> valid [n; m; p; q] [a; b; c; d].
  Proof. intros. repeat constructor; assumption. Qed.
  Ltac nodup := repeat constructor; cbn; lia.

  Lemma mul_as (A B : tensor T) a b r sa sb fa fb : NoDup a -> NoDup b -> shp A = sa -> shp B = sb ->
    forallb (fun x => x <? length sa) a = true -> forallb (fun x => x <? length sb) b = true -> pick a sa = pick b sb ->
    pick (free_axes a (length sa)) sa = fa -> pick (free_axes b (length sb)) sb = fb ->
    wf r -> shp r = fa ++ fb ->
    (forall i j, valid fa i -> valid fb j -> msum (pick a sa) (fun k =>
        nmul (get A (merge (length sa) a k i)) (get B (merge (length sb) b k j))) = get r (i ++ j)) ->
    mul A B (AList (map Z.of_nat a)) (AList (map Z.of_nat b)) = Ok r.
  Proof.
    intros Na Nb Sa Sb La Lb Hp <- <- Wr Sr Hr. subst sa sb.
    destruct (C08_mul_contraction T N RL A B a b Na Nb) as (r' & E & W & S & G).
    { intros x Hx. rewrite forallb_forall in La. apply Nat.ltb_lt, La, Hx. }
    { intros x Hx. rewrite forallb_forall in Lb. apply Nat.ltb_lt, Lb, Hx. }
    { exact Hp. }
    rewrite E. f_equal. unfold ndims in S, G. apply tensor_ext; [exact W|exact Wr|congruence|]. intros idx' Hi. rewrite S in Hi. unfold valid in Hi.
    apply Forall2_app_inv_r in Hi. destruct Hi as (i & j & Hi & Hj & ->). rewrite G by assumption. apply Hr; assumption.
  Qed.

  (** test_mul, test_mul_run_time *)
  Lemma t_mul (A B : tensor T) i j k l m : shp A = [i; j; k] -> shp B = [k; l; m] ->
    mul A B (AList [2%Z]) (AList [0%Z]) = Ok (np_einsum_mul A B).
  Proof.
    intros SA SB. apply (mul_as A B [2] [0] _ [i; j; k] [k; l; m] [i; j] [l; m]); auto; try nodup; try apply wf_gen.
    - unfold np_einsum_mul. cbn [gen shp]. rewrite SA, SB. reflexivity.
    - intros x y Hx Hy. idx Hx. idx Hy. unfold np_einsum_mul. rewrite SA, SB. cbn [nth]. cbn [app]. rewrite get_gen by (apply v4; assumption). reflexivity.
  Qed.
  Lemma t_mul2 (A B : tensor T) i j k m : shp A = [i; j; k] -> shp B = [k; j; m] ->
    mul A B (AList [2; 1]%Z) (AList [0; 1]%Z) = Ok (np_einsum_mul2 A B).
  Proof.
    intros SA SB. apply (mul_as A B [2; 1] [0; 1] _ [i; j; k] [k; j; m] [i] [m]); auto; try nodup; try apply wf_gen.
    - unfold np_einsum_mul2. cbn [gen shp]. rewrite SA, SB. reflexivity.
    - intros x y Hx Hy. idx Hx. idx Hy. unfold np_einsum_mul2. rewrite SA, SB. cbn [nth]. cbn [app]. rewrite get_gen by (apply v2; assumption). reflexivity.
  Qed.
  (** test_d_mul *)
  Lemma t_dmul (A B C : tensor T) a b c d e f g h : shp A = [a; b; c; d] -> shp B = [b; c; e; f] -> shp C = [g; f; e; h] ->
    (do D <- mul A B (AList [1; 2]%Z) (AList [0; 1]%Z); mul D C (AList [2; 3]%Z) (AList [2; 1]%Z)) = Ok (np_einsum_dmul A B C).
  Proof.
    intros SA SB SC.
    set (D := gen [a; d; e; f] (fun i => match i with [i; j; k; l] => bigsum b (fun x => bigsum c (fun y => nmul (get A [i; x; y; j]) (get B [x; y; k; l]))) | _ => n0 end)).
    assert (E : mul A B (AList [1; 2]%Z) (AList [0; 1]%Z) = Ok D).
    { apply (mul_as A B [1; 2] [0; 1] D [a; b; c; d] [b; c; e; f] [a; d] [e; f]); auto; try nodup; try apply wf_gen.
      intros x y Hx Hy. idx Hx. idx Hy. unfold D. cbn [app]. rewrite get_gen by (apply v4; assumption). reflexivity. }
    rewrite E. clear E.
    cbn [bind]. apply (mul_as D C [2; 3] [2; 1] _ [a; d; e; f] [g; f; e; h] [a; d] [g; h]); auto; try nodup; try apply wf_gen.
      + unfold np_einsum_dmul. cbn [gen shp]. rewrite SA, SC. reflexivity.
      + intros x y Hx Hy. idx Hx. idx Hy. unfold np_einsum_dmul. rewrite SA, SB, SC. cbn [nth]. cbn [app]. rewrite get_gen by (apply v4; assumption).
        cbn [pick map nth msum merge]. transitivity (bigsum e (fun k => bigsum f (fun l => bigsum b (fun x => bigsum c (fun y => nmul (nmul (get A [i; x; y; i0]) (get B [x; y; k; l])) (get C [i1; l; k; i2])))))).
        * apply bigsum_ext. intros k Hk. apply bigsum_ext. intros l Hl.
          change (nmul (get D [i; i0; k; l]) (get C [i1; l; k; i2]) = bigsum b (fun x => bigsum c (fun y => nmul (nmul (get A [i; x; y; i0]) (get B [x; y; k; l])) (get C [i1; l; k; i2])))).
          unfold D. rewrite get_gen by (apply v4; assumption). rewrite <- bs_mul_r. apply bigsum_ext. intros x _. rewrite <- bs_mul_r. reflexivity.
        * transitivity (bigsum e (fun k => bigsum b (fun x => bigsum f (fun l => bigsum c (fun y => nmul (nmul (get A [i; x; y; i0]) (get B [x; y; k; l])) (get C [i1; l; k; i2])))))).
          { apply bigsum_ext. intros k _. apply bs_swap. }
          rewrite bs_swap. apply bigsum_ext. intros x _.
          transitivity (bigsum e (fun k => bigsum c (fun y => bigsum f (fun l => nmul (nmul (get A [i; x; y; i0]) (get B [x; y; k; l])) (get C [i1; l; k; i2]))))).
          { apply bigsum_ext. intros k _. apply bs_swap. }
          apply bs_swap.
  Qed.

  (** test_inner *)
  Lemma t_inner (A B : tensor T) : wf A -> wf B -> shp A = shp B -> inner A B = Ok (listsum (map (fun p => nmul (fst p) (snd p)) (combine (dat A) (dat B)))).
  Proof.
    intros WA WB HS. rewrite (C14_inner T N RL A B WA WB HS). f_equal.
    transitivity (listsum (map (fun i => nmul (get A i) (get B i)) (indices (shp A)))).
    - generalize (fun i => nmul (get A i) (get B i)). intros f. clear - RL RLu. revert f. induction (shp A) as [|d s IH]; intros f.
      + cbn. ring.
      + cbn [msum indices]. transitivity (bigsum d (fun i => listsum (map (fun idx => f (i :: idx)) (indices s)))); [apply bigsum_ext; intros i _; apply IH|]. clear IH.
        assert (G : forall l1 l2, listsum (l1 ++ l2) = nadd (listsum l1) (listsum l2) :> T). { induction l1 as [|x l1 IH]; intros l2; cbn; [ring|]. rewrite IH. ring. }
        induction d as [|d IH]; [reflexivity|]. cbn [bigsum]. rewrite IH, seq_S, flat_map_app, map_app, G. cbn [flat_map Nat.add]. rewrite app_nil_r, map_map. reflexivity.
    - f_equal. assert (DA : dat A = map (get A) (indices (shp A))) by (rewrite <- (gen_get A WA) at 1; reflexivity).
      assert (DB : dat B = map (get B) (indices (shp A))) by (rewrite <- (gen_get B WB) at 1; rewrite HS; reflexivity).
      rewrite DA, DB. clear. induction (indices (shp A)) as [|i l IH]; [reflexivity|]. cbn. f_equal. exact IH.
  Qed.

  (** test_hadamard *)
  Lemma t_hadamard (A B C D : tensor T) m n : is_mat A m n -> is_mat B m n -> is_mat C m n -> is_mat D m n ->
    hadamard [A; B; C; D] SkNone = Ok (np_map2 nmul (np_map2 nmul (np_map2 nmul A B) C) D) /\
    hadamard [A; B; C; D] (SkInt 2) = Ok (np_map2 nmul (np_map2 nmul A B) D).
  Proof.
    intros [WA SA] [WB SB] [WC SC] [WD SD].
    assert (E : forall U V : tensor T, wf U -> wf V -> shp U = [m; n] -> shp V = [m; n] -> tf_bin nmul U V = Ok (np_map2 nmul U V) /\ shp (np_map2 nmul U V) = [m; n] /\ wf (np_map2 nmul U V)).
    { intros U V WU WV SU SV. split; [|split; [exact SU|apply wf_gen]].
      destruct (C15_hadamard T N RL [U; V] [m; n]) as (H & EH & WH & SH & G); [discriminate|intros M [<-|[<-|[]]]; auto|].
      unfold hadamard in EH. cbn [skip_ py_reduce reduceM] in EH. destruct (tf_bin nmul U V) as [x|e]; [|discriminate]. cbn [bind] in EH. injection EH as ->.
      f_equal. apply tensor_ext; auto; [apply wf_gen|unfold np_map2; cbn [gen shp]; congruence|]. intros i Hi. rewrite SH in Hi. rewrite G by exact Hi.
      unfold np_map2. rewrite get_gen by (rewrite SU; exact Hi). unfold mat_at. cbn [length bigprod nth]. ring. }
    destruct (E A B) as (E1 & S1 & W1); auto. destruct (E (np_map2 nmul A B) C) as (E2 & S2 & W2); auto.
    destruct (E (np_map2 nmul (np_map2 nmul A B) C) D) as (E3 & S3 & W3); auto. destruct (E (np_map2 nmul A B) D) as (E4 & _); auto.
    split.
    - unfold hadamard. cbn [skip_ py_reduce reduceM]. rewrite E1. cbn [bind]. rewrite E2. cbn [bind]. rewrite E3. reflexivity.
    - unfold hadamard. change (skip_ [A; B; C; D] (SkInt 2)) with [A; B; D]. cbn [py_reduce reduceM]. rewrite E1. cbn [bind]. rewrite E4. reflexivity.
  Qed.

  (** test_kron *)
  Lemma t_kron (A B : tensor T) m n p q : is_mat A m n -> is_mat B p q -> kron [A; B] SkNone false = Ok (np_kron A B).
  Proof.
    intros [WA SA] [WB SB]. unfold np_kron, nrows, ncols. rewrite SA, SB. cbn [nth].
    destruct (C16_kron T N RL [A; B]) as (K & E & [WK SK] & G); [discriminate|cbn; lia| |].
    { intros M [<-|[<-|[]]]; unfold matrix, is_mat, nrows, ncols; rewrite ?SA, ?SB; auto. }
    rewrite E. f_equal. unfold nrows, ncols in SK, G. cbn [map] in SK, G. rewrite SA, SB in SK, G. cbn [nth] in SK, G.
    assert (S' : shp K = [m * p; n * q]) by (rewrite SK; unfold nprod; cbn; do 2 f_equal; [|f_equal]; ring).
    apply tensor_ext; [exact WK|apply wf_gen|exact S'|]. intros ix Hi. rewrite S' in Hi. assert (Hv := Hi). idx Hi. rename i0 into i1, i into i0. rewrite get_gen by exact Hv.
    assert (P : forall x u v, x < u * v -> v <> 0 /\ x / v < u /\ x mod v < v /\ rowmajor [u; v] [x / v; x mod v] = x).
    { intros x u v Hx. assert (Hz : v <> 0) by (intros ->; lia). split; [exact Hz|]. split; [apply Nat.div_lt_upper_bound; lia|].
      split; [apply Nat.mod_upper_bound, Hz|]. unfold rowmajor, nprod. cbn. pose proof (Nat.div_mod x v Hz). lia. }
    destruct (P i0 m p) as (_ & P1 & P2 & P3); [assumption|]. destruct (P i1 n q) as (_ & Q1 & Q2 & Q3); [assumption|].
    specialize (G [i0 / p; i0 mod p] [i1 / q; i1 mod q] (v2 _ _ _ _ P1 P2) (v2 _ _ _ _ Q1 Q2)). rewrite P3, Q3 in G.
    change (get K [i0; i1]) with (mget K i0 i1). rewrite G. unfold mat_at. cbn [length bigprod nth]. ring.
  Qed.

  (** test_khatri *)
  Lemma t_khatri (A B C : tensor T) a b c z : is_mat A a z -> is_mat B b z -> is_mat C c z ->
    khatri [A; B; C] SkNone false = Ok (np_reshape [a * b * c; z] (np_einsum_khatri A B C)).
  Proof.
    intros [WA SA] [WB SB] [WC SC].
    destruct (C18_khatri T N RL [A; B; C] z) as (K & E & [WK SK] & G); [discriminate|cbn; lia| |].
    { intros M [<-|[<-|[<-|[]]]]; unfold matrix, is_mat, nrows, ncols; rewrite ?SA, ?SB, ?SC; auto. }
    rewrite E. f_equal. unfold nrows in SK, G. cbn [map] in SK, G. rewrite SA, SB, SC in SK, G. cbn [nth] in SK, G.
    assert (S' : shp K = [a * b * c; z]) by (rewrite SK; unfold nprod; cbn; f_equal; ring).
    assert (D : np_einsum_khatri A B C = mkT [a; b; c; z] (dat K)).
    { apply tensor_ext; [apply wf_gen| |unfold np_einsum_khatri, nrows, ncols; cbn [gen shp]; rewrite SA, SB, SC; reflexivity|].
      - unfold wf in *. cbn [dat shp]. rewrite WK, S'. cbn. ring.
      - intros ix Hi. unfold np_einsum_khatri, nrows, ncols in Hi |- *. cbn [gen shp] in Hi. rewrite SA, SB, SC in Hi |- *. cbn [nth] in Hi |- *. rewrite get_gen by exact Hi. idx Hi.
        rename i into x, i0 into y, i1 into w, i2 into r.
        transitivity (mget K (rowmajor [a; b; c] [x; y; w]) r).
        + rewrite G; [unfold mat_at; cbn [length bigprod nth]; ring|repeat constructor; assumption|assumption].
        + unfold mget, get. rewrite S'. cbn [shp dat]. f_equal. unfold rowmajor, nprod. cbn. ring. }
    rewrite D. unfold np_reshape. cbn [dat]. rewrite <- S'. destruct K; reflexivity.
  Qed.

  (** test_ttm *)
  Lemma t_ttm (X B C : tensor T) w x y z b c : wf X -> shp X = [w; x; y; z] -> is_mat B x b -> is_mat C y c ->
    ttm X [B; C] (Some [1; 2]%Z) true SkNone = Ok (np_einsum_ttm X B C).
  Proof.
    intros WX SX [WB SB] [WC SC].
    assert (E : ttm X [B; C] (Some [1; 2]%Z) true SkNone = Ok (mode_products X (combine (map mtrans [B; C]) [1; 2]))).
    { apply (C11_ttm T N RL X [B; C] [1; 2] true WX).
      - unfold ndims. rewrite SX. cbn. lia.
      - discriminate.
      - nodup.
      - intros a [<-|[<-|[]]]; unfold ndims; rewrite SX; cbn; lia.
      - reflexivity.
      - intros k Hk. cbn in Hk. destruct k as [|[|k]]; [| |lia]; unfold mat_at, matrix, is_mat, nrows, ncols; cbn [nth]; rewrite ?SB, ?SC, SX; auto. }
    rewrite E. f_equal. unfold mode_products. cbn [map combine fold_left fst snd]. unfold np_einsum_ttm, nrows, ncols. rewrite SX, SB, SC. cbn [nth].
    apply tensor_ext; [apply wf_gen|apply wf_gen|unfold mode_product, mtrans, nrows, ncols; cbn [gen mgen shp nth]; rewrite SX, SB, SC; reflexivity|].
    intros ix Hi. unfold mode_product at 1 in Hi. cbn [gen shp] in Hi. unfold mode_product, nrows, ncols, mtrans in Hi. cbn [gen mgen shp nth] in Hi. unfold nrows, ncols in Hi. rewrite SX, SB, SC in Hi. cbn in Hi.
    assert (Hv : valid [w; b; c; z] ix) by exact Hi. rewrite (get_gen [w; b; c; z]) by exact Hv. idx Hi. rename i2 into i3, i1 into i2, i0 into i1, i into i0.
    unfold mode_product at 1. rewrite get_gen.
    2: { unfold mode_product, nrows, mtrans, ncols. cbn [gen mgen shp nth]. rewrite SX, SB, SC. exact Hv. }
    assert (NC : ncols (mtrans C) = y) by (unfold mtrans, ncols, nrows; cbn [mgen gen shp nth]; rewrite SC; reflexivity).
    assert (NB : ncols (mtrans B) = x) by (unfold mtrans, ncols, nrows; cbn [mgen gen shp nth]; rewrite SB; reflexivity).
    rewrite NC. cbn [replace nth]. transitivity (bigsum y (fun k => bigsum x (fun l => nmul (nmul (get X [i0; l; k; i3]) (mget B l i1)) (mget C k i2)))).
    - apply bigsum_ext. intros k Hk. unfold mode_product. rewrite get_gen.
      2: { unfold nrows, mtrans, ncols. cbn [gen mgen shp nth]. rewrite SX, SB. cbn. apply v4; assumption. }
      rewrite NB. cbn [replace nth]. rewrite <- bs_mul_r. apply bigsum_ext. intros l Hl. f_equal; [f_equal|]; unfold mtrans, mget, mgen, nrows, ncols; rewrite ?SB, ?SC; cbn [nth];
        rewrite get_gen by (apply v2; assumption); reflexivity.
    - apply bs_swap.
  Qed.
  Lemma t_ttm_matrix (A B : tensor T) m k n : is_mat A m k -> is_mat B k n -> ttm B [A] (Some [0%Z]) false SkNone = Ok (np_matmul A B).
  Proof.
    intros [WA SA] [WB SB].
    assert (E : ttm B [A] (Some [0%Z]) false SkNone = Ok (mode_products B (combine [A] [0]))).
    { apply (C11_ttm T N RL B [A] [0] false WB).
      - unfold ndims. rewrite SB. cbn. lia.
      - discriminate.
      - nodup.
      - intros a [<-|[]]; unfold ndims; rewrite SB; cbn; lia.
      - reflexivity.
      - intros j Hj. cbn in Hj. destruct j as [|j]; [|lia]; unfold mat_at, matrix, is_mat, nrows, ncols; cbn [nth]; rewrite ?SA, SB; auto. }
    rewrite E. f_equal. unfold mode_products, np_matmul, mode_product, nrows, ncols. cbn [combine fold_left fst snd]. rewrite SA, SB. cbn [nth replace].
    apply gen_ext. intros i Hi. idx Hi. cbn [nth replace]. apply bigsum_ext. intros l Hl. unfold mget. ring.
  Qed.

  (** test_xcb: X is given unfolded *)
  Lemma t_xcb (X C B : tensor T) i j k r : (forall x : T, neqb x n0 = true -> x = n0) -> is_mat X i (k * j) -> is_mat C k r -> is_mat B j r -> i <> 0 -> r <> 0 ->
    exists H, khatri [C; B] SkNone false = Ok H /\ xcb X C B = Ok (np_matmul X H).
  Proof.
    intros Heq [WX SX] MC MB Hi Hr.
    destruct (proj2 (proj1 (C03_fold_domain T N X 0 [i; j; k] WX))) as (X3 & EX).
    { split; [cbn; lia|]. rewrite WX, SX. cbn. ring. }
    assert (U3 : unfold X3 0 = Ok X).
    { apply (C02_unfold_fold T N X 0 [i; j; k] X3); [cbn; lia|exact Hi| |exact EX]. split; [exact WX|]. rewrite SX. cbn. do 2 f_equal. ring. }
    assert (U2 : unfold X 0 = Ok X).
    { transitivity (Ok (np_reshape [i; k * j] (gen (pick [0; 1] (shp X)) (get X)))).
      - unf 0 [0; 1]%Z [0; 1].
      - f_equal. replace (pick [0; 1] (shp X)) with (shp X) by (rewrite SX; reflexivity). rewrite gen_get by exact WX. unfold np_reshape. rewrite <- SX. destruct X; reflexivity. }
    assert (W3 : wf X3 /\ shp X3 = [i; j; k]).
    { destruct (fold_ok X 0 [i; j; k]) as (t' & Ht & Hw & Hs & _); [cbn; lia|rewrite SX; cbn; ring|exact WX|]. change (Z.of_nat 0) with 0%Z in Ht. rewrite EX in Ht. injection Ht as <-. auto. }
    destruct W3 as [W3 S3]. destruct (C22_xcb T N RL Heq X3 C B i j k r W3 S3 Hi Hr MC MB) as (U & H & Y & EU & EH & EY & MP).
    rewrite U3 in EU. injection EU as <-. exists H. split; [exact EH|].
    assert (EQ : xcb X C B = xcb X3 C B) by (unfold xcb; rewrite U2, U3; reflexivity). rewrite EQ, EY. f_equal.
    destruct MP as (m & l & n & [_ M1] & [_ M2] & [M3 M3'] & G). unfold np_matmul, nrows, ncols. rewrite M1, M2. cbn [nth].
    apply tensor_ext; [exact M3|apply wf_gen|exact M3'|]. intros x Hx. rewrite M3' in Hx. assert (Hv := Hx). idx Hx. rewrite get_gen by exact Hv.
    match goal with |- get Y [?u; ?v] = _ => change (get Y [u; v]) with (mget Y u v) end. apply G; assumption.
  Qed.

  (** test_vectorize *)
  Lemma t_vectorize (t : tensor T) : wf t -> vectorize t = Ok (np_reshape [nprod (shp t)] t).
  Proof.
    intros H. destruct (C07_vectorize T N t H) as (v & E & _ & Hs & _). exact (reshape_eq t v _ _ E Hs).
  Qed.

  (** test_d_dot, test_d_sub, test_d_add *)
  Lemma t_d_dot (a : tensor T) :
    (do u <- snd (dcall_exec (dtensor_init a) (CMulE (OD (dtensor_init a)))); snd (dcall_exec (dtensor_init u) (CMulE (OT a))))
    = Ok (np_map2 nmul (np_map2 nmul a a) a).
  Proof. cbn [dcall_exec snd operand_val d_T dtensor_init]. rewrite bin_same by reflexivity. cbn [bind]. rewrite bin_same by reflexivity. reflexivity. Qed.
  Lemma t_d_sub (a : tensor T) h :
    (do u <- snd (dcall_exec (dtensor_init a) (CMulE (OT (mkT [] [h])))); snd (dcall_exec (dtensor_init a) (CSub (OD (dtensor_init u)))))
    = Ok (gen (shp a) (fun i => nsub (get a i) (nmul (get a i) h))).
  Proof.
    cbn [dcall_exec snd operand_val d_T dtensor_init]. change (mkT [] [h]) with (PitfOps.scalar h). rewrite bin_scalar. cbn [bind]. cbn [d_T]. rewrite bin_same by reflexivity. f_equal. apply gen_ext. intros i Hi.
    rewrite get_gen by exact Hi. reflexivity.
  Qed.
  Lemma t_d_add (a : tensor T) h : nadd h h = n1 ->
    (do u <- snd (dcall_exec (dtensor_init a) (CMulE (OT (mkT [] [h]))));
     do v <- snd (dcall_exec (dtensor_init a) (CAdd (OD (dtensor_init u))));
     snd (dcall_exec (dtensor_init v) (CAdd (OT (gen (shp a) (fun i => nmul (get a i) h))))))
    = Ok (gen (shp a) (fun i => nmul (get a i) (nadd n1 n1))).
  Proof.
    intros Hh. cbn [dcall_exec snd operand_val d_T dtensor_init]. change (mkT [] [h]) with (PitfOps.scalar h). rewrite bin_scalar. cbn [bind]. cbn [d_T]. rewrite bin_same by reflexivity. cbn [bind d_T]. rewrite bin_same by reflexivity.
    f_equal. apply gen_ext. intros i Hi. repeat (rewrite get_gen by exact Hi). set (x := get a i). transitivity (nadd x (nmul x (nadd h h))); [ring|]. rewrite Hh. ring.
  Qed.
  (** test_d_get_item *)
  Lemma t_d_get_item (t : tensor T) a b c d : shp t = [a; b; c; d] -> a <> 0 -> b <> 0 ->
    (do u <- snd (dcall_exec (dtensor_init t) (CGetitem [0%Z])); tf_getitem u [0%Z])
    = Ok (gen [c; d] (fun i => get t (0 :: 0 :: i))).
  Proof.
    intros S0 Ha Hb. cbn [dcall_exec snd d_T dtensor_init]. unfold tf_getitem. rewrite S0. destruct a as [|a]; [lia|]. destruct b as [|b]; [lia|].
    cbn -[Z.of_nat gen get]. rewrite (proj2 (Z.ltb_lt 0 (Z.of_nat (S a)))) by lia. cbn -[Z.of_nat gen get].
    match goal with |- context [norm_index (shp (gen ?s ?f))] => change (shp (gen s f)) with [S b; c; d] end.
    cbn -[Z.of_nat gen get]. rewrite (proj2 (Z.ltb_lt 0 (Z.of_nat (S b)))) by lia. cbn -[Z.of_nat gen get]. f_equal. apply gen_ext. intros i Hi.
    rewrite get_gen; [reflexivity|]. constructor; [lia|exact Hi].
  Qed.

  (** test_extract of TTensor *)
  Lemma t_tucker (dt : dtype) (G A B C : tensor T) x y z a b c : wf G -> shp G = [x; y; z] -> is_mat A a x -> is_mat B b y -> is_mat C c z ->
    ttensor_extract (mkArr TFT dt G) [mkArr TFT dt A; mkArr TFT dt B; mkArr TFT dt C] = Ok (dt, np_einsum_tucker G A B C).
  Proof.
    intros WG SG [WA SA] [WB SB] [WC SC].
    rewrite (C28_ttensor_extract T N RL _ _ dt); cbn [a_t a_dt map length]; auto; try discriminate.
    - do 2 f_equal. unfold tucker_tensor, np_einsum_tucker, nrows. cbn [map]. rewrite SG, SA, SB, SC. cbn [nth]. apply gen_ext. intros ix Hi. idx Hi.
      cbn [msum length bigprod nth]. unfold mat_at. cbn [nth]. apply bigsum_ext. intros p Hp. apply bigsum_ext. intros q Hq. apply bigsum_ext. intros r Hr. ring.
    - intros u [<-|[<-|[<-|[]]]]; reflexivity.
    - right. intros u [<-|[<-|[<-|[]]]]; reflexivity.
    - unfold ndims. rewrite SG. cbn. lia.
    - unfold ndims. rewrite SG. reflexivity.
    - intros k Hk. rewrite SG. destruct k as [|[|[|k]]]; [| | |lia]; unfold mat_at, matrix, is_mat, nrows, ncols; cbn [nth]; rewrite ?SA, ?SB, ?SC; auto.
  Qed.

  (** test_high_order of KTensor *)
  Lemma t_high_order (cast : dtype -> T -> T) (A B C D : tensor T) a b c d r : is_mat A a r -> is_mat B b r -> is_mat C c r -> is_mat D d r ->
    exists k t, ktensor_init cast [mkArr NP F64 A; mkArr NP F64 B; mkArr NP F64 C; mkArr NP F64 D] None = Ok k /\
      ktensor_extract k = Ok (F32, t) /\ shp t = [a; b; c; d].
  Proof.
    intros [WA SA] [WB SB] [WC SC] [WD SD].
    destruct (C25_ktensor_extract_ndarray T N cast RL [mkArr NP F64 A; mkArr NP F64 B; mkArr NP F64 C; mkArr NP F64 D] None r) as (k & Ek & E).
    - discriminate.
    - intros u [<-|[<-|[<-|[<-|[]]]]]; reflexivity.
    - intros u [<-|[<-|[<-|[<-|[]]]]]; unfold matrix, is_mat, nrows, ncols; cbn [a_t]; rewrite ?SA, ?SB, ?SC, ?SD; auto.
    - reflexivity.
    - exists k. eexists. split; [exact Ek|]. split; [rewrite E; reflexivity|]. unfold cp_tensor. cbn [gen shp map a_t tf_map]. unfold nrows. cbn [tf_map shp]. rewrite SA, SB, SC, SD. reflexivity.
  Qed.

End F.

(** test_gen_perm *)
Lemma t_gen_perm : gen_perm 4 2 = Ok [2; 3; 1; 0]%Z /\ gen_perm 1 0 = Ok [0%Z] /\ gen_perm 0 0 = Raise ValueError.
Proof. repeat split. Qed.

(** test_extract of KTensor: float64 factors become float32, float64 weights stay *)
Lemma t_kt_extract {T} {N : Num T} (cast : dtype -> T -> T) (u v s : tensor T) m n r : is_mat u m r -> is_mat v n r -> wf s -> shp s = [r] ->
  exists k, ktensor_init cast [mkArr NP F64 u; mkArr NP F64 v] (Some (mkArr NP F64 s)) = Ok k /\ ktensor_extract k = Raise TypeError.
Proof.
  intros [WU SU] [WV SV] WS SS. apply (C26_ktensor_dtype_mismatch T N cast _ _ F64).
  - split; [discriminate|]. left. intros a [<-|[<-|[]]]; reflexivity.
  - intros a [<-|[<-|[]]]; unfold matrix, is_mat, nrows, ncols; cbn [a_t]; rewrite ?SU, ?SV; auto.
  - cbn. discriminate.
Qed.

Lemma t_kt_refuted : exists (x u v s : tensor Z), is_mat u 2 2 /\ is_mat v 2 2 /\ wf s /\ shp s = [2] /\ x = cp_tensor 2 (mkT [2; 1] (dat s)) [u; v] /\
  (do k <- ktensor_init (fun _ z => z) [mkArr NP F64 u; mkArr NP F64 v] (Some (mkArr NP F64 s)); ktensor_extract k) <> Ok (F64, x) /\
  (do k <- ktensor_init (fun _ z => z) [mkArr NP F64 u; mkArr NP F64 v] (Some (mkArr NP F64 s)); ktensor_extract k) <> Ok (F32, x).
Proof.
  exists (mkT [2; 2] [0; 3; 2; 0]%Z), (mkT [2; 2] [1; 0; 0; 1]%Z), (mkT [2; 2] [0; 1; 1; 0]%Z), (mkT [2] [3; 2]%Z).
  repeat split; vm_compute; discriminate.
Qed.

(** test_max_single_value_mul *)
Lemma t_max_sv (svals : tensor R -> list R) (X : tensor R) m : In m (svals X) -> (forall x, In x (svals X) -> (x <= m)%R) ->
  max_single_value_mul svals [X; X; X] SkNone = Ok (m * m * m)%R.
Proof.
  intros Hm Hx. destruct (C21_max_single_value svals [X; X; X] SkNone) as (sig & Hs & E).
  - intros M [<-|[<-|[<-|[]]]] H; rewrite H in Hm; exact Hm.
  - discriminate.
  - rewrite E. f_equal. destruct (Hs X) as [H1 H2]; [left; reflexivity|].
    assert (sig X = m) by (apply Rle_antisym; [apply Hx, H1|apply H2, Hm]).
    change (without (skipset SkNone) [X; X; X]) with [X; X; X]. cbn. rewrite H. ring.
Qed.
