(** xcb is the mode-0 MTTKRP (C22). *)

From Coq Require Import ZArith List Bool Arith Lia Permutation.
From Verif Require Import Num Py Tensor TF TensorFacts TFFacts Sums Ops Spec LayoutFacts SpecFacts EinsumFacts MulFacts KronFacts KronAlg.
Import ListNotations.

Section Xcb.
  Context {T : Type} {N : Num T} (RL : RingLaws T).
  Let RLu : ring_theory n0 n1 nadd nmul nsub nopp (@eq T) := RL.
  Add Ring TRing : RLu.
  Hypothesis Heqb : forall x : T, neqb x n0 = true -> x = n0.

  Lemma kron_pair (A B : tensor T) m p n q : is_mat A m p -> is_mat B n q ->
    kron [A; B] SkNone false = Ok (mgen (m * n) (p * q) (fun a b =>
       nmul (mget A (a / n) (b / q)) (mget B (a mod n) (b mod q)))).
  Proof.
    intros HA HB. destruct (matrix_is_mat _ _ _ HA) as (MA & RA & CA). destruct (matrix_is_mat _ _ _ HB) as (MB & RB & CB).
    destruct (kron_ok RL [A; B]) as (K & HK & Hk).
    - discriminate.
    - simpl; lia.
    - intros M [<-|[<-|[]]]; auto.
    - rewrite HK. f_equal. apply (mat_ext _ _ (m * n) (p * q)).
      + destruct Hk as [Hk _]. cbn [map] in Hk. rewrite RA, RB, CA, CB in Hk. unfold nprod in Hk. simpl in Hk.
        rewrite !Nat.mul_1_r in Hk. exact Hk.
      + apply is_mat_mgen.
      + intros a b Ha Hb. rewrite mget_mgen by auto.
        assert (n <> 0) by lia. assert (q <> 0) by lia.
        pose proof (is_kron_ravel _ _ Hk [a / n; a mod n] [b / q; b mod q]) as G.
        cbn [map] in G. rewrite RA, RB, CA, CB, !ravel2 in G.
        rewrite (Nat.mul_comm (a / n)), (Nat.mul_comm (b / q)), <- !Nat.div_mod in G by auto.
        rewrite G.
        * unfold mat_at. cbn [length bigprod nth]. ring.
        * apply valid2; [apply Nat.div_lt_upper_bound; lia | apply Nat.mod_upper_bound; auto].
        * apply valid2; [apply Nat.div_lt_upper_bound; lia | apply Nat.mod_upper_bound; auto].
  Qed.

  Lemma ne0_mul x : nmul x (ne0 x) = x.
  Proof. unfold ne0. destruct (neqb x n0) eqn:E; [rewrite (Heqb x E)|]; ring. Qed.

  Lemma had2 (A B : tensor T) : wf A -> wf B -> shp A = shp B ->
    hadamard [A; B] SkNone = Ok (gen (shp A) (fun idx => nmul (get A idx) (get B idx))).
  Proof.
    intros HA HB Hs. rewrite (hadamard_ok RL [A; B] (shp A)).
    - f_equal. apply gen_ext. intros idx _. unfold lprod. simpl. ring.
    - discriminate.
    - intros M [<-|[<-|[]]]; auto.
  Qed.

  Lemma xcb_ok (X C B : tensor T) I J K R : wf X -> shp X = [I; J; K] -> I <> 0 -> R <> 0 ->
    is_mat C K R -> is_mat B J R ->
    exists U H Y, unfold X 0 = Ok U /\ khatri [C; B] SkNone false = Ok H /\ xcb X C B = Ok Y /\
      tf_matmul false false U H = Ok Y.
  Proof.
    intros HwX HsX HI HR HC HB.
    destruct (c01 X 0) as (U & HU & HmU & _); auto.
    { unfold ndims. rewrite HsX. simpl. lia. } { rewrite HsX. simpl. auto. }
    rewrite HsX in HmU. unfold ndims in HmU. rewrite HsX in HmU. cbn in HmU. rewrite Nat.mul_1_r, (Nat.mul_comm J K) in HmU.
    destruct (matrix_is_mat _ _ _ HC) as (MC & RC & CC). destruct (matrix_is_mat _ _ _ HB) as (MB & RB & CB).
    destruct (khatri_ok RL [C; B] R) as (H & HH & Hh).
    { discriminate. } { simpl; lia. } { intros M [<-|[<-|[]]]; auto. }
    exists U, H. eexists. split; [exact HU|]. split; [exact HH|].
    assert (HmH : is_mat H (K * J) R).
    { destruct Hh as [Hh _]. cbn [map] in Hh. rewrite RC, RB in Hh. unfold nprod in Hh. simpl in Hh.
      rewrite Nat.mul_1_r in Hh. exact Hh. }
    assert (GH : forall a r, a < K * J -> r < R -> mget H a r = nmul (mget C (a / J) r) (mget B (a mod J) r)).
    { intros a r Ha Hr. assert (J <> 0) by lia.
      pose proof (is_khatri_ravel _ _ _ Hh [a / J; a mod J] r) as G. cbn [map] in G. rewrite RC, RB, ravel2 in G.
      rewrite (Nat.mul_comm (a / J)), <- Nat.div_mod in G by auto. rewrite G; auto.
      - unfold mat_at. cbn [length bigprod nth]. ring.
      - apply valid2; [apply Nat.div_lt_upper_bound; lia | apply Nat.mod_upper_bound; auto]. }
    pose proof HmU as [HwU HsU]. pose proof HmH as [HwH HsH].
    pose proof HC as [HwC HsC]. pose proof HB as [HwB HsB].
    rewrite (matmul_ok false false U H I (K * J) R) by (rewrite ?HsU, ?HsH; reflexivity).
    assert (Hcol : forall r, r < R ->
       xcb_column U C B (tf_ones [I; 1]) (tf_ones [J; 1]) (tf_ones [K; 1]) (tf_ones [J * K; 1]) (tf_map ne0 U) r
       = Ok (mgen I 1 (fun i _ => sumn (K * J) (fun a => nmul (mget U i a) (nmul (mget C (a / J) r) (mget B (a mod J) r)))))).
    { intros r Hr. unfold xcb_column, tf_column. rewrite HsC, HsB. rewrite (proj2 (Nat.ltb_lt r R) Hr).
      cbn [bind].
      rewrite (kron_pair _ _ K 1 J 1) by (first [apply is_mat_mgen | split; [apply wf_gen|reflexivity]]).
      cbn [bind].
      rewrite (matmul_ok false true _ _ I 1 (K * J)) by reflexivity. cbn [bind].
      rewrite had2; [|exact HwU | apply wf_gen | rewrite HsU; reflexivity].
      cbn [bind].
      rewrite (kron_pair _ _ K 1 J 1) by (first [apply is_mat_mgen | split; [apply wf_gen|reflexivity]]).
      cbn [bind].
      rewrite (matmul_ok false true _ _ I 1 (K * J)) by reflexivity. cbn [bind].
      rewrite had2; [|apply wf_map; auto | apply wf_gen | simpl; rewrite HsU; reflexivity].
      cbn [bind]. rewrite had2; [|apply wf_gen | apply wf_gen | reflexivity].
      cbn [bind]. rewrite (matmul_ok false false _ _ I (K * J) 1).
      2: { rewrite shp_gen. simpl. rewrite HsU. reflexivity. }
      2: { simpl. f_equal. lia. }
      f_equal. apply mgen_ext. intros i j Hi Hj. apply sumn_ext. intros a Ha.
      assert (HJ : J <> 0) by lia.
      assert (V : valid (shp U) [i; a]) by (rewrite HsU; apply valid2; lia).
      rewrite shp_gen.
      unfold mget at 1. rewrite get_gen by exact V.
      rewrite get_gen by exact V. rewrite get_gen by (simpl; exact V).
      rewrite get_map by (auto).
      assert (E1 : mget (tf_ones [J * K; 1]) a j = n1).
      { unfold tf_ones, tf_fill, mget. rewrite get_gen; auto. apply valid2; lia. }
      rewrite E1.
      assert (VA : a / J < K) by (apply Nat.div_lt_upper_bound; lia).
      assert (VB : a mod J < J) by (apply Nat.mod_upper_bound; auto).
      change (get (mgen I (K * J) ?f) [i; a]) with (mget (mgen I (K * J) f) i a).
      rewrite !mget_mgen by auto.
      rewrite !(sumn_bigsum RL). cbn [bigsum]. rewrite !(mget_mgen (K * J) (1 * 1)) by lia.
      change (0 / 1) with 0. change (0 mod 1) with 0. rewrite !mget_mgen by (auto; lia).
      assert (E2 : mget (tf_ones [I; 1]) i 0 = n1).
      { unfold tf_ones, tf_fill, mget. rewrite get_gen; auto. apply valid2; lia. }
      assert (E3 : mget (tf_ones [J; 1]) (a mod J) 0 = n1).
      { unfold tf_ones, tf_fill, mget. rewrite get_gen; auto. apply valid2; auto. }
      assert (E4 : mget (tf_ones [K; 1]) (a / J) 0 = n1).
      { unfold tf_ones, tf_fill, mget. rewrite get_gen; auto. apply valid2; auto. }
      rewrite E2, E3, E4.
      transitivity (nmul (nmul (get U [i; a]) (ne0 (get U [i; a]))) (nmul (mget C (a / J) r) (mget B (a mod J) r))); [ring|].
      rewrite ne0_mul. reflexivity. }
    split; [|reflexivity]. unfold xcb. change (unfold X 0) with (unfold X (Z.of_nat 0)). rewrite HU. cbn [bind]. unfold dim. rewrite HsU, HsB, HsC. cbn [pynth bind].
    change (pynth [I; K * J] 0) with (Ok I). change (pynth [J; R] 0) with (Ok J).
    change (pynth [K; R] 0) with (Ok K). change (pynth [K; R] 1) with (Ok R). cbn [bind].
    erewrite (mapM_ok _ _ (seq 0 R)).
    2: { intros r Hr. apply in_seq in Hr. apply Hcol. lia. }
    cbn [bind]. destruct (map _ (seq 0 R)) as [|c0 cs] eqn:Ecols.
    { apply (f_equal (@length (tensor T))) in Ecols. rewrite length_map_seq in Ecols. simpl in Ecols. lia. }
    rewrite <- Ecols.
    pose proof (reshape_ok (gen [I; R; 1] (fun idx =>
       mget (nth (nth 1 idx 0) (map (fun r => mgen I 1 (fun i _ => sumn (K * J) (fun a => nmul (mget U i a) (nmul (mget C (a / J) r) (mget B (a mod J) r))))) (seq 0 R)) (mkT [] [])) (nth 0 idx 0) 0)) [I; R]) as E.
    cbn [map] in E. rewrite E by (simpl; lia). f_equal.
    apply (mat_ext _ _ I R).
    - split; [|reflexivity]. apply wf_reshape; [apply wf_gen|]. simpl. lia.
    - apply is_mat_mgen.
    - intros i r Hi Hr. rewrite mget_mgen by auto. unfold mget at 1. rewrite get_reshape with (idx := [i; r; 0]).
      + rewrite get_gen by (repeat constructor; auto). cbn [nth]. rewrite nth_map_seq by auto.
        rewrite mget_mgen by auto. apply sumn_ext. intros a Ha. rewrite GH by auto. reflexivity.
      + rewrite shp_gen. simpl. lia.
  Qed.
End Xcb.
