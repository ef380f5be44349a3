(** Facts about sample_rule4mat, sample3D_rule (C82) and the unused shrinkage functions (C86). *)

From Coq Require Import ZArith List Bool Arith Lia Reals Lra Psatz.
From Verif Require Import Num Py Tensor TF TensorFacts TFFacts Sums Spec SpecR SpecFacts RSums MatR KronAlg SvdFacts
  PitfOps SpecPitf PitfFacts PitfMore SpecRecover NucFacts ShrinkFacts ReaderFacts RecoverFacts MulFacts Prox.
Import ListNotations.
Local Open Scope R_scope.

(** ** values of the matrices of subspace *)
Lemma prod_mean (U V : tensor R) r c k j : is_mat U r k -> is_mat V c k -> (j < c)%nat ->
  col_sum (mgen r c (fun i j => sumn k (fun l => mget U i l * mget V j l))) j / INR r =
  sumn k (fun l => col_sum U l / INR r * mget V j l).
Proof.
  intros HU HV Hj. rewrite col_sum_mgen by auto. rewrite (sumnR_ex r k). unfold Rdiv. rewrite <- sumnR_scale_r. apply sumnR_ext. intros l Hl.
  rewrite sumnR_scale_r, <- (col_sum_R U r k l HU). ring.
Qed.

Lemma sub_BC_val (U V : tensor R) r c k m : is_mat U r k -> is_mat V c k -> m = MB \/ m = MC ->
  exists S, subspace U V m = Ok (Some S) /\ is_mat S r c /\ centred S /\
    forall i j, (i < r)%nat -> (j < c)%nat -> mget S i j = sumn k (fun l => (mget U i l - col_sum U l / INR r) * mget V j l).
Proof.
  intros HU HV Hm. unfold subspace. rewrite (subspace_tmp U V r c k HU HV). cbn [bind].
  destruct (c59 _ r c (is_mat_mgen (T := R) r c (fun i j => sumn k (fun l => mget U i l * mget V j l)))) as (C & E & HC & He & Hz & _).
  rewrite E. exists C. split; [destruct Hm as [-> | ->]; reflexivity|]. split; [exact HC|]. split; [exact Hz|]. intros i j Hi Hj.
  rewrite He by auto. pose proof (prod_mean U V r c k j HU HV Hj) as Q. Rn. rewrite Q, mget_mgen by auto. rewrite <- sumnR_sub. apply sumnR_ext. intros. ring.
Qed.

Lemma sub_A_val (U V : tensor R) r c k : (0 < r)%nat -> (0 < c)%nat -> is_mat U r k -> is_mat V c k ->
  exists S m, subspace U V MA = Ok (Some S) /\ is_mat S r c /\ equal_sums S /\
    forall i j, (i < r)%nat -> (j < c)%nat -> mget S i j = sumn k (fun l => (mget U i l - col_sum U l / INR r) * mget V j l) + m.
Proof.
  intros Hr Hc HU HV. destruct (c64_A U V r c k Hr Hc HU HV) as (S0 & P0 & E0 & HS0 & _ & _ & _ & Hcs).
  revert E0. unfold subspace. rewrite (subspace_tmp U V r c k HU HV). cbn [bind].
  set (P := mgen r c _). assert (HP : is_mat P r c) by apply is_mat_mgen.
  destruct (is_mat_rc P r c HP) as (Er & Ec & _ & _ & _). rewrite Er, Ec.
  destruct (c59 P r c HP) as (C & EC & HC & He & Hz & _). rewrite EC. cbn [bind].
  destruct (total_row_col P r c HP) as (s1 & s2 & E1 & E2 & Hs2 & Ht). rewrite E1. cbn [bind]. rewrite E2. cbn [bind].
  rewrite (col_row nmul _ _ r c) by apply shp_ones. cbn [bind].
  rewrite (one_mat nmul s2 _ r c) by (auto using shp_mgen). cbn [bind].
  rewrite (mat_scalar ndiv _ _ r c) by apply shp_mgen. cbn [bind].
  destruct HC as [HCw HCs].
  rewrite (mat_mat nadd C _ r c) by (auto using shp_mgen). cbn [bind]. intros E0. injection E0 as E0.
  exists S0, (total P / INR (r * c)). split; [do 2 f_equal; exact E0|]. split; [exact HS0|]. split.
  - intros j j' Hj Hj'. destruct (is_mat_rc S0 r c HS0) as (_ & _ & _ & Ec2 & _). rewrite Ec2 in *. rewrite !Hcs by auto. reflexivity.
  - intros i j Hi Hj. rewrite <- E0, !mget_mgen by auto. rewrite !mget_ones by auto. rewrite Ht. Rn. rewrite <- ?INR_IZR_INZ.
    rewrite He by auto. pose proof (prod_mean U V r c k j HU HV Hj) as Q. fold P in Q. rewrite Q. unfold P at 1. rewrite mget_mgen by auto.
    f_equal; [|field; apply not_0_INR; nia]. rewrite <- sumnR_sub. apply sumnR_ext. intros. ring.
Qed.

(** ** C82 *)
Lemma rank_centred (S U V : tensor R) r c k : is_mat S r c -> is_mat V c k ->
  (forall i j, (i < r)%nat -> (j < c)%nat -> mget S i j = sumn k (fun l => (mget U i l - col_sum U l / INR r) * mget V j l)) -> rank_le S k.
Proof.
  intros HS HV H. destruct (is_mat_rc S r c HS) as (_ & _ & Er & Ec & _). unfold rank_le. rewrite Er, Ec.
  exists (mgen r k (fun i l => mget U i l - col_sum U l / INR r)), V. split; [apply is_mat_mgen|]. split; [exact HV|]. intros i j Hi Hj.
  rewrite H, bigsumR by auto. apply sumnR_ext. intros l Hl. rewrite mget_mgen by auto. reflexivity.
Qed.


Lemma rank_plus (M U V : tensor R) m r c k : is_mat M r c -> is_mat V c k ->
  (forall i j, (i < r)%nat -> (j < c)%nat -> mget M i j = sumn k (fun l => (mget U i l - col_sum U l / INR r) * mget V j l) + m) -> rank_le M (S k).
Proof.
  intros HS HV H. destruct (is_mat_rc M r c HS) as (_ & _ & Er & Ec & _). unfold rank_le. rewrite Er, Ec.
  exists (mgen r (S k) (fun i l => if Nat.ltb l k then mget U i l - col_sum U l / INR r else m)), (mgen c (S k) (fun j l => if Nat.ltb l k then mget V j l else 1)).
  split; [apply is_mat_mgen|]. split; [apply is_mat_mgen|]. intros i j Hi Hj.
  rewrite H, bigsumR, (sumn_S RLR) by auto. rewrite !mget_mgen by lia. rewrite Nat.ltb_irrefl. Rn. f_equal; [|ring].
  apply sumnR_ext. intros l Hl. rewrite !mget_mgen by lia. assert (E : Nat.ltb l k = true) by (apply Nat.ltb_lt; auto). rewrite E. reflexivity.
Qed.

Theorem c82 (randn : nat -> nat -> nat -> tensor R) s0 s1 s2 (ra rb rc : Z) : (0 < s0)%nat -> (0 < s1)%nat -> (0 < s2)%nat ->
  (0 <= ra)%Z -> (0 <= rb)%Z -> (0 <= rc)%Z -> (forall k r c, is_mat (randn k r c) r c) ->
  exists A B C, sample_rule4mat randn [s0; s1; s2] ra rb rc = Ok (Some A, Some B, Some C) /\ interaction_matrices s0 s1 s2 A B C /\
    rank_le A (S (Z.to_nat ra)) /\ rank_le B (Z.to_nat rb) /\ rank_le C (Z.to_nat rc).
Proof.
  intros H0 H1 H2 Ha Hb Hc HR. unfold sample_rule4mat. change (pynth [s0; s1; s2] 0) with (Ok s0). change (pynth [s0; s1; s2] 1) with (Ok s1). change (pynth [s0; s1; s2] 2) with (Ok s2).
  cbn [bind]. unfold generate. apply Z.ltb_ge in Ha. apply Z.ltb_ge in Hb. apply Z.ltb_ge in Hc. rewrite Ha, Hb, Hc. cbn [bind fst snd].
  destruct (sub_A_val (randn 0%nat s0 (Z.to_nat ra)) (randn 1%nat s1 (Z.to_nat ra)) s0 s1 _ H0 H1 (HR _ _ _) (HR _ _ _)) as (A & m & EA & HA & eA & VA). rewrite EA. cbn [bind].
  destruct (sub_BC_val (randn 2%nat s1 (Z.to_nat rb)) (randn 3%nat s2 (Z.to_nat rb)) s1 s2 _ MB (HR _ _ _) (HR _ _ _) (or_introl eq_refl)) as (B & EB & HB & cB & VB). rewrite EB. cbn [bind].
  destruct (sub_BC_val (randn 4%nat s2 (Z.to_nat rc)) (randn 5%nat s0 (Z.to_nat rc)) s2 s0 _ MC (HR _ _ _) (HR _ _ _) (or_intror eq_refl)) as (C & EC & HC & cC & VC). rewrite EC. cbn [bind].
  exists A, B, C. split; [reflexivity|]. split; [split; [exact HA|]; split; [exact HB|]; split; [exact HC|]; split; [exact eA|]; split; [exact cB|exact cC]|].
  split; [exact (rank_plus A _ _ m s0 s1 _ HA (HR _ _ _) VA)|]. split; [exact (rank_centred B _ _ s1 s2 _ HB (HR _ _ _) VB)|exact (rank_centred C _ _ s2 s0 _ HC (HR _ _ _) VC)].
Qed.

(** asked for rank 1, A can have rank 2 *)
Definition randn82 (k r c : nat) : tensor R := mgen r c (fun i _ => if Nat.eqb i 0 then 1 else 0).
Theorem c82_rank_refuted : exists (randn : nat -> nat -> nat -> tensor R) A B C, (forall k r c, is_mat (randn k r c) r c) /\
  sample_rule4mat randn [2; 2; 2]%nat 1 1 1 = Ok (Some A, Some B, Some C) /\ ~ rank_le A 1.
Proof.
  assert (HR : forall k r c, is_mat (randn82 k r c) r c) by (intros; apply is_mat_mgen).
  destruct (sub_A_val (randn82 0 2 1) (randn82 1 2 1) 2 2 1 ltac:(lia) ltac:(lia) (HR _ _ _) (HR _ _ _)) as (A & m & EA & HA & eA & VA).
  destruct (c64_A (randn82 0 2 1) (randn82 1 2 1) 2 2 1 ltac:(lia) ltac:(lia) (HR _ _ _) (HR _ _ _)) as (A' & P & EA' & _ & HP & VP & Ht & Hcs). rewrite EA in EA'. injection EA' as <-.
  destruct (c82 randn82 2 2 2 1 1 1 ltac:(lia) ltac:(lia) ltac:(lia) ltac:(lia) ltac:(lia) ltac:(lia) HR) as (A1 & B & C & E & _).
  exists randn82, A, B, C. split; [exact HR|].
  assert (EA1 : A1 = A).
  { revert E. unfold sample_rule4mat. change (pynth [2; 2; 2]%nat 0) with (Ok 2%nat). change (pynth [2; 2; 2]%nat 1) with (Ok 2%nat). change (pynth [2; 2; 2]%nat 2) with (Ok 2%nat). cbn [bind].
    change (generate randn82 0 2 2 1) with (Ok (randn82 0 2 1, randn82 1 2 1)). cbn [bind fst snd]. rewrite EA. cbn [bind].
    change (generate randn82 2 2 2 1) with (Ok (randn82 2 2 1, randn82 3 2 1)). change (generate randn82 4 2 2 1) with (Ok (randn82 4 2 1, randn82 5 2 1)). cbn [bind fst snd].
    destruct (subspace (randn82 2 2 1) (randn82 3 2 1) MB) as [b|]; [|discriminate]. cbn [bind].
    destruct (subspace (randn82 4 2 1) (randn82 5 2 1) MC) as [c|]; [|discriminate]. cbn [bind]. intros X. injection X as <- _ _. reflexivity. }
  subst A1. split; [exact E|].
  assert (R0 : forall k i, (i < 2)%nat -> mget (randn82 k 2 1) i 0 = if Nat.eqb i 0 then 1 else 0) by (intros k i Hi; unfold randn82; rewrite mget_mgen by lia; reflexivity).
  assert (C0 : col_sum (randn82 0 2 1) 0 = 1) by (unfold randn82; rewrite col_sum_mgen by lia; unfold sumn, lsum; simpl; Rn; ring).
  assert (Tp : total P = 1).
  { rewrite (total_sum P 2 2 HP), (sumnR_ext 2 _ (fun j => if Nat.eqb j 0 then 1 else 0)); [unfold sumn, lsum; simpl; Rn; ring|]. intros j Hj.
    rewrite (col_sum_R P 2 2 j HP), (sumnR_ext 2 _ (fun i => (if Nat.eqb i 0 then 1 else 0) * (if Nat.eqb j 0 then 1 else 0))).
    - unfold sumn, lsum. simpl. Rn. ring.
    - intros i Hi. rewrite VP by auto. cbn [bigsum]. rewrite !R0 by auto. Rn. ring. }
  assert (Hm : 2 * m = 1/2).
  { pose proof (Hcs 1%nat ltac:(lia)) as K. rewrite Tp, (col_sum_R A 2 2 1 HA), (sumnR_ext 2 _ (fun _ => m)) in K.
    - rewrite sumnR_const in K. simpl INR in K. lra.
    - intros i Hi. rewrite VA by lia. unfold sumn, lsum. cbn [seq map fold_right]. rewrite !R0 by lia. cbn [Nat.eqb]. Rn. ring. }
  assert (Va : forall i j, (i < 2)%nat -> (j < 2)%nat -> mget A i j = ((if Nat.eqb i 0 then 1 else 0) - 1 / 2) * (if Nat.eqb j 0 then 1 else 0) + m).
  { intros i j Hi Hj. rewrite VA by auto. unfold sumn, lsum. cbn [seq map fold_right]. rewrite !R0 by auto. rewrite C0. simpl INR. Rn. field. }
  intros (U & V & HU & HV & H). destruct (is_mat_rc A 2 2 HA) as (_ & _ & Er & Ec & _). rewrite Er, Ec in *.
  pose proof (H 0%nat 0%nat ltac:(lia) ltac:(lia)) as K1. pose proof (H 0%nat 1%nat ltac:(lia) ltac:(lia)) as K2. pose proof (H 1%nat 0%nat ltac:(lia) ltac:(lia)) as K3. pose proof (H 1%nat 1%nat ltac:(lia) ltac:(lia)) as K4.
  rewrite Va in K1, K2, K3, K4 by lia. cbn [Nat.eqb bigsum] in K1, K2, K3, K4. set (a := mget U 0 0) in *. set (b := mget U 1 0) in *. set (c := mget V 0 0) in *. set (d := mget V 1 0) in *.
  Rn. assert (D : (a * c) * (b * d) = (a * d) * (b * c)) by ring. replace (a * c) with (3/4) in D by lra. replace (b * d) with (1/4) in D by lra. replace (a * d) with (1/4) in D by lra. replace (b * c) with (-1/4) in D by lra. lra.
Qed.

Theorem c82_sample (randint : nat -> nat -> nat -> list nat) s0 s1 s2 (m : Z) :
  (forall k h n, (0 < h)%nat -> length (randint k h n) = n /\ forall i, (i < n)%nat -> (nth i (randint k h n) 0 < h)%nat) ->
  (0 <= m)%Z -> (0 < s0)%nat -> (0 < s1)%nat -> (0 < s2)%nat ->
  exists spl, sample3D_rule randint [s0; s1; s2] m = Ok spl /\ sample_in s0 s1 s2 (Z.to_nat m) spl.
Proof.
  intros HR Hm H0 H1 H2. unfold sample3D_rule. change (pynth [s0; s1; s2] 0) with (Ok s0). change (pynth [s0; s1; s2] 1) with (Ok s1). change (pynth [s0; s1; s2] 2) with (Ok s2). cbn [bind].
  apply Z.ltb_ge in Hm. rewrite Hm. destruct (Nat.eqb_spec s0 0); [lia|]. destruct (Nat.eqb_spec s1 0); [lia|]. destruct (Nat.eqb_spec s2 0); [lia|]. cbn [orb].
  eexists. split; [reflexivity|]. destruct (HR 0%nat s0 (Z.to_nat m) H0) as [L0 B0]. destruct (HR 1%nat s1 (Z.to_nat m) H1) as [L1 B1]. destruct (HR 2%nat s2 (Z.to_nat m) H2) as [L2 B2].
  split; [cbn [sp_a]; lia|]. split; [cbn [sp_b]; lia|]. split; [cbn [sp_c]; lia|]. intros i Hi. cbn [sp_a sp_b sp_c]. auto.
Qed.

Definition randint82 (k h n : nat) : list nat := map (fun i => ((i + k) mod h)%nat) (seq 0 n).
Lemma hyp82 : (forall k r c, is_mat (randn82 k r c) r c) /\
  forall k h n, (0 < h)%nat -> length (randint82 k h n) = n /\ forall i, (i < n)%nat -> (nth i (randint82 k h n) 0 < h)%nat.
Proof.
  split; [intros; apply is_mat_mgen|]. intros k h n Hh. unfold randint82. split; [rewrite map_length, seq_length; reflexivity|].
  intros i Hi. rewrite (nth_map_seq (fun i => ((i + k) mod h)%nat) n i 0%nat Hi). apply Nat.mod_upper_bound. lia.
Qed.

(** ** C86: shrinkageBorC, shrinkageA *)
Lemma small_search_ok (s : list R) tau r n : forall j, (j + n = length s)%nat ->
  exists r', small_search s tau (map (fun k => (Z.of_nat j + Z.of_nat k)%Z) (seq 0 n)) r = Ok r' /\
    ((forall i, (j <= i < length s)%nat -> tau <= nth i s 0) /\ r' = r \/
     exists i, (j <= i < length s)%nat /\ nth i s 0 < tau /\ (forall k, (j <= k < i)%nat -> tau <= nth k s 0) /\ r' = (Z.of_nat i - 1)%Z).
Proof.
  induction n as [|n IH]; intros j Hj.
  - exists r. split; [reflexivity|]. left. split; [intros; lia|reflexivity].
  - cbn [seq map small_search]. replace (Z.of_nat j + Z.of_nat 0)%Z with (Z.of_nat j) by lia. rewrite (pynth_nat s j 0) by lia. cbn [bind]. Rn.
    destruct (Rlt_dec (nth j s 0) tau) as [L|L].
    + exists (Z.of_nat j - 1)%Z. split; [reflexivity|]. right. exists j. split; [lia|]. split; [exact L|]. split; [intros; lia|reflexivity].
    + destruct (IH (S j) ltac:(lia)) as (r' & E & H). exists r'. split.
      * rewrite <- E. f_equal. rewrite <- seq_shift, map_map. apply map_ext. intros a. lia.
      * destruct H as [[H ->]|(i & Hi & Hl & Hb & ->)].
        -- left. split; [|reflexivity]. intros i Hi. destruct (Nat.eq_dec i j) as [->|]; [lra|]. apply H. lia.
        -- right. exists i. split; [lia|]. split; [exact Hl|]. split; [|reflexivity]. intros k Hk. destruct (Nat.eq_dec k j) as [->|]; [lra|]. apply Hb. lia.
Qed.

Lemma row_chk_ok (A : tensor R) r c j : is_mat A r c -> (j < r)%nat -> row_chk A j = Ok (map (fun k => mget A j k) (seq 0 c)).
Proof.
  intros HA Hj. unfold row_chk. destruct (is_mat_rc A r c HA) as (-> & -> & _). destruct (Nat.ltb_spec j r); [reflexivity|lia].
Qed.

Lemma mget_colv (f : nat -> R) r i : (i < r)%nat -> mget (mkT [r; 1%nat] (map f (seq 0 r))) i 0 = f i.
Proof. intros Hi. unfold mget, get. cbn [shp dat ravel prod fold_right]. replace (i * (1 * 1) + (0 * 1 + 0))%nat with i by lia. apply (nth_map_seq f r i). exact Hi. Qed.
Lemma mget_rowv (f : nat -> R) c j : (j < c)%nat -> mget (mkT [1%nat; c] (map f (seq 0 c))) 0 j = f j.
Proof. intros Hj. unfold mget, get. cbn [shp dat ravel prod fold_right]. replace (0 * (c * 1) + (j * 1 + 0))%nat with j by lia. apply (nth_map_seq f c j). exact Hj. Qed.

Lemma outer_sum_ok (U W : tensor R) s tau r c : is_mat U r r -> is_mat W c c -> length s = Nat.min r c ->
  let F i k p := (nth p s 0 - tau) * mget U p i * mget W p k in
  forall n j acc, (j + n <= length s)%nat ->
  match acc with None => j = 0%nat | Some A => (0 < j)%nat /\ is_mat A r c /\ forall i k, (i < r)%nat -> (k < c)%nat -> mget A i k = sumn j (F i k) end ->
  exists acc', outer_sum U W s tau (seq j n) acc = Ok acc' /\
    match acc' with None => (j + n = 0)%nat | Some A => (0 < j + n)%nat /\ is_mat A r c /\ forall i k, (i < r)%nat -> (k < c)%nat -> mget A i k = sumn (j + n) (F i k) end.
Proof.
  intros HU HW Hl F. induction n as [|n IH]; intros j acc Hj Hacc.
  - exists acc. split; [reflexivity|]. rewrite Nat.add_0_r. exact Hacc.
  - cbn [seq outer_sum]. rewrite (row_chk_ok U r r j HU) by lia. rewrite (row_chk_ok W c c j HW) by lia. cbn [bind]. rewrite !map_length, !seq_length.
    rewrite (matmul_ok false false _ _ r 1 c) by reflexivity. cbn [bind]. rewrite (pynth_nat s j 0) by lia. cbn [bind].
    rewrite (scalar_mat nmul _ _ r c) by apply shp_mgen. cbn [bind].
    set (p := mgen r c _).
    assert (Hp : forall i k, (i < r)%nat -> (k < c)%nat -> mget p i k = F i k j).
    { intros i k Hi Hk. unfold p. rewrite !mget_mgen by auto. unfold sumn, lsum. cbn [seq map fold_right]. rewrite mget_colv, mget_rowv by lia. unfold F. Rn. ring. }
    replace (j + S n)%nat with (S j + n)%nat by lia.
    destruct acc as [A|].
    + destruct Hacc as (_ & HA & VA). rewrite (mat_mat nadd A p r c) by (first [apply HA|apply shp_mgen]). cbn [bind]. apply IH; [lia|].
      split; [lia|]. split; [apply is_mat_mgen|]. intros i k Hi Hk. rewrite mget_mgen, VA, Hp by auto. rewrite (sumn_S RLR). reflexivity.
    + cbn [bind]. apply IH; [lia|]. split; [lia|]. split; [apply is_mat_mgen|]. intros i k Hi Hk. rewrite Hp by auto. subst j. unfold sumn, lsum. cbn [seq map fold_right]. Rn. ring.
Qed.

(** r' is r, or one before the first value after position r below tau *)
Definition found_rank (s : list R) (tau : R) (r r' : nat) : Prop :=
  (forall i, (r < i < length s)%nat -> tau <= nth i s 0) /\ r' = r \/
  exists i, (r < i < length s)%nat /\ nth i s 0 < tau /\ (forall k, (r < k < i)%nat -> tau <= nth k s 0) /\ r' = (i - 1)%nat.

Lemma c86_base svd (M C U W : tensor R) s tau r c r0 : is_mat M r c -> centralization M = Ok C -> svd C = (U, s, W) -> is_svd C U s W ->
  (r0 <= length s)%nat -> exists X r', shrinkageBorC svd M tau (Z.of_nat r0) = Ok (X, Z.of_nat r') /\ found_rank s tau r0 r' /\ (r' <= length s)%nat /\
    match X with None => r' = 0%nat | Some Y => (0 < r')%nat /\ is_mat Y r c /\
      forall i j, (i < r)%nat -> (j < c)%nat -> mget Y i j = bigsum r' (fun p => (nth p s 0 - tau) * mget U p i * mget W p j) end.
Proof.
  intros HM EC ES HS Hr. destruct (is_svd_center M C r c U s W HM EC HS) as (HC & HU & HW & Hl & Hsv & HE).
  unfold shrinkageBorC. rewrite EC. cbn [bind]. rewrite ES.
  assert (Q : exists r' : nat, small_search s tau (map (fun k => (Z.of_nat r0 + 1 + Z.of_nat k)%Z) (seq 0 (Z.to_nat (Z.of_nat (length s) - (Z.of_nat r0 + 1))))) (Z.of_nat r0) = Ok (Z.of_nat r') /\ found_rank s tau r0 r' /\ (r' <= length s)%nat).
  { destruct (Nat.eq_dec r0 (length s)) as [->|Hn].
    - exists (length s). replace (Z.to_nat _) with 0%nat by lia. split; [reflexivity|]. split; [|lia]. left. split; [intros; lia|reflexivity].
    - destruct (small_search_ok s tau (Z.of_nat r0) (length s - S r0) (S r0) ltac:(lia)) as (r' & E & H).
      replace (Z.to_nat (Z.of_nat (length s) - (Z.of_nat r0 + 1))) with (length s - S r0)%nat by lia.
      replace (map (fun k => (Z.of_nat r0 + 1 + Z.of_nat k)%Z) (seq 0 (length s - S r0))) with (map (fun k => (Z.of_nat (S r0) + Z.of_nat k)%Z) (seq 0 (length s - S r0))) by (apply map_ext; intros; lia).
      rewrite E. destruct H as [[H ->]|(i & Hi & Hs & Hb & ->)].
      + exists r0. split; [reflexivity|]. split; [|lia]. left. split; [intros; apply H; lia|reflexivity].
      + exists (i - 1)%nat. split; [f_equal; lia|]. split; [|lia]. right. exists i. split; [lia|]. split; [exact Hs|]. split; [intros; apply Hb; lia|reflexivity]. }
  destruct Q as (r' & E & Hf & Hle). rewrite E. cbn [bind]. rewrite Nat2Z.id.
  destruct (outer_sum_ok U W s tau r c (proj1 HU) (proj1 HW) Hl r' 0 None Hle eq_refl) as (X & EX & HX). rewrite EX. cbn [bind].
  exists X, r'. split; [reflexivity|]. split; [exact Hf|]. split; [exact Hle|]. rewrite Nat.add_0_l in HX. destruct X as [Y|]; [|exact HX].
  destruct HX as (H1 & H2 & H3). split; [exact H1|]. split; [exact H2|]. intros i j Hi Hj. rewrite bigsumR. apply H3; auto.
Qed.

(** k values are at least tau: the rank found is k - 1 when there are smaller ones and r < k, and r otherwise *)
Lemma found_count s tau r r' k : (r <= length s)%nat -> (k <= length s)%nat -> (forall p, (p < length s)%nat -> (tau <= nth p s 0 <-> (p < k)%nat)) ->
  found_rank s tau r r' -> r' = if (Nat.ltb r k && Nat.ltb k (length s))%bool then (k - 1)%nat else r.
Proof.
  intros Hr Hk Hc [[H ->]|(i & Hi & Hs & Hb & ->)]; destruct (Nat.ltb_spec r k), (Nat.ltb_spec k (length s)); cbn [andb]; try reflexivity.
  - pose proof (H k ltac:(lia)) as K. apply Hc in K; lia.
  - assert (~ (i < k)%nat) by (rewrite <- Hc by lia; lra). destruct (Nat.eq_dec i k) as [->|]; [reflexivity|]. pose proof (Hb k ltac:(lia)) as K. apply Hc in K; lia.
  - assert (~ (i < k)%nat) by (rewrite <- Hc by lia; lra). lia.
  - assert (~ (i < k)%nat) by (rewrite <- Hc by lia; lra). destruct (Nat.eq_dec i (S r)) as [->|]; [lia|]. pose proof (Hb (S r) ltac:(lia)) as K. apply Hc in K; lia.
  - assert (~ (i < k)%nat) by (rewrite <- Hc by lia; lra). lia.
Qed.

Theorem c86_value svd (M C U W : tensor R) s tau r c r0 k : is_mat M r c -> centralization M = Ok C -> svd C = (U, s, W) -> is_svd C U s W ->
  (r0 <= length s)%nat -> (k <= length s)%nat -> (forall p, (p < length s)%nat -> (tau <= nth p s 0 <-> (p < k)%nat)) ->
  let r' := if (Nat.ltb r0 k && Nat.ltb k (length s))%bool then (k - 1)%nat else r0 in
  exists X, shrinkageBorC svd M tau (Z.of_nat r0) = Ok (X, Z.of_nat r') /\
    match X with None => r' = 0%nat | Some Y => (0 < r')%nat /\ is_mat Y r c /\
      forall i j, (i < r)%nat -> (j < c)%nat -> mget Y i j = bigsum r' (fun p => (nth p s 0 - tau) * mget U p i * mget W p j) end.
Proof.
  intros HM EC ES HS Hr Hk Hc r'. destruct (c86_base svd M C U W s tau r c r0 HM EC ES HS Hr) as (X & q & E & Hf & _ & HX).
  rewrite (found_count s tau r0 q k Hr Hk Hc Hf) in *. exists X. split; [exact E|exact HX].
Qed.

Lemma bigsum_cut n k (f : nat -> R) : (k <= n)%nat -> (forall p, (k <= p < n)%nat -> f p = 0) -> bigsum n f = bigsum k f.
Proof.
  intros Hk. induction n as [|n IH]; intros H; [replace k with 0%nat by lia; reflexivity|]. destruct (Nat.eq_dec k (S n)) as [->|]; [reflexivity|].
  cbn [bigsum]. rewrite (IH ltac:(lia)), (H n ltac:(lia)); [Rn; ring|]. intros. apply H. lia.
Qed.

(** with the right guess and a symmetric U it is shrink *)
Theorem c86_guess svd (M C U W : tensor R) s tau r c k : is_mat M r c -> centralization M = Ok C -> svd C = (U, s, W) -> is_svd C U s W ->
  (k <= length s)%nat -> (forall p, (p < length s)%nat -> (tau <= nth p s 0 <-> (p < k)%nat)) ->
  (forall p i, (p < k)%nat -> (i < r)%nat -> mget U p i = mget U i p) ->
  exists X Y, shrink_np svd M tau Normal = Ok X /\ shrinkageBorC svd M tau (Z.of_nat k) = Ok (Y, Z.of_nat k) /\
    match Y with None => forall i j, (i < r)%nat -> (j < c)%nat -> mget X i j = 0 | Some Y => Y = X end.
Proof.
  intros HM EC ES HS Hk Hc Hsym. destruct (c61_np svd M C U W s tau r c HM EC ES HS) as (X & EX & HX & _).
  destruct (c86_value svd M C U W s tau r c k k HM EC ES HS Hk Hk Hc) as (Y & EY & HY). rewrite Nat.ltb_irrefl in *. cbn [andb] in *.
  exists X, Y. split; [exact EX|]. split; [exact EY|].
  destruct (is_svd_center M C r c U s W HM EC HS) as (HC & HU & HW & Hl & Hsv & HE).
  destruct HX as (r1 & c1 & HX1 & HU1 & HW1 & Hl1 & _ & HX).
  assert (r1 = r) by (pose proof (is_mat_rc _ _ _ (proj1 HU)); pose proof (is_mat_rc _ _ _ (proj1 HU1)); intuition congruence).
  assert (c1 = c) by (pose proof (is_mat_rc _ _ _ (proj1 HW)); pose proof (is_mat_rc _ _ _ (proj1 HW1)); intuition congruence). subst r1 c1.
  assert (V : forall i j, (i < r)%nat -> (j < c)%nat -> mget X i j = bigsum k (fun p => (nth p s 0 - tau) * mget U p i * mget W p j)).
  { intros i j Hi Hj. rewrite HX by auto. unfold thresholded. rewrite map_length.
    assert (T : forall p, (p < length s)%nat -> nth p (map (fun x => Rmax 0 (x - tau)) s) 0 = Rmax 0 (nth p s 0 - tau)).
    { intros p Hp. rewrite (nth_indep _ 0 (Rmax 0 (0 - tau))) by (rewrite map_length; exact Hp). apply (map_nth (fun x => Rmax 0 (x - tau))). }
    rewrite (bigsum_cut (length s) k); [|exact Hk|].
    - rewrite !bigsumR. apply sumnR_ext. intros p Hp. rewrite T by lia. rewrite Rmax_right by (assert (tau <= nth p s 0) by (apply Hc; lia); lra). rewrite <- (Hsym p i) by auto. ring.
    - intros p Hp. rewrite T by lia. assert (~ tau <= nth p s 0) by (rewrite Hc by lia; lia). rewrite Rmax_left by lra. Rn. ring. }
  destruct Y as [Y|].
  - destruct HY as (_ & HY & VY). apply (mat_ext Y X r c HY HX1). intros i j Hi Hj. rewrite VY, V by auto. reflexivity.
  - intros i j Hi Hj. rewrite V by auto. rewrite HY. reflexivity.
Qed.

Theorem c86_index svd (M C U W : tensor R) s tau r c r0 : is_mat M r c -> centralization M = Ok C -> svd C = (U, s, W) -> is_svd C U s W ->
  (length s < r0)%nat -> shrinkageBorC svd M tau (Z.of_nat r0) = Raise IndexError.
Proof.
  intros HM EC ES HS Hr. destruct (is_svd_center M C r c U s W HM EC HS) as (HC & HU & HW & Hl & Hsv & HE).
  unfold shrinkageBorC. rewrite EC. cbn [bind]. rewrite ES. replace (Z.to_nat (Z.of_nat (length s) - (Z.of_nat r0 + 1))) with 0%nat by lia. cbn [seq map small_search bind].
  rewrite Nat2Z.id.
  assert (G : forall n j acc, (j <= length s)%nat -> (length s < j + n)%nat ->
    match acc with None => True | Some A => is_mat A r c end -> outer_sum U W s tau (seq j n) acc = Raise IndexError).
  { induction n as [|n IH]; intros j acc H1 H2 HA; [lia|]. cbn [seq outer_sum]. unfold row_chk. 
    destruct (is_mat_rc U r r (proj1 HU)) as (-> & -> & _). destruct (is_mat_rc W c c (proj1 HW)) as (-> & -> & _).
    destruct (Nat.ltb_spec j r); [|reflexivity]. cbn [bind]. destruct (Nat.ltb_spec j c); [|reflexivity]. cbn [bind]. rewrite !map_length, !seq_length.
    rewrite (matmul_ok false false _ _ r 1 c) by reflexivity. cbn [bind]. rewrite (pynth_nat s j 0) by lia. cbn [bind].
    rewrite (scalar_mat nmul _ _ r c) by apply shp_mgen. cbn [bind].
    destruct acc as [A|].
    - rewrite (mat_mat nadd A _ r c) by (first [apply HA|apply shp_mgen]). cbn [bind]. apply IH; [lia|lia|apply is_mat_mgen].
    - cbn [bind]. apply IH; [lia|lia|apply is_mat_mgen]. }
  rewrite (G r0 0%nat None) by (auto; lia). reflexivity.
Qed.

Lemma lsum_mat (M : tensor R) r c : is_mat M r c -> lsum (dat M) = sumn r (fun i => sumn c (fun j => mget M i j)).
Proof.
  intros HM. rewrite <- (map_id (dat M)). pose proof (isum_dat (T := R) M (fun x => x) (proj1 HM)) as Q. cbv beta in Q. rewrite Q, (proj2 HM), isum2. reflexivity.
Qed.

Theorem c86_A svd (M : tensor R) tau r c r0 X r' : is_mat M r c -> 0 <= tau -> shrinkageBorC svd M tau r0 = Ok (X, r') ->
  match X with None => True | Some Y => is_mat Y r c end ->
  exists Z, shrinkageA svd M tau r0 = Ok (Z, r') /\ is_mat Z r c /\
    forall i j, (i < r)%nat -> (j < c)%nat ->
      mget Z i j = match X with None => 0 | Some Y => mget Y i j end + soft_threshold (total M) tau / INR (r * c).
Proof.
  intros HM Ht E HX. unfold shrinkageA. rewrite E. cbn [bind]. destruct (is_mat_rc M r c HM) as (Er & Ec & _). rewrite Er, Ec.
  rewrite (matmul_ok false false _ _ r 1 c) by apply shp_ones. cbn [bind]. rewrite (scalar_mat nmul _ _ r c) by apply shp_mgen. cbn [bind].
  set (g := mgen r c _).
  assert (Eg : forall i j, (i < r)%nat -> (j < c)%nat -> mget g i j = soft_threshold (total M) tau / INR (r * c)).
  { intros i j Hi Hj. unfold g. rewrite !mget_mgen by auto. unfold sumn, lsum. cbn [seq map fold_right]. rewrite !mget_ones by lia.
    assert (Et : fold_right nadd n0 (dat M) = total M).
    { rewrite (total_R M r c HM), (sumnR_ex c r). change (fold_right nadd n0 (dat M)) with (lsum (dat M)). apply (lsum_mat M r c HM). }
    rewrite Et, soft_R by exact Ht. rewrite nofnat_R. Rn. ring. }
  destruct X as [Y|].
  - rewrite (mat_mat nadd Y g r c) by (first [apply HX|apply shp_mgen]). cbn [bind]. eexists. split; [reflexivity|]. split; [apply is_mat_mgen|].
    intros i j Hi Hj. rewrite mget_mgen, Eg by auto. reflexivity.
  - cbn [bind]. eexists. split; [reflexivity|]. split; [apply is_mat_mgen|]. intros i j Hi Hj. rewrite Eg by auto. Rn. ring.
Qed.

(** the threshold of shrinkageA agrees with the one of shrink for tau = 0 *)
Theorem c86_A_zero svd (M C U W : tensor R) s r c : is_mat M r c -> centralization M = Ok C -> svd C = (U, s, W) -> is_svd C U s W ->
  (0 < r)%nat -> (0 < c)%nat -> (forall p i, (p < length s)%nat -> (i < r)%nat -> mget U p i = mget U i p) ->
  exists X, shrink_np svd M 0 Complicated = Ok X /\ shrinkageA svd M 0 (Z.of_nat (length s)) = Ok (X, Z.of_nat (length s)).
Proof.
  intros HM EC ES HS Hr Hc Hsym. destruct (is_svd_center M C r c U s W HM EC HS) as (HC & HU & HW & Hl & Hsv & HE).
  assert (Hk : forall p, (p < length s)%nat -> (0 <= nth p s 0 <-> (p < length s)%nat)) by (intros p Hp; split; [auto|intros _; apply Hsv, nth_In, Hp]).
  destruct (c86_guess svd M C U W s 0 r c (length s) HM EC ES HS (le_n _) Hk Hsym) as (X & Y & EX & EY & HY).
  destruct (c61_np_complicated svd M C U W s 0 r c HM (Rle_refl 0) EC ES HS) as (X' & Z & EX' & EZ & HZ & VZ). rewrite EX in EX'. injection EX' as <-.
  assert (HXm : is_mat X r c).
  { destruct (c61_np svd M C U W s 0 r c HM EC ES HS) as (X1 & E1 & (r1 & c1 & HX1 & HU1 & HW1 & _) & _). rewrite EX in E1. injection E1 as <-.
    assert (r1 = r) by (pose proof (is_mat_rc _ _ _ (proj1 HU)); pose proof (is_mat_rc _ _ _ (proj1 HU1)); intuition congruence).
    assert (c1 = c) by (pose proof (is_mat_rc _ _ _ (proj1 HW)); pose proof (is_mat_rc _ _ _ (proj1 HW1)); intuition congruence). subst. exact HX1. }
  destruct (c86_A svd M 0 r c _ Y _ HM (Rle_refl 0) EY) as (Z' & EZ' & HZ' & VZ'); [destruct Y as [Y|]; [subst; exact HXm|exact I]|].
  exists Z. split; [exact EZ|]. rewrite EZ'. do 2 f_equal. apply (mat_ext Z' Z r c HZ' HZ). intros i j Hi Hj. rewrite VZ, VZ' by auto. f_equal.
  - destruct Y as [Y|]; [subst; reflexivity|]. symmetry. apply HY; auto.
  - assert (N0 : 0 < INR (r * c)) by (apply lt_0_INR; nia). assert (S0 : 0 < sqrt (INR (r * c))) by (apply sqrt_lt_R0; exact N0).
    assert (T0 : forall d, soft_threshold d 0 = d) by (intros d; unfold soft_threshold; destruct (Rlt_dec 0 d); [ring|]; destruct (Rlt_dec d (- 0)); lra).
    rewrite !T0. rewrite <- (sqrt_sqrt (INR (r * c))) at 1 by lra. field. lra.
Qed.

Definition svd86 : tensor R -> tensor R * list R * tensor R := fun _ => (U61, [4; 2; 0], W61).
Ltac mval := unfold mget, get, U61, W61; cbn [shp dat ravel prod nth Nat.mul Nat.add bigsum]; Rn.
(** the last singular value above the threshold is dropped *)
Theorem c86_rank_refuted : exists svd (M C X Y : tensor R) r', is_mat M 4 3 /\ centralization M = Ok C /\
  (let '(U, s, W) := svd C in is_svd C U s W) /\ shrink_np svd M 1 Normal = Ok X /\ shrinkageBorC svd M 1 0 = Ok (Some Y, r') /\ r' = 1%Z /\
  ~ rank_le X 1 /\ Y <> X.
Proof.
  exists svd86, M61, M61. destruct (c61_np svd86 M61 M61 U61 W61 [4; 2; 0] 1 4 3 is_mat_M61 central_M61 eq_refl svd_M61) as (X & EX & HX & _).
  destruct (c86_value svd86 M61 M61 U61 W61 [4; 2; 0] 1 4 3 0 2 is_mat_M61 central_M61 eq_refl svd_M61) as (Y & EY & HY); [simpl; lia|simpl; lia| |].
  { intros p Hp. simpl in Hp. destruct p as [|[|[|p]]]; simpl; split; intros; try lia; try lra. }
  cbn in EY, HY. destruct Y as [Y|]; [|lia]. destruct HY as (_ & HY & VY).
  exists X, Y, 1%Z. split; [exact is_mat_M61|]. split; [exact central_M61|]. split; [exact svd_M61|]. split; [exact EX|]. split; [exact EY|]. split; [reflexivity|].
  destruct HX as (r1 & c1 & HX1 & HU1 & HW1 & _ & _ & HX).
  assert (r1 = 4%nat) by (destruct HU1 as ((_ & K) & _); injection K; auto). assert (c1 = 3%nat) by (destruct HW1 as ((_ & K) & _); injection K; auto). subst r1 c1.
  assert (V : forall i j, (i < 4)%nat -> (j < 3)%nat -> mget X i j = 3 * mget U61 i 0 * mget W61 0 j + mget U61 i 1 * mget W61 1 j).
  { intros i j Hi Hj. rewrite HX by auto. unfold thresholded. cbn [map length bigsum nth]. rewrite Rmax_right, Rmax_right, Rmax_left by lra. Rn. ring. }
  split.
  - intros (A & B & _ & _ & H). destruct (is_mat_rc X 4 3 HX1) as (_ & _ & Er & Ec & _). rewrite Er, Ec in H.
    pose proof (H 0%nat 1%nat ltac:(lia) ltac:(lia)) as K1. pose proof (H 0%nat 2%nat ltac:(lia) ltac:(lia)) as K2.
    pose proof (H 1%nat 1%nat ltac:(lia) ltac:(lia)) as K3. pose proof (H 1%nat 2%nat ltac:(lia) ltac:(lia)) as K4.
    rewrite V in K1, K2, K3, K4 by lia. cbn [bigsum] in K1, K2, K3, K4.
    set (a := mget A 0 0) in *. set (b := mget A 1 0) in *. set (x := mget B 1 0) in *. set (y := mget B 2 0) in *.
    assert (Q : (a * x) * (b * y) = (a * y) * (b * x)) by ring. Rn.
    replace (a * x) with (3/2) in Q by (rewrite <- (Rplus_0_l (a * x)), <- K1; mval; field).
    replace (a * y) with (1/2) in Q by (rewrite <- (Rplus_0_l (a * y)), <- K2; mval; field).
    replace (b * x) with (-3/2) in Q by (rewrite <- (Rplus_0_l (b * x)), <- K3; mval; field).
    replace (b * y) with (1/2) in Q by (rewrite <- (Rplus_0_l (b * y)), <- K4; mval; field). lra.
  - intros ->. pose proof (V 0%nat 2%nat ltac:(lia) ltac:(lia)) as K1. rewrite VY in K1 by lia. revert K1. mval. lra.
Qed.

(** with the right guess too: rows of U are taken for its columns *)
Theorem c86_row_refuted : exists svd (M C X Y : tensor R), is_mat M 4 3 /\ centralization M = Ok C /\
  (let '(U, s, W) := svd C in is_svd C U s W) /\ shrink_np svd M 1 Normal = Ok X /\ shrinkageBorC svd M 1 2 = Ok (Some Y, 2%Z) /\ Y <> X.
Proof.
  exists svd86, M61, M61. destruct (c61_np svd86 M61 M61 U61 W61 [4; 2; 0] 1 4 3 is_mat_M61 central_M61 eq_refl svd_M61) as (X & EX & HX & _).
  destruct (c86_value svd86 M61 M61 U61 W61 [4; 2; 0] 1 4 3 2 2 is_mat_M61 central_M61 eq_refl svd_M61) as (Y & EY & HY); [simpl; lia|simpl; lia| |].
  { intros p Hp. simpl in Hp. destruct p as [|[|[|p]]]; simpl; split; intros; try lia; try lra. }
  cbn in EY, HY. destruct Y as [Y|]; [|lia]. destruct HY as (_ & HY & VY).
  exists X, Y. split; [exact is_mat_M61|]. split; [exact central_M61|]. split; [exact svd_M61|]. split; [exact EX|]. split; [exact EY|].
  destruct HX as (r1 & c1 & HX1 & HU1 & HW1 & _ & _ & HX).
  assert (r1 = 4%nat) by (destruct HU1 as ((_ & K) & _); injection K; auto). assert (c1 = 3%nat) by (destruct HW1 as ((_ & K) & _); injection K; auto). subst r1 c1.
  intros ->. pose proof (VY 1%nat 1%nat ltac:(lia) ltac:(lia)) as K1. rewrite HX in K1 by lia. revert K1. unfold thresholded. cbn [map length bigsum nth]. rewrite Rmax_right, Rmax_right, Rmax_left by lra. mval. lra.
Qed.

(** shrinkageA shrinks the sum, shrink the sum over the root of the size *)
Definition I2 : tensor R := mgen 2 2 (fun i j => if Nat.eqb i j then 1 else 0).
Definition Z2 : tensor R := mgen 2 2 (fun _ _ => 0).
Definition svd86z : tensor R -> tensor R * list R * tensor R := fun _ => (I2, [0; 0], I2).
Theorem c86_A_refuted : exists svd (M C X Y : tensor R) r', is_mat M 2 2 /\ centralization M = Ok C /\
  (let '(U, s, W) := svd C in is_svd C U s W) /\ shrink_np svd M 1 Complicated = Ok X /\ shrinkageA svd M 1 0 = Ok (Y, r') /\
  mget X 0 0 = 1/2 /\ mget Y 0 0 = 3/4.
Proof.
  set (M := mgen 2 2 (fun _ _ => 1) : tensor R). assert (HM : is_mat M 2 2) by apply is_mat_mgen.
  assert (HI : orthogonal 2 I2).
  { split; [apply is_mat_mgen|]. split; intros i j Hi Hj; cbn [bigsum]; unfold I2; rewrite !mget_mgen by lia; unfold kron_delta;
      destruct i as [|[|i]]; try lia; destruct j as [|[|j]]; try lia; cbn [Nat.eqb]; Rn; ring. }
  destruct (c59 M 2 2 HM) as (C & EC & HC & VC & _).
  assert (HS : is_svd C I2 [0; 0] I2).
  { exists 2%nat, 2%nat. split; [exact HC|]. split; [exact HI|]. split; [exact HI|]. split; [reflexivity|]. split.
    - split; [intros x [<-|[<-|[]]]; lra|]. intros i j Hij Hj. simpl in Hj. destruct i as [|[|i]]; try lia; destruct j as [|[|j]]; try lia; simpl; lra.
    - intros i j Hi Hj. rewrite VC by auto. unfold M. rewrite mget_mgen, col_sum_mgen by auto. cbn [length bigsum]. unfold sumn, lsum. destruct i as [|[|i]]; try lia; destruct j as [|[|j]]; try lia; simpl; Rn; field. }
  assert (TM : total M = 4) by (rewrite (total_R M 2 2 HM); unfold M, sumn, lsum; cbn [seq map fold_right]; rewrite !mget_mgen by lia; Rn; ring).
  assert (S4 : sqrt (INR (2 * 2)) = 2) by (replace (INR (2 * 2)) with (2 * 2) by (simpl; ring); apply sqrt_square; lra).
  exists svd86z, M, C. destruct (c61_np_complicated svd86z M C I2 I2 [0; 0] 1 2 2 HM ltac:(lra) EC eq_refl HS) as (X & Y & EX & EY & HY & VY).
  destruct (c61_np svd86z M C I2 I2 [0; 0] 1 2 2 HM EC eq_refl HS) as (X' & EX' & _ & _ & HX0). rewrite EX in EX'. injection EX' as <-.
  destruct (c86_value svd86z M C I2 I2 [0; 0] 1 2 2 0 0 HM EC eq_refl HS) as (Z & EZ & HZ); [simpl; lia|simpl; lia| |].
  { intros p Hp. simpl in Hp. destruct p as [|[|p]]; simpl; split; intros; try lia; try lra. }
  cbn in EZ, HZ. destruct Z as [Z|]; [lia|].
  destruct (c86_A svd86z M 1 2 2 0%Z None _ HM ltac:(lra) EZ I) as (V & EV & HV & VV).
  exists Y, V, 0%Z. split; [exact HM|]. split; [exact EC|]. split; [exact HS|]. split; [exact EY|]. split; [exact EV|].
  rewrite VY, VV, HX0 by (try lia; intros x [<-|[<-|[]]]; lra). rewrite TM, S4. unfold soft_threshold. replace (INR (2 * 2)) with 4 by (simpl; ring).
  destruct (Rlt_dec 1 (4 / 2)); [|lra]. destruct (Rlt_dec 1 4); [|lra]. split; field.
Qed.

(** [1/2, -1/2; -1/2, 1/2] = Q diag(1, 0) Q with Q = [1, -1; -1, -1] / sqrt 2 *)
Definition q86 : R := 1 / sqrt 2.
Definition I86 : tensor R := mgen 2 2 (fun i j => if Nat.eqb (i + j) 0 then q86 else - q86).
Definition M86 : tensor R := mgen 2 2 (fun i j => if Nat.eqb i j then 1/2 else -1/2).
Lemma q86_sq : q86 * q86 = 1/2.
Proof. assert (0 < sqrt 2) by (apply sqrt_lt_R0; lra). unfold q86. replace (1/2) with (1 / (sqrt 2 * sqrt 2)) by (rewrite sqrt_sqrt by lra; reflexivity). field. lra. Qed.
Lemma hyp86 : (forall p, (p < 3)%nat -> (1 <= nth p [4; 2; 0] 0 <-> (p < 2)%nat)) /\
  is_mat M86 2 2 /\ centralization M86 = Ok M86 /\ is_svd M86 I86 [1; 0] I86 /\ (forall p i, (p < 2)%nat -> (i < 2)%nat -> mget I86 p i = mget I86 i p).
Proof.
  assert (HM : is_mat M86 2 2) by apply is_mat_mgen. pose proof q86_sq as Q.
  assert (HI : orthogonal 2 I86).
  { split; [apply is_mat_mgen|]. split; intros i j Hi Hj; cbn [bigsum]; unfold I86; rewrite !mget_mgen by lia; unfold kron_delta;
      destruct i as [|[|i]]; try lia; destruct j as [|[|j]]; try lia; cbn [Nat.eqb Nat.add]; Rn; lra. }
  split.
  { intros p Hp. destruct p as [|[|[|p]]]; simpl; split; intros; try lia; try lra. }
  split; [exact HM|]. split.
  { destruct (c59 M86 2 2 HM) as (C & E & _ & _ & _ & _ & H). rewrite E, H; [reflexivity|]. intros j Hj. destruct (is_mat_rc M86 2 2 HM) as (_ & _ & _ & Ec & _). rewrite Ec in Hj.
    rewrite (col_sum_R M86 2 2 j HM). unfold sumn, lsum. cbn [seq map fold_right]. unfold M86. rewrite !mget_mgen by lia. destruct j as [|[|j]]; try lia; cbn [Nat.eqb]; Rn; field. }
  split.
  - exists 2%nat, 2%nat. split; [exact HM|]. split; [exact HI|]. split; [exact HI|]. split; [reflexivity|]. split.
    + split; [intros x [<-|[<-|[]]]; lra|]. intros i j Hij Hj. simpl in Hj. destruct i as [|[|i]]; try lia; destruct j as [|[|j]]; try lia; simpl; lra.
    + intros i j Hi Hj. cbn [length bigsum nth]. unfold M86, I86. rewrite !mget_mgen by lia. destruct i as [|[|i]]; try lia; destruct j as [|[|j]]; try lia; cbn [Nat.eqb Nat.add]; Rn; lra.
  - intros p i Hp Hi. unfold I86. rewrite !mget_mgen by lia. rewrite Nat.add_comm. reflexivity.
Qed.
