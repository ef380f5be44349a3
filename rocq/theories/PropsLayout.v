(** Property theorems C01-C07: unfold, fold, t2mat, vectorize. *)

From Coq Require Import ZArith List Bool Arith Permutation.
From Verif Require Import Num Py Tensor TF Ops Spec LayoutFacts.
Import ListNotations.

(** C01: unfold is Kolda's mode-n matricization. *)
Theorem C01_unfold_kolda : forall (T : Type) (N : Num T) (t : tensor T) (n : nat),
  wf t -> n < ndims t -> nth n (shp t) 0 <> 0 ->
  exists u, unfold t (Z.of_nat n) = Ok u /\
    is_mat u (nth n (shp t) 0) (nprod (pick (others n (ndims t)) (shp t))) /\
    forall idx, valid (shp t) idx ->
      mget u (nth n idx 0) (kolda_col (shp t) n idx) = get t idx.
Proof. exact @c01. Qed.
Print Assumptions C01_unfold_kolda.

(** C01, completeness: the formula reaches every cell, so it determines the matrix. *)
Theorem C01_unfold_every_cell : forall (T : Type) (s : list nat) (n i j : nat),
  n < length s -> i < nth n s 0 -> j < nprod (pick (others n (length s)) s) ->
  exists idx, valid s idx /\ nth n idx 0 = i /\ kolda_col s n idx = j.
Proof. exact @c01_cells. Qed.
Print Assumptions C01_unfold_every_cell.

(** the 2x3x2 tensor 1..12 used in examples *)
Example ex_t232 : wf (mkT [2; 3; 2] (map Z.of_nat (seq 1 12))). Proof. reflexivity. Qed.
Example ex_C01 :
  unfold (mkT [2; 3; 2] (map Z.of_nat (seq 1 12))) 1
  = Ok (mkT [3; 4] [1; 7; 2; 8; 3; 9; 4; 10; 5; 11; 6; 12]%Z)
  /\ kolda_col [2; 3; 2] 1 [1; 2; 1] = 3.
Proof. vm_compute. auto. Qed.

(** C02: fold and unfold are inverse. *)
Theorem C02_fold_unfold : forall (T : Type) (N : Num T) (t : tensor T) (n : nat) (u : tensor T),
  wf t -> n < ndims t -> unfold t (Z.of_nat n) = Ok u ->
  fold u (Z.of_nat n) (shp t) = Ok t.
Proof. exact @fold_unfold. Qed.
Print Assumptions C02_fold_unfold.

Theorem C02_unfold_fold : forall (T : Type) (N : Num T) (m : tensor T) (n : nat) (s : list nat)
    (t : tensor T),
  n < length s -> nth n s 0 <> 0 ->
  is_mat m (nth n s 0) (nprod (pick (others n (length s)) s)) ->
  fold m (Z.of_nat n) s = Ok t -> unfold t (Z.of_nat n) = Ok m.
Proof. exact @unfold_fold. Qed.
Print Assumptions C02_unfold_fold.

Example ex_C02 :
  is_mat (mkT [3; 4] (map Z.of_nat (seq 1 12))) 3 4 /\
  (do t <- fold (mkT [3; 4] (map Z.of_nat (seq 1 12))) 1 [2; 3; 2]; unfold t 1)
  = Ok (mkT [3; 4] (map Z.of_nat (seq 1 12))).
Proof. split; [split|]; vm_compute; reflexivity. Qed.

(** C03: exactly the calls with a mode in range (and, for unfold, a non-empty axis; for
    fold, the right number of elements) succeed; the others raise ValueError. *)
Theorem C03_unfold_domain : forall (T : Type) (N : Num T) (t : tensor T) (z : Z),
  ((exists u, unfold t z = Ok u) <->
   (0 <= z < Z.of_nat (ndims t))%Z /\ nth (Z.to_nat z) (shp t) 0 <> 0) /\
  ((z < 0 \/ Z.of_nat (ndims t) <= z)%Z -> unfold t z = Raise ValueError) /\
  ((0 <= z < Z.of_nat (ndims t))%Z -> nth (Z.to_nat z) (shp t) 0 = 0 ->
   unfold t z = Raise ValueError).
Proof. exact @c03_unfold. Qed.
Print Assumptions C03_unfold_domain.

Theorem C03_fold_domain : forall (T : Type) (N : Num T) (m : tensor T) (z : Z) (s : list nat),
  wf m ->
  ((exists u, fold m z s = Ok u) <->
   (0 <= z < Z.of_nat (length s))%Z /\ nprod s = length (dat m)) /\
  ((z < 0 \/ Z.of_nat (length s) <= z)%Z -> fold m z s = Raise ValueError) /\
  (nprod s <> length (dat m) -> fold m z s = Raise ValueError).
Proof. exact @c03_fold. Qed.
Print Assumptions C03_fold_domain.

Example ex_C03 :
  unfold (mkT [2; 3; 2] (map Z.of_nat (seq 1 12))) (-1) = Raise ValueError /\
  unfold (mkT [2; 3; 2] (map Z.of_nat (seq 1 12))) 3 = Raise ValueError /\
  unfold (mkT [2; 0] (@nil Z)) 1 = Raise ValueError.
Proof. vm_compute. auto. Qed.

(** C04: t2mat places every entry at the row-major position of its row and column
    coordinates; lists, tuples, bare ints and -1. *)
Theorem C04_t2mat_lists : forall (T : Type) (N : Num T) (t : tensor T) (r c : list nat),
  Permutation (r ++ c) (seq 0 (ndims t)) ->
  exists m, t2mat t (AList (map Z.of_nat r)) (AList (map Z.of_nat c)) = Ok m /\ placed t r c m.
Proof.
  intros T N t r c H. destruct (t2mat_list t r c H) as (m & Hm & Ha).
  exists m. split; [exact Hm | apply as_matrix_placed, Ha].
Qed.
Print Assumptions C04_t2mat_lists.

Theorem C04_t2mat_tuples : forall (T : Type) (N : Num T) (t : tensor T) (r c : list nat),
  Permutation (r ++ c) (seq 0 (ndims t)) ->
  t2mat t (ATuple (map Z.of_nat r)) (ATuple (map Z.of_nat c)) =
  t2mat t (AList (map Z.of_nat r)) (AList (map Z.of_nat c)).
Proof.
  intros T N t r c H. destruct (t2mat_list t r c H) as (m & Hm & Ha).
  destruct (t2mat_tuple t r c H) as (m' & Hm' & Ha').
  rewrite Hm, Hm'. f_equal. exact (as_matrix_unique t r c m' m H Ha' Ha).
Qed.
Print Assumptions C04_t2mat_tuples.

Theorem C04_t2mat_int_row : forall (T : Type) (N : Num T) (t : tensor T) (n : nat) (c : list nat),
  Permutation (n :: c) (seq 0 (ndims t)) ->
  t2mat t (AInt (Z.of_nat n)) (AList (map Z.of_nat c)) =
  t2mat t (AList [Z.of_nat n]) (AList (map Z.of_nat c)).
Proof. exact @t2mat_int_list. Qed.
Print Assumptions C04_t2mat_int_row.

Theorem C04_t2mat_int_col : forall (T : Type) (N : Num T) (t : tensor T) (r : list nat) (c : nat),
  t2mat t (AList (map Z.of_nat r)) (AInt (Z.of_nat c)) =
  t2mat t (AList (map Z.of_nat r)) (AList [Z.of_nat c]).
Proof. exact @t2mat_list_int. Qed.
Print Assumptions C04_t2mat_int_col.

Theorem C04_t2mat_int_int : forall (T : Type) (N : Num T) (t : tensor T) (n c : nat),
  t2mat t (AInt (Z.of_nat n)) (AInt (Z.of_nat c)) =
  t2mat t (AList [Z.of_nat n]) (AList [Z.of_nat c]).
Proof. exact @t2mat_int_int. Qed.
Print Assumptions C04_t2mat_int_int.

(** -1: all axes not listed, ascending *)
Theorem C04_t2mat_rest : forall (T : Type) (N : Num T) (t : tensor T) (r : list nat),
  NoDup r -> (forall a, In a r -> a < ndims t) ->
  exists m, t2mat t (AList (map Z.of_nat r)) (AInt (-1)) = Ok m /\
    placed t r (filter (fun k => negb (existsb (Nat.eqb k) r)) (seq 0 (ndims t))) m.
Proof.
  intros T N t r Hn Hr. rewrite t2mat_m1. apply C04_t2mat_lists, remaining_perm; assumption.
Qed.
Print Assumptions C04_t2mat_rest.

Example ex_C04 :
  t2mat (mkT [2; 3; 2] (map Z.of_nat (seq 1 12))) (AList [2; 0]%Z) (AList [1]%Z)
  = Ok (mkT [4; 3] [1; 3; 5; 7; 9; 11; 2; 4; 6; 8; 10; 12]%Z)
  /\ Permutation ([2; 0] ++ [1]) (seq 0 3).
Proof.
  split; [vm_compute; reflexivity|].
  apply perm_trans with [0; 2; 1]; [apply perm_swap | apply perm_skip, perm_swap].
Qed.

(** C05: the row-axis object after the call, exactly. *)
Theorem C05_t2mat_post : forall (T : Type) (N : Num T) (t : tensor T) (r c : axarg),
  fst (t2mat_full t r c) =
  match r, c with
  | AList l, AInt z =>
      if (z =? -1)%Z then r
      else match mapM (dim t) l with Ok _ => AList (l ++ [z]) | Raise _ => r end
  | _, _ => r
  end.
Proof. exact @t2mat_post. Qed.
Print Assumptions C05_t2mat_post.

(** C05 holds except for a list r_axis with an int c_axis other than -1: repeated calls
    with the same argument objects return the same thing.  Missing: that case, which
    is refuted below. *)
Theorem C05_t2mat_args_unchanged_partial :
  forall (T : Type) (N : Num T) (t : tensor T) (r c : axarg) (k : nat),
  (forall l z, r = AList l -> c = AInt z -> z = (-1)%Z) ->
  fst (t2mat_full t r c) = r /\ t2mat_calls t r c k = repeat (t2mat t r c) k.
Proof.
  intros T N t r c k H.
  assert (E : fst (t2mat_full t r c) = r).
  { rewrite t2mat_post. destruct r as [z|l|l]; destruct c as [z'|l'|l']; try reflexivity.
    rewrite (H l z' eq_refl eq_refl). reflexivity. }
  split; [exact E | exact (t2mat_calls_const t r c k E)].
Qed.
Print Assumptions C05_t2mat_args_unchanged_partial.

(** C05 fails: after one call the caller's list has grown and the same call raises. *)
Theorem C05_t2mat_args_unchanged_refuted :
  exists (t : tensor Z) (l : list Z) (c : Z) (m : tensor Z),
    t2mat_full t (AList l) (AInt c) = (AList (l ++ [c]), Ok m) /\
    t2mat_calls t (AList l) (AInt c) 2 = [Ok m; Raise ValueError].
Proof.
  exists (mkT [2; 3] (map Z.of_nat (seq 1 6))), [0%Z], 1%Z, (mkT [2; 3] (map Z.of_nat (seq 1 6))).
  vm_compute. auto.
Qed.
Print Assumptions C05_t2mat_args_unchanged_refuted.

Example ex_C05 : forall l z, ATuple [0; 1]%Z = AList l -> AInt 2 = AInt z -> z = (-1)%Z.
Proof. discriminate. Qed.

(** C06: unfold is t2mat with the remaining axes descending (Kolda); -1 is the LMV
    unfolding (remaining axes ascending). *)
Theorem C06_unfold_is_t2mat : forall (T : Type) (N : Num T) (t : tensor T) (n : nat),
  n < ndims t -> nth n (shp t) 0 <> 0 ->
  t2mat t (AInt (Z.of_nat n)) (AList (map Z.of_nat (rev (others n (ndims t)))))
  = unfold t (Z.of_nat n).
Proof. exact @c06_kolda. Qed.
Print Assumptions C06_unfold_is_t2mat.

Theorem C06_lmv : forall (T : Type) (N : Num T) (t : tensor T) (n : nat),
  n < ndims t ->
  exists m, t2mat t (AInt (Z.of_nat n)) (AInt (-1)) = Ok m /\ placed t [n] (others n (ndims t)) m.
Proof.
  intros T N t n H. rewrite t2mat_int_m1, remaining_others.
  apply (C04_t2mat_lists T N t [n] (others n (ndims t))), others_perm, H.
Qed.
Print Assumptions C06_lmv.

Example ex_C06 :
  t2mat (mkT [2; 3; 2] (map Z.of_nat (seq 1 12))) (AInt 1) (AList [2; 0]%Z)
  = unfold (mkT [2; 3; 2] (map Z.of_nat (seq 1 12))) 1.
Proof. vm_compute. reflexivity. Qed.

(** C07: vectorize / vec_to_tensor. *)
Theorem C07_vectorize : forall (T : Type) (N : Num T) (t : tensor T),
  wf t ->
  exists v, vectorize t = Ok v /\ wf v /\ shp v = [nprod (shp t)] /\
    (forall idx, valid (shp t) idx -> get v [rowmajor (shp t) idx] = get t idx) /\
    vec_to_tensor v (map Z.of_nat (shp t)) = Ok t.
Proof. exact @c07_vectorize. Qed.
Print Assumptions C07_vectorize.

Theorem C07_vec_to_tensor : forall (T : Type) (v : tensor T) (n : nat) (s : list nat),
  wf v -> shp v = [n] ->
  (nprod s = n -> exists t, vec_to_tensor v (map Z.of_nat s) = Ok t /\ wf t /\ shp t = s /\
                            vectorize t = Ok v) /\
  (nprod s <> n -> vec_to_tensor v (map Z.of_nat s) = Raise ValueError).
Proof. exact @c07_vec. Qed.
Print Assumptions C07_vec_to_tensor.

Example ex_C07 :
  rowmajor [2; 3; 2] [1; 2; 0] = 10 /\
  vec_to_tensor (mkT [12] (map Z.of_nat (seq 1 12))) [2; 3; 2]%Z
  = Ok (mkT [2; 3; 2] (map Z.of_nat (seq 1 12))).
Proof. vm_compute. auto. Qed.
