(** multigraph_demo.py over the reals: np.arange(60).reshape(3, 4, 5) + c has multilinear rank
    (2, 2, 2) at most, so every run of the demo recovers its tensor in one step (C97). *)

From Coq Require Import ZArith Reals List Bool Arith Lia Lra.
From Verif Require Import Num Py Tensor Spec TensorFacts Fact Train SpecTrain SpecTucker SpecProx.
From Verif Require Import TrainFacts TrainLemmas TuckerLemmas DataRecover Process SpecProc ProcFacts.
Import ListNotations.

Section Demo.
  Open Scope R_scope.

  (** a HOOI object of a script is a HOOI object *)
  Lemma hooi_alone svdU X (a : xargs R) d steps :
    let t := hooi_train svdU X (mkW [0%nat] true) (mkObj (Some ((x_t a, x_ranks a), 0%nat)) pub0) tt steps in
    snd (alone (mkJob (HOOI svdU X) a d steps)) = snd t /\ o_pub (fst (alone (mkJob (HOOI svdU X) a d steps))) = o_pub (fst t).
  Proof.
    cbv zeta. unfold alone, hooi_train, obj_train. cbn [j_cls j_args j_draws j_steps HOOI c_unbuilt c_resets c_body o_built w_path w_sums o_pub negb forallb].
    destruct (hooi_body svdU X (x_t a, x_ranks a) tt _ steps _) as [p' [h|e]]; split; reflexivity.
  Qed.

  Definition demo_col (n : nat) : tensor R := mgen n 2 (fun i j => match j with 0%nat => 1 | _ => INR i end).
  Definition demo_core (c : R) : tensor R := mkT [2; 2; 2]%nat [c; 1; 5; 0; 20; 0; 0; 0].
  Definition demo_factors := [demo_col 3; demo_col 4; demo_col 5].

  Lemma arange_gen c : arange345 c = gen [3; 4; 5]%nat (fun idx => INR (20 * nth 0 idx 0 + 5 * nth 1 idx 0 + nth 2 idx 0)%nat + c).
  Proof.
    reflexivity.
  Qed.
  Lemma demo_col_get n i j : (i < n)%nat -> (j < 2)%nat -> mget (demo_col n) i j = match j with 0%nat => 1 | _ => INR i end.
  Proof. intros Hi Hj. unfold mget, demo_col, mgen. rewrite get_gen; [reflexivity|]. constructor; [exact Hi|]. constructor; [exact Hj|constructor]. Qed.

  Lemma demo_tucker c : arange345 c = gen [3; 4; 5]%nat (fun idx => get (tucker_tensor (demo_core c) demo_factors) idx + Rmax 0 (0 * get (arange345 c) idx)).
  Proof.
    rewrite arange_gen at 1. unfold gen at 1. unfold gen. f_equal. apply map_ext_in. intros idx Hi. apply in_indices in Hi.
    rewrite Rmult_0_l, Rmax_left, Rplus_0_r by lra.
    unfold tucker_tensor. rewrite get_gen by exact Hi.
    inversion Hi as [|i n ii nn H1 H1' E1 E2]; subst. inversion H1' as [|j n jj nn H2 H2' E1 E2]; subst. inversion H2' as [|k n kk nn H3 H3' E1 E2]; subst.
    inversion H3'; subst. clear - H1 H2 H3. unfold demo_factors. cbn [length bigprod msum bigsum shp demo_core nth mat_at].
    unfold mat_at. cbn [nth]. rewrite !demo_col_get by lia.
    rewrite !plus_INR, !mult_INR. unfold get. cbn [shp dat ravel nth demo_core prod fold_right Nat.mul Nat.add]. cbn. ring.
  Qed.

  Lemma c97_demo_run svdU c args steps : left_svd svdU -> 0 < a_tol args -> a_vi args <> 0%Z -> (0 < steps)%Z ->
    forall rank d, let j := mkJob (HOOI svdU (arange345 c)) (mkX args rank (map Z.of_nat [2; 2; 2]%nat)) d steps in
    result j = Ok [(0, 0)] /\ p_full (model j) = Some (arange345 c).
  Proof.
    intros HS Ht Hv Hn rank d. cbv zeta. unfold result, model. destruct (hooi_alone svdU (arange345 c) (mkX args rank (map Z.of_nat [2; 2; 2]%nat)) d steps) as [E1 E2].
    rewrite E1, E2. clear E1 E2. cbn [x_t x_ranks].
    set (o := mkObj _ _). set (w := mkW _ _).
    destruct (c54_hooi_total svdU (arange345 c) [2; 2; 2]%nat args 0%nat w o tt steps HS) as (o' & h & E); auto.
    - unfold wf, arange345. cbn [dat shp]. rewrite map_length, seq_length. reflexivity.
    - unfold arange345. cbn [shp]. repeat constructor; discriminate.
    - repeat constructor; discriminate.
    - cbn. lia.
    - intros k Hk. change (ndims (arange345 c)) with 3%nat in Hk. destruct k as [|[|[|k]]]; [| | |lia]; cbn; lia.
    - intros i [<-|[]]. reflexivity.
    - destruct (data_hooi [3; 4; 5]%nat (arange345 c) [2; 2; 2]%nat (demo_core c) demo_factors (arange345 c) 0 (demo_tucker c) eq_refl) with
        (svdU := svdU) (ranks := [2; 2; 2]%nat) (w := w) (o := o) (r := tt) (n := steps) (o' := o') (h := h) (args := args) (id := 0%nat) as (F & P & _ & HF); auto.
      + split; [reflexivity|]. split; [reflexivity|]. intros k Hk. change (ndims (arange345 c)) with 3%nat in Hk.
        destruct k as [|[|[|k]]]; [| | |lia]; split; reflexivity.
      + split; reflexivity.
      + repeat constructor; discriminate.
      + repeat constructor; discriminate.
      + destruct (HF eq_refl) as [-> Hh]. rewrite E. cbn [fst snd]. split; [|exact P]. f_equal. apply Hh; [exact Ht|].
        destruct (Req_dec c 0) as [Z|Z].
        * exists [0; 0; 1]%nat. split; [repeat constructor|]. rewrite arange_gen, get_gen by (repeat constructor). cbn. lra.
        * exists [0; 0; 0]%nat. split; [repeat constructor|]. rewrite arange_gen, get_gen by (repeat constructor). cbn. lra.
  Qed.

  (** the demo itself, for any list of offsets *)
  Lemma c97_demo svdU args steps cs rank d : left_svd svdU -> 0 < a_tol args -> a_vi args <> 0%Z -> (0 < steps)%Z ->
    let q := run start (own_graphs (map (fun c => mkJob (HOOI svdU (arange345 c)) (mkX args rank [2; 2; 2]%Z) d steps) cs)) in
    snd q = Ok (map (fun _ => [(0, 0)]) cs) /\ map (fun b => p_full (o_pub (b_obj b))) (p_objs (fst q)) = map (fun c => Some (arange345 c)) cs.
  Proof.
    intros HS Ht Hv Hn. cbv zeta.
    set (js := map _ cs). destruct (c97_own_graphs js) as [E1 E2].
    assert (E : mapM result js = Ok (map (fun _ => [(0, 0)]) cs)).
    { unfold js. clear - HS Ht Hv Hn. induction cs as [|c cs IH]; [reflexivity|]. cbn [map mapM].
      destruct (c97_demo_run svdU c args steps HS Ht Hv Hn rank d) as [R _]. cbn [map Z.of_nat] in R. 
      change [2; 2; 2]%Z with (map Z.of_nat [2; 2; 2]%nat) at 1. setoid_rewrite R. cbn [bind]. rewrite IH. reflexivity. }
    rewrite E in E1. split; [exact E1|]. specialize (E2 _ E1).
    apply (f_equal (map (@p_full R))) in E2. rewrite !map_map in E2. rewrite E2. unfold js. rewrite map_map. apply map_ext. intros c.
    apply (c97_demo_run svdU c args steps HS Ht Hv Hn rank d).
  Qed.

  (** the HOSVD and HOOI of tucker_test.py, each alone *)
  Lemma hosvd_alone svdU X (a : xargs R) d steps :
    let t := hosvd_train svdU X (mkW [0%nat] true) (mkObj (Some (x_ranks a, 0%nat)) pub0) tt steps in
    snd (alone (mkJob (HOSVD svdU X) a d steps)) = snd t /\ o_pub (fst (alone (mkJob (HOSVD svdU X) a d steps))) = o_pub (fst t).
  Proof.
    cbv zeta. unfold alone, hosvd_train, obj_train. cbn [j_cls j_args j_draws j_steps HOSVD c_unbuilt c_resets c_body o_built w_path w_sums o_pub negb forallb].
    destruct (hosvd_body svdU X (x_ranks a) tt _ steps _) as [p' [h|e]]; split; reflexivity.
  Qed.
  Lemma hosvd_demo svdU c rank d args steps : left_svd svdU ->
    let j := mkJob (HOSVD svdU (arange345 c)) (mkX args rank [2; 2; 2]%Z) d steps in
    result j = Ok [] /\ p_full (model j) = Some (arange345 c).
  Proof.
    intros HS. cbv zeta. unfold result, model. destruct (hosvd_alone svdU (arange345 c) (mkX args rank [2; 2; 2]%Z) d steps) as [E1 E2].
    rewrite E1, E2. clear E1 E2. cbn [x_ranks]. set (o := mkObj _ _). set (w := mkW _ _).
    destruct (c54_hosvd svdU (arange345 c) [2; 2; 2]%nat HS) as (t & Et & _); try (cbn; lia).
    - unfold wf, arange345. cbn [dat shp]. rewrite map_length, seq_length. reflexivity.
    - unfold arange345. cbn [shp]. repeat constructor; discriminate.
    - assert (E : exists o', hosvd_train svdU (arange345 c) w o tt steps = (o', Ok [])).
      { unfold hosvd_train, obj_train, hosvd_body. cbn [o w o_built w_path w_sums o_pub negb forallb Nat.eqb andb].
        change [2; 2; 2]%Z with (map Z.of_nat [2; 2; 2]%nat). rewrite Et. eexists. reflexivity. }
      destruct E as (o' & E).
      destruct (data_hosvd [3; 4; 5]%nat (arange345 c) [2; 2; 2]%nat (demo_core c) demo_factors (arange345 c) 0 (demo_tucker c) eq_refl) with
        (svdU := svdU) (ranks := [2; 2; 2]%nat) (w := w) (o := o) (r := tt) (n := steps) (o' := o') (h := @nil (R * R)) (id := 0%nat) as (F & P & _ & HF); auto.
      + split; [reflexivity|]. split; [reflexivity|]. intros k Hk. change (ndims (arange345 c)) with 3%nat in Hk.
        destruct k as [|[|[|k]]]; [| | |lia]; split; reflexivity.
      + split; reflexivity.
      + repeat constructor; discriminate.
      + cbn. lia.
      + rewrite E. cbn [fst snd]. split; [reflexivity|]. rewrite P, (HF eq_refl). reflexivity.
  Qed.

  Lemma c98_tucker_test svdU rank d : left_svd svdU ->
    let hosvd := mkJob (HOSVD svdU (arange345 0)) (mkX (mkArgs (1 / 10000) 1 false) rank [2; 2; 2]%Z) d 0 in
    let hooi := mkJob (HOOI svdU (arange345 0)) (mkX (mkArgs (1 / 10000) 5 false) rank [2; 2; 2]%Z) d 100 in
    result hosvd = Ok [] /\ p_full (model hosvd) = Some (arange345 0) /\
    result hooi = Ok [(0, 0)] /\ p_full (model hooi) = Some (arange345 0) /\
    exists e, snd (run start (default_graph [hosvd; hooi])) = Raise e.
  Proof.
    intros HS. cbv zeta. destruct (hosvd_demo svdU 0 rank d (mkArgs (1 / 10000) 1 false) 0 HS) as [-> ->].
    destruct (c97_demo_run svdU 0 (mkArgs (1 / 10000) 5 false) 100 HS) with (rank := rank) (d := d) as [E1 E2]; [cbn; lra|discriminate|reflexivity|].
    split; [reflexivity|]. split; [reflexivity|]. split; [exact E1|]. split; [exact E2|]. apply c97_default_graph.
    right. right. left. exists svdU, (arange345 0). reflexivity.
  Qed.
End Demo.
