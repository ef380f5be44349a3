(** Training from reordered or rescaled starting factors (C103): the loops and CP_ALS. *)

From Coq Require Import ZArith List Bool Arith Lia Permutation Reals Lra.
From Verif Require Import Num Py Tensor TF TensorFacts TFFacts Sums Ops OpsLemmas Types Loss Fact Train Spec SpecR LayoutFacts SpecFacts MulFacts TtmFacts SkipFacts TtmLemmas Matricize
  KronFacts RSums MatR KronAlg NormFacts SpecTucker MultiR SvdFacts TuckerFacts TuckerRun TuckerLemmas SpecCp SpecBcu BcuFacts SpecTrain TrainLemmas LossFacts CpFacts AlsFacts AlsLemmas
  SpecProx Prox NcpFacts NcpLemmas NtFacts NtLemmas SpecFix FixFacts SpecScale SpecSym SymFacts SymTrain SymBcu SpecOrder OrderAlg.
Import ListNotations.

(** ** the loops *)
Section Loops.
  Context {T : Type} {NT : Num T} (pi ax : nat -> nat -> nat).
  Definition reorder_obs (o : sobs T) : sobs T := mkObs (reorder pi (ob_factors o)) (omap (relabel ax) (ob_aux o)) (ob_full o) (ob_met o).
  Lemma publish_reorder v o p : publish v (reorder_obs o) (reorder_pub pi ax p) = reorder_pub pi ax (publish v o p).
  Proof. unfold publish, reorder_pub, reorder_obs. cbn [ob_factors ob_aux ob_full p_factors p_aux p_full p_finish]. destruct (ob_aux o); reflexivity. Qed.
  Lemma set_aux_reorder a (p : pub T) : set_aux (omap (relabel ax) a) (reorder_pub pi ax p) = reorder_pub pi ax (set_aux a p).
  Proof. unfold set_aux, reorder_pub. cbn [p_factors p_aux p_full p_finish]. destruct a; reflexivity. Qed.
  Definition ro {A} (x : pub T * res A) : pub T * res A := (reorder_pub pi ax (fst x), snd x).

  Context {S : Type} (phi : S -> S) (P P1 : S -> Prop).
  Variables (run run' : S -> res (S * sobs T)) (sum_ok : bool) (args : targs T) (steps : Z).

  Section Als.
    Hypothesis Hrun : forall s, P s -> run' (phi s) = rmap (fun x => (phi (fst x), reorder_obs (snd x))) (run s).
    Hypothesis Hinv : forall s s' o, P s -> run s = Ok (s', o) -> P s'.
    Lemma als_loop_reorder fuel : forall step s obj0 nst h p, P s ->
      als_loop run' sum_ok args steps fuel step (phi s) obj0 nst h (reorder_pub pi ax p) = ro (als_loop run sum_ok args steps fuel step s obj0 nst h p).
    Proof.
      induction fuel as [|fuel IH]; intros step s obj0 nst h p Hs; cbn [als_loop]; [reflexivity|].
      destruct (validate args steps step) as [v|e]; [|reflexivity]. unfold run_v. destruct (v && negb sum_ok)%bool; [reflexivity|].
      rewrite (Hrun s Hs). destruct (run s) as [[s' o]|e] eqn:E; [|reflexivity]. cbn [rmap fst snd]. rewrite publish_reorder. cbn [ob_met reorder_obs].
      destruct (stop_now _ _ _); [reflexivity|]. apply IH. eapply Hinv; eauto.
    Qed.
    Lemma als_body_reorder s p : P s ->
      als_body run' sum_ok args steps (Ok (phi s)) (reorder_pub pi ax p) = ro (als_body run sum_ok args steps (Ok s) p).
    Proof. intros Hs. unfold als_body. destruct (steps <=? 0)%Z; [reflexivity|]. apply als_loop_reorder, Hs. Qed.
  End Als.

  Section Bcu.
    Variables (pre pre' : S -> res (S * option (tensor T))) (accept reject : S -> res S).
    Hypothesis Hpre : forall s, P s -> pre' (phi s) = rmap (fun x => (phi (fst x), omap (relabel ax) (snd x))) (pre s).
    Hypothesis Ipre : forall s s' c, P s -> pre s = Ok (s', c) -> P1 s'.
    Hypothesis Hrun : forall s, P1 s -> run' (phi s) = rmap (fun x => (phi (fst x), reorder_obs (snd x))) (run s).
    Hypothesis Irun : forall s s' o, P1 s -> run s = Ok (s', o) -> P1 s'.
    Hypothesis Hacc : forall s, P1 s -> accept (phi s) = rmap phi (accept s).
    Hypothesis Iacc : forall s s', P1 s -> accept s = Ok s' -> P s'.
    Hypothesis Hrej : forall s, P1 s -> reject (phi s) = rmap phi (reject s).
    Hypothesis Irej : forall s s', P1 s -> reject s = Ok s' -> P s'.
    Lemma bcu_loop_reorder fuel : forall step s obj0 nst h p, P s ->
      bcu_loop run' sum_ok args steps pre' accept reject fuel step (phi s) obj0 nst h (reorder_pub pi ax p) =
      ro (bcu_loop run sum_ok args steps pre accept reject fuel step s obj0 nst h p).
    Proof.
      induction fuel as [|fuel IH]; intros step s obj0 nst h p Hs; cbn [bcu_loop]; [reflexivity|].
      rewrite (Hpre s Hs). destruct (pre s) as [[s1 c]|e] eqn:E0; [|reflexivity]. cbn [rmap fst snd]. rewrite set_aux_reorder. pose proof (Ipre _ _ _ Hs E0) as H1.
      destruct (validate args steps step) as [v|e]; [|reflexivity]. unfold run_v. destruct (v && negb sum_ok)%bool; [reflexivity|].
      rewrite (Hrun s1 H1). destruct (run s1) as [[s' o]|e] eqn:E; [|reflexivity]. cbn [rmap fst snd]. rewrite publish_reorder. cbn [ob_met reorder_obs]. pose proof (Irun _ _ _ H1 E) as H2.
      destruct (stop_now _ _ _); [reflexivity|]. destruct (nltb _ _).
      - rewrite (Hacc s' H2). destruct (accept s') as [s''|e] eqn:E3; [|reflexivity]. cbn [rmap]. apply IH. eapply Iacc; eauto.
      - rewrite (Hrej s' H2). destruct (reject s') as [s''|e] eqn:E3; [|reflexivity]. cbn [rmap]. apply IH. eapply Irej; eauto.
    Qed.
    Lemma bcu_body_reorder s post p : omap (relabel ax) post = post -> P s ->
      bcu_body run' sum_ok args steps pre' accept reject (Ok (phi s)) post (reorder_pub pi ax p) = ro (bcu_body run sum_ok args steps pre accept reject (Ok s) post p).
    Proof.
      intros Hpost Hs. unfold bcu_body. destruct (steps <=? 0)%Z; [unfold ro; cbn [fst snd]; rewrite <- set_aux_reorder, Hpost; reflexivity|]. rewrite (bcu_loop_reorder _ _ _ _ _ _ _ Hs).
      destruct (bcu_loop run sum_ok args steps pre accept reject _ _ s _ _ _ p) as [p' [h|e]]; [|reflexivity]. unfold ro. cbn [fst snd]. rewrite <- set_aux_reorder, Hpost. reflexivity.
    Qed.
  End Bcu.
End Loops.

Section Obj.
  Context {T : Type} {NT : Num T} {A RR : Type} (pi ax : nat -> nat -> nat) (unb : exc) (resets : bool).
  Variables (body body' : A -> RR -> bool -> Z -> pub T -> pub T * res (hist T)).
  Lemma obj_train_reorder w (o : fobj T A) rnd rnd' steps :
    (forall a id p b, o_built o = Some (a, id) -> body' a rnd' b steps (reorder_pub pi ax p) = ro pi ax (body a rnd b steps p)) ->
    obj_train unb resets body' w (reorder_obj pi ax o) rnd' steps =
    (reorder_obj pi ax (fst (obj_train unb resets body w o rnd steps)), snd (obj_train unb resets body w o rnd steps)).
  Proof.
    intros H. unfold obj_train. cbn [reorder_obj o_built o_pub].
    replace (if resets then set_finish false (reorder_pub pi ax (o_pub o)) else reorder_pub pi ax (o_pub o)) with (reorder_pub pi ax (if resets then set_finish false (o_pub o) else o_pub o)) by (destruct resets; reflexivity).
    destruct (o_built o) as [[a id]|] eqn:E; [|reflexivity]. destruct (negb (w_path w)); [reflexivity|].
    rewrite (H a id _ _ eq_refl). unfold ro. destruct (body a rnd _ steps _) as [p' [h|e]]; reflexivity.
  Qed.
  (** runs whose bodies agree *)
  Lemma obj_train_same w (o : fobj T A) rnd rnd' steps :
    (forall a id p b, o_built o = Some (a, id) -> body a rnd' b steps p = body a rnd b steps p) ->
    obj_train unb resets body w o rnd' steps = obj_train unb resets body w o rnd steps.
  Proof.
    intros H. unfold obj_train. destruct (o_built o) as [[a id]|] eqn:E; [|reflexivity]. destruct (negb (w_path w)); [reflexivity|].
    rewrite (H a id _ _ eq_refl). reflexivity.
  Qed.
End Obj.
(** the loop reads its starting state through the first run only *)
Lemma als_body_same {T} {NT : Num T} {S} (run : S -> res (S * sobs T)) sum_ok args steps s s' p : run s' = run s ->
  als_body run sum_ok args steps (Ok s') p = als_body run sum_ok args steps (Ok s) p.
Proof.
  intros E. unfold als_body. destruct (steps <=? 0)%Z; [reflexivity|]. destruct (Z.to_nat steps) as [|f]; [reflexivity|]. cbn [als_loop].
  destruct (validate args steps 1) as [v|e]; [|reflexivity]. unfold run_v. rewrite E. reflexivity.
Qed.

(** ** the first starting factor of CP_ALS, any arithmetic *)
Section First.
  Context {T : Type} {NT : Num T}.
  Variables (pinv : tensor T -> tensor T) (X : tensor T).

  Lemma skip_first {A} (a : A) l : skip_ (a :: l) (SkInt 0) = l.
  Proof.
    unfold skip_, enumerate. cbn [length seq combine map filter fst snd in_skip Z.of_nat Z.eqb negb].
    assert (G : forall (l : list A) k, map snd (filter (fun p => negb (in_skip (SkInt 0) (Z.of_nat (fst p)))) (combine (seq (S k) (length l)) l)) = l).
    { induction l0 as [|x l0 IH]; intros k; [reflexivity|]. cbn [length seq combine filter fst in_skip].
      destruct (Z.eqb_spec (Z.of_nat (S k)) 0) as [E|E]; [lia|]. destruct (negb _) eqn:F; [|]. 2: { cbn in F. discriminate F. } cbn [map snd]. f_equal. apply IH. }
    apply G.
  Qed.
  Lemma gram_any (B : tensor T) : matrix B -> exists G, tf_matmul true false B B = Ok G.
  Proof. intros H. eexists. apply (matmul_ok true false B B (ncols B) (nrows B) (ncols B)); cbn; destruct H as [_ H]; rewrite H; reflexivity. Qed.
  Lemma cp_mode_first mats r B B' A : matrix B -> matrix B' -> cp_mode pinv mats r 0 (B' :: A) = cp_mode pinv mats r 0 (B :: A).
  Proof.
    intros HB HB'. unfold cp_mode, grams, hadamard, khatri. destruct (gram_any B HB) as (G & E). destruct (gram_any B' HB') as (G' & E'). cbn [mapM]. rewrite E, E'. cbn [bind].
    destruct (mapM _ A) as [Gs|e]; [|reflexivity]. cbn [bind Z.of_nat]. rewrite !skip_first. cbn [upd set_nth]. reflexivity.
  Qed.
  Lemma cp_step_first r B B' A : (1 <= ndims X)%nat -> matrix B -> matrix B' -> cp_step pinv X r (B' :: A) = cp_step pinv X r (B :: A).
  Proof.
    intros HN HB HB'. unfold cp_step. destruct (unfold_all X) as [mats|e]; [|reflexivity]. cbn [bind]. destruct (ndims X) as [|n]; [lia|]. cbn [seq cp_modes].
    rewrite (cp_mode_first mats r B B' A HB HB'). reflexivity.
  Qed.
  Lemma cp_train_first B B' A w (o : fobj T (targs T * nat)) steps : (1 <= ndims X)%nat -> matrix B -> matrix B' -> cp_train pinv X w o (B' :: A) steps = cp_train pinv X w o (B :: A) steps.
  Proof.
    intros HN HB HB'. unfold cp_train. apply obj_train_same. intros [a r'] id p b _. unfold cp_body. apply als_body_same. unfold cp_run. cbn [snd]. rewrite (cp_step_first r' B B' A HN HB HB'). reflexivity.
  Qed.
End First.

Local Open Scope R_scope.

(** ** reordered columns *)
Section Cols.
  Context {T : Type} {NT : Num T}.
  Lemma cols_mat p (A : tensor T) r c : is_mat A r c -> is_mat (relabel_cols p A) r c.
  Proof. intros [_ H]. unfold relabel_cols, nrows, ncols. rewrite H. apply is_mat_mgen. Qed.
  Lemma mget_cols p (A : tensor T) i q : (i < nrows A)%nat -> (q < ncols A)%nat -> mget (relabel_cols p A) i q = mget A i (p q).
  Proof. intros H1 H2. unfold relabel_cols. rewrite mget_mgen by assumption. reflexivity. Qed.
  Lemma nrows_cols p (A : tensor T) : nrows (relabel_cols p A) = nrows A. Proof. reflexivity. Qed.
  Lemma ncols_cols p (A : tensor T) : ncols (relabel_cols p A) = ncols A. Proof. reflexivity. Qed.
  Lemma ro_length pi (A : list (tensor T)) : length (reorder pi A) = length A.
  Proof. unfold reorder. rewrite map_length, seq_length. reflexivity. Qed.
  Lemma ro_at pi (A : list (tensor T)) k : (k < length A)%nat -> mat_at (reorder pi A) k = relabel_cols (pi k) (mat_at A k).
  Proof.
    intros H. unfold reorder. unfold mat_at at 1. rewrite nth_map_lt with (da := 0%nat) by (rewrite seq_length; exact H). rewrite seq_nth by exact H. reflexivity.
  Qed.
  Lemma ro_eq pi (A B : list (tensor T)) : length B = length A -> (forall k, (k < length A)%nat -> mat_at B k = relabel_cols (pi k) (mat_at A k)) -> B = reorder pi A.
  Proof.
    intros L H. apply nth_ext with (d := mkT [] []) (d' := mkT [] []); [rewrite ro_length; exact L|]. intros k Hk. rewrite L in Hk.
    change (mat_at B k = mat_at (reorder pi A) k). rewrite ro_at by exact Hk. apply H, Hk.
  Qed.
  Lemma ro_replace pi n (B : tensor T) (A : list (tensor T)) : reorder pi (replace n B A) = replace n (relabel_cols (pi n) B) (reorder pi A).
  Proof.
    symmetry. apply ro_eq; [rewrite !replace_length; apply ro_length|]. intros k Hk. rewrite replace_length in Hk. unfold mat_at.
    destruct (Nat.eq_dec k n) as [->|E].
    - rewrite !nth_replace, Nat.eqb_refl by (rewrite ?ro_length; exact Hk). reflexivity.
    - rewrite !nth_replace_ne by exact E. fold (mat_at (reorder pi A) k). apply ro_at, Hk.
  Qed.
End Cols.

(** ** CP: the quantities of one mode update *)
Section Cp.
  Variables (pinv : tensor R -> tensor R) (X : tensor R) (r : nat) (p : nat -> nat).
  Hypothesis HP : penrose pinv.
  Hypothesis HX : wf X.
  Hypothesis Hne : nonempty (shp X).
  Hypothesis Hord : (2 <= ndims X <= 25)%nat.
  Hypothesis Hp : perm1 r p.
  Let N := ndims X.
  Let I n := nth n (shp X) 0%nat.

  (** column q of B_k is d k q times column (p q) of A_k, k <> n *)
  Definition linked (d : nat -> nat -> R) (n : nat) (A B : list (tensor R)) : Prop :=
    cp_factors X r A /\ cp_factors X r B /\
    forall k i q, (k < N)%nat -> k <> n -> (i < I k)%nat -> (q < r)%nat -> 0 < d k q /\ mget (mat_at B k) i q = d k q * mget (mat_at A k) i (p q).
  Definition scal (d : nat -> nat -> R) (n q : nat) : R := listprod (map (fun k => d k q) (others n N)).

  Section Mode.
    Variables (d : nat -> nat -> R) (n : nat) (A B : list (tensor R)).
    Hypothesis HL : linked d n A B.
    Hypothesis Hn : (n < N)%nat.
    Let e := scal d n.

    Lemma listprod_mul (l : list nat) (f g : nat -> R) : listprod (map (fun k => f k * g k) l) = listprod (map f l) * listprod (map g l).
    Proof. induction l as [|x l IH]; cbn [map listprod]; Rn; [ring|]. rewrite IH. ring. Qed.
    Lemma listprod_pos (l : list nat) (f : nat -> R) : (forall k, In k l -> 0 < f k) -> 0 < listprod (map f l).
    Proof. induction l as [|x l IH]; intros H; cbn [map listprod]; Rn; [lra|]. apply Rmult_lt_0_compat; [apply H; left; auto|]. apply IH. intros; apply H; right; auto. Qed.
    Lemma I_pos k : (k < N)%nat -> (0 < I k)%nat.
    Proof. intros Hk. assert (I k <> 0)%nat by (apply nonempty_nth; auto). lia. Qed.
    Lemma e_pos q : (q < r)%nat -> 0 < e q.
    Proof. intros Hq. apply listprod_pos. intros k Hk. apply in_others in Hk as [K1 K2]. destruct HL as (_ & _ & H). apply (H k 0%nat q); auto. apply I_pos, K1. Qed.

    Lemma but_linked idx q : (q < r)%nat -> (forall k, (k < N)%nat -> k <> n -> (nth k idx 0 < I k)%nat) -> but B n idx q = e q * but A n idx (p q).
    Proof.
      intros Hq Hv. destruct HL as (HA & HB & H). unfold but. rewrite (proj1 HA), (proj1 HB). fold N. unfold e, scal. rewrite <- listprod_mul. f_equal. apply map_ext_in.
      intros k Hk. apply in_others in Hk as [K1 K2]. apply H; auto.
    Qed.
    Lemma gram_linked a b : (a < r)%nat -> (b < r)%nat -> mget (gram_but r B n) a b = e a * e b * mget (gram_but r A n) (p a) (p b).
    Proof.
      intros Ha Hb. destruct HL as (HA & HB & H). unfold gram_but. rewrite !mget_mgen by (auto; apply Hp; auto). rewrite (proj1 HA), (proj1 HB). fold N. unfold e, scal.
      rewrite <- !listprod_mul. f_equal. apply map_ext_in. intros k Hk. apply in_others in Hk as [K1 K2].
      destruct (is_mat_dims _ _ _ (proj2 HA k K1)) as [D1 _]. destruct (is_mat_dims _ _ _ (proj2 HB k K1)) as [D2 _]. rewrite D1, D2. fold (I k).
      rewrite <- !(sumn_bigsum RLR). rewrite <- sumnR_scale. apply sumn_ext. intros i Hi.
      rewrite (proj2 (H k i a K1 K2 Hi Ha)), (proj2 (H k i b K1 K2 Hi Hb)). Rn. ring.
    Qed.
    Lemma mttkrp_linked i q : (i < I n)%nat -> (q < r)%nat -> mget (mttkrp X r B n) i q = e q * mget (mttkrp X r A n) i (p q).
    Proof.
      intros Hi Hq. unfold mttkrp. rewrite !mget_mgen by (auto; apply Hp; auto). rewrite <- !(isum_msum RLR), <- (isum_mul_l RLR). apply isum_ext. intros idx Hv.
      rewrite but_linked; [Rn; ring|exact Hq|]. intros k Hk Hkn. unfold I. rewrite <- (nth_replace_ne n 1%nat (shp X) 0%nat k Hkn). apply (valid_nth _ _ k Hv). rewrite replace_length. exact Hk.
    Qed.

    Hypothesis Hinv : (forall q, (q < r)%nat -> e q = 1) \/ invertible r (gram_but r A n).
    Lemma pinv_linked a b : (a < r)%nat -> (b < r)%nat -> mget (pinv (gram_but r B n)) a b = mget (pinv (gram_but r A n)) (p a) (p b) / (e a * e b).
    Proof.
      intros Ha Hb. set (VA := gram_but r A n) in *. set (VB := gram_but r B n) in *.
      assert (MA : is_mat VA r r) by apply is_mat_mgen. assert (MB : is_mat VB r r) by apply is_mat_mgen.
      destruct (matrix_is_mat _ _ _ MA) as (MA1 & _). destruct (matrix_is_mat _ _ _ MB) as (MB1 & _).
      pose proof (is_pinv_of r VA _ MA (HP VA MA1)) as PA. pose proof (is_pinv_of r VB _ MB (HP VB MB1)) as PB.
      apply (pinv_of_unique r (mget VB) (mget (pinv VB)) (dmono p e (mget (pinv VA)))); auto.
      apply (pinv_of_ext r (mono p e (mget VA))); [intros i j Hi Hj; symmetry; apply gram_linked; auto|].
      apply pinv_mono; auto; [intros q Hq; pose proof (e_pos q Hq); lra|].
      destruct Hinv as [H1|(W & HW)]; [left; exact H1|right]. apply (pinv_inv r (mget VA) (mget (pinv VA)) W PA).
      - intros i j Hi Hj. unfold tr, VA, gram_but. rewrite !mget_mgen by auto. f_equal. apply map_ext. intros k. apply bigsum_ext. intros x _. Rn. ring.
      - intros i j Hi Hj. unfold mm, delta. rewrite (sumn_bigsum RLR). apply HW; auto.
    Qed.
    Lemma sol_linked i q : (i < I n)%nat -> (q < r)%nat -> mget (als_solution pinv X r B n) i q = mget (als_solution pinv X r A n) i (p q) / e q.
    Proof.
      intros Hi Hq. unfold als_solution. rewrite !mget_mgen by (auto; apply Hp; auto). rewrite <- !(sumn_bigsum RLR).
      rewrite <- (sum_perm r p (fun l => mget (mttkrp X r A n) i l * mget (pinv (gram_but r A n)) l (p q)) Hp). unfold Rdiv. rewrite <- sumnR_scale_r. apply sumn_ext. intros l Hl.
      rewrite mttkrp_linked, pinv_linked by auto. Rn. pose proof (e_pos l Hl). pose proof (e_pos q Hq). field. lra.
    Qed.
    Lemma cmax_linked q : (q < r)%nat -> cmax (als_solution pinv X r B n) q = cmax (als_solution pinv X r A n) (p q) / e q.
    Proof.
      intros Hq. set (SA := als_solution pinv X r A n). set (SB := als_solution pinv X r B n).
      assert (RA : nrows SA = I n) by reflexivity. assert (RB : nrows SB = I n) by reflexivity. pose proof (I_pos n Hn) as H0. pose proof (e_pos q Hq) as He.
      destruct (cmax_ok SA (p q) ltac:(lia)) as ((i & Hi & Ei) & UA). destruct (cmax_ok SB q ltac:(lia)) as ((j & Hj & Ej) & UB). rewrite RA in *. rewrite RB in *.
      apply Rle_antisym.
      - rewrite <- Ej. unfold SB. rewrite sol_linked by auto. fold SA. apply Rmult_le_compat_r; [left; apply Rinv_0_lt_compat, He|]. apply UA, Hj.
      - rewrite <- Ei. unfold SA. rewrite <- sol_linked by auto. fold SB. apply UB, Hi.
    Qed.
    Lemma normed_linked : normed r (als_solution pinv X r B n) = relabel_cols p (normed r (als_solution pinv X r A n)).
    Proof.
      apply mat_ext with (r := I n) (c := r); [apply is_mat_mgen|apply cols_mat, is_mat_mgen|]. intros i q Hi Hq. pose proof (e_pos q Hq) as He.
      rewrite mget_cols by assumption. unfold normed. rewrite !mget_mgen by (auto; apply Hp; auto). rewrite sol_linked, cmax_linked by auto.
      unfold Rdiv. rewrite Rinv_mult, Rinv_inv. set (c := / cmax _ _). set (x := mget _ _ _). field. lra.
    Qed.
  End Mode.

  Lemma lams_linked d n A B : linked d n A B -> (n < N)%nat -> (forall q, (q < r)%nat -> scal d n q = 1) -> lams r (als_solution pinv X r B n) = relabel (fun _ => p) (lams r (als_solution pinv X r A n)).
  Proof.
    intros HL Hn H1. unfold relabel. apply tensor_ext.
    - unfold wf, lams. cbn [shp dat prod]. rewrite map_length, seq_length. lia.
    - apply wf_gen.
    - reflexivity.
    - cbn [lams shp]. intros idx Hv. rewrite get_gen by exact Hv. pose proof (valid_length _ _ Hv) as L. destruct idx as [|q [|]]; [discriminate L| |discriminate L]. inversion Hv as [|? ? ? ? Hq _]; subst.
      unfold lams, get, moved. cbn [shp dat ravel prod length seq map nth]. rewrite !Nat.mul_1_r, !Nat.add_0_r. rewrite !nth_map_seq by (auto; apply Hp; auto).
      rewrite (cmax_linked d n A B HL Hn (or_introl H1) q Hq), (H1 q Hq). unfold Rdiv. rewrite Rinv_1. ring.
  Qed.

  (** ** the sweep over the modes *)
  Definition cut (k : nat) (d : nat -> nat -> R) : nat -> nat -> R := fun j q => if Nat.ltb j k then 1 else d j q.
  Lemma scal_one d n : (forall k q, (k < N)%nat -> k <> n -> (q < r)%nat -> d k q = 1) -> forall q, (q < r)%nat -> scal d n q = 1.
  Proof.
    intros H q Hq. unfold scal. assert (G : forall l, (forall k, In k l -> (k < N)%nat /\ k <> n) -> listprod (map (fun k => d k q) l) = 1).
    { induction l as [|x l IH]; intros Hl; cbn [map listprod]; Rn; [reflexivity|]. rewrite IH by (intros; apply Hl; right; auto). destruct (Hl x (or_introl eq_refl)). rewrite H by auto. ring. }
    apply G. intros k Hk. apply in_others in Hk. exact Hk.
  Qed.
  Lemma linked_next d k A B : linked (cut k d) k A B -> (k < N)%nat -> (forall q, (q < r)%nat -> scal (cut k d) k q = 1) \/ invertible r (gram_but r A k) ->
    linked (cut (S k) d) (S k) (replace k (normed r (als_solution pinv X r A k)) A) (replace k (normed r (als_solution pinv X r B k)) B).
  Proof.
    intros HL Hk HI. rewrite (normed_linked _ _ _ _ HL Hk HI). pose proof HL as (HA & HB & H).
    assert (FA : cp_factors X r (replace k (normed r (als_solution pinv X r A k)) A)) by (apply replace_factors; [exact HA|apply is_mat_mgen]).
    split; [exact FA|]. split; [apply replace_factors; [exact HB|apply cols_mat, is_mat_mgen]|].
    intros j i q Hj Hjk Hi Hq. unfold mat_at. destruct (Nat.eq_dec j k) as [->|E].
    - rewrite !nth_replace, Nat.eqb_refl by (rewrite ?(proj1 HA), ?(proj1 HB); exact Hk). unfold cut. destruct (Nat.ltb_spec k (S k)); [|lia]. split; [lra|]. rewrite mget_cols by assumption. ring.
    - rewrite !nth_replace_ne by exact E. fold (mat_at A j) (mat_at B j). destruct (H j i q Hj E Hi Hq) as [H1 H2]. unfold cut in *.
      destruct (Nat.ltb_spec j k); destruct (Nat.ltb_spec j (S k)); try lia; auto.
  Qed.
  Lemma linked_end d A B : linked (cut N d) N A B -> B = reorder (fun _ => p) A.
  Proof.
    intros (HA & HB & H). apply ro_eq; [rewrite (proj1 HA), (proj1 HB); reflexivity|]. intros k Hk. rewrite (proj1 HA) in Hk. fold N in Hk.
    apply mat_ext with (r := I k) (c := r); [apply HB, Hk|apply cols_mat, HA, Hk|]. intros i q Hi Hq. destruct (is_mat_dims _ _ _ (proj2 HA k Hk)) as [D1 D2].
    rewrite mget_cols by (rewrite ?D1, ?D2; auto). rewrite (proj2 (H k i q Hk ltac:(lia) Hi Hq)). unfold cut. destruct (Nat.ltb_spec k N); [ring|lia].
  Qed.

  Definition rl2 (x : list (tensor R) * tensor R) : list (tensor R) * tensor R := (reorder (fun _ => p) (fst x), relabel (fun _ => p) (snd x)).
  Lemma modes_linked mats d : unfold_all X = Ok mats -> forall n k A B lam lam', (k + n)%nat = N -> linked (cut k d) k A B -> (n = 0%nat -> lam' = relabel (fun _ => p) lam) ->
    ((forall j q, d j q = 1) \/ exists A1 lam1, cp_modes pinv mats r (seq k n) A lam = Ok (A1, lam1) /\ forall m, (k <= m < N - 1)%nat -> invertible r (gram_but r (mixed m A1 A) m)) ->
    cp_modes pinv mats r (seq k n) B lam' = rmap rl2 (cp_modes pinv mats r (seq k n) A lam).
  Proof.
    intros E. induction n as [|n IH]; intros k A B lam lam' Hkn HL Hlam HI; cbn [seq cp_modes].
    - cbn [rmap]. unfold rl2. cbn [fst snd]. rewrite (Hlam eq_refl). assert (k = N) by lia. subst k. rewrite (linked_end d A B HL). reflexivity.
    - assert (Hk : (k < N)%nat) by lia. pose proof HL as (HA & HB & _).
      assert (H1 : k = (N - 1)%nat -> forall q, (q < r)%nat -> scal (cut k d) k q = 1).
      { intros -> q Hq. apply scal_one; [|exact Hq]. intros j q0 Hj Hjn _. unfold cut. destruct (Nat.ltb_spec j (N - 1)); [reflexivity|lia]. }
      assert (HI' : (forall q, (q < r)%nat -> scal (cut k d) k q = 1) \/ invertible r (gram_but r A k)).
      { destruct HI as [HI|(A1 & lam1 & E1 & HI)].
        - left. apply scal_one. intros j q _ _ _. unfold cut. destruct (Nat.ltb j k); auto.
        - destruct (Nat.eq_dec k (N - 1)) as [Ek|Ek]; [left; apply H1, Ek|right].
          destruct (sweep pinv X r mats HP Hne ltac:(lia) E (S n) k A _ _ _ Hkn HA E1) as (HA1 & S1 & _).
          replace A with (mixed k A1 A); [apply HI; lia|]. pose proof (proj1 HA1) as L1. pose proof (proj1 HA) as L0. fold N in L1, L0.
          apply (list_nth_ext _ _ (mkT [] [])); [rewrite mixed_length; lia|]. rewrite mixed_length by lia. intros j Hj.
          rewrite nth_mixed by lia. destruct (Nat.ltb_spec j k) as [Hjk|Hjk]; auto. apply S1, Hjk. }
      rewrite (cp_mode_run pinv X r mats HP Hne ltac:(lia) E A k HA Hk), (cp_mode_run pinv X r mats HP Hne ltac:(lia) E B k HB Hk). cbn [bind fst snd].
      apply IH; [lia|apply linked_next; auto| |].
      + intros ->. assert (k = (N - 1)%nat) by lia. apply (lams_linked (cut k d)); auto.
      + destruct HI as [HI|(A1 & lam1 & E1 & HI)]; [left; exact HI|right]. cbn [seq cp_modes] in E1.
        rewrite (cp_mode_run pinv X r mats HP Hne ltac:(lia) E A k HA Hk) in E1. cbn [bind fst snd] in E1. exists A1, lam1. split; [exact E1|]. intros m Hm.
        assert (FA : cp_factors X r (replace k (normed r (als_solution pinv X r A k)) A)) by (apply replace_factors; [exact HA|apply is_mat_mgen]).
        destruct (sweep pinv X r mats HP Hne ltac:(lia) E n (S k) _ _ _ _ ltac:(fold N; lia) FA E1) as (HA1 & _).
        pose proof (proj1 HA1) as L1. pose proof (proj1 HA) as L0. fold N in L1, L0.
        replace (mixed m A1 (replace k (normed r (als_solution pinv X r A k)) A)) with (mixed m A1 A); [apply HI; lia|].
        apply (list_nth_ext _ _ (mkT [] [])); [rewrite !mixed_length; rewrite ?replace_length; lia|].
        rewrite mixed_length by lia. intros j Hj. rewrite !nth_mixed by (rewrite ?replace_length; lia).
        destruct (Nat.ltb_spec j m) as [Hjm|Hjm]; auto. rewrite nth_replace_ne by lia. reflexivity.
  Qed.

  Lemma rf_same_shape A : cp_factors X r A -> cp_factors X r (reorder (fun _ => p) A).
  Proof. intros [HL HA]. split; [rewrite ro_length; exact HL|]. intros k Hk. rewrite ro_at by (rewrite HL; exact Hk). apply cols_mat, HA, Hk. Qed.
  Lemma cp_tensor_reorder lam lam' A : cp_factors X r A -> (forall q, (q < r)%nat -> mget lam' q 0 = mget lam (p q) 0) ->
    cp_tensor r lam' (reorder (fun _ => p) A) = cp_tensor r lam A.
  Proof.
    intros HA Hlam. pose proof (rf_same_shape A HA) as HB. unfold cp_tensor. rewrite ro_length.
    assert (E : forall F, cp_factors X r F -> map nrows F = shp X).
    { intros F HF. apply nth_ext with (d := 0%nat) (d' := 0%nat); rewrite map_length; [apply (proj1 HF)|]. intros k Hk. rewrite (nth_map_lt nrows F k (mkT [] [])) by exact Hk. apply (fac_mat X r F HF). rewrite <- (proj1 HF). exact Hk. }
    rewrite (E _ HA), (E _ HB). apply gen_ext. intros idx Hv.
    rewrite <- (bigsum_perm r p (fun q => nmul (mget lam q 0) (bigprod (length A) (fun k => mget (mat_at A k) (nth k idx 0%nat) q))) Hp). apply bigsum_ext. intros q Hq.
    rewrite Hlam by exact Hq. f_equal. apply bigprod_ext. intros k Hk. rewrite ro_at by exact Hk. rewrite (proj1 HA) in Hk. destruct (is_mat_dims _ _ _ (proj2 HA k Hk)) as [D1 D2].
    apply mget_cols; [rewrite D1; apply (valid_nth _ _ k Hv); exact Hk|rewrite D2; exact Hq].
  Qed.
  Lemma cp_step_linked d A B : linked (cut 0 d) 0 A B ->
    (forall j q, d j q = 1) \/ (forall o, cp_step pinv X r A = Ok o -> forall m, (m < N - 1)%nat -> invertible r (gram_but r (mixed m (cp_A o) A) m)) ->
    cp_step pinv X r B = rmap (fun o => mkCP (reorder (fun _ => p) (cp_A o)) (relabel (fun _ => p) (cp_lam o)) (cp_full o) (cp_met o)) (cp_step pinv X r A).
  Proof.
    intros HL HI. pose proof HL as (HA & _ & _). destruct (cp_step_total pinv X r A HP HX Hne Hord HA) as (o & Eo).
    assert (HI' : (forall j q, d j q = 1) \/ forall m, (m < N - 1)%nat -> invertible r (gram_but r (mixed m (cp_A o) A) m)) by (destruct HI as [HI|HI]; auto).
    clear HI. rewrite Eo. unfold cp_step in Eo |- *. destruct (unfold_all_total X Hne) as (mats & E). rewrite E in Eo |- *. cbn [bind] in Eo |- *. fold N in Eo |- *.
    destruct (cp_modes pinv mats r (seq 0 N) A (mkT [] [])) as [[A1 lam]|e] eqn:E3; [|discriminate Eo]. cbn [bind] in Eo.
    assert (N0 : N <> 0%nat) by (unfold N; lia).
    assert (EA : cp_A o = A1). { destruct (kt_extract A1 _) as [full|]; [|discriminate Eo]. cbn [bind] in Eo. destruct (metrics_of X full); [|discriminate Eo]. injection Eo as <-. reflexivity. }
    rewrite (modes_linked mats d E N 0 A B (mkT [] []) (mkT [] []) eq_refl HL).
    - rewrite E3. cbn [rmap bind rl2 fst snd].
      destruct (sweep pinv X r mats HP Hne ltac:(lia) E N 0 A _ _ _ eq_refl HA E3) as (HA1 & _ & HS & _). destruct (HS (ndims X - 1)%nat ltac:(unfold N; lia)) as [_ HLm]. specialize (HLm eq_refl).
      assert (K : forall c F, is_mat c r 1 -> cp_factors X r F -> kt_extract F c = Ok (cp_tensor r c F)) by (intros c F Hc HF; apply (kt_relabel X r (fun _ i => i) Hord); auto; intros k Hk; apply perm1_id).
      assert (M1 : is_mat (mkT (shp lam ++ [1%nat]) (dat lam)) r 1). { rewrite HLm. unfold lams. cbn [shp dat app]. split; [|reflexivity]. unfold wf. cbn [shp dat prod]. rewrite map_length, seq_length. lia. }
      assert (M2 : is_mat (mkT (shp (relabel (fun _ => p) lam) ++ [1%nat]) (dat (relabel (fun _ => p) lam))) r 1).
      { pose proof (wf_relabel (fun _ => p) lam) as W. split; [|cbn [shp relabel gen]; rewrite HLm; reflexivity]. unfold wf in *. cbn [shp dat]. rewrite W. rewrite HLm. cbn [lams shp relabel gen app prod]. lia. }
      rewrite (K _ A1 M1 HA1) in Eo. rewrite (K _ _ M2 (rf_same_shape A1 HA1)). cbn [bind] in Eo |- *.
      rewrite (cp_tensor_reorder (mkT (shp lam ++ [1%nat]) (dat lam)) _ A1 HA1).
      + destruct (metrics_of X (cp_tensor r (mkT (shp lam ++ [1%nat]) (dat lam)) A1)); [|discriminate Eo]. cbn [bind] in Eo |- *. injection Eo as <-. reflexivity.
      + intros q Hq. rewrite HLm. assert (G : forall (l : tensor R) j, shp l = [r] -> mget (mkT (shp l ++ [1%nat]) (dat l)) j 0 = get l [j]).
        { intros l j El. unfold mget, get. rewrite El. cbn [app shp dat ravel prod]. try (f_equal; lia). }
        rewrite !G by reflexivity. rewrite get_relabel; [reflexivity|]. repeat constructor. exact Hq.
    - intros H0. contradiction.
    - destruct HI' as [HI|HI]; [left; exact HI|right]. exists A1, lam. split; [exact E3|]. intros m Hm. rewrite <- EA. apply HI. lia.
  Qed.

  Lemma cp_step_reorder A : cp_factors X r A ->
    cp_step pinv X r (reorder (fun _ => p) A) = rmap (fun o => mkCP (reorder (fun _ => p) (cp_A o)) (relabel (fun _ => p) (cp_lam o)) (cp_full o) (cp_met o)) (cp_step pinv X r A).
  Proof.
    intros HA. apply (cp_step_linked (fun _ _ => 1)); [|left; reflexivity]. split; [exact HA|]. split; [apply rf_same_shape, HA|]. intros k i q Hk _ Hi Hq. unfold cut. cbn [Nat.ltb Nat.leb]. split; [lra|].
    rewrite ro_at by (rewrite (proj1 HA); exact Hk). destruct (is_mat_dims _ _ _ (proj2 HA k Hk)) as [D1 D2]. rewrite mget_cols by (rewrite ?D1, ?D2; auto). ring.
  Qed.
  Lemma cp_train_reorder w o rnd steps : (exists a id, o_built o = Some ((a, r), id)) -> cp_factors X r rnd ->
    cp_train pinv X w (reorder_obj (fun _ => p) (fun _ => p) o) (reorder (fun _ => p) rnd) steps =
    (reorder_obj (fun _ => p) (fun _ => p) (fst (cp_train pinv X w o rnd steps)), snd (cp_train pinv X w o rnd steps)).
  Proof.
    intros (a & id & Hb) HR. unfold cp_train. apply obj_train_reorder. intros a' id' q b Hb'. rewrite Hb in Hb'. injection Hb' as <- <-.
    unfold cp_body. cbn [fst snd]. apply (als_body_reorder (fun _ => p) (fun _ => p) (reorder (fun _ => p)) (cp_factors X r)); [| |exact HR].
    - intros s Hs. unfold cp_run. rewrite (cp_step_reorder s Hs). destruct (cp_step pinv X r s); reflexivity.
    - intros s s' ob Hs E. unfold cp_run in E. destruct (cp_step pinv X r s) as [y|] eqn:Ey; [|discriminate]. cbn [bind] in E. injection E as <- _. apply (c45_step pinv X r s y HP Hs Ey).
  Qed.
End Cp.

(** ** rescaled starting factors *)
Section Rescaled.
  Variables (pinv : tensor R -> tensor R) (X : tensor R) (r : nat) (d : nat -> nat -> R) (A B : list (tensor R)).
  Hypothesis HP : penrose pinv.
  Hypothesis HX : wf X.
  Hypothesis Hne : nonempty (shp X).
  Hypothesis Hord : (2 <= ndims X <= 25)%nat.
  Hypothesis HA : cp_factors X r A.
  Hypothesis HB : cp_factors X r B.
  Hypothesis Hd : rescaled_start r d A B.
  Hypothesis HI : forall o, cp_step pinv X r A = Ok o -> forall m, (m < ndims X - 1)%nat -> invertible r (gram_but r (mixed m (cp_A o) A) m).

  Lemma ro_id (F : list (tensor R)) : cp_factors X r F -> reorder (fun _ i => i) F = F.
  Proof.
    intros HF. symmetry. apply ro_eq; [reflexivity|]. intros k Hk. rewrite (proj1 HF) in Hk. destruct (is_mat_dims _ _ _ (proj2 HF k Hk)) as [D1 D2].
    apply mat_ext with (r := nth k (shp X) 0%nat) (c := r); [apply HF, Hk|apply cols_mat, HF, Hk|]. intros i q Hi Hq. rewrite mget_cols by (rewrite ?D1, ?D2; auto). reflexivity.
  Qed.
  Lemma cp_step_rescaled : cp_step pinv X r B = cp_step pinv X r A.
  Proof.
    rewrite (cp_step_linked pinv X r (fun i => i) HP HX Hne Hord (perm1_id r) d A B); [|split; [exact HA|split; [exact HB|]]|right; exact HI].
    - destruct (cp_step pinv X r A) as [o|e] eqn:E; [|reflexivity]. cbn [rmap]. destruct (c45_step pinv X r A o HP HA E) as (HF & HS & HLm).
      rewrite ro_id by exact HF. destruct o as [A1 lam full m]. cbn [cp_A cp_lam cp_full cp_met] in *. f_equal. f_equal. apply (SymBcu.relabel_id lam).
      destruct (unfold_all_total X Hne) as (mats & Em). unfold cp_step in E. rewrite Em in E. cbn [bind] in E.
      destruct (cp_modes pinv mats r (seq 0 (ndims X)) A (mkT [] [])) as [[A2 lam2]|e] eqn:E3; [|discriminate E]. cbn [bind] in E.
      destruct (sweep pinv X r mats HP Hne ltac:(lia) Em (ndims X) 0 A _ _ _ eq_refl HA E3) as (_ & _ & HS2 & _). destruct (HS2 (ndims X - 1)%nat ltac:(lia)) as [_ HL2]. specialize (HL2 eq_refl).
      destruct (kt_extract A2 _) as [full2|]; [|discriminate E]. cbn [bind] in E. destruct (metrics_of X full2); [|discriminate E]. injection E as <- <- <- <-.
      rewrite HL2. unfold wf, lams. cbn [shp dat prod]. rewrite map_length, seq_length. lia.
    - intros k i q Hk Hk0 Hi Hq. unfold cut. cbn [Nat.ltb Nat.leb]. apply Hd; [rewrite (proj1 HA); lia|rewrite (proj1 (is_mat_dims _ _ _ (proj2 HA k Hk))); exact Hi|exact Hq].
  Qed.
  Lemma cp_train_rescaled w o steps : (exists a id, o_built o = Some ((a, r), id)) -> cp_train pinv X w o B steps = cp_train pinv X w o A steps.
  Proof.
    intros (a & id & Hb). unfold cp_train. apply obj_train_same. intros a' id' q b Hb'. rewrite Hb in Hb'. injection Hb' as <- <-.
    unfold cp_body. cbn [fst snd]. apply als_body_same. unfold cp_run. rewrite cp_step_rescaled. reflexivity.
  Qed.
End Rescaled.
