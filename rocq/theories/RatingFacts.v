(** From a ratings file to the numbers train returns (C109). *)

From Coq Require Import String Ascii ZArith List Bool Arith Reals Lia Lra.
From Verif Require Import Num Py Tensor TF Types Ops Fact Train TensorFacts Sums Spec SpecR SpecTrain SpecFacts Loss LossFacts OpsLemmas TrainFacts TrainLemmas
  RSums AlsLemmas RSums Reader SpecReader ReaderFacts Csv SpecCsv CsvFacts CsvLemmas SpecRatings.
Import ListNotations.
Local Open Scope R_scope.

Lemma msum_plus s (f g : list nat -> R) : msum s (fun i => f i + g i) = msum s f + msum s g.
Proof.
  transitivity (msum s (fun i => nadd (nmul 1 (f i)) (nmul 1 (g i)))); [apply msum_ext; intros; Rn; ring|].
  rewrite (msum_lin RLR). Rn. ring.
Qed.
Lemma msum_0 s (f : list nat -> R) : (forall i, valid s i -> f i = 0) -> msum s f = 0.
Proof. intros H. rewrite <- (isum_msum RLR). apply (isum_zero RLR). exact H. Qed.

Lemma bigsum_at (d k : nat) (x : R) : (k < d)%nat -> bigsum d (fun i => if Nat.eqb i k then x else 0) = x.
Proof.
  intros H. assert (Z0 : forall n, (n <= k)%nat -> bigsum n (fun i => if Nat.eqb i k then x else 0) = 0).
  { induction n as [|n IH]; intros Hn; [reflexivity|]. cbn [bigsum]. rewrite IH by lia. destruct (Nat.eqb_spec n k); [lia|]. Rn. ring. }
  induction d as [|d IH]; [lia|]. cbn [bigsum]. destruct (Nat.eq_dec d k) as [->|D].
  - rewrite Nat.eqb_refl, Z0 by lia. Rn. ring.
  - rewrite IH by lia. destruct (Nat.eqb_spec d k); [contradiction|]. Rn. ring.
Qed.

Lemma msum_at s : forall k (x : R), valid s k -> msum s (fun i => if list_eq_dec Nat.eq_dec i k then x else 0) = x.
Proof.
  induction s as [|d s IH]; intros k x V; inversion V as [|a b k' s' Ha Hb]; subst.
  - reflexivity.
  - cbn [msum]. transitivity (bigsum d (fun i => if Nat.eqb i a then x else 0)); [|apply bigsum_at; exact Ha].
    apply bigsum_ext. intros i _. destruct (Nat.eqb_spec i a) as [->|D].
    + transitivity (msum s (fun j => if list_eq_dec Nat.eq_dec j k' then x else 0)); [|exact (IH k' x Hb)]. apply msum_ext. intros j _. destruct (list_eq_dec Nat.eq_dec j k') as [E|E], (list_eq_dec Nat.eq_dec (a :: j) (a :: k')) as [F|F]; congruence.
    + apply msum_0. intros j _. destruct (list_eq_dec Nat.eq_dec (i :: j) (a :: k')) as [F|F]; [congruence|reflexivity].
Qed.

Lemma in_range_valid s c : in_range s c -> valid s (map Z.to_nat c) /\ map Z.of_nat (map Z.to_nat c) = c.
Proof.
  intros H. induction H as [|z d c s Hz H [IH1 IH2]]; [split; [constructor|reflexivity]|]. split.
  - cbn. constructor; [lia|exact IH1].
  - cbn. rewrite IH2. f_equal. lia.
Qed.
Lemma of_nat_inj (a : list nat) : map Z.to_nat (map Z.of_nat a) = a.
Proof. induction a as [|x a IH]; [reflexivity|]. cbn. rewrite IH, Nat2Z.id. reflexivity. Qed.

Lemma rsum_cons f e es : rsum f (e :: es) = f e + rsum f es.
Proof. reflexivity. Qed.

(** a sum over the coordinates that have a row is a sum over the rows *)
Lemma msum_rows s (g : list nat -> R -> R) : forall es : ratings, NoDup (map fst es) -> (forall e, In e es -> in_range s (fst e)) ->
  msum s (fun i => match last_for es (map Z.of_nat i) with Some v => g i v | None => 0 end) = rsum (fun e => g (map Z.to_nat (fst e)) (snd e)) es.
Proof.
  induction es as [|[c v] es IH]; intros ND HR; [apply msum_0; reflexivity|]. rewrite rsum_cons. cbn [map fst snd] in ND |- *. inversion ND as [|x y Hn ND']; subst.
  destruct (in_range_valid s c (HR (c, v) (or_introl eq_refl))) as [Vc Ec]. rewrite <- (IH ND') by (intros e He; apply HR; right; exact He).
  rewrite <- (msum_at s (map Z.to_nat c) (g (map Z.to_nat c) v) Vc) at 1. rewrite <- msum_plus. apply msum_ext. intros i _. cbn [last_for].
  destruct (list_eq_dec Nat.eq_dec i (map Z.to_nat c)) as [->|D].
  - rewrite Ec. rewrite (proj2 (ReaderFacts.last_for_none es c) Hn). destruct (list_eq_dec Z.eq_dec c c); [|contradiction]. ring.
  - destruct (list_eq_dec Z.eq_dec c (map Z.of_nat i)) as [->|D']; [rewrite of_nat_inj in D; contradiction|]. destruct (last_for es (map Z.of_nat i)); ring.
Qed.

Lemma rsum_rated (f : list Z * R -> R) es : rsum (fun e => if Req_EM_T (snd e) 0 then 0 else f e) es = rsum f (rated es).
Proof. induction es as [|e es IH]; [reflexivity|]. rewrite rsum_cons, IH. cbn [rated filter]. fold (rated es). destruct (Req_EM_T (snd e) 0); [ring|reflexivity]. Qed.
Lemma rsum_one es : rsum (fun _ => 1) es = INR (length es).
Proof. induction es as [|e es IH]; [reflexivity|]. cbn [length]. rewrite S_INR, rsum_cons, IH. ring. Qed.
Lemma rsum_ext f g es : (forall e, In e es -> f e = g e) -> rsum f es = rsum g es.
Proof. induction es as [|e es IH]; intros H; [reflexivity|]. rewrite !rsum_cons, (H e) by (left; reflexivity). f_equal. apply IH. intros; apply H; right; assumption. Qed.

Lemma measured_reports es (X F : tensor R) m : NoDup (map fst es) -> (forall e, In e es -> in_range (shp X) (fst e)) -> holds_file es X -> shp F = shp X ->
  measured X F m -> reports es F (m_loss m, m_rel m).
Proof.
  intros ND HR HX SF (M1 & _ & M3). unfold reports. cbn [fst snd]. rewrite M1, M3.
  assert (S : forall g : list nat -> R -> R, (forall i, g i 0 = 0) -> msum (shp X) (fun i => g i (get X i)) = rsum (fun e => g (map Z.to_nat (fst e)) (snd e)) es).
  { intros g G0. rewrite <- (msum_rows (shp X) g es ND HR). apply msum_ext. intros i Hi. rewrite (HX i Hi). destruct (last_for es (map Z.of_nat i)); [reflexivity|apply G0]. }
  assert (Z0 : forall x : R, (if Req_EM_T 0 0 then 0 else x) = 0) by (intros x; destruct (Req_EM_T 0 0); [reflexivity|contradiction]).
  split.
  - f_equal. f_equal.
    + etransitivity; [apply (S (fun i v => if Req_EM_T v 0 then 0 else (v - get F i)²)); intros; apply Z0|]. apply (rsum_rated (fun e => (miss F e)²)).
    + etransitivity; [apply (S (fun i v => if Req_EM_T v 0 then 0 else 1)); intros; apply Z0|]. etransitivity; [apply (rsum_rated (fun _ => 1))|apply rsum_one].
  - f_equal; f_equal.
    + unfold off_list, sqdist. rewrite SF. transitivity (msum (shp X) (fun i => match last_for es (map Z.of_nat i) with Some v => (v - get F i)² | None => 0 end + match last_for es (map Z.of_nat i) with Some _ => 0 | None => (get F i)² end)).
      * apply msum_ext. intros i Hi. rewrite (HX i Hi). destruct (last_for es (map Z.of_nat i)); unfold Rsqr; ring.
      * rewrite msum_plus, (msum_rows (shp X) (fun i v => (v - get F i)²) es ND HR). reflexivity.
    + apply (S (fun _ v => v²)). intros _. unfold Rsqr. ring.
Qed.

Lemma metrics_shape (X F : tensor R) m : metrics_of X F = Ok m -> shp F = shp X.
Proof.
  intros H. unfold metrics_of in H. destruct (list_eq_dec Nat.eq_dec (shp X) (shp F)) as [E|D]; [congruence|].
  rewrite (rmse_iz_shape X F D) in H. discriminate H.
Qed.

Lemma scores_ok es X args steps os p h : file_of es X -> h = map entry os -> (forall k ob, nth_error os k = Some ob -> metrics_of X (ob_full ob) = Ok (ob_met ob)) ->
  full_of_last_validation args steps os p -> scores es args os p h.
Proof.
  intros (WX & ND & HR & HX) -> HM (j & o & Hj & Hv & Hmax & Hf).
  assert (R1 : forall k ob, nth_error os k = Some ob -> reports es (ob_full ob) (entry ob)).
  { intros k ob Hk. pose proof (HM k ob Hk) as E. apply (measured_reports es X); auto; [exact (metrics_shape _ _ _ E)|apply metrics_R; auto]. }
  split; [reflexivity|]. split.
  - intros k ob Hk. exists (entry ob). split; [apply map_nth_error; exact Hk|exact (R1 k ob Hk)].
  - exists j, (ob_full o), (entry o). split; [exact Hf|]. split; [apply map_nth_error; exact Hj|]. split; [exact (R1 j o Hj)|].
    intros V1. rewrite map_length. assert (L : (j < length os)%nat) by (apply nth_error_Some; congruence).
    destruct (Nat.eq_dec (length os) (S j)) as [E|D]; [exact E|]. exfalso. apply (Hmax (S j)); [lia|].
    right. right. right. rewrite V1. split; [discriminate|]. split; [discriminate|]. exists (Z.of_nat (S j + 1)). lia.
Qed.

Lemma scores_cp es X pinv w o rnd steps o' h : file_of es X -> cp_train pinv X w o rnd steps = (o', Ok h) ->
  exists args rank id os, o_built o = Some ((args, rank), id) /\ als_run (cp_run pinv X rank) rnd os /\ scores es args os (o_pub o') h.
Proof.
  intros HF H. apply train_ok in H as ([args rank] & id & p & p' & Hb & _ & _ & H & ->).
  bodies H. apply als_body_ok in H as (s0 & os & Hi & (st & Hst & Hr) & Hh & [Hn Hs] & (_ & _ & Hf & Hfull) & _). simpl in *.
  assert (Hne : os <> []) by (destruct os; [simpl in Hn; lia|discriminate]).
  exists args, rank, id, os. split; [exact Hb|]. split; [injection Hi as ->; exists st; auto|].
  apply (scores_ok es X args steps os p' h HF Hh); [|exact (Hfull Hne)]. intros k ob Hk. apply Hr in Hk. apply cp_run_obs in Hk as (lam & _ & _ & _ & E). exact E.
Qed.
Lemma scores_hooi es X svdU w o rnd steps o' h : file_of es X -> hooi_train svdU X w o rnd steps = (o', Ok h) ->
  exists args ranks id A0 os, o_built o = Some ((args, ranks), id) /\ hooi_init svdU X ranks = Ok A0 /\ als_run (hooi_run svdU X ranks) A0 os /\ scores es args os (o_pub o') h.
Proof.
  intros HF H. apply train_ok in H as ([args rank] & id & p & p' & Hb & _ & _ & H & ->).
  bodies H. apply als_body_ok in H as (s0 & os & Hi & (st & Hst & Hr) & Hh & [Hn Hs] & (_ & _ & Hf & Hfull) & _). simpl in *.
  assert (Hne : os <> []) by (destruct os; [simpl in Hn; lia|discriminate]).
  exists args, rank, id, s0, os. split; [exact Hb|]. split; [exact Hi|]. split; [exists st; auto|].
  apply (scores_ok es X args steps os p' h HF Hh); [|exact (Hfull Hne)]. intros k ob Hk. apply Hr in Hk. apply hooi_run_obs in Hk as (lam & _ & _ & _ & E). exact E.
Qed.
Lemma scores_ncp es X pow svals w o rnd steps o' h : file_of es X -> ncp_train pow svals X w o rnd steps = (o', Ok h) ->
  exists args rank id os, o_built o = Some ((args, rank), id) /\
    bcu_run (ncp_run svals X) (fun s => Ok (s, None)) ncp_accept (fun s => Ok (ncp_reject s)) (ncp_init pow X rnd) os /\ scores es args os (o_pub o') h.
Proof.
  intros HF H. apply train_ok in H as ([args rank] & id & p & p' & Hb & _ & _ & H & ->).
  bodies H. apply bcu_body_ok in H as (s0 & os & p1 & Hi & (st & Hst & Hr) & (Hh & [Hn Hs] & (_ & _ & Hf & Hfull) & _) & -> & _). simpl in *.
  assert (Hne : os <> []) by (destruct os; [simpl in Hn; lia|discriminate]).
  exists args, rank, id, os. split; [exact Hb|]. split; [injection Hi as ->; exists st; auto|].
  apply (scores_ok es X args steps os p1 h HF Hh); [|exact (Hfull Hne)]. intros k ob Hk. apply Hr in Hk as (s1 & c & s2 & _ & Ho & _). apply ncp_run_obs in Ho as (lam & _ & _ & _ & _ & E). exact E.
Qed.
Lemma scores_nt es X pow svals w o rnd steps o' h : file_of es X -> nt_train pow svals X w o rnd steps = (o', Ok h) ->
  exists args id os, o_built o = Some (args, id) /\
    bcu_run (nt_factors svals X) (nt_pre svals X) nt_accept (fun s => Ok (nt_reject s)) (nt_init pow X (fst rnd) (snd rnd)) os /\ scores es args os (o_pub o') h.
Proof.
  intros HF H. apply train_ok in H as (args & id & p & p' & Hb & _ & _ & H & ->).
  bodies H. apply bcu_body_ok in H as (s0 & os & p1 & Hi & (st & Hst & Hr) & (Hh & [Hn Hs] & (_ & _ & Hf & Hfull) & _) & -> & _). simpl in *.
  assert (Hne : os <> []) by (destruct os; [simpl in Hn; lia|discriminate]).
  exists args, id, os. split; [exact Hb|]. split; [injection Hi as ->; exists st; auto|].
  apply (scores_ok es X args steps os p1 h HF Hh); [|exact (Hfull Hne)]. intros k ob Hk. apply Hr in Hk as (s1 & c & s2 & _ & Ho & _). apply nt_run_obs in Ho as (_ & _ & _ & _ & E). exact E.
Qed.

(** reading the file *)
Lemma file_reads (py_float : list ascii -> option R) path t s (es : ratings) : rating_file py_float path t s es ->
  exists X, read_text py_float path t (Some (map Z.of_nat s)) = Ok X /\ shp X = s /\ file_of es X.
Proof.
  intros (Hp & Hs & He & ND & HR & rows & Ht & Hr).
  assert (Hne : es <> []) by (intros ->; apply He; reflexivity).
  destruct (c93_given py_float path t rows (length s) es s Hp Ht) as (X & E & W & SX & G); auto.
  { destruct s; [contradiction|cbn; lia]. }
  exists X. split; [exact E|]. split; [exact SX|]. unfold file_of, holds_file. rewrite SX. auto.
Qed.
