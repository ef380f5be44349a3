(** When csv.reader fails, what int accepts, and reading whole files (C93). *)

From Coq Require Import String Ascii ZArith List Bool Arith Lia.
From Verif Require Import Num Py Tensor TF TensorFacts TFFacts Reader SpecReader ReaderFacts Csv SpecCsv CsvFacts.
Import ListNotations.
Open Scope nat_scope.
Open Scope list_scope.

(** ** csv.reader fails on null characters only *)
Lemma process_total p c : p_st p <> EatCrnl -> exists p', process p c = Ok p' /\ (c <> Some NL -> c <> Some CR -> p_st p' <> EatCrnl).
Proof.
  intros H. unfold process. destruct (p_st p) eqn:E; [| | | | |congruence].
  all: destruct c as [c|]; [|eexists; split; [reflexivity|]; intros; cbn; congruence].
  all: unfold start_field; repeat match goal with |- context [if ?b then _ else _] => let B := fresh "B" in destruct b eqn:B end.
  all: eexists; (split; [reflexivity|]); intros K1 K2; cbn; try discriminate.
  all: exfalso; repeat match goal with H : is_eol _ = true |- _ => apply orb_prop in H as [H|H]; apply Ascii.eqb_eq in H; subst end; congruence.
Qed.
Lemma process_end p : exists p', process p None = Ok p' /\ p_st p' <> EatCrnl.
Proof. unfold process. destruct (p_st p) eqn:E; eexists; (split; [reflexivity|]); cbn; congruence. Qed.
Lemma lines_end p : exists rows, csv_lines p [] = Ok rows.
Proof. cbn. destruct (p_st p), (p_field p); eauto. Qed.
Lemma stream_total u : forall p mid, p_st p <> EatCrnl -> ~ In CR u ->
  (In NUL u -> stream p mid u = Raise CsvError) /\ (~ In NUL u -> exists rows, stream p mid u = Ok rows).
Proof.
  induction u as [|c u IH]; intros p mid Hp HC; split.
  - intros [].
  - intros _. cbn [stream]. destruct mid; [|apply lines_end]. destruct (process_end p) as (p' & -> & _). cbn [bind]. destruct (p_st p'); eauto using lines_end.
  - intros HN. cbn [stream]. destruct (Ascii.eqb c NUL) eqn:E; [reflexivity|]. apply Ascii.eqb_neq in E. destruct HN as [HN|HN]; [congruence|].
    destruct (process_total p (Some c) Hp) as (p1 & -> & H1). cbn [bind]. assert (HC' : ~ In CR u) by (intros K; apply HC; right; auto).
    destruct (Ascii.eqb c NL) eqn:EN.
    + destruct (process_end p1) as (p2 & -> & H2). cbn [bind]. rewrite (proj1 (IH reset false ltac:(discriminate) HC') HN). cbn [bind].
      destruct (p_st p2) eqn:E2; try (apply IH; auto; congruence). reflexivity.
    + apply IH; auto. apply H1; [|intros K; injection K as ->; apply HC; left; auto]. intros K. injection K as ->. discriminate.
  - intros HN. cbn [stream]. rewrite eqb_false by (intros ->; apply HN; left; auto).
    assert (HN' : ~ In NUL u) by (intros K; apply HN; right; auto). assert (HC' : ~ In CR u) by (intros K; apply HC; right; auto).
    destruct (process_total p (Some c) Hp) as (p1 & -> & H1). cbn [bind].
    destruct (Ascii.eqb c NL) eqn:EN.
    + destruct (process_end p1) as (p2 & -> & H2). cbn [bind]. destruct (proj2 (IH reset false ltac:(discriminate) HC') HN') as (rows & ->). cbn [bind].
      destruct (p_st p2) eqn:E2; try (apply IH; auto; congruence). eauto.
    + apply IH; auto. apply H1; [|intros K; injection K as ->; apply HC; left; auto]. intros K. injection K as ->. discriminate.
Qed.
Lemma univ_spec t : ~ In CR (universal t) /\ (In NUL (universal t) <-> In NUL t).
Proof.
  assert (G : forall n t, length t <= n -> ~ In CR (universal t) /\ (In NUL (universal t) <-> In NUL t)).
  { induction n as [|n IH]; intros [|c u] Hl; cbn in Hl; try lia; try (split; [intros []|reflexivity]).
    cbn [universal]. destruct (Ascii.eqb c CR) eqn:E.
    - apply Ascii.eqb_eq in E. subst c. destruct u as [|d u].
      + split; [intros [K|[]]; discriminate|]. split; intros [K|[]]; discriminate.
      + destruct (Ascii.eqb d NL) eqn:ED.
        * apply Ascii.eqb_eq in ED. subst d. destruct (IH u ltac:(cbn in *; lia)) as [I1 I2]. split; [intros [K|K]; [discriminate|auto]|].
          split; [intros [K|K]; [discriminate|right; right; apply I2, K]|intros [K|[K|K]]; try discriminate; right; apply I2, K].
        * destruct (IH (d :: u) ltac:(cbn in *; lia)) as [I1 I2]. split; [intros [K|K]; [discriminate|auto]|].
          split; [intros [K|K]; [discriminate|right; apply I2, K]|intros [K|K]; [discriminate|right; apply I2, K]].
    - apply Ascii.eqb_neq in E. destruct (IH u ltac:(lia)) as [I1 I2]. split; [intros [K|K]; [congruence|auto]|].
      split; (intros [K|K]; [left; auto|right; apply I2, K]). }
  apply (G (length t)). apply le_n.
Qed.
Lemma csv_total t : (In nul t -> csv_rows t = Raise CsvError) /\ (~ In nul t -> exists rows, csv_rows t = Ok rows).
Proof.
  rewrite csv_stream. destruct (univ_spec t) as [H1 H2]. destruct (stream_total (universal t) reset false ltac:(discriminate) H1) as [G1 G2].
  split; [intros H; apply G1, H2, H|intros H; apply G2; rewrite H2; exact H].
Qed.

(** ** int *)
Lemma is_space_iff c : is_space c = true <-> white c.
Proof.
  unfold is_space, white. rewrite orb_true_iff, andb_true_iff, !Nat.leb_le, Nat.eqb_eq. tauto.
Qed.
Lemma digit_of_iff c d : digit_of c = Some d <-> digit c /\ d = Z.of_nat (nat_of_ascii c - 48).
Proof.
  unfold digit_of, digit. destruct (Nat.leb 48 (nat_of_ascii c) && Nat.leb (nat_of_ascii c) 57)%bool eqn:E.
  - apply andb_prop in E as [E1 E2]. apply Nat.leb_le in E1, E2. split; [intros K; injection K as <-; auto|intros [_ ->]; reflexivity].
  - split; [discriminate|]. intros [[K1 K2] _]. apply Nat.leb_le in K1, K2. rewrite K1, K2 in E. discriminate.
Qed.
Lemma digit_of_none c : digit_of c = None <-> ~ digit c.
Proof.
  destruct (digit_of c) as [d|] eqn:E.
  - apply digit_of_iff in E. split; [discriminate|tauto].
  - split; auto. intros _ K. rewrite (proj2 (digit_of_iff c _) (conj K eq_refl)) in E. discriminate.
Qed.
Lemma white_not_digit c : white c -> ~ digit c.
Proof. unfold white, digit. lia. Qed.
Lemma under_not : ~ digit "_"%char /\ ~ white "_"%char.
Proof. unfold white, digit. cbn. lia. Qed.
Lemma lstrip_split s : exists w, s = w ++ lstrip s /\ (forall c, In c w -> white c) /\ match lstrip s with [] => True | c :: _ => ~ white c end.
Proof.
  induction s as [|c s (w & E & Hw & Hh)]; [exists []; repeat split; intros ? []|]. cbn [lstrip]. destruct (is_space c) eqn:Ec.
  - exists (c :: w). cbn [app]. rewrite <- E. split; [reflexivity|]. split; [|exact Hh]. intros d [<-|Hd]; [apply is_space_iff, Ec|auto].
  - exists []. split; [reflexivity|]. split; [intros ? []|]. rewrite <- is_space_iff. congruence.
Qed.
Lemma lstrip_app w s : (forall c, In c w -> white c) -> lstrip (w ++ s) = lstrip s.
Proof. induction w as [|c w IH]; intros H; [reflexivity|]. cbn [app lstrip]. rewrite (proj2 (is_space_iff c)) by (apply H; left; auto). apply IH. intros; apply H; right; auto. Qed.
Lemma lstrip_white w : (forall c, In c w -> white c) -> lstrip w = [].
Proof. intros H. pose proof (lstrip_app w [] H) as E. rewrite app_nil_r in E. exact E. Qed.
Lemma lstrip_nil w : lstrip w = [] -> forall c, In c w -> white c.
Proof. intros E. destruct (lstrip_split w) as (w' & Hs & Hw & _). rewrite E, app_nil_r in Hs. subst w'. exact Hw. Qed.

Definition groups (first_empty : bool) (g0 : text) (gs : list text) : Prop :=
  (first_empty = false -> g0 <> []) /\ (forall c, In c g0 -> digit c) /\ (forall g, In g gs -> g <> [] /\ forall c, In c g -> digit c).
Lemma join_cons sep s l : join sep (s :: l) = s ++ match l with [] => [] | _ => sep ++ join sep l end.
Proof. destruct l; cbn [join]; [rewrite app_nil_r|]; reflexivity. Qed.
Lemma decimal_app a b : decimal (a ++ b) = (decimal a * 10 ^ Z.of_nat (length b) + decimal b)%Z.
Proof.
  induction a as [|c a IH]; [reflexivity|]. cbn [app decimal]. rewrite IH, app_length, Nat2Z.inj_add, Z.pow_add_r by lia. ring.
Qed.

Lemma digits_fwd s : forall acc fl v, int_digits s acc fl = Some v ->
  exists g0 gs w, groups fl g0 gs /\ s = join ["_"%char] (g0 :: gs) ++ w /\ (forall c, In c w -> white c) /\
    v = (acc * 10 ^ Z.of_nat (length (concat (g0 :: gs))) + decimal (concat (g0 :: gs)))%Z.
Proof.
  induction s as [|c s IH]; intros acc fl v H; cbn [int_digits] in H.
  - destruct fl; [|discriminate]. injection H as <-. exists [], [], []. split; [split; [discriminate|split; intros ? []]|]. split; [reflexivity|]. split; [intros ? []|]. cbn. lia.
  - destruct (digit_of c) as [d|] eqn:Ed.
    + apply digit_of_iff in Ed as [Hd ->]. destruct (IH _ _ _ H) as (g0 & gs & w & (G1 & G2 & G3) & -> & Hw & ->).
      exists (c :: g0), gs, w. split; [split; [discriminate|split; [intros e [<-|He]; auto|exact G3]]|].
      split; [rewrite !join_cons; reflexivity|]. split; [exact Hw|]. cbn [concat app length decimal]. rewrite Nat2Z.inj_succ, Z.pow_succ_r by lia. ring.
    + destruct fl; [|discriminate]. destruct (Ascii.eqb c "_"%char) eqn:Eu.
      * apply Ascii.eqb_eq in Eu. subst c. destruct (IH _ _ _ H) as (g0 & gs & w & (G1 & G2 & G3) & -> & Hw & ->).
        exists [], (g0 :: gs), w. split; [split; [discriminate|split; [intros ? []|]]|].
        { intros g [<-|Hg]; [split; [apply G1; reflexivity|exact G2]|apply G3, Hg]. }
        split; [reflexivity|]. split; [exact Hw|reflexivity].
      * destruct (is_space c) eqn:Es; [|discriminate]. destruct (lstrip s) as [|] eqn:El; [|discriminate]. injection H as <-.
        exists [], [], (c :: s). split; [split; [discriminate|split; intros ? []]|]. split; [reflexivity|].
        split; [intros e [<-|He]; [apply is_space_iff, Es|apply (lstrip_nil s El e He)]|]. cbn. lia.
Qed.
Lemma digits_bwd s : forall acc fl g0 gs w, groups fl g0 gs -> s = join ["_"%char] (g0 :: gs) ++ w -> (forall c, In c w -> white c) ->
  int_digits s acc fl = Some (acc * 10 ^ Z.of_nat (length (concat (g0 :: gs))) + decimal (concat (g0 :: gs)))%Z.
Proof.
  induction s as [|c s IH]; intros acc fl g0 gs w (G1 & G2 & G3) E Hw; cbn [int_digits].
  - destruct g0 as [|d g0]; [|rewrite join_cons in E; discriminate E]. destruct gs as [|g gs]; [|rewrite join_cons in E; discriminate E].
    destruct fl; [|exfalso; apply G1; reflexivity]. cbn. f_equal. lia.
  - destruct g0 as [|d g0].
    + destruct fl; [|exfalso; apply G1; reflexivity]. destruct gs as [|g gs].
      * cbn [join app] in E. subst w. pose proof (Hw c (or_introl eq_refl)) as Hc. rewrite (proj2 (digit_of_none c)) by (apply white_not_digit, Hc).
        rewrite (eqb_false c "_"%char) by (intros ->; apply (proj2 under_not), Hc). rewrite (proj2 (is_space_iff c) Hc).
        rewrite lstrip_white by (intros; apply Hw; right; auto). cbn. f_equal. lia.
      * rewrite join_cons in E. cbn [app] in E. injection E as -> E.
        rewrite (proj2 (digit_of_none "_"%char)) by apply under_not. change (Ascii.eqb "_"%char "_"%char) with true. cbn iota.
        destruct (G3 g (or_introl eq_refl)) as [N1 N2].
        rewrite (IH acc false g gs w); [reflexivity| |exact E|exact Hw]. split; [intros _; exact N1|]. split; [exact N2|]. intros; apply G3; right; auto.
    + rewrite join_cons in E. cbn [app] in E. injection E as -> E.
      rewrite (proj2 (digit_of_iff d _) (conj (G2 d (or_introl eq_refl)) eq_refl)).
      rewrite (IH _ true g0 gs w); [|split; [discriminate|split; [intros; apply G2; right; auto|exact G3]]|rewrite join_cons; exact E|exact Hw].
      cbn [concat app length decimal]. rewrite Nat2Z.inj_succ, Z.pow_succ_r by lia. f_equal. ring.
Qed.

Lemma sign_not : ~ digit "+"%char /\ ~ digit "-"%char /\ ~ white "+"%char /\ ~ white "-"%char.
Proof. unfold white, digit. cbn. lia. Qed.
Lemma digits_text fl g0 gs : groups fl g0 gs -> fl = false -> (g0 :: gs) <> [] /\ forall g, In g (g0 :: gs) -> g <> [] /\ forall c, In c g -> digit c.
Proof. intros (G1 & G2 & G3) Hf. split; [discriminate|]. intros g [<-|Hg]; [split; auto|auto]. Qed.

Theorem py_int_iff s z : py_int s = Some z <-> int_text s z.
Proof.
  split.
  - intros H. unfold py_int in H. destruct (lstrip_split s) as (w & E & Hw & Hh). destruct (lstrip s) as [|c r]; [discriminate|].
    destruct (Ascii.eqb c "-"%char) eqn:E1; [|destruct (Ascii.eqb c "+"%char) eqn:E2].
    + apply Ascii.eqb_eq in E1. subst c. destruct (int_digits r 0%Z false) as [v|] eqn:Ev; [|discriminate]. injection H as <-.
      destruct (digits_fwd r _ _ _ Ev) as (g0 & gs & w2 & G & -> & Hw2 & ->). destruct (digits_text false g0 gs G eq_refl) as [D1 D2].
      exists w, ["-"%char], (g0 :: gs), w2. split; [exact Hw|]. split; [exact Hw2|]. split; [auto|]. split; [exact D1|]. split; [exact D2|]. split; [exact E|].
      destruct (list_eq_dec ascii_dec ["-"%char] ["-"%char]); [|congruence]. reflexivity.
    + apply Ascii.eqb_eq in E2. subst c. destruct (digits_fwd r _ _ _ H) as (g0 & gs & w2 & G & -> & Hw2 & ->). destruct (digits_text false g0 gs G eq_refl) as [D1 D2].
      exists w, ["+"%char], (g0 :: gs), w2. split; [exact Hw|]. split; [exact Hw2|]. split; [auto|]. split; [exact D1|]. split; [exact D2|]. split; [exact E|].
      destruct (list_eq_dec ascii_dec ["+"%char] ["-"%char]) as [K|]; [discriminate|]. reflexivity.
    + destruct (digits_fwd (c :: r) _ _ _ H) as (g0 & gs & w2 & G & Es & Hw2 & ->). destruct (digits_text false g0 gs G eq_refl) as [D1 D2].
      exists w, [], (g0 :: gs), w2. split; [exact Hw|]. split; [exact Hw2|]. split; [auto|]. split; [exact D1|]. split; [exact D2|]. split; [rewrite E, Es; reflexivity|].
      destruct (list_eq_dec ascii_dec [] ["-"%char]) as [K|]; [discriminate|]. reflexivity.
  - intros (w1 & sg & gs & w2 & Hw1 & Hw2 & Hsg & Hgs & Hg & -> & ->). unfold py_int. rewrite lstrip_app by exact Hw1.
    destruct gs as [|g0 gs]; [congruence|]. clear Hgs. destruct (Hg g0 (or_introl eq_refl)) as [N0 D0].
    assert (G : groups false g0 gs) by (split; [auto|split; [exact D0|intros; apply Hg; right; auto]]).
    pose proof (digits_bwd _ 0%Z false g0 gs w2 G eq_refl Hw2) as B. rewrite Z.mul_0_l, Z.add_0_l in B.
    destruct Hsg as [-> | [-> | -> ]].
    + cbn [app]. destruct g0 as [|d g0]; [congruence|]. rewrite join_cons in *. cbn [app] in *. pose proof (D0 d (or_introl eq_refl)) as Hd. cbn [lstrip].
      destruct (is_space d) eqn:Es; [apply is_space_iff in Es; destruct (white_not_digit d Es Hd)|].
      rewrite (eqb_false d "-"%char), (eqb_false d "+"%char) by (intros ->; destruct sign_not as (Q1 & Q2 & _); tauto). rewrite B.
      destruct (list_eq_dec ascii_dec [] ["-"%char]) as [K|]; [discriminate|]. reflexivity.
    + cbn [app lstrip]. change (is_space "+"%char) with false. cbn iota. change (Ascii.eqb "+"%char "-"%char) with false. change (Ascii.eqb "+"%char "+"%char) with true. cbn iota. etransitivity; [exact B|].
      destruct (list_eq_dec ascii_dec ["+"%char] ["-"%char]) as [K|]; [discriminate|]. reflexivity.
    + cbn [app lstrip]. change (is_space "-"%char) with false. cbn iota. change (Ascii.eqb "-"%char "-"%char) with true. cbn iota. etransitivity; [exact (f_equal (option_map Z.opp) B)|].
      destruct (list_eq_dec ascii_dec ["-"%char] ["-"%char]); [reflexivity|congruence].
Qed.

(** a way to write integers, for the examples *)
Fixpoint show_digits (n : nat) (z : Z) : list ascii :=
  match n with
  | O => []
  | S n => if (z <? 10)%Z then [ascii_of_nat (48 + Z.to_nat z)]
           else show_digits n (z / 10)%Z ++ [ascii_of_nat (48 + Z.to_nat (z mod 10))]
  end.
Definition show_int (z : Z) : list ascii :=
  if (z <? 0)%Z then "-"%char :: show_digits (S (Z.to_nat (- z))) (- z)%Z else show_digits (S (Z.to_nat z)) z.
Lemma show_digits_ok n : forall z, (0 <= z < 10 ^ Z.of_nat (S n))%Z ->
  show_digits (S n) z <> [] /\ (forall c, In c (show_digits (S n) z) -> digit c) /\ decimal (show_digits (S n) z) = z.
Proof.
  assert (D : forall k, k < 10 -> digit (ascii_of_nat (48 + k)) /\ nat_of_ascii (ascii_of_nat (48 + k)) = 48 + k).
  { intros k Hk. unfold digit. rewrite nat_ascii_embedding by lia. lia. }
  assert (Base : forall z, (0 <= z < 10)%Z -> forall c, In c [ascii_of_nat (48 + Z.to_nat z)] -> digit c).
  { intros z Hz c [<-|[]]. apply D. lia. }
  assert (Bv : forall z, (0 <= z < 10)%Z -> decimal [ascii_of_nat (48 + Z.to_nat z)] = z).
  { intros z Hz. cbn [decimal length]. rewrite (proj2 (D (Z.to_nat z) ltac:(lia))). replace (48 + Z.to_nat z - 48) with (Z.to_nat z) by lia. rewrite Z2Nat.id by lia. change (10 ^ Z.of_nat 0)%Z with 1%Z. lia. }
  induction n as [|n IH]; intros z Hz; [cbn [show_digits]|remember (S n) as m eqn:Em; cbn [show_digits]]; destruct (z <? 10)%Z eqn:E.
  - apply Z.ltb_lt in E. split; [discriminate|]. split; [apply Base; lia|apply Bv; lia].
  - apply Z.ltb_ge in E. change (10 ^ Z.of_nat 1)%Z with 10%Z in Hz. lia.
  - apply Z.ltb_lt in E. split; [discriminate|]. split; [apply Base; lia|apply Bv; lia].
  - subst m. rewrite Nat2Z.inj_succ, Z.pow_succ_r in Hz by lia.
    pose proof (Z.div_mod z 10 ltac:(lia)) as DM. pose proof (Z.mod_pos_bound z 10 ltac:(lia)) as M.
    destruct (IH (z / 10)%Z) as (N0 & Hd & Ed); [split; [apply Z.div_pos; lia|apply Z.div_lt_upper_bound; lia]|].
    split; [destruct (show_digits (S n) (z / 10)); discriminate|]. split.
    + intros c Hc. apply in_app_iff in Hc as [Hc|Hc]; [auto|]. apply (Base (z mod 10)%Z); auto.
    + rewrite decimal_app, Ed, Bv by lia. cbn [length]. change (10 ^ Z.of_nat 1)%Z with 10%Z. lia.
Qed.
Lemma show_digits_at z : (0 <= z)%Z -> let ds := show_digits (S (Z.to_nat z)) z in ds <> [] /\ (forall c, In c ds -> digit c) /\ decimal ds = z.
Proof.
  intros Hz. apply show_digits_ok. split; [lia|]. apply Z.lt_le_trans with (10 ^ Z.of_nat (Z.to_nat z))%Z; [rewrite Z2Nat.id by lia; apply Z.pow_gt_lin_r; lia|].
  apply Z.pow_le_mono_r; lia.
Qed.
Lemma digit_plain c : digit c -> c <> comma /\ c <> newline /\ c <> return_ /\ c <> nul /\ c <> quote.
Proof. unfold digit. intros H. repeat split; intros ->; cbn in H; lia. Qed.
Lemma show_int_ok z : int_text (show_int z) z /\ plain (show_int z).
Proof.
  unfold show_int. destruct (z <? 0)%Z eqn:Hz; [apply Z.ltb_lt in Hz|apply Z.ltb_ge in Hz].
  - destruct (show_digits_at (- z)%Z ltac:(lia)) as (N0 & Hd & E). set (ds := show_digits _ _) in *. split.
    + exists [], ["-"%char], [ds], []. split; [intros ? []|]. split; [intros ? []|]. split; [auto|]. split; [discriminate|].
      split; [intros g [<-|[]]; auto|]. split; [cbn; rewrite app_nil_r; reflexivity|]. destruct (list_eq_dec _ _ _); [|congruence]. cbn [concat]. rewrite app_nil_r, E. lia.
    + split; [|cbn; intros K; discriminate]. intros c [<-|Hc]; [repeat split; intros K; discriminate|]. apply Hd, digit_plain in Hc. tauto.
  - destruct (show_digits_at z ltac:(lia)) as (N0 & Hd & E). set (ds := show_digits _ _) in *. split.
    + exists [], [], [ds], []. split; [intros ? []|]. split; [intros ? []|]. split; [auto|]. split; [discriminate|].
      split; [intros g [<-|[]]; auto|]. split; [cbn; rewrite app_nil_r; reflexivity|]. destruct (list_eq_dec _ _ _) as [K|]; [discriminate|]. cbn [concat]. rewrite app_nil_r, E. reflexivity.
    + split; [intros c Hc; apply Hd, digit_plain in Hc; tauto|]. destruct ds as [|c ds']; [congruence|]. cbn [hd]. apply (digit_plain c), Hd. left; reflexivity.
Qed.

(** ** files *)
Section Read.
  Context {T : Type} {N : Num T}.
  Variable py_float : text -> option T.
  Let type_ok path := after_last_dot path "csv" \/ after_last_dot path "txt".

  Lemma read_text_rows path rows t fs : type_ok path -> file_text rows t -> read_text py_float path t fs = read py_int py_float path rows fs.
  Proof.
    intros Hp Ht. unfold read_text. rewrite (csv_reads rows t Ht). cbn [bind].
    assert (E : (String.eqb (file_type path) "csv" || String.eqb (file_type path) "txt")%bool = true).
    { destruct Hp as [Hp|Hp]; apply file_type_iff in Hp; rewrite Hp; reflexivity. }
    rewrite E. reflexivity.
  Qed.
  Lemma says_lists order row e : row_says py_float order row e -> row_lists py_int py_float order row e.
  Proof.
    intros (cs & v & -> & Hl & HF & Hv). exists cs, v. split; [reflexivity|]. split; [|auto].
    clear - HF. induction HF; constructor; auto. apply py_int_iff. auto.
  Qed.
  Lemma says_rows order rows es : Forall2 (row_says py_float order) rows es -> Forall2 (row_lists py_int py_float order) rows es.
  Proof. induction 1; constructor; auto using says_lists. Qed.

  Lemma c93_given path t rows order es s : type_ok path -> file_text rows t -> 0 < order -> es <> [] ->
    Forall2 (row_says py_float order) (nonblank rows) es -> length s = order -> (forall e, In e es -> in_range s (fst e)) ->
    exists X, read_text py_float path t (Some (map Z.of_nat s)) = Ok X /\ wf X /\ shp X = s /\
      forall idx, valid s idx -> get X idx = match last_for es (map Z.of_nat idx) with Some v => v | None => n0 end.
  Proof. intros Hp Ht Ho He HF Hs Hr. rewrite (read_text_rows path rows t _ Hp Ht). apply (read_given py_int py_float path rows order); auto using says_rows. Qed.
  Lemma c93_inferred path t rows order es : type_ok path -> file_text rows t -> 0 < order -> es <> [] ->
    Forall2 (row_says py_float order) (nonblank rows) es -> (forall e z, In e es -> In z (fst e) -> (0 <= z)%Z) ->
    exists X, read_text py_float path t None = Ok X /\ wf X /\ max_plus_one order es (shp X) /\
      forall idx, valid (shp X) idx -> get X idx = match last_for es (map Z.of_nat idx) with Some v => v | None => n0 end.
  Proof. intros Hp Ht Ho He HF Hs. rewrite (read_text_rows path rows t _ Hp Ht). apply (read_inferred py_int py_float path rows order); auto using says_rows. Qed.

  (** a coordinate that is not an integer *)
  Lemma entry_not_int order row m : m < order -> order <= length row -> (forall z, ~ int_text (nth m row []) z) -> read_entry py_int py_float order row = Raise ValueError.
  Proof.
    intros Hm Hl Hz. unfold read_entry.
    assert (E : mapM (fun mode => do f <- pynth row mode; pint py_int f) (zrange order) = Raise ValueError).
    { assert (G : forall k l, l = map Z.of_nat (seq k (order - k)) -> k <= m -> mapM (fun mode => do f <- pynth row mode; pint py_int f) l = Raise ValueError).
      { intros k l -> Hk. remember (m - k) as d. revert k Hk Heqd. induction d as [|d IH]; intros k Hk Hd.
        - assert (k = m) by lia. subst k. replace (order - m) with (S (order - m - 1)) by lia. cbn [seq map mapM]. rewrite (pynth_nat row m []) by lia. cbn [bind]. unfold pint.
          destruct (py_int (nth m row [])) as [z|] eqn:Ez; [apply py_int_iff in Ez; destruct (Hz z Ez)|]. reflexivity.
        - replace (order - k) with (S (order - S k)) by lia. cbn [seq map mapM]. rewrite (pynth_nat row k []) by lia. cbn [bind]. unfold pint at 1.
          destruct (py_int (nth k row [])) as [z|]; [|reflexivity]. cbn [bind]. rewrite (IH (S k)) by lia. reflexivity. }
      apply (G 0). unfold zrange. rewrite Nat.sub_0_r. reflexivity. lia. }
    etransitivity; [exact (f_equal (fun r => do idx <- r; do lastf <- pynth row (-1); do v <- pfloat py_float lastf; Ok (idx, v)) E)|reflexivity].
  Qed.
  Lemma c93_header path t rows first rest fs m : type_ok path -> file_text rows t -> nonblank rows = first :: rest ->
    m < length first - 1 -> (forall z, ~ int_text (nth m first []) z) -> read_text py_float path t fs = Raise ValueError.
  Proof.
    intros Hp Ht Hn Hm Hz. rewrite (read_text_rows path rows t _ Hp Ht). unfold read. rewrite nonblank_filter, Hn.
    assert (E : (String.eqb (file_type path) "csv" || String.eqb (file_type path) "txt")%bool = true).
    { destruct Hp as [Hp|Hp]; apply file_type_iff in Hp; rewrite Hp; reflexivity. }
    rewrite E. change (pynth (first :: rest) 0) with (@Ok (list text) first). cbn [bind mapM].
    rewrite (entry_not_int (length first - 1) first m Hm ltac:(lia) Hz). reflexivity.
  Qed.

  Lemma c93_bad_value path t rows cs v rest fs : type_ok path -> file_text rows t -> nonblank rows = (cs ++ [v]) :: rest ->
    py_float v = None -> read_text py_float path t fs = Raise ValueError.
  Proof.
    intros Hp Ht Hn Hv. rewrite (read_text_rows path rows t _ Hp Ht). unfold read. rewrite nonblank_filter, Hn.
    assert (E : (String.eqb (file_type path) "csv" || String.eqb (file_type path) "txt")%bool = true).
    { destruct Hp as [Hp|Hp]; apply file_type_iff in Hp; rewrite Hp; reflexivity. }
    rewrite E. change (pynth ((cs ++ [v]) :: rest) 0) with (Ok (cs ++ [v])). cbn [bind mapM].
    assert (G : read_entry py_int py_float (length (cs ++ [v]) - 1) (cs ++ [v]) = Raise ValueError); [|rewrite G; reflexivity].
    unfold read_entry. destruct (mapM _ (zrange _)) as [idx|e] eqn:Em; cbn [bind].
    - change (-1)%Z with (- Z.of_nat 1)%Z. rewrite (pynth_neg _ 1 []) by (rewrite app_length; cbn; lia).
      rewrite app_length. cbn [length]. rewrite app_nth2 by lia. replace (length cs + 1 - 1 - length cs) with 0 by lia. cbn [nth bind]. unfold pfloat. rewrite Hv. reflexivity.
    - apply mapM_raise in Em as (z & Hz & Em). unfold zrange in Hz. apply in_map_iff in Hz as (k & <- & Hk). apply in_seq in Hk.
      rewrite (pynth_nat _ k []) in Em by lia. cbn [bind] in Em. unfold pint in Em. destruct (py_int _); congruence.
  Qed.
  Lemma c93_bad_row path t rows first rest row fs m : type_ok path -> file_text rows t -> nonblank rows = first :: rest ->
    In row (first :: rest) -> m < length first - 1 -> (forall z, ~ int_text (nth m row []) z) -> forall X, read_text py_float path t fs <> Ok X.
  Proof.
    intros Hp Ht Hn Hr Hm Hz X. rewrite (read_text_rows path rows t _ Hp Ht). intros K. unfold read in K. destruct (_ || _)%bool; [|discriminate].
    rewrite nonblank_filter, Hn in K. change (pynth (first :: rest) 0) with (Ok first) in K. cbn [bind] in K.
    apply bind_ok in K as (es & K & _). revert K. apply mapM_bad with (x := row); [exact Hr|]. intros y Ky.
    unfold read_entry in Ky. apply bind_ok in Ky as (idx & Ky & _). revert Ky. apply mapM_bad with (x := Z.of_nat m); [unfold zrange; apply in_map, in_seq; lia|].
    intros z Kz. destruct (Nat.lt_ge_cases m (length row)) as [L|L].
    - rewrite (pynth_nat row m []) in Kz by exact L. cbn [bind] in Kz. unfold pint in Kz. destruct (py_int _) as [z'|] eqn:Ez; [|discriminate]. apply py_int_iff in Ez. destruct (Hz z' Ez).
    - rewrite pynth_nat_out in Kz by exact L. discriminate.
  Qed.
  Lemma c93_type path t fs : read_text py_float path t fs = Raise ArgumentErr <-> ~ type_ok path.
  Proof.
    subst type_ok. cbn beta. rewrite <- !file_type_iff. unfold read_text.
    destruct (String.eqb (file_type path) "csv" || String.eqb (file_type path) "txt")%bool eqn:E.
    - apply orb_prop in E as [E|E]; apply String.eqb_eq in E; (split; [|tauto]); intros K; exfalso.
      all: destruct (in_dec ascii_dec nul t) as [I|I]; [rewrite (proj1 (csv_total t) I) in K; discriminate|].
      all: destruct (proj2 (csv_total t) I) as (rows & ER); rewrite ER in K; cbn [bind] in K.
      all: apply read_type in K; apply K; rewrite <- !file_type_iff; auto.
    - apply orb_false_elim in E as [E1 E2]. apply String.eqb_neq in E1, E2. split; [intros _ [K|K]; auto|reflexivity].
  Qed.
  Lemma c93_nul path t fs : type_ok path -> (read_text py_float path t fs = Raise CsvError <-> In nul t).
  Proof.
    intros Hp. unfold read_text.
    assert (E : (String.eqb (file_type path) "csv" || String.eqb (file_type path) "txt")%bool = true).
    { destruct Hp as [Hp|Hp]; apply file_type_iff in Hp; rewrite Hp; reflexivity. }
    rewrite E. split.
    - intros K. destruct (in_dec ascii_dec nul t) as [I|I]; [exact I|]. exfalso. destruct (proj2 (csv_total t) I) as (rows & ER). rewrite ER in K. cbn [bind] in K.
      unfold read in K. rewrite E in K. destruct (pynth _ 0) as [first|e] eqn:Ef; cbn [bind] in K; [|apply pynth_raise in Ef; congruence].
      destruct (mapM _ _) as [es|e] eqn:Em; cbn [bind] in K.
      + destruct (Nat.eqb _ 0); [discriminate|]. destruct (negb _); [discriminate|]. destruct (match fs with Some _ => _ | None => _ end); [discriminate|]. apply sparse_raise in K. discriminate.
      + apply mapM_raise in Em as (x & _ & Em). apply read_entry_raise in Em as [-> | ->]; discriminate.
    - intros I. rewrite (proj1 (csv_total t) I). reflexivity.
  Qed.

  (** ** writing a file *)
  Variable show : T -> text.
  Hypothesis show_reads : forall v, py_float (show v) = Some v.
  Hypothesis show_plain : forall v, plain (show v).

  Lemma int_writable z : exists s, int_text s z /\ plain s /\ s <> [].
  Proof.
    exists (show_int z). destruct (show_int_ok z) as [A B]. split; [exact A|]. split; [exact B|]. unfold show_int.
    destruct (z <? 0)%Z eqn:E; [discriminate|]. apply Z.ltb_ge in E. exact (proj1 (show_digits_at z E)).
  Qed.
  Lemma ints_writable zs : exists cs, Forall2 int_text cs zs /\ Forall2 field_text cs cs /\ (forall c, In c cs -> c <> []).
  Proof.
    induction zs as [|z zs (cs & H1 & H2 & H3)]; [exists []; repeat split; auto; intros ? []|]. destruct (int_writable z) as (s & A & B & C).
    exists (s :: cs). split; [constructor; auto|]. split; [constructor; auto; left; auto|]. intros c [<-|Hc]; auto.
  Qed.
  Lemma F2_app {A B} (P : A -> B -> Prop) a b c d : Forall2 P a b -> Forall2 P c d -> Forall2 P (a ++ c) (b ++ d).
  Proof. intros. apply Forall2_app; auto. Qed.
  Lemma row_writable order (e : list Z * T) : 0 < order -> length (fst e) = order -> exists row s, row_says py_float order row e /\ row_text row s /\ row <> [].
  Proof.
    intros Ho Hl. destruct (ints_writable (fst e)) as (cs & H1 & H2 & H3). exists (cs ++ [show (snd e)]), (join [comma] (cs ++ [show (snd e)])).
    split; [exists cs, (show (snd e)); auto|]. split; [|destruct cs; discriminate].
    exists (cs ++ [show (snd e)]). split; [apply F2_app; [exact H2|constructor; [left; auto|constructor]]|]. split; [reflexivity|]. intros _.
    destruct cs as [|c cs]; [apply Forall2_len in H1; cbn in H1; lia|]. pose proof (H3 c (or_introl eq_refl)). destruct c; [congruence|]. destruct (cs ++ [show (snd e)]) eqn:E; [destruct cs; discriminate|]. cbn [app]. rewrite E. discriminate.
  Qed.
  Lemma c93_writable order (es : list (list Z * T)) : 0 < order -> (forall e, In e es -> length (fst e) = order) ->
    exists rows t, file_text rows t /\ Forall2 (row_says py_float order) (nonblank rows) es.
  Proof.
    intros Ho Hl.
    assert (G : exists rows ss, Forall2 row_text rows ss /\ Forall2 (row_says py_float order) rows es /\ nonblank rows = rows).
    { induction es as [|e es IH]; [exists [], []; auto|]. destruct IH as (rows & ss & A & B & C); [intros; apply Hl; right; auto|].
      destruct (row_writable order e Ho (Hl e (or_introl eq_refl))) as (row & s & R1 & R2 & R3). exists (row :: rows), (s :: ss). repeat split; [constructor; auto..|].
      destruct row; [congruence|]. unfold nonblank in *. cbn [filter]. rewrite C. reflexivity. }
    destruct G as (rows & ss & A & B & C). exists rows, (flat_map (fun s => s ++ [newline]) ss). split; [|rewrite C; exact B].
    exists [newline], ss. split; [left; reflexivity|]. auto.
  Qed.

  Lemma zmap_inj (a b : list nat) : map Z.of_nat a = map Z.of_nat b -> a = b.
  Proof. revert b. induction a as [|x a IH]; intros [|y b] H; try discriminate; [reflexivity|]. injection H as H1 H2. f_equal; [lia|auto]. Qed.
  Lemma valid_range s i : valid s i -> in_range s (map Z.of_nat i).
  Proof. induction 1; constructor; auto. lia. Qed.

  Lemma c93_roundtrip path (X : tensor T) : type_ok path -> wf X -> shp X <> [] -> (forall d, In d (shp X) -> 0 < d) ->
    exists rows t, file_text rows t /\ read_text py_float path t None = Ok X /\ read_text py_float path t (Some (map Z.of_nat (shp X))) = Ok X.
  Proof.
    intros Hp Hw Hs Hd. set (es := map (fun i => (map Z.of_nat i, get X i)) (indices (shp X))).
    assert (Hv : forall e, In e es -> exists i, valid (shp X) i /\ e = (map Z.of_nat i, get X i)).
    { intros e He. apply in_map_iff in He as (i & <- & Hi). apply in_indices in Hi. eauto. }
    assert (Ho : 0 < length (shp X)) by (destruct (shp X); [congruence|cbn; lia]).
    assert (Hl : forall e, In e es -> length (fst e) = length (shp X)).
    { intros e He. destruct (Hv e He) as (i & Vi & ->). cbn. rewrite map_length. apply Forall2_len in Vi. lia. }
    assert (ND : NoDup (map fst es)).
    { unfold es. rewrite map_map. cbn [fst]. apply FinFun.Injective_map_NoDup; [intros a b; apply zmap_inj|apply NoDup_indices]. }
    assert (Hin : forall i, valid (shp X) i -> In (map Z.of_nat i, get X i) es) by (intros i Vi; apply in_map_iff; exists i; split; [reflexivity|apply in_indices, Vi]).
    assert (Vp : valid (shp X) (map (fun d => d - 1) (shp X))).
    { clear - Hd. unfold valid. induction (shp X) as [|d s IH]; cbn; constructor; [pose proof (Hd d (or_introl eq_refl)); lia|apply IH; intros; apply Hd; right; auto]. }
    assert (Ne : es <> []) by (intros K; pose proof (Hin _ Vp) as I; rewrite K in I; destruct I).
    destruct (c93_writable _ es Ho Hl) as (rows & t & Ht & HF). exists rows, t. split; [exact Ht|]. split.
    - destruct (c93_inferred path t rows _ es Hp Ht Ho Ne HF) as (Y & -> & WY & MY & GY).
      { intros e z He Hz. destruct (Hv e He) as (i & _ & ->). cbn in Hz. apply in_map_iff in Hz as (k & <- & _). lia. }
      f_equal.
      assert (SY : shp Y = shp X).
      { eapply max_unique; [exact MY|]. split; [reflexivity|]. intros m Hm. split.
        - intros e He. destruct (Hv e He) as (i & Vi & ->). cbn [fst]. change 0%Z with (Z.of_nat 0). rewrite map_nth.
          assert (nth m i 0 < nth m (shp X) 0); [|lia]. clear - Vi Hm. revert m Hm. induction Vi; intros [|m] Hm; cbn in *; try lia. apply IHVi. lia.
        - exists (map Z.of_nat (map (fun d => d - 1) (shp X)), get X (map (fun d => d - 1) (shp X))). split; [apply Hin, Vp|]. cbn [fst].
          change 0%Z with (Z.of_nat 0). rewrite map_nth. rewrite (nth_indep _ 0 (0 - 1)) by (rewrite map_length; exact Hm). rewrite (map_nth (fun d => d - 1)).
          pose proof (Hd (nth m (shp X) 0) (nth_In _ _ Hm)). lia. }
      apply tensor_ext; auto. intros i Vi. rewrite GY by exact Vi. rewrite SY in Vi. rewrite (last_for_nodup es _ (get X i) ND (Hin i Vi)). reflexivity.
    - destruct (c93_given path t rows _ es (shp X) Hp Ht Ho Ne HF eq_refl) as (Y & -> & WY & SY & GY).
      { intros e He. destruct (Hv e He) as (i & Vi & ->). apply valid_range, Vi. }
      f_equal. apply tensor_ext; auto. intros i Vi. rewrite SY in Vi. rewrite GY by exact Vi. rewrite (last_for_nodup es _ (get X i) ND (Hin i Vi)). reflexivity.
  Qed.
End Read.

