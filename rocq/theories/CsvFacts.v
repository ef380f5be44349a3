(** The CSV state machine and int against the grammar (C93). *)

From Coq Require Import String Ascii ZArith List Bool Arith Lia.
From Verif Require Import Num Py Tensor TF Reader SpecReader ReaderFacts Csv SpecCsv.
Import ListNotations.
Open Scope nat_scope.
Open Scope list_scope.

Lemma eqb_false (c d : ascii) : c <> d -> Ascii.eqb c d = false.
Proof. apply Ascii.eqb_neq. Qed.

(** ** the machine on the stream of characters *)
Fixpoint stream (p : parser) (mid : bool) (u : text) : res (list (list text)) :=
  match u with
  | [] => if mid then do p' <- process p None;
                      match p_st p' with StartRecord => Ok [p_row p'] | _ => csv_lines p' [] end
          else csv_lines p []
  | c :: r => if Ascii.eqb c NUL then Raise CsvError else
              do p1 <- process p (Some c);
              if Ascii.eqb c NL then
                do p2 <- process p1 None;
                match p_st p2 with
                | StartRecord => do rows <- stream reset false r; Ok (p_row p2 :: rows)
                | _ => stream p2 false r
                end
              else stream p1 true r
  end.

Fixpoint steps (p : parser) (l : text) : res parser :=
  match l with [] => Ok p | c :: r => if Ascii.eqb c NUL then Raise CsvError else do p' <- process p (Some c); steps p' r end.
Lemma process_app p l m : process_chars p (l ++ m) = (do p' <- steps p l; process_chars p' m).
Proof.
  revert p. induction l as [|c l IH]; intros p; cbn [app process_chars steps bind]; [reflexivity|].
  destruct (Ascii.eqb c NUL); [reflexivity|]. destruct (process p (Some c)) as [p'|]; cbn [bind]; [apply IH|reflexivity].
Qed.
Lemma steps_app p l m : steps p (l ++ m) = (do p' <- steps p l; steps p' m).
Proof.
  revert p. induction l as [|c l IH]; intros p; cbn [app steps bind]; [reflexivity|].
  destruct (Ascii.eqb c NUL); [reflexivity|]. destruct (process p (Some c)) as [p'|]; cbn [bind]; [apply IH|reflexivity].
Qed.

Lemma lines_stream u : forall cur p,
  csv_lines p (lines_aux cur u) = (do p1 <- steps p cur; stream p1 (match cur with [] => false | _ => true end) u).
Proof.
  induction u as [|c u IH]; intros cur p; cbn [lines_aux].
  - destruct cur as [|a cur]; [reflexivity|]. cbn [csv_lines]. rewrite <- (app_nil_r (a :: cur)) at 1. rewrite process_app.
    destruct (steps p (a :: cur)) as [p1|]; cbn [bind]; [|reflexivity]. cbn [stream process_chars]. destruct (process p1 None) as [p2|]; cbn [bind]; [|reflexivity].
    destruct (p_st p2) eqn:E2; cbn [csv_lines]; rewrite ?E2; reflexivity.
  - destruct (Ascii.eqb c NL) eqn:E.
    + apply Ascii.eqb_eq in E. subst c. cbn [csv_lines]. rewrite process_app.
      destruct (steps p cur) as [p1|]; cbn [bind]; [|reflexivity]. cbn [process_chars stream]. change (Ascii.eqb NL NUL) with false. change (Ascii.eqb NL NL) with true.
      destruct (process p1 (Some NL)) as [p2|]; cbn [bind]; [|reflexivity]. destruct (process p2 None) as [p3|]; cbn [bind]; [|reflexivity].
      rewrite !IH. cbn [steps bind]. destruct (p_st p3); reflexivity.
    + rewrite IH. rewrite steps_app. destruct (steps p cur) as [p1|]; cbn [bind]; [|reflexivity]. cbn [steps stream]. destruct (Ascii.eqb c NUL); [reflexivity|].
      destruct (process p1 (Some c)) as [p2|]; cbn [bind]; [|reflexivity]. rewrite E. destruct cur; reflexivity.
Qed.
Lemma csv_stream t : csv_rows t = stream reset false (universal t).
Proof. unfold csv_rows, lines. rewrite lines_stream. reflexivity. Qed.

(** ** universal newlines *)
Lemma univ_id s : (forall c, In c s -> c <> CR) -> forall r, universal (s ++ r) = s ++ universal r.
Proof.
  induction s as [|c s IH]; intros H r; [reflexivity|]. cbn [app universal]. rewrite eqb_false by (apply H; left; auto). f_equal. apply IH. intros; apply H; right; auto.
Qed.
(** ** fields and rows *)
Definition fresh (p : parser) : Prop := p_field p = [] /\ (p_st p = StartField \/ (p_st p = StartRecord /\ p_row p = [])).
Definition ended (p : parser) (f : text) (row : list text) : Prop :=
  p_row p = row /\ p_field p = f /\
  (p_st p = InField \/ p_st p = QuoteInQuoted \/ (p_st p = StartField /\ f = [])).

Lemma run_in f : (forall c, In c f -> c <> comma /\ c <> newline /\ c <> return_ /\ c <> nul) -> forall p mid r, p_st p = InField ->
  f <> [] -> stream p mid (f ++ r) = stream (mkP InField (p_field p ++ f) (p_row p)) true r.
Proof.
  induction f as [|c f IH]; intros H p mid r Hp Hf; [congruence|]. destruct (H c (or_introl eq_refl)) as (H1 & H2 & H3 & H4).
  cbn [app stream]. rewrite (eqb_false c NUL) by exact H4. unfold process. rewrite Hp. unfold is_eol. rewrite (eqb_false c NL), (eqb_false c CR), (eqb_false c COMMA) by auto. cbn [orb bind].
  destruct f as [|d f].
  - cbn [app]. reflexivity.
  - rewrite IH; [|intros; apply H; right; auto|reflexivity|discriminate]. cbn [p_field p_row add]. rewrite <- app_assoc. reflexivity.
Qed.

Lemma run_plain f p mid r : plain f -> f <> [] -> fresh p -> stream p mid (f ++ r) = stream (mkP InField f (p_row p)) true r.
Proof.
  intros [H Hq] Hf [Fp Hs]. destruct f as [|c f]; [congruence|]. cbn [hd] in Hq. destruct (H c (or_introl eq_refl)) as (H1 & H2 & H3 & H4).
  assert (E : process p (Some c) = Ok (add p c InField)).
  { unfold process. assert (SF : start_field p c = add p c InField).
    { unfold start_field, is_eol. rewrite (eqb_false c NL), (eqb_false c CR), (eqb_false c QT), (eqb_false c COMMA) by auto. reflexivity. }
    destruct Hs as [-> | [-> _]]; rewrite SF; [reflexivity|]. unfold is_eol. rewrite (eqb_false c NL), (eqb_false c CR) by auto. reflexivity. }
  cbn [app stream]. rewrite (eqb_false c NUL) by exact H4. rewrite E. cbn [bind]. rewrite (eqb_false c NL) by auto.
  unfold add. rewrite Fp. cbn [app]. destruct f as [|d f]; [reflexivity|].
  rewrite run_in; [reflexivity|intros; apply H; right; auto|reflexivity|discriminate].
Qed.

Lemma run_quoted f : (forall c, In c f -> c <> return_ /\ c <> nul) -> forall p mid r, p_st p = InQuoted ->
  stream p mid (doubled f ++ quote :: r) = stream (mkP QuoteInQuoted (p_field p ++ f) (p_row p)) true r.
Proof.
  induction f as [|c f IH]; intros H p mid r Hp.
  - cbn [doubled flat_map app stream]. change (Ascii.eqb quote NUL) with false. unfold process. rewrite Hp. change (Ascii.eqb quote QT) with true. change (Ascii.eqb quote NL) with false.
    cbn iota. cbn [bind]. unfold goto. rewrite app_nil_r. reflexivity.
  - destruct (H c (or_introl eq_refl)) as (H3 & H4). assert (H' : forall c, In c f -> c <> return_ /\ c <> nul) by (intros; apply H; right; auto).
    change (doubled (c :: f)) with ((if Ascii.eqb c quote then [quote; quote] else [c]) ++ doubled f). rewrite <- app_assoc.
    destruct (Ascii.eqb c quote) eqn:E.
    + apply Ascii.eqb_eq in E. subst c. cbn [app stream]. change (Ascii.eqb quote NUL) with false. change (Ascii.eqb quote NL) with false. cbn iota.
      unfold process at 1. rewrite Hp. change (Ascii.eqb quote QT) with true. cbn iota. cbn [bind]. unfold process at 1. cbn [goto p_st]. change (Ascii.eqb quote QT) with true. cbn iota. cbn [bind].
      rewrite IH by auto. cbn [add goto p_field p_row]. rewrite <- app_assoc. reflexivity.
    + cbn [app stream]. rewrite (eqb_false c NUL) by auto. unfold process at 1. rewrite Hp. change QT with quote. rewrite E. cbn [bind].
      destruct (Ascii.eqb c NL) eqn:EN.
      * unfold process at 1. cbn [add p_st bind]. rewrite IH by auto. cbn [add p_field p_row]. rewrite <- app_assoc. reflexivity.
      * rewrite IH by auto. cbn [add p_field p_row]. rewrite <- app_assoc. reflexivity.
Qed.

Lemma run_field f s p mid r : field_text f s -> fresh p -> (s <> [] \/ p_st p = StartField) ->
  exists p' mid', ended p' f (p_row p) /\ (s <> [] -> mid' = true) /\ (s = [] -> mid' = mid) /\ stream p mid (s ++ r) = stream p' mid' r.
Proof.
  intros [[HP ->]|[HQ ->]] Fp Hs.
  - destruct f as [|c f].
    + exists p, mid. split; [|split; [intros K; congruence|split; [reflexivity|reflexivity]]]. destruct Fp as [F1 F2]. split; [reflexivity|]. split; [exact F1|].
      destruct Hs as [Hs|Hs]; [congruence|]. right. right. auto.
    + exists (mkP InField (c :: f) (p_row p)), true. split; [split; [reflexivity|split; [reflexivity|left; reflexivity]]|]. split; [reflexivity|]. split; [discriminate|].
      apply run_plain; auto. discriminate.
  - exists (mkP QuoteInQuoted f (p_row p)), true. split; [split; [reflexivity|split; [reflexivity|right; left; reflexivity]]|]. split; [reflexivity|]. split; [discriminate|].
    cbn [app stream]. change (Ascii.eqb quote NUL) with false. change (Ascii.eqb quote NL) with false. cbn iota.
    assert (E : process p (Some quote) = Ok (goto p InQuoted)) by (unfold process; destruct Fp as [_ [-> | [-> _]]]; reflexivity).
    rewrite E. cbn [bind]. rewrite <- app_assoc. cbn [app]. rewrite run_quoted by auto. cbn [goto p_field p_row]. rewrite (proj1 Fp). reflexivity.
Qed.

Lemma ended_comma p f row mid r : ended p f row -> stream p mid (comma :: r) = stream (mkP StartField [] (row ++ [f])) true r.
Proof.
  intros (H1 & H2 & H3). cbn [stream]. change (Ascii.eqb comma NUL) with false. change (Ascii.eqb comma NL) with false. cbn iota.
  assert (E : process p (Some comma) = Ok (mkP StartField [] (row ++ [f]))).
  { unfold process. destruct H3 as [-> | [-> | [-> _]]]; change (Ascii.eqb comma QT) with false; change (Ascii.eqb comma COMMA) with true; change (is_eol comma) with false; cbn iota;
      unfold start_field; change (Ascii.eqb comma QT) with false; change (Ascii.eqb comma COMMA) with true; change (is_eol comma) with false; cbn iota; unfold save; rewrite H1, H2; reflexivity. }
  rewrite E. reflexivity.
Qed.
Lemma ended_nl p f row mid r : ended p f row -> stream p mid (NL :: r) = (do rows <- stream reset false r; Ok ((row ++ [f]) :: rows)).
Proof.
  intros (H1 & H2 & H3). cbn [stream]. change (Ascii.eqb NL NUL) with false. change (Ascii.eqb NL NL) with true. cbn iota.
  assert (E : process p (Some NL) = Ok (mkP EatCrnl [] (row ++ [f]))).
  { unfold process. destruct H3 as [-> | [-> | [-> _]]]; change (Ascii.eqb NL QT) with false; change (Ascii.eqb NL COMMA) with false; change (is_eol NL) with true; cbn iota;
      unfold start_field; change (is_eol NL) with true; cbn iota; unfold save; rewrite H1, H2; reflexivity. }
  rewrite E. reflexivity.
Qed.
Lemma ended_end p f row : ended p f row -> stream p true [] = Ok [row ++ [f]].
Proof.
  intros (H1 & H2 & H3). cbn [stream].
  assert (E : process p None = Ok (mkP StartRecord [] (row ++ [f]))).
  { unfold process. destruct H3 as [-> | [-> | [-> _]]]; unfold save; rewrite H1, H2; reflexivity. }
  rewrite E. reflexivity.
Qed.

(** the fields of a row *)
Lemma run_row row : forall ss p mid r, Forall2 field_text row ss -> row <> [] -> fresh p -> (join [comma] ss <> [] \/ (p_st p = StartField /\ mid = true)) ->
  exists p' f done mid', ended p' f done /\ done ++ [f] = p_row p ++ row /\ mid' = true /\ stream p mid (join [comma] ss ++ r) = stream p' mid' r.
Proof.
  induction row as [|f row IH]; intros ss p mid r HF Hne Fp Hs; [congruence|]. inversion HF as [|? s ? ss' Hf HF' E1 E2]. subst.
  destruct row as [|g row].
  - inversion HF'. subst. cbn [join] in *. destruct (run_field f s p mid r Hf Fp) as (p' & mid' & He & Hm & Hm' & E).
    { destruct Hs as [Hs|[Hs _]]; auto. }
    exists p', f, (p_row p), mid'. split; [exact He|]. split; [reflexivity|]. split; [|exact E].
    destruct s as [|c s]; [|apply Hm; discriminate]. rewrite Hm' by reflexivity. destruct Hs as [Hs|[_ Hs]]; [congruence|exact Hs].
  - destruct ss' as [|s' ss']; [inversion HF'|]. change (join [comma] (s :: s' :: ss')) with (s ++ comma :: join [comma] (s' :: ss')). rewrite <- app_assoc. cbn [app].
    assert (K : exists p1, p_field p1 = [] /\ p_st p1 = StartField /\ p_row p1 = p_row p ++ [f] /\ stream p mid (s ++ comma :: join [comma] (s' :: ss') ++ r) = stream p1 true (join [comma] (s' :: ss') ++ r)).
    { exists (mkP StartField [] (p_row p ++ [f])). split; [reflexivity|]. split; [reflexivity|]. split; [reflexivity|].
      destruct s as [|c s].
      - (* an empty plain field *)
        destruct Hf as [[_ <-]|[_ K]]; [|discriminate]. cbn [app stream]. change (Ascii.eqb comma NUL) with false. change (Ascii.eqb comma NL) with false. cbn iota.
        assert (E : process p (Some comma) = Ok (mkP StartField [] (p_row p ++ [[]]))).
        { unfold process. destruct Fp as [F1 [-> | [-> _]]]; change (is_eol comma) with false; cbn iota;
            unfold start_field; change (Ascii.eqb comma QT) with false; change (Ascii.eqb comma COMMA) with true; change (is_eol comma) with false; cbn iota; unfold save; rewrite F1; reflexivity. }
        rewrite E. reflexivity.
      - destruct (run_field f (c :: s) p mid (comma :: join [comma] (s' :: ss') ++ r) Hf Fp) as (p' & mid' & He & _ & _ & E); [left; discriminate|].
        rewrite E. apply ended_comma. exact He. }
    destruct K as (p1 & K1 & K2 & K3 & ->).
    destruct (IH (s' :: ss') p1 true r HF' ltac:(discriminate) (conj K1 (or_introl K2)) (or_intror (conj K2 eq_refl))) as (p' & f' & done & mid' & He & Hd & Hm & E).
    exists p', f', done, mid'. split; [exact He|]. split; [|auto]. rewrite Hd, K3, <- app_assoc. reflexivity.
Qed.

Lemma run_line row s r : row_text row s -> stream reset false (s ++ NL :: r) = (do rows <- stream reset false r; Ok (row :: rows)).
Proof.
  intros (ss & HF & -> & Hne). destruct row as [|f row].
  - inversion HF. subst. reflexivity.
  - destruct (run_row (f :: row) ss reset false (NL :: r) HF ltac:(discriminate)) as (p' & g & done & mid' & He & Hd & _ & E).
    { split; [reflexivity|]. right. split; reflexivity. }
    { left. apply Hne. discriminate. }
    rewrite E. rewrite (ended_nl p' g done mid' r He), Hd. reflexivity.
Qed.
Lemma run_last row s : row_text row s -> s <> [] -> stream reset false s = Ok [row].
Proof.
  intros (ss & HF & -> & Hne) Hs. destruct row as [|f row].
  - inversion HF. subst. cbn in Hs. congruence.
  - destruct (run_row (f :: row) ss reset false [] HF ltac:(discriminate)) as (p' & g & done & mid' & He & Hd & Hm & E).
    { split; [reflexivity|]. right. split; reflexivity. }
    { left. exact Hs. }
    rewrite app_nil_r in E. rewrite E, Hm. rewrite (ended_end p' g done He), Hd. reflexivity.
Qed.

(** no returns in the text of a row, and no line end at its front *)
Lemma in_join sep l c : In c (join sep l) -> In c sep \/ exists s, In s l /\ In c s.
Proof.
  induction l as [|s l IH]; [intros []|]. destruct l as [|s' l].
  - cbn [join]. intros H. right. exists s. split; [left; auto|auto].
  - change (join sep (s :: s' :: l)) with (s ++ sep ++ join sep (s' :: l)). intros H. apply in_app_or in H as [H|H]; [right; exists s; split; [left; auto|auto]|].
    apply in_app_or in H as [H|H]; [left; auto|]. destruct (IH H) as [K|(t & K1 & K2)]; [left; auto|]. right. exists t. split; [right; auto|auto].
Qed.
Lemma field_no_cr f s c : field_text f s -> In c s -> c <> CR.
Proof.
  intros [[[H _] ->]|[H ->]] Hc; [apply H; auto|]. destruct Hc as [<-|Hc]; [discriminate|]. apply in_app_or in Hc as [Hc|Hc].
  - unfold doubled in Hc. apply in_flat_map in Hc as (d & Hd & Hc). destruct (Ascii.eqb d quote); cbn in Hc.
    + destruct Hc as [<-|[<-|[]]]; discriminate.
    + destruct Hc as [<-|[]]. apply (H d Hd).
  - destruct Hc as [<-|[]]. discriminate.
Qed.
Lemma Forall2_in_r {A B} (P : A -> B -> Prop) l m b : Forall2 P l m -> In b m -> exists a, In a l /\ P a b.
Proof. induction 1 as [|x y l m H HF IH]; intros []; [subst; exists x; split; [left; auto|auto]|]. destruct (IH H0) as (a & Ha & K). exists a. split; [right; auto|auto]. Qed.
Lemma row_no_cr row s c : row_text row s -> In c s -> c <> CR.
Proof.
  intros (ss & HF & -> & _) Hc. apply in_join in Hc as [[<-|[]]|(f & Hf & Hc)]; [discriminate|].
  destruct (Forall2_in_r _ _ _ _ HF Hf) as (g & _ & K). apply (field_no_cr g f c K Hc).
Qed.
Lemma field_front f s d : field_text f s -> hd d s <> NL \/ s = [].
Proof.
  intros [[[H _] ->]|[H ->]].
  - destruct f as [|c f]; [right; auto|]. left. cbn. apply (H c). left. auto.
  - left. discriminate.
Qed.
Lemma row_front row s d : row_text row s -> hd d s <> NL \/ s = [].
Proof.
  intros (ss & HF & -> & _). inversion HF as [|f s0 row' ss' Hf HF' E1 E2]; subst; [right; reflexivity|].
  destruct ss' as [|s' ss']; [apply (field_front f s0 d Hf)|]. change (join [comma] (s0 :: s' :: ss')) with (s0 ++ comma :: join [comma] (s' :: ss')).
  destruct (field_front f s0 d Hf) as [K| ->]; [|left; discriminate]. destruct s0 as [|c s0]; [left; discriminate|left; exact K].
Qed.

(** the text after universal newlines *)
Lemma univ_lines e : line_end e -> forall rows ss tail, Forall2 row_text rows ss -> (e = [CR] -> hd CR tail <> NL) ->
  universal (flat_map (fun s => s ++ e) ss ++ tail) = flat_map (fun s => s ++ [NL]) ss ++ universal tail.
Proof.
  intros He rows ss tail HF Ht. induction HF as [|row s rows ss Hr HF IH]; [reflexivity|]. cbn [flat_map]. rewrite <- !app_assoc.
  rewrite univ_id by (intros c Hc; apply (row_no_cr row s c Hr Hc)). f_equal.
  assert (K : e = [NL] \/ e = [CR; NL] \/ (e = [CR] /\ hd CR (flat_map (fun s => s ++ e) ss ++ tail) <> NL)).
  { destruct He as [-> | [-> | -> ]]; auto. right. right. split; [reflexivity|]. inversion HF as [|row' s' rows' ss' Hr' HF' E1 E2]; subst; [apply Ht; reflexivity|].
    cbn [flat_map]. rewrite <- !app_assoc. destruct (row_front row' s' CR Hr') as [K| ->]; [|discriminate]. destruct s' as [|c s']; [discriminate|exact K]. }
  cbn [app]. rewrite <- IH. destruct K as [-> | [-> | [-> K]]]; [reflexivity|reflexivity|]. cbn [app universal]. change (Ascii.eqb CR CR) with true. cbn iota.
  destruct (flat_map (fun s => s ++ [CR]) ss ++ tail) as [|d r]; [reflexivity|]. cbn [hd] in K. rewrite eqb_false by exact K. reflexivity.
Qed.

Lemma stream_rows rows ss tail : Forall2 row_text rows ss ->
  stream reset false (flat_map (fun s => s ++ [NL]) ss ++ tail) = (do rs <- stream reset false tail; Ok (rows ++ rs)).
Proof.
  induction 1 as [|row s rows ss Hr HF IH]; [cbn; destruct (stream reset false tail); reflexivity|]. cbn [flat_map]. rewrite <- !app_assoc. cbn [app].
  rewrite (run_line row s _ Hr), IH. destruct (stream reset false tail); reflexivity.
Qed.

Theorem csv_reads rows t : file_text rows t -> csv_rows t = Ok rows.
Proof.
  intros (e & ss & He & HF & Ht). rewrite csv_stream. destruct Ht as [-> | (ss' & s & -> & Hs & -> )].
  - pose proof (univ_lines e He rows ss [] HF) as U. rewrite app_nil_r in U. cbn [universal] in U. rewrite app_nil_r in U. rewrite U by discriminate.
    pose proof (stream_rows rows ss [] HF) as G. rewrite app_nil_r in G. rewrite G. cbn. rewrite app_nil_r. reflexivity.
  - apply Forall2_app_inv_r in HF as (rows' & last & HF & HL & ->). inversion HL as [|row s0 l1 l2 Hr HN E1 E2]. subst. inversion HN. subst.
    rewrite (univ_lines e He rows' ss' s HF). 2:{ intros _. destruct (row_front row s CR Hr) as [K|K]; [exact K|congruence]. }
    pose proof (univ_id s (fun c Hc => row_no_cr row s c Hr Hc) []) as U. rewrite app_nil_r in U. rewrite U. cbn [universal]. rewrite app_nil_r.
    rewrite (stream_rows rows' ss' s HF), (run_last row s Hr Hs). reflexivity.
Qed.
