(** Vocabulary for C109: a file of ratings and the error of a model on it. *)

From Coq Require Import String Ascii ZArith List Bool Arith Reals.
From Verif Require Import Num Py Tensor Fact Train Spec SpecTrain Reader SpecReader Csv SpecCsv.
Import ListNotations.
Open Scope list_scope.
Local Open Scope R_scope.

(** the rows of the file: coordinate and rating *)
Definition ratings := list (list Z * R).
(** the rows with a rating other than 0 *)
Definition rated (es : ratings) : ratings := filter (fun e => if Req_EM_T (snd e) 0 then false else true) es.
(** sum over the rows *)
Definition rsum (f : list Z * R -> R) (es : ratings) : R := fold_right (fun e a => f e + a) 0 es.
(** the difference between a rating and the model's entry there *)
Definition miss (F : tensor R) (e : list Z * R) : R := snd e - get F (map Z.to_nat (fst e)).
(** squares of the model's entries at coordinates no row has *)
Definition off_list (es : ratings) (F : tensor R) : R :=
  msum (shp F) (fun i => match last_for es (map Z.of_nat i) with Some _ => 0 | None => (get F i)² end).

(** the tensor a file with these rows describes; no coordinate is listed twice *)
Definition holds_file (es : ratings) (X : tensor R) : Prop :=
  forall idx, valid (shp X) idx -> get X idx = match last_for es (map Z.of_nat idx) with Some v => v | None => 0 end.
Definition file_of (es : ratings) (X : tensor R) : Prop :=
  wf X /\ NoDup (map fst es) /\ (forall e, In e es -> in_range (shp X) (fst e)) /\ holds_file es X.
(** a csv or txt file with these rows, for a tensor of shape s, at least one rating not 0 *)
Definition rating_file (py_float : list ascii -> option R) (path : string) (t : list ascii) (s : list nat) (es : ratings) : Prop :=
  (after_last_dot path "csv" \/ after_last_dot path "txt") /\ s <> [] /\ rated es <> [] /\ NoDup (map fst es) /\ (forall e, In e es -> in_range s (fst e)) /\
  exists rows, file_text rows t /\ Forall2 (row_says py_float (length s)) (nonblank rows) es.

(** the pair of numbers the scripts print for the model F *)
Definition reports (es : ratings) (F : tensor R) (e : R * R) : Prop :=
  fst e = sqrt (rsum (fun r => (miss F r)²) (rated es) / INR (length (rated es))) /\
  snd e = sqrt (rsum (fun r => (miss F r)²) es + off_list es F) / sqrt (rsum (fun r => (snd r)²) es).

(** what train returned and published, for the steps os it made: every entry of the history
    reports the error of that step's model on the file, and the published full tensor is the
    model of one of the reported steps - the last one, if every step validates *)
Definition scores (es : ratings) (args : targs R) (os : list (sobs R)) (p : pub R) (h : hist R) : Prop :=
  h = map entry os /\ (forall k ob, nth_error os k = Some ob -> exists e, nth_error h k = Some e /\ reports es (ob_full ob) e) /\
  exists j F e, p_full p = Some F /\ nth_error h j = Some e /\ reports es F e /\ (a_vi args = 1%Z -> length h = S j).
