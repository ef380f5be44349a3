(** Vocabulary for data in other units (C96): every entry multiplied by the same number. *)

From Coq Require Import ZArith List Bool Arith Reals.
From Verif Require Import Num Py Tensor Fact Train.
Import ListNotations.
Local Open Scope R_scope.

Definition scale (c : R) (t : tensor R) : tensor R := mkT (shp t) (map (Rmult c) (dat t)).

(** loss, objective and relative residual of the scaled model against the scaled data *)
Definition scale_metrics (c : R) (m : metrics R) : metrics R := mkM (c * m_loss m) (c ^ 2 * m_obj m) (m_rel m).

Definition omap {A B} (f : A -> B) (x : option A) : option B := match x with Some a => Some (f a) | None => None end.
Definition rmap {A B} (f : A -> B) (x : res A) : res B := match x with Ok a => Ok (f a) | Raise e => Raise e end.

(** what a model publishes, with factors times a, weights or core times b, full tensor times c *)
Definition scale_pub (a b c : R) (p : pub R) : pub R :=
  mkPub (omap (map (scale a)) (p_factors p)) (omap (scale b) (p_aux p)) (omap (scale c) (p_full p)) (p_finish p).
Definition scale_entry (c : R) (e : R * R) : R * R := (c * fst e, snd e).

(** the steps two histories have in common differ by the factor c in the loss only *)
Definition same_run (c : R) (h h' : hist R) : Prop :=
  forall k, (k < length h)%nat -> (k < length h')%nat -> nth k h' (0, 0) = scale_entry c (nth k h (0, 0)).
