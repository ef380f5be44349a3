(** Independent vocabulary for rounding (C94, C95). *)

From Coq Require Import ZArith Reals List Bool SpecFloat.
From Verif Require Import Num Tensor.
Import ListNotations.
Local Open Scope R_scope.

(** the real number a binary floating-point number stands for *)
Definition f_val (x : spec_float) : R :=
  match x with
  | S754_finite s m e => (if s then -1 else 1) * IZR (Zpos m) * powerRZ 2 e
  | _ => 0
  end.
Definition f_finite (x : spec_float) : Prop :=
  match x with S754_zero _ | S754_finite _ _ _ => True | _ => False end.
(** the numbers of a format are multiples of the power of two with exponent emin *)
Definition f_multiple (prec emax : Z) (x : spec_float) : Prop :=
  match x with S754_finite _ _ e => (3 - emax - prec <= e)%Z | _ => True end.

(** unit roundoff (half the distance from 1 to the next number) and half the smallest
    positive number of a format *)
Definition unit_roundoff (prec : Z) : R := powerRZ 2 (- prec).
Definition underflow_unit (prec emax : Z) : R := powerRZ 2 (3 - emax - prec - 1).

(** binary floating-point arithmetic of a precision and exponent range, every operation
    rounded to nearest even: binary32 is [NumFl 24 128], binary64 [NumFl 53 1024] *)
Definition NumFl (prec emax : Z) : Num spec_float := {|
  n0 := S754_zero false;
  n1 := binary_normalize prec emax 1 0 false;
  nadd := SFadd prec emax;
  nsub := SFsub prec emax;
  nmul := SFmul prec emax;
  ndiv := SFdiv prec emax;
  nopp := SFopp;
  nsqrt := SFsqrt prec emax;
  nabs := SFabs;
  nltb := SFltb;
  neqb := SFeqb;
  nofZ := fun z => binary_normalize prec emax z 0 false |}.

(** the formats considered *)
Definition format (prec emax : Z) : Prop := (1 < prec)%Z /\ (2 * prec < emax)%Z.

(** real arithmetic in which differences are sums (for absolute values) *)
Definition NumAbs : Num R := {|
  n0 := 0; n1 := 1; nadd := Rplus; nsub := Rplus; nmul := Rmult; ndiv := Rdiv; nopp := Ropp;
  nsqrt := sqrt; nabs := Rabs; nltb := @nltb R NumR; neqb := @neqb R NumR; nofZ := IZR |}.

(** the same with every result enlarged by the factor 1 + u and every product by eta *)
Definition NumInfl (u eta : R) : Num R := {|
  n0 := 0; n1 := 1;
  nadd := fun a b => (1 + u) * (a + b);
  nsub := fun a b => (1 + u) * (a + b);
  nmul := fun a b => (1 + u) * (a * b) + eta;
  ndiv := Rdiv; nopp := Ropp; nsqrt := sqrt; nabs := Rabs;
  nltb := @nltb R NumR; neqb := @neqb R NumR; nofZ := IZR |}.

(** the number of roundings on the way to a result: along the deeper operand of a sum,
    along both operands of a product *)
Definition NumDepth : Num nat := {|
  n0 := 0%nat; n1 := 0%nat;
  nadd := fun a b => S (Nat.max a b);
  nsub := fun a b => S (Nat.max a b);
  nmul := fun a b => S (a + b);
  ndiv := fun _ _ => 0%nat; nopp := fun a => a; nsqrt := fun a => a; nabs := fun a => a;
  nltb := Nat.ltb; neqb := Nat.eqb; nofZ := fun _ => 0%nat |}.

(** integers with a flag saying that no result on the way exceeded the bound in
    absolute value; quotients lose the flag *)
Definition NumChk (bound : Z) : Num (Z * bool) :=
  let chk z (p : bool) := (z, p && (Z.abs z <=? bound)%Z) in {|
  n0 := (0%Z, true); n1 := (1%Z, true);
  nadd := fun a b => chk (fst a + fst b)%Z (snd a && snd b);
  nsub := fun a b => chk (fst a - fst b)%Z (snd a && snd b);
  nmul := fun a b => chk (fst a * fst b)%Z (snd a && snd b);
  ndiv := fun a b => ((fst a / fst b)%Z, false);
  nopp := fun a => ((- fst a)%Z, snd a);
  nsqrt := fun a => (Z.sqrt (fst a), false);
  nabs := fun a => (Z.abs (fst a), snd a);
  nltb := fun a b => (fst a <? fst b)%Z;
  neqb := fun a b => (fst a =? fst b)%Z;
  nofZ := fun z => chk z true |}.

(** entrywise image of a tensor *)
Definition tmap {A B} (f : A -> B) (t : tensor A) : tensor B := mkT (shp t) (map f (dat t)).
Definition abs_val (x : spec_float) : R := Rabs (f_val x).
Definition of_format (prec emax : Z) (t : tensor spec_float) : Prop := Forall (f_multiple prec emax) (dat t).

(** evaluation orders of a sum: any parenthesisation of any arrangement *)
Inductive sumtree := Leaf (i : nat) | Node (a b : sumtree).
Fixpoint leaves (t : sumtree) : list nat :=
  match t with Leaf i => [i] | Node a b => leaves a ++ leaves b end.
Fixpoint tree_sum {T} {N : Num T} (x : list T) (t : sumtree) : T :=
  match t with Leaf i => nth i x n0 | Node a b => nadd (tree_sum x a) (tree_sum x b) end.

Definition Rsum (l : list R) : R := fold_right Rplus 0 l.
Definition zsum (l : list Z) : Z := fold_right Z.add 0%Z l.

(** programs that only rearrange entries *)
From Verif Require Import Py TProg.
Inductive moves : texpr -> Prop :=
| MVar i : moves (XVar i)
| MUnfold e m : moves e -> moves (XUnfold e m)
| MFold e m s : moves e -> moves (XFold e m s)
| MT2mat e r c : moves e -> moves (XT2mat e r c)
| MVec e : moves e -> moves (XVec e)
| MVecTo e s : moves e -> moves (XVecTo e s)
| MGet e i : moves e -> moves (XGet e i).
Definition res_map {A B} (f : A -> B) (x : res A) : res B :=
  match x with Ok a => Ok (f a) | Raise e => Raise e end.

(** the entries of a floating-point tensor are the integers of an integer tensor *)
Definition is_int (prec emax : Z) (x : spec_float) (z : Z) : Prop :=
  f_multiple prec emax x /\ f_finite x /\ f_val x = IZR z.
Definition int_tensor (prec emax : Z) (t : tensor spec_float) (z : tensor Z) : Prop :=
  shp t = shp z /\ Forall2 (is_int prec emax) (dat t) (dat z).
