(** Scalars.

    The repository computes in TensorFlow / NumPy floating point (float32 mostly).
    The model is written once over an arbitrary scalar type equipped with the
    operations below and no laws; a theorem that needs laws says which.
    Instances: [Z] (computable, for examples), [R] (exact reals),
    [spec_float] with binary32 parameters (IEEE-754 single precision). *)

From Coq Require Import ZArith Reals List Bool.
From Coq Require Import SpecFloat.
Import ListNotations.

Class Num (T : Type) := mkNum {
  n0 : T;
  n1 : T;
  nadd : T -> T -> T;
  nsub : T -> T -> T;
  nmul : T -> T -> T;
  ndiv : T -> T -> T;
  nopp : T -> T;
  nsqrt : T -> T;
  nabs : T -> T;
  nltb : T -> T -> bool;      (* a < b ; false when either is NaN *)
  neqb : T -> T -> bool;      (* a == b ; false when either is NaN *)
  nofZ : Z -> T               (* tf.cast of an integer *)
}.

Section Derived.
  Context {T : Type} {N : Num T}.

  (** maximum / minimum as TensorFlow's CPU kernels (Eigen [maxi]/[mini]) and
      Python's [max]/[min] compute them: one comparison, first argument kept when
      the comparison is false.
      tf.maximum / tf.minimum / tf.reduce_max: cp.py:96, ncp.py:119,144,
      ntucker.py:149,172, pitf_ops.py:592,661. *)
  Definition nmax (a b : T) : T := if nltb a b then b else a.
  Definition nmin (a b : T) : T := if nltb b a then b else a.

  (** tf.nn.relu (ncp.py:72,122; ntucker.py:75,99,133,150) *)
  Definition nrelu (a : T) : T := if nltb a n0 then n0 else a.

  Definition nsq (a : T) : T := nmul a a.

  (** a <= b, as Python's / IEEE's comparison *)
  Definition nleb (a b : T) : bool := nltb a b || neqb a b.

  (** sums and products over lists; the model fixes one association order, TF's
      reduction order is unspecified (simplification: irrelevant in a ring) *)
  Definition lsum (l : list T) : T := fold_right nadd n0 l.
  Definition lprod (l : list T) : T := fold_right nmul n1 l.

  (** sum over 0 <= i < n *)
  Definition sumn (n : nat) (f : nat -> T) : T := lsum (map f (seq 0 n)).
End Derived.

#[global] Instance NumZ : Num Z := {|
  n0 := 0%Z; n1 := 1%Z; nadd := Z.add; nsub := Z.sub; nmul := Z.mul;
  ndiv := Z.div; nopp := Z.opp; nsqrt := Z.sqrt; nabs := Z.abs;
  nltb := Z.ltb; neqb := Z.eqb; nofZ := fun z => z |}.

#[global] Instance NumR : Num R := {|
  n0 := 0%R; n1 := 1%R; nadd := Rplus; nsub := Rminus; nmul := Rmult;
  ndiv := Rdiv; nopp := Ropp; nsqrt := sqrt; nabs := Rabs;
  nltb := fun a b => if Rlt_dec a b then true else false;
  neqb := fun a b => if Req_EM_T a b then true else false;
  nofZ := IZR |}.

(** IEEE-754 binary32, the dtype of every TensorFlow variable in the repository *)
Definition f32prec : Z := 24.
Definition f32emax : Z := 128.
Definition f32 := spec_float.

Definition NumF32 : Num f32 := {|
  n0 := S754_zero false;
  n1 := binary_normalize f32prec f32emax 1 0 false;
  nadd := SFadd f32prec f32emax;
  nsub := SFsub f32prec f32emax;
  nmul := SFmul f32prec f32emax;
  ndiv := SFdiv f32prec f32emax;
  nopp := SFopp;
  nsqrt := SFsqrt f32prec f32emax;
  nabs := SFabs;
  nltb := SFltb;
  neqb := SFeqb;
  nofZ := fun z => binary_normalize f32prec f32emax z 0 false |}.

(** Laws used as hypotheses *)
Definition RingLaws (T : Type) {N : Num T} : Prop :=
  Ring_theory.ring_theory (R := T) n0 n1 nadd nmul nsub nopp (@eq T).

Lemma ringlaws_Z : RingLaws Z.
Proof. exact InitialRing.Zth. Qed.
Lemma ringlaws_R : RingLaws R.
Proof. exact RealField.RTheory || exact RTheory. Qed.
