(** Element types.  numpy arrays of the modelled code hold float64 ("real" in
    core/_types.py).  The model is parameterised by the operations on elements;
    two instances are provided: exact reals and IEEE binary64. *)
From Coq Require Import ZArith Bool Reals Lra.
From Coq Require Import SpecFloat.
From Verif Require Import Base.

Class Num (T : Type) : Type := {
  n0 : T;
  n1 : T;
  nadd : T -> T -> T;
  nsub : T -> T -> T;
  nmul : T -> T -> T;
  ndiv : T -> T -> T;
  nopp : T -> T;
  nabs : T -> T;
  nsqrt : T -> T;
  nltb : T -> T -> bool;   (* Python  a < b *)
  nleb : T -> T -> bool;   (* Python  a <= b *)
  neqb : T -> T -> bool;   (* Python  a == b *)
  nofZ : Z -> T
}.

(** Exact reals. *)
Definition Rltb (x y : R) : bool := if Rlt_dec x y then true else false.
Definition Rleb (x y : R) : bool := if Rle_dec x y then true else false.
Definition Reqb (x y : R) : bool := if Req_EM_T x y then true else false.

#[global] Instance NumR : Num R := {
  n0 := 0%R; n1 := 1%R; nadd := Rplus; nsub := Rminus; nmul := Rmult; ndiv := Rdiv;
  nopp := Ropp; nabs := Rabs; nsqrt := R_sqrt.sqrt;
  nltb := Rltb; nleb := Rleb; neqb := Reqb; nofZ := IZR }.

(** IEEE-754 binary64 (precision 53, emax 1024), round to nearest even:
    the float64 of numpy.  Purely computational definitions from
    Coq.Floats.SpecFloat, no primitive floats and no axioms. *)
Definition f64 := spec_float.
Definition fprec : Z := 53.
Definition femax : Z := 1024.
Definition f_of_Z (z : Z) : f64 := binary_normalize fprec femax z 0 false.

#[global] Instance NumF : Num f64 := {
  n0 := S754_zero false; n1 := f_of_Z 1;
  nadd := SFadd fprec femax; nsub := SFsub fprec femax;
  nmul := SFmul fprec femax; ndiv := SFdiv fprec femax;
  nopp := SFopp; nabs := SFabs; nsqrt := SFsqrt fprec femax;
  nltb := SFltb; nleb := SFleb; neqb := SFeqb; nofZ := f_of_Z }.

Definition f_nan : f64 := S754_nan.
Definition f_inf : f64 := S754_infinity false.
Definition f_ninf : f64 := S754_infinity true.

(** Exact rationals are not an instance: refutations run in binary64. *)

(** Left-to-right sum  f 0 + f 1 + ... + f (n-1)  starting from 0
    (np.add.reduce; numpy's pairwise re-association is not modelled). *)
Fixpoint sumn {T} `{Num T} (n : nat) (f : nat -> T) : T :=
  match n with
  | O => n0
  | S k => nadd (sumn k f) (f k)
  end.

(** Reflection lemmas for the real comparisons. *)
Lemma Rltb_true x y : Rltb x y = true <-> (x < y)%R.
Proof. unfold Rltb; destruct (Rlt_dec x y); split; intros; auto; try discriminate; contradiction. Qed.
Lemma Rltb_false x y : Rltb x y = false <-> (y <= x)%R.
Proof. unfold Rltb; destruct (Rlt_dec x y); split; intros; auto; try discriminate; lra. Qed.
Lemma Rleb_true x y : Rleb x y = true <-> (x <= y)%R.
Proof. unfold Rleb; destruct (Rle_dec x y); split; intros; auto; try discriminate; contradiction. Qed.
Lemma Rleb_false x y : Rleb x y = false <-> (y < x)%R.
Proof. unfold Rleb; destruct (Rle_dec x y); split; intros; auto; try discriminate; lra. Qed.
Lemma Reqb_true x y : Reqb x y = true <-> x = y.
Proof. unfold Reqb; destruct (Req_EM_T x y); split; intros; auto; try discriminate; contradiction. Qed.
Lemma Reqb_false x y : Reqb x y = false <-> x <> y.
Proof. unfold Reqb; destruct (Req_EM_T x y); split; intros; auto; try discriminate; contradiction. Qed.
