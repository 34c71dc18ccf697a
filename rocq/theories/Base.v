(** Common vocabulary: Python exceptions as values, and tabulated lists.
    Nothing here models repository code except where a comment says so. *)
From Coq Require Import List ZArith Lia Bool Arith.
Import ListNotations.

(** Exceptions raised by the modelled code.  Only the exception class is
    modelled, not the message text.
    - InvalidShapeError, InvalidAxisError, MatrixAlgorithmsError:
      core/error/*.py
    - the rest are Python / numpy built-ins. *)
Inductive exn : Type :=
| ValueError | IndexError | TypeError | AttributeError | OverflowError
| RuntimeError | NotImplementedError | ZeroDivisionError | LinAlgError
| FileNotFoundError | InvalidShapeError | InvalidAxisError
| MatrixAlgorithmsError | UnboundLocalError
| OutOfFuel. (* not a Python exception: a modelled loop did not finish within the given number of steps *)

(** Result of running a piece of Python code. *)
Inductive res (A : Type) : Type :=
| Ok (a : A)
| Err (e : exn).
Arguments Ok {A} a.
Arguments Err {A} e.

Definition bind {A B} (x : res A) (f : A -> res B) : res B :=
  match x with Ok a => f a | Err e => Err e end.
Notation "'do' x <- a ; b" := (bind a (fun x => b))
  (at level 200, x name, a at level 100, b at level 200).
Notation "'check' c 'else' e ; b" := (if c then b else Err e)
  (at level 200, c at level 100, e at level 100, b at level 200).

Definition map_res {A B} (f : A -> B) (x : res A) : res B :=
  match x with Ok a => Ok (f a) | Err e => Err e end.

Definition is_ok {A} (x : res A) : bool := match x with Ok _ => true | Err _ => false end.

(** [mapM f l]: run f on every element from left to right, stop at the first exception. *)
Fixpoint mapM {A B} (f : A -> res B) (l : list A) : res (list B) :=
  match l with
  | [] => Ok []
  | a :: l' => do b <- f a; do bs <- mapM f l'; Ok (b :: bs)
  end.

(** [tab n f] is the list [f 0; ...; f (n-1)] (a Python list comprehension over range(n)). *)
Definition tab {A} (n : nat) (f : nat -> A) : list A := map f (seq 0 n).

(** Python's range(a, b, step) for a non-zero step. *)
Definition range_len (a b step : Z) : nat :=
  if (0 <? step)%Z then Z.to_nat ((b - a + step - 1) / step)
  else if (step <? 0)%Z then Z.to_nat ((a - b - step - 1) / (- step))
  else 0%nat.
Definition pyrange (a b step : Z) : list Z :=
  tab (range_len a b step) (fun k => (a + Z.of_nat k * step)%Z).

(** numpy integer indexing along an axis of length n: negative indices count
    from the end, anything outside [-n, n) is an IndexError. *)
Definition npidx (n : nat) (z : Z) : res nat :=
  if ((0 <=? z) && (z <? Z.of_nat n))%Z then Ok (Z.to_nat z)
  else if ((- Z.of_nat n <=? z) && (z <? 0))%Z then Ok (Z.to_nat (z + Z.of_nat n))
  else Err IndexError.

(** [upd l i x]: l with position i replaced (unchanged when i is out of range). *)
Fixpoint upd {A} (l : list A) (i : nat) (x : A) : list A :=
  match l, i with
  | [], _ => []
  | _ :: l', O => x :: l'
  | a :: l', S i' => a :: upd l' i' x
  end.

Arguments pyrange : simpl never.
Arguments range_len : simpl never.
Arguments npidx : simpl never.
Arguments tab : simpl never.
#[global] Arguments Nat.ltb : simpl never.
