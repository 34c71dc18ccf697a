(** Matrix values: the [data] array of a Matrix object (always 2-D, see
    core/matrix/_Matrix.py 28-36), as row count, column count and list of rows.
    Both counts are kept because numpy distinguishes the shapes (0,n) and (n,0). *)
From Coq Require Import List ZArith Lia Bool Arith.
From Verif Require Import Base Num.
Import ListNotations.

Record mat (T : Type) : Type := Mat { nr : nat; nc : nat; rws : list (list T) }.
Arguments Mat {T} nr nc rws.
Arguments nr {T} m.
Arguments nc {T} m.
Arguments rws {T} m.

(** numpy arrays are rectangular. *)
Definition wf {T} (m : mat T) : Prop :=
  length (rws m) = nr m /\ Forall (fun r => length r = nc m) (rws m).
Definition wfb {T} (m : mat T) : bool :=
  (length (rws m) =? nr m) && forallb (fun r => length r =? nc m) (rws m).

(** Entry at in-range position (i,j). *)
Definition entry {T} `{Num T} (m : mat T) (i j : nat) : T := nth j (nth i (rws m) []) n0.

(** The r x c array with entry f i j. *)
Definition mk {T} (r c : nat) (f : nat -> nat -> T) : mat T :=
  Mat r c (tab r (fun i => tab c (f i))).
