(** Independent vocabulary for stating matrix properties: what an index
    addresses, which list a selector denotes, what it means for two matrices to agree. *)
From Coq Require Import List ZArith Lia Bool Arith Reals.
From Verif Require Import Base Num Mat M_Matrix.
Import ListNotations.

(** Python/numpy: index z addresses position k of an axis of length n. *)
Definition addr (n : nat) (z : Z) (k : nat) : Prop :=
  (k < n)%nat /\ (z = Z.of_nat k \/ z = Z.of_nat k - Z.of_nat n)%Z.
Definition out_of_range (n : nat) (z : Z) : Prop := (z < - Z.of_nat n \/ Z.of_nat n <= z)%Z.

(** The list of indices that a selector argument denotes. *)
Definition denotes (s : sel) (l : list Z) : Prop :=
  match s with
  | SList l' => l = l'
  | STuple a b => length l = Z.to_nat (b - a) /\
                  forall k, (k < length l)%nat -> nth k l 0%Z = (a + Z.of_nat k)%Z
  end.

(** m is the r x c matrix with the given entries. *)
Definition is_mat {T} `{Num T} (m : mat T) (r c : nat) (f : nat -> nat -> T) : Prop :=
  wf m /\ nr m = r /\ nc m = c /\ forall i j, (i < r)%nat -> (j < c)%nat -> entry m i j = f i j.

(** Orientation of vectors, by shape. *)
Definition row_shaped {T} (v : mat T) : Prop := nr v = 1.
Definition col_shaped {T} (v : mat T) : Prop := nc v = 1.
Definition vector_shaped {T} (v : mat T) : Prop := nr v = 1 \/ nc v = 1.

(** Finite sum over the reals, by the usual recursion. *)
Fixpoint Rsum (n : nat) (f : nat -> R) : R :=
  match n with O => 0%R | S k => (Rsum k f + f k)%R end.

(** Symmetric real matrices, identity entries. *)
Definition delta (i j : nat) : R := if Nat.eqb i j then 1%R else 0%R.

(** Shapes agree. *)
Definition same_shape {T} (a b : mat T) : Prop := nr a = nr b /\ nc a = nc b.

(** k-th element and length of a vector; the two variants differ only for how a
    1 x 1 matrix is read, where they coincide. *)
Definition vec_at {T} `{Num T} (v : mat T) (k : nat) : T := if nr v =? 1 then entry v 0 k else entry v k 0.
Definition vec_len {T} (v : mat T) : nat := if nr v =? 1 then nc v else nr v.
Definition vec_at_c {T} `{Num T} (v : mat T) (k : nat) : T := if nc v =? 1 then entry v k 0 else entry v 0 k.
Definition vec_len_c {T} (v : mat T) : nat := if nc v =? 1 then nr v else nc v.

(** Row-major order on positions. *)
Definition rm_lt (p q : nat * nat) : Prop := fst p < fst q \/ (fst p = fst q /\ snd p < snd q).
