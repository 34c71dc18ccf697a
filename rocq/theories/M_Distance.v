(** core/matrix/helper.py: euclidean_distance and row_norms; transformation/_MultiplicativeScatterCorrection.py:
    the static method create_configuration_matrix is in M_MSC. *)
From Coq Require Import List ZArith Bool Arith.
From Verif Require Import Base Num Mat M_Matrix M_Helper.
Import ListNotations.

Section Distance.
Context {T : Type} `{Num T}.
(** euclidean_distance, helper.py 61-76, with the function it calls for the squared norms of the rows
    as a parameter.  [same]: x and y are the same object ("x == y" is then true without comparing). *)
Definition euclidean_with (norms : mat T -> bool -> res (mat T)) (x y : mat T) (same squared : bool) : res (mat T) :=
  do xx <- norms x true;
  do yy <- norms y true;
  do distances <- mul x (transpose y);
  let distances := mul_scalar distances (nofZ (-2)) in
  do distances <- add distances xx;
  do distances <- add distances yy;
  do e <- (if same then Ok true else eq_mat x y);
  let distances := if e then fill_diagonal distances n0 else distances in
  if squared then Ok distances else Ok (map_mat nsqrt distances).
(** row_norms, helper.py 79-81 *)
Definition row_norms (x : mat T) (squared : bool) : res (mat T) := Err NotImplementedError.
Definition euclidean_distance := euclidean_with row_norms.
End Distance.
