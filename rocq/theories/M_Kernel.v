(** transformation/kernel: _AbstractKernel.py, _LinearKernel.py, _PolyKernel.py, _RBFKernel.py.
    [gamma = None] stands for the module constant NAN (the code tests "is NAN").
    [npow x d] is both Python's pow(x, d) and np.power for an integer d (exact, no overflow), [nexp] is exp.
    A method that may latch gamma returns the new state next to its result; when a whole-matrix
    call raises, the state reached at that point is not tracked. *)
From Coq Require Import List ZArith Lia Bool Arith Reals.
From Verif Require Import Base Num Mat M_Matrix M_Factory M_Loop.
Import ListNotations.

Section Kernel.
Context {T : Type} `{Num T} (npow : T -> Z -> T) (nexp : T -> T).

(** AbstractKernel.apply_matrix, lines 41-77, for a kernel with state S *)
Section Abstract.
Context {S : Type} (apply_vector : S -> mat T -> mat T -> S * res T).
Definition abstract_two (s : S) (X Y : mat T) : res (S * mat T) :=                  (* 52-59 *)
  for_range (nr X) (fun sr i =>
    for_range (nr Y) (fun sr j =>
      do row_i <- get_row X (Z.of_nat i);
      do row_j <- get_row Y (Z.of_nat j);
      let '(s', v) := apply_vector (fst sr) row_i row_j in
      do value <- v;
      do r <- set (snd sr) (Z.of_nat i) (Z.of_nat j) value;
      Ok (s', r)) sr) (s, zeros (Z.of_nat (nr X)) (Z.of_nat (nr Y))).
Definition abstract_one (s : S) (X : mat T) : res (S * mat T) :=                    (* 61-77 *)
  let n := nr X in
  for_range n (fun sr i =>
    for_each (seq i (n - i)) (fun sr j =>
      do row_i <- get_row X (Z.of_nat i);
      do row_j <- get_row X (Z.of_nat j);
      let '(s', v) := apply_vector (fst sr) row_i row_j in
      do value <- v;
      do r <- set (snd sr) (Z.of_nat i) (Z.of_nat j) value;
      do r <- set r (Z.of_nat j) (Z.of_nat i) value;
      Ok (s', r)) sr) (s, zeros (Z.of_nat n) (Z.of_nat n)).
Definition abstract_apply_matrix (s : S) (X : mat T) (Y : option (mat T)) : res (S * mat T) :=
  match Y with None => abstract_one s X | Some Y => abstract_two s X Y end.
End Abstract.

(** LinearKernel, lines 31-37 *)
Definition linear_apply_vector (x y : mat T) : res T := vector_dot x y.
Definition linear_apply_matrix (X : mat T) (Y : option (mat T)) : res (mat T) :=
  mul X (transpose (match Y with Some Y => Y | None => X end)).

(** "if self.gamma is NAN: self.gamma = ONE / columns" *)
Definition latch (gamma : option T) (columns : nat) : T :=
  match gamma with Some g => g | None => ndiv n1 (nofZ (Z.of_nat columns)) end.

(** PolyKernel: __init__, 29-33; __setattr__, 35-38; apply_matrix, 40-49; apply_vector, 51-55 *)
Record poly_st : Type := Poly { p_degree : Z; p_coef : T; p_gamma : option T }.
Definition poly_new : poly_st := Poly 3 n0 None.
Definition poly_set_degree (s : poly_st) (value : Z) : poly_st :=
  if (value <=? 0)%Z then s else Poly value (p_coef s) (p_gamma s).
Definition poly_set_coef (s : poly_st) (value : T) : poly_st := Poly (p_degree s) value (p_gamma s).
Definition poly_set_gamma (s : poly_st) (value : option T) : poly_st := Poly (p_degree s) (p_coef s) value.
Definition poly_apply_vector (s : poly_st) (x y : mat T) : poly_st * res T :=
  match vector_dot x y with
  | Err e => (s, Err e)
  | Ok linear_term =>
      let g := latch (p_gamma s) (nc x) in
      (poly_set_gamma s (Some g), Ok (npow (nadd (nmul g linear_term) (p_coef s)) (p_degree s)))
  end.
Definition poly_apply_matrix (s : poly_st) (X : mat T) (Y : option (mat T)) : poly_st * res (mat T) :=
  let Y := match Y with Some Y => Y | None => X end in
  let g := latch (p_gamma s) (nc X) in
  (poly_set_gamma s (Some g),
   do result <- mul X (transpose Y);
   Ok (map_mat (fun x => npow x (p_degree s)) (add_scalar (mul_scalar result g) (p_coef s)))).

(** RBFKernel: state gamma (initially ONE, line 31); apply_vector, 34-38 *)
Definition rbf_new : option T := Some n1.
Definition rbf_apply_vector (gamma : option T) (x y : mat T) : option T * res T :=
  match sub x y with
  | Err e => (gamma, Err e)
  | Ok d =>
      let norm_2 := norm2 d in
      let g := latch gamma (nc x) in
      (Some g, Ok (nexp (nmul (nmul (nopp n1) g) norm_2)))
  end.
Definition rbf_apply_matrix : option T -> mat T -> option (mat T) -> res (option T * mat T) :=
  abstract_apply_matrix rbf_apply_vector.
End Kernel.
Arguments poly_st : clear implicits.
