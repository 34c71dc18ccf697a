(** Model of core/matrix/_Matrix.py (value level: the data array; the caches and
    object identity are added in M_Heap.v).  Line numbers refer to that file. *)
From Coq Require Import List ZArith Lia Bool Arith.
From Verif Require Import Base Num Mat.
Import ListNotations.

Section Matrix.
Context {T : Type} `{Num T}.

(** numpy arrays by number of dimensions; three or more are not distinguished. *)
Inductive ndarray : Type :=
| Nd0 (x : T)
| Nd1 (l : list T)
| Nd2 (m : mat T)
| NdMore.

(** __init__, lines 28-42: arrays with more than two dimensions are refused,
    0-D and 1-D ones become a single row. *)
Definition matrix_init (a : ndarray) : res (mat T) :=
  match a with
  | NdMore => Err ValueError
  | Nd2 m => Ok m
  | Nd1 l => Ok (Mat 1 (length l) [l])
  | Nd0 x => Ok (Mat 1 1 [[x]])
  end.

(** np.array of a list of equally long Python lists, then Matrix(...):
    numpy makes np.array([]) one-dimensional, so no rows gives a 1 x 0 matrix.
    Ragged lists are not modelled (callers pass rectangular ones). *)
Definition np_array2 (rows : list (list T)) : mat T :=
  match rows with
  | [] => Mat 1 0 [[]]
  | r :: _ => Mat (length rows) (length r) rows
  end.

(** num_columns / num_rows, lines 263-267, are [nc] / [nr]. *)

(** is_vector, lines 210-211; is_row_vector, is_column_vector, lines 349-353. *)
Definition is_vector (m : mat T) : bool := (nr m =? 1) || (nc m =? 1).
Definition is_row_vector (m : mat T) : bool := is_vector m && (nr m =? 1).
Definition is_column_vector (m : mat T) : bool := is_vector m && (nc m =? 1).

(** same_shape_as, lines 213-214; is_square, 613-614; num_elements, 567-568. *)
Definition same_shape_as (a b : mat T) : bool := (nr a =? nr b) && (nc a =? nc b).
Definition is_square (a : mat T) : bool := nr a =? nc a.
Definition num_elements (a : mat T) : nat := nr a * nc a.

(** must_be_row_vector / must_be_column_vector / must_be_vector, lines 630-642. *)
Definition must_be_vector (v : mat T) : res unit := if is_vector v then Ok tt else Err ValueError.
Definition must_be_column_vector (v : mat T) : res unit :=
  if is_column_vector v then Ok tt else Err ValueError.
Definition must_be_row_vector (v : mat T) : res unit :=
  if is_row_vector v then Ok tt else Err ValueError.

(** dimensions_must_match, lines 649-660 *)
Definition dimensions_must_match (rr rc cr cc : bool) (m1 m2 : mat T) : res unit :=
  if (negb rr || (nr m1 =? nr m2)) && (negb rc || (nr m1 =? nc m2)) &&
     (negb cr || (nc m1 =? nr m2)) && (negb cc || (nc m1 =? nc m2))
  then Ok tt else Err InvalidShapeError.
(** must_be_same_shape, lines 645-646 *)
Definition must_be_same_shape (m1 m2 : mat T) : res unit :=
  dimensions_must_match true false false true m1 m2.

(** transpose, lines 260-261 *)
Definition transpose (m : mat T) : mat T := mk (nc m) (nr m) (fun i j => entry m j i).

(** copy, lines 306-307 (as a value) *)
Definition copy (m : mat T) : mat T := m.

(** get, lines 269-270: data[row][column] *)
Definition get (m : mat T) (row column : Z) : res T :=
  do i <- npidx (nr m) row; do j <- npidx (nc m) column; Ok (entry m i j).

(** get_sub_matrix, lines 44-58.  A selector is a list of indices or a pair
    (start, stop) standing for range(start, stop); other tuple lengths are not
    modelled.  data[rows, columns] with an empty selection yields an empty array
    without checking the other indices (numpy only warns). *)
Inductive sel : Type := SList (l : list Z) | STuple (start stop : Z).
Definition sel_indices (s : sel) : list Z :=
  match s with SList l => l | STuple a b => pyrange a b 1 end.
Definition get_sub_matrix (m : mat T) (rows columns : sel) : res (mat T) :=
  let rl := sel_indices rows in
  let cl := sel_indices columns in
  if (length rl =? 0) || (length cl =? 0)
  then Ok (Mat (length rl) (length cl) (map (fun _ => []) rl))
  else
    do ri <- mapM (npidx (nr m)) rl;
    do ci <- mapM (npidx (nc m)) cl;
    Ok (Mat (length rl) (length cl) (map (fun i => map (fun j => entry m i j) ci) ri)).

(** get_rows, get_columns, lines 60-68 *)
Definition get_rows (m : mat T) (rows : sel) : res (mat T) :=
  get_sub_matrix m rows (STuple 0 (Z.of_nat (nc m))).
Definition get_columns (m : mat T) (columns : sel) : res (mat T) :=
  get_sub_matrix m (STuple 0 (Z.of_nat (nr m))) columns.

(** get_row, lines 292-293: data[row_index] is 1-D, Matrix() makes it a row. *)
Definition get_row (m : mat T) (i : Z) : res (mat T) :=
  do k <- npidx (nr m) i; Ok (mk 1 (nc m) (fun _ j => entry m k j)).
(** get_column, lines 295-296 *)
Definition get_column (m : mat T) (j : Z) : res (mat T) :=
  do k <- npidx (nc m) j; Ok (transpose (mk 1 (nr m) (fun _ i => entry m i k))).

(** head, lines 421-422: data[:n, :] *)
Definition head_len (rows : nat) (n : Z) : nat :=
  if (0 <=? n)%Z then Nat.min rows (Z.to_nat n) else Z.to_nat (Z.of_nat rows + n).
Definition head (m : mat T) (n : Z) : mat T :=
  mk (head_len (nr m) n) (nc m) (fun i j => entry m i j).

(** sum, lines 146-158 (result: a number or a matrix) *)
Definition sum_all (m : mat T) : T :=
  sumn (nc m) (fun j => sumn (nr m) (fun i => entry m i j)).
Definition sum_axis0 (m : mat T) : mat T :=
  mk 1 (nc m) (fun _ j => sumn (nr m) (fun i => entry m i j)).
Definition sum_axis1 (m : mat T) : mat T :=
  transpose (mk 1 (nr m) (fun _ i => sumn (nc m) (fun j => entry m i j))).
Definition sum (m : mat T) (axis : option Z) : res (T + mat T) :=
  match axis with
  | None => Ok (inl (sum_all m))
  | Some a =>
      if (a =? -1)%Z then Ok (inr (Mat 1 1 [[sum_all m]]))
      else if (a =? 0)%Z then Ok (inr (sum_axis0 m))
      else if (a =? 1)%Z then Ok (inr (sum_axis1 m))
      else Err ValueError
  end.

(** mean, lines 428-439; np.mean is sum / count (division by zero count as the
    element type defines it) *)
Definition mean (m : mat T) (axis : option Z) : res (T + mat T) :=
  let total := ndiv (sumn (nr m) (fun i => sumn (nc m) (fun j => entry m i j)))
                    (nofZ (Z.of_nat (nr m * nc m))) in
  match axis with
  | None => Ok (inl total)
  | Some a =>
      if (a =? -1)%Z then Ok (inr (Mat 1 1 [[total]]))
      else if (a =? 0)%Z then
        Ok (inr (mk 1 (nc m) (fun _ j => ndiv (sumn (nr m) (fun i => entry m i j)) (nofZ (Z.of_nat (nr m))))))
      else if (a =? 1)%Z then
        Ok (inr (transpose (mk 1 (nr m) (fun _ i => ndiv (sumn (nc m) (fun j => entry m i j)) (nofZ (Z.of_nat (nc m)))))))
      else Err InvalidAxisError
  end.

(** norm1, lines 160-161: 1-norm of the vector of column 1-norms *)
Definition norm1 (m : mat T) : T :=
  sumn (nc m) (fun j => nabs (sumn (nr m) (fun i => nabs (entry m i j)))).

(** np.linalg.norm(data): square root of the sum of squares *)
Definition frobenius (m : mat T) : T :=
  nsqrt (sumn (nr m) (fun i => sumn (nc m) (fun j => nmul (entry m i j) (entry m i j)))).
(** norm2, lines 163-168; norm2_squared, lines 170-172 *)
Definition norm2 (m : mat T) : T :=
  if is_vector m then frobenius m
  else ndiv (frobenius m) (nsqrt (nofZ (Z.of_nat (Nat.min (nr m) (nc m))))).
Definition norm2_squared (m : mat T) : T := nmul (norm2 m) (norm2 m).

(** is_multiplicable_with, lines 183-184; mul, lines 174-181 *)
Definition is_multiplicable_with (a b : mat T) : bool := nc a =? nr b.
Definition matmul (a b : mat T) : mat T :=
  mk (nr a) (nc b) (fun i j => sumn (nc a) (fun k => nmul (entry a i k) (entry b k j))).
Definition mul (a b : mat T) : res (mat T) :=
  if negb (is_multiplicable_with a b) then Err ValueError else Ok (matmul a b).

(** np ufunc applied to an array and a number / two arrays of one shape *)
Definition map_mat (f : T -> T) (a : mat T) : mat T := mk (nr a) (nc a) (fun i j => f (entry a i j)).
Definition map2_mat (f : T -> T -> T) (a b : mat T) : mat T :=
  mk (nr a) (nc a) (fun i j => f (entry a i j) (entry b i j)).

Definition mul_scalar (a : mat T) (s : T) : mat T := map_mat (fun x => nmul x s) a. (* 181 *)
Definition div_scalar (a : mat T) (s : T) : mat T := map_mat (fun x => ndiv x s) a. (* div, 239-240 *)
Definition sub_scalar (a : mat T) (s : T) : mat T := map_mat (fun x => nsub x s) a. (* sub, 246 *)
Definition add_scalar (a : mat T) (s : T) : mat T := map_mat (fun x => nadd x s) a. (* add, 252 *)
Definition sqrt_mat (a : mat T) : mat T := map_mat nsqrt a.                         (* sqrt, 257-258 *)

(** vector_dot, lines 186-203 *)
Definition vec_entry (v : mat T) (k : nat) : T :=
  if is_column_vector v then entry v k 0 else entry v 0 k.
Definition vector_dot (a b : mat T) : res T :=
  if negb (is_vector a) || negb (is_vector b) then Err ValueError
  else if negb (num_elements a =? num_elements b) then Err ValueError
  else Ok (sumn (num_elements a) (fun k => nmul (vec_entry a k) (vec_entry b k))).

(** normalized, lines 205-208 (axis 0 or 1; np.linalg.norm refuses others) *)
Definition normalized (m : mat T) (axis : Z) : res (mat T) :=
  if (axis =? 0)%Z || (axis =? -2)%Z then
    Ok (mk (nr m) (nc m) (fun i j =>
          ndiv (entry m i j) (nsqrt (sumn (nr m) (fun k => nmul (entry m k j) (entry m k j))))))
  else if (axis =? 1)%Z || (axis =? -1)%Z then
    Ok (mk (nr m) (nc m) (fun i j =>
          ndiv (entry m i j) (nsqrt (sumn (nc m) (fun k => nmul (entry m i k) (entry m i k))))))
  else Err ValueError.

(** mul_elementwise, lines 216-219; div_elementwise, 234-237 *)
Definition mul_elementwise (a b : mat T) : res (mat T) :=
  if negb (same_shape_as a b) then Err InvalidShapeError else Ok (map2_mat nmul a b).
Definition div_elementwise (a b : mat T) : res (mat T) :=
  if negb (same_shape_as a b) then Err InvalidShapeError else Ok (map2_mat ndiv a b).
(** sub, add with a matrix, lines 242-252 *)
Definition sub (a b : mat T) : res (mat T) :=
  do _ <- must_be_same_shape a b; Ok (map2_mat nsub a b).
Definition add (a b : mat T) : res (mat T) :=
  do _ <- must_be_same_shape a b; Ok (map2_mat nadd a b).

(** vector_size_matches, lines 555-561; ensure_vector_size_matches, 563-565 *)
Definition vector_size_matches (m v : mat T) : bool :=
  if negb (is_vector v) then false
  else if is_row_vector v then nc m =? nc v
  else nr m =? nr v.

(** op.at(self.data, ..., vector.data): numpy broadcasting of a (1,n) or (n,1) operand *)
Definition broadcast_op (op : T -> T -> T) (m v : mat T) : mat T :=
  mk (nr m) (nc m) (fun i j =>
    op (entry m i j) (entry v (if nr v =? 1 then 0 else i) (if nc v =? 1 then 0 else j))).

(** vector_op_modify, lines 550-553 (returns the new contents);
    vector_op, lines 545-548, does the same on a copy. *)
Definition vector_op_modify (op : T -> T -> T) (m v : mat T) : res (mat T) :=
  do _ <- must_be_vector v;
  if negb (vector_size_matches m v) then Err ValueError
  else Ok (broadcast_op op m v).
Definition vector_op (op : T -> T -> T) (m v : mat T) : res (mat T) :=
  vector_op_modify op (copy m) v.

Definition add_by_vector := vector_op nadd.           (* 231-232 *)
Definition sub_by_vector := vector_op nsub.           (* 527-528 *)
Definition mul_by_vector := vector_op nmul.           (* 530-531 *)
Definition add_by_vector_modify := vector_op_modify nadd.  (* 533-534 *)
Definition sub_by_vector_modify := vector_op_modify nsub.  (* 536-537 *)
Definition mul_by_vector_modify := vector_op_modify nmul.  (* 539-540 *)
Definition div_by_vector_modify := vector_op_modify ndiv.  (* 542-543 *)

(** scale_by_row_vector, lines 221-224; scale_by_column_vector, 226-229 *)
Definition scale_by_row_vector (m v : mat T) : res (mat T) :=
  do _ <- must_be_column_vector v;
  do _ <- dimensions_must_match false false true false m v;
  mul_by_vector m (transpose v).
Definition scale_by_column_vector (m v : mat T) : res (mat T) :=
  do _ <- must_be_column_vector v;
  do _ <- dimensions_must_match true false false false m v;
  mul_by_vector m v.

(** set, lines 272-274 (new contents) *)
Definition set_entry (m : mat T) (i j : nat) (x : T) : mat T :=
  Mat (nr m) (nc m) (upd (rws m) i (upd (nth i (rws m) []) j x)).
Definition set (m : mat T) (row column : Z) (x : T) : res (mat T) :=
  do i <- npidx (nr m) row; do j <- npidx (nc m) column; Ok (set_entry m i j x).

(** set_row, lines 276-282 *)
Definition set_row (m : mat T) (row_index : Z) (row : mat T) : res (mat T) :=
  do _ <- must_be_vector row;
  let row := if is_column_vector row then transpose row else row in
  let replacement_length := Nat.min (nc row) (nc m) in
  do i <- npidx (nr m) row_index;
  Ok (mk (nr m) (nc m) (fun r c =>
        if (r =? i) && (c <? replacement_length) then entry row 0 c else entry m r c)).

(** set_column, lines 284-290 *)
Definition set_column (m : mat T) (column_index : Z) (column : mat T) : res (mat T) :=
  do _ <- must_be_vector column;
  let column := if is_row_vector column then transpose column else column in
  let replacement_length := Nat.min (nr column) (nr m) in
  do j <- npidx (nc m) column_index;
  Ok (mk (nr m) (nc m) (fun r c =>
        if (c =? j) && (r <? replacement_length) then entry column r 0 else entry m r c)).

(** inverse, lines 298-304.  [inv] is np.linalg.inv, [lstsq a b] the first
    component of np.linalg.lstsq(a, b). *)
Definition inverse (inv : mat T -> res (mat T)) (lstsq : mat T -> mat T -> res (mat T)) (m : mat T)
  : res (mat T) :=
  if is_square m then inv m
  else lstsq m (np_array2 (tab (nr m) (fun j => tab (nr m) (fun i => if i =? j then n1 else n0)))).

(** as_real, lines 309-313 *)
Definition as_real (m : mat T) : res T :=
  if negb (nr m =? 1) || negb (nc m =? 1) then Err MatrixAlgorithmsError else get m 0 0.

(** to_raw_copy_1D, lines 315-322; to_raw_copy_2D, lines 324-333 *)
Definition to_raw_copy_1D (m : mat T) : list T :=
  flat_map (fun col => map (fun row => entry m row col) (seq 0 (nr m))) (seq 0 (nc m)).
Definition to_raw_copy_2D (m : mat T) : list (list T) :=
  map (fun row => map (fun col => entry m row col) (seq 0 (nc m))) (seq 0 (nr m)).

(** concat, lines 335-336, and its two wrappers, 338-342 *)
Definition concat_rows (a b : mat T) : res (mat T) :=
  if nc a =? nc b then Ok (Mat (nr a + nr b) (nc a) (rws a ++ rws b)) else Err ValueError.
Definition concat_columns (a b : mat T) : res (mat T) :=
  if nr a =? nr b
  then Ok (Mat (nr a) (nc a + nc b) (map (fun p => fst p ++ snd p) (combine (rws a) (rws b))))
  else Err ValueError.
Definition concat (a b : mat T) (axis : Z) : res (mat T) :=
  if (axis =? 0)%Z || (axis =? -2)%Z then concat_rows a b
  else if (axis =? 1)%Z || (axis =? -1)%Z then concat_columns a b
  else Err ValueError.
Definition concat_along_rows (a b : mat T) : res (mat T) := concat a b 0.
Definition concat_along_columns (a b : mat T) : res (mat T) := concat a b 1.

(** apply_elementwise, lines 355-360: double loop writing into a copy.  Every
    cell is read before it is overwritten and written once, so the loop is the
    map of the body over the cells. *)
Definition apply_elementwise (m : mat T) (body : T -> T) : mat T := map_mat body m.

(** clip, lines 362-378; clip_lower / clip_upper, lines 380-384 (their infinite
    bound is a parameter because exact reals have no infinity) *)
Definition clip_el (lower upper el : T) : T :=
  if nltb el lower then lower else if nltb upper el then upper else el.
Definition clip (m : mat T) (lower upper : T) : res (mat T) :=
  if nltb upper lower then Err MatrixAlgorithmsError
  else Ok (apply_elementwise m (clip_el lower upper)).
Definition clip_lower (inf : T) (m : mat T) (lower : T) : res (mat T) := clip m lower inf.
Definition clip_upper (ninf : T) (m : mat T) (upper : T) : res (mat T) := clip m ninf upper.

(** sign, lines 386-395; abs, lines 397-404 *)
Definition sign_el (el : T) : T :=
  if nltb el n0 then nofZ (-1) else if nltb n0 el then nofZ 1 else nofZ 0.
Definition sign (m : mat T) : mat T := apply_elementwise m sign_el.
Definition abs_el (el : T) : T := if nltb el n0 then nopp el else el.
Definition abs (m : mat T) : mat T := apply_elementwise m abs_el.

(** any, lines 471-476: row-major scan stopping at the first hit *)
Definition any (m : mat T) (f : T -> bool) : bool :=
  existsb (fun row => existsb (fun col => f (entry m row col)) (seq 0 (nc m))) (seq 0 (nr m)).
(** all, lines 478-479 *)
Definition all (m : mat T) (f : T -> bool) : bool := negb (any m (fun el => negb (f el))).
(** which, lines 481-487 *)
Definition which (m : mat T) (f : T -> bool) : list (nat * nat) :=
  flat_map (fun row => map (fun col => (row, col))
              (filter (fun col => f (entry m row col)) (seq 0 (nc m)))) (seq 0 (nr m)).
(** where_vector, lines 412-419 *)
Definition where_vector (m : mat T) (f : T -> bool) : res (list nat) :=
  do _ <- must_be_vector m;
  if is_row_vector m then Ok (filter (fun i => f (entry m 0 i)) (seq 0 (nc m)))
  else Ok (filter (fun i => f (entry m i 0)) (seq 0 (nr m))).

(** contains_NaN, lines 465-469: compares with == against a NaN *)
Definition contains_NaN (nan : T) (m : mat T) : bool := any m (fun el => neqb el nan).

(** diag, lines 424-426: raw = [[get(i,i)], ...] *)
Definition diag (m : mat T) : mat T :=
  np_array2 (tab (Nat.min (nr m) (nc m)) (fun i => [entry m i i])).
(** trace, lines 489-490 *)
Definition trace (m : mat T) : T := sum_all (diag m).

(** get_from_vector, lines 570-575 *)
Definition get_from_vector (m : mat T) (index : Z) : res T :=
  do _ <- must_be_vector m;
  if is_row_vector m then get m 0 index else get m index 0.

(** vector_to_diagonal, lines 577-581 *)
Definition vector_to_diagonal (v : mat T) : res (mat T) :=
  do _ <- must_be_vector v;
  let n := num_elements v in
  Ok (np_array2 (tab n (fun j => tab n (fun i =>
        if i =? j then (if is_row_vector v then entry v 0 i else entry v i 0) else n0)))).

(** __eq__, lines 505-514, for two distinct Matrix objects: truthiness of a
    float64 is "compares unequal to 0" (NaN is truthy). *)
Definition truthy (x : T) : bool := negb (neqb x n0).
Definition eq_mat (a b : mat T) : res bool :=
  do diff <- sub a b;
  Ok (negb (existsb (existsb truthy) (rws diff))).

(** Python's list.sort: a stable sort.  [insert_by le x l] puts x in front of the
    first element y with le x y; folding from the right makes equal elements keep
    their order.  reverse=True keeps the order of equal elements as well. *)
Fixpoint insert_by {A} (le : A -> A -> bool) (x : A) (l : list A) : list A :=
  match l with
  | [] => [x]
  | y :: l' => if le x y then x :: l else y :: insert_by le x l'
  end.
Definition stable_sort {A} (le : A -> A -> bool) (l : list A) : list A :=
  fold_right (insert_by le) [] l.

(** Eigen-solver oracle np.linalg.eig: list of eigenvalues and matrix whose
    columns are the eigenvectors, or an exception.
    make_eigenvalue_decomposition, lines 109-121, stores
    (Matrix(eigenvalues).transpose(), Matrix(eigenvectors)). *)
Definition eig_pair : Type := (mat T * mat T)%type.
Definition make_eig (eig : mat T -> res (list T * mat T)) (m : mat T) : res eig_pair :=
  do lv <- eig m;
  Ok (transpose (Mat 1 (length (fst lv)) [fst lv]), snd lv).

(** get_eigenvectors_sorted, lines 583-598, on an already made decomposition
    (the number of pairs is num_rows of the matrix itself) *)
Definition get_eigenvectors_sorted (rows : nat) (d : eig_pair) (ascending : bool) : res (mat T) :=
  do pairs <- mapM (fun i => do x <- get_from_vector (fst d) (Z.of_nat i);
                             do v <- get_column (snd d) (Z.of_nat i);
                             Ok (x, v)) (seq 0 rows);
  let le (p q : T * mat T) :=
    if ascending then nleb (fst p) (fst q) else nleb (fst q) (fst p) in
  match stable_sort le pairs with
  | [] => Err IndexError
  | first :: rest =>
      fold_left (fun acc p => do a <- acc; concat_along_columns a (snd p)) rest (Ok (snd first))
  end.

(** get_eigenvalues_sorted, lines 600-605: column sorted along axis 0, flipped
    (np.flip over both axes of an n x 1 array) for descending order *)
Definition get_eigenvalues_sorted (d : eig_pair) (ascending : bool) : mat T :=
  let col := fst d in
  let sorted := stable_sort (fun a b => nleb a b) (map (fun i => entry col i 0) (seq 0 (nr col))) in
  let final := if ascending then sorted else rev sorted in
  Mat (nr col) 1 (map (fun x => [x]) final).

(** get_dominant_eigenvector, lines 83-84 *)
Definition get_dominant_eigenvector (rows : nat) (d : eig_pair) : res (mat T) :=
  do v <- get_eigenvectors_sorted rows d false; get_column v 0.

(** get_eigenvalue_decomposition_D, lines 90-92 *)
Definition get_eigenvalue_decomposition_D (d : eig_pair) : res (mat T) := vector_to_diagonal (fst d).

(** make_singular_value_decomposition, lines 104-107; the oracle returns
    (u, s, vh) of np.linalg.svd(data, full_matrices=False). *)
Definition svd_triple : Type := (mat T * mat T * mat T)%type.
Definition make_svd (svd : mat T -> res (mat T * list T * mat T)) (m : mat T) : res svd_triple :=
  do usv <- svd m;
  let '(u, s, vh) := usv in
  Ok (mul_scalar u (nofZ (-1)), Mat 1 (length s) [s], mul_scalar vh (nofZ (-1))).
(** svd_U, svd_V, svd_S, lines 127-141 (each recomputes the decomposition) *)
Definition svd_U (svd : mat T -> res (mat T * list T * mat T)) (m : mat T) : res (mat T) :=
  do t <- make_svd svd m; Ok (fst (fst t)).
Definition svd_V (svd : mat T -> res (mat T * list T * mat T)) (m : mat T) : res (mat T) :=
  do t <- make_svd svd m; Ok (snd t).
Definition svd_S (svd : mat T -> res (mat T * list T * mat T)) (m : mat T) : res (mat T) :=
  do t <- make_svd svd m;
  let s := snd (fst t) in
  let n := num_elements s in
  Ok (np_array2 (tab n (fun j => tab n (fun i => if i =? j then entry s 0 i else n0)))).

End Matrix.

Arguments ndarray : clear implicits.
