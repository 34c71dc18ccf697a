(** Object-level model of core/matrix/_Matrix.py: matrices as heap objects that
    hold a reference to a numpy array (possibly a view of a shared buffer) and the
    cached decompositions.  Line numbers refer to that file unless said otherwise.
    The value computed by each method is the function of M_Matrix.v. *)
From Coq Require Import List ZArith Lia Bool Arith.
From Verif Require Import Base Num Mat M_Matrix M_Helper.
Import ListNotations.

Section Heap.
Context {T : Type} `{Num T}.

(** numpy arrays: a memory buffer and an index map into it.  A freshly made array
    is the identity view of its own buffer; .transpose(), basic slices and np.flip
    are views of the same buffer; np.array(...), np.copy, advanced indexing and
    arithmetic allocate a new buffer.  A 1-D array is written as a single row. *)
Record view : Type := View { vbuf : nat; vrows : nat; vcols : nat; vidx : nat -> nat -> nat * nat }.
Definition view_T (v : view) : view := View (vbuf v) (vcols v) (vrows v) (fun i j => vidx v j i).          (* .transpose() *)
Definition view_row (v : view) (k : nat) : view := View (vbuf v) 1 (vcols v) (fun _ j => vidx v k j).      (* data[k] *)
Definition view_col (v : view) (k : nat) : view := View (vbuf v) 1 (vrows v) (fun _ i => vidx v i k).      (* data[:, k] *)
Definition view_head (v : view) (n : nat) : view := View (vbuf v) n (vcols v) (vidx v).                    (* data[:n, :] *)
Definition view_flip (v : view) : view :=                                                                   (* np.flip *)
  View (vbuf v) (vrows v) (vcols v) (fun i j => vidx v (vrows v - 1 - i) (vcols v - 1 - j)).

(** Matrix objects: attributes data, eigenvalue_decomposition and
    singular_value_decomposition, lines 36-39 (qr_decomposition is never set:
    make_qr_decomposition, qr_Q and qr_R raise NotImplementedError). *)
Record obj : Type := Obj { o_data : view; o_eig : option (nat * nat); o_svd : option (nat * nat * nat) }.
Record heap : Type := Heap { bufs : list (mat T); objs : list obj }.

Definition empty_mat : mat T := Mat 0 0 [].
Definition buf (h : heap) (k : nat) : mat T := nth k (bufs h) empty_mat.
Definition no_obj : obj := Obj (View 0 0 0 (fun i j => (i, j))) None None.
Definition the_obj (h : heap) (o : nat) : obj := nth o (objs h) no_obj.

(** contents seen through a view *)
Definition read (h : heap) (v : view) : mat T :=
  mk (vrows v) (vcols v) (fun i j => entry (buf h (vbuf v)) (fst (vidx v i j)) (snd (vidx v i j))).
Definition contents (h : heap) (o : nat) : mat T := read h (o_data (the_obj h o)).

(** writing all cells of a view *)
Definition cells (r c : nat) : list (nat * nat) := flat_map (fun i => map (fun j => (i, j)) (seq 0 c)) (seq 0 r).
Definition overlay (v : view) (m b : mat T) : mat T :=
  fold_left (fun b p => set_entry b (fst (vidx v (fst p) (snd p))) (snd (vidx v (fst p) (snd p))) (entry m (fst p) (snd p)))
            (cells (vrows v) (vcols v)) b.

(** Methods run in a heap, change it, and return or raise. *)
Definition M (A : Type) : Type := heap -> heap * res A.
Definition ret {A} (a : A) : M A := fun h => (h, Ok a).
Definition lift {A} (r : res A) : M A := fun h => (h, r).
Definition bindM {A B} (x : M A) (f : A -> M B) : M B :=
  fun h => match x h with (h', Ok a) => f a h' | (h', Err e) => (h', Err e) end.
Notation "x <-- a ; b" := (bindM a (fun x => b)) (at level 61, a at next level, right associativity).

(** a newly allocated array (rectangular by construction) *)
Definition norm_mat (m : mat T) : mat T := mk (nr m) (nc m) (entry m).
Definition np_new (m : mat T) : M view := fun h =>
  (Heap (bufs h ++ [norm_mat m]) (objs h), Ok (View (length (bufs h)) (nr m) (nc m) (fun i j => (i, j)))).
Definition np_copy (v : view) : M view := fun h => np_new (read h v) h.
Definition m_read (v : view) : M (mat T) := fun h => (h, Ok (read h v)).
Definition m_data (o : nat) : M view := fun h => (h, Ok (o_data (the_obj h o))).
Definition m_contents (o : nat) : M (mat T) := fun h => (h, Ok (contents h o)).
Definition m_store (v : view) (m : mat T) : M unit := fun h =>
  (Heap (upd (bufs h) (vbuf v) (overlay v m (buf h (vbuf v)))) (objs h), Ok tt).

(** Matrix(data), lines 28-42.  A 2-D array is kept by reference (lines 33, 36);
    a 1-D one is copied by np.array([data]) (line 34). *)
Definition matrix_of (v : view) : M nat := fun h =>
  (Heap (bufs h) (objs h ++ [Obj v None None]), Ok (length (objs h))).
Definition matrix_of_1d (v : view) : M nat := w <-- np_copy v; matrix_of w.
Definition fresh (r : res (mat T)) : M nat := m <-- lift r; v <-- np_new m; matrix_of v.

(** reset_cache, lines 344-347 *)
Definition set_obj (o : nat) (x : obj) : M unit := fun h => (Heap (bufs h) (upd (objs h) o x), Ok tt).
Definition reset_cache (o : nat) : M unit := fun h =>
  set_obj o (Obj (o_data (the_obj h o)) None None) h.

(** ---- methods that copy explicitly ---- *)
(** transpose, lines 260-261: np.array(data.transpose(), copy=True) *)
Definition m_transpose (o : nat) : M nat := v <-- m_data o; w <-- np_copy (view_T v); matrix_of w.
(** copy, lines 306-307: np.copy *)
Definition m_copy (o : nat) : M nat := v <-- m_data o; w <-- np_copy v; matrix_of w.
(** get_sub_matrix, lines 44-58: advanced indexing, then np.array *)
Definition m_get_sub_matrix (o : nat) (rows columns : sel) : M nat :=
  m <-- m_contents o; r <-- lift (get_sub_matrix m rows columns); v <-- np_new r; w <-- np_copy v; matrix_of w.
(** get_row, lines 292-293 *)
Definition m_get_row (o : nat) (i : Z) : M nat :=
  v <-- m_data o; k <-- lift (npidx (vrows v) i); w <-- np_copy (view_row v k); matrix_of_1d w.
(** get_column, lines 295-296 *)
Definition m_get_column (o : nat) (j : Z) : M nat :=
  v <-- m_data o; k <-- lift (npidx (vcols v) j); w <-- np_copy (view_col v k); t <-- matrix_of_1d w; m_transpose t.
(** head, lines 421-422 *)
Definition m_head (o : nat) (n : Z) : M nat :=
  v <-- m_data o; w <-- np_copy (view_head v (head_len (vrows v) n)); matrix_of w.

(** ---- in-place methods ---- *)
(** set, lines 272-274: the cache is dropped before the write is attempted *)
Definition m_set (o : nat) (row column : Z) (x : T) : M unit :=
  _ <-- reset_cache o; v <-- m_data o; m <-- m_read v; m' <-- lift (set m row column x); m_store v m'.
(** set_row, lines 276-282 (a column vector argument is transposed into a new object) *)
Definition m_set_row (o : nat) (i : Z) (row : nat) : M unit :=
  r <-- m_contents row; _ <-- lift (must_be_vector r);
  row' <-- (if is_column_vector r then m_transpose row else ret row);
  _ <-- reset_cache o; v <-- m_data o; m <-- m_read v; r' <-- m_contents row';
  m' <-- lift (set_row m i r'); m_store v m'.
(** set_column, lines 284-290 *)
Definition m_set_column (o : nat) (j : Z) (column : nat) : M unit :=
  c <-- m_contents column; _ <-- lift (must_be_vector c);
  column' <-- (if is_row_vector c then m_transpose column else ret column);
  _ <-- reset_cache o; v <-- m_data o; m <-- m_read v; c' <-- m_contents column';
  m' <-- lift (set_column m j c'); m_store v m'.
(** vector_op_modify, lines 550-553, behind add_/sub_/mul_/div_by_vector_modify,
    lines 533-543: no reset_cache *)
Definition m_vector_op_modify (op : T -> T -> T) (o vec : nat) : M unit :=
  v <-- m_data o; m <-- m_read v; r <-- m_contents vec;
  m' <-- lift (vector_op_modify op m r); m_store v m'.
(** fill_diagonal, core/matrix/helper.py 224-228: writes data directly, no reset_cache *)
Definition m_fill_diagonal (o : nat) (x : T) : M unit :=
  v <-- m_data o; m <-- m_read v; m_store v (fill_diagonal m x).

(** vector_op, lines 545-548: in-place on a copy *)
Definition m_vector_op (op : T -> T -> T) (o vec : nat) : M nat :=
  c <-- m_copy o; _ <-- m_vector_op_modify op c vec; ret c.
(** scale_by_row_vector, lines 221-224; scale_by_column_vector, 226-229 *)
Definition m_scale_by_row_vector (o vec : nat) : M nat :=
  m <-- m_contents o; r <-- m_contents vec;
  _ <-- lift (must_be_column_vector r); _ <-- lift (dimensions_must_match false false true false m r);
  t <-- m_transpose vec; m_vector_op nmul o t.
Definition m_scale_by_column_vector (o vec : nat) : M nat :=
  m <-- m_contents o; r <-- m_contents vec;
  _ <-- lift (must_be_column_vector r); _ <-- lift (dimensions_must_match true false false false m r);
  m_vector_op nmul o vec.
(** apply_elementwise, lines 355-360: writes into a copy *)
Definition m_apply_elementwise (o : nat) (body : T -> T) : M nat :=
  c <-- m_copy o; v <-- m_data c; m <-- m_read v; _ <-- m_store v (apply_elementwise m body); ret c.
(** clip, lines 362-378 (clip_lower and clip_upper, 380-384, call it with an infinite bound) *)
Definition m_clip (o : nat) (lower upper : T) : M nat :=
  if nltb upper lower then lift (Err MatrixAlgorithmsError) else m_apply_elementwise o (clip_el lower upper).

(** ---- decompositions ---- *)
Variable eig : mat T -> res (list T * mat T).                 (* np.linalg.eig *)
Variable svd : mat T -> res (mat T * list T * mat T).         (* np.linalg.svd(., full_matrices=False) *)

(** make_eigenvalue_decomposition, lines 109-121 *)
Definition set_eig (o : nat) (p : nat * nat) : M unit := fun h =>
  set_obj o (Obj (o_data (the_obj h o)) (Some p) (o_svd (the_obj h o))) h.
Definition get_eig (o : nat) : M (option (nat * nat)) := fun h => (h, Ok (o_eig (the_obj h o))).
Definition m_make_eig (o : nat) : M (nat * nat) :=
  c <-- get_eig o;
  match c with
  | Some p => ret p
  | None =>
      m <-- m_contents o; lv <-- lift (eig m);
      l <-- np_new (Mat 1 (length (fst lv)) [fst lv]); a <-- matrix_of_1d l; at_ <-- m_transpose a;
      w <-- np_new (snd lv); b <-- matrix_of w;
      _ <-- set_eig o (at_, b); ret (at_, b)
  end.
(** get_eigenvectors, lines 70-75 (sort_dominance=False);
    get_eigenvalue_decomposition_V, 86-88, returns the cached object itself;
    get_eigenvalue_decomposition_D, 90-92; get_eigenvalues, 94-96 *)
Definition m_get_eigenvectors (o : nat) : M nat := p <-- m_make_eig o; m_copy (snd p).
Definition m_get_eig_V (o : nat) : M nat := p <-- m_make_eig o; ret (snd p).
Definition m_get_eig_D (o : nat) : M nat :=
  p <-- m_make_eig o; m <-- m_contents (fst p); fresh (vector_to_diagonal m).
Definition m_get_eigenvalues (o : nat) : M nat := p <-- m_make_eig o; m_copy (fst p).
(** get_eigenvalues_sorted, lines 600-605: in-place sort of the copy; for
    descending order its data attribute is replaced by the flipped view *)
Definition set_data (o : nat) (v : view) : M unit := fun h =>
  set_obj o (Obj v (o_eig (the_obj h o)) (o_svd (the_obj h o))) h.
Definition m_get_eigenvalues_sorted (o : nat) (ascending : bool) : M nat :=
  c <-- m_get_eigenvalues o; v <-- m_data c; m <-- m_read v;
  _ <-- m_store v (get_eigenvalues_sorted (m, m) true);
  if ascending then ret c else _ <-- set_data c (view_flip v); ret c.
(** get_eigenvectors_sorted, lines 583-598 (the loop of get_column and concat is
    evaluated on values; its temporaries are not kept) *)
Definition m_get_eigenvectors_sorted (o : nat) (ascending : bool) : M nat :=
  p <-- m_make_eig o; l <-- m_contents (fst p); w <-- m_contents (snd p); m <-- m_contents o;
  fresh (get_eigenvectors_sorted (nr m) (l, w) ascending).
(** get_dominant_eigenvector, lines 83-84 *)
Definition m_get_dominant_eigenvector (o : nat) : M nat :=
  w <-- m_get_eigenvectors_sorted o false; m_get_column w 0.

(** make_singular_value_decomposition, lines 104-107: recomputed on every call *)
Definition set_svd (o : nat) (p : nat * nat * nat) : M unit := fun h =>
  set_obj o (Obj (o_data (the_obj h o)) (o_eig (the_obj h o)) (Some p)) h.
Definition m_make_svd (o : nat) : M (nat * nat * nat) :=
  m <-- m_contents o; usv <-- lift (svd m);
  a <-- fresh (Ok (mul_scalar (fst (fst usv)) (nofZ (-1))));
  s <-- np_new (Mat 1 (length (snd (fst usv))) [snd (fst usv)]); b <-- matrix_of_1d s;
  c <-- fresh (Ok (mul_scalar (snd usv) (nofZ (-1))));
  _ <-- set_svd o (a, b, c); ret (a, b, c).
(** svd_U, svd_V, lines 127-133; svd_S, 135-141 *)
Definition m_svd_U (o : nat) : M nat := p <-- m_make_svd o; m_copy (fst (fst p)).
Definition m_svd_V (o : nat) : M nat := p <-- m_make_svd o; m_copy (snd p).
Definition m_svd_S (o : nat) : M nat :=
  p <-- m_make_svd o; s <-- m_contents (snd (fst p));
  let n := num_elements s in
  fresh (Ok (np_array2 (tab n (fun j => tab n (fun i => if i =? j then entry s 0 i else n0))))).
(** get_singular_values, lines 143-144: subscripting None is a TypeError *)
Definition m_get_singular_values (o : nat) : M nat := fun h =>
  match o_svd (the_obj h o) with
  | None => (h, Err TypeError)
  | Some p => m_transpose (snd (fst p)) h
  end.

(** ---- methods whose result is a new array or a number, computed from the contents ---- *)
Variable nexp ntanh : T -> T.
Variable npow : T -> T -> T.
Variable inv pinv : mat T -> res (mat T).
Variable lstsq : mat T -> mat T -> res (mat T).
Variable amax amedian : mat T -> res T.
Variable nan : T.

Inductive unary : Type :=
| U_sqrt | U_exp | U_tanh | U_pow (e : T) | U_mul (x : T) | U_div (x : T) | U_sub (x : T) | U_add (x : T)
| U_normalized (axis : Z) | U_inverse | U_pseudo_inverse | U_diag | U_vector_to_diagonal
| U_sum (axis : Z) | U_mean (axis : Z).
(** sqrt 257-258, exp 607-608, tanh 610-611, pow_elementwise 254-255, scalar mul 181,
    div 239-240, scalar sub/add 242-252, normalized 205-208, inverse 298-304,
    pseudo_inverse 616-617, diag 424-426, vector_to_diagonal 577-581, sum/mean
    with an axis 146-158, 428-439 *)
Definition right_of (r : res (T + mat T)) : res (mat T) :=
  do x <- r; match x with inr m => Ok m | inl x => Ok (Mat 1 1 [[x]]) end.
Definition unary_val (u : unary) (m : mat T) : res (mat T) :=
  match u with
  | U_sqrt => Ok (sqrt_mat m)
  | U_exp => Ok (map_mat nexp m)
  | U_tanh => Ok (map_mat ntanh m)
  | U_pow e => Ok (map_mat (fun x => npow x e) m)
  | U_mul x => Ok (mul_scalar m x)
  | U_div x => Ok (div_scalar m x)
  | U_sub x => Ok (sub_scalar m x)
  | U_add x => Ok (add_scalar m x)
  | U_normalized a => normalized m a
  | U_inverse => inverse inv lstsq m
  | U_pseudo_inverse => pinv m
  | U_diag => Ok (diag m)
  | U_vector_to_diagonal => vector_to_diagonal m
  | U_sum a => right_of (sum m (Some a))
  | U_mean a => right_of (mean m (Some a))
  end.

(** mul 174-181, mul_elementwise 216-219, div_elementwise 234-237, sub/add 242-252,
    concat 335-342 *)
Inductive binary : Type := B_mul | B_mul_elementwise | B_div_elementwise | B_sub | B_add | B_concat (axis : Z).
Definition binary_val (b : binary) (m n : mat T) : res (mat T) :=
  match b with
  | B_mul => mul m n
  | B_mul_elementwise => mul_elementwise m n
  | B_div_elementwise => div_elementwise m n
  | B_sub => sub m n
  | B_add => add m n
  | B_concat a => concat m n a
  end.

(** What a call returns. *)
Inductive value : Type :=
| VNone | VMat (o : nat) | VNum (x : T) | VBool (b : bool) | VNat (n : nat)
| VNats (l : list nat) | VPos (l : list (nat * nat)) | VRow (l : list T) | VRows (l : list (list T)).

(** Queries: norms 160-172, get 269-270, as_real 309-313, raw copies 315-333, shape
    tests 210-214, 263-267, 349-353, 567-568, 613-614, max/median 406-410,
    where_vector 412-419, any/all/which 471-487, contains_NaN 465-469, trace 489-490,
    sum/mean without axis, get_from_vector 570-575 *)
Inductive query : Type :=
| Q_norm1 | Q_norm2 | Q_norm2_squared | Q_get (r c : Z) | Q_as_real | Q_raw1 | Q_raw2
| Q_is_vector | Q_is_row_vector | Q_is_column_vector | Q_is_square | Q_num_rows | Q_num_columns | Q_num_elements
| Q_max | Q_median | Q_where (f : T -> bool) | Q_any (f : T -> bool) | Q_all (f : T -> bool) | Q_which (f : T -> bool)
| Q_contains_NaN | Q_trace | Q_sum | Q_mean | Q_get_from_vector (i : Z).
Definition num_of (r : res (T + mat T)) : res value :=
  do x <- r; match x with inl x => Ok (VNum x) | inr _ => Ok VNone end.
Definition query_val (q : query) (m : mat T) : res value :=
  match q with
  | Q_norm1 => Ok (VNum (norm1 m)) | Q_norm2 => Ok (VNum (norm2 m)) | Q_norm2_squared => Ok (VNum (norm2_squared m))
  | Q_get r c => map_res VNum (get m r c) | Q_as_real => map_res VNum (as_real m)
  | Q_raw1 => Ok (VRow (to_raw_copy_1D m)) | Q_raw2 => Ok (VRows (to_raw_copy_2D m))
  | Q_is_vector => Ok (VBool (is_vector m)) | Q_is_row_vector => Ok (VBool (is_row_vector m))
  | Q_is_column_vector => Ok (VBool (is_column_vector m)) | Q_is_square => Ok (VBool (is_square m))
  | Q_num_rows => Ok (VNat (nr m)) | Q_num_columns => Ok (VNat (nc m)) | Q_num_elements => Ok (VNat (num_elements m))
  | Q_max => map_res VNum (amax m) | Q_median => map_res VNum (amedian m)
  | Q_where f => map_res VNats (where_vector m f)
  | Q_any f => Ok (VBool (any m f)) | Q_all f => Ok (VBool (all m f)) | Q_which f => Ok (VPos (which m f))
  | Q_contains_NaN => Ok (VBool (contains_NaN nan m)) | Q_trace => Ok (VNum (trace m))
  | Q_sum => num_of (sum m None) | Q_mean => num_of (mean m None)
  | Q_get_from_vector i => map_res VNum (get_from_vector m i)
  end.

(** Calls.  The arguments that are matrices are object references. *)
Inductive call : Type :=
| K_create (m : mat T)                                   (* factory.create, core/matrix/factory.py 32-39 *)
| K_transpose (o : nat) | K_copy (o : nat)
| K_get_sub_matrix (o : nat) (rows columns : sel)
| K_get_rows (o : nat) (rows : sel) | K_get_columns (o : nat) (columns : sel)
| K_get_row (o : nat) (i : Z) | K_get_column (o : nat) (j : Z) | K_head (o : nat) (n : Z)
| K_set (o : nat) (row column : Z) (x : T)
| K_set_row (o : nat) (i : Z) (row : nat) | K_set_column (o : nat) (j : Z) (column : nat)
| K_vector_op_modify (op : T -> T -> T) (o vec : nat)
| K_fill_diagonal (o : nat) (x : T)
| K_vector_op (op : T -> T -> T) (o vec : nat)
| K_scale_by_row_vector (o vec : nat) | K_scale_by_column_vector (o vec : nat)
| K_apply_elementwise (o : nat) (body : T -> T) | K_clip (o : nat) (lower upper : T)
| K_reset_cache (o : nat)
| K_get_eigenvectors (o : nat) (sort_dominance : bool) | K_get_eig_V (o : nat) | K_get_eig_D (o : nat)
| K_get_eigenvalues (o : nat) | K_get_eigenvalues_sorted (o : nat) (ascending : bool)
| K_get_eigenvectors_sorted (o : nat) (ascending : bool) | K_get_dominant_eigenvector (o : nat)
| K_make_eig (o : nat) | K_make_svd (o : nat)
| K_svd_U (o : nat) | K_svd_V (o : nat) | K_svd_S (o : nat) | K_get_singular_values (o : nat)
| K_unary (u : unary) (o : nat) | K_binary (b : binary) (o p : nat)
| K_query (q : query) (o : nat) | K_vector_dot (o p : nat) | K_same_shape_as (o p : nat) | K_eq (o p : nat).

Definition vmat (x : M nat) : M value := o <-- x; ret (VMat o).
Definition vnone {A} (x : M A) : M value := _ <-- x; ret VNone.

Definition run (c : call) : M value :=
  match c with
  | K_create m => vmat (fresh (Ok m))
  | K_transpose o => vmat (m_transpose o)
  | K_copy o => vmat (m_copy o)
  | K_get_sub_matrix o r c => vmat (m_get_sub_matrix o r c)
  | K_get_rows o r =>                                                          (* 60-63 *)
      vmat (m <-- m_contents o; m_get_sub_matrix o r (STuple 0 (Z.of_nat (nc m))))
  | K_get_columns o c =>                                                       (* 65-68 *)
      vmat (m <-- m_contents o; m_get_sub_matrix o (STuple 0 (Z.of_nat (nr m))) c)
  | K_get_row o i => vmat (m_get_row o i)
  | K_get_column o j => vmat (m_get_column o j)
  | K_head o n => vmat (m_head o n)
  | K_set o r c x => vnone (m_set o r c x)
  | K_set_row o i r => vnone (m_set_row o i r)
  | K_set_column o j c => vnone (m_set_column o j c)
  | K_vector_op_modify op o v => vnone (m_vector_op_modify op o v)
  | K_fill_diagonal o x => vnone (m_fill_diagonal o x)
  | K_vector_op op o v => vmat (m_vector_op op o v)
  | K_scale_by_row_vector o v => vmat (m_scale_by_row_vector o v)
  | K_scale_by_column_vector o v => vmat (m_scale_by_column_vector o v)
  | K_apply_elementwise o b => vmat (m_apply_elementwise o b)
  | K_clip o l u => vmat (m_clip o l u)
  | K_reset_cache o => vnone (reset_cache o)
  | K_get_eigenvectors o s =>                                                  (* 70-75 *)
      vmat (if s then m_get_eigenvectors_sorted o false else m_get_eigenvectors o)
  | K_get_eig_V o => vmat (m_get_eig_V o)
  | K_get_eig_D o => vmat (m_get_eig_D o)
  | K_get_eigenvalues o => vmat (m_get_eigenvalues o)
  | K_get_eigenvalues_sorted o a => vmat (m_get_eigenvalues_sorted o a)
  | K_get_eigenvectors_sorted o a => vmat (m_get_eigenvectors_sorted o a)
  | K_get_dominant_eigenvector o => vmat (m_get_dominant_eigenvector o)
  | K_make_eig o => vnone (m_make_eig o)
  | K_make_svd o => vnone (m_make_svd o)
  | K_svd_U o => vmat (m_svd_U o)
  | K_svd_V o => vmat (m_svd_V o)
  | K_svd_S o => vmat (m_svd_S o)
  | K_get_singular_values o => vmat (m_get_singular_values o)
  | K_unary u o => vmat (m <-- m_contents o; fresh (unary_val u m))
  | K_binary b o p => vmat (m <-- m_contents o; n <-- m_contents p; fresh (binary_val b m n))
  | K_query q o => m <-- m_contents o; lift (query_val q m)
  | K_vector_dot o p => m <-- m_contents o; n <-- m_contents p; lift (map_res VNum (vector_dot m n))      (* 186-203 *)
  | K_same_shape_as o p => m <-- m_contents o; n <-- m_contents p; lift (Ok (VBool (same_shape_as m n)))  (* 213-214 *)
  | K_eq o p =>                                                                (* __eq__, 505-514: identity first *)
      if o =? p then ret (VBool true)
      else m <-- m_contents o; n <-- m_contents p; lift (map_res VBool (eq_mat m n))
  end.

(** Client programs: a list of calls whose matrix arguments name earlier results.
    [env] holds the references the client has obtained, in order; a call naming a
    variable that does not exist is a NameError and does nothing. *)
Definition call_objs (c : call) : list nat :=
  match c with
  | K_create _ => []
  | K_transpose o | K_copy o | K_get_sub_matrix o _ _ | K_get_rows o _ | K_get_columns o _ | K_get_row o _
  | K_get_column o _ | K_head o _ | K_set o _ _ _ | K_fill_diagonal o _ | K_apply_elementwise o _ | K_clip o _ _
  | K_reset_cache o | K_get_eigenvectors o _ | K_get_eig_V o | K_get_eig_D o | K_get_eigenvalues o
  | K_get_eigenvalues_sorted o _ | K_get_eigenvectors_sorted o _ | K_get_dominant_eigenvector o
  | K_make_eig o | K_make_svd o | K_svd_U o | K_svd_V o | K_svd_S o | K_get_singular_values o
  | K_unary _ o | K_query _ o => [o]
  | K_set_row o _ p | K_set_column o _ p | K_vector_op_modify _ o p | K_vector_op _ o p
  | K_scale_by_row_vector o p | K_scale_by_column_vector o p | K_binary _ o p
  | K_vector_dot o p | K_same_shape_as o p | K_eq o p => [o; p]
  end.
Record state : Type := St { hp : heap; env : list nat }.
Definition step (s : state) (c : call) : state * res value :=
  if forallb (fun o => existsb (Nat.eqb o) (env s)) (call_objs c) then
    let '(h, r) := run c (hp s) in
    (St h (match r with Ok (VMat o) => env s ++ [o] | _ => env s end), r)
  else (s, Err AttributeError).
Fixpoint exec (s : state) (cs : list call) : state :=
  match cs with [] => s | c :: cs' => exec (fst (step s c)) cs' end.
Definition start : state := St (Heap [] []) [].

End Heap.
Arguments buf : simpl never.
Arguments the_obj : simpl never.
Arguments read : simpl never.
Arguments contents : simpl never.
