(** algorithm/_PCA.py.  Line numbers refer to that file.

    [eig] is np.linalg.eig (real answers only) and [argsort] is np.argsort with its default,
    unstable sorting method: both are parameters.  The attribute train is only used inside configure and
    is not kept.  Python's debug output is not modelled. *)
From Coq Require Import List ZArith Lia Bool Arith.
From Verif Require Import Base Num Mat M_Matrix M_Factory M_Helper M_Loop M_Utils M_Transform M_PLSBase M_PLS.
Import ListNotations.
Local Notation zn := Z.of_nat.

Section PCA.
Context {T : Type} `{Num T}.
Variable eig : mat T -> res (list T * mat T).
Variable argsort : list T -> list nat.

(** __init__, 27-43 *)
Record pca_st : Type := Pca {
  pc_variance : T; pc_max_columns : Z; pc_center : bool;
  pc_loadings : option (mat T); pc_scores : option (mat T); pc_correlation : option (mat T);
  pc_eigenvectors : option (mat T); pc_eigenvalues : option (mat T);
  pc_sorted : list nat; pc_sum : T; pc_num_cols : nat; pc_num_rows : nat; pc_keep : list nat;
  pc_trans : option (ptrans T) }.
(** A new object: __init__, initialize (45-49) and reset *)
Definition pca_new : pca_st := Pca (lit 95 2) (-1) false None None None None None [] n0 0 0 [] None.
(** reset, 51-60: num_cols, num_rows and keep_cols stay *)
Definition pca_reset (s : pca_st) : pca_st :=
  Pca (pc_variance s) (pc_max_columns s) (pc_center s) None None None None None [] n0
      (pc_num_cols s) (pc_num_rows s) (pc_keep s) None.

(** __setattr__ (core/_LoggingObject.py 34-46) with the validators, 62-72 *)
Inductive pca_key : Type := PcVariance (v : T) | PcMaxColumns (v : Z) | PcCenter (v : bool).
Definition pca_valid (k : pca_key) : bool :=
  match k with
  | PcVariance v => nltb n0 v && nltb v n1
  | PcMaxColumns v => (v =? -1)%Z || (0 <? v)%Z
  | PcCenter _ => true
  end.
Definition pca_store (k : pca_key) (s : pca_st) : pca_st :=
  let put v m c := Pca v m c (pc_loadings s) (pc_scores s) (pc_correlation s) (pc_eigenvectors s) (pc_eigenvalues s)
                       (pc_sorted s) (pc_sum s) (pc_num_cols s) (pc_num_rows s) (pc_keep s) (pc_trans s) in
  match k with
  | PcVariance v => put v (pc_max_columns s) (pc_center s)
  | PcMaxColumns v => put (pc_variance s) v (pc_center s)
  | PcCenter v => put (pc_variance s) (pc_max_columns s) v
  end.
Definition pca_set (s : pca_st) (k : pca_key) : pca_st * res unit :=
  if pca_valid k then (pca_store k (pca_reset s), Ok tt) else (s, Err ValueError).

(** fill_correlation, 74-88 *)
Definition pca_correlation (n : nat) (train : mat T) : res (mat T) :=
  for_range n (fun C i =>
    for_each (seq i (n - i)) (fun C j =>
      do cov <- for_range (nr train) (fun cov r =>
          do a <- get train (zn r) (zn i);
          do b <- get train (zn r) (zn j);
          Ok (nadd cov (nmul a b))) n0;
      let cov := ndiv cov (nofZ (zn (nr train) - 1)) in
      do C <- set C (zn i) (zn j) cov;
      set C (zn j) (zn i) cov) C) (zeros (zn n) (zn n)).
(** remove_columns, 90-103 *)
Definition pca_remove (keep : list nat) (data : mat T) : res (mat T) :=
  if length keep =? nc data then Ok data
  else get_sub_matrix data (SList (map zn (seq 0 (nr data)))) (SList (map zn keep)).
(** 114-123.  A set of the numbers seen so far: the second distinct one ends the loop, so there is one
    exactly when some entry differs from the first (a NaN differs from everything). *)
Definition pca_keep (data : mat T) : list nat :=
  filter (fun j => existsb (fun i => negb (neqb (entry data i j) (entry data 0 j))) (seq 1 (nr data - 1))) (seq 0 (nc data)).
(** 140-141 *)
Definition pca_clip (v : T) : T := if nltb v n0 then n0 else v.

(** configure, 105-148, with the state left behind by an exception *)
Definition pca_configure (s : pca_st) (instances : mat T) : pca_st * res unit :=
  let keep := pca_keep instances in
  let with_keep t := Pca (pc_variance s) (pc_max_columns s) (pc_center s) (pc_loadings s) (pc_scores s) (pc_correlation s)
        (pc_eigenvectors s) (pc_eigenvalues s) (pc_sorted s) (pc_sum s) (pc_num_cols s) (pc_num_rows s) keep t in
  match pca_remove keep instances with
  | Err e => (with_keep (pc_trans s), Err e)
  | Ok train =>
      let t := if pc_center s then PTCenter (t_new center) else PTStandardize (t_new standardize) in
      match pt_transform t train with
      | (t, Err e) => (with_keep (Some t), Err e)
      | (t, Ok train) =>
          let rows := nr train in let n := nc train in
          let upd C V l so su := Pca (pc_variance s) (pc_max_columns s) (pc_center s) (pc_loadings s) (pc_scores s)
                C V l so su n rows keep (Some t) in
          match pca_correlation n train with
          | Err e => (upd None (pc_eigenvectors s) (pc_eigenvalues s) (pc_sorted s) (pc_sum s), Err e)
          | Ok C =>
              match make_eig eig C with
              | Err e => (upd (Some C) (pc_eigenvectors s) (pc_eigenvalues s) (pc_sorted s) (pc_sum s), Err e)
              | Ok (values, vectors) =>
                  let values := apply_elementwise values pca_clip in
                  let raw := to_raw_copy_1D values in
                  (upd (Some C) (Some vectors) (Some values) (argsort raw) (pysum raw), Ok tt)
              end
          end
      end
  end.

(** num_cols_lower_bound, 158-163 and 203-208; the components visited, in order: 172 and 215 *)
Definition pca_lower (s : pca_st) : nat :=
  if (0 <? pc_max_columns s)%Z then Z.to_nat (zn (pc_num_cols s) - pc_max_columns s) else 0.
Definition pca_order (s : pca_st) : list nat := rev (seq (pca_lower s) (pc_num_cols s - pca_lower s)).
(** The condition of 181 and 225 *)
Definition pca_enough (s : pca_st) (cumulative : T) : bool := nleb (pc_variance s) (ndiv cumulative (pc_sum s)).

(** 172-182: the loop over the components for row n of the transformed data; result new_vals and cols *)
Fixpoint pca_row (s : pca_st) (data : mat T) (n : nat) (is_ : list nat) (new_vals : list T) (cumulative : T) (cols : nat)
  : res (list T * nat) :=
  match is_ with
  | [] => Ok (new_vals, cols)
  | i :: is_ =>
      do val <- for_range (pc_num_cols s) (fun val j =>
          do V <- need (pc_eigenvectors s);
          do row <- get_row V (zn j);
          do k <- lget (pc_sorted s) (zn i);
          do x <- get row 0 (zn k);
          do d <- get data (zn n) (zn j);
          Ok (nadd val (nmul x d))) n0;
      do new_vals <- lset new_vals (zn (pc_num_cols s) - zn i - 1) val;
      do k <- lget (pc_sorted s) (zn i);
      do values <- need (pc_eigenvalues s);
      do e <- get_from_vector values (zn k);
      let cumulative := nadd cumulative e in
      if pca_enough s cumulative then Ok (new_vals, S cols)
      else pca_row s data n is_ new_vals cumulative (S cols)
  end.
(** do_transform, 150-197 *)
Definition pca_do_transform (s : pca_st) (data : mat T) : pca_st * res (mat T) :=
  let num_cols := if (0 <? pc_max_columns s)%Z then Z.to_nat (pc_max_columns s) else pc_num_cols s in
  match pca_remove (pc_keep s) data with
  | Err e => (s, Err e)
  | Ok data =>
      match pc_trans s with
      | None => (s, Err AttributeError)
      | Some t =>
          let (t, r) := pt_transform t data in
          (Pca (pc_variance s) (pc_max_columns s) (pc_center s) (pc_loadings s) (pc_scores s) (pc_correlation s)
               (pc_eigenvectors s) (pc_eigenvalues s) (pc_sorted s) (pc_sum s) (pc_num_cols s) (pc_num_rows s) (pc_keep s) (Some t),
           do data <- r;
           do out <- for_range (nr data) (fun st n =>
               do r <- pca_row s data n (pca_order s) (repeat n0 num_cols) n0 0;
               Ok (fst st ++ [fst r], Nat.max (snd st) (snd r))) ([], 0);
           let (values, num_cols_act) := out in
           for_range (length values) (fun result n =>
             for_range (Nat.min (length (nth n values [])) num_cols_act) (fun result i =>
               set result (zn n) (zn i) (nth i (nth n values []) n0)) result)
             (zeros (zn (nr data)) (zn num_cols_act)))
      end
  end.

(** get_coefficients, 199-228, when there are eigenvalues *)
Fixpoint pca_coefficients (s : pca_st) (V values : mat T) (is_ : list nat) (cumulative : T) : res (list (list T)) :=
  match is_ with
  | [] => Ok []
  | i :: is_ =>
      do one_pc <- mapM (fun j => do k <- lget (pc_sorted s) (zn i); get V (zn j) (zn k)) (seq 0 (pc_num_cols s));
      do k <- lget (pc_sorted s) (zn i);
      do e <- get_from_vector values (zn k);
      let cumulative := nadd cumulative e in
      if pca_enough s cumulative then Ok [one_pc]
      else do rest <- pca_coefficients s V values is_ cumulative; Ok (one_pc :: rest)
  end.
Definition pca_get_coefficients (s : pca_st) : res (option (list (list T))) :=
  match pc_eigenvalues s with
  | None => Ok None
  | Some values => do V <- need (pc_eigenvectors s); map_res Some (pca_coefficients s V values (pca_order s) n0)
  end.
(** list.index *)
Fixpoint index_of (n : nat) (l : list nat) : nat :=
  match l with [] => 0 | x :: l => if x =? n then 0 else S (index_of n l) end.
(** extract_loadings, 230-255 (len(None) is a TypeError) *)
Definition pca_extract_loadings (s : pca_st) : res (mat T) :=
  do c <- pca_get_coefficients s;
  match c with
  | None => Err TypeError
  | Some coeff =>
      let w := length coeff + 1 in
      do result <- for_range (pc_num_cols s) (fun r n => set r (zn n) (zn (nc r) - 1) (nofZ (zn n + 1)))
                     (zeros (zn (pc_num_cols s)) (zn w));
      for_range (length coeff) (fun result i =>
        for_range (pc_num_cols s) (fun result n =>
          let value :=
            if existsb (Nat.eqb n) (pc_keep s) then
              let index := index_of n (pc_keep s) in
              if index <? length (nth i coeff []) then nth index (nth i coeff []) n0 else n0
            else n0 in
          set result (zn n) (zn i) value) result) result
  end.

(** transform, 257-270 *)
Definition pca_transform (s : pca_st) (data : mat T) : pca_st * res (mat T) :=
  let put s l sc := Pca (pc_variance s) (pc_max_columns s) (pc_center s) l sc (pc_correlation s)
       (pc_eigenvectors s) (pc_eigenvalues s) (pc_sorted s) (pc_sum s) (pc_num_cols s) (pc_num_rows s) (pc_keep s) (pc_trans s) in
  let s := pca_reset s in
  match pca_configure s data with
  | (s, Err e) => (s, Err e)
  | (s, Ok _) =>
      match pca_do_transform s data with
      | (s, Err e) => (s, Err e)
      | (s, Ok result) =>
          match pca_extract_loadings s with
          | Err e => (put s (pc_loadings s) (Some result), Err e)
          | Ok l => (put s (Some l) (Some result), Ok result)
          end
      end
  end.

(** What a user can do with one object. *)
Inductive pca_op : Type :=
| PcTransform (x : mat T) | PcSet (k : pca_key) | PcReset | PcConfigure (x : mat T) | PcDoTransform (x : mat T).
Definition pca_step (s : pca_st) (o : pca_op) : pca_st :=
  match o with
  | PcTransform x => fst (pca_transform s x)
  | PcSet k => fst (pca_set s k)
  | PcReset => pca_reset s
  | PcConfigure x => fst (pca_configure s x)
  | PcDoTransform x => fst (pca_do_transform s x)
  end.
Definition pca_run (h : list pca_op) : pca_st := fold_left pca_step h pca_new.
End PCA.
Arguments pca_st : clear implicits.
Arguments pca_key : clear implicits.
Arguments pca_op : clear implicits.
