(** algorithm/_CCAFilter.py (with algorithm/_AbstractAlgorithm.py, core/_LoggingObject.py and
    transformation/_Center.py underneath).  Line numbers refer to _CCAFilter.py.

    [eig], [svd] and [lstsq] are np.linalg.eig (real answers only), np.linalg.svd and np.linalg.lstsq:
    parameters; np.linalg.inv is M_Linalg.np_inv.  A method returns the new object next to its result.
    The text of the message is not modelled.  check (134-146) never returns a message, because
    initialize only gets there with both arguments given.  Matrices handed in are copied by the source and
    are values here. *)
From Coq Require Import List ZArith Lia Bool Arith.
From Verif Require Import Base Num Mat M_Matrix M_Factory M_Linalg M_Transform M_PLSBase M_PLS.
Import ListNotations.
Local Notation zn := Z.of_nat.

Section CCAFilter.
Context {T : Type} `{Num T}.
Variable eig : mat T -> res (list T * mat T).
Variable svd : mat T -> res (mat T * list T * mat T).
Variable lstsq : mat T -> mat T -> res (mat T).

(** the only message: the projection dimension is too large, 86 *)
Inductive cca_msg : Type := MsgDimension.

(** __init__, 26-34 *)
Record cca_st : Type := Cca {
  cc_lambda_X : T; cc_lambda_Y : T; cc_kcca : Z; cc_initialised : bool;
  cc_center_X : center_st T; cc_center_Y : center_st T;
  cc_proj_X : option (mat T); cc_proj_Y : option (mat T) }.
(** A new object: __init__, then initialize() (56-63, which makes the centers) and reset, called by
    LoggingObject.__construct__ *)
Definition cca_new : cca_st := Cca (lit 1 2) (lit 1 2) 1 false (t_new center) (t_new center) None None.
(** reset, 51-54: the centers stay *)
Definition cca_reset (s : cca_st) : cca_st :=
  Cca (cc_lambda_X s) (cc_lambda_Y s) (cc_kcca s) false (cc_center_X s) (cc_center_Y s) None None.

(** __setattr__ (core/_LoggingObject.py 34-46) with the validators, 36-46 *)
Inductive cca_key : Type := CcKcca (v : Z) | CcLambdaX (v : T) | CcLambdaY (v : T).
Definition cca_valid (k : cca_key) : bool := match k with CcKcca v => (0 <? v)%Z | _ => true end.
Definition cca_store (k : cca_key) (s : cca_st) : cca_st :=
  let put lx ly kc := Cca lx ly kc (cc_initialised s) (cc_center_X s) (cc_center_Y s) (cc_proj_X s) (cc_proj_Y s) in
  match k with
  | CcKcca v => put (cc_lambda_X s) (cc_lambda_Y s) v
  | CcLambdaX v => put v (cc_lambda_Y s) (cc_kcca s)
  | CcLambdaY v => put (cc_lambda_X s) v (cc_kcca s)
  end.
Definition cca_set (s : cca_st) (k : cca_key) : cca_st * res unit :=
  if cca_valid k then (cca_store k (cca_reset s), Ok tt) else (s, Err ValueError).

(** pow_minus_half, 119-132: both reports come from the one decomposition the matrix caches *)
Definition pow_minus_half (A : mat T) : res (mat T) :=
  do d <- make_eig eig A;
  let eig_vals_desc := get_eigenvalues_sorted d false in
  do eig_vecs_desc <- get_eigenvectors_sorted (nr A) d false;
  do diag <- diag_factory eig_vals_desc;
  do d_sqrt_inv <- inverse np_inv lstsq (sqrt_mat diag);
  do VD <- mul eig_vecs_desc d_sqrt_inv;
  mul VD (transpose eig_vecs_desc).

(** the regularised second moment matrix of centred data: 93-94, 97-98 *)
Definition cca_cov (lambda : T) (X : mat T) : res (mat T) :=
  do e <- eye (zn (nc X)) (-1);
  do XX <- mul (transpose X) X;
  add XX (mul_scalar e lambda).

(** do_initialize after the centering, 92-117.  The first component of the result is proj_X once it has
    been assigned (114), also when the product for proj_Y (115) raises. *)
Definition cca_project (s : cca_st) (X Y : mat T) : option (mat T) * res (mat T) :=
  match
    (do Cxx <- cca_cov (cc_lambda_X s) X;
    do Cyy <- cca_cov (cc_lambda_Y s) Y;
    do Cxy <- mul (transpose X) Y;
    do Cxx_inv_sqrt <- pow_minus_half Cxx;
    do Cyy_inv_sqrt <- pow_minus_half Cyy;
    do O1 <- mul Cxx_inv_sqrt Cxy;
    do omega <- mul O1 Cyy_inv_sqrt;
    do U0 <- svd_U svd omega;
    do U <- normalized U0 0;
    do V0 <- svd_V svd omega;
    do V <- normalized V0 0;
    do C <- get_sub_matrix U (STuple 0 (zn (nr U))) (STuple 0 (cc_kcca s));
    do D <- get_sub_matrix V (STuple 0 (zn (nr V))) (STuple 0 (cc_kcca s));
    do proj_X <- mul Cxx_inv_sqrt C;
    Ok (proj_X, Cyy_inv_sqrt, D))
  with
  | Ok (proj_X, Cyy_inv_sqrt, D) => (Some proj_X, mul Cyy_inv_sqrt D)
  | Err e => (None, Err e)
  end.

Definition cca_put_centers (s : cca_st) (cx cy : center_st T) : cca_st :=
  Cca (cc_lambda_X s) (cc_lambda_Y s) (cc_kcca s) (cc_initialised s) cx cy (cc_proj_X s) (cc_proj_Y s).
Definition cca_put_proj (s : cca_st) (px py : option (mat T)) (b : bool) : cca_st :=
  Cca (cc_lambda_X s) (cc_lambda_Y s) (cc_kcca s) b (cc_center_X s) (cc_center_Y s) px py.

(** do_initialize, 78-117, with line 74.  Center.transform configures a center only on its first use. *)
Definition cca_do_initialize (s : cca_st) (X Y : mat T) : cca_st * res (option cca_msg) :=
  if (Z.min (zn (nc X)) (zn (nc Y)) <? cc_kcca s)%Z then (s, Ok (Some MsgDimension))
  else
    match t_transform center (cc_center_X s) X with
    | (cx, Err e) => (cca_put_centers s cx (cc_center_Y s), Err e)
    | (cx, Ok X) =>
        match t_transform center (cc_center_Y s) Y with
        | (cy, Err e) => (cca_put_centers s cx cy, Err e)
        | (cy, Ok Y) =>
            let s := cca_put_centers s cx cy in
            match cca_project s X Y with
            | (px, Err e) => (cca_put_proj s px None false, Err e)
            | (px, Ok py) => (cca_put_proj s px (Some py) true, Ok None)
            end
        end
    end.

(** initialize, 56-76: when either argument is missing the defaults are restored and nothing is reported *)
Definition cca_initialize (s : cca_st) (x y : option (mat T)) : cca_st * res (option cca_msg) :=
  match x, y with
  | Some x, Some y => cca_do_initialize (cca_reset s) x y
  | _, _ => (cca_new, Ok None)
  end.

(** transform with do_transform (148-156, 168-172), transform_response with do_transform_response
    (158-166, 174-178) *)
Definition cca_transform (s : cca_st) (predictors : mat T) : cca_st * res (mat T) :=
  if negb (cc_initialised s) then (s, Err RuntimeError)
  else
    match t_transform center (cc_center_X s) predictors with
    | (cx, r) => (cca_put_centers s cx (cc_center_Y s), do p <- r; do P <- need (cc_proj_X s); mul p P)
    end.
Definition cca_transform_response (s : cca_st) (response : mat T) : cca_st * res (mat T) :=
  if negb (cc_initialised s) then (s, Err RuntimeError)
  else
    match t_transform center (cc_center_Y s) response with
    | (cy, r) => (cca_put_centers s (cc_center_X s) cy, do p <- r; do P <- need (cc_proj_Y s); mul p P)
    end.

(** What a user can do with one object. *)
Inductive cca_op : Type :=
| CcInit (x y : option (mat T)) | CcTransform (x : mat T) | CcResponse (y : mat T) | CcReset | CcSet (k : cca_key).
Definition cca_step (s : cca_st) (o : cca_op) : cca_st :=
  match o with
  | CcInit x y => fst (cca_initialize s x y)
  | CcTransform x => fst (cca_transform s x)
  | CcResponse y => fst (cca_transform_response s y)
  | CcReset => cca_reset s
  | CcSet k => fst (cca_set s k)
  end.
Definition cca_run (h : list cca_op) : cca_st := fold_left cca_step h cca_new.
End CCAFilter.
Arguments cca_st : clear implicits.
Arguments cca_key : clear implicits.
Arguments cca_op : clear implicits.
