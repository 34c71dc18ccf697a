(** Model of the generalised least squares weighting filters:
    algorithm/glsw/_GLSW.py, _EPO.py, _YGradientGLSW.py, _YGradientEPO.py
    (with algorithm/_AbstractAlgorithm.py and core/_LoggingObject.py underneath).

    The object is the record of its attributes; a method returns the new object next to its result.
    np.linalg.eig, np.linalg.svd, np.linalg.lstsq and pow(2.0, .) are parameters; np.linalg.inv is M_Linalg.np_inv.
    Message texts are not modelled.  Sorting a y that contains NaN is not modelled faithfully. *)
From Coq Require Import List ZArith Lia Bool Arith.
From Verif Require Import Base Num Mat M_Matrix M_Factory M_Helper M_Loop M_Linalg M_Transform M_MSC M_Utils M_PLSBase M_PLS M_PLS2.
Import ListNotations.

(** The four classes. *)
Inductive glsw_kind : Type := KGLSW | KEPO | KYGradientGLSW | KYGradientEPO.
Definition is_epo (k : glsw_kind) : bool := match k with KEPO | KYGradientEPO => true | _ => false end.
Definition is_ygrad (k : glsw_kind) : bool := match k with KYGradientGLSW | KYGradientEPO => true | _ => false end.

(** The messages check may return (_GLSW.py 117-118, _YGradientGLSW.py 68-69); initialize never gets
    to check with a None argument because it calls x1.copy() and x2.copy() first. *)
Inductive glsw_msg : Type := MsgShape | MsgRows.

Section GLSW.
Context {T : Type} `{Num T}.
Variable kind : glsw_kind.
Variable eig : mat T -> res (list T * mat T).
Variable svd : mat T -> res (mat T * list T * mat T).
Variable lstsq : mat T -> mat T -> res (mat T).
Variable pow2 : T -> T.

(** Attributes: _GLSW.py 25-28, _EPO.py 23-25 / _YGradientEPO.py 35-37 (N only exists for the EPO classes). *)
Record glsw_st : Type := Glsw { gl_alpha : T; gl_N : Z; gl_G : option (mat T); gl_initialised : bool }.
Definition glsw_new : glsw_st := Glsw (lit 1 3) 5 None false.

(** reset, _GLSW.py 34-36 *)
Definition glsw_reset (s : glsw_st) : glsw_st := Glsw (gl_alpha s) (gl_N s) None false.
(** obj.alpha = value and obj.N = value through LoggingObject.__setattr__ with validate_alpha
    (_GLSW.py 30-32) and validate_N (_EPO.py 27-29, _YGradientEPO.py 39-41) *)
Definition glsw_set_alpha (s : glsw_st) (value : T) : glsw_st * res unit :=
  if nltb n0 value then (Glsw value (gl_N s) None false, Ok tt) else (s, Err ValueError).
Definition glsw_set_N (s : glsw_st) (value : Z) : glsw_st * res unit :=
  if is_epo kind then
    if (0 <? value)%Z then (Glsw (gl_alpha s) value None false, Ok tt) else (s, Err ValueError)
  else (s, Ok tt).  (* no validator: a new attribute nobody reads *)

(** Matrix.pow_elementwise(2), _Matrix.py 254-255 *)
Definition squares (m : mat T) : mat T := map_mat (fun x => nmul x x) m.

(** get_covariance_matrix, _GLSW.py 90-101 *)
Definition glsw_covariance (x1 x2 : mat T) : res (mat T) :=
  do x1_centered <- snd (t_transform center (t_new center) x1);
  do x2_centered <- snd (t_transform center (t_new center) x2);
  do X_d <- sub x2_centered x1_centered;
  mul (transpose X_d) X_d.
(** get_covariance_matrix, _YGradientGLSW.py 26-53.  SavitzkyGolayFilter (lines 73-142) is the same code
    as transformation/_YGradientGLSWSavitzkyGolayFilter.py, modelled as yg_transform in M_MSC.v. *)
Definition ygrad_covariance (X y : mat T) : res (mat T) :=
  let y_vals := to_raw_copy_1D y in
  let sorted := stable_sort (fun a b => nleb (nth a y_vals n0) (nth b y_vals n0)) (seq 0 (length y_vals)) in
  let idx := map Z.of_nat sorted in
  do X_sorted <- get_sub_matrix X (SList idx) (SList (map Z.of_nat (seq 0 (nc X))));
  do y_sorted <- get_sub_matrix y (SList idx) (SList [0%Z]);
  do X_smoothed <- yg_transform X_sorted;
  do y_smoothed <- yg_transform y_sorted;
  do mm <- the_matrix (mean y_smoothed (Some (-1)%Z));
  do y_smoothed_mean <- as_real mm;
  do ss <- the_matrix (sum (squares (sub_scalar y_smoothed y_smoothed_mean)) (Some (-1)%Z));
  do syd <- as_real (sqrt_mat (div_scalar ss (nofZ (Z.of_nat (nr y_smoothed) - 1))));
  do W <- for_range (nr y_smoothed) (fun W i =>
            do ydi <- get y_smoothed (Z.of_nat i) 0;
            set W (Z.of_nat i) (Z.of_nat i) (pow2 (ndiv (nmul (nofZ (-1)) ydi) syd)))
          (zeros (Z.of_nat (nr y)) (Z.of_nat (nr y)));
  do WW <- mul W W;
  do XW <- mul (transpose X_smoothed) WW;
  mul XW X_smoothed.
Definition covariance (x1 x2 : mat T) : res (mat T) :=
  if is_ygrad kind then ygrad_covariance x1 x2 else glsw_covariance x1 x2.

(** get_eigenvector_matrix: _GLSW.py 77-78; _EPO.py 47-57 and _YGradientEPO.py 59-69 *)
Definition eigenvector_matrix (s : glsw_st) (C : mat T) : res (mat T) :=
  do d <- make_eig eig C;
  if is_epo kind then
    do V <- get_eigenvectors_sorted (nr C) d false;
    get_sub_matrix V (STuple 0 (Z.of_nat (nr V))) (STuple 0 (Z.min (Z.of_nat (nc V)) (gl_N s)))
  else Ok (snd d).
(** get_weight_matrix: _GLSW.py 80-88; _EPO.py 38-45 and _YGradientEPO.py 50-57 *)
Definition weight_matrix (s : glsw_st) (C : mat T) : res (mat T) :=
  if is_epo kind then eye (gl_N s) (-1)
  else
    do S <- svd_S svd C;
    let D := div_scalar (squares S) (gl_alpha s) in
    do E <- eye_like D;
    do D' <- add D E;
    Ok (sqrt_mat D').
(** do_initialize, _GLSW.py 63-75: the new G *)
Definition glsw_matrix (s : glsw_st) (x1 x2 : mat T) : res (mat T) :=
  do C <- covariance x1 x2;
  do V <- eigenvector_matrix s C;
  do D <- weight_matrix s C;
  do Di <- inverse np_inv lstsq D;
  do VD <- mul V Di;
  mul VD (transpose V).
(** check: _GLSW.py 112-119; _YGradientGLSW.py 55-71 *)
Definition glsw_check (x1 x2 : mat T) : option glsw_msg :=
  if is_ygrad kind then if nr x1 =? nr x2 then None else Some MsgRows
  else if same_shape_as x1 x2 then None else Some MsgShape.
(** initialize, _GLSW.py 38-55, _EPO.py 31-36, _YGradientEPO.py 43-48.  Without arguments the parameters
    get their default values again (and the assignment resets the object); with one None the call
    x.copy() raises before anything is changed. *)
Definition glsw_initialize (s : glsw_st) (x1 x2 : option (mat T)) : glsw_st * res (option glsw_msg) :=
  match x1, x2 with
  | None, None => (Glsw (lit 1 3) (if is_epo kind then 5%Z else gl_N s) None false, Ok None)
  | Some x1, Some x2 =>
      let s := glsw_reset s in
      match glsw_check x1 x2 with
      | Some m => (s, Ok (Some m))
      | None =>
          match glsw_matrix s x1 x2 with
          | Ok G => (Glsw (gl_alpha s) (gl_N s) (Some G) true, Ok None)
          | Err e => (s, Err e)
          end
      end
  | _, _ => (s, Err AttributeError)
  end.
(** transform, _GLSW.py 103-110; mul by None raises AttributeError (never happens, see C57) *)
Definition glsw_transform (s : glsw_st) (predictors : mat T) : res (mat T) :=
  if negb (gl_initialised s) then Err RuntimeError
  else do G <- need (gl_G s); mul predictors G.

(** What a user can do with one object. *)
Inductive glsw_op : Type :=
| GInit (x1 x2 : option (mat T)) | GTransform (x : mat T) | GReset | GAlpha (a : T) | GN (n : Z).
Definition glsw_step (s : glsw_st) (o : glsw_op) : glsw_st :=
  match o with
  | GInit x1 x2 => fst (glsw_initialize s x1 x2)
  | GTransform _ => s
  | GReset => glsw_reset s
  | GAlpha a => fst (glsw_set_alpha s a)
  | GN n => fst (glsw_set_N s n)
  end.
Definition glsw_run (h : list glsw_op) : glsw_st := fold_left glsw_step h glsw_new.
End GLSW.
Arguments glsw_st : clear implicits.
Arguments glsw_op : clear implicits.
