(** The PLS algorithms algorithm/pls/_PLS1.py, _VCPLS.py, _SIMPLS.py, _NIPALS.py, _CCARegression.py.
    Numbers after a definition are lines of the file named in the heading.

    np.linalg.inv is the elimination of M_Linalg; np.linalg.lstsq, pinv and eig are the parameters
    [lstsq], [pinv] and [eig].  When training raises, matrix attributes that the method had already
    replaced keep their earlier value in the model (the object is untrained then, and every later
    training starts with reset). *)
From Coq Require Import List ZArith Lia Bool Arith.
From Verif Require Import Base Num Mat M_Matrix M_Factory M_Helper M_Loop M_Utils M_Linalg M_Transform M_PLSBase.
Import ListNotations.

Section PLS.
Context {T : Type} `{Num T}.
Variables (lstsq : mat T -> mat T -> res (mat T)) (pinv : mat T -> res (mat T))
          (eig : mat T -> res (list T * mat T)).

(** The literal a * 10^-b *)
Definition lit (a : Z) (b : Z) : T := ndiv (nofZ a) (nofZ (10 ^ b)).
Definition zn (n : nat) : Z := Z.of_nat n.
Definition minverse (m : mat T) : res (mat T) := inverse np_inv lstsq m.
Definition dominant (m : mat T) : res (mat T) :=
  do d <- make_eig eig m; get_dominant_eigenvector (nr m) d.

(** * _PLS1.py: __init__ 24-29, reset 31-40 *)
Record pls1_st : Type := Pls1 { o_r_hat : option (mat T); o_P : option (mat T); o_W : option (mat T); o_b_hat : option (mat T) }.
Definition pls1_none : pls1_st := Pls1 None None None None.

(** Loop state X_k, W, P, T, b_hat; one iteration, 104-123 *)
Definition pls1_state : Type := (mat T * mat T * mat T * mat T * mat T)%type.
Definition pls1_step (weights : mat T -> mat T -> res (mat T)) (y : mat T) (st : pls1_state) (k : nat) : res pls1_state :=
  let '(X_k, W, P, Ts, b_hat) := st in
  do w_k <- weights X_k y;
  do W <- set_column W (zn k) w_k;
  do t_k <- mul X_k w_k;
  do Ts <- set_column Ts (zn k) t_k;
  do tdott <- vector_dot t_k t_k;
  do tdoty <- vector_dot t_k y;
  do b_hat <- set b_hat (zn k) 0 (ndiv tdoty tdott);
  do xt <- mul (transpose X_k) t_k;
  let p_k := div_scalar xt tdott in
  do P <- set_column P (zn k) p_k;
  do tp <- mul t_k (transpose p_k);
  do X_k <- sub X_k tp;
  Ok (X_k, W, P, Ts, b_hat).
(** 95-123 *)
Definition pls1_loop (weights : mat T -> mat T -> res (mat T)) (num_components : Z) (predictors response : mat T) : res pls1_state :=
  let p := zn (nc predictors) in
  for_range (Z.to_nat num_components) (pls1_step weights response)
    (predictors, zeros p num_components, zeros p num_components, zeros (zn (nr predictors)) num_components, zeros num_components 1).
(** do_perform_initialization, 87-136 *)
Definition pls1_fit (weights : mat T -> mat T -> res (mat T)) (num_components : Z) (predictors response : mat T) : res pls1_st :=
  do st <- pls1_loop weights num_components predictors response;
  let '(_, W, P, _, b_hat) := st in
  do pw <- mul (transpose P) W;
  do inv <- minverse pw;
  do tmp <- mul W inv;
  do r_hat <- mul tmp b_hat;
  Ok (Pls1 (Some r_hat) (Some P) (Some W) (Some b_hat)).
(** calculate_weights, 138-146 *)
Definition pls1_weights (x_k y : mat T) : res (mat T) := do xy <- mul (transpose x_k) y; normalized xy 0.

(** The loops over components for one row x, 159-169 and 193-203: the scores T *)
Definition pls1_row (num_components : Z) (s : pls1_st) (x : mat T) : res (mat T) :=
  do st <- for_range (Z.to_nat num_components) (fun st j =>
      let '(x, Xs, Ts) := st in
      do Xs <- set_column Xs (zn j) x;
      do W <- need (o_W s);
      do w <- get_column W (zn j);
      do t <- mul x w;
      do Ts <- set_column Ts (zn j) t;
      do P <- need (o_P s);
      do p <- get_column P (zn j);
      do tr <- as_real t;
      do x <- sub x (mul_scalar (transpose p) tr);
      Ok (x, Xs, Ts)) (x, zeros 1 num_components, zeros 1 num_components);
  Ok (snd st).
(** do_transform, 148-173 *)
Definition pls1_transform (num_components : Z) (s : pls1_st) (predictors : mat T) : res (mat T) :=
  for_range (nr predictors) (fun result i =>
    do x <- row_as_vector predictors (zn i);
    do Ts <- pls1_row num_components s x;
    set_row result (zn i) Ts) (zeros (zn (nr predictors)) num_components).
(** do_perform_predictions, 183-207 *)
Definition pls1_predict (num_components : Z) (s : pls1_st) (predictors : mat T) : res (mat T) :=
  for_range (nr predictors) (fun result i =>
    do x <- row_as_vector predictors (zn i);
    do Ts <- pls1_row num_components s x;
    do b_hat <- need (o_b_hat s);
    do tb <- mul Ts b_hat;
    do y <- as_real tb;
    set result (zn i) 0 y) (zeros (zn (nr predictors)) 1).

(** PLS1 has no parameters of its own. *)
Definition pls1 : pls_class pls1_st Empty_set T := {|
  c_arity := Single;
  c_new := pls1_none;
  c_defaults := [];
  c_fresh := fun a => a;
  c_valid := fun k : Empty_set => match k with end;
  c_assign := fun k : Empty_set => match k with end;
  c_reset := fun _ => pls1_none;
  c_train := fun n a X Y => match pls1_fit pls1_weights n X Y with Ok a' => (a', Ok None) | Err e => (a, Err e) end;
  c_predict := fun n a X => (a, pls1_predict n a X);
  c_transform := fun n a X => (a, pls1_transform n a X) |}.

(** * _VCPLS.py *)
Record vcpls_st : Type := Vcpls { vc_lambda : T; vc_pls1 : pls1_st }.
(** calculate_weights, 51-62; NU = 1e-7, line 34 *)
Definition vcpls_weights (lambda : T) (e f : mat T) : res (mat T) :=
  do I <- eye (zn (nc e)) (-1);
  do ef <- mul (transpose e) f;
  do eff <- mul ef (transpose f);
  do effe <- mul eff e;
  do g1 <- sub effe (mul_scalar I lambda);
  do g2 <- mul (transpose e) e;
  do s <- add g2 (mul_scalar I (lit 1 7));
  do inv <- minverse s;
  do term <- mul inv g1;
  dominant term.
Definition vcpls : pls_class vcpls_st T T := {|
  c_arity := Single;
  c_new := Vcpls n1 pls1_none;                                   (* 36-38 *)
  c_defaults := [n1];                                            (* 47 *)
  c_fresh := fun a => a;
  c_valid := fun _ => Some true;                                 (* 40-42 *)
  c_assign := fun v a => Vcpls v (vc_pls1 a);
  c_reset := fun a => Vcpls (vc_lambda a) pls1_none;
  c_train := fun n a X Y => match pls1_fit (vcpls_weights (vc_lambda a)) n X Y with
                            | Ok s => (Vcpls (vc_lambda a) s, Ok None) | Err e => (a, Err e) end;
  c_predict := fun n a X => (a, pls1_predict n (vc_pls1 a) X);
  c_transform := fun n a X => (a, pls1_transform n (vc_pls1 a) X) |}.

(** * _SIMPLS.py: __init__ 25-30, reset 42-48 (Q stays) *)
Record simpls_st : Type := Simpls { si_coef : Z; si_W : option (mat T); si_B : option (mat T); si_Q : option (mat T) }.
(** slim, 94-113: the column is sorted once, then every entry compared with the original value.
    Fuel: enough for the sort to finish (see M_Utils). *)
Definition slim_column (num_coefficients : Z) (B : list (list T)) (m : mat T) (i : nat) : res (mat T) :=
  do l <- get_column m (zn i);
  let ld := map nabs (to_raw_copy_1D l) in
  do srt <- sort true (S (length ld)) ld;
  do index <- lget srt (Z.max (zn (length srt) - 1 - num_coefficients) 0);
  do val <- lget ld (zn index);
  for_range (nr m) (fun m r =>
    do row <- lget B (zn r);
    do b <- lget row (zn i);
    if nltb (nabs b) val then set m (zn r) (zn i) (nofZ 0) else Ok m) m.
Definition slim (num_coefficients : Z) (m : mat T) : res (mat T) :=
  let B := to_raw_copy_2D m in
  for_range (nc m) (slim_column num_coefficients B) m.

(** Loop state A, M, C, W, P, Q; one iteration, 131-161 *)
Definition simpls_state : Type := (mat T * mat T * mat T * mat T * mat T * mat T)%type.
Definition simpls_step (st : simpls_state) (h : nat) : res simpls_state :=
  let '(A, M, C, W, P, Q) := st in
  let A_trans := transpose A in
  do AA <- mul A_trans A;
  do q <- dominant AA;
  do w <- mul A q;
  do wM <- mul (transpose w) M;
  do c <- mul wM w;
  do cr <- as_real c;
  let w := mul_scalar w (ndiv n1 (nsqrt cr)) in
  do W <- set_column W (zn h) w;
  do p <- mul M w;
  do P <- set_column P (zn h) p;
  do q <- mul A_trans w;
  do Q <- set_column Q (zn h) q;
  do v <- mul C p;
  do v <- normalized v 0;
  do vv <- mul v (transpose v);
  do C <- sub C vv;
  do pp <- mul p (transpose p);
  do M <- sub M pp;
  do A <- mul C A;
  Ok (A, M, C, W, P, Q).
(** do_perform_initialization, 115-170: W, B, Q *)
Definition simpls_loop (num_components : Z) (predictors response : mat T) : res simpls_state :=
  let p := zn (nc predictors) in
  let X_trans := transpose predictors in
  do A <- mul X_trans response;
  do M <- mul X_trans predictors;
  do C <- eye p p;
  for_range (Z.to_nat num_components) simpls_step
    (A, M, C, zeros p num_components, zeros p num_components, zeros 1 num_components).
Definition simpls_fit (num_coefficients num_components : Z) (predictors response : mat T) : res (mat T * mat T * mat T) :=
  do st <- simpls_loop num_components predictors response;
  let '(_, _, _, W, _, Q) := st in
  do W <- (if (0 <? num_coefficients)%Z then slim num_coefficients W else Ok W);
  do B <- mul W (transpose Q);
  Ok (W, B, Q).
Definition simpls : pls_class simpls_st Z T := {|
  c_arity := Single;
  c_new := Simpls 0 None None None;
  c_defaults := [0%Z];                                            (* 38 *)
  c_fresh := fun a => a;
  c_valid := fun _ => Some true;                                  (* 50-52 *)
  c_assign := fun v a => Simpls v (si_W a) (si_B a) (si_Q a);
  c_reset := fun a => Simpls (si_coef a) None None (si_Q a);
  c_train := fun n a X Y => match simpls_fit (si_coef a) n X Y with
                            | Ok (W, B, Q) => (Simpls (si_coef a) (Some W) (Some B) (Some Q), Ok None)
                            | Err e => (a, Err e) end;
  c_predict := fun n a X => (a, do B <- need (si_B a); mul X B);           (* 189-196 *)
  c_transform := fun n a X => (a, do W <- need (si_W a); mul X W) |}.      (* 172-179 *)

(** * _NIPALS.py *)
Inductive deflation_mode : Type := CANONICAL | REGRESSION.
Inductive weight_mode : Type := WM_PLS | WM_CCA.
Record nipals_model : Type := NipalsModel {
  nm_X_scores : mat T; nm_Y_scores : mat T; nm_X_loadings : mat T; nm_Y_loadings : mat T;
  nm_X_weights : mat T; nm_Y_weights : mat T; nm_X_rotations : mat T; nm_Y_rotations : mat T;
  nm_X : mat T; nm_coef : mat T }.
Record nipals_st : Type := Nipals {
  ni_tol : T; ni_max_iter : Z; ni_norm_Y_weights : bool; ni_deflation : deflation_mode;
  ni_standardize_X : std_st T; ni_standardize_Y : std_st T; ni_model : option nipals_model }.
Inductive nipals_key : Type :=
| NTol (v : T) | NMaxIter (v : Z) | NNormYWeights (v : bool) | NDeflation (v : deflation_mode).

(** nipals_loop, 160-228.  The cached inverses of the CCA mode are recomputed (same argument, same
    result).  [nipals_weights]: lines 181-211 of one pass *)
Definition nipals_weights (mode : weight_mode) (norm_Y : bool) (X Y y_score : mat T) : res (mat T * mat T) :=
  let eps := lit 1 16 in
  do X_weight <- match mode with
                 | WM_CCA => do X_p_inv <- minverse X; mul X_p_inv y_score
                 | WM_PLS => do xy <- mul (transpose X) y_score; Ok (div_scalar xy (norm2_squared y_score))
                 end;
  let X_weight := if nltb (norm2_squared X_weight) eps then add_scalar X_weight eps else X_weight in
  let X_weight := div_scalar X_weight (nadd (norm2 X_weight) eps) in
  do X_score <- mul X X_weight;
  do Y_weight <- match mode with
                 | WM_CCA => do Y_p_inv <- minverse Y; mul Y_p_inv X_score
                 | WM_PLS => do yx <- mul (transpose Y) X_score; Ok (div_scalar yx (norm2_squared X_score))
                 end;
  let Y_weight := if norm_Y then div_scalar Y_weight (nadd (norm2 Y_weight) eps) else Y_weight in
  Ok (X_weight, Y_weight).
(** the while loop; y_score keeps its first value *)
Fixpoint nipals_while (fuel : nat) (mode : weight_mode) (norm_Y : bool) (tol : T) (max_iter : Z)
    (X Y y_score X_weight_old : mat T) (iterations : Z) : res (mat T * mat T * Z) :=
  match fuel with
  | O => Err OutOfFuel
  | S fuel =>
      do ws <- nipals_weights mode norm_Y X Y y_score;
      let (X_weight, Y_weight) := ws in
      do yw <- mul Y Y_weight;
      let Y_score := div_scalar yw (nadd (norm2_squared Y_weight) (lit 1 16)) in
      do diff <- sub X_weight X_weight_old;
      if nltb (norm2_squared diff) tol || (nc Y =? 1) then Ok (X_weight, Y_weight, iterations)
      else if (max_iter <=? iterations)%Z then Ok (X_weight, Y_weight, iterations)
      else nipals_while fuel mode norm_Y tol max_iter X Y y_score X_weight (iterations + 1)
  end.
Definition nipals_loop (mode : weight_mode) (norm_Y : bool) (tol : T) (max_iter : Z) (X Y : mat T) : res (mat T * mat T * Z) :=
  do y_score <- get_column Y 0;
  nipals_while (S (Z.to_nat max_iter)) mode norm_Y tol max_iter X Y y_score (zeros (zn (nc X)) 1) 0.

(** The main loop, 111-146; [stop] records a break *)
Definition nipals_state : Type := (bool * (mat T * mat T) * (mat T * mat T * mat T * mat T * mat T * mat T))%type.
Definition nipals_step (mode : weight_mode) (a : nipals_st) (st : nipals_state) (k : nat) : res nipals_state :=
  let '(stop, (X, Y), ms) := st in
  let '(XS, YS, XL, YL, XW, YW) := ms in
  let eps := lit 1 10 in
  if stop then Ok st else
  do yy <- mul (transpose Y) Y;
  if all yy (fun e => nltb e eps) then Ok (true, (X, Y), ms) else
  do r <- nipals_loop mode (ni_norm_Y_weights a) (ni_tol a) (ni_max_iter a) X Y;
  let '(xk_weight, yk_weight, _) := r in
  do xk_score <- mul X xk_weight;
  do ys <- mul Y yk_weight;
  let yk_score := div_scalar ys (norm2_squared yk_weight) in
  if nltb (norm2_squared xk_score) eps then Ok (true, (X, Y), ms) else
  do xl <- mul (transpose X) xk_score;
  let xk_loading := div_scalar xl (norm2_squared xk_score) in
  do dx <- mul xk_score (transpose xk_loading);
  do X <- sub X dx;
  do ly <- match ni_deflation a with
           | CANONICAL => do yl <- mul (transpose Y) yk_score;
                          let yk_loading := div_scalar yl (norm2_squared yk_score) in
                          do dy <- mul yk_score (transpose yk_loading);
                          do Y <- sub Y dy; Ok (yk_loading, Y)
           | REGRESSION => do yl <- mul (transpose Y) xk_score;
                           let yk_loading := div_scalar yl (norm2_squared xk_score) in
                           do dy <- mul xk_score (transpose yk_loading);
                           do Y <- sub Y dy; Ok (yk_loading, Y)
           end;
  let (yk_loading, Y) := ly in
  do XS <- set_column XS (zn k) xk_score;
  do YS <- set_column YS (zn k) yk_score;
  do XW <- set_column XW (zn k) xk_weight;
  do YW <- set_column YW (zn k) yk_weight;
  do XL <- set_column XL (zn k) xk_loading;
  do YL <- set_column YL (zn k) yk_loading;
  Ok (false, (X, Y), (XS, YS, XL, YL, XW, YW)).
(** 92-157, after X and Y are standardised; y_stds = standardize_Y.get_std_devs() *)
Definition nipals_fit (mode : weight_mode) (n : Z) (a : nipals_st) (X Y : mat T) (y_stds : option (mat T)) : res nipals_model :=
  let rows := zn (nr X) in let p := zn (nc X) in let q := zn (nc Y) in
  do st <- for_range (Z.to_nat n) (nipals_step mode a)
    (false, (X, Y), (zeros rows n, zeros rows n, zeros p n, zeros q n, zeros p n, zeros q n));
  let '(_, (X', Y'), (XS, YS, XL, YL, XW, YW)) := st in
  do pw <- mul (transpose XL) XW;
  do pwi <- pinv pw;
  do X_rotations <- mul XW pwi;
  do Y_rotations <- (if 1 <? nc Y' then do qc <- mul (transpose YL) YW; do qci <- pinv qc; mul YW qci
                     else filled 1 1 n1);
  do y_stds <- (match y_stds with Some m => Ok m | None => Err AttributeError end);
  do xq <- mul X_rotations (transpose YL);
  do coef <- scale_by_row_vector xq y_stds;
  Ok (NipalsModel XS YS XL YL XW YW X_rotations Y_rotations X' coef).
(** do_perform_initialization, 85-158 *)
Definition nipals_train (mode : weight_mode) (n : Z) (a : nipals_st) (predictors response : mat T) : nipals_st * res (option msg) :=
  let upd_X a s := Nipals (ni_tol a) (ni_max_iter a) (ni_norm_Y_weights a) (ni_deflation a) s (ni_standardize_Y a) (ni_model a) in
  let upd_Y a s := Nipals (ni_tol a) (ni_max_iter a) (ni_norm_Y_weights a) (ni_deflation a) (ni_standardize_X a) s (ni_model a) in
  let upd_model a m := Nipals (ni_tol a) (ni_max_iter a) (ni_norm_Y_weights a) (ni_deflation a) (ni_standardize_X a) (ni_standardize_Y a) m in
  match t_transform standardize (ni_standardize_X a) predictors with
  | (sx, Err e) => (upd_X a sx, Err e)
  | (sx, Ok X) =>
      let a := upd_X a sx in
      match t_transform standardize (ni_standardize_Y a) response with
      | (sy, Err e) => (upd_Y a sy, Err e)
      | (sy, Ok Y) =>
          let a := upd_Y a sy in
          match nipals_fit mode n a X Y (st_devs (ni_standardize_Y a)) with
          | Err e => (a, Err e)
          | Ok m => (upd_model a (Some m), Ok None)
          end
      end
  end.
(** X = self.standardize_X.transform(predictors) at the start of both methods *)
Definition nipals_apply (a : nipals_st) (predictors : mat T) (f : nipals_st -> mat T -> res (mat T)) : nipals_st * res (mat T) :=
  let (sx, r) := t_transform standardize (ni_standardize_X a) predictors in
  let a := Nipals (ni_tol a) (ni_max_iter a) (ni_norm_Y_weights a) (ni_deflation a) sx (ni_standardize_Y a) (ni_model a) in
  (a, do X <- r; f a X).
(** do_perform_predictions, 230-235; do_transform, 237-242; do_transform_response, 244-249 *)
Definition nipals_predict (a : nipals_st) (predictors : mat T) : nipals_st * res (mat T) :=
  nipals_apply a predictors (fun a X =>
    do m <- need (ni_model a);
    do xc <- mul X (nm_coef m);
    do Y_means <- need (st_means (ni_standardize_Y a));
    add_by_vector xc Y_means).
Definition nipals_transform (a : nipals_st) (predictors : mat T) : nipals_st * res (mat T) :=
  nipals_apply a predictors (fun a X => do m <- need (ni_model a); mul X (nm_X_rotations m)).

(** reset, 268-281; validators, 71-77 *)
Definition nipals_class (mode : weight_mode) (def0 : deflation_mode) (assign_def : deflation_mode -> deflation_mode -> deflation_mode)
  : pls_class nipals_st nipals_key T := {|
  c_arity := Multi 1 (-1);                                        (* 79-83 *)
  c_new := Nipals (lit 1 6) 500 false def0 (t_new standardize) (t_new standardize) None;
  c_defaults := [NTol (lit 1 6); NMaxIter 500; NNormYWeights false; NDeflation REGRESSION];   (* 62-67 *)
  c_fresh := fun a => Nipals (ni_tol a) (ni_max_iter a) (ni_norm_Y_weights a) (ni_deflation a) (t_new standardize) (t_new standardize) (ni_model a);
  c_valid := fun k => match k with
                      | NTol v => Some (nleb n0 v)
                      | NMaxIter v => Some (0 <=? v)%Z
                      | NNormYWeights _ | NDeflation _ => None
                      end;
  c_assign := fun k a =>
    match k with
    | NTol v => Nipals v (ni_max_iter a) (ni_norm_Y_weights a) (ni_deflation a) (ni_standardize_X a) (ni_standardize_Y a) (ni_model a)
    | NMaxIter v => Nipals (ni_tol a) v (ni_norm_Y_weights a) (ni_deflation a) (ni_standardize_X a) (ni_standardize_Y a) (ni_model a)
    | NNormYWeights v => Nipals (ni_tol a) (ni_max_iter a) v (ni_deflation a) (ni_standardize_X a) (ni_standardize_Y a) (ni_model a)
    | NDeflation v => Nipals (ni_tol a) (ni_max_iter a) (ni_norm_Y_weights a) (assign_def v (ni_deflation a)) (ni_standardize_X a) (ni_standardize_Y a) (ni_model a)
    end;
  c_reset := fun a => Nipals (ni_tol a) (ni_max_iter a) (ni_norm_Y_weights a) (ni_deflation a) (t_new standardize) (t_new standardize) None;
  c_train := nipals_train mode;
  c_predict := fun _ => nipals_predict;
  c_transform := fun _ => nipals_transform |}.
Definition nipals := nipals_class WM_PLS REGRESSION (fun v _ => v).
(** * _CCARegression.py: CCA weights (20-21); deflation_mode always reads CANONICAL (23-27) and
    assignments to it are ignored (29-34) *)
Definition cca_regression := nipals_class WM_CCA CANONICAL (fun _ d => d).
End PLS.
Arguments pls1_st : clear implicits.
Arguments vcpls_st : clear implicits.
Arguments simpls_st : clear implicits.
Arguments nipals_st : clear implicits.
Arguments nipals_model : clear implicits.
Arguments nipals_key : clear implicits.
