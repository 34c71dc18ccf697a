(** algorithm/ica/_FastICA.py and algorithm/ica/approxfun/_Cube.py, _Exponential.py, _LogCosH.py (with
    algorithm/_AbstractAlgorithm.py, core/_LoggingObject.py and transformation/_Center.py underneath).
    Line numbers without a file name refer to _FastICA.py.

    Parameters: [eig], [svd], [lstsq] (np.linalg.eig with real answers, np.linalg.svd, np.linalg.lstsq),
    [rnd r c] = factory.randn(r, c, 1) (deterministic because of the fixed seed), [nexp], [ntanh] and
    [cube] = np.power(., 3).  np.linalg.inv is M_Linalg.np_inv.  Log messages are not modelled.
    The attributes sources, components, ... can be read by the user; fun and algorithm have no validator, so
    assigning them changes nothing else. *)
From Coq Require Import List ZArith Lia Bool Arith.
From Verif Require Import Base Num Mat M_Matrix M_Factory M_Loop M_Linalg M_Transform M_PLSBase M_PLS M_PLS2 M_GLSW.
Import ListNotations.
Local Notation zn := Z.of_nat.

Section FastICA.
Context {T : Type} `{Num T}.
Variable eig : mat T -> res (list T * mat T).
Variable svd : mat T -> res (mat T * list T * mat T).
Variable lstsq : mat T -> mat T -> res (mat T).
Variable rnd : Z -> Z -> mat T.
Variable nexp ntanh cube : T -> T.

Definition the_real (r : res (T + mat T)) : res T :=
  match r with Ok (inl x) => Ok x | Ok (inr _) => Err TypeError | Err e => Err e end.

(** * Approximation functions *)
Inductive negfun : Type := FCube | FExponential | FLogCosH (alpha : T).
(** _Cube.py 26-29 *)
Definition cube_apply (x : mat T) : res (mat T * mat T) :=
  let gx := map_mat cube x in
  do g_x <- the_matrix (mean (mul_scalar (squares x) (nofZ 3)) (Some 1%Z));
  Ok (gx, g_x).
(** _Exponential.py 27-36 *)
Definition exponential_apply (x : mat T) : res (mat T * mat T) :=
  let x_pow_2 := squares x in
  let exp := map_mat nexp (mul_scalar (div_scalar x_pow_2 (nofZ 2)) (nofZ (-1))) in
  do gx <- mul_elementwise x exp;
  do ones <- filled_like gx (nofZ 1);
  do d <- sub ones x_pow_2;
  do e <- mul_elementwise d exp;
  do g_x <- the_matrix (mean e (Some 1%Z));
  Ok (gx, g_x).
(** _LogCosH.py 32-41 *)
Definition logcosh_apply (alpha : T) (x : mat T) : res (mat T * mat T) :=
  let x := mul_scalar x alpha in
  let gx := map_mat ntanh x in
  do ones <- filled 1 (zn (nc gx)) n1;
  do g_x <- for_range (nr gx) (fun g_x i =>
      do gxi <- get_row gx (zn i);
      do d <- sub ones (squares gxi);
      do g_xi <- the_real (mean (mul_scalar d alpha) None);
      set g_x (zn i) 0 g_xi) (zeros (zn (nr gx)) 1);
  Ok (gx, g_x).
Definition fun_apply (f : negfun) (x : mat T) : res (mat T * mat T) :=
  match f with FCube => cube_apply x | FExponential => exponential_apply x | FLogCosH a => logcosh_apply a x end.

(** * The object *)
Inductive ica_algorithm : Type := PARALLEL | DEFLATION.   (* 260-262 *)
(** __init__, 31-43 *)
Record ica_st : Type := Ica {
  ic_num_components : Z; ic_whiten : bool; ic_fun : negfun; ic_max_iter : Z; ic_tol : T;
  ic_algorithm : ica_algorithm; ic_initialised : bool; ic_center : center_st T;
  ic_components : option (mat T); ic_sources : option (mat T); ic_whitening : option (mat T); ic_mixing : option (mat T) }.
(** A new object: __init__, then initialize (61-69) and reset, called by LoggingObject.__construct__ *)
Definition ica_new : ica_st :=
  Ica 5 true (FLogCosH n1) 500 (lit 1 4) DEFLATION false (t_new center) None None None None.
(** initialize called again, 61-69: the assignments reset the object; the sources stay *)
Definition ica_initialize (s : ica_st) : ica_st :=
  Ica 5 true (FLogCosH n1) 500 (lit 1 4) DEFLATION false (t_new center) None (ic_sources s) None None.
(** reset, 71-75: the sources and the center stay *)
Definition ica_reset (s : ica_st) : ica_st :=
  Ica (ic_num_components s) (ic_whiten s) (ic_fun s) (ic_max_iter s) (ic_tol s) (ic_algorithm s) false
      (ic_center s) None (ic_sources s) None None.

(** __setattr__ (core/_LoggingObject.py 34-46) with the validators, 45-59 *)
Inductive ica_key : Type :=
| IcNumComponents (v : Z) | IcWhiten (v : bool) | IcMaxIter (v : Z) | IcTol (v : T) | IcFun (v : negfun) | IcAlgorithm (v : ica_algorithm).
Definition ica_valid (k : ica_key) : bool :=
  match k with
  | IcNumComponents v => (1 <=? v)%Z
  | IcMaxIter v => (0 <=? v)%Z
  | IcTol v => nleb n0 v
  | IcWhiten _ | IcFun _ | IcAlgorithm _ => true
  end.
Definition ica_validated (k : ica_key) : bool := match k with IcFun _ | IcAlgorithm _ => false | _ => true end.
Definition ica_store (k : ica_key) (s : ica_st) : ica_st :=
  let put nc wh f mi tol alg := Ica nc wh f mi tol alg (ic_initialised s) (ic_center s) (ic_components s) (ic_sources s) (ic_whitening s) (ic_mixing s) in
  match k with
  | IcNumComponents v => put v (ic_whiten s) (ic_fun s) (ic_max_iter s) (ic_tol s) (ic_algorithm s)
  | IcWhiten v => put (ic_num_components s) v (ic_fun s) (ic_max_iter s) (ic_tol s) (ic_algorithm s)
  | IcFun v => put (ic_num_components s) (ic_whiten s) v (ic_max_iter s) (ic_tol s) (ic_algorithm s)
  | IcMaxIter v => put (ic_num_components s) (ic_whiten s) (ic_fun s) v (ic_tol s) (ic_algorithm s)
  | IcTol v => put (ic_num_components s) (ic_whiten s) (ic_fun s) (ic_max_iter s) v (ic_algorithm s)
  | IcAlgorithm v => put (ic_num_components s) (ic_whiten s) (ic_fun s) (ic_max_iter s) (ic_tol s) v
  end.
Definition ica_set (s : ica_st) (k : ica_key) : ica_st * res unit :=
  if ica_valid k then (ica_store k (if ica_validated k then ica_reset s else s), Ok tt) else (s, Err ValueError).

(** * The two algorithms *)
(** v.pow_elementwise(2).sum(-1).sqrt().as_real(), 142 and 152 *)
Definition length_of (v : mat T) : res T :=
  do ss <- the_matrix (sum (squares v) (Some (-1)%Z)); as_real (sqrt_mat ss).
(** decorrelate, 189-207 (the branches for j = 1 and j > 1 are the same code) *)
Definition decorrelate (w W : mat T) (j : nat) : res (mat T) :=
  if j =? 0 then Ok w
  else
    do Wp <- get_rows W (STuple 0 (zn j));
    do a <- mul (transpose w) (transpose Wp);
    do b <- mul a Wp;
    sub w (transpose b).
(** one pass of the inner loop, 144-153: the new vector and lim *)
Definition deflation_step (f : negfun) (X W : mat T) (j : nat) (w : mat T) : res (mat T * T) :=
  do wtx <- mul (transpose w) X;
  do g <- fun_apply f (transpose wtx);
  let '(gwtx, g_wtx) := g in
  do xs <- scale_by_row_vector X gwtx;
  do m <- the_matrix (mean xs (Some 1%Z));
  do gm <- the_real (mean g_wtx None);
  do w1 <- sub m (mul_scalar w gm);
  do w1 <- decorrelate w1 W j;
  do len <- length_of w1;
  let w1 := div_scalar w1 len in
  do e <- mul_elementwise w1 w;
  do ss <- the_matrix (sum e (Some (-1)%Z));
  do lim <- as_real (abs (sub_scalar (abs ss) n1));
  Ok (w1, lim).
(** for i in range(max_iter), 143-157 *)
Fixpoint deflation_loop (f : negfun) (X W : mat T) (j : nat) (tol : T) (n : nat) (w : mat T) : res (mat T) :=
  match n with
  | O => Ok w
  | S n =>
      do r <- deflation_step f X W j w;
      let '(w1, lim) := r in
      if nltb lim tol then Ok w1 else deflation_loop f X W j tol n w1
  end.
(** deflation, 131-161 *)
Definition deflation (s : ica_st) (X W_init : mat T) : res (mat T) :=
  let nc := Z.to_nat (ic_num_components s) in
  for_range nc (fun W j =>
    do r <- get_row W_init (zn j);
    let w := transpose r in
    do len <- length_of w;
    do w <- deflation_loop (ic_fun s) X W j (ic_tol s) (Z.to_nat (ic_max_iter s)) (div_scalar w len);
    set_row W (zn j) w) (zeros (zn nc) (zn nc)).

(** symmetric_decorrelation, 209-226 *)
Definition symmetric_decorrelation (W : mat T) : res (mat T) :=
  do wwt <- mul W (transpose W);
  do d <- make_eig eig wwt;
  let s := get_eigenvalues_sorted d true in
  do u <- get_eigenvectors_sorted (nr wwt) d true;
  let s_inv := apply_elementwise (sqrt_mat s) (fun x => ndiv n1 x) in
  do us <- scale_by_row_vector u s_inv;
  do a <- mul us (transpose u);
  mul a W.
(** one pass of the loop, 176-182 *)
Definition parallel_step (f : negfun) (X W : mat T) : res (mat T * T) :=
  do wx <- mul (transpose W) X;
  do g <- fun_apply f wx;
  let '(gwtx, g_wtx) := g in
  do a <- mul gwtx (transpose X);
  do b <- scale_by_column_vector W g_wtx;
  do arg <- sub (div_scalar a (nofZ (zn (nc X)))) b;
  do W1 <- symmetric_decorrelation arg;
  do ww <- mul W1 (transpose W);
  do lim <- mmax (abs (sub_scalar (abs (diag ww)) n1));
  Ok (W1, lim).
(** parallel, 163-187 *)
Fixpoint parallel_loop (f : negfun) (X : mat T) (tol : T) (n : nat) (W : mat T) : res (mat T) :=
  match n with
  | O => Ok W
  | S n =>
      do r <- parallel_step f X W;
      let '(W1, lim) := r in
      if nltb lim tol then Ok W1 else parallel_loop f X tol n W1
  end.
Definition parallel (s : ica_st) (X W_init : mat T) : res (mat T) :=
  do W <- symmetric_decorrelation W_init;
  parallel_loop (ic_fun s) X (ic_tol s) (Z.to_nat (ic_max_iter s)) W.

(** * configure, 77-129 *)
Definition ica_put (s : ica_st) (c : center_st T) (comp src wh mix : option (mat T)) (b : bool) : ica_st :=
  Ica (ic_num_components s) (ic_whiten s) (ic_fun s) (ic_max_iter s) (ic_tol s) (ic_algorithm s) b c comp src wh mix.
(** 85-93: the number of components is stored back *)
Definition ica_limit (s : ica_st) (n p : nat) : ica_st * res unit :=
  let min_NP := zn (Nat.min n p) in
  match (if negb (ic_whiten s) then ica_set s (IcNumComponents min_NP) else (s, Ok tt)) with
  | (s, Err e) => (s, Err e)
  | (s, Ok _) => if (min_NP <? ic_num_components s)%Z then ica_set s (IcNumComponents min_NP) else (s, Ok tt)
  end.
(** 98-107, X already centred, features in rows: the whitening matrix and X1 *)
Definition ica_whiten_matrix (s : ica_st) (X : mat T) : res (mat T) :=
  let k := Nat.min (nr X) (nc X) in
  do t <- make_svd svd X;
  let '(U, d0, _) := t in
  do d <- get_rows (transpose d0) (STuple 0 (zn k));
  let d_inv_elements := apply_elementwise d (fun a => ndiv n1 a) in
  do us <- scale_by_row_vector U d_inv_elements;
  let tmp := transpose us in
  get_rows tmp (STuple 0 (Z.min (zn (nr tmp)) (ic_num_components s))).
(** 111-118 *)
Definition ica_unmixing (s : ica_st) (X1 : mat T) : res (mat T) :=
  let W_init := rnd (ic_num_components s) (ic_num_components s) in
  match ic_algorithm s with DEFLATION => deflation s X1 W_init | PARALLEL => parallel s X1 W_init end.
(** 120-129 *)
Definition ica_finish (s : ica_st) (wh : option (mat T)) (X unmixing : mat T) : ica_st * res unit :=
  match (do uw <- (match wh with Some w => mul unmixing w | None => Ok unmixing end);
         do sx <- mul uw X;
         Ok (uw, transpose sx)) with
  | Err e => (ica_put s (ic_center s) None (ic_sources s) wh None false, Err e)
  | Ok (components, sources) =>
      match inverse np_inv lstsq components with
      | Err e => (ica_put s (ic_center s) (Some components) (Some sources) wh None false, Err e)
      | Ok mixing => (ica_put s (ic_center s) (Some components) (Some sources) wh (Some mixing) true, Ok tt)
      end
  end.
Definition ica_configure (s : ica_st) (X : mat T) : ica_st * res unit :=
  match ica_limit s (nc X) (nr X) with
  | (s, Err e) => (s, Err e)
  | (s, Ok _) =>
      if ic_whiten s then
        match t_transform center (ic_center s) X with
        | (c, Err e) => (ica_put s c None (ic_sources s) None None false, Err e)
        | (c, Ok Xc) =>
            let s := ica_put s c None (ic_sources s) None None false in
            let Xt := transpose Xc in
            match ica_whiten_matrix s Xt with
            | Err e => (s, Err e)
            | Ok wh =>
                let s := ica_put s c None (ic_sources s) (Some wh) None false in
                match (do X1 <- mul wh Xt; ica_unmixing s (mul_scalar X1 (nsqrt (nofZ (zn (nr X)))))) with
                | Err e => (s, Err e)
                | Ok unmixing => ica_finish s (Some wh) Xt unmixing
                end
            end
        end
      else
        let Xt := transpose X in
        match ica_unmixing s Xt with
        | Err e => (s, Err e)
        | Ok unmixing => ica_finish s None Xt unmixing
        end
  end.

(** transform with do_transform, 237-251 *)
Definition ica_transform (s : ica_st) (data : mat T) : ica_st * res (mat T) :=
  match ica_configure (ica_reset s) data with
  | (s, Err e) => (s, Err e)
  | (s, Ok _) => (s, need (ic_sources s))
  end.
(** reconstruct, 253-257 *)
Definition ica_reconstruct (s : ica_st) : ica_st * res (mat T) :=
  if ic_initialised s then
    match (do src <- need (ic_sources s); do mix <- need (ic_mixing s); mul src (transpose mix)) with
    | Err e => (s, Err e)
    | Ok m =>
        match t_inverse center (ic_center s) (transpose m) with
        | (c, r) => (ica_put s c (ic_components s) (ic_sources s) (ic_whitening s) (ic_mixing s) (ic_initialised s), do y <- r; Ok (transpose y))
        end
    end
  else (s, Err MatrixAlgorithmsError).

(** What a user can do with one object. *)
Inductive ica_op : Type := IcTransform (x : mat T) | IcReconstruct | IcInitialize | IcReset | IcSet (k : ica_key).
Definition ica_step (s : ica_st) (o : ica_op) : ica_st :=
  match o with
  | IcTransform x => fst (ica_transform s x)
  | IcReconstruct => fst (ica_reconstruct s)
  | IcInitialize => ica_initialize s
  | IcReset => ica_reset s
  | IcSet k => fst (ica_set s k)
  end.
Definition ica_run (h : list ica_op) : ica_st := fold_left ica_step h ica_new.
End FastICA.
Arguments negfun : clear implicits.
Arguments ica_st : clear implicits.
Arguments ica_key : clear implicits.
Arguments ica_op : clear implicits.
