(** The PLS algorithms algorithm/pls/_KernelPLS.py, _SparsePLS.py, _PRM.py, _OPLS.py, _DIPLS.py.
    Conventions as in M_PLS.  [svd] is np.linalg.svd, [rnd seed n] the n x 1 matrix that
    factory.randn(n, 1, seed) returns. *)
From Coq Require Import List ZArith Lia Bool Arith.
From Verif Require Import Base Num Mat M_Matrix M_Factory M_Helper M_Loop M_Utils M_Linalg M_Transform M_PLSBase M_PLS.
Import ListNotations.

Section PLS2.
Context {T : Type} `{Num T}.
Variables (lstsq : mat T -> mat T -> res (mat T)) (pinv : mat T -> res (mat T))
          (eig : mat T -> res (list T * mat T)) (svd : mat T -> res (mat T * list T * mat T))
          (rnd : Z -> nat -> mat T).

(** np.median (NaN when there is a NaN or nothing); np.amax *)
Definition np_median (l : list T) : T :=
  if existsb (fun x => negb (neqb x x)) l then ndiv n0 n0
  else let s := stable_sort (fun a b => nleb a b) l in
       let n := length s in
       if n =? 0 then ndiv n0 n0
       else if Nat.even n then ndiv (nadd (nth (n / 2 - 1) s n0) (nth (n / 2) s n0)) (nofZ 2)
       else nth (n / 2) s n0.
(** Matrix.median, _Matrix.py 409-410; Matrix.max, 406-407 *)
Definition median (m : mat T) : T := np_median (to_raw_copy_1D m).
Definition mmax (m : mat T) : res T :=
  match to_raw_copy_1D m with
  | [] => Err ValueError
  | x :: l => Ok (fold_left (fun a b => if negb (neqb a a) then a else if nleb b a then a else b) l x)
  end.
(** m.mean(axis) and m.sum(axis) where the result is a matrix *)
Definition the_matrix (r : res (T + mat T)) : res (mat T) :=
  do x <- r; match x with inr m => Ok m | inl _ => Err AttributeError end.

(** * _KernelPLS.py.  The kernel is an object with state KS (M_Kernel). *)
Section Kernel.
Context {KS : Type} (kernel0 : KS) (kapply : KS -> mat T -> option (mat T) -> KS * res (mat T)).
Record kpls_model : Type := KplsModel {
  km_K_orig : mat T; km_K_deflated : mat T; km_T : mat T; km_U : mat T; km_P : mat T; km_Q : mat T; km_B_RHS : mat T; km_X : mat T }.
Record kpls_st : Type := Kpls {
  kp_kernel : KS; kp_tol : T; kp_max_iter : Z; kp_center_X : center_st T; kp_center_Y : center_st T; kp_model : option kpls_model }.
Inductive kpls_key : Type := KKernel (v : KS) | KTol (v : T) | KMaxIter (v : Z).

(** centralize_train_in_kernel_space, 150-164 *)
Definition centralize_train (n : nat) (K : mat T) : res (mat T) :=
  do Id <- eye (zn n) (zn n);
  do one <- filled (zn n) 1 n1;
  do oo <- mul one (transpose one);
  do part <- sub Id (div_scalar oo (nofZ (zn n)));
  do pk <- mul part K;
  mul pk part.
(** centralize_test_in_kernel_space, 166-177 *)
Definition centralize_test (n_train : nat) (K_orig K : mat T) : res (mat T) :=
  do Id <- eye (zn n_train) (zn n_train);
  let w := ndiv n1 (nofZ (zn n_train)) in
  do ones_tt <- filled (zn (nr K)) (zn n_train) w;
  do ones_t <- filled (zn n_train) (zn n_train) w;
  do ok <- mul ones_tt K_orig;
  do d <- sub K ok;
  do c <- sub Id ones_t;
  mul d c.
(** The inner loop, 114-128; state t, w, q, u and the loop counters *)
Fixpoint kpls_while (fuel : nat) (tol : T) (max_iter : Z) (Kd Y t w q u : mat T) (change : T) (iterations : Z)
  : res (mat T * mat T * mat T * mat T) :=
  if nltb tol change && (iterations <? max_iter)%Z then
    match fuel with
    | O => Err OutOfFuel
    | S fuel =>
        do ku <- mul Kd u;
        do t <- normalized ku 0;
        do q <- mul (transpose Y) t;
        do yq <- mul Y q;
        do u' <- normalized yq 0;
        do d <- sub u' u;
        kpls_while fuel tol max_iter Kd Y t t q u' (norm2 d) (iterations + 1)
    end
  else Ok (t, w, q, u).
(** One component, 106-142; state K_deflated, Y, t, w, q and T, U, P, Q *)
Definition kpls_state : Type := ((mat T * mat T) * (mat T * mat T * mat T) * (mat T * mat T * mat T * mat T))%type.
Definition kpls_step (tol : T) (max_iter : Z) (rows : nat) (Id : mat T) (st : kpls_state) (k : nat) : res kpls_state :=
  let '((Kd, Y), (t, w, q), (Tm, U, P, Q)) := st in
  do r <- kpls_while (Z.to_nat max_iter) tol max_iter Kd Y t w q (rnd (zn k) rows) (nmul tol (nofZ 10)) 0;
  let '(t, w, q, u) := r in
  do tt <- mul t (transpose t);
  do part <- sub Id tt;
  do pk <- mul part Kd;
  do Kd <- mul pk part;
  do tq <- mul t (transpose q);
  do Y <- sub Y tq;
  do kw <- mul (transpose Kd) w;
  do ww <- mul (transpose w) w;
  do wr <- as_real ww;
  let p := div_scalar kw wr in
  do Tm <- set_column Tm (zn k) t;
  do U <- set_column U (zn k) u;
  do Q <- set_column Q (zn k) q;
  do P <- set_column P (zn k) p;
  Ok ((Kd, Y), (t, w, q), (Tm, U, P, Q)).
(** 89-147, from the centred X and Y; the kernel may change its state *)
Definition kpls_fit (n : Z) (ks : KS) (tol : T) (max_iter : Z) (X Y : mat T) : KS * res kpls_model :=
  let rows := nr X in let classes := nc Y in
  match eye (zn rows) (zn rows) with
  | Err e => (ks, Err e)
  | Ok Id =>
      let (ks, rK) := kapply ks X None in
      (ks,
       do K <- rK;
       do K_orig <- centralize_train rows K;
       do st <- for_range (Z.to_nat n) (kpls_step tol max_iter rows Id)
         ((K_orig, Y), (zeros (zn rows) 1, zeros (zn rows) 1, zeros (zn classes) 1),
          (zeros (zn rows) n, zeros (zn rows) n, zeros (zn rows) n, zeros (zn classes) n));
       let '((Kd, _), _, (Tm, U, P, Q)) := st in
       do tk <- mul (transpose Tm) K_orig;
       do tku <- mul tk U;
       do inv <- minverse lstsq tku;
       do B_RHS <- mul inv (transpose Q);
       Ok (KplsModel K_orig Kd Tm U P Q B_RHS X))
  end.
(** do_perform_initialization, 81-148 *)
Definition kpls_train (n : Z) (a : kpls_st) (predictors response : mat T) : kpls_st * res (option msg) :=
  match t_transform center (kp_center_X a) predictors with
  | (cx, Err e) => (Kpls (kp_kernel a) (kp_tol a) (kp_max_iter a) cx (kp_center_Y a) (kp_model a), Err e)
  | (cx, Ok X) =>
      match t_transform center (kp_center_Y a) response with
      | (cy, Err e) => (Kpls (kp_kernel a) (kp_tol a) (kp_max_iter a) cx cy (kp_model a), Err e)
      | (cy, Ok Y) =>
          let (ks, r) := kpls_fit n (kp_kernel a) (kp_tol a) (kp_max_iter a) X Y in
          match r with
          | Err e => (Kpls ks (kp_tol a) (kp_max_iter a) cx cy (kp_model a), Err e)
          | Ok m => (Kpls ks (kp_tol a) (kp_max_iter a) cx cy (Some m), Ok None)
          end
      end
  end.
(** do_transform, 185-190 *)
Definition kpls_transform (a : kpls_st) (predictors : mat T) : kpls_st * res (mat T) :=
  let (cx, r) := t_transform center (kp_center_X a) predictors in
  let a := Kpls (kp_kernel a) (kp_tol a) (kp_max_iter a) cx (kp_center_Y a) (kp_model a) in
  match r with
  | Err e => (a, Err e)
  | Ok centered =>
      match kp_model a with
      | None => (a, Err AttributeError)
      | Some m =>
          let (ks, rK) := kapply (kp_kernel a) centered (Some (km_X m)) in
          (Kpls ks (kp_tol a) (kp_max_iter a) (kp_center_X a) (kp_center_Y a) (kp_model a),
           do K_t <- rK;
           do K_t <- centralize_test (nr (km_X m)) (km_K_orig m) K_t;
           mul K_t (km_U m))
      end
  end.
(** do_perform_predictions, 179-183 *)
Definition kpls_predict (a : kpls_st) (predictors : mat T) : kpls_st * res (mat T) :=
  let (a, r) := kpls_transform a predictors in
  match (do K_t <- r; do m <- need (kp_model a); mul K_t (km_B_RHS m)) with
  | Err e => (a, Err e)
  | Ok Y_hat =>
      let (cy, r) := t_inverse center (kp_center_Y a) Y_hat in
      (Kpls (kp_kernel a) (kp_tol a) (kp_max_iter a) (kp_center_X a) cy (kp_model a), r)
  end.
Definition kernel_pls : pls_class kpls_st kpls_key T := {|
  c_arity := Multi 1 (-1);                                            (* 75-79 *)
  c_new := Kpls kernel0 (lit 1 6) 500 (t_new center) (t_new center) None;
  c_defaults := [KKernel kernel0; KTol (lit 1 6); KMaxIter 500];       (* 55-57 *)
  c_fresh := fun a => Kpls (kp_kernel a) (kp_tol a) (kp_max_iter a) (t_new center) (t_new center) (kp_model a);
  c_valid := fun k => match k with                                    (* 63-73 *)
                      | KKernel _ => Some true | KTol v => Some (nleb n0 v) | KMaxIter v => Some (0 <=? v)%Z end;
  c_assign := fun k a => match k with
    | KKernel v => Kpls v (kp_tol a) (kp_max_iter a) (kp_center_X a) (kp_center_Y a) (kp_model a)
    | KTol v => Kpls (kp_kernel a) v (kp_max_iter a) (kp_center_X a) (kp_center_Y a) (kp_model a)
    | KMaxIter v => Kpls (kp_kernel a) (kp_tol a) v (kp_center_X a) (kp_center_Y a) (kp_model a) end;
  c_reset := fun a => Kpls (kp_kernel a) (kp_tol a) (kp_max_iter a) (t_new center) (t_new center) None;   (* 211-222 *)
  c_train := kpls_train;
  c_predict := fun _ => kpls_predict;
  c_transform := fun _ => kpls_transform |}.
End Kernel.

(** * _SparsePLS.py.  The set A is the increasing list of its members. *)
Record sparse_st : Type := Sparse {
  sp_tol : T; sp_max_iter : Z; sp_lambda : T; sp_B : option (mat T); sp_A : option (list nat); sp_W : option (mat T);
  sp_standardize_X : std_st T; sp_standardize_Y : std_st T }.
Inductive sparse_key : Type := SpTol (v : T) | SpMaxIter (v : Z) | SpLambda (v : T).
(** get_direction_vector, 245-268 *)
Definition sparse_direction (lambda : T) (X y_j : mat T) : res (mat T) :=
  do Z_p <- mul (transpose X) y_j;
  let z_norm := median (abs Z_p) in
  let Z_p := div_scalar Z_p z_norm in
  let Z_P_sign := sign Z_p in
  do mx <- mmax (abs Z_p);
  let val_b := sub_scalar (abs Z_p) (nmul lambda mx) in
  do idxs <- where_vector val_b (fun d => nleb n0 d);
  do pre_mul <- mul_elementwise val_b Z_P_sign;
  do c <- for_each idxs (fun c idx => do val <- get pre_mul (zn idx) 0; set c (zn idx) 0 val) (zeros (zn (nr Z_p)) 1);
  Ok (div_scalar c (norm2_squared c)).
(** collect_indices, 225-233 *)
Definition sparse_collect (w B_pls : mat T) : res (list nat) :=
  let big d := nltb (lit 1 6) (nabs d) in
  do a <- where_vector w big;
  do b <- where_vector B_pls big;
  Ok (filter (fun i => existsb (Nat.eqb i) a || existsb (Nat.eqb i) b) (seq 0 (num_elements w + num_elements B_pls))).
(** get_column_submatrix_of, 195-208; get_row_submatrix_of, 210-223 *)
Definition sparse_columns (A : list nat) (X : mat T) : res (mat T) :=
  do r <- for_each A (fun st i => do col <- get_column X (zn i);
                                  do m <- set_column (fst st) (zn (snd st)) col; Ok (m, S (snd st)))
            (zeros (zn (nr X)) (zn (length A)), 0);
  Ok (fst r).
Definition sparse_rows (A : list nat) (X : mat T) : res (mat T) :=
  do r <- for_each A (fun st i => do row <- get_row X (zn i);
                                  do m <- set_row (fst st) (zn (snd st)) row; Ok (m, S (snd st)))
            (zeros (zn (length A)) (zn (nc X)), 0);
  Ok (fst r).
(** get_regression_coefficient, 178-193: a new NIPALS trained on the selected columns *)
Definition sparse_regression (max_iter : Z) (tol : T) (X_A y : mat T) (k : nat) : res (option (mat T)) :=
  let cls := nipals lstsq pinv in
  let s := construct cls in
  let (s, r) := setattr cls s (AOwn (NMaxIter max_iter)) in do _ <- r;
  let (s, r) := setattr cls s (AOwn (NTol tol)) in do _ <- r;
  let (s, r) := setattr cls s (ANumComponents (Z.min (zn (nc X_A)) (zn k + 1))) in do _ <- r;
  let (s, r) := initialize cls s (Some X_A) (Some y) in do _ <- r;
  Ok (match ni_model (p_own s) with Some m => Some (nm_coef m) | None => None end).
(** One component, 147-168; state A, B_pls, W, y_j *)
Definition sparse_state : Type := (list nat * mat T * mat T * mat T)%type.
Definition sparse_step (a : sparse_st) (X y : mat T) (st : sparse_state) (k : nat) : res sparse_state :=
  let '(_, B_pls, W, y_j) := st in
  do w_k <- sparse_direction (sp_lambda a) X y_j;
  do W <- set_column W (zn k) w_k;
  do A <- sparse_collect w_k B_pls;
  do X_A <- sparse_columns A X;
  do B_pls_A <- sparse_regression (sp_max_iter a) (sp_tol a) X_A y k;
  do r <- for_each A (fun st idx => do B <- need B_pls_A;
                                    do row <- get_row B (zn (snd st));
                                    do m <- set_row (fst st) (zn idx) row; Ok (m, S (snd st)))
            (zeros (zn (nc X)) (zn (nc y)), 0);
  let B_pls := fst r in
  do xb <- mul X B_pls;
  do y_j <- sub y xb;
  Ok (A, B_pls, W, y_j).
Definition sparse_fit (n : Z) (a : sparse_st) (X y : mat T) : res sparse_state :=
  for_range (Z.to_nat n) (sparse_step a X y) ([], zeros (zn (nc X)) (zn (nc y)), zeros (zn (nc X)) n, y).
(** do_perform_initialization, 131-176 *)
Definition sparse_train (n : Z) (a : sparse_st) (predictors response : mat T) : sparse_st * res (option msg) :=
  let put a sx sy B A W := Sparse (sp_tol a) (sp_max_iter a) (sp_lambda a) B A W sx sy in
  match t_transform standardize (sp_standardize_X a) predictors with
  | (sx, Err e) => (put a sx (sp_standardize_Y a) (sp_B a) (sp_A a) (sp_W a), Err e)
  | (sx, Ok X) =>
      match t_transform standardize (sp_standardize_Y a) response with
      | (sy, Err e) => (put a sx sy (sp_B a) (sp_A a) (sp_W a), Err e)
      | (sy, Ok y) =>
          match sparse_fit n a X y with
          | Err e => (put a sx sy (sp_B a) (sp_A a) (sp_W a), Err e)
          | Ok (A, B_pls, W, _) => (put a sx sy (Some B_pls) (Some A) (Some W), Ok None)
          end
      end
  end.
(** do_transform, 270-288 *)
Definition sparse_transform (n : Z) (a : sparse_st) (predictors : mat T) : res (mat T) :=
  do r <- for_range (Z.to_nat n) (fun st k =>
      let '(X, Ts) := st in
      do W <- need (sp_W a);
      do w_k <- get_column W (zn k);
      do t_k <- mul X w_k;
      do Ts <- set_column Ts (zn k) t_k;
      do xt <- mul (transpose X) t_k;
      let p_k := div_scalar xt (norm2_squared t_k) in
      do tp <- mul t_k (transpose p_k);
      do X <- sub X tp;
      Ok (X, Ts)) (predictors, zeros (zn (nr predictors)) n);
  Ok (snd r).
(** do_perform_predictions, 298-314 *)
Definition sparse_predict (a : sparse_st) (predictors : mat T) : sparse_st * res (mat T) :=
  let (sx, r) := t_transform standardize (sp_standardize_X a) predictors in
  let a := Sparse (sp_tol a) (sp_max_iter a) (sp_lambda a) (sp_B a) (sp_A a) (sp_W a) sx (sp_standardize_Y a) in
  (a, do X <- r;
      do A <- (match sp_A a with Some A => Ok A | None => Err TypeError end);
      do X_A <- sparse_columns A X;
      do B <- need (sp_B a);
      do B_A <- sparse_rows A B;
      do xb <- mul X_A B_A;
      do y_std <- need (st_devs (sp_standardize_Y a));
      do sc <- scale_by_row_vector xb y_std;
      do y_means <- need (st_means (sp_standardize_Y a));
      add_by_vector sc y_means).
Definition sparse_pls : pls_class sparse_st sparse_key T := {|
  c_arity := Single;
  c_new := Sparse n0 0 n0 None None None (t_new standardize) (t_new standardize);         (* 46-55 *)
  c_defaults := [SpLambda (lit 5 1); SpTol (lit 1 7); SpMaxIter 500];                     (* 83-85 *)
  c_fresh := fun a => Sparse (sp_tol a) (sp_max_iter a) (sp_lambda a) (sp_B a) (sp_A a) (sp_W a) (t_new standardize) (t_new standardize);
  c_valid := fun k => match k with                                                        (* 57-67 *)
                      | SpTol v => Some (nleb n0 v) | SpMaxIter v => Some (0 <=? v)%Z | SpLambda v => Some (nleb n0 v) end;
  c_assign := fun k a => match k with
    | SpTol v => Sparse v (sp_max_iter a) (sp_lambda a) (sp_B a) (sp_A a) (sp_W a) (sp_standardize_X a) (sp_standardize_Y a)
    | SpMaxIter v => Sparse (sp_tol a) v (sp_lambda a) (sp_B a) (sp_A a) (sp_W a) (sp_standardize_X a) (sp_standardize_Y a)
    | SpLambda v => Sparse (sp_tol a) (sp_max_iter a) v (sp_B a) (sp_A a) (sp_W a) (sp_standardize_X a) (sp_standardize_Y a) end;
  c_reset := fun a => Sparse (sp_tol a) (sp_max_iter a) (sp_lambda a) None None None (t_new standardize) (t_new standardize);  (* 69-78 *)
  c_train := sparse_train;
  c_predict := fun _ => sparse_predict;
  c_transform := fun n a X => (a, sparse_transform n a X) |}.

(** * _PRM.py *)
Record prm_model : Type := PrmModel { pm_W_r : mat T; pm_W_x : mat T; pm_T : mat T; pm_gamma : mat T; pm_coef : mat T;
                                      pm_simpls : pls_st (simpls_st T) T }.
Record prm_st : Type := Prm { pr_tol : T; pr_max_iter : Z; pr_C : T; pr_num_coef : Z; pr_model : option prm_model }.
Inductive prm_key : Type := PrTol (v : T) | PrMaxIter (v : Z) | PrC (v : T) | PrNumCoef (v : Z).
(** fair_function, 116-126 *)
Definition fair (z c : T) : T := let d := nadd n1 (nabs (ndiv z c)) in ndiv n1 (nmul d d).
(** c_dist, 329-342 *)
Definition c_dist (X vector : mat T) : res (mat T) :=
  for_range (nr X) (fun dist i => do row <- get_row X (zn i); do d <- sub row vector; set dist (zn i) 0 (norm2 d))
    (zeros (zn (nr X)) 1).
(** geometric_median, 290-327 *)
Definition safe_inverse (v : T) : T := if nltb (nabs v) (lit 1 10) then ndiv n1 (lit 1 1) else ndiv n1 v.
Fixpoint geometric_loop (fuel : nat) (tol : T) (max_iter : Z) (X guess : mat T) (iteration : Z) : res (mat T) :=
  if (iteration <? max_iter)%Z then
    match fuel with
    | O => Err OutOfFuel
    | S fuel =>
        do dists <- c_dist X guess;
        let dists := apply_elementwise dists safe_inverse in
        do sc <- scale_by_column_vector X dists;
        do nom <- the_matrix (sum sc (Some 0%Z));
        do ds <- the_matrix (sum dists (Some 0%Z));
        do denom <- as_real ds;
        let guess_next := div_scalar nom denom in
        do d <- sub guess_next guess;
        if nltb (norm2_squared d) tol then Ok guess_next
        else geometric_loop fuel tol max_iter X guess_next (iteration + 1)
    end
  else Ok guess.
Definition geometric_median (a : prm_st) (X : mat T) : res (mat T) :=
  do guess <- the_matrix (mean X (Some 0%Z));
  geometric_loop (Z.to_nat (pr_max_iter a)) (pr_tol a) (pr_max_iter a) X guess 0.
(** update_leverage_weights, 138-156: W_x *)
Definition leverage_weights (a : prm_st) (Ts : mat T) : res (mat T) :=
  let n := nr Ts in
  do med <- geometric_median a Ts;
  do dists <- c_dist Ts med;
  let m := median dists in
  for_range n (fun W i => do d <- get dists (zn i) 0; set W (zn i) 0 (fair (ndiv d m) (pr_C a))) (zeros (zn n) 1).
(** median_absolute_deviation, 194-202 *)
Definition mad (v : mat T) : T := median (abs (sub_scalar v (median v))).
(** update_residual_weights, 158-192: W_r; [est] is (T, gamma) unless both attributes are None *)
Definition residual_weights (a : prm_st) (est : option (mat T * mat T)) (X y : mat T) : res (mat T) :=
  let n := nr X in
  do residuals <- for_range n (fun residuals i =>
      do y_hat <- match est with
                  | None => Ok (median y)
                  | Some (Ts, gamma) => do row <- get_row Ts (zn i); do tg <- mul row gamma; as_real tg
                  end;
      do y_i <- get y (zn i) 0;
      set residuals (zn i) 0 (nsub y_i y_hat)) (zeros (zn n) 1);
  let residuals := div_scalar residuals (mad residuals) in
  for_range n (fun W i => do r <- get residuals (zn i) 0; set W (zn i) 0 (fair r (pr_C a))) (zeros (zn n) 1).
(** get_reweighted_matrix, 282-283; get_combined_weight, 285-288 *)
Definition reweighted (W_r W_x A : mat T) : res (mat T) :=
  do w <- mul_elementwise W_r W_x; scale_by_column_vector A (sqrt_mat w).
Definition combined_weight (W_r W_x : mat T) (i : nat) : res T :=
  do x <- get_row W_x (zn i); do w_xi <- as_real x;
  do r <- get_row W_r (zn i); do w_ri <- as_real r;
  Ok (nmul w_xi w_ri).
(** the SIMPLS run of lines 242-245 *)
Definition prm_simpls (a : prm_st) (n : Z) (X_p y_p : mat T) : res (pls_st (simpls_st T) T) :=
  let cls := simpls eig in
  let s := construct cls in
  let (s, r) := setattr cls s (AOwn (pr_num_coef a)) in do _ <- r;
  let (s, r) := setattr cls s (ANumComponents n) in do _ <- r;
  let (s, r) := initialize cls s (Some X_p) (Some y_p) in do _ <- r;
  Ok s.
(** one pass of the while loop, 239-261: W_r, W_x, T, gamma, simpls *)
Definition prm_pass (a : prm_st) (n : Z) (X y W_r W_x : mat T) : res (mat T * mat T * mat T * mat T * pls_st (simpls_st T) T) :=
  let cls := simpls eig in
  do X_p <- reweighted W_r W_x X;
  do y_p <- reweighted W_r W_x y;
  do s <- prm_simpls a n X_p y_p;
  let (s, rT) := transform cls s X_p in
  do Ts <- rT;
  do Q <- need (si_Q (p_own s));
  let gamma := transpose Q in
  do Ts <- for_range (nr Ts) (fun Ts i =>
      do w <- combined_weight W_r W_x i;
      do row <- get_row Ts (zn i);
      set_row Ts (zn i) (div_scalar row (nsqrt w))) Ts;
  do W_r <- residual_weights a (Some (Ts, gamma)) X_p y_p;
  do W_x <- leverage_weights a Ts;
  Ok (W_r, W_x, Ts, gamma, s).
(** the loop condition, 237, for iteration > 0 *)
Definition prm_again (a : prm_st) (gamma gamma_old : mat T) (iteration : Z) : res bool :=
  do d <- sub gamma gamma_old;
  Ok (nltb (norm2_squared d) (pr_tol a) && (iteration <? pr_max_iter a)%Z).
Fixpoint prm_while (fuel : nat) (a : prm_st) (n : Z) (X y W_r W_x gamma : mat T) (iteration : Z)
  : res (mat T * mat T * mat T * mat T * pls_st (simpls_st T) T * Z) :=
  match fuel with
  | O => Err OutOfFuel
  | S fuel =>
      do r <- prm_pass a n X y W_r W_x;
      let '(W_r, W_x, Ts, gamma', s) := r in
      do again <- prm_again a gamma' gamma (iteration + 1);
      if again then prm_while fuel a n X y W_r W_x gamma' (iteration + 1)
      else Ok (W_r, W_x, Ts, gamma', s, (iteration + 1)%Z)
  end.
(** do_perform_initialization, 204-271 *)
Definition prm_fit (a : prm_st) (n : Z) (predictors y : mat T) : res (prm_model * Z) :=
  let wide := nr predictors <? nc predictors in
  do XU <- (if wide then
              let X_t := transpose predictors in
              do U <- svd_U svd X_t; do V <- svd_V svd X_t; do S <- svd_S svd X_t;
              do X <- mul V S; Ok (X, Some U)
            else Ok (predictors, None));
  let (X, U) := XU in
  do W_r <- residual_weights a None X y;
  do W_x <- leverage_weights a X;
  do r <- prm_while (S (Z.to_nat (pr_max_iter a))) a n X y W_r W_x (zeros n 1) 0;
  let '(W_r, W_x, Ts, gamma, s, iterations) := r in
  do coef <- need (si_B (p_own s));
  do coef <- (match U with Some U => mul U coef | None => Ok coef end);
  Ok (PrmModel W_r W_x Ts gamma coef s, iterations).
Definition prm : pls_class prm_st prm_key T := {|
  c_arity := Single;
  c_new := Prm n0 0 n1 0 None;                                                            (* 41-52 *)
  c_defaults := [PrC (nofZ 4); PrTol (lit 1 6); PrMaxIter 500; PrNumCoef (-1)];           (* 82-85 *)
  c_fresh := fun a => a;
  c_valid := fun k => match k with                                                        (* 54-68 *)
                      | PrTol v => Some (nleb (nofZ 0) v) | PrMaxIter v => Some (0 <=? v)%Z
                      | PrC v => Some (nleb (lit 1 10) (nabs v)) | PrNumCoef _ => Some true end;
  c_assign := fun k a => match k with
    | PrTol v => Prm v (pr_max_iter a) (pr_C a) (pr_num_coef a) (pr_model a)
    | PrMaxIter v => Prm (pr_tol a) v (pr_C a) (pr_num_coef a) (pr_model a)
    | PrC v => Prm (pr_tol a) (pr_max_iter a) v (pr_num_coef a) (pr_model a)
    | PrNumCoef v => Prm (pr_tol a) (pr_max_iter a) (pr_C a) v (pr_model a) end;
  c_reset := fun a => Prm (pr_tol a) (pr_max_iter a) (pr_C a) (pr_num_coef a) None;       (* 70-77 *)
  c_train := fun n a X Y => match prm_fit a n X Y with
    | Err e => (a, Err e)
    | Ok (m, _) => (Prm (pr_tol a) (pr_max_iter a) (pr_C a) (pr_num_coef a) (Some m), Ok None) end;
  c_predict := fun _ a X => (a, do m <- need (pr_model a); mul X (pm_coef m));            (* 279-280 *)
  c_transform := fun _ a X => (a, do m <- need (pr_model a); do W <- need (si_W (p_own (pm_simpls m))); mul X W) |}.  (* 276-277 *)

(** * _OPLS.py, over the class of base_PLS *)
Section OPLS.
Context {AB KB : Type} (base : pls_class AB KB T).
Record opls_st : Type := Opls {
  op_P : option (mat T); op_T : option (mat T); op_W : option (mat T); op_X_osc : option (mat T); op_base : pls_st AB T }.
(** inv_L2_squared, 154-162 *)
Definition inv_L2_squared (v : mat T) : T := ndiv n1 (norm2_squared v).
(** One component, 127-147; state X, X_trans, W_orth, P_orth, T_orth *)
Definition opls_state : Type := (mat T * mat T * mat T * mat T * mat T)%type.
Definition opls_step (w : mat T) (st : opls_state) (k : nat) : res opls_state :=
  let '(X, X_trans, W_orth, P_orth, T_orth) := st in
  do xw <- mul X w;
  let t := mul_scalar xw (inv_L2_squared w) in
  do xt <- mul X_trans t;
  let p := mul_scalar xt (inv_L2_squared t) in
  do wp <- mul (transpose w) p;
  do f <- as_real (mul_scalar wp (inv_L2_squared w));
  do w_orth <- sub p (mul_scalar w f);
  do w_orth <- normalized w_orth 0;
  do xo <- mul X w_orth;
  let t_orth := mul_scalar xo (inv_L2_squared w_orth) in
  do xto <- mul X_trans t_orth;
  let p_orth := mul_scalar xto (inv_L2_squared t_orth) in
  do tp <- mul t_orth (transpose p_orth);
  do X <- sub X tp;
  let X_trans := transpose X in
  do W_orth <- set_column W_orth (zn k) w_orth;
  do T_orth <- set_column T_orth (zn k) t_orth;
  do P_orth <- set_column P_orth (zn k) p_orth;
  Ok (X, X_trans, W_orth, P_orth, T_orth).
(** 116-147: the weight vector w and the final state *)
Definition opls_fit (n : Z) (predictors y : mat T) : res (mat T * opls_state) :=
  let X_trans := transpose predictors in
  let p := zn (nc predictors) in
  do xy <- mul X_trans y;
  do w <- normalized (mul_scalar xy (inv_L2_squared y)) 0;
  do st <- for_range (Z.to_nat n) (opls_step w) (predictors, X_trans, zeros p n, zeros p n, zeros (zn (nr predictors)) n);
  Ok (w, st).
(** do_transform, 164-175 *)
Definition opls_transform (W_orth P_orth : option (mat T)) (predictors : mat T) : res (mat T) :=
  do W <- need W_orth;
  do Ts <- mul predictors W;
  do P <- need P_orth;
  do X_orth <- mul Ts (transpose P);
  sub predictors X_orth.
(** do_perform_initialization, 108-152; the message base_PLS.initialize returns is ignored *)
Definition opls_train (n : Z) (a : opls_st) (predictors response : mat T) : opls_st * res (option msg) :=
  match opls_fit n predictors response with
  | Err e => (a, Err e)
  | Ok (_, (X, _, W_orth, P_orth, T_orth)) =>
      match opls_transform (Some W_orth) (Some P_orth) predictors with
      | Err e => (Opls (Some P_orth) (Some T_orth) (Some W_orth) (Some X) (op_base a), Err e)
      | Ok cleaned =>
          let (b, r) := initialize base (op_base a) (Some cleaned) (Some response) in
          (Opls (Some P_orth) (Some T_orth) (Some W_orth) (Some X) b,
           match r with Ok _ => Ok None | Err e => Err e end)
      end
  end.
(** do_perform_predictions, 185-193 (only reached on a trained object) *)
Definition opls_predict (a : opls_st) (predictors : mat T) : opls_st * res (mat T) :=
  match opls_transform (op_W a) (op_P a) predictors with
  | Err e => (a, Err e)
  | Ok X => let (b, r) := predict base (op_base a) X in
            (Opls (op_P a) (op_T a) (op_W a) (op_X_osc a) b, r)
  end.
Definition opls : pls_class opls_st (pls_st AB T) T := {|
  c_arity := Single;
  c_new := Opls None None None None (construct base);            (* 36-42; base_PLS is None until line 61 *)
  c_defaults := [construct base];                                 (* 61 *)
  c_fresh := fun a => a;
  c_valid := fun _ => Some true;                                  (* 44-46 *)
  c_assign := fun b a => Opls (op_P a) (op_T a) (op_W a) (op_X_osc a) b;
  c_reset := fun a => Opls None None None (op_X_osc a) (op_base a);  (* 48-56 *)
  c_train := opls_train;
  c_predict := fun _ => opls_predict;
  c_transform := fun _ a X => (a, opls_transform (op_W a) (op_P a) X) |}.
End OPLS.

(** * _DIPLS.py *)
Inductive strategy : Type := UNSUPERVISED | SUPERVISED | SEMISUPERVISED.
Record dipls_model : Type := DiplsModel {
  dm_T : mat T; dm_T_s : mat T; dm_T_t : mat T; dm_P : mat T; dm_P_s : mat T; dm_P_t : mat T; dm_W : mat T; dm_b : mat T }.
Record dipls_st : Type := Dipls {
  di_strategy : strategy; di_ns : Z; di_nt : Z; di_lambda : T;
  di_X_center : center_st T; di_X_s_center : center_st T; di_X_t_center : center_st T;
  di_b_0 : option T; di_model : option dipls_model }.
Inductive dipls_key : Type := DStrategy (v : strategy) | DNs (v : Z) | DNt (v : Z) | DLambda (v : T).
(** concat, 204-215 *)
Definition dipls_concat (A : option (mat T)) (a : mat T) : res (option (mat T)) :=
  match A with None => Ok (Some a) | Some A => do r <- concat_along_columns A a; Ok (Some r) end.
(** One component, 157-197; state X, X_s, X_t, y and c, T, T_s, T_t, P, P_s, P_t, W_di *)
Definition dipls_state : Type :=
  ((mat T * mat T * mat T * mat T) * list (option (mat T)))%type.
Definition dipls_score (t X : mat T) : res (mat T * mat T) :=
  do tt <- mul (transpose t) t; do i <- minverse lstsq tt; do it <- mul i (transpose t); do p <- mul it X; Ok (i, p).
Definition dipls_step (Id : mat T) (ns nt : Z) (lambda : T) (st : dipls_state) (_ : nat) : res dipls_state :=
  let '((X, X_s, X_t, y), ms) := st in
  let y2 := norm2_squared y in
  do yx <- mul (transpose y) X;
  let lhs := div_scalar yx y2 in
  do ss <- mul (transpose X_s) X_s;
  let ss := mul_scalar ss (ndiv n1 (nsub (nofZ ns) n1)) in
  do tt <- mul (transpose X_t) X_t;
  let tt := mul_scalar tt (ndiv n1 (nsub (nofZ nt) n1)) in
  do diff <- sub ss tt;
  do rhs0 <- add Id (mul_scalar diff (ndiv lambda (nmul (nofZ 2) y2)));
  do rhs <- minverse lstsq rhs0;
  do w0 <- mul lhs rhs;
  do w <- normalized (transpose w0) 0;
  do t <- mul X w;
  do t_s <- mul X_s w;
  do t_t <- mul X_t w;
  do p <- dipls_score t X;
  do p_s <- dipls_score t_s X_s;
  do p_t <- dipls_score t_t X_t;
  do iy <- mul (fst p) (transpose y);
  do ca <- mul iy t;
  do d <- mul t (snd p); do X <- sub X d;
  do d <- mul t_s (snd p_s); do X_s <- sub X_s d;
  do d <- mul t_t (snd p_t); do X_t <- sub X_t d;
  do d <- mul t ca; do y <- sub y d;
  do ms <- mapM (fun Aa => dipls_concat (fst Aa) (snd Aa))
             (combine ms [ca; t; t_s; t_t; transpose (snd p); transpose (snd p_s); transpose (snd p_t); w]);
  Ok ((X, X_s, X_t, y), ms).
(** 107-202 *)
Definition dipls_train (n : Z) (a : dipls_st) (predictors response : mat T) : dipls_st * res (option msg) :=
  let put a cx cs ct b0 m := Dipls (di_strategy a) (di_ns a) (di_nt a) (di_lambda a) cx cs ct b0 m in
  match eye (zn (nc predictors)) (-1) with
  | Err e => (a, Err e)
  | Ok Id =>
  if ((di_ns a =? 0) || (di_nt a =? 0))%Z then (a, Ok (Some MsgWrongInitializer))
  else if ((di_ns a =? 1) || (di_nt a =? 1))%Z then (a, Ok (Some MsgTooFewSamples))
  else
    match (do X_s <- get_rows predictors (STuple 0 (di_ns a));
           do X_t <- get_rows predictors (STuple (di_ns a) (zn (nr predictors)));
           do X <- match di_strategy a with
                   | UNSUPERVISED => Ok X_s
                   | SUPERVISED => Ok predictors
                   | SEMISUPERVISED => get_rows predictors (STuple 0 (2 * di_ns a))
                   end;
           Ok (X, X_s, X_t)) with
    | Err e => (a, Err e)
    | Ok (X, X_s, X_t) =>
        let (cx, rX) := t_transform center (di_X_center a) X in
        match rX with
        | Err e => (put a cx (di_X_s_center a) (di_X_t_center a) (di_b_0 a) (di_model a), Err e)
        | Ok X =>
        let (cs, rS) := t_transform center (di_X_s_center a) X_s in
        match rS with
        | Err e => (put a cx cs (di_X_t_center a) (di_b_0 a) (di_model a), Err e)
        | Ok X_s =>
        let (ct, rT) := t_transform center (di_X_t_center a) X_t in
        match (do X_t <- rT;
               do m <- the_matrix (mean response (Some (-1)%Z)); do b0 <- as_real m; Ok (X_t, b0)) with
        | Err e => (put a cx cs ct (di_b_0 a) (di_model a), Err e)
        | Ok (X_t, b0) =>
            match (do st <- for_range (Z.to_nat n) (dipls_step Id (di_ns a) (di_nt a) (di_lambda a))
                              ((X, X_s, X_t, sub_scalar response b0), repeat None 8);
                   match snd st with
                   | [Some c; Some Tm; Some Ts; Some Tt; Some P; Some Ps; Some Pt; Some W] =>
                       do pw <- mul (transpose P) W; do i <- minverse lstsq pw; do wi <- mul W i; do b <- mul wi (transpose c);
                       Ok (DiplsModel Tm Ts Tt P Ps Pt W b)
                   | _ => Err AttributeError
                   end) with
            | Err e => (put a cx cs ct (Some b0) (di_model a), Err e)
            | Ok m => (put a cx cs ct (Some b0) (Some m), Ok None)
            end
        end end end
    end
  end.
(** do_transform, 104-105 *)
Definition dipls_transform (a : dipls_st) (predictors : mat T) : dipls_st * res (mat T) :=
  let (cx, r) := t_transform center (di_X_center a) predictors in
  (Dipls (di_strategy a) (di_ns a) (di_nt a) (di_lambda a) cx (di_X_s_center a) (di_X_t_center a) (di_b_0 a) (di_model a),
   do X <- r; do m <- need (di_model a); mul X (dm_W m)).
(** do_perform_predictions, 217-235 *)
Definition dipls_predict (a : dipls_st) (predictors : mat T) : dipls_st * res (mat T) :=
  let finish r := do X <- r; do m <- need (di_model a); do g <- mul X (dm_b m);
                  match di_b_0 a with Some b0 => Ok (add_scalar g b0) | None => Ok (add_scalar g (ndiv n0 n0)) end in
  match di_strategy a with
  | UNSUPERVISED =>
      let (ct, r) := t_transform center (di_X_t_center a) predictors in
      (Dipls (di_strategy a) (di_ns a) (di_nt a) (di_lambda a) (di_X_center a) (di_X_s_center a) ct (di_b_0 a) (di_model a), finish r)
  | _ =>
      let (cx, r) := t_transform center (di_X_center a) predictors in
      (Dipls (di_strategy a) (di_ns a) (di_nt a) (di_lambda a) cx (di_X_s_center a) (di_X_t_center a) (di_b_0 a) (di_model a), finish r)
  end.
Definition dipls : pls_class dipls_st dipls_key T := {|
  c_arity := Single;
  c_new := Dipls UNSUPERVISED 0 0 n1 (t_new center) (t_new center) (t_new center) (Some n0) None;   (* 28-45 *)
  c_defaults := [DStrategy UNSUPERVISED; DLambda n1];                                               (* 50-51 *)
  c_fresh := fun a => Dipls (di_strategy a) (di_ns a) (di_nt a) (di_lambda a) (t_new center) (t_new center) (t_new center) (di_b_0 a) (di_model a);  (* 52-54 *)
  c_valid := fun k => match k with DLambda v => Some (nleb (lit 1 8) (nabs v)) | _ => None end;      (* 70-72 *)
  c_assign := fun k a => match k with
    | DStrategy v => Dipls v (di_ns a) (di_nt a) (di_lambda a) (di_X_center a) (di_X_s_center a) (di_X_t_center a) (di_b_0 a) (di_model a)
    | DNs v => Dipls (di_strategy a) v (di_nt a) (di_lambda a) (di_X_center a) (di_X_s_center a) (di_X_t_center a) (di_b_0 a) (di_model a)
    | DNt v => Dipls (di_strategy a) (di_ns a) v (di_lambda a) (di_X_center a) (di_X_s_center a) (di_X_t_center a) (di_b_0 a) (di_model a)
    | DLambda v => Dipls (di_strategy a) (di_ns a) (di_nt a) v (di_X_center a) (di_X_s_center a) (di_X_t_center a) (di_b_0 a) (di_model a) end;
  c_reset := fun a => Dipls (di_strategy a) (di_ns a) (di_nt a) (di_lambda a) (di_X_center a) (di_X_s_center a) (di_X_t_center a) None None;  (* 58-68 *)
  c_train := dipls_train;
  c_predict := fun _ => dipls_predict;
  c_transform := fun _ => dipls_transform |}.
(** initialize_unsupervised, 237-255 (ns, nt and the strategy are plain attributes);
    initialize_supervised, 257-277 *)
Definition dipls_initialize_unsupervised (s : pls_st dipls_st T) (Xs Xt ys : mat T) : pls_st dipls_st T * res (option msg) :=
  let s := fst (setattr dipls s (AOwn (DNs (zn (nr Xs))))) in
  let s := fst (setattr dipls s (AOwn (DNt (zn (nr Xt))))) in
  let s := fst (setattr dipls s (AOwn (DStrategy UNSUPERVISED))) in
  match concat_along_rows Xs Xt with
  | Err e => (s, Err e)
  | Ok X => initialize dipls s (Some X) (Some ys)
  end.
Definition dipls_initialize_supervised (s : pls_st dipls_st T) (Xs Xt ys yt : mat T) : pls_st dipls_st T * res (option msg) :=
  let s := fst (setattr dipls s (AOwn (DNs (zn (nr Xs))))) in
  let s := fst (setattr dipls s (AOwn (DNt (zn (nr Xt))))) in
  let s := fst (setattr dipls s (AOwn (DStrategy SUPERVISED))) in
  match (do X <- concat_along_rows Xs Xt; do y <- concat_along_rows ys yt; Ok (X, y)) with
  | Err e => (s, Err e)
  | Ok (X, y) => initialize dipls s (Some X) (Some y)
  end.
(** initialize_semisupervised, 279-303 *)
Definition dipls_initialize_semisupervised (s : pls_st dipls_st T) (Xs Xt Xu ys yt : mat T) : pls_st dipls_st T * res (option msg) :=
  let s := fst (setattr dipls s (AOwn (DNs (zn (nr Xs))))) in
  let s := fst (setattr dipls s (AOwn (DNt (zn (nr Xt))))) in
  let s := fst (setattr dipls s (AOwn (DStrategy SEMISUPERVISED))) in
  match (do X <- concat_along_rows Xs Xt; do X <- concat_along_rows X Xu; do y <- concat_along_rows ys yt; Ok (X, y)) with
  | Err e => (s, Err e)
  | Ok (X, y) => initialize dipls s (Some X) (Some y)
  end.
End PLS2.
