(** Models of the filters and the simple transformations:
    core/_MultiFilter.py, filter/_Downsample.py, filter/_Equidistance.py,
    transformation/_AbstractTransformation.py, _Center.py, _Standardize.py,
    _RowNorm.py, _PassThrough.py, _Log.py, _PowerTransformer.py,
    _QuantileTransformer.py, _RobustScaler.py.
    A method that may change its object returns the new state next to its result. *)
From Coq Require Import List ZArith Lia Bool Arith Reals.
From Verif Require Import Base Num Mat M_Matrix M_Factory M_Helper.
Import ListNotations.

(** A filter: a method on some state (of itself and of everything it refers to). *)
Definition filter_fn (G T : Type) : Type := G -> mat T -> G * res (mat T).

(** core/_MultiFilter.py: transform, lines 31-39 *)
Definition multi_filter {G T} (filters : list (filter_fn G T)) : filter_fn G T :=
  fun g predictors =>
    fold_left (fun acc f => match acc with (g, Ok r) => f g r | (g, Err e) => (g, Err e) end)
      filters (g, Ok predictors).

Section Filters.
Context {T : Type} `{Num T}.

(** filter/_Downsample.py: transform, lines 13-16 (range refuses step 0) *)
Definition downsample (start_index step : Z) (predictors : mat T) : res (mat T) :=
  if (step =? 0)%Z then Err ValueError
  else get_columns predictors (SList (pyrange start_index (Z.of_nat (nc predictors)) step)).

(** filter/_Equidistance.py: one iteration of the loop, lines 44-67 *)
Definition equidistance_column (num_samples : Z) (predictors : mat T) (resampled_index : nat) : res (mat T) :=
  let resampled_step := (Z.of_nat (nc predictors) - 1)%Z in
  let original_step := (num_samples - 1)%Z in
  let x := (resampled_step * Z.of_nat resampled_index)%Z in
  let old_index := (x / original_step)%Z in
  if (x mod original_step =? 0)%Z then get_column predictors old_index
  else
    do left <- get_column predictors old_index;
    do right <- get_column predictors (old_index + 1)%Z;
    let t := ndiv (nofZ (x mod original_step)) (nofZ original_step) in
    add (mul_scalar left (nsub n1 t)) (mul_scalar right t).
(** transform, lines 34-69 *)
Definition equidistance (num_samples : Z) (predictors : mat T) : res (mat T) :=
  fold_left (fun acc k => do r <- acc;
                          do c <- equidistance_column num_samples predictors k;
                          set_column r (Z.of_nat k) c)
    (seq 0 (Z.to_nat num_samples)) (Ok (zeros (Z.of_nat (nr predictors)) num_samples)).
(** __init__ / __setattr__, lines 25-33: the validated attribute *)
Definition equidistance_set_num_samples (value : Z) : res Z :=
  if (value <? 2)%Z then Err ValueError else Ok value.
End Filters.

(** transformation/_AbstractTransformation.py.  A concrete class gives the state,
    __init__, reset, configure and the two do_ methods. *)
Record tclass (S T : Type) : Type := TClass {
  t_new : S;                                   (* __init__ *)
  t_configured : S -> bool;
  t_mark : S -> S;                             (* self.configured = True *)
  t_reset : S -> S;
  t_configure : S -> mat T -> S * res unit;
  t_do : S -> mat T -> res (mat T);            (* do_transform *)
  t_undo : S -> mat T -> res (mat T) }.        (* do_inverse_transform *)
Arguments t_new {S T}. Arguments t_configured {S T}. Arguments t_mark {S T}. Arguments t_reset {S T}.
Arguments t_configure {S T}. Arguments t_do {S T}. Arguments t_undo {S T}. Arguments TClass {S T}.

Section Transformation.
Context {S T : Type} (c : tclass S T).
(** transform, lines 38-41 *)
Definition t_transform (s : S) (data : mat T) : S * res (mat T) :=
  if negb (t_configured c s) then
    match t_configure c s data with
    | (s', Ok _) => (s', t_do c s' data)
    | (s', Err e) => (s', Err e)
    end
  else (s, t_do c s data).
(** inverse_transform, lines 47-51 *)
Definition t_inverse (s : S) (data : mat T) : S * res (mat T) :=
  if negb (t_configured c s) then
    match t_configure c s data with
    | (s', Ok _) => let s'' := t_mark c s' in (s'', t_undo c s'' data)
    | (s', Err e) => (s', Err e)
    end
  else (s, t_undo c s data).
(** quick_apply, lines 53-55 *)
Definition t_quick_apply (data : mat T) : res (mat T) := snd (t_transform (t_new c) data).

(** The calls a user can make on one object. *)
Inductive t_op : Type := OTransform (m : mat T) | OInverse (m : mat T) | OConfigure (m : mat T) | OReset.
Definition t_step (s : S) (o : t_op) : S :=
  match o with
  | OTransform m => fst (t_transform s m)
  | OInverse m => fst (t_inverse s m)
  | OConfigure m => fst (t_configure c s m)
  | OReset => t_reset c s
  end.
Definition t_run (s : S) (h : list t_op) : S := fold_left t_step h s.
End Transformation.
Arguments t_op : clear implicits.

Section Classes.
Context {T : Type} `{Num T}.

(** A method call on an attribute that is still None. *)
Definition need {A} (x : option A) : res A := match x with Some a => Ok a | None => Err AttributeError end.

(** _Center.py *)
Record center_st : Type := CenterSt { ce_configured : bool; ce_means : option (mat T) }.
Definition center : tclass center_st T := {|
  t_new := CenterSt false None;                                       (* 25-27 *)
  t_configured := ce_configured;
  t_mark := fun s => CenterSt true (ce_means s);
  t_reset := fun _ => CenterSt false None;                            (* 29-31 *)
  t_configure := fun _ data => (CenterSt true (Some (column_means data)), Ok tt);  (* 33-35 *)
  t_do := fun s data => do mu <- need (ce_means s); sub_by_vector_modify data mu;   (* 37-40 *)
  t_undo := fun s data => do mu <- need (ce_means s); add_by_vector_modify data mu  (* 42-45 *)
|}.

(** The zero guard shared by _Standardize.py 40-42 and _RowNorm.py 40-42 *)
Definition zero_guard (std_devs : mat T) : res (mat T) :=
  fold_left (fun acc i => do s <- acc;
                          do x <- get s (Z.of_nat i) 0;
                          if neqb x n0 then set s (Z.of_nat i) 0 (nofZ 1) else Ok s)
    (seq 0 (nr std_devs)) (Ok std_devs).

(** _Standardize.py.  When the guard raises, means is already stored and
    std_devs is left as computed (the guard raises on the first access or not at all). *)
Record std_st : Type := StdSt { st_configured : bool; st_means : option (mat T); st_devs : option (mat T) }.
Definition standardize : tclass std_st T := {|
  t_new := StdSt false None None;                                     (* 26-29 *)
  t_configured := st_configured;
  t_mark := fun s => StdSt true (st_means s) (st_devs s);
  t_reset := fun _ => StdSt false None None;                          (* 31-34 *)
  t_configure := fun s data =>                                        (* 36-43 *)
    match zero_guard (column_stdevs data) with
    | Ok sd => (StdSt true (Some (column_means data)) (Some sd), Ok tt)
    | Err e => (StdSt (st_configured s) (Some (column_means data)) (Some (column_stdevs data)), Err e)
    end;
  t_do := fun s data => do mu <- need (st_means s);                    (* 45-49 *)
                        do r <- sub_by_vector_modify data mu;
                        do sd <- need (st_devs s); div_by_vector_modify r sd;
  t_undo := fun s data => do sd <- need (st_devs s);                   (* 51-55 *)
                          do r <- mul_by_vector_modify data sd;
                          do mu <- need (st_means s); add_by_vector_modify r mu
|}.

(** array op= array: in-place broadcasting (the target keeps its shape) *)
Definition np_inplace (op : T -> T -> T) (m v : mat T) : res (mat T) :=
  if ((nr v =? 1) || (nr v =? nr m)) && ((nc v =? 1) || (nc v =? nc m)) then Ok (broadcast_op op m v)
  else Err ValueError.

(** _RowNorm.py: configure does not set self.configured *)
Definition rownorm : tclass std_st T := {|
  t_new := StdSt false None None;                                     (* 26-29 *)
  t_configured := st_configured;
  t_mark := fun s => StdSt true (st_means s) (st_devs s);
  t_reset := fun _ => StdSt false None None;                          (* 31-34 *)
  t_configure := fun s data =>                                        (* 36-42 *)
    match zero_guard (row_stdevs data) with
    | Ok sd => (StdSt (st_configured s) (Some (row_means data)) (Some sd), Ok tt)
    | Err e => (StdSt (st_configured s) (Some (row_means data)) (Some (row_stdevs data)), Err e)
    end;
  t_do := fun s data => do mu <- need (st_means s);                    (* 44-48 *)
                        do r <- np_inplace nsub data mu;
                        do sd <- need (st_devs s); np_inplace ndiv r sd;
  t_undo := fun s data => do sd <- need (st_devs s);                   (* 50-54 *)
                          do r <- np_inplace nmul data sd;
                          do mu <- need (st_means s); np_inplace nadd r mu
|}.

(** _PassThrough.py, lines 20-28 *)
Definition pass_through : tclass bool T := {|
  t_new := false; t_configured := fun b => b; t_mark := fun _ => true; t_reset := fun _ => false;
  t_configure := fun _ _ => (true, Ok tt); t_do := fun _ data => Ok data; t_undo := fun _ data => Ok data |}.

(** _PowerTransformer.py, _QuantileTransformer.py, _RobustScaler.py: wrappers of
    scikit-learn objects.  [I] is the fitted object, [fit params data] constructs and
    fits it with the attribute values params; unfitted objects raise on use. *)
Section Wrapper.
Context {P I : Type} (params0 : P) (fit : P -> mat T -> res I) (fwd bwd : I -> mat T -> res (mat T)).
Record wrap_st : Type := WrapSt { w_configured : bool; w_params : P; w_intern : option (option I) }.
Definition w_use (f : I -> mat T -> res (mat T)) (s : wrap_st) (data : mat T) : res (mat T) :=
  match w_intern s with
  | None => Err AttributeError
  | Some None => Err ValueError          (* NotFittedError is a ValueError *)
  | Some (Some i) => f i data
  end.
Definition wrapper : tclass wrap_st T := {|
  t_new := WrapSt false params0 None;
  t_configured := w_configured;
  t_mark := fun s => WrapSt true (w_params s) (w_intern s);
  t_reset := fun s => WrapSt false (w_params s) None;
  t_configure := fun s data =>
    match fit (w_params s) data with
    | Ok i => (WrapSt true (w_params s) (Some (Some i)), Ok tt)
    | Err e => (WrapSt (w_configured s) (w_params s) (Some None), Err e)
    end;
  t_do := w_use fwd; t_undo := w_use bwd |}.
(** __setattr__: a validated attribute resets the object, the others do not.
    [validate] is None for an attribute without validator. *)
Definition wrap_setattr (validate : option (P -> bool)) (new : P) (s : wrap_st) : wrap_st * res unit :=
  match validate with
  | None => (WrapSt (w_configured s) new (w_intern s), Ok tt)
  | Some v => if v new then (WrapSt false new None, Ok tt) else (s, Err ValueError)
  end.
End Wrapper.
End Classes.
Arguments center_st : clear implicits.
Arguments std_st : clear implicits.
Arguments wrap_st : clear implicits.

(** _Log.py, over the reals (numpy's log and exp taken exact) *)
Record log_st : Type := LogSt { lg_configured : bool; lg_base : R; lg_offset : R }.
(** _base_conversion_factor, lines 78-85 *)
Definition log_factor (s : log_st) : R := (if Reqb (lg_base s) (exp 1) then 1 else 1 / ln (lg_base s))%R.
Definition log_transformation : tclass log_st R := {|
  t_new := LogSt false (exp 1) 1;                                     (* 26-30 *)
  t_configured := lg_configured;
  t_mark := fun s => LogSt true (lg_base s) (lg_offset s);
  t_reset := fun s => LogSt false (lg_base s) (lg_offset s);
  t_configure := fun s _ => (LogSt true (lg_base s) (lg_offset s), Ok tt);  (* 49-50 *)
  t_do := fun s data =>                                               (* 52-64 *)
    let shifted := add_scalar data (lg_offset s) in
    if any shifted (fun x => Rleb x 0) then Err ValueError
    else Ok (mul_scalar (map_mat ln shifted) (log_factor s));
  t_undo := fun s data =>                                             (* 66-76 *)
    Ok (sub_scalar (map_mat exp (div_scalar data (log_factor s))) (lg_offset s)) |}.
(** __setattr__ and validate_base, lines 32-47 *)
Definition log_set_base (v : R) (s : log_st) : log_st * res unit :=
  if Reqb v 1 || Rleb v 0 then (s, Err ValueError) else (LogSt false v (lg_offset s), Ok tt).
Definition log_set_offset (v : R) (s : log_st) : log_st * res unit :=
  (LogSt (lg_configured s) (lg_base s) v, Ok tt).
