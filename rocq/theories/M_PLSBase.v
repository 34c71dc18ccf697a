(** Parameter assignment, training life cycle and pre-/postprocessing shared by the PLS algorithms:
    core/_LoggingObject.py (__setattr__, 34-46), algorithm/_AbstractAlgorithm.py,
    algorithm/pls/_AbstractPLS.py, _AbstractSingleResponsePLS.py, _AbstractMultiResponsePLS.py.

    An object is a record of its attributes; a method returns the new object next to its result,
    also when the result is an exception.  Attribute values are taken to be of their declared type
    (preprocessing_type additionally admits one foreign value).  Message texts are not modelled. *)
From Coq Require Import List ZArith Lia Bool Arith.
From Verif Require Import Base Num Mat M_Matrix M_Factory M_Helper M_Loop M_Utils M_Transform.
Import ListNotations.

(** core/_PreprocessingType.py, plus any object that is none of the three members *)
Inductive preproc : Type := PP_NONE | PP_CENTER | PP_STANDARDIZE | PP_OTHER.

(** The error messages initialize may return. *)
Inductive msg : Type :=
| MsgExactlyOne (found : nat)       (* _AbstractSingleResponsePLS.py 56 *)
| MsgAtLeast (min : Z) (found : nat) (* _AbstractMultiResponsePLS.py 77-80 *)
| MsgAtMost (max : Z) (found : nat)  (* 82-85 *)
| MsgWrongInitializer               (* _DIPLS.py 113-117 *)
| MsgTooFewSamples.                 (* _DIPLS.py 120-121 *)

(** How many response columns the class accepts. *)
Inductive arity : Type := Single | Multi (min_columns max_columns : Z).

(** What a concrete class adds.  A: all its own attributes, K: assignments "obj.key = value" to its
    own public attributes. *)
Record pls_class (A K T : Type) : Type := PlsClass {
  c_arity : arity;
  c_new : A;                                   (* __init__ of the class *)
  c_defaults : list K;                         (* assignments of initialize() without arguments *)
  c_fresh : A -> A;                            (* other objects made by initialize() without arguments *)
  c_valid : K -> option bool;                  (* validate_<key>(value); None: there is no validator *)
  c_assign : K -> A -> A;                      (* super().__setattr__(key, value) *)
  c_reset : A -> A;                            (* the class's part of reset() *)
  c_train : Z -> A -> mat T -> mat T -> A * res (option msg);  (* do_perform_initialization, given num_components *)
  c_predict : Z -> A -> mat T -> A * res (mat T);              (* do_perform_predictions *)
  c_transform : Z -> A -> mat T -> A * res (mat T) }.          (* do_transform *)
Arguments PlsClass {A K T}. Arguments c_arity {A K T}. Arguments c_new {A K T}. Arguments c_defaults {A K T}.
Arguments c_fresh {A K T}. Arguments c_valid {A K T}. Arguments c_assign {A K T}. Arguments c_reset {A K T}.
Arguments c_train {A K T}. Arguments c_predict {A K T}. Arguments c_transform {A K T}.

Section Base.
Context {A K T : Type} `{Num T}.

(** Attributes of class AbstractTransformation (only Center and Standardize are created). *)
Inductive ptrans : Type := PTCenter (s : center_st T) | PTStandardize (s : std_st T).
(** trans.configure(data) *)
Definition pt_configure (t : ptrans) (data : mat T) : ptrans * res unit :=
  match t with
  | PTCenter s => let (s', r) := t_configure center s data in (PTCenter s', r)
  | PTStandardize s => let (s', r) := t_configure standardize s data in (PTStandardize s', r)
  end.
(** trans.transform(data) *)
Definition pt_transform (t : ptrans) (data : mat T) : ptrans * res (mat T) :=
  match t with
  | PTCenter s => let (s', r) := t_transform center s data in (PTCenter s', r)
  | PTStandardize s => let (s', r) := t_transform standardize s data in (PTStandardize s', r)
  end.

(** class_mean and class_std_dev: a single number is a list of length one; NAN / None is []. *)
Record pls_st : Type := PlsSt {
  p_num_components : Z;
  p_preprocessing : preproc;
  p_initialised : bool;
  p_class_mean : list T;
  p_class_std_dev : list T;
  p_trans_predictors : option ptrans;
  p_trans_response : option ptrans;
  p_own : A }.

Definition set_own (s : pls_st) (a : A) : pls_st :=
  PlsSt (p_num_components s) (p_preprocessing s) (p_initialised s) (p_class_mean s) (p_class_std_dev s)
        (p_trans_predictors s) (p_trans_response s) a.
Definition set_initialised (s : pls_st) (b : bool) : pls_st :=
  PlsSt (p_num_components s) (p_preprocessing s) b (p_class_mean s) (p_class_std_dev s)
        (p_trans_predictors s) (p_trans_response s) (p_own s).
Definition set_prep (s : pls_st) (mean std : list T) (tp tr : option ptrans) : pls_st :=
  PlsSt (p_num_components s) (p_preprocessing s) (p_initialised s) mean std tp tr (p_own s).

Variable c : pls_class A K T.

(** reset: _AbstractAlgorithm.py 37-42, _AbstractSingleResponsePLS.py 33-42 /
    _AbstractMultiResponsePLS.py 36-45, then the class's own *)
Definition reset (s : pls_st) : pls_st :=
  PlsSt (p_num_components s) (p_preprocessing s) false [] [] None None (c_reset c (p_own s)).

(** __setattr__, _LoggingObject.py 34-46, on a constructed object.  The validators of
    num_components and preprocessing_type accept everything (_AbstractPLS.py 61-67). *)
Inductive assignment : Type :=
| ANumComponents (value : Z)
| APreprocessing (value : preproc)
| AOwn (k : K).
Definition a_valid (k : assignment) : option bool :=
  match k with ANumComponents _ => Some true | APreprocessing _ => Some true | AOwn k => c_valid c k end.
Definition a_store (k : assignment) (s : pls_st) : pls_st :=
  match k with
  | ANumComponents v => PlsSt v (p_preprocessing s) (p_initialised s) (p_class_mean s) (p_class_std_dev s)
                              (p_trans_predictors s) (p_trans_response s) (p_own s)
  | APreprocessing v => PlsSt (p_num_components s) v (p_initialised s) (p_class_mean s) (p_class_std_dev s)
                              (p_trans_predictors s) (p_trans_response s) (p_own s)
  | AOwn k => set_own s (c_assign c k (p_own s))
  end.
Definition setattr (s : pls_st) (k : assignment) : pls_st * res unit :=
  match a_valid k with
  | Some false => (s, Err ValueError)
  | Some true => (a_store k (reset s), Ok tt)
  | None => (a_store k s, Ok tt)
  end.

(** initialize() without arguments, _AbstractPLS.py 32-38 and the class's override (which calls
    it first).  The defaults pass their validators. *)
Definition initialize_members (s : pls_st) : pls_st :=
  let s := fst (setattr s (ANumComponents 5)) in
  let s := fst (setattr s (APreprocessing PP_NONE)) in
  let s := fold_left (fun s k => fst (setattr s (AOwn k))) (c_defaults c) s in
  set_own s (c_fresh c (p_own s)).

(** A new object: __init__ (_AbstractPLS.py 26-29), then __construct__ (_LoggingObject.py 29-32) *)
Definition construct : pls_st :=
  reset (initialize_members (PlsSt 5 PP_NONE false [] [] None None (c_new c))).

(** check: _AbstractPLS.py 106-118 (neither matrix is None here), _AbstractSingleResponsePLS.py
    44-58, _AbstractMultiResponsePLS.py 65-87 *)
Definition check_data (response : mat T) : option msg :=
  let n := nc response in
  match c_arity c with
  | Single => if negb (n =? 1) then Some (MsgExactlyOne n) else None
  | Multi lo hi =>
      if (Z.of_nat n <? lo)%Z then Some (MsgAtLeast lo n)
      else if negb (hi =? -1)%Z && (hi <? Z.of_nat n)%Z then Some (MsgAtMost hi n)
      else None
  end.

(** Lines 61-77 of the single-response do_initialize: class mean, class standard deviation and
    the transformations. *)
Definition prep : Type := (list T * list T * option ptrans * option ptrans)%type.
Definition prep_single (pp : preproc) (response : mat T) : res prep :=
  match pp with
  | PP_CENTER => do m <- helper_mean response 0 true;
                 Ok ([m], [n1], Some (PTCenter (t_new center)), Some (PTCenter (t_new center)))
  | PP_STANDARDIZE => do m <- helper_mean response 0 true;
                      do sd <- helper_stdev response 0 true;
                      Ok ([m], [sd], Some (PTStandardize (t_new standardize)), Some (PTStandardize (t_new standardize)))
  | PP_NONE => Ok ([n0], [n1], None, None)
  | PP_OTHER => Err RuntimeError
  end.
(** Lines 97-116 of the multi-response do_initialize: the same for every response column i, with
    the statistics of column 0. *)
Definition prep_multi (pp : preproc) (response : mat T) : res prep :=
  let q := nc response in
  for_range q (fun st i =>
    let '(mean, std, _, _) := st in
    match pp with
    | PP_CENTER => do m <- helper_mean response 0 true;
                   Ok (upd mean i m, upd std i (nofZ 1), Some (PTCenter (t_new center)), Some (PTCenter (t_new center)))
    | PP_STANDARDIZE => do m <- helper_mean response 0 true;
                        do sd <- helper_stdev response 0 true;
                        Ok (upd mean i m, upd std i sd, Some (PTStandardize (t_new standardize)), Some (PTStandardize (t_new standardize)))
    | PP_NONE => Ok (upd mean i (nofZ 0), upd std i (nofZ 1), None, None)
    | PP_OTHER => Err RuntimeError
    end) (repeat (nofZ 0) q, repeat (nofZ 0) q, None, None).
Definition prepare (pp : preproc) (response : mat T) : res prep :=
  match c_arity c with Single => prep_single pp response | Multi _ _ => prep_multi pp response end.

(** configure then transform, lines 79-84 / 118-123 *)
Definition pt_fit (t : option ptrans) (data : mat T) : option ptrans * res (mat T) :=
  match t with
  | None => (None, Ok data)
  | Some t => match pt_configure t data with
              | (t', Err e) => (Some t', Err e)
              | (t', Ok _) => let (t'', r) := pt_transform t' data in (Some t'', r)
              end
  end.
(** do_initialize, 60-88 / 89-127.  When preparing raises, nothing of it has been stored in the
    single-response class; the multi-response class may have stored the zeros of lines 97-98. *)
Definition do_initialize (s : pls_st) (predictors response : mat T) : pls_st * res (option msg) :=
  match prepare (p_preprocessing s) response with
  | Err e => (s, Err e)
  | Ok (mean, std, tp, tr) =>
      match pt_fit tp predictors with
      | (tp', Err e) => (set_prep s mean std tp' tr, Err e)
      | (tp', Ok predictors') =>
          match pt_fit tr response with
          | (tr', Err e) => (set_prep s mean std tp' tr', Err e)
          | (tr', Ok response') =>
              let s1 := set_prep s mean std tp' tr' in
              let (a, r) := c_train c (p_num_components s1) (p_own s1) predictors' response' in
              (set_own s1 a, r)
          end
      end
  end.

(** initialize, _AbstractPLS.py 31-59: Ok None is success, Ok (Some message) a refusal *)
Definition initialize (s : pls_st) (predictors response : option (mat T)) : pls_st * res (option msg) :=
  match predictors, response with
  | None, None => (initialize_members s, Ok None)
  | None, Some _ | Some _, None => (s, Err AttributeError)       (* .copy() on None, 48-49 *)
  | Some predictors, Some response =>
      let s := reset s in
      match check_data response with
      | Some m => (s, Ok (Some m))
      | None =>
          match do_initialize s predictors response with
          | (s', Ok None) => (set_initialised s' true, Ok None)
          | (s', Ok (Some m)) => (set_initialised s' false, Ok (Some m))
          | (s', Err e) => (s', Err e)
          end
      end
  end.

(** do_predict: 90-102 / 129-142.  trans_predictors is not used. *)
Definition denormalise (mean std : list T) (result : mat T) : res (mat T) :=
  match c_arity c with
  | Single =>
      for_range (nr result) (fun r i =>
        do x <- get r (Z.of_nat i) 0; do sd <- lget std 0; do m <- lget mean 0;
        set r (Z.of_nat i) 0 (nadd (nmul x sd) m)) result
  | Multi _ _ =>
      for_range (nr result) (fun r i =>
        for_range (nc result) (fun r j =>
          do x <- get r (Z.of_nat i) (Z.of_nat j); do sd <- lget std (Z.of_nat j); do m <- lget mean (Z.of_nat j);
          set r (Z.of_nat i) (Z.of_nat j) (nadd (nmul x sd) m)) r) result
  end.
Definition do_predict (s : pls_st) (predictors : mat T) : pls_st * res (mat T) :=
  let (a, r) := c_predict c (p_num_components s) (p_own s) predictors in
  (set_own s a,
   do result <- r;
   match p_trans_response s with
   | None => Ok result
   | Some _ => denormalise (p_class_mean s) (p_class_std_dev s) result
   end).

(** predict, _AbstractPLS.py 150-160; transform, 172-182 *)
Definition predict (s : pls_st) (predictors : mat T) : pls_st * res (mat T) :=
  if negb (p_initialised s) then (s, Err RuntimeError) else do_predict s predictors.
Definition transform (s : pls_st) (predictors : mat T) : pls_st * res (mat T) :=
  if negb (p_initialised s) then (s, Err RuntimeError)
  else let (a, r) := c_transform c (p_num_components s) (p_own s) predictors in (set_own s a, r).

(** The calls a user can make on one object, and histories of them. *)
Inductive pls_op : Type :=
| OInitialize (predictors response : option (mat T))
| OSet (k : assignment)
| OResetPls
| OPredict (predictors : mat T)
| OTransformPls (predictors : mat T).
Definition pls_step (s : pls_st) (o : pls_op) : pls_st :=
  match o with
  | OInitialize x y => fst (initialize s x y)
  | OSet k => fst (setattr s k)
  | OResetPls => reset s
  | OPredict x => fst (predict s x)
  | OTransformPls x => fst (transform s x)
  end.
Definition pls_run (h : list pls_op) : pls_st := fold_left pls_step h construct.
End Base.
Arguments ptrans : clear implicits.
Arguments pls_st : clear implicits.
Arguments assignment : clear implicits.
Arguments pls_op : clear implicits.
