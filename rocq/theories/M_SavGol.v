(** transformation/_SavitzkyGolay.py and _SavitzkyGolay2.py *)
From Coq Require Import List ZArith Lia Bool Arith.
From Verif Require Import Base Num Mat M_Matrix M_Factory M_Helper M_Linalg M_Transform.
Import ListNotations.

Section SavitzkyGolay.
Context {T : Type} `{Num T}.

(** determine_coefficients, lines 104-131, for num_left, num_right >= 0.
    np.power of Python integers is taken to be exact (numpy works in int64 and wraps
    around from 2^63 on); A is built as a table instead of by A.set. *)
Definition determine_coefficients (num_left num_right poly_order der_order : Z) : res (list T) :=
  let width := Z.to_nat (num_left + num_right + 1) in
  if width =? 1 then Ok [n1]                                            (* 107-109 *)
  else
    let point t := (Z.of_nat t - num_left)%Z in                         (* k in range(-num_left, num_right+1) *)
    let A_dim := Z.to_nat (poly_order + 1) in
    let A := mk A_dim A_dim (fun i j => sumn width (fun t => nofZ (point t ^ Z.of_nat (i + j)))) in
    do b <- set (zeros (poly_order + 1) 1) der_order 0 n1;             (* 120-121 *)
    do solution <- solve A b;                                          (* 123 *)
    Ok (tab width (fun t =>                                            (* 125-129 *)
          sumn A_dim (fun j => nmul (entry solution j 0) (nofZ (point t ^ Z.of_nat j))))).

(** do_transform, lines 79-90 *)
Definition sg_apply (coefficients data : mat T) : res (mat T) :=
  let window_width := Z.of_nat (nc coefficients) in
  let num_output_columns := (Z.of_nat (nc data) - window_width + 1)%Z in
  do smoothed_columns <- mapM (fun i =>
        do column <- get_sub_matrix data (STuple 0 (Z.of_nat (nr data))) (STuple i (i + window_width));
        do column <- mul_by_vector_modify column coefficients;
        Ok (sum_axis1 column)) (pyrange 0 num_output_columns 1);
  multi_concat 1 smoothed_columns.

(** attributes, lines 27-33 *)
Record sg_st : Type := SgSt { sg_configured : bool; sg_poly : Z; sg_der : Z; sg_left : Z; sg_right : Z; sg_coefs : option (mat T) }.

Definition savitzky_golay : tclass sg_st T := {|
  t_new := SgSt false 2 1 3 3 None;                                                                     (* 27-33 *)
  t_configured := sg_configured;
  t_mark := fun s => SgSt true (sg_poly s) (sg_der s) (sg_left s) (sg_right s) (sg_coefs s);
  t_reset := fun s => SgSt false (sg_poly s) (sg_der s) (sg_left s) (sg_right s) None;                  (* 67-69 *)
  t_configure := fun s _ =>                                                                             (* 71-77 *)
    match sg_coefs s with
    | Some c => (SgSt true (sg_poly s) (sg_der s) (sg_left s) (sg_right s) (Some c), Ok tt)
    | None => match determine_coefficients (sg_left s) (sg_right s) (sg_poly s) (sg_der s) with
              | Ok l => (SgSt true (sg_poly s) (sg_der s) (sg_left s) (sg_right s) (Some (create [l])), Ok tt)
              | Err e => (s, Err e)
              end
    end;
  t_do := fun s data => do c <- need (sg_coefs s); sg_apply c data;
  t_undo := fun _ _ => Err NotImplementedError |}.                                                      (* 92-93 *)

(** __setattr__ with the validators, lines 35-65 *)
Inductive sg_param : Type := PolynomialOrder | DerivativeOrder | NumPointsLeft | NumPointsRight.
Definition sg_valid (p : sg_param) (v : Z) : bool :=
  match p with PolynomialOrder => (2 <=? v)%Z | _ => (0 <=? v)%Z end.
Definition sg_set (p : sg_param) (v : Z) (s : sg_st) : sg_st * res unit :=
  if negb (sg_valid p v) then (s, Err ValueError)
  else (match p with
        | PolynomialOrder => SgSt false v (sg_der s) (sg_left s) (sg_right s) None
        | DerivativeOrder => SgSt false (sg_poly s) v (sg_left s) (sg_right s) None
        | NumPointsLeft => SgSt false (sg_poly s) (sg_der s) v (sg_right s) None
        | NumPointsRight => SgSt false (sg_poly s) (sg_der s) (sg_left s) v None
        end, Ok tt).

(** _SavitzkyGolay2.py: num_points (20-39) serves as both window sizes; the two inherited
    attributes can still be assigned (validated, and the object is reset) but are not read. *)
Inductive sg2_param : Type := SG2Param (p : sg_param) | NumPoints.
Definition sg2_set (p : sg2_param) (v : Z) (s : sg_st) : sg_st * res unit :=
  match p with
  | SG2Param NumPointsLeft | SG2Param NumPointsRight =>
      if negb (0 <=? v)%Z then (s, Err ValueError) else (t_reset savitzky_golay s, Ok tt)
  | SG2Param q => sg_set q v s
  | NumPoints => if negb (0 <=? v)%Z then (s, Err ValueError)
                 else (SgSt false (sg_poly s) (sg_der s) v v None, Ok tt)
  end.
End SavitzkyGolay.
Arguments sg_st : clear implicits.
