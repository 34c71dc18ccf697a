(** transformation/_MultiplicativeScatterCorrection.py and
    transformation/_YGradientGLSWSavitzkyGolayFilter.py. *)
From Coq Require Import List ZArith Lia Bool Arith Reals.
From Verif Require Import Base Num Mat M_Matrix M_Factory M_Helper M_Utils M_Loop M_Transform.
Import ListNotations.

Section MSC.
Context {T : Type} `{Num T}.
(** RangeBased.range_contains, lines 98-102 *)
Definition range_contains (range : T * T) (value : T) : bool := nleb (fst range) value && nleb value (snd range).
(** lines 81-88: the x and y values of one range (the list wave is never used) *)
Definition gather (range : T * T) (average filtered : mat T) : res (list T * list T) :=
  for_range (nr average) (fun xy i =>
    do w <- get filtered (Z.of_nat i) 0;
    if range_contains range w then
      do y <- get filtered (Z.of_nat i) 1;
      do x <- get average (Z.of_nat i) 1;
      Ok (fst xy ++ [x], snd xy ++ [y])
    else Ok xy) ([], []).
(** lines 92-94 *)
Definition correct_rows (range : T * T) (inter slope : T) (result : mat T) : res (mat T) :=
  for_range (nr result) (fun r i =>
    do w <- get r (Z.of_nat i) 0;
    if range_contains range w then
      do v <- get r (Z.of_nat i) 1;
      set r (Z.of_nat i) 1 (ndiv (nsub v inter) slope)
    else Ok r) result.
(** RangeBased.correct, lines 72-96; the optional prefilter is a function on matrices *)
Definition correct (prefilter : option (mat T -> res (mat T))) (ranges : list (T * T)) (average data : mat T) : res (mat T) :=
  let result := copy data in
  do filtered <- match prefilter with Some f => f data | None => Ok data end;
  for_each ranges (fun result range =>
    do xy <- gather range average filtered;
    let '(inter, slope) := linear_regression (fst xy) (snd xy) in
    correct_rows range inter slope result) result.

(** MultiplicativeScatterCorrection, lines 26-54.  State: configured flag and average. *)
Record msc_st : Type := MSC { m_configured : bool; m_average : option (mat T) }.
Definition msc_configure (data : mat T) : res (mat T) :=
  do wave_numbers <- get_column data 0;
  do amplitudes <- get_sub_matrix data (STuple 0 (Z.of_nat (nr data))) (STuple 1 (Z.of_nat (nc data)));
  do m <- mean amplitudes (Some 1%Z);
  match m with inr mm => concat_along_columns wave_numbers mm | inl _ => Err TypeError end.
Definition msc (prefilter : option (mat T -> res (mat T))) (ranges : list (T * T)) : tclass msc_st T := {|
  t_new := MSC false None;
  t_configured := m_configured;
  t_mark := fun s => MSC true (m_average s);
  t_reset := fun s => MSC false (m_average s);
  t_configure := fun s data => match msc_configure data with Ok a => (MSC true (Some a), Ok tt) | Err e => (s, Err e) end;
  t_do := fun s data => do a <- need (m_average s); correct prefilter ranges a data;
  t_undo := fun _ _ => Err NotImplementedError |}.
(** create_configuration_matrix, lines 33-41 *)
Definition create_configuration_matrix (spectra : list (mat T)) : res (mat T) :=
  match spectra with
  | [] => Err ValueError
  | s0 :: _ =>
      do wave_numbers <- get_column s0 0;
      do amplitudes <- mapM (fun s => get_column s 1) spectra;
      multi_concat 1 (wave_numbers :: amplitudes)
  end.

(** YGradientGLSWSavitzkyGolayFilter, lines 25-74 *)
Definition yg_coef : list T :=                                                     (* 28-32 *)
  [ndiv (nofZ 2) (nofZ 10); ndiv n1 (nofZ 10); n0; ndiv (nopp n1) (nofZ 10); ndiv (nopp (nofZ 2)) (nofZ 10)].
Definition extend_matrix (data : mat T) : res (mat T) :=                           (* 51-58 *)
  do first_row <- get_row data 0;
  do last_row <- get_row data (Z.of_nat (nr data) - 1);
  do a <- concat_along_rows first_row first_row;
  do b <- concat_along_rows a data;
  do c <- concat_along_rows b last_row;
  concat_along_rows c last_row.
Definition smooth_row (coef : list T) (i : Z) (matrix : mat T) : res (mat T) :=     (* 63-74 *)
  for_range (length coef) (fun res_ m =>
    let coef_idx := length coef - 1 - m in
    do row <- get_row matrix (i - (Z.of_nat m - 2))%Z;
    add res_ (mul_scalar row (nth coef_idx coef n0))) (zeros 1 (Z.of_nat (nc matrix))).
Definition yg_transform (data : mat T) : res (mat T) :=                            (* 37-49 *)
  do mat_extended <- extend_matrix data;
  do result <- for_each (seq 2 (nr mat_extended - 4)) (fun result i =>
                 do row_smoothed <- smooth_row yg_coef (Z.of_nat i) mat_extended;
                 set_row result (Z.of_nat i) row_smoothed) (zeros_like mat_extended);
  get_sub_matrix result (STuple 2 (Z.of_nat (nr result) - 2)) (STuple 0 (Z.of_nat (nc result))).
Definition yg_inverse (data : mat T) : res (mat T) := Err MatrixAlgorithmsError.   (* 60-61 *)
End MSC.
Arguments msc_st : clear implicits.
