(** transformation/_FFT.py, over exact real numbers: numpy's fft/ifft are taken to be the
    discrete Fourier sums they are documented to be, abs/angle/cos/sin exact.
    [configure] (54-56) only sets the configured flag, which nothing else reads, so
    transform and inverse_transform are functions of the two options and the data. *)
From Coq Require Import List ZArith Lia Bool Arith Reals.
From Verif Require Import Base Num Mat M_Matrix.
Import ListNotations.
Local Open Scope R_scope.

(** OutputMode, lines 25-35, and the conversion from int in __setattr__, 46-52 *)
Inductive output_mode : Type := REAL_COMPONENT_ONLY | IMAG_COMPONENT_ONLY | REAL_AND_IMAG_PAIRS | AMPLITUDE_ONLY | PHASE_ANGLE_ONLY | AMPL_ANGLE_PAIRS.
Definition mode_of_int (v : Z) : res output_mode :=
  if (v =? 1)%Z then Ok REAL_COMPONENT_ONLY else if (v =? 2)%Z then Ok IMAG_COMPONENT_ONLY
  else if (v =? 3)%Z then Ok REAL_AND_IMAG_PAIRS else if (v =? 4)%Z then Ok AMPLITUDE_ONLY
  else if (v =? 8)%Z then Ok PHASE_ANGLE_ONLY else if (v =? 12)%Z then Ok AMPL_ANGLE_PAIRS else Err ValueError.

(** Complex two-dimensional array: shape, real part, imaginary part. *)
Record carr : Type := Carr { c_nr : nat; c_nc : nat; c_re : nat -> nat -> R; c_im : nat -> nat -> R }.

Definition angle_step (n j k : nat) : R := 2 * PI * INR j * INR k / INR n.
(** np.fft.fft(a, axis=1, norm=None or "ortho"): refuses a zero-length axis *)
Definition np_fft (ortho : bool) (a : mat R) : res carr :=
  let n := nc a in
  if (n =? 0)%nat then Err ValueError
  else
    let scale := if ortho then / sqrt (INR n) else 1 in
    Ok (Carr (nr a) n (fun r k => scale * sumn n (fun j => entry a r j * cos (angle_step n j k)))
                      (fun r k => scale * - sumn n (fun j => entry a r j * sin (angle_step n j k)))).
(** np.fft.ifft(a, axis=1, norm=None or "ortho") *)
Definition np_ifft (ortho : bool) (a : carr) : res carr :=
  let n := c_nc a in
  if (n =? 0)%nat then Err ValueError
  else
    let scale := if ortho then / sqrt (INR n) else / INR n in
    Ok (Carr (c_nr a) n
          (fun r j => scale * sumn n (fun k => c_re a r k * cos (angle_step n j k) - c_im a r k * sin (angle_step n j k)))
          (fun r j => scale * sumn n (fun k => c_re a r k * sin (angle_step n j k) + c_im a r k * cos (angle_step n j k)))).
(** np.fft.fftshift / ifftshift without axes argument: roll BOTH axes by n//2 / -(n//2) *)
Definition roll (n s i : nat) : nat := ((i + (n - s)) mod n)%nat.   (* source index of position i after rolling by s *)
Definition np_fftshift (a : carr) : carr :=
  let f (g : nat -> nat -> R) r c := g (roll (c_nr a) (c_nr a / 2) r) (roll (c_nc a) (c_nc a / 2) c) in
  Carr (c_nr a) (c_nc a) (f (c_re a)) (f (c_im a)).
Definition np_ifftshift (a : carr) : carr :=
  let f (g : nat -> nat -> R) r c := g ((r + c_nr a / 2) mod c_nr a)%nat ((c + c_nc a / 2) mod c_nc a)%nat in
  Carr (c_nr a) (c_nc a) (f (c_re a)) (f (c_im a)).
(** FFT.fft, lines 80-93; FFT.ifft, lines 95-106 *)
Definition fft_ (ortho : bool) (a : mat R) : res carr := do f <- np_fft ortho a; Ok (np_fftshift f).
Definition ifft_ (ortho : bool) (a : carr) : res carr := np_ifft ortho (np_ifftshift a).

(** A column is a function of the row; np.stack(columns, axis=1). *)
Definition col : Type := nat -> R.
Definition stack (rows : nat) (columns : list col) : mat R := mk rows (length columns) (fun r j => nth j columns (fun _ => 0) r).
Definition np_range (a b s : nat) : list nat := map Z.to_nat (pyrange (Z.of_nat a) (Z.of_nat b) (Z.of_nat s)).
Definition even (n : nat) : bool := (n mod 2 =? 0)%nat.

(** internal_format, lines 108-138 *)
Definition internal_format (fourier : carr) : mat R :=
  let num_columns := c_nc fourier in
  let re i : col := fun r => c_re fourier r i in
  let im i : col := fun r => c_im fourier r i in
  stack (c_nr fourier)
    ([re (num_columns / 2)%nat]
     ++ flat_map (fun i => [re i; im i]) (np_range (num_columns / 2 + 1) num_columns 1)
     ++ (if even num_columns then [re 0%nat] else [])).

(** internal_unformat, lines 140-185.  The loop 161-163 appends column i to the real list for odd i
    and to the imaginary list for even i, i.e. filters the range. *)
Definition internal_unformat (a : mat R) : carr :=
  let num_columns := nc a in
  let c i : col := fun r => entry a r i in
  let zero : col := fun _ => 0 in
  let neg (x : col) : col := fun r => -1 * x r in
  let real_columns := c 0%nat :: map c (filter (fun i => i mod 2 =? 1)%nat (np_range 1 num_columns 1)) in
  let imag_columns := zero :: map c (filter (fun i => negb (i mod 2 =? 1)%nat) (np_range 1 num_columns 1)) in
  let imag_columns := if even num_columns then imag_columns ++ [zero] else imag_columns in
  let real_columns := rev (tl real_columns) ++ real_columns in
  let imag_columns := map neg (rev (tl imag_columns)) ++ imag_columns in
  let real_columns := if even num_columns then removelast real_columns else real_columns in
  let imag_columns := if even num_columns then removelast imag_columns else imag_columns in
  Carr (nr a) (length real_columns) (fun r k => nth k real_columns zero r) (fun r k => nth k imag_columns zero r).

(** np.abs and np.angle of a complex number *)
Definition c_abs (re im : R) : R := sqrt (re * re + im * im).
Definition c_angle (re im : R) : R :=
  if Rltb 0 re then atan (im / re)
  else if Rltb re 0 then (if Rltb im 0 then atan (im / re) - PI else atan (im / re) + PI)
  else if Rltb 0 im then PI / 2 else if Rltb im 0 then - PI / 2 else 0.

(** the six output formats, lines 226-286 *)
Definition format_output (mode : output_mode) (a : mat R) : mat R :=
  let n := nc a in
  let c i : col := fun r => entry a r i in
  let zero : col := fun _ => 0 in
  match mode with
  | REAL_COMPONENT_ONLY => stack (nr a) (c 0%nat :: map c (np_range 1 n 2))
  | IMAG_COMPONENT_ONLY => stack (nr a) (zero :: map c (np_range 2 n 2) ++ (if even n then [zero] else []))
  | REAL_AND_IMAG_PAIRS => a
  | AMPLITUDE_ONLY => stack (nr a) ((fun r => c_abs (c 0%nat r) 0)
        :: map (fun i r => c_abs (c (i - 1)%nat r) (c i r)) (np_range 2 n 2)
        ++ (if even n then [fun r => c_abs (c (n - 1)%nat r) 0] else []))
  | PHASE_ANGLE_ONLY => stack (nr a) ((fun r => c_angle (c 0%nat r) 0)
        :: map (fun i r => c_angle (c (i - 1)%nat r) (c i r)) (np_range 2 n 2)
        ++ (if even n then [fun r => c_angle (c (n - 1)%nat r) 0] else []))
  | AMPL_ANGLE_PAIRS => stack (nr a) (c 0%nat
        :: flat_map (fun i => [(fun r => c_abs (c (i - 1)%nat r) (c i r)); (fun r => c_angle (c (i - 1)%nat r) (c i r))]) (np_range 2 n 2)
        ++ (if even n then [c (n - 1)%nat] else []))
  end.
(** inverse_format_output, lines 209-223 and 289-306; an array without columns raises IndexError *)
Definition inverse_format_output (mode : output_mode) (a : mat R) : res (mat R) :=
  let n := nc a in
  let c i : col := fun r => entry a r i in
  match mode with
  | REAL_AND_IMAG_PAIRS => Ok a
  | AMPL_ANGLE_PAIRS =>
      if (n =? 0)%nat then Err IndexError
      else Ok (stack (nr a) (c 0%nat
        :: flat_map (fun i => [(fun r => c (i - 1)%nat r * cos (c i r)); (fun r => c (i - 1)%nat r * sin (c i r))]) (np_range 2 n 2)
        ++ (if even n then [c (n - 1)%nat] else [])))
  | _ => Err ValueError
  end.

(** do_transform, lines 58-67; do_inverse_transform, lines 69-78 (the result array is complex) *)
Definition fft_transform (ortho : bool) (mode : output_mode) (data : mat R) : res (mat R) :=
  do fourier <- fft_ ortho data; Ok (format_output mode (internal_format fourier)).
Definition fft_inverse (ortho : bool) (mode : output_mode) (data : mat R) : res carr :=
  do internal <- inverse_format_output mode data;
  if (nc internal =? 0)%nat then Err IndexError            (* internal_formatted[:, 0], line 157 *)
  else ifft_ ortho (internal_unformat internal).
