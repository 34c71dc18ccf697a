(** Model of core/_Serialisable.py and of the serialise_state methods.
    Bytes are integers 0..255; a float is given by its 64-bit IEEE pattern. *)
From Coq Require Import List ZArith Lia Bool Arith SpecFloat.
From Verif Require Import Base Num Mat M_Matrix.
Import ListNotations.
Local Open Scope Z_scope.

(** Python values that can reach serialise_to_bytes: int, bool (a subclass of int),
    float (np.float64 is a subclass of it), str (as code points), anything else
    (None, np.int64, ...). *)
Inductive pyval : Type :=
| PInt (z : Z) | PBool (b : bool) | PFloat (bits : Z) | PStr (s : list Z) | POther.

(** n little-endian base-256 digits of z (two's complement for negative z). *)
Fixpoint le_bytes (n : nat) (z : Z) : list Z :=
  match n with
  | O => []
  | S k => z mod 256 :: le_bytes k (z / 256)
  end.

(** int.to_bytes(n, "little", signed=True) *)
Definition to_bytes (n : nat) (z : Z) : res (list Z) :=
  match n with
  | O => if z =? 0 then Ok [] else Err OverflowError
  | S _ => if (- 2 ^ (8 * Z.of_nat n - 1) <=? z) && (z <? 2 ^ (8 * Z.of_nat n - 1))
           then Ok (le_bytes n z) else Err OverflowError
  end.

(** str.encode("utf-8"): one code point.  Lone surrogates raise UnicodeEncodeError,
    a ValueError. *)
Definition utf8_char (c : Z) : res (list Z) :=
  if c <? 128 then Ok [c]
  else if c <? 2048 then Ok [192 + c / 64; 128 + c mod 64]
  else if (55296 <=? c) && (c <? 57344) then Err ValueError
  else if c <? 65536 then Ok [224 + c / 4096; 128 + (c / 64) mod 64; 128 + c mod 64]
  else Ok [240 + c / 262144; 128 + (c / 4096) mod 64; 128 + (c / 64) mod 64; 128 + c mod 64].
Definition utf8 (s : list Z) : res (list Z) := map_res (@List.concat Z) (mapM utf8_char s).

(** serialise_to_bytes, _Serialisable.py 65-84 (LITTLE_ENDIAN is True, line 24) *)
Definition serialise_int (z : Z) : res (list Z) := to_bytes 4 z.
Definition serialise_to_bytes (v : pyval) : res (list Z) :=
  match v with
  | PInt z => serialise_int z
  | PBool b => serialise_int (if b then 1 else 0)
  | PFloat bits => Ok (le_bytes 8 bits)
  | PStr s => do b <- utf8 s; do l <- serialise_int (Z.of_nat (length b)); Ok (l ++ b)
  | POther => Err TypeError
  end.

(** int.bit_length *)
Definition bit_length (z : Z) : Z := if z =? 0 then 0 else Z.log2 (Z.abs z) + 1.
(** serialise_big_int, 86-107 *)
Definition big_byte_length (z : Z) : Z :=
  bit_length z / 8 + (if bit_length z mod 8 =? 0 then 0 else 1).
Definition serialise_big_int (z : Z) : res (list Z) :=
  do b <- to_bytes (Z.to_nat (big_byte_length z)) z;
  do p <- serialise_int (big_byte_length z);
  Ok (p ++ b).

(** What a serialise_state method does to a stream: the chunks it writes, in order,
    and whether it then finishes or raises. *)
Definition writer : Type := list (list Z) * res unit.
Definition wdone : writer := ([], Ok tt).
Definition wfail (e : exn) : writer := ([], Err e).
Definition wchunk (r : res (list Z)) : writer :=
  match r with Ok b => ([b], Ok tt) | Err e => ([], Err e) end.
Definition wseq (a b : writer) : writer :=
  match snd a with
  | Ok _ => (fst a ++ fst b, snd b)
  | Err e => (fst a, Err e)
  end.
Definition wall (l : list writer) : writer := fold_right wseq wdone l.

(** Matrix.serialise_state, _Matrix.py 619-627.  [pyv] says which Python value an
    element is: PFloat for float arrays, POther for integer arrays (np.int64). *)
Definition matrix_state {T} `{Num T} (pyv : T -> pyval) (m : mat T) : writer :=
  wseq (wchunk (serialise_to_bytes (PInt (Z.of_nat (nr m)))))
  (wseq (wchunk (serialise_to_bytes (PInt (Z.of_nat (nc m)))))
  (wall (map (fun i => wall (map (fun j =>
      wchunk (serialise_to_bytes (pyv (entry m i j)))) (seq 0 (nc m)))) (seq 0 (nr m))))).

(** Standardize.serialise_state, transformation/_Standardize.py 63-70: means and
    std_devs exist once configured. *)
Definition standardize_state {T} `{Num T} (pyv : T -> pyval) (params : option (mat T * mat T)) : writer :=
  match params with
  | None => wfail RuntimeError
  | Some (means, stds) => wseq (matrix_state pyv means) (matrix_state pyv stds)
  end.
(** SavitzkyGolay.serialise_state, transformation/_SavitzkyGolay.py 95-101, and
    SIMPLS.serialise_state, algorithm/pls/_SIMPLS.py 198-204: one matrix. *)
Definition one_matrix_state {T} `{Num T} (pyv : T -> pyval) (params : option (mat T)) : writer :=
  match params with
  | None => wfail RuntimeError
  | Some m => matrix_state pyv m
  end.
(** Log.serialise_state, transformation/_Log.py 87-91 *)
Definition log_state (base factor offset : pyval) : writer :=
  wseq (wchunk (serialise_to_bytes base))
    (wseq (wchunk (serialise_to_bytes factor)) (wchunk (serialise_to_bytes offset))).

(** io.BytesIO: contents and position. *)
Record bytesio := BytesIO { buf : list Z; pos : nat }.
Definition bio_new : bytesio := BytesIO [] 0.
Definition bio_write (s : bytesio) (b : list Z) : bytesio :=
  BytesIO (firstn (pos s) (buf s) ++ b ++ skipn (pos s + length b) (buf s)) (pos s + length b).
Definition bio_read (s : bytesio) : list Z * bytesio :=
  (skipn (pos s) (buf s), BytesIO (buf s) (Nat.max (pos s) (length (buf s)))).

(** get_serialised_state, _Serialisable.py 55-63 *)
Definition get_serialised_state (w : writer) : res (list Z) :=
  let stream := fold_left bio_write (fst w) bio_new in
  do _ <- snd w; Ok (fst (bio_read stream)).

(** save_state, 40-53.  The file system: existing directories and file contents.
    [dirname] is os.path.dirname; os.makedirs('') raises FileNotFoundError and any
    other makedirs call is assumed to succeed (as is the open). *)
Section Save.
Context {Path : Type} (peqb : Path -> Path -> bool) (dirname : Path -> Path) (empty : Path).
Record fs := FS { dirs : list Path; files : list (Path * list Z) }.
Definition file_get (l : list (Path * list Z)) (f : Path) : option (list Z) :=
  option_map snd (find (fun p => peqb (fst p) f) l).
Definition file_put (l : list (Path * list Z)) (f : Path) (b : list Z) : list (Path * list Z) :=
  (f, b) :: filter (fun p => negb (peqb (fst p) f)) l.
Definition save_state (s : fs) (w : writer) (f : Path) : fs * res unit :=
  let path := dirname f in
  if existsb (peqb path) (dirs s)
  then (FS (dirs s) (file_put (files s) f (List.concat (fst w))), snd w)
  else if peqb path empty then (s, Err FileNotFoundError)
  else (FS (path :: dirs s) (file_put (files s) f (List.concat (fst w))), snd w).
End Save.

(** struct.pack("<d", x) reads the bit pattern of x: sign, 11 exponent bits,
    52 mantissa bits.  All NaNs of the binary64 model carry the quiet pattern. *)
Definition f_bits (x : f64) : Z :=
  match x with
  | S754_zero s => if s then 2 ^ 63 else 0
  | S754_infinity s => (if s then 2 ^ 63 else 0) + 2047 * 2 ^ 52
  | S754_nan => 2047 * 2 ^ 52 + 2 ^ 51
  | S754_finite s m e =>
      (if s then 2 ^ 63 else 0) +
      (if Z.pos m <? 2 ^ 52 then Z.pos m else (e + 1075) * 2 ^ 52 + (Z.pos m - 2 ^ 52))
  end.
Definition pyv_f64 (x : f64) : pyval := PFloat (f_bits x).
Arguments le_bytes : simpl never.
Arguments to_bytes : simpl never.
