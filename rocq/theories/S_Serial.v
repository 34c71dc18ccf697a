(** Independent decoders: what a reader of the byte format would do. *)
From Coq Require Import List ZArith Lia Bool Arith SpecFloat.
From Verif Require Import Base Num Mat M_Serial.
Import ListNotations.
Local Open Scope Z_scope.

Definition is_byte (b : Z) : Prop := 0 <= b < 256.

(** Little-endian value of a byte list, unsigned and two's complement. *)
Definition le_val (bs : list Z) : Z := fold_right (fun b acc => b + 256 * acc) 0 bs.
Definition le_sval (bs : list Z) : Z :=
  let v := le_val bs in
  if (0 <? Z.of_nat (length bs)) && (2 ^ (8 * Z.of_nat (length bs) - 1) <=? v) then v - 2 ^ (8 * Z.of_nat (length bs)) else v.

(** Take n bytes off a stream. *)
Definition take (n : nat) (bs : list Z) : option (list Z * list Z) :=
  if (n <=? length bs)%nat then Some (firstn n bs, skipn n bs) else None.
Definition dec_int (bs : list Z) : option (Z * list Z) :=
  match take 4 bs with Some (b, r) => Some (le_sval b, r) | None => None end.
Definition dec_u64 (bs : list Z) : option (Z * list Z) :=
  match take 8 bs with Some (b, r) => Some (le_val b, r) | None => None end.
Definition dec_bytes (bs : list Z) : option (list Z * list Z) :=
  match dec_int bs with Some (n, r) => take (Z.to_nat n) r | None => None end.
Definition dec_big (bs : list Z) : option (Z * list Z) :=
  match dec_bytes bs with Some (b, r) => Some (le_sval b, r) | None => None end.

(** n consecutive items *)
Fixpoint dec_many {A} (d : list Z -> option (A * list Z)) (n : nat) (bs : list Z) : option (list A * list Z) :=
  match n with
  | O => Some ([], bs)
  | S k => match d bs with
           | Some (a, r) => match dec_many d k r with Some (l, r') => Some (a :: l, r') | None => None end
           | None => None
           end
  end.
Definition dec_matrix {T} (of_bits : Z -> T) (bs : list Z) : option (mat T * list Z) :=
  match dec_int bs with
  | Some (r, bs1) =>
    match dec_int bs1 with
    | Some (c, bs2) =>
      match dec_many (dec_many dec_u64 (Z.to_nat c)) (Z.to_nat r) bs2 with
      | Some (rows, rest) => Some (Mat (Z.to_nat r) (Z.to_nat c) (map (map of_bits) rows), rest)
      | None => None
      end
    | None => None
    end
  | None => None
  end.

(** IEEE-754 binary64 interchange format *)
Definition f_of_bits (b : Z) : f64 :=
  let s := 2 ^ 63 <=? b in
  let e := (b / 2 ^ 52) mod 2 ^ 11 in
  let m := b mod 2 ^ 52 in
  if e =? 0 then match m with Z.pos p => S754_finite s p (-1074) | _ => S754_zero s end
  else if e =? 2047 then (if m =? 0 then S754_infinity s else S754_nan)
  else match m + 2 ^ 52 with Z.pos p => S754_finite s p (e - 1075) | _ => S754_nan end.

(** UTF-8, first code point of a byte sequence *)
Definition dec_char (bs : list Z) : option (Z * list Z) :=
  match bs with
  | [] => None
  | a :: r =>
    if a <? 128 then Some (a, r)
    else if a <? 224 then
      match r with b :: r => Some ((a - 192) * 64 + (b - 128), r) | _ => None end
    else if a <? 240 then
      match r with b :: c :: r => Some ((a - 224) * 4096 + (b - 128) * 64 + (c - 128), r) | _ => None end
    else
      match r with b :: c :: d :: r => Some ((a - 240) * 262144 + (b - 128) * 4096 + (c - 128) * 64 + (d - 128), r) | _ => None end
  end.
(** a whole string of n code points, or as many as there are *)
Fixpoint dec_utf8 (fuel : nat) (bs : list Z) : option (list Z) :=
  match bs, fuel with
  | [], _ => Some []
  | _, O => None
  | _, S k => match dec_char bs with
              | Some (c, r) => option_map (cons c) (dec_utf8 k r)
              | None => None
              end
  end.
Definition is_scalar (c : Z) : Prop := 0 <= c < 1114112 /\ ~ (55296 <= c < 57344).

(** All bytes a serialiser has put on the stream when it ends (normally or not). *)
Definition written (w : writer) : list Z := List.concat (fst w).
