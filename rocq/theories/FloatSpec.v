(** Specification of floating-point numbers: the number denoted by a bit
    pattern, rounding, and the texts of numbers (the floating-point literals of
    the Go specification, and the numbers of RFC 8259). *)
From Verif Require Import Base Num Types TextFacts JsonSpec.
Notation length := Datatypes.length.

(** * Bit patterns *)


(** IEEE 754: widths of the fraction and of the exponent. *)
Definition fraction_bits (f : fwidth) : Z := match f with F32 => 23 | F64 => 52 end.
Definition exponent_bits (f : fwidth) : Z := match f with F32 => 8 | F64 => 11 end.
(** The number denoted by a bit pattern, in units of the smallest positive
    number of the format; the infinities are one power of two above the
    largest finite number. *)
Definition float_units (f : fwidth) (b : Z) : Z :=
  let m := b mod 2 ^ fraction_bits f in
  let e := (b / 2 ^ fraction_bits f) mod 2 ^ exponent_bits f in
  (if b / 2 ^ (fraction_bits f + exponent_bits f) =? 0 then 1 else -1) *
  (if e =? 0 then m else (2 ^ fraction_bits f + m) * 2 ^ (e - 1)).


(** ** Rounding *)

(** The pattern of +infinity. *)
Definition infinity64 : Z := 0x7FF0000000000000.
(** Among the patterns of the numbers from 0 to +infinity, [a] denotes the one
    closest to n/d (in units of the smallest positive number); of two equally
    close ones it is the even one. *)
Definition nearest (n d a : Z) : Prop :=
  0 <= a <= infinity64 /\
  forall b, 0 <= b <= infinity64 -> b <> a ->
    Z.abs (n - d * float_units F64 a) < Z.abs (n - d * float_units F64 b) \/
    (Z.abs (n - d * float_units F64 a) = Z.abs (n - d * float_units F64 b) /\ Z.even a = true).

(** * Texts *)

(** How many digits a run of digits and underscores has. *)
Definition digit_count (s : list Z) : Z := zlen (filter (fun c => negb (c =? 95)) s).
(** [mantissa b whole m k s]: [s] is digits of base [b] with at most one point,
    [k] digits after it; without the point they form the number [m].  [whole]:
    what may stand before the point. *)
Inductive mantissa (b : Z) (whole : Z -> list Z -> Prop) : Z -> Z -> list Z -> Prop :=
| mant_int n i : whole n i -> mantissa b whole n 0 i
| mant_dot n i : whole n i -> mantissa b whole n 0 (i ++ [46])
| mant_both n i f fs : whole n i -> digits_of b f fs ->
    mantissa b whole (n * b ^ digit_count fs + f) (digit_count fs) (i ++ 46 :: fs)
| mant_frac f fs : digits_of b f fs -> mantissa b whole f (digit_count fs) (46 :: fs).
(** An exponent introduced by [c1] or [c2]. *)
Definition exponent (c1 c2 : Z) (x : Z) (s : list Z) : Prop :=
  exists c ds, (c = c1 \/ c = c2) /\
    ((digits_of 10 x ds /\ (s = c :: ds \/ s = c :: 43 :: ds)) \/
     (digits_of 10 (- x) ds /\ s = c :: 45 :: ds)).
(** [number_text m b p s]: [s] is a literal for m * b^p. *)
Inductive number_text : Z -> Z -> Z -> list Z -> Prop :=
| num_plain m k s : mantissa 10 (digits_of 10) m k s -> number_text m 10 (- k) s
| num_exp m k s x t : mantissa 10 (digits_of 10) m k s -> exponent 101 69 x t ->
    number_text m 10 (x - k) (s ++ t)
| num_hex m k s x t c : c = 120 \/ c = 88 -> mantissa 16 (prefixed 16) m k s -> exponent 112 80 x t ->
    number_text m 2 (x - 4 * k) (48 :: c :: s ++ t).

(** Numerator and denominator of m * b^p in units of 2^-1074. *)
Definition in_units (m b p n d : Z) : Prop :=
  (0 <= p /\ n = m * b ^ p * 2 ^ 1074 /\ d = 1) \/ (p < 0 /\ n = m * 2 ^ 1074 /\ d = b ^ (- p)).
(** Upper or lower case letters. *)
Definition spelled (p s : list Z) : Prop := Forall2 (fun a c => c = a \/ c = a - 32) p s.
(** The sign of a text. *)
Definition signed (neg : bool) (u s : list Z) : Prop :=
  (neg = false /\ (s = u \/ s = 43 :: u)) \/ (neg = true /\ s = 45 :: u).
Definition sign_bit (neg : bool) : Z := if neg then 2 ^ 63 else 0.

(** [float_value s b]: the float64 with the bits [b] is the value of [s]. *)
Inductive float_value (s : list Z) : Z -> Prop :=
| fv_number neg u m b p n d a : signed neg u s -> number_text m b p u -> in_units m b p n d ->
    nearest n d a -> a < infinity64 -> float_value s (sign_bit neg + a)
| fv_inf neg u : signed neg u s -> spelled [105; 110; 102] u \/ spelled [105; 110; 102; 105; 110; 105; 116; 121] u ->
    float_value s (sign_bit neg + infinity64)
| fv_nan : spelled [110; 97; 110] s -> float_value s 0x7FF8000000000001.

(** Numbers of JSON. *)
Definition json_frac (s : list Z) : Prop := s = [] \/ exists ds, Forall digit ds /\ ds <> [] /\ s = 46 :: ds.
Definition json_exp (s : list Z) : Prop :=
  s = [] \/ exists c ds, (c = 101 \/ c = 69) /\ Forall digit ds /\ ds <> [] /\
               (s = c :: ds \/ s = c :: 43 :: ds \/ s = c :: 45 :: ds).
Definition json_num (s : list Z) : Prop :=
  exists n i f e, decimal n i /\ json_frac f /\ json_exp e /\ (s = i ++ f ++ e \/ s = 45 :: i ++ f ++ e).
