(** Specification of the JSON texts that the library types accept, as
    grammars (RFC 8259 and the literals of strconv and math/big), written
    without the scanning functions of Json.v. *)
From Verif Require Import Base Types Spec Utf8Facts TextFacts.
Notation length := Datatypes.length.

(** White space around a JSON value. *)
Definition blank (c : Z) : Prop := c = 32 \/ c = 9 \/ c = 13 \/ c = 10.
Definition padded (s data : list Z) : Prop :=
  exists w1 w2, Forall blank w1 /\ Forall blank w2 /\ data = w1 ++ s ++ w2.

(** Hexadecimal digit [c] of value [d]. *)
Definition hexd (c d : Z) : Prop :=
  48 <= c <= 57 /\ d = c - 48 \/ 97 <= c <= 102 /\ d = c - 97 + 10 \/ 65 <= c <= 70 /\ d = c - 65 + 10.
(** Four of them. *)
Definition unit16 (n : Z) (s : list Z) : Prop :=
  exists a b c d a' b' c' d', s = [a; b; c; d] /\ hexd a a' /\ hexd b b' /\ hexd c c' /\ hexd d d' /\
    n = a' * 4096 + b' * 256 + c' * 16 + d'.

Definition high_surr (n : Z) : Prop := 0xD800 <= n < 0xDC00.
Definition low_surr (n : Z) : Prop := 0xDC00 <= n < 0xE000.
Definition replacement : list Z := utf8_char 0xFFFD.

(** [escape e c]: backslash [e] stands for the character [c]. *)
Definition escape (e c : Z) : Prop :=
  In (e, c) [(34, 34); (92, 92); (47, 47); (98, 8); (102, 12); (110, 10); (114, 13); (116, 9)].

(** [literal s t]: after the opening quote comes [s], closing quote included,
    and the string is [t]. *)
Inductive literal : list Z -> list Z -> Prop :=
| lit_end : literal [34] []
| lit_ascii c s t : 32 <= c < 128 -> c <> 34 -> c <> 92 -> literal s t -> literal (c :: s) (c :: t)
| lit_char r s t : scalar r -> 128 <= r -> literal s t -> literal (utf8_char r ++ s) (utf8_char r ++ t)
| lit_bad b s t : 128 <= b < 256 -> bad_start (b :: s) -> literal s t -> literal (b :: s) (replacement ++ t)
| lit_escape e c s t : escape e c -> literal s t -> literal (92 :: e :: s) (c :: t)
| lit_u n u s t : unit16 n u -> ~ high_surr n -> ~ low_surr n -> literal s t ->
    literal (92 :: 117 :: u ++ s) (utf8_char n ++ t)
| lit_pair n u m u' s t : unit16 n u -> high_surr n -> unit16 m u' -> low_surr m -> literal s t ->
    literal (92 :: 117 :: u ++ 92 :: 117 :: u' ++ s)
      (utf8_char (0x10000 + (n - 0xD800) * 1024 + (m - 0xDC00)) ++ t)
| lit_lone n u s t : unit16 n u -> (high_surr n \/ low_surr n) ->
    (high_surr n -> forall m u' s', unit16 m u' -> low_surr m -> s <> 92 :: 117 :: u' ++ s') ->
    literal s t -> literal (92 :: 117 :: u ++ s) (replacement ++ t).

(** [json_str t data]: [data] is a JSON string literal for [t]. *)
Definition json_str (t data : list Z) : Prop := exists s, literal s t /\ padded (34 :: s) data.
Definition json_nil (data : list Z) : Prop := padded [110; 117; 108; 108] data.
(** [json_int z data]: a JSON number without fraction and exponent. *)
Definition json_int (z : Z) (data : list Z) : Prop :=
  exists ds, decimal (Z.abs z) ds /\
    ((0 <= z /\ padded ds data) \/ (z <= 0 /\ padded (45 :: ds) data)).

(** Digits, also with leading zeros. *)
Definition numeral (n : Z) (ds : list Z) : Prop := Forall digit ds /\ ds <> [] /\ digits_val ds = n.
(** The texts of strconv.ParseInt. *)
Definition signed_numeral (z : Z) (s : list Z) : Prop :=
  numeral z s \/ (exists ds, s = 43 :: ds /\ numeral z ds) \/ (exists ds, s = 45 :: ds /\ numeral (- z) ds).

(** Bytes in hexadecimal. *)
Inductive hex_text : list Z -> list Z -> Prop :=
| hex_nil : hex_text [] []
| hex_cons a b x y s bs : hexd a x -> hexd b y -> hex_text s bs -> hex_text (a :: b :: s) (16 * x + y :: bs).

(** Integer literals of Go, as math/big reads them: a digit of base [b], ... *)
Definition base_digit (b c d : Z) : Prop :=
  d < b /\ (48 <= c <= 57 /\ d = c - 48 \/ 97 <= c <= 122 /\ d = c - 97 + 10 \/ 65 <= c <= 90 /\ d = c - 65 + 10).
(** ... digits with single underscores between them, ... *)
Inductive digits_of (b : Z) : Z -> list Z -> Prop :=
| dig_one c d : base_digit b c d -> digits_of b d [c]
| dig_more n s c d : digits_of b n s -> base_digit b c d -> digits_of b (n * b + d) (s ++ [c])
| dig_sep n s c d : digits_of b n s -> base_digit b c d -> digits_of b (n * b + d) (s ++ [95; c]).
(** ... base prefixes; after a prefix an underscore may follow. *)
Definition prefixed (b n : Z) (s : list Z) : Prop :=
  digits_of b n s \/ exists s', s = 95 :: s' /\ digits_of b n s'.
Definition go_natural (n : Z) (s : list Z) : Prop :=
  (s = [48] /\ n = 0) \/
  (digits_of 10 n s /\ hd 0 s <> 48) \/
  (exists s', s = 48 :: s' /\ prefixed 8 n s') \/
  (exists c s', s = 48 :: c :: s' /\
     ((c = 98 \/ c = 66) /\ prefixed 2 n s' \/ (c = 111 \/ c = 79) /\ prefixed 8 n s' \/
      (c = 120 \/ c = 88) /\ prefixed 16 n s')).
Definition go_integer (z : Z) (s : list Z) : Prop :=
  go_natural z s \/ (exists s', s = 43 :: s' /\ go_natural z s') \/ (exists s', s = 45 :: s' /\ go_natural (- z) s').

Definition hex_prefix (s : list Z) : Prop := exists c r, s = 48 :: c :: r /\ (c = 120 \/ c = 88).

Definition true_text : list Z := [116; 114; 117; 101].
Definition false_text : list Z := [102; 97; 108; 115; 101].

(** The numbers [a], [b] written in order [o] are the little endian bytes of [n]. *)
Definition u128_as (o : order) (a b n : Z) : Prop :=
  0 <= a < 2 ^ 64 /\ 0 <= b < 2 ^ 64 /\ fixed o 16 (a + b * 2 ^ 64) = fixed LE 16 n.


(** What Uint128.UnmarshalJSON does with any text: *)
Inductive u128_outcome (lo hi : Z) (o : order) (data : list Z) : outcome (Z * Z) -> Prop :=
| u128_null : data = [110; 117; 108; 108] -> u128_outcome lo hi o data (Ok (lo, hi))
| u128_number s z a b : json_str s data -> ~ hex_prefix s -> go_integer z s -> Z.abs z < 2 ^ 128 ->
    u128_as o a b (Z.abs z) -> u128_outcome lo hi o data (Ok (a, b))
| u128_large s z : json_str s data -> ~ hex_prefix s -> go_integer z s -> 2 ^ 128 <= Z.abs z ->
    u128_outcome lo hi o data Panic
| u128_hex s x : json_str (48 :: x :: s) data -> (x = 120 \/ x = 88) -> zlen s = 16 ->
    Forall (fun c => exists d, hexd c d) s -> u128_outcome lo hi o data Panic
| u128_bad : data <> [110; 117; 108; 108] ->
    (forall s, json_str s data -> ~ hex_prefix s -> forall z, ~ go_integer z s) ->
    (forall s x, json_str (48 :: x :: s) data -> (x = 120 \/ x = 88) -> zlen s = 16 ->
       ~ Forall (fun c => exists d, hexd c d) s) ->
    u128_outcome lo hi o data (Err EMsg).

