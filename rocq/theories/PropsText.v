(** Texts: FormatByteSlice and the JSON methods: C44-C47, C54. *)
From Verif Require Import Types Text Tools U128 Json TextFacts Spec JsonFacts.

(** ** C44 *)

Theorem C44_format_byte_slice_injective : forall a b, bytes_ok a -> bytes_ok b ->
  format_byte_slice a = format_byte_slice b -> a = b.
Proof. exact format_byte_slice_inj. Qed.
Print Assumptions C44_format_byte_slice_injective.
Theorem C44_format_discriminator_injective : forall a b, bytes_ok a -> bytes_ok b ->
  format_discriminator a = format_discriminator b -> a = b.
Proof. exact format_discriminator_inj. Qed.
Print Assumptions C44_format_discriminator_injective.
(** The bytes 1, 23 and 12, 3 have the same digits but different texts. *)
Example C44_sample :
  format_byte_slice [1; 23] = str "{1, 23}(len=2)" /\ format_byte_slice [12; 3] = str "{12, 3}(len=2)" /\
  format_discriminator [0; 255; 7] = str "{0, 255, 7}".
Proof. repeat split. Qed.

(** ** C45 *)

(** [decimal n ds]: [ds] are the digits of [n] without leading zeros. *)
Theorem C45_text : forall lo hi o, 0 <= lo < 2 ^ 64 -> 0 <= hi < 2 ^ 64 ->
  exists ds, u128_marshal_json lo hi o = [34] ++ ds ++ [34] /\ decimal (lo + hi * 2 ^ 64) ds.
Proof. exact u128_json_text. Qed.
Print Assumptions C45_text.
Theorem C45_little_endian : forall lo hi lo' hi', 0 <= lo < 2 ^ 64 -> 0 <= hi < 2 ^ 64 ->
  u128_unmarshal_json lo' hi' LE (u128_marshal_json lo hi LE) = Ok (lo, hi).
Proof. exact u128_json. Qed.
Print Assumptions C45_little_endian.
(** Int128 and Float128 go through a new, little endian, Uint128. *)
Theorem C45_int128 : forall lo hi o, 0 <= lo < 2 ^ 64 -> 0 <= hi < 2 ^ 64 ->
  i128_unmarshal_json (u128_marshal_json lo hi o) = Ok (lo, hi).
Proof. exact i128_json. Qed.
Print Assumptions C45_int128.
Example C45_sample :
  u128_marshal_json 5 3 LE = str """55340232221128654853""" /\
  u128_unmarshal_json 9 9 LE (str """55340232221128654853""") = Ok (5, 3).
Proof. split; vm_compute; reflexivity. Qed.
(** A big endian Uint128 does not come back. *)
Theorem C45_big_endian_refuted : exists lo hi, 0 <= lo < 2 ^ 64 /\ 0 <= hi < 2 ^ 64 /\
  exists r, u128_unmarshal_json 0 0 BE (u128_marshal_json lo hi BE) = Ok r /\ r <> (lo, hi).
Proof.
  exists 1, 0. split; [easy|]. split; [easy|]. exists (0, 2 ^ 56). split; [vm_compute; reflexivity|easy].
Qed.
Print Assumptions C45_big_endian_refuted.
(** Texts of 0x and 16 digits, and numbers of more than 128 bits, panic. *)
Theorem C45_hex_panics : forall lo hi o s, zlen s = 16 -> Forall hex_char s ->
  u128_unmarshal_json lo hi o ([34] ++ str "0x" ++ s ++ [34]) = Panic.
Proof. exact u128_hex_panics. Qed.
Print Assumptions C45_hex_panics.
Theorem C45_large_panics : forall lo hi o n ds, decimal n ds -> 2 ^ 128 <= n ->
  u128_unmarshal_json lo hi o ([34] ++ ds ++ [34]) = Panic.
Proof. exact u128_large_panics. Qed.
Print Assumptions C45_large_panics.
Example C45_panic_samples :
  u128_unmarshal_json 0 0 LE (str """0x00000000000000ff""") = Panic /\
  u128_unmarshal_json 0 0 LE (str """340282366920938463463374607431768211456""") = Panic /\
  u128_unmarshal_json 0 0 LE (str """340282366920938463463374607431768211455""") = Ok (2 ^ 64 - 1, 2 ^ 64 - 1).
Proof. repeat split; vm_compute; reflexivity. Qed.
(** Other surprises: the sign is dropped, a leading zero means octal, null
    keeps the number of a Uint128 but resets an Int128. *)
Theorem C45_sign_dropped : u128_unmarshal_json 0 0 LE (str """-7""") = Ok (7, 0).
Proof. vm_compute. reflexivity. Qed.
Print Assumptions C45_sign_dropped.
Theorem C45_leading_zero_is_octal : u128_unmarshal_json 0 0 LE (str """010""") = Ok (8, 0).
Proof. vm_compute. reflexivity. Qed.
Print Assumptions C45_leading_zero_is_octal.
Theorem C45_null : forall lo hi o,
  u128_unmarshal_json lo hi o (str "null") = Ok (lo, hi) /\ i128_unmarshal_json (str "null") = Ok (0, 0).
Proof. now split. Qed.
Print Assumptions C45_null.
(** The text of a negative Int128 is the one of its unsigned value. *)
Theorem C45_int128_sign_refuted : exists lo hi, i128_bigint lo hi LE < 0 /\
  exists ds, u128_marshal_json lo hi LE = [34] ++ ds ++ [34] /\ ~ integer (i128_bigint lo hi LE) ds.
Proof.
  exists (2 ^ 64 - 1), (2 ^ 64 - 1). split; [reflexivity|]. exists (str "340282366920938463463374607431768211455").
  split; [vm_compute; reflexivity|]. change (i128_bigint (2 ^ 64 - 1) (2 ^ 64 - 1) LE) with (-1).
  intros (ds & E & _). discriminate.
Qed.
Print Assumptions C45_int128_sign_refuted.

(** ** C46 *)

Theorem C46_int64_round_trip : forall z, - 2 ^ 63 <= z < 2 ^ 63 ->
  int64_unmarshal_json (int64_marshal_json z) = Ok z.
Proof. exact int64_json. Qed.
Print Assumptions C46_int64_round_trip.
Theorem C46_uint64_round_trip : forall z, 0 <= z < 2 ^ 64 ->
  uint64_unmarshal_json (uint64_marshal_json z) = Ok z.
Proof. exact uint64_json. Qed.
Print Assumptions C46_uint64_round_trip.
(** [integer z s]: [s] is [z] in decimal, with a minus sign if negative. *)
Theorem C46_int64_text : forall z, exists s, integer z s /\
  int64_marshal_json z = if 2 ^ 32 - 1 <? Z.abs z then [34] ++ s ++ [34] else s.
Proof. exact int64_json_text. Qed.
Print Assumptions C46_int64_text.
Theorem C46_uint64_text : forall z, 0 <= z -> exists s, decimal z s /\
  uint64_marshal_json z = if 2 ^ 32 - 1 <? z then [34] ++ s ++ [34] else s.
Proof. exact uint64_json_text. Qed.
Print Assumptions C46_uint64_text.
(** Both notations are accepted whatever the size; every accepted text stands
    for a number in range; all others are errors, never panics. *)
Theorem C46_int64_both : forall z s, - 2 ^ 63 <= z < 2 ^ 63 -> integer z s ->
  int64_unmarshal_json s = Ok z /\ int64_unmarshal_json ([34] ++ s ++ [34]) = Ok z.
Proof. exact int64_json_both. Qed.
Print Assumptions C46_int64_both.
Theorem C46_uint64_both : forall z s, 0 <= z < 2 ^ 64 -> decimal z s ->
  uint64_unmarshal_json s = Ok z /\ uint64_unmarshal_json ([34] ++ s ++ [34]) = Ok z.
Proof. exact uint64_json_both. Qed.
Print Assumptions C46_uint64_both.
Theorem C46_int64_range : forall data,
  (exists z, int64_unmarshal_json data = Ok z /\ - 2 ^ 63 <= z < 2 ^ 63) \/
  (exists e, int64_unmarshal_json data = Err e).
Proof. exact int64_json_outcome. Qed.
Print Assumptions C46_int64_range.
Theorem C46_uint64_range : forall data,
  (exists z, uint64_unmarshal_json data = Ok z /\ 0 <= z < 2 ^ 64) \/
  (exists e, uint64_unmarshal_json data = Err e).
Proof. exact uint64_json_outcome. Qed.
Print Assumptions C46_uint64_range.
Theorem C46_int64_out_of_range : forall z s, ~ - 2 ^ 63 <= z < 2 ^ 63 -> integer z s ->
  int64_unmarshal_json s = Err EMsg /\ int64_unmarshal_json ([34] ++ s ++ [34]) = Err EMsg.
Proof. exact int64_json_outside. Qed.
Print Assumptions C46_int64_out_of_range.
Example C46_sample :
  int64_marshal_json (-4294967295) = str "-4294967295" /\
  int64_marshal_json (-4294967296) = str """-4294967296""" /\
  int64_unmarshal_json (str """-9223372036854775808""") = Ok (- 2 ^ 63) /\
  int64_unmarshal_json (str """9223372036854775808""") = Err EMsg /\
  uint64_marshal_json 4294967295 = str "4294967295" /\
  uint64_unmarshal_json (str "18446744073709551615") = Ok (2 ^ 64 - 1).
Proof. repeat split; vm_compute; reflexivity. Qed.

(** ** C47 *)

Theorem C47_round_trip : forall bs, bytes_ok bs -> hexbytes_unmarshal_json (hexbytes_marshal_json bs) = Ok bs.
Proof. exact hexbytes_json. Qed.
Print Assumptions C47_round_trip.
(** [hex_char]: a digit or one of a to f; byte [i] is the pair at [2 i]. *)
Theorem C47_text : forall bs, bytes_ok bs -> exists s, hexbytes_marshal_json bs = [34] ++ s ++ [34] /\
  zlen s = 2 * zlen bs /\ Forall hex_char s /\
  forall i b, nth_error bs i = Some b ->
    exists x y, nth_error s (2 * i) = Some x /\ nth_error s (2 * i + 1) = Some y /\
      hex_value x (b / 16) /\ hex_value y (b mod 16).
Proof. exact hexbytes_json_text'. Qed.
Print Assumptions C47_text.
Theorem C47_total : forall data,
  (exists bs, hexbytes_unmarshal_json data = Ok bs /\ bytes_ok bs) \/ (exists e, hexbytes_unmarshal_json data = Err e).
Proof. exact hexbytes_json_outcome. Qed.
Print Assumptions C47_total.
Example C47_sample :
  hexbytes_marshal_json [0; 175; 255] = str """00afff""" /\
  hexbytes_unmarshal_json (str """00AFff""") = Ok [0; 175; 255] /\
  hexbytes_unmarshal_json (str """00A""") = Err EMsg.
Proof. repeat split; vm_compute; reflexivity. Qed.

(** ** C54 *)

Theorem C54_round_trip : forall b, bool_unmarshal_json (bool_marshal_json b) = Ok b.
Proof. exact bool_json. Qed.
Print Assumptions C54_round_trip.
Theorem C54_numbers : forall z s, - 2 ^ 63 <= z < 2 ^ 63 -> integer z s ->
  bool_unmarshal_json s = Ok (negb (z =? 0)).
Proof. exact bool_json_integer. Qed.
Print Assumptions C54_numbers.
Theorem C54_numbers_out_of_range : forall z s, ~ - 2 ^ 63 <= z < 2 ^ 63 -> integer z s ->
  bool_unmarshal_json s = Err EMsg.
Proof. exact bool_json_outside. Qed.
Print Assumptions C54_numbers_out_of_range.
Example C54_sample :
  bool_unmarshal_json (str "true") = Ok true /\ bool_unmarshal_json (str "2") = Ok true /\
  bool_unmarshal_json (str "0") = Ok false /\ bool_unmarshal_json (str "null") = Ok false /\
  bool_unmarshal_json (str """true""") = Err EMsg.
Proof. repeat split; vm_compute; reflexivity. Qed.
