(** The JSON texts that the library types accept, exactly (C57). *)
From Coq Require Import String.
From Verif Require Import Base Types Spec Text Json Utf8Facts TextFacts JsonSpec JsonExact JsonDest.
Notation length := Datatypes.length.

(** ** C57 *)

(** json.Unmarshal into a string variable: the grammar of RFC 8259, except that
    ill-formed UTF-8 and lone surrogates are replaced; null leaves the variable. *)
Theorem C57_string : forall old data t, bytes_ok data ->
  (json_string old data = Some t <-> json_str t data \/ json_nil data /\ t = old).
Proof. exact json_string_exact. Qed.
Print Assumptions C57_string.
Theorem C57_int64 : forall data z, bytes_ok data ->
  (int64_unmarshal_json data = Ok z <->
   - 2 ^ 63 <= z < 2 ^ 63 /\
   ((exists r s, data = 34 :: r /\ json_str s data /\ signed_numeral z s) \/
    (json_nil data /\ z = 0) \/ json_int z data)).
Proof. exact int64_exact. Qed.
Print Assumptions C57_int64.
Theorem C57_uint64 : forall data z, bytes_ok data ->
  (uint64_unmarshal_json data = Ok z <->
   0 <= z < 2 ^ 64 /\
   ((exists r s, data = 34 :: r /\ json_str s data /\ numeral z s) \/
    (json_nil data /\ z = 0) \/ (exists ds, decimal z ds /\ padded ds data))).
Proof. exact uint64_exact. Qed.
Print Assumptions C57_uint64.
Theorem C57_hexbytes : forall data bs, bytes_ok data ->
  (hexbytes_unmarshal_json data = Ok bs <->
   (exists s, json_str s data /\ hex_text s bs) \/ json_nil data /\ bs = []).
Proof. exact hexbytes_exact. Qed.
Print Assumptions C57_hexbytes.
Theorem C57_bool : forall data b,
  bool_unmarshal_json data = Ok b <->
  (exists z, json_int z data /\ - 2 ^ 63 <= z < 2 ^ 63 /\ b = negb (z =? 0)) \/
  json_nil data /\ b = false \/ padded true_text data /\ b = true \/ padded false_text data /\ b = false.
Proof. exact bool_exact. Qed.
Print Assumptions C57_bool.
(** Uint128: the outcome, success, error or panic, is determined by the text. *)
Theorem C57_u128 : forall lo hi o data, bytes_ok data ->
  u128_outcome lo hi o data (u128_unmarshal_json lo hi o data).
Proof. exact u128_exact. Qed.
Print Assumptions C57_u128.
Theorem C57_u128_unique : forall lo hi o data r r', bytes_ok data ->
  u128_outcome lo hi o data r -> u128_outcome lo hi o data r' -> r = r'.
Proof. exact u128_outcome_unique. Qed.
Print Assumptions C57_u128_unique.
(** The texts that make Uint128.UnmarshalJSON panic: numbers of more than 128
    bits, and 16 hexadecimal digits behind 0x. *)
Theorem C57_u128_panics : forall lo hi o data, bytes_ok data ->
  (u128_unmarshal_json lo hi o data = Panic <->
   (exists s z, json_str s data /\ ~ hex_prefix s /\ go_integer z s /\ 2 ^ 128 <= Z.abs z) \/
   (exists s x, json_str (48 :: x :: s) data /\ (x = 120 \/ x = 88) /\ zlen s = 16 /\
      Forall (fun c => exists d, hexd c d) s)).
Proof.
  intros lo hi o data Hb. pose proof (u128_exact lo hi o data Hb) as H. split.
  - intro E. rewrite E in H. inversion H; subst; [left|right]; eauto 9.
  - intros [(s & z & H1 & H2 & H3 & H4)|(s & x & H1 & H2 & H3 & H4)];
      apply (u128_outcome_unique lo hi o data _ _ Hb H).
    + now apply u128_large with s z.
    + now apply u128_hex with s x.
Qed.
Print Assumptions C57_u128_panics.

(** Escapes, a pair and a lone surrogate, an ill-formed byte; the closing quote
    has to be the end; a quoted number may not have space before it; underscores
    and prefixes are accepted by the 128-bit types only. *)
Example C57_sample_string :
  json_string [] (str " ""A\n\u0041\uD83D\ude00\ud83d\/" ++ [200; 34; 32]) =
    Some ([65; 10; 65] ++ utf8_char 0x1F600 ++ [0xEF; 0xBF; 0xBD] ++ [47] ++ [0xEF; 0xBF; 0xBD]) /\
  json_string [] (str """a"" ""b""") = None /\ json_string [] (str """\x""") = None.
Proof. repeat split. Qed.
Example C57_sample_int64 :
  int64_unmarshal_json (str """-007"" ") = Ok (-7) /\ int64_unmarshal_json (str " ""5""") = Err EMsg /\
  int64_unmarshal_json (str "-007") = Err EMsg /\ int64_unmarshal_json (str " -7 ") = Ok (-7) /\
  int64_unmarshal_json (str """5""") = Ok 5 /\ int64_unmarshal_json (str """""") = Err EMsg.
Proof. repeat split. Qed.
Example C57_sample_u128 :
  u128_unmarshal_json 1 2 LE (str """0b1_01""") = Ok (5, 0) /\
  u128_unmarshal_json 1 2 LE (str """-5""") = Ok (5, 0) /\
  u128_unmarshal_json 1 2 LE (str "null") = Ok (1, 2) /\ u128_unmarshal_json 1 2 LE (str " null") = Err EMsg /\
  u128_unmarshal_json 1 2 LE (str """340282366920938463463374607431768211456""") = Panic /\
  u128_unmarshal_json 1 2 LE (str """0x0123456789abcdef""") = Panic /\
  u128_unmarshal_json 1 2 LE (str """0x01""") = Err EMsg.
Proof. repeat split. Qed.
Example C57_sample_hex :
  hexbytes_unmarshal_json (str """0aF0""") = Ok [10; 240] /\ hexbytes_unmarshal_json (str """0aF""") = Err EMsg /\
  bool_unmarshal_json (str " -0 ") = Ok false /\ bool_unmarshal_json (str "True") = Err EMsg.
Proof. repeat split. Qed.

(** ** C76: the variables after the JSON methods *)

(** HexBytes.UnmarshalJSON goes the way C57 describes; with [old] in the
    variable it leaves ... *)
Theorem C76_hexbytes_way : forall old data, hexbytes_unmarshal_json data =
  match hexbytes_json_into old data with (Ok _, l) => Ok l | (Err e, _) => Err e | _ => Panic end.
Proof. exact hexbytes_into_agrees. Qed.
Print Assumptions C76_hexbytes_way.
(** ... for a JSON string the bytes of its pairs of hexadecimal digits up to the
    first place where there is none (an error unless that is the end), nothing
    for null, and [old] for other texts. *)
Theorem C76_hexbytes : forall old data, bytes_ok data ->
  (exists s p q l, json_str s data /\ s = (p ++ q)%list /\ hex_text p l /\ no_pair q /\
     hexbytes_json_into old data = (if match q with [] => true | _ => false end then Ok tt else Err EMsg, l)) \/
  (json_nil data /\ hexbytes_json_into old data = (Ok tt, [])) \/
  ((forall s, ~ json_str s data) /\ ~ json_nil data /\ hexbytes_json_into old data = (Err EMsg, old)).
Proof. exact hexbytes_into_left. Qed.
Print Assumptions C76_hexbytes.
(** Uint128.UnmarshalJSON: the same outcomes as in C57. *)
Theorem C76_u128_way : forall lo hi o data, u128_unmarshal_json lo hi o data =
  match u128_json_into lo hi o data with
  | (Ok _, p) => Ok p | (Err e, _) => Err e | (Panic, _) => Panic | (Deep, _) => Deep | (Stuck, _) => Stuck
  end.
Proof. exact u128_into_agrees. Qed.
Print Assumptions C76_u128_way.
(** If it does not succeed the number is as it was, except after the panic of
    16 digits behind 0x: then one half is the number of these bytes. *)
Theorem C76_u128 : forall lo hi o data, bytes_ok data ->
  fst (u128_json_into lo hi o data) = Ok tt \/ snd (u128_json_into lo hi o data) = (lo, hi) \/
  exists s x bs, json_str (48 :: x :: s) data /\ (x = 120 \/ x = 88) /\ hex_text s bs /\ zlen bs = 8 /\
    u128_json_into lo hi o data =
      (Panic, match o with LE => (get_uint LE bs, hi) | BE => (lo, get_uint BE bs) end).
Proof. exact u128_into_left. Qed.
Print Assumptions C76_u128.
(** "An error leaves the variable alone" does not hold for HexBytes. *)
Theorem C76_hexbytes_kept_refuted : exists old data l,
  hexbytes_json_into old data = (Err EMsg, l) /\ l <> old.
Proof.
  exists [7], (quoted (str "0aff1g22")), [10; 255]. split; [vm_compute; reflexivity|discriminate].
Qed.
Print Assumptions C76_hexbytes_kept_refuted.
Example C76_sample :
  hexbytes_json_into [7] (quoted (str "0aFf1")) = (Err EMsg, [10; 255]) /\
  hexbytes_json_into [7] (str "12") = (Err EMsg, [7]) /\
  hexbytes_json_into [7] (str " null ") = (Ok tt, []) /\
  u128_json_into 1 2 LE (quoted (str "0x0100000000000000")) = (Panic, (1, 2)) /\
  u128_json_into 5 2 LE (quoted (str "0x0100000000000000")) = (Panic, (1, 2)) /\
  u128_json_into 5 2 BE (quoted (str "0x0100000000000000")) = (Panic, (5, 2 ^ 56)) /\
  u128_json_into 5 2 LE (quoted (str "340282366920938463463374607431768211456")) = (Panic, (5, 2)) /\
  u128_json_into 5 2 LE (quoted (str "12x")) = (Err EMsg, (5, 2)) /\
  u128_json_into 5 2 LE (quoted (str "18446744073709551618")) = (Ok tt, (2, 1)).
Proof. repeat split; vm_compute; reflexivity. Qed.
