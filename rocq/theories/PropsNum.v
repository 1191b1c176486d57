(** Primitive readers and writers (C17-C25, C27, C49).

    [writes E m bs] (NumProps.v): the write method hands exactly the bytes
    [bs] to any writer.  [keeps E m bs x] (DecWire.v): wherever the bytes [bs]
    are in the data, the read method returns [x] and moves exactly over
    them. *)
From Verif Require Import Types EncPrim DecPrim Enc Dec Builtin Spec DecWire DecWithin Text Tools U128 NumProps.

(** ** C17 *)
Theorem C17_compact_u16_round_trip : forall buf n post,
  (0 <= n <= 65535 -> exists bs,
     encode_compact_u16 buf n = (buf ++ bs, None) /\
     1 <= zlen bs <= 3 /\ decode_compact_u16 (bs ++ post) = inr (n, zlen bs)) /\
  (~ 0 <= n <= 65535 -> encode_compact_u16 buf n = (buf, Some EMsg)).
Proof. exact cu16_round_trip. Qed.
Print Assumptions C17_compact_u16_round_trip.
Example C17_ex :
  encode_compact_u16 [9] 16384 = ([9; 128; 128; 1], None) /\
  decode_compact_u16 [128; 128; 1; 77] = inr (16384, 3) /\
  encode_compact_u16 [9] 65536 = ([9], Some EMsg).
Proof. vm_compute. auto. Qed.

(** ** C18: the accepted byte strings are the canonical ones *)
Theorem C18_compact_u16_canonical : forall bs x n, bytes_ok bs ->
  decode_compact_u16 bs = inr (x, n) <->
  (0 <= x <= 65535 /\ n = zlen (leb128 x) /\ exists rest, bs = leb128 x ++ rest).
Proof. exact cu16_canonical. Qed.
Print Assumptions C18_compact_u16_canonical.
Example C18_ex :
  decode_compact_u16 [128; 0] = inl EMsg /\ decode_compact_u16 [128; 128; 0] = inl EMsg /\
  decode_compact_u16 [255; 255; 4] = inl EMsg /\ decode_compact_u16 [255; 255; 3] = inr (65535, 3) /\
  decode_compact_u16 [128] = inl EUnexpectedEOF.
Proof. vm_compute. auto. Qed.

(** ** C19: reading from an io.ByteReader *)
Theorem C19_byte_reader : forall eof bs,
  match decode_compact_u16 bs with
  | inr (x, n) => decode_compact_u16_reader eof bs = (inr x, skipn (Z.to_nat n) bs)
  | inl _ => exists e rest, decode_compact_u16_reader eof bs = (inl e, rest)
  end.
Proof. exact cu16_reader. Qed.
Print Assumptions C19_byte_reader.
(** The same errors, except that the reader's own error takes the place of
    io.ErrUnexpectedEOF; then everything has been read. *)
Theorem C19_errors : forall eof bs e, decode_compact_u16 bs = inl e ->
  exists rest, decode_compact_u16_reader eof bs = (inl (match e with EUnexpectedEOF => eof | _ => e end), rest) /\
    (e = EUnexpectedEOF -> rest = []).
Proof. exact cu16_reader_errors. Qed.
Print Assumptions C19_errors.
Example C19_ex :
  decode_compact_u16_reader EEOF [200; 3; 7; 8] = (inr 456, [7; 8]) /\
  decode_compact_u16_reader EEOF [200] = (inl EEOF, []).
Proof. vm_compute. auto. Qed.

(** ** C20 *)
Theorem C20_uvarint : forall E v, - 2 ^ 63 <= v < 2 ^ 63 ->
  (0 <= v < 2 ^ 56 ->
     writes E (write_uvarint v) (leb128 v) /\ keeps E read_uvarint64 (leb128 v) v) /\
  (~ 0 <= v < 2 ^ 56 -> forall s, write_uvarint v s = (Panic, s)).
Proof.
  intros E v Hv. split.
  - intro H. split; [now apply uvarint_writes|]. apply keeps_uvarint. lia.
  - intros H s. now apply uvarint_limit.
Qed.
Print Assumptions C20_uvarint.
(** Uint32 and uint16 readers. *)
Theorem C20_uvarint_narrow : forall E v,
  (0 <= v < 2 ^ 32 -> keeps E read_uvarint32 (leb128 v) v) /\
  (0 <= v < 2 ^ 16 -> keeps E read_uvarint16 (leb128 v) v).
Proof.
  intros E v. split; intro H;
    [apply (keeps_uvarint_wrap E 32)|apply (keeps_uvarint_wrap E 16)]; lia.
Qed.
Print Assumptions C20_uvarint_narrow.
(** WriteUVarInt takes any int; it is not total. *)
Theorem C20_uvarint_total_refuted : exists v,
  - 2 ^ 63 <= v < 2 ^ 63 /\ fst (write_uvarint v (new_encoder Bin buffer)) = Panic.
Proof. exists (-1). vm_compute. repeat split; discriminate. Qed.
Print Assumptions C20_uvarint_total_refuted.
(** The narrow readers truncate silently. *)
Theorem C20_uvarint32_range_refuted : exists v, 2 ^ 32 <= v /\
  fst (read_uvarint32 (new_decoder Bin (leb128 v))) = Ok 5.
Proof. exists (2 ^ 32 + 5). split; vm_compute; [discriminate|reflexivity]. Qed.
Print Assumptions C20_uvarint32_range_refuted.
Example C20_ex : leb128 300 = [172; 2] /\
  write_uvarint 300 (new_encoder Bin buffer) = (Ok tt, mkE Bin buffer None 2 [[172; 2]] [172; 2]).
Proof. vm_compute. auto. Qed.

(** ** C21 *)
Theorem C21_varint : forall E v, - 2 ^ 63 <= v < 2 ^ 63 ->
  (- 2 ^ 55 <= v < 2 ^ 55 ->
     writes E (write_varint v) (leb128 (zz v)) /\ keeps E read_varint64 (leb128 (zz v)) v) /\
  (~ - 2 ^ 55 <= v < 2 ^ 55 -> forall s, write_varint v s = (Panic, s)).
Proof.
  intros E v Hv. split.
  - intro H. split; [now apply varint_writes|]. now apply keeps_varint.
  - intros H s. now apply varint_limit.
Qed.
Print Assumptions C21_varint.
Theorem C21_varint_narrow : forall E v,
  (- 2 ^ 31 <= v < 2 ^ 31 -> writes E (write_varint v) (leb128 (zz v)) /\
     keeps E read_varint32 (leb128 (zz v)) v) /\
  (- 2 ^ 15 <= v < 2 ^ 15 -> writes E (write_varint v) (leb128 (zz v)) /\
     keeps E read_varint16 (leb128 (zz v)) v).
Proof.
  intros E v. split; intro H; (split; [apply varint_writes; lia|]);
    [apply (keeps_varint_wrap E 32)|apply (keeps_varint_wrap E 16)]; cbn; lia.
Qed.
Print Assumptions C21_varint_narrow.
Example C21_ex : leb128 (zz (-3)) = [5] /\ leb128 (zz 64) = [128; 1] /\
  fst (write_varint (2 ^ 55) (new_encoder Bin buffer)) = Panic /\
  fst (read_varint64 (new_decoder Bin [5])) = Ok (-3).
Proof. vm_compute. auto. Qed.

(** ** C22 *)
Theorem C22_fixed_width : forall E w o z,
  (0 <= z < 2 ^ wbits w ->
     keeps E (read_uintw w o) (fixed o (wbytes w) z) z) /\
  (- 2 ^ (wbits w - 1) <= z < 2 ^ (wbits w - 1) ->
     keeps E (read_intw w o) (fixed o (wbytes w) z) z) /\
  writes E (write_uint (wbytes w) z o) (fixed o (wbytes w) z) /\
  writes E (write_byte z) (fixed o 1 z) /\
  fixed BE (wbytes w) z = rev (fixed LE (wbytes w) z) /\
  length (fixed o (wbytes w) z) = wbytes w.
Proof.
  intros E w o z. split; [apply keeps_uintw_fixed|]. split; [apply keeps_intw_fixed|].
  split; [apply fixed_writes|]. split; [|split; [reflexivity|apply NumFacts.fixed_length]].
  intro c. rewrite EncWire.fixed_1. apply EncWire.emits_write_byte.
Qed.
Print Assumptions C22_fixed_width.
(** Every byte string of the right length is the encoding of one number. *)
Theorem C22_onto : forall E w o bs, bytes_ok bs -> length bs = wbytes w ->
  exists z, 0 <= z < 2 ^ wbits w /\ fixed o (wbytes w) z = bs /\ keeps E (read_uintw w o) bs z.
Proof. exact fixed_onto. Qed.
Print Assumptions C22_onto.
Example C22_ex : fixed LE 4 (-2) = [254; 255; 255; 255] /\ fixed BE 2 258 = [1; 2] /\
  fst (read_intw W32 BE (new_decoder Bin [255; 255; 255; 254; 0])) = Ok (-2).
Proof. vm_compute. auto. Qed.

(** ** C23 *)
Theorem C23_uint128 : forall E o lo hi, 0 <= lo < 2 ^ 64 -> 0 <= hi < 2 ^ 64 ->
  writes E (write_uint128 lo hi o) (fixed o 16 (hi * 2 ^ 64 + lo)) /\
  keeps E (read_uint128 o) (fixed o 16 (hi * 2 ^ 64 + lo)) (lo, hi) /\
  u128_bytes lo hi o = fixed BE 16 (hi * 2 ^ 64 + lo) /\
  u128_bigint lo hi o = hi * 2 ^ 64 + lo /\
  i128_bigint lo hi o = (if hi <? 2 ^ 63 then hi * 2 ^ 64 + lo else hi * 2 ^ 64 + lo - 2 ^ 128).
Proof.
  intros E o lo hi Hl Hh. split; [now apply uint128_writes|].
  split; [now apply keeps_read_uint128|]. split; [now apply u128_bytes_spec|].
  split; [now apply u128_bigint_spec|]. rewrite i128_bigint_spec by easy. unfold swrap.
  rewrite Z.mod_small by lia. change (2 ^ (128 - 1)) with (2 ^ 63 * 2 ^ 64).
  destruct (hi <? 2 ^ 63) eqn:E1; destruct (_ <? 2 ^ 63 * 2 ^ 64) eqn:E2; lia.
Qed.
Print Assumptions C23_uint128.
Example C23_ex :
  i128_bigint (2 ^ 64 - 5) (2 ^ 64 - 1) LE = -5 /\ i128_bigint (2 ^ 64 - 5) (2 ^ 64 - 1) BE = -5 /\
  u128_bytes 1 2 LE = [0; 0; 0; 0; 0; 0; 0; 2; 0; 0; 0; 0; 0; 0; 0; 1] /\
  u128_string 0 1 BE = str "18446744073709551616" /\
  i128_decimal_string (2 ^ 64 - 5) (2 ^ 64 - 1) LE = str "-5" /\
  (* Int128.String is that of Uint128 *)
  u128_string (2 ^ 64 - 1) (2 ^ 64 - 1) LE = str "340282366920938463463374607431768211455".
Proof. vm_compute. repeat split. Qed.

(** ** C24 *)
Theorem C24_floats : forall E f o b, 0 <= b < 2 ^ fbits f ->
  ((E = Borsh -> f_isnan f b = false) ->
     writes E (write_float f b o) (fixed o (fbytes f) b) /\
     keeps E (read_float f o) (fixed o (fbytes f) b) b) /\
  (f_isnan f b = true ->
     (forall s, e_enc s = Borsh -> write_float f b o s = (Err EMsg, s)) /\
     forall pre post c,
       fst (read_float f o (mkD (pre ++ fixed o (fbytes f) b ++ post) (zlen pre) c Borsh)) = Err EMsg).
Proof.
  intros E f o b Hb. split.
  - intro H. split; [now apply float_writes|now apply keeps_read_float].
  - intro H. split; [intros s Hs; now apply float_nan_write|].
    intros. now apply float_nan_read.
Qed.
Print Assumptions C24_floats.
(** [f_isnan] is: exponent bits all ones and some fraction bit. *)
Theorem C24_isnan : forall f b, 0 <= b < 2 ^ fbits f ->
  f_isnan f b = true <->
  match f with
  | F32 => b / 2 ^ 23 mod 2 ^ 8 = 2 ^ 8 - 1 /\ b mod 2 ^ 23 <> 0
  | F64 => b / 2 ^ 52 mod 2 ^ 11 = 2 ^ 11 - 1 /\ b mod 2 ^ 52 <> 0
  end.
Proof.
  intros f b Hb. unfold f_isnan, fmag. destruct f; cbn [finf fbits] in *; rewrite Z.ltb_lt.
  - change (2 ^ (32 - 1)) with 2147483648. change (2 ^ 23) with 8388608. change (2 ^ 8) with 256.
    change (2 ^ 32) with 4294967296 in Hb. lia.
  - change (2 ^ (64 - 1)) with 9223372036854775808. change (2 ^ 52) with 4503599627370496.
    change (2 ^ 11) with 2048. change (2 ^ 64) with 18446744073709551616 in Hb. lia.
Qed.
Print Assumptions C24_isnan.
Example C24_ex :
  fst (write_float F64 0x7ff8000000000001 LE (new_encoder Borsh buffer)) = Err EMsg /\
  fst (write_float F64 0x7ff8000000000001 LE (new_encoder Bin buffer)) = Ok tt /\
  fst (read_float F32 BE (new_decoder Borsh [127; 192; 0; 0])) = Err EMsg /\
  fst (read_float F32 BE (new_decoder Borsh [127; 128; 0; 0])) = Ok 0x7f800000.
Proof. vm_compute. auto. Qed.

(** ** C25 *)
Theorem C25_strings : forall E s,
  (zlen s <= count_max E -> zlen s <= bulk_max ->
     writes E (write_bytes s) (count E (zlen s) ++ s) /\
     keeps E read_byte_slice (count E (zlen s) ++ s) s /\
     writes E (write_string s) (count E (zlen s) ++ s) /\
     keeps E read_string (count E (zlen s) ++ s) s) /\
  (zlen s <= bulk_max ->
     writes E (write_rust_string s) (fixed LE 8 (zlen s) ++ s) /\
     keeps E read_rust_string (fixed LE 8 (zlen s) ++ s) s).
Proof.
  intros E s. split.
  - intros H1 H2. repeat split; try now apply bytes_writes.
    + now apply keeps_byte_slice.
    + now apply keeps_byte_slice.
  - intro H. split; [apply rust_string_writes; unfold bulk_max in H; lia|now apply keeps_rust_string].
Qed.
Print Assumptions C25_strings.
Theorem C25_too_long : forall E n pre post c, zlen post < n ->
  (0 <= n <= count_max E ->
     exists e s, read_byte_slice (mkD (pre ++ count E n ++ post) (zlen pre) c E) = (Err e, s)) /\
  (0 <= n < 2 ^ 64 ->
     exists e s, read_rust_string (mkD (pre ++ fixed LE 8 n ++ post) (zlen pre) c E) = (Err e, s)).
Proof.
  intros E n pre post c H. split; intro Hn.
  - now apply byte_slice_too_long.
  - now apply rust_string_too_long.
Qed.
Print Assumptions C25_too_long.
(** Above the limit of the format the length is not written, or wrapped. *)
Theorem C25_compact_limit_refuted : exists s,
  let '(r, e) := write_string s (new_encoder CompactU16 buffer) in
  r = Ok tt /\ e_acc e = s.
Proof.
  exists (repeat 7 (Z.to_nat 65536)).
  assert (H : forall s, zlen s = 65536 ->
    write_string s (new_encoder CompactU16 buffer) =
    (Ok tt, mkE CompactU16 buffer None 65536 [s] s)).
  { intros s Hs. unfold write_string, write_bytes, write_length, bind, e_get_enc.
    cbn [e_enc new_encoder]. rewrite Hs. cbn -[zlen].
    destruct s as [|a s]; [discriminate|]. unfold write_bytes_nolen, to_writer.
    cbn [e_hist e_w e_enc e_cur e_count e_acc app buffer]. now rewrite Hs. }
  rewrite H; [split; reflexivity|]. unfold zlen. now rewrite repeat_length.
Qed.
Print Assumptions C25_compact_limit_refuted.
Example C25_ex :
  fst (read_string (new_decoder CompactU16 [2; 104; 105; 9])) = Ok [104; 105] /\
  fst (read_string (new_decoder Borsh [2; 0; 0; 0; 104])) = Err EMsg /\
  fst (read_rust_string (new_decoder Bin [1; 0; 0; 0; 0; 0; 0; 0; 65])) = Ok [65].
Proof. vm_compute. auto. Qed.

(** ** C27 *)
Theorem C27_option : forall E b,
  writes E (write_bool b) [if b then 1 else 0] /\
  keeps E read_option [if b then 1 else 0] b /\
  keeps E read_bool [if b then 1 else 0] b /\
  writes E (write_coption b) (fixed LE 4 (if b then 1 else 0)) /\
  keeps E read_coption (fixed LE 4 (if b then 1 else 0)) b.
Proof.
  intros E b. split; [apply option_writes|].
  split; [|split; [apply keeps_bool|split; [apply coption_writes|apply keeps_coption]]].
  intros pre post c. rewrite option_accepts by (destruct b; unfold is_byte; lia).
  destruct b; reflexivity.
Qed.
Print Assumptions C27_option.
(** ReadOption takes every byte, ReadCOption only 0 and 1. *)
Theorem C27_accepted : forall E pre post c,
  (forall b, is_byte b ->
     read_option (mkD (pre ++ [b] ++ post) (zlen pre) c E) =
       (Ok (negb (b =? 0)), mkD (pre ++ [b] ++ post) (zlen pre + 1) c E)) /\
  (forall bs, bytes_ok bs -> length bs = 4%nat ->
     exists s, read_coption (mkD (pre ++ bs ++ post) (zlen pre) c E) =
       ((if get_uint LE bs =? 0 then Ok false
         else if get_uint LE bs =? 1 then Ok true else Err EMsg), s)).
Proof.
  intros E pre post c. split; intros.
  - now apply option_accepts.
  - now apply coption_accepts.
Qed.
Print Assumptions C27_accepted.
(** A strict reader would reject flags other than 0 and 1. *)
Theorem C27_option_strict_refuted : exists b, 1 < b < 256 /\
  fst (read_option (new_decoder Borsh [b])) = Ok true.
Proof. exists 2. split; [lia|reflexivity]. Qed.
Print Assumptions C27_option_strict_refuted.
Example C27_ex :
  fst (read_coption (new_decoder Borsh [2; 0; 0; 0])) = Err EMsg /\
  fst (read_coption (new_decoder Borsh [1; 0; 0; 0])) = Ok true /\
  fst (read_option (new_decoder Borsh [])) = Err (EWrap EMsg).
Proof. vm_compute. auto. Qed.

(** ** C49 *)
Theorem C49_bulk_read : forall w n s, inside s -> (w = W8 -> Z.of_nat n <= bulk_max) ->
  (Z.of_nat n * Z.of_nat (wbytes w) <= remaining_of s ->
     read_uints w (Z.of_nat n) s = read_rep n (read_uintw w LE) s) /\
  (remaining_of s < Z.of_nat n * Z.of_nat (wbytes w) ->
     read_uints w (Z.of_nat n) s = (Err EUnexpectedEOF, s) /\
     exists e s', read_rep n (read_uintw w LE) s = (Err e, s')).
Proof. exact bulk_read. Qed.
Print Assumptions C49_bulk_read.
Theorem C49_bulk_write : forall E w zs, Forall (fun z => 0 <= z < 2 ^ wbits w) zs ->
  writes E (write_uints w (zlen zs) (map VNum zs)) (flat_map (fixed LE (wbytes w)) zs) /\
  writes E (each (fun z => write_uint (wbytes w) z LE) zs) (flat_map (fixed LE (wbytes w)) zs).
Proof. exact bulk_writes. Qed.
Print Assumptions C49_bulk_write.
Example C49_ex :
  fst (read_uints W16 2 (new_decoder Bin [1; 2; 3; 4; 5])) = Ok [513; 1027] /\
  e_hist (snd (write_uints W32 2 [VNum 1; VNum 2] (new_encoder Bin buffer))) = [[1; 0; 0; 0; 2; 0; 0; 0]].
Proof. vm_compute. auto. Qed.
