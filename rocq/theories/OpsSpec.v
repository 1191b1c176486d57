(** Specification of exchanges: which call of a reading method belongs to which
    call of a writing method, the bytes between them and the result. *)
From Verif Require Import Types Spec Utf8 Ops.
Notation length := Datatypes.length.

(** [exchange E w r bs x]: the call [w] writes [bs], and the call [r] gets [x]
    from [bs]. *)
Inductive exchange (E : encoding) : eop -> dop -> list Z -> dres -> Prop :=
| ex_raw b : zlen b <= bulk_max -> exchange E (OpWrite b) (OpReadNBytes (zlen b)) b (RBytes b)
| ex_read b : exchange E (OpWrite b) (OpRead (zlen b)) b (RBytes b)
| ex_skip b : exchange E (OpWrite b) (OpSkipBytes (zlen b)) b RUnit
| ex_discard b : zlen b <= bulk_max -> exchange E (OpWrite b) (OpDiscard (zlen b)) b RUnit
| ex_type_id b : length b = 8%nat -> exchange E (OpWrite b) OpReadTypeID b (RBytes b)
| ex_no_length b : zlen b <= bulk_max -> exchange E (OpWriteBytes b false) (OpReadNBytes (zlen b)) b (RBytes b)
| ex_bytes b : zlen b <= count_max E -> zlen b <= bulk_max ->
    exchange E (OpWriteBytes b true) OpReadByteSlice (count E (zlen b) ++ b) (RBytes b)
| ex_length n : 0 <= n <= count_max E -> n <= bulk_max -> exchange E (OpWriteLength n) OpReadLength (count E n) (RNum n)
| ex_uvarint64 z : 0 <= z < 2 ^ 56 -> exchange E (OpWriteUVarInt z) OpReadUvarint64 (leb128 z) (RNum z)
| ex_uvarint32 z : 0 <= z < 2 ^ 32 -> exchange E (OpWriteUVarInt z) OpReadUvarint32 (leb128 z) (RNum z)
| ex_uvarint16 z : 0 <= z < 2 ^ 16 -> exchange E (OpWriteUVarInt z) OpReadUvarint16 (leb128 z) (RNum z)
| ex_varint64 z : - 2 ^ 55 <= z < 2 ^ 55 -> exchange E (OpWriteVarInt z) OpReadVarint64 (leb128 (zz z)) (RNum z)
| ex_varint32 z : - 2 ^ 31 <= z < 2 ^ 31 -> exchange E (OpWriteVarInt z) OpReadVarint32 (leb128 (zz z)) (RNum z)
| ex_varint16 z : - 2 ^ 15 <= z < 2 ^ 15 -> exchange E (OpWriteVarInt z) OpReadVarint16 (leb128 (zz z)) (RNum z)
| ex_byte z : 0 <= z < 256 -> exchange E (OpWriteByte z) OpReadByte [z] (RNum z)
| ex_int8 z o : - 2 ^ 7 <= z < 2 ^ 7 -> exchange E (OpWriteByte z) (OpReadInt W8 o) (fixed LE 1 z) (RNum z)
| ex_bool b : exchange E (OpWriteBool b) OpReadBool [if b then 1 else 0] (RBool b)
| ex_option b : exchange E (OpWriteBool b) OpReadOption [if b then 1 else 0] (RBool b)
| ex_coption b : exchange E (OpWriteCOption b) OpReadCOption (fixed LE 4 (if b then 1 else 0)) (RBool b)
| ex_uint w z o : 0 <= z < 2 ^ wbits w ->
    exchange E (OpWriteUint (wbytes w) z o) (OpReadUint w o) (fixed o (wbytes w) z) (RNum z)
| ex_int w z o : - 2 ^ (wbits w - 1) <= z < 2 ^ (wbits w - 1) ->
    exchange E (OpWriteUint (wbytes w) z o) (OpReadInt w o) (fixed o (wbytes w) z) (RNum z)
| ex_float f b o : 0 <= b < 2 ^ fbits f -> (E = Borsh -> f_isnan f b = false) ->
    exchange E (OpWriteFloat f b o) (OpReadFloat f o) (fixed o (fbytes f) b) (RNum b)
| ex_uint128 lo hi o : 0 <= lo < 2 ^ 64 -> 0 <= hi < 2 ^ 64 ->
    exchange E (OpWriteUint128 lo hi o) (OpReadUint128 o) (fixed o 16 (hi * 2 ^ 64 + lo)) (RPair lo hi)
| ex_string s : zlen s <= count_max E -> zlen s <= bulk_max ->
    exchange E (OpWriteString s) OpReadString (count E (zlen s) ++ s) (RBytes s)
| ex_safe_string s : zlen s <= count_max E -> zlen s <= bulk_max ->
    exchange E (OpWriteString s) OpSafeReadUTF8String (count E (zlen s) ++ s) (RBytes (safe_utf8 s))
| ex_rust_string s : zlen s <= bulk_max ->
    exchange E (OpWriteRustString s) OpReadRustString (fixed LE 8 (zlen s) ++ s) (RBytes s)
| ex_compact n : 0 <= n <= 65535 -> exchange E (OpWriteCompactU16 n) OpReadCompactU16 (leb128 n) (RNum n)
| ex_value t v p : ok E t None LE v -> fits t p ->
    exchange E (OpEncode t v) (OpDecode t p) (wire E t None LE v) (RVal (back E t None LE p v)).

(** A conversation: the calls on both sides, the bytes and the results. *)
Inductive conversation (E : encoding) : list eop -> list dop -> list Z -> list dres -> Prop :=
| conv_end : conversation E [] [] [] []
| conv_call w r bs x ws rs bs' xs : exchange E w r bs x -> conversation E ws rs bs' xs ->
    conversation E (w :: ws) (r :: rs) (bs ++ bs') (x :: xs).
