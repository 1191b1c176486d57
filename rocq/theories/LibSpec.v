(** Specification of the library's own types (/repo/types.go, /repo/u128.go,
    EmptyVariant of /repo/encoder_borsh.go): which values they carry, their
    bytes, what comes back.  Written without the methods of the types. *)
From Verif Require Import Types Spec Builtin Utf8Facts.

Inductive lib : Type :=
| LSafeString | LBool | LHexBytes | LVarint16 | LVaruint16 | LVarint32 | LVaruint32
| LJSONFloat64 | LInt64 | LUint64 | LUint128 | LInt128 | LFloat128 | LEmptyVariant.

Definition lib_ty (k : lib) : ty :=
  match k with
  | LSafeString => SafeString | LBool => Bool_ | LHexBytes => HexBytes
  | LVarint16 => Varint16 | LVaruint16 => Varuint16 | LVarint32 => Varint32 | LVaruint32 => Varuint32
  | LJSONFloat64 => JSONFloat64 | LInt64 => Int64 | LUint64 => Uint64
  | LUint128 => Uint128 | LInt128 => Int128 | LFloat128 => Float128
  | LEmptyVariant => EmptyVariant
  end.

(** The values that can be sent.  (All values of the type, but for the
    lengths, malformed texts, and the NaN that Borsh refuses.) *)
Inductive carries (E : encoding) : lib -> val -> Prop :=
| car_str s : utf8 s -> zlen s <= text_max E -> carries E LSafeString (VStr s)
| car_bool b : carries E LBool (VBool b)
| car_hex l : bytes_ok l -> zlen l <= text_max E -> carries E LHexBytes (VSlice (Some (map VNum l)))
| car_i16 z : - 2 ^ 15 <= z < 2 ^ 15 -> carries E LVarint16 (VNum z)
| car_u16 z : 0 <= z < 2 ^ 16 -> carries E LVaruint16 (VNum z)
| car_i32 z : - 2 ^ 31 <= z < 2 ^ 31 -> carries E LVarint32 (VNum z)
| car_u32 z : 0 <= z < 2 ^ 32 -> carries E LVaruint32 (VNum z)
| car_f64 b : 0 <= b < 2 ^ 64 -> (E = Borsh -> f_isnan F64 b = false) -> carries E LJSONFloat64 (VFloat b)
| car_i64 z : - 2 ^ 63 <= z < 2 ^ 63 -> carries E LInt64 (VNum z)
| car_u64 z : 0 <= z < 2 ^ 64 -> carries E LUint64 (VNum z)
| car_128 k lo hi e : In k [LUint128; LInt128; LFloat128] ->
    0 <= lo < 2 ^ 64 -> 0 <= hi < 2 ^ 64 -> carries E k (VStruct [VNum lo; VNum hi; VIface e])
| car_empty : carries E LEmptyVariant (VStruct []).

(** Their bytes in a field of byte order [o]. *)
Definition lib_bytes (E : encoding) (o : order) (k : lib) (v : val) : list Z :=
  match k, v with
  | LSafeString, VStr s => count E (zlen s) ++ s
  | LBool, VBool b => [if b then 1 else 0]
  | LHexBytes, VSlice (Some l) =>
      count E (zlen l) ++ map (fun x => match x with VNum b => b | _ => 0 end) l
  | (LVarint16 | LVarint32), VNum z => leb128 (zz z)
  | (LVaruint16 | LVaruint32), VNum z => leb128 z
  | LJSONFloat64, VFloat b => fixed o 8 b
  | (LInt64 | LUint64), VNum z => fixed o 8 z
  | (LUint128 | LInt128 | LFloat128), VStruct [VNum lo; VNum hi; _] => fixed o 16 (lo + 2 ^ 64 * hi)
  | _, _ => []
  end.

(** The value that comes back: the same, but for the Endianness. *)
Definition lib_back (v : val) : val :=
  match v with
  | VStruct [VNum lo; VNum hi; VIface _] => VStruct [VNum lo; VNum hi; VIface None]
  | _ => v
  end.
