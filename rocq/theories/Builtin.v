(** Codec methods of the library's own types: /repo/types.go, /repo/u128.go
    and EmptyVariant of /repo/encoder_borsh.go; Marshal / Unmarshal functions
    of /repo/interface.go. *)
From Verif Require Import Types EncPrim DecPrim Enc Dec Utf8.

(** A codec with a value-receiver MarshalWithEncoder and a pointer-receiver
    UnmarshalWithDecoder that overwrites the variable. *)
Definition simple_codec (m : val -> EM unit) (u : DM val) : codec :=
  mkCodec (Some m) true panic (Some (fun _ => u)).

Definition with_num (f : Z -> EM unit) (v : val) : EM unit :=
  match v with VNum z => f z | _ => stuck end.

Definition emsg {A} (m : DM A) : DM A := map_err (fun _ => EMsg) m.

(** SafeString, /repo/types.go:28-42; SafeReadUTF8String,
    /repo/decoder.go:606-613. *)
Definition safe_read_utf8_string : DM (list Z) := fmap safe_utf8 read_byte_slice.
Definition SafeString : ty :=
  TCodec (simple_codec
            (fun v => match v with VStr s => write_string s | _ => stuck end)
            (fmap VStr safe_read_utf8_string)) TString.

(** Bool, /repo/types.go:44, 63-75. *)
Definition Bool_ : ty :=
  TCodec (simple_codec
            (fun v => match v with VBool b => write_bool b | _ => stuck end)
            (fmap VBool read_bool)) TBool.

(** HexBytes, /repo/types.go:77, 98-110.  MarshalWithEncoder of a nil slice
    writes the length 0. *)
Definition bytes_val (v : val) : option (list Z) :=
  match v with
  | VSlice (Some l) => nums l
  | VSlice None => Some []
  | _ => None
  end.
Definition HexBytes : ty :=
  TCodec (simple_codec
            (fun v => match bytes_val v with
                      | Some b => write_bytes b
                      | None => stuck
                      end)
            (fmap (fun b => VSlice (Some (map VNum b))) (emsg read_byte_slice)))
    (TSlice (TUint UPlain W8)).

(** Varint16, Varuint16, Varuint32, Varint32, /repo/types.go:112-174. *)
Definition Varint16 : ty :=
  TCodec (simple_codec (with_num write_varint) (fmap VNum (emsg read_varint16)))
    (TInt false W16).
Definition Varuint16 : ty :=
  TCodec (simple_codec (with_num write_uvarint) (fmap VNum (emsg read_uvarint16)))
    (TUint UPlain W16).
(** Varuint32(value) truncates the uint64 that was read. *)
Definition Varuint32 : ty :=
  TCodec (simple_codec (with_num write_uvarint)
            (fmap (fun n => VNum (uwrap 32 n)) (emsg read_uvarint64)))
    (TUint UPlain W32).
Definition Varint32 : ty :=
  TCodec (simple_codec (with_num write_varint) (fmap VNum read_varint32))
    (TInt false W32).

(** JSONFloat64, /repo/types.go:176, 209-221. *)
Definition JSONFloat64 : ty :=
  TCodec (simple_codec
            (fun v => match v with
                      | VFloat b => o <- e_cur_order ;; write_float F64 b o
                      | _ => stuck
                      end)
            (o <- d_cur_order ;; fmap VFloat (read_float F64 o)))
    (TFloat F64).

(** Int64, Uint64, /repo/types.go:223, 269-281, 283, 329-341. *)
Definition Int64 : ty :=
  TCodec (simple_codec
            (with_num (fun z => o <- e_cur_order ;; write_uint 8 z o))
            (o <- d_cur_order ;; fmap VNum (read_intw W64 o)))
    (TInt false W64).
Definition Uint64 : ty :=
  TCodec (simple_codec
            (with_num (fun z => o <- e_cur_order ;; write_uint 8 z o))
            (o <- d_cur_order ;; fmap VNum (read_uintw W64 o)))
    (TUint UPlain W64).

(** Uint128 / Int128 / Float128, /repo/u128.go:30-34, 193, 260.  The
    Endianness interface holds nothing (nil), number 0 (binary.LittleEndian)
    or number 1 (binary.BigEndian); other implementations of ByteOrder are not
    modelled. *)
Definition iface_order (d : option Z) : option order :=
  match d with
  | None => Some LE                    (* getByteOrder, /repo/u128.go:48-53 *)
  | Some 0 => Some LE
  | Some 1 => Some BE
  | Some _ => None
  end.

Definition notag : rawtag := mkTag "" "" "".
Definition u128_fields : list (fhdr * ty) :=
  [ (mkF "Lo" true notag, TUint UPlain W64);
    (mkF "Hi" true notag, TUint UPlain W64);
    (mkF "Endianness" true notag, TIface) ].

Definition u128_val (lo hi : Z) (e : option Z) : val :=
  VStruct [VNum lo; VNum hi; VIface e].

(** MarshalWithEncoder, /repo/u128.go:182-190, 250-258, 294-302: the order of
    currentFieldOpt if there is one, otherwise the value's. *)
Definition u128_marshal (v : val) : EM unit :=
  match v with
  | VStruct [VNum lo; VNum hi; VIface e] =>
      c <- e_get_cur ;;
      match c with
      | Some o => write_uint128 lo hi o
      | None => match iface_order e with
                | Some o => write_uint128 lo hi o
                | None => stuck
                end
      end
  | _ => stuck
  end.

(** UnmarshalWithDecoder, /repo/u128.go:166-180, 234-248, 278-292. *)
Definition u128_unmarshal (float : bool) (v : val) : DM val :=
  match v with
  | VStruct [_; _; VIface e] =>
      c <- d_get_cur ;;
      match match c with Some o => Some o | None => iface_order e end with
      | None => stuck
      | Some o =>
          p <- (if float then emsg (read_uint128 o) else read_uint128 o) ;;
          ret (u128_val (fst p) (snd p) None)
      end
  | _ => stuck
  end.

Definition u128_codec (float : bool) : codec :=
  mkCodec (Some u128_marshal) true panic (Some (u128_unmarshal float)).
Definition Uint128 : ty := TCodec (u128_codec false) (TStruct u128_fields).
Definition Int128 : ty := TCodec (u128_codec false) (TStruct u128_fields).
Definition Float128 : ty := TCodec (u128_codec true) (TStruct u128_fields).

(** EmptyVariant, /repo/encoder_borsh.go:279-287: pointer receivers. *)
Definition EmptyVariant : ty :=
  TCodec (mkCodec (Some (fun _ => ret tt)) false (ret tt) (Some (fun v => ret v)))
    (TStruct []).

(** BorshEnum, /repo/encoder_borsh.go:276. *)
Definition BorshEnum : ty := TUint UBorshEnum W8.

(** NewEncoderWithEncoding, /repo/encoder.go:52-61. *)
Definition new_encoder (E : encoding) (w : writer) : est := mkE E w None 0 [] [].

(** bytes.Buffer: accepts everything. *)
Definition buffer : writer := fun _ => None.

(** MarshalBin / MarshalBorsh / MarshalCompactU16, /repo/interface.go:38-57:
    contents of the buffer, and the outcome (the Go functions return the
    buffer also if there is an error). *)
Definition marshal (E : encoding) (t : ty) (v : val) : outcome unit * list Z :=
  let '(r, s) := encode t v (new_encoder E buffer) in (r, e_acc s).

(** UnmarshalBin / UnmarshalBorsh / UnmarshalCompactU16,
    /repo/interface.go:59-72, into a variable holding [v]. *)
Definition unmarshal (E : encoding) (t : ty) (v : val) (data : list Z) : outcome val :=
  fst (decode t v (new_decoder E data)).

(** BinByteCount / BorshByteCount / CompactU16ByteCount,
    /repo/interface.go:74-117.  [byteCounter] accepts every write and adds up
    the lengths: its count after the call is the sum over the chunks it was
    given (mod 2^64). *)
Definition byte_count (E : encoding) (t : ty) (v : val) : outcome Z :=
  let '(r, s) := encode t v (new_encoder E buffer) in
  match r with
  | Ok _ => Ok (uwrap 64 (fold_left (fun c b => c + zlen b) (e_hist s) 0))
  | Err e => Err (EWrap e)
  | Panic => Panic
  | Deep => Deep
  | Stuck => Stuck
  end.

(** MustBinByteCount etc., /repo/interface.go:119-144. *)
Definition must_byte_count (E : encoding) (t : ty) (v : val) : outcome Z :=
  match byte_count E t v with Err _ => Panic | r => r end.
