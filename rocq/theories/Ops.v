(** Client programs: sequences of calls of the public methods of Encoder and
    Decoder, going on after errors (and recovered panics). *)
From Verif Require Import Types EncPrim DecPrim Enc Dec Builtin.

(** The public methods of Encoder that write, /repo/encoder.go:65-362. *)
Inductive eop : Type :=
| OpWrite (b : list Z)                          (* Write *)
| OpWriteBytes (b : list Z) (length : bool)     (* WriteBytes *)
| OpWriteLength (n : Z)                         (* WriteLength *)
| OpWriteUVarInt (z : Z)
| OpWriteVarInt (z : Z)
| OpWriteByte (z : Z)                           (* WriteByte, WriteUint8, WriteInt8 *)
| OpWriteBool (b : bool)                        (* WriteBool, WriteOption *)
| OpWriteCOption (b : bool)
| OpWriteUint (n : nat) (z : Z) (o : order)     (* WriteUint16..64, WriteInt16..64 *)
| OpWriteFloat (f : fwidth) (bits : Z) (o : order)
| OpWriteUint128 (lo hi : Z) (o : order)        (* WriteUint128, WriteInt128 *)
| OpWriteString (s : list Z)
| OpWriteRustString (s : list Z)
| OpWriteCompactU16 (n : Z)
| OpEncode (t : ty) (v : val).

Definition eop_run (op : eop) : EM unit :=
  match op with
  | OpWrite b => write_raw b
  | OpWriteBytes b l => if l then write_bytes b else write_bytes_nolen b
  | OpWriteLength n => write_length n
  | OpWriteUVarInt z => write_uvarint z
  | OpWriteVarInt z => write_varint z
  | OpWriteByte z => write_byte z
  | OpWriteBool b => write_bool b
  | OpWriteCOption b => write_coption b
  | OpWriteUint n z o => write_uint n z o
  | OpWriteFloat f b o => write_float f b o
  | OpWriteUint128 lo hi o => write_uint128 lo hi o
  | OpWriteString s => write_string s
  | OpWriteRustString s => write_rust_string s
  | OpWriteCompactU16 n => write_compact_u16 n
  | OpEncode t v => encode t v
  end.

Fixpoint eops_run (ops : list eop) (s : est) : list (outcome unit) * est :=
  match ops with
  | [] => ([], s)
  | op :: ops' =>
      let '(r, s1) := eop_run op s in
      let '(rs, s2) := eops_run ops' s1 in
      (r :: rs, s2)
  end.

(** SetEncoding with a valid encoding, /repo/decoder.go:111-113. *)
Definition d_setencoding (E : encoding) : DM unit :=
  fun s => (Ok tt, mkD (d_data s) (d_pos s) (d_cur s) E).

(** The public methods of Decoder, /repo/decoder.go:82-684. *)
Inductive dop : Type :=
| OpReadByte                                    (* ReadByte, ReadUint8 *)
| OpReadUint (w : width) (o : order)
| OpReadInt (w : width) (o : order)
| OpReadUvarint64 | OpReadVarint64 | OpReadUvarint32 | OpReadVarint32
| OpReadUvarint16 | OpReadVarint16
| OpReadCompactU16
| OpReadLength
| OpReadByteSlice
| OpReadString
| OpReadRustString
| OpSafeReadUTF8String
| OpReadBool | OpReadOption | OpReadCOption
| OpReadFloat (f : fwidth) (o : order)
| OpReadUint128 (o : order)
| OpReadNBytes (n : Z)
| OpRead (n : Z)                                (* Read into n bytes *)
| OpPeek (n : Z)
| OpReadTypeID                                  (* ReadDiscriminator *)
| OpPeekDiscriminator
| OpSkipBytes (n : Z)
| OpDiscard (n : Z)
| OpSetPosition (n : Z)
| OpDecode (t : ty) (v : val)
| OpReset (data : list Z)
| OpSetEncoding (E : encoding)
| OpPosition | OpLen | OpRemaining | OpHasRemaining.

(** Results of the methods. *)
Inductive dres : Type :=
| RNum (z : Z) | RBytes (b : list Z) | RBool (b : bool)
| RPair (lo hi : Z) | RVal (v : val) | RUnit.

Definition dop_run (op : dop) : DM dres :=
  match op with
  | OpReadByte => fmap RNum read_byte
  | OpReadUint w o => fmap RNum (read_uintw w o)
  | OpReadInt w o => fmap RNum (read_intw w o)
  | OpReadUvarint64 => fmap RNum read_uvarint64
  | OpReadVarint64 => fmap RNum read_varint64
  | OpReadUvarint32 => fmap RNum read_uvarint32
  | OpReadVarint32 => fmap RNum read_varint32
  | OpReadUvarint16 => fmap RNum read_uvarint16
  | OpReadVarint16 => fmap RNum read_varint16
  | OpReadCompactU16 => fmap RNum read_compact_u16
  | OpReadLength => fmap RNum read_length
  | OpReadByteSlice => fmap RBytes read_byte_slice
  | OpReadString => fmap RBytes read_string
  | OpReadRustString => fmap RBytes read_rust_string
  | OpSafeReadUTF8String => fmap RBytes safe_read_utf8_string
  | OpReadBool => fmap RBool read_bool
  | OpReadOption => fmap RBool read_option
  | OpReadCOption => fmap RBool read_coption
  | OpReadFloat f o => fmap RNum (read_float f o)
  | OpReadUint128 o => fmap (fun p => RPair (fst p) (snd p)) (read_uint128 o)
  | OpReadNBytes n => fmap RBytes (read_n_bytes n)
  | OpRead n => fmap RBytes (d_read n)
  | OpPeek n => fmap RBytes (d_peek n)
  | OpReadTypeID => fmap RBytes read_type_id
  | OpPeekDiscriminator => fmap RBytes peek_discriminator
  | OpSkipBytes n => fmap (fun _ => RUnit) (d_skip n)
  | OpDiscard n => fmap (fun _ => RUnit) (d_discard n)
  | OpSetPosition n => fmap (fun _ => RUnit) (d_setposition n)
  | OpDecode t v => fmap RVal (decode t v)
  | OpReset data => fmap (fun _ => RUnit) (d_reset data)
  | OpSetEncoding E => fmap (fun _ => RUnit) (d_setencoding E)
  | OpPosition => fmap (fun s => RNum (position_of s)) d_get
  | OpLen => fmap (fun s => RNum (zlen (d_data s))) d_get
  | OpRemaining => fmap (fun s => RNum (remaining_of s)) d_get
  | OpHasRemaining => fmap (fun s => RBool (0 <? remaining_of s)) d_get
  end.

Fixpoint dops_run (ops : list dop) (s : dst) : list (outcome dres) * dst :=
  match ops with
  | [] => ([], s)
  | op :: ops' =>
      let '(r, s1) := dop_run op s in
      let '(rs, s2) := dops_run ops' s1 in
      (r :: rs, s2)
  end.
