(** type Encoding with values outside the three constants, /repo/tags-options.go:84-124:
    the constructors refuse them, Decoder.SetEncoding does not. *)
From Coq Require Import String.
From Verif Require Import Base Num Types Text DecPrim Dec Builtin Utf8 Ops.
Notation length := Datatypes.length.

(** EncodingBin, EncodingCompactU16, EncodingBorsh, /repo/tags-options.go:86-90. *)
Definition encoding_bin : Z := 0.
Definition encoding_compact_u16 : Z := 1.
Definition encoding_borsh : Z := 2.
(** Encoding.String, /repo/tags-options.go:92-103. *)
Definition encoding_string (e : Z) : list Z :=
  if e =? encoding_bin then str "Bin"
  else if e =? encoding_compact_u16 then str "CompactU16"
  else if e =? encoding_borsh then str "Borsh"
  else [].
(** IsBorsh, IsBin, IsCompactU16, /repo/tags-options.go:105-115 (and the methods of
    Encoder, /repo/encoder.go:40-50, and Decoder, /repo/decoder.go:88-98). *)
Definition encoding_is_borsh (e : Z) : bool := e =? encoding_borsh.
Definition encoding_is_bin (e : Z) : bool := e =? encoding_bin.
Definition encoding_is_compact_u16 (e : Z) : bool := e =? encoding_compact_u16.
(** isValidEncoding, /repo/tags-options.go:117-124. *)
Definition is_valid_encoding (e : Z) : bool :=
  (e =? encoding_bin) || (e =? encoding_compact_u16) || (e =? encoding_borsh).

(** A Decoder as the struct of /repo/decoder.go:71-78. *)
Record raw : Type := mkRaw { w_data : list Z; w_pos : Z; w_cur : option order; w_enc : Z }.
Definition RM (A : Type) : Type := SM raw A.
(** A part of a method that does not look at the encoding. *)
Definition lift {A} (m : DM A) : RM A := fun r =>
  let '(o, s) := m (mkD (w_data r) (w_pos r) (w_cur r) Bin) in
  (o, mkRaw (d_data s) (d_pos s) (d_cur s) (w_enc r)).
Definition w_get_enc : RM Z := fun r => (Ok (w_enc r), r).

(** ReadLength, /repo/decoder.go:249-279. *)
Definition raw_read_length : RM Z :=
  e <- w_get_enc ;;
  if e =? encoding_bin then
    v <- lift read_uvarint64 ;;
    if 0x7FFFFFFF <? v then fail EUnexpectedEOF else ret v
  else if e =? encoding_borsh then
    v <- lift (read_uint 4 LE) ;;
    if 0x7FFFFFFF <? v then fail EUnexpectedEOF else ret v
  else if e =? encoding_compact_u16 then lift read_compact_u16
  else panic.
(** ReadByteSlice, /repo/decoder.go:231-247; ReadString, 622-629;
    SafeReadUTF8String, 606-613. *)
Definition raw_read_byte_slice : RM (list Z) :=
  ln <- raw_read_length ;;
  lift (s <- d_get ;; if zlen (d_data s) <? d_pos s + ln then fail EMsg else d_take ln).
Definition raw_read_string : RM (list Z) := raw_read_byte_slice.
Definition raw_safe_read_utf8_string : RM (list Z) := fmap safe_utf8 raw_read_byte_slice.
(** ReadFloat32, ReadFloat64, /repo/decoder.go:557-596. *)
Definition raw_read_float (f : fwidth) (o : order) : RM Z :=
  bits <- lift (r <- d_remaining ;;
                if r <? Z.of_nat (fbytes f) then fail EMsg
                else bs <- d_take (Z.of_nat (fbytes f)) ;; ret (get_uint o bs)) ;;
  e <- w_get_enc ;;
  if encoding_is_borsh e && f_isnan f bits then fail EMsg else ret bits.
(** Decode, /repo/decoder.go:127-138.  (The decoders of the three encodings are
    those of Dec.v; the methods of a type may look at the encoding and set one
    of the three, hence the encoding in the state they run on.) *)
Definition number (E : encoding) : Z :=
  match E with Bin => encoding_bin | CompactU16 => encoding_compact_u16 | Borsh => encoding_borsh end.
Definition lift_in {A} (E : encoding) (m : DM A) : RM A := fun r =>
  let '(o, s) := m (mkD (w_data r) (w_pos r) (w_cur r) E) in
  (o, mkRaw (d_data s) (d_pos s) (d_cur s) (number (d_enc s))).
Definition raw_decode (g : target) : RM val :=
  e <- w_get_enc ;;
  if e =? encoding_bin then lift_in Bin (decode_target g)
  else if e =? encoding_borsh then lift_in Borsh (decode_target g)
  else if e =? encoding_compact_u16 then lift_in CompactU16 (decode_target g)
  else panic.
(** SetEncoding, /repo/decoder.go:111-113. *)
Definition raw_set_encoding (e : Z) : RM unit :=
  fun r => (Ok tt, mkRaw (w_data r) (w_pos r) (w_cur r) e).

(** The methods of Decoder (see [dop_run]). *)
Definition raw_run (op : dop) : RM dres :=
  match op with
  | OpReadLength => fmap RNum raw_read_length
  | OpReadByteSlice => fmap RBytes raw_read_byte_slice
  | OpReadString => fmap RBytes raw_read_string
  | OpSafeReadUTF8String => fmap RBytes raw_safe_read_utf8_string
  | OpReadFloat f o => fmap RNum (raw_read_float f o)
  | OpDecode t v => fmap RVal (raw_decode (TgtVar t v))
  | OpSetEncoding E => fmap (fun _ => RUnit) (raw_set_encoding (number E))
  | _ => lift (dop_run op)
  end.
Fixpoint raw_runs (ops : list dop) (r : raw) : list (outcome dres) * raw :=
  match ops with
  | [] => ([], r)
  | op :: ops' =>
      let '(o, r1) := raw_run op r in
      let '(os, r2) := raw_runs ops' r1 in
      (o :: os, r2)
  end.

(** NewDecoderWithEncoding, /repo/decoder.go:100-108; NewBinDecoder,
    NewBorshDecoder, NewCompactU16Decoder, 115-125. *)
Definition new_decoder_with_encoding (data : list Z) (e : Z) : outcome raw :=
  if is_valid_encoding e then Ok (mkRaw data 0 None e) else Panic.
Definition new_bin_decoder (data : list Z) := new_decoder_with_encoding data encoding_bin.
Definition new_borsh_decoder (data : list Z) := new_decoder_with_encoding data encoding_borsh.
Definition new_compact_u16_decoder (data : list Z) := new_decoder_with_encoding data encoding_compact_u16.
(** NewEncoderWithEncoding, /repo/encoder.go:52-61; NewBinEncoder, NewBorshEncoder,
    NewCompactU16Encoder, 63-73.  An Encoder keeps its encoding, so it is one of
    the three. *)
Definition encoding_of (e : Z) : encoding :=
  if e =? encoding_bin then Bin else if e =? encoding_compact_u16 then CompactU16 else Borsh.
Definition new_encoder_with_encoding (w : writer) (e : Z) : outcome est :=
  if is_valid_encoding e then Ok (new_encoder (encoding_of e) w) else Panic.
Definition new_bin_encoder (w : writer) := new_encoder_with_encoding w encoding_bin.
Definition new_borsh_encoder (w : writer) := new_encoder_with_encoding w encoding_borsh.
Definition new_compact_u16_encoder (w : writer) := new_encoder_with_encoding w encoding_compact_u16.
