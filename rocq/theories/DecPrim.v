(** The primitive methods of Decoder, /repo/decoder.go. *)
From Verif Require Import Types.

Definition d_set_cur (o : order) : DM unit :=
  fun s => (Ok tt, mkD (d_data s) (d_pos s) (Some o) (d_enc s)).
Definition d_get_enc : DM encoding := fun s => (Ok (d_enc s), s).
Definition d_get_cur : DM (option order) := fun s => (Ok (d_cur s), s).
(** dec.currentFieldOpt.Order; nil dereference panics. *)
Definition d_cur_order : DM order :=
  c <- d_get_cur ;; match c with Some o => ret o | None => panic end.
Definition d_set_pos (p : Z) : DM unit :=
  fun s => (Ok tt, mkD (d_data s) p (d_cur s) (d_enc s)).
Definition d_get : DM dst := fun s => (Ok s, s).

(** Remaining, Len, Position, HasRemaining, /repo/decoder.go:670-684.  The
    position is an int; it is kept in the range of int by [swrap] in
    SkipBytes and SetPosition and bounded by len(data) elsewhere.  The difference
    wraps around if the position is below len(data) - 2^63; it does not if the
    position is not negative, as len(data) is an int. *)
Definition remaining_of (s : dst) : Z :=
  if d_pos s <? 0 then swrap 64 (zlen (d_data s) - d_pos s) else zlen (d_data s) - d_pos s.
Lemma remaining_pos s : 0 <= d_pos s -> remaining_of s = zlen (d_data s) - d_pos s.
Proof. intro H. unfold remaining_of. destruct (Z.ltb_spec (d_pos s) 0); [lia|reflexivity]. Qed.
Definition d_remaining : DM Z := fun s => (Ok (remaining_of s), s).
Definition position_of (s : dst) : Z := uwrap 64 (d_pos s).

(** dec.data[dec.pos:]; panics if out of range. *)
Definition d_rest : DM (list Z) :=
  s <- d_get ;;
  match slice_from (d_data s) (d_pos s) with Some r => ret r | None => panic end.

(** dec.data[dec.pos : dec.pos+n] (after the bounds check of the caller)
    followed by dec.pos += n. *)
Definition d_take (n : Z) : DM (list Z) :=
  s <- d_get ;;
  match slice_n (d_data s) (d_pos s) n with
  | Some r => d_set_pos (d_pos s + n) ;;; ret r
  | None => panic
  end.

(** Reset, /repo/decoder.go:82-86. *)
Definition d_reset (data : list Z) : DM unit :=
  fun s => (Ok tt, mkD data 0 None (d_enc s)).

(** NewDecoderWithEncoding, /repo/decoder.go:100-108. *)
Definition new_decoder (e : encoding) (data : list Z) : dst := mkD data 0 None e.

(** ReadByte / ReadUint8, /repo/decoder.go:408-420, 439-442. *)
Definition read_byte : DM Z :=
  r <- d_remaining ;;
  if r <? 1 then fail EMsg
  else bs <- d_take 1 ;;
       match bs with [b] => ret b | _ => stuck end.

(** ReadUint16 / ReadUint32, /repo/decoder.go:453-488: [n] bytes. *)
Definition read_uint (n : nat) (o : order) : DM Z :=
  r <- d_remaining ;;
  if r <? Z.of_nat n then fail EMsg
  else bs <- d_take (Z.of_nat n) ;; ret (get_uint o bs).

(** readNBytes, /repo/decoder.go:281-294. *)
Definition read_n_bytes (n : Z) : DM (list Z) :=
  if n =? 0 then ret []
  else if (n <? 0) || (0x7FFFFFFF <? n) then fail EMsg
  else s <- d_get ;;
       if zlen (d_data s) <? d_pos s + n then fail EMsg
       else d_take n.

(** ReadUint64, /repo/decoder.go:499-514. *)
Definition read_uint64 (o : order) : DM Z :=
  r <- d_remaining ;;
  if r <? 8 then fail EMsg
  else bs <- read_n_bytes 8 ;; ret (get_uint o bs).

(** ReadUintN for a width (ReadUint8 .. ReadUint64). *)
Definition read_uintw (w : width) (o : order) : DM Z :=
  match w with
  | W8 => read_byte
  | W16 => read_uint 2 o
  | W32 => read_uint 4 o
  | W64 => read_uint64 o
  end.

(** ReadInt8 .. ReadInt64, /repo/decoder.go:444-451, 467-474, 490-497,
    516-523. *)
Definition read_intw (w : width) (o : order) : DM Z :=
  fmap (swrap (wbits w)) (read_uintw w o).

(** ReadUvarint64, /repo/decoder.go:159-169. *)
Definition read_uvarint64 : DM Z :=
  buf <- d_rest ;;
  let '(v, n) := uvarint buf in
  if n <=? 0 then fail EVarint
  else s <- d_get ;; d_set_pos (d_pos s + n) ;;; ret v.

(** ReadVarint64, /repo/decoder.go:171-181. *)
Definition read_varint64 : DM Z :=
  buf <- d_rest ;;
  let '(v, n) := varint buf in
  if n <=? 0 then fail EVarint
  else s <- d_get ;; d_set_pos (d_pos s + n) ;;; ret v.

(** ReadVarint32, ReadUvarint32, ReadVarint16, ReadUvarint16,
    /repo/decoder.go:183-229: the conversion truncates silently. *)
Definition read_varint32 : DM Z := fmap (swrap 32) read_varint64.
Definition read_uvarint32 : DM Z := fmap (uwrap 32) read_uvarint64.
Definition read_varint16 : DM Z := fmap (swrap 16) read_varint64.
Definition read_uvarint16 : DM Z := fmap (uwrap 16) read_uvarint64.

(** ReadCompactU16 / ReadCompactU16Length, /repo/decoder.go:372-379, 650-652
    (size is 0 on error). *)
Definition read_compact_u16 : DM Z :=
  buf <- d_rest ;;
  match decode_compact_u16 buf with
  | inl e => fail e
  | inr (ln, size) =>
      s <- d_get ;; d_set_pos (d_pos s + size) ;;; ret ln
  end.

(** ReadLength, /repo/decoder.go:249-279. *)
Definition read_length : DM Z :=
  e <- d_get_enc ;;
  match e with
  | Bin => v <- read_uvarint64 ;;
           if 0x7FFFFFFF <? v then fail EUnexpectedEOF else ret v
  | Borsh => v <- read_uint 4 LE ;;
             if 0x7FFFFFFF <? v then fail EUnexpectedEOF else ret v
  | CompactU16 => read_compact_u16
  end.

(** ReadByteSlice, /repo/decoder.go:231-247. *)
Definition read_byte_slice : DM (list Z) :=
  ln <- read_length ;;
  s <- d_get ;;
  if zlen (d_data s) <? d_pos s + ln then fail EMsg
  else d_take ln.

(** ReadString, /repo/decoder.go:622-629. *)
Definition read_string : DM (list Z) := read_byte_slice.

(** ReadRustString, /repo/decoder.go:631-648. *)
Definition read_rust_string : DM (list Z) :=
  ln <- read_uint64 LE ;;
  if 0x7FFFFFFF <? ln then fail EUnexpectedEOF
  else read_n_bytes ln.

(** ReadBool, /repo/decoder.go:422-437 (anything but 0 is true). *)
Definition read_bool : DM bool :=
  r <- d_remaining ;;
  if r <? 1 then fail EMsg
  else b <- map_err (fun _ => EMsg) read_byte ;; ret (negb (b =? 0)).

(** ReadOption, /repo/decoder.go:381-391 (anything but 0 is "present"). *)
Definition read_option : DM bool :=
  b <- map_err EWrap read_byte ;; ret (negb (b =? 0)).

(** ReadCOption, /repo/decoder.go:393-406. *)
Definition read_coption : DM bool :=
  b <- map_err EWrap (read_uint 4 LE) ;;
  if 1 <? b then fail EMsg else ret (negb (b =? 0)).

(** ReadFloat32 / ReadFloat64, /repo/decoder.go:557-596: the position has
    moved when a NaN is refused. *)
Definition read_float (f : fwidth) (o : order) : DM Z :=
  r <- d_remaining ;;
  if r <? Z.of_nat (fbytes f) then fail EMsg
  else bs <- d_take (Z.of_nat (fbytes f)) ;;
       let bits := get_uint o bs in
       e <- d_get_enc ;;
       if is_borsh e && f_isnan f bits then fail EMsg else ret bits.

(** ReadUint128 / ReadInt128 (/ ReadFloat128), /repo/decoder.go:525-555,
    598-604: (Lo, Hi); Endianness of the result is nil. *)
Definition read_uint128 (o : order) : DM (Z * Z) :=
  r <- d_remaining ;;
  if r <? 16 then fail EMsg
  else bs <- d_take 16 ;;
       match o with
       | LE => ret (get_uint LE (firstn 8 bs), get_uint LE (skipn 8 bs))
       | BE => ret (get_uint BE (skipn 8 bs), get_uint BE (firstn 8 bs))
       end.

(** Peek, /repo/decoder.go:352-369. *)
Definition d_peek (n : Z) : DM (list Z) :=
  if n <? 0 then fail EMsg
  else s <- d_get ;;
       if remaining_of s <? n then fail EMsg
       else match slice_n (d_data s) (d_pos s) n with
            | Some r => ret r
            | None => panic
            end.

(** SkipBytes, /repo/decoder.go:654-660; [count] is a uint. *)
Definition d_skip (count : Z) : DM unit :=
  s <- d_get ;;
  if uwrap 64 (remaining_of s) <? count then fail EMsg
  else d_set_pos (swrap 64 (d_pos s + swrap 64 count)).

(** discardNBytes / Discard, /repo/decoder.go:296-304, 328-330. *)
Definition d_discard (n : Z) : DM unit :=
  if n =? 0 then ret tt
  else if (n <? 0) || (0x7FFFFFFF <? n) then fail EMsg
  else d_skip n.

(** SetPosition, /repo/decoder.go:662-668; [idx] is a uint, so a huge value
    becomes a negative position. *)
Definition d_setposition (idx : Z) : DM unit :=
  s <- d_get ;;
  if swrap 64 idx <? zlen (d_data s) then d_set_pos (swrap 64 idx)
  else fail EMsg.

(** Read, /repo/decoder.go:306-317: fills a buffer of [n] bytes; result is
    the buffer's new contents (the int result is [n]). *)
Definition d_read (n : Z) : DM (list Z) :=
  s <- d_get ;;
  if zlen (d_data s) <? d_pos s + n then fail EShortBuffer
  else rest <- d_rest ;;
       let got := firstn (Z.to_nat n) rest in
       d_set_pos (d_pos s + zlen got) ;;;
       if zlen got =? n then ret got else fail EUnexpectedEOF.

(** TypeIDFromBytes, /repo/variant.go:81-85: copy into an [8]byte. *)
Definition type_id_from_bytes (bs : list Z) : list Z :=
  firstn 8 (bs ++ repeat 0 8).

(** ReadTypeID / ReadDiscriminator, /repo/decoder.go:332-342. *)
Definition read_type_id : DM (list Z) :=
  bs <- read_n_bytes 8 ;; ret (type_id_from_bytes bs).

(** PeekDiscriminator, /repo/decoder.go:344-350. *)
Definition peek_discriminator : DM (list Z) :=
  bs <- d_peek 8 ;; ret (type_id_from_bytes bs).

(** Repeat a read. *)
Fixpoint read_rep {A} (n : nat) (m : DM A) : DM (list A) :=
  match n with
  | O => ret []
  | S n' => a <- m ;; r <- read_rep n' m ;; ret (a :: r)
  end.

(** reflect_readArrayOfUint_ with order LE, /repo/decoder.go:762-960: the
    numbers read.  For a signed sizeof the length may be negative: uint8 goes
    through readNBytes (error), the others through make (panic).
    The product l*2, l*4, l*8 is an int and wraps around for very negative
    [l] (for [l >= 0] it cannot: every caller has checked l <= Remaining, or
    [l] is the length of an array type). *)
Definition read_uints (w : width) (l : Z) : DM (list Z) :=
  r <- d_remaining ;;
  let need := l * Z.of_nat (wbytes w) in
  if r <? (if l <? 0 then swrap 64 need else need) then fail EUnexpectedEOF
  else match w with
       | W8 => read_n_bytes l
       | _ => if l <? 0 then panic
              else read_rep (Z.to_nat l) (read_uintw w LE)
       end.
