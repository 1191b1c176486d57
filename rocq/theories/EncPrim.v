(** The primitive methods of Encoder, /repo/encoder.go. *)
From Verif Require Import Types.

(** toWriter, /repo/encoder.go:88-95.  [count] grows by the full length even
    if the writer fails. *)
Definition to_writer (bs : list Z) : EM unit :=
  fun s =>
    let hist := e_hist s ++ [bs] in
    let cnt := e_count s + zlen bs in
    match e_w s hist with
    | None =>
        (Ok tt, mkE (e_enc s) (e_w s) (e_cur s) cnt hist (e_acc s ++ bs))
    | Some (k, n) =>
        (Err (EWriter n),
         mkE (e_enc s) (e_w s) (e_cur s) cnt hist (e_acc s ++ firstn k bs))
    end.

(** e.currentFieldOpt = opt, e.g. /repo/encoder_bin.go:32. *)
Definition e_set_cur (o : order) : EM unit :=
  fun s => (Ok tt, mkE (e_enc s) (e_w s) (Some o) (e_count s) (e_hist s) (e_acc s)).

Definition e_get_enc : EM encoding := fun s => (Ok (e_enc s), s).
Definition e_get_cur : EM (option order) := fun s => (Ok (e_cur s), s).

(** enc.currentFieldOpt.Order; nil dereference panics. *)
Definition e_cur_order : EM order :=
  c <- e_get_cur ;; match c with Some o => ret o | None => panic end.

(** Encoder.Write, /repo/encoder.go:117-123. *)
Definition write_raw (bs : list Z) : EM unit := to_writer bs.

(** WriteUint16/32/64, /repo/encoder.go:214-260 (WriteIntN converts to uintN
    first): [n] bytes of [z] in order [o]. *)
Definition write_uint (n : nat) (z : Z) (o : order) : EM unit :=
  to_writer (put_uint o n z).

(** WriteByte / WriteUint8 / WriteInt8, /repo/encoder.go:170-175, 206-212. *)
Definition write_byte (z : Z) : EM unit := to_writer [z mod 256].

(** WriteUVarInt, /repo/encoder.go:150-158: 8-byte buffer, so PutUvarint
    panics from 2^56 on; a negative int is converted to uint64. *)
Definition write_uvarint (v : Z) : EM unit :=
  match put_uvarint 8 (uwrap 64 v) with
  | Some bs => to_writer bs
  | None => panic
  end.

(** WriteVarInt, /repo/encoder.go:160-168. *)
Definition write_varint (v : Z) : EM unit :=
  match put_varint 8 v with
  | Some bs => to_writer bs
  | None => panic
  end.

(** WriteCompactU16 / WriteCompactU16Length, /repo/encoder.go:351-362: the
    range error of EncodeCompactU16Length is dropped, then nothing is in the
    buffer and an empty slice is written. *)
Definition write_compact_u16 (ln : Z) : EM unit :=
  to_writer (fst (encode_compact_u16 [] ln)).

(** WriteBytes(b, false), /repo/encoder.go:111-114. *)
Definition write_bytes_nolen (b : list Z) : EM unit :=
  match b with [] => ret tt | _ => to_writer b end.

(** WriteLength, /repo/encoder.go:125-148. *)
Definition write_length (ln : Z) : EM unit :=
  e <- e_get_enc ;;
  match e with
  | Bin => write_uvarint ln
  | Borsh => write_uint 4 ln LE
  | CompactU16 => write_bytes_nolen (fst (encode_compact_u16 [] ln))
  end.

(** WriteBytes(b, true), /repo/encoder.go:102-115. *)
Definition write_bytes (b : list Z) : EM unit :=
  write_length (zlen b) ;;; write_bytes_nolen b.

(** WriteBool / WriteOption, /repo/encoder.go:177-204. *)
Definition write_bool (b : bool) : EM unit := write_byte (if b then 1 else 0).

(** WriteCOption, /repo/encoder.go:184-193. *)
Definition write_coption (b : bool) : EM unit :=
  write_uint 4 (if b then 1 else 0) LE.

(** WriteFloat32 / WriteFloat64, /repo/encoder.go:298-331. *)
Definition write_float (f : fwidth) (bits : Z) (o : order) : EM unit :=
  e <- e_get_enc ;;
  if is_borsh e && f_isnan f bits then fail EMsg
  else to_writer (put_uint o (fbytes f) bits).

(** WriteString, /repo/encoder.go:333-338. *)
Definition write_string (s : list Z) : EM unit := write_bytes s.

(** WriteRustString, /repo/encoder.go:340-349. *)
Definition write_rust_string (s : list Z) : EM unit :=
  write_uint 8 (zlen s) LE ;;; write_bytes_nolen s.

(** WriteUint128 / WriteInt128, /repo/encoder.go:262-296, for the two orders
    of encoding/binary. *)
Definition write_uint128 (lo hi : Z) (o : order) : EM unit :=
  match o with
  | LE => to_writer (put_uint LE 8 lo ++ put_uint LE 8 hi)
  | BE => to_writer (put_uint BE 8 hi ++ put_uint BE 8 lo)
  end.

(** The numbers in a list of integer values, [None] if some element is not an
    integer. *)
Fixpoint nums (vs : list val) : option (list Z) :=
  match vs with
  | [] => Some []
  | VNum z :: r => match nums r with Some l => Some (z :: l) | None => None end
  | _ => None
  end.

(** reflect_writeArrayOfUint_ with order LE, /repo/encoder.go:364-416: the
    first [l] elements in one write.  [make] panics for l < 0 and rv.Index
    for l > len.  (Simplification: l * width overflow for l >= 2^60 ignored;
    no such slice exists.) *)
Definition write_uints (w : width) (l : Z) (vs : list val) : EM unit :=
  if (l <? 0) || (zlen vs <? l) then panic
  else match nums vs with
       | None => stuck
       | Some zs =>
           write_bytes_nolen
             (flat_map (fun z => put_uint LE (wbytes w) z)
                (firstn (Z.to_nat l) zs))
       end.
