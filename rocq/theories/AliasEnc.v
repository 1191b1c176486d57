(** The methods of Encoder, /repo/encoder.go, with byte slices that share memory
    (Alias.v), on a writer that keeps the slices it is given: the WriteByWrite of
    /repo/tools.go:41-63. *)
From Verif Require Import Types Num EncPrim Compact Enc Ops Builtin Alias.
Notation length := Datatypes.length.

(** An Encoder (/repo/encoder.go:31-38) and its WriteByWrite: the heap, the
    encoding, count, and the slices given to Write.  (currentFieldOpt is left
    out: none of these methods reads it.) *)
Record hest : Type := mkHE { he_heap : heap; he_enc : encoding; he_count : Z; he_rec : list gslice }.
Definition HEM (A : Type) : Type := SM hest A.
Definition he_get_enc : HEM encoding := fun s => (Ok (he_enc s), s).
Definition he_set_heap (h : heap) : HEM unit := fun s => (Ok tt, mkHE h (he_enc s) (he_count s) (he_rec s)).
Definition he_get_heap : HEM heap := fun s => (Ok (he_heap s), s).

(** toWriter, /repo/encoder.go:88-95, and Write, 117-123. *)
Definition h_to_writer (b : gslice) : HEM unit :=
  fun s => (Ok tt, mkHE (he_heap s) (he_enc s) (he_count s + s_len b) (h_wbw_write (he_rec s) b)).
(** A new array; a new array that is filled completely and handed over. *)
Definition he_make (bs : list Z) : HEM gslice :=
  h <- he_get_heap ;; let '(h', b) := make_slice h bs in he_set_heap h' ;;; ret b.
Definition h_fresh (bs : list Z) : HEM unit := b <- he_make bs ;; h_to_writer b.

(** WriteByte, 170-175, 206-212; WriteUint16..64, 214-260; WriteBool, WriteOption
    and WriteCOption, 177-204; WriteUint128, 262-296; WriteFloat32/64, 298-331. *)
Definition h_write_byte (z : Z) : HEM unit := h_fresh [z mod 256].
Definition h_write_uint (n : nat) (z : Z) (o : order) : HEM unit := h_fresh (put_uint o n z).
Definition h_write_bool (b : bool) : HEM unit := h_write_byte (if b then 1 else 0).
Definition h_write_coption (b : bool) : HEM unit := h_write_uint 4 (if b then 1 else 0) LE.
Definition h_write_uint128 (lo hi : Z) (o : order) : HEM unit :=
  match o with
  | LE => h_fresh (put_uint LE 8 lo ++ put_uint LE 8 hi)
  | BE => h_fresh (put_uint BE 8 hi ++ put_uint BE 8 lo)
  end.
Definition h_write_float (f : fwidth) (bits : Z) (o : order) : HEM unit :=
  e <- he_get_enc ;;
  if is_borsh e && f_isnan f bits then fail EMsg else h_fresh (put_uint o (fbytes f) bits).

(** WriteUVarInt and WriteVarInt, 150-168: eight zeros, the bytes are put at the
    front, the front is handed over. *)
Definition h_put (ob : option (list Z)) : HEM unit :=
  buf <- he_make (repeat 0 8) ;;
  match ob with
  | Some bs =>
      h <- he_get_heap ;; he_set_heap (write_array h (s_arr buf) (s_off buf) bs) ;;;
      b <- (fun s => (reslice buf 0 (zlen bs), s)) ;; h_to_writer b
  | None => panic
  end.
Definition h_write_uvarint (v : Z) : HEM unit := h_put (put_uvarint 8 (uwrap 64 v)).
Definition h_write_varint (v : Z) : HEM unit := h_put (put_varint 8 v).

(** WriteBytes(b, false), 111-114. *)
Definition h_write_bytes_nolen (b : gslice) : HEM unit := if s_len b =? 0 then ret tt else h_to_writer b.

Section Grow.
  Variable grow : Z -> Z -> nat.
  (** An empty slice and EncodeCompactU16Length (its error is dropped). *)
  Definition he_compact (ln : Z) : HEM gslice :=
    buf <- he_make [] ;; h <- he_get_heap ;;
    let '(h', b, _) := h_encode_compact_u16 grow h buf ln in he_set_heap h' ;;; ret b.
  (** WriteCompactU16 and WriteCompactU16Length, 351-362. *)
  Definition h_write_compact_u16 (ln : Z) : HEM unit := b <- he_compact ln ;; h_to_writer b.
  (** WriteLength, 125-148. *)
  Definition h_write_length (ln : Z) : HEM unit :=
    e <- he_get_enc ;;
    match e with
    | Bin => h_write_uvarint ln
    | Borsh => h_write_uint 4 ln LE
    | CompactU16 => b <- he_compact ln ;; h_write_bytes_nolen b
    end.
  (** WriteBytes(b, true), 102-115. *)
  Definition h_write_bytes (b : gslice) : HEM unit := h_write_length (s_len b) ;;; h_write_bytes_nolen b.
  (** WriteString, 333-338, and WriteRustString, 340-349: []byte(s) is a copy. *)
  Definition h_write_string (s : list Z) : HEM unit := b <- he_make s ;; h_write_bytes b.
  Definition h_write_rust_string (s : list Z) : HEM unit :=
    h_write_uint 8 (zlen s) LE ;;; b <- he_make s ;; h_write_bytes_nolen b.
  (** Encode of a []byte: /repo/encoder_bin.go:132-150, encoder_compact-u16.go:130-148,
      encoder_borsh.go:177-195 (no sizeof), and reflect_writeArrayOfBytes,
      /repo/encoder.go:364-370, which copies the bytes into a new array. *)
  Definition h_write_count (l : Z) : HEM unit :=
    e <- he_get_enc ;;
    match e with
    | Bin => h_write_uvarint l
    | CompactU16 => h_write_compact_u16 l
    | Borsh => h_write_uint 4 l LE
    end.
  Definition h_encode_bytes (b : gslice) : HEM unit :=
    h_write_count (s_len b) ;;;
    h <- he_get_heap ;; arr <- he_make (map (fun z => z mod 256) (view h b)) ;; h_write_bytes_nolen arr.
  (** Encode of a HexBytes, /repo/types.go:108-110: the slice itself. *)
  Definition h_encode_hex (b : gslice) : HEM unit := h_write_bytes b.

  (** Client programs: calls of these methods, and assignments s[i] = b to the
      slices of the program. *)
  Inductive hop : Type :=
  | HWrite (b : gslice)
  | HWriteBytes (b : gslice) (length : bool)
  | HWriteLength (n : Z)
  | HWriteUVarInt (z : Z)
  | HWriteVarInt (z : Z)
  | HWriteByte (z : Z)
  | HWriteBool (b : bool)
  | HWriteCOption (b : bool)
  | HWriteUint (n : nat) (z : Z) (o : order)
  | HWriteFloat (f : fwidth) (bits : Z) (o : order)
  | HWriteUint128 (lo hi : Z) (o : order)
  | HWriteString (s : list Z)
  | HWriteRustString (s : list Z)
  | HWriteCompactU16 (n : Z)
  | HEncodeBytes (b : gslice)
  | HEncodeHex (b : gslice)
  | HStore (s : gslice) (i b : Z).

  Definition hop_run (op : hop) : HEM unit :=
    match op with
    | HWrite b => h_to_writer b
    | HWriteBytes b l => if l then h_write_bytes b else h_write_bytes_nolen b
    | HWriteLength n => h_write_length n
    | HWriteUVarInt z => h_write_uvarint z
    | HWriteVarInt z => h_write_varint z
    | HWriteByte z => h_write_byte z
    | HWriteBool b => h_write_bool b
    | HWriteCOption b => h_write_coption b
    | HWriteUint n z o => h_write_uint n z o
    | HWriteFloat f b o => h_write_float f b o
    | HWriteUint128 lo hi o => h_write_uint128 lo hi o
    | HWriteString s => h_write_string s
    | HWriteRustString s => h_write_rust_string s
    | HWriteCompactU16 n => h_write_compact_u16 n
    | HEncodeBytes b => h_encode_bytes b
    | HEncodeHex b => h_encode_hex b
    | HStore s i b => fun st =>
        match store (he_heap st) s i b with
        | Ok h' => (Ok tt, mkHE h' (he_enc st) (he_count st) (he_rec st))
        | _ => (Panic, st)
        end
    end.
  Fixpoint hops_run (ops : list hop) (s : hest) : list (outcome unit) * hest :=
    match ops with
    | [] => ([], s)
    | op :: ops' => let '(r, s1) := hop_run op s in let '(rs, s2) := hops_run ops' s1 in (r :: rs, s2)
    end.
End Grow.

(** The same call in the model without sharing; [None] for an assignment. *)
Definition plain_op (h : heap) (op : hop) : option eop :=
  match op with
  | HWrite b => Some (OpWrite (view h b))
  | HWriteBytes b l => Some (OpWriteBytes (view h b) l)
  | HWriteLength n => Some (OpWriteLength n)
  | HWriteUVarInt z => Some (OpWriteUVarInt z)
  | HWriteVarInt z => Some (OpWriteVarInt z)
  | HWriteByte z => Some (OpWriteByte z)
  | HWriteBool b => Some (OpWriteBool b)
  | HWriteCOption b => Some (OpWriteCOption b)
  | HWriteUint n z o => Some (OpWriteUint n z o)
  | HWriteFloat f b o => Some (OpWriteFloat f b o)
  | HWriteUint128 lo hi o => Some (OpWriteUint128 lo hi o)
  | HWriteString s => Some (OpWriteString s)
  | HWriteRustString s => Some (OpWriteRustString s)
  | HWriteCompactU16 n => Some (OpWriteCompactU16 n)
  | HEncodeBytes b => Some (OpEncode (TSlice (TUint UPlain W8)) (VSlice (Some (map VNum (view h b)))))
  | HEncodeHex b => Some (OpEncode HexBytes (VSlice (Some (map VNum (view h b)))))
  | HStore _ _ _ => None
  end.

(** * What is expected *)

(** What the writer is given: bytes of the encoder, or a slice of the caller,
    which shows what is in it at the time it is looked at. *)
Inductive piece : Type := Own (bs : list Z) | Theirs (b : gslice).
Definition now (h : heap) (p : piece) : list Z := match p with Own bs => bs | Theirs b => view h b end.

(** The slice of the caller that a call hands over, if any. *)
Definition handed (op : hop) : option gslice :=
  match op with
  | HWrite b => Some b
  | HWriteBytes b _ | HEncodeHex b => if s_len b =? 0 then None else Some b
  | _ => None
  end.
(** The pieces of a call: those of the model without sharing, the last of them
    being the slice of the caller if that is handed over. *)
Definition pieces (E : encoding) (h : heap) (op : hop) (eo : eop) : outcome unit * list piece :=
  let '(r, s) := eop_run eo (mkE E buffer None 0 [] []) in
  (r, match handed op, r with
      | Some b, Ok _ => map Own (removelast (e_hist s)) ++ [Theirs b]
      | _, _ => map Own (e_hist s)
      end).
(** The results and pieces of a program and the memory of the caller, which only
    the assignments change. *)
Fixpoint expected (E : encoding) (ops : list hop) (h : heap) : list (outcome unit) * list piece * heap :=
  match ops with
  | [] => ([], [], h)
  | op :: r =>
      match plain_op h op with
      | Some eo =>
          let '(o, ps) := pieces E h op eo in
          let '(os, qs, h') := expected E r h in (o :: os, ps ++ qs, h')
      | None =>
          let '(o, h1) := match op with
                          | HStore s i b => match store h s i b with Ok h1 => (Ok tt, h1) | _ => (Panic, h) end
                          | _ => (Ok tt, h)
                          end in
          let '(os, qs, h') := expected E r h1 in (o :: os, qs, h')
      end
  end.
(** The slices of the program are slices of its memory. *)
Definition hop_ok (h : heap) (op : hop) : Prop :=
  match op with
  | HWrite b | HWriteBytes b _ | HEncodeBytes b | HEncodeHex b | HStore b _ _ => valid h b
  | _ => True
  end.
