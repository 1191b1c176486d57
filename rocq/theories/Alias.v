(** Byte slices with sharing: a heap of backing arrays, for the methods of
    /repo/decoder.go that return or fill byte slices, and for WriteByWrite of
    /repo/tools.go.  (In the rest of the model byte slices are values.) *)
From Verif Require Import Types Num DecPrim Builtin.
Notation length := Datatypes.length.

(** The backing arrays, by number; a slice: array, offset, length, capacity. *)
Definition heap : Type := list (list Z).
Record gslice : Type := mkS { s_arr : nat; s_off : Z; s_len : Z; s_cap : Z }.
Definition array_of (h : heap) (s : gslice) : list Z := nth (s_arr s) h [].
Definition valid (h : heap) (s : gslice) : Prop :=
  (s_arr s < length h)%nat /\ 0 <= s_off s /\ 0 <= s_len s <= s_cap s /\
  s_off s + s_cap s <= zlen (array_of h s).
(** The bytes of a slice. *)
Definition view (h : heap) (s : gslice) : list Z :=
  firstn (Z.to_nat (s_len s)) (skipn (Z.to_nat (s_off s)) (array_of h s)).

(** Replace the elements of a list from [i] on. *)
Definition overwrite (l : list Z) (i : Z) (bs : list Z) : list Z :=
  firstn (Z.to_nat i) l ++ bs ++ skipn (Z.to_nat i + length bs) l.
Fixpoint set_nth {A} (l : list A) (n : nat) (x : A) : list A :=
  match l, n with
  | [], _ => []
  | _ :: r, O => x :: r
  | y :: r, S m => y :: set_nth r m x
  end.
Definition write_array (h : heap) (a : nat) (i : Z) (bs : list Z) : heap :=
  set_nth h a (overwrite (nth a h []) i bs).

(** The Go operations: s[i:j] (up to the capacity), s[i] = b, make, copy (the
    number of elements copied and the heap), append.  [grow c n] is the number of
    spare elements of the array that append makes for [n] elements if the
    capacity [c] does not do; the language leaves it open. *)
Definition reslice (s : gslice) (i j : Z) : outcome gslice :=
  if (0 <=? i) && (i <=? j) && (j <=? s_cap s)
  then Ok (mkS (s_arr s) (s_off s + i) (j - i) (s_cap s - i)) else Panic.
Definition store (h : heap) (s : gslice) (i b : Z) : outcome heap :=
  if (0 <=? i) && (i <? s_len s) then Ok (write_array h (s_arr s) (s_off s + i) [b]) else Panic.
Definition make_slice (h : heap) (bs : list Z) : heap * gslice :=
  (h ++ [bs], mkS (length h) 0 (zlen bs) (zlen bs)).
Definition copy (h : heap) (dst src : gslice) : Z * heap :=
  let n := Z.min (s_len dst) (s_len src) in
  (n, write_array h (s_arr dst) (s_off dst) (firstn (Z.to_nat n) (view h src))).
Definition append (grow : Z -> Z -> nat) (h : heap) (s : gslice) (bs : list Z) : heap * gslice :=
  let n := s_len s + zlen bs in
  if n <=? s_cap s
  then (write_array h (s_arr s) (s_off s + s_len s) bs, mkS (s_arr s) (s_off s) n (s_cap s))
  else let k := grow (s_cap s) n in
       (h ++ [view h s ++ bs ++ repeat 0 k], mkS (length h) 0 n (n + Z.of_nat k)).

(** A Decoder (/repo/decoder.go:72-79) with its data in the heap, and the
    decoder of the rest of the model that it stands for. *)
Record hdst : Type := mkHD { hd_data : gslice; hd_pos : Z; hd_cur : option order; hd_enc : encoding }.
Definition plain_dst (h : heap) (d : hdst) : dst := mkD (view h (hd_data d)) (hd_pos d) (hd_cur d) (hd_enc d).
Definition HM (A : Type) : Type := SM (heap * hdst) A.

Definition h_heap : HM heap := fun s => (Ok (fst s), s).
Definition h_dec : HM hdst := fun s => (Ok (snd s), s).
Definition h_set_pos (p : Z) : HM unit :=
  fun '(h, d) => (Ok tt, (h, mkHD (hd_data d) p (hd_cur d) (hd_enc d))).
Definition h_set_heap (h' : heap) : HM unit := fun '(_, d) => (Ok tt, (h', d)).
Definition h_lift {A} (r : outcome A) : HM A := fun s => (r, s).
Definition h_make (bs : list Z) : HM gslice :=
  h <- h_heap ;; let '(h', s) := make_slice h bs in h_set_heap h' ;;; ret s.
(** A method that returns a number: it looks at the data only. *)
Definition h_number {A} (m : DM A) : HM A :=
  fun '(h, d) =>
    let '(r, s) := m (plain_dst h d) in (r, (h, mkHD (hd_data d) (d_pos s) (d_cur s) (d_enc s))).

(** readNBytes, /repo/decoder.go:281-294, and ReadNBytes, ReadBytes, 319-326. *)
Definition h_read_n_bytes (n : Z) : HM gslice :=
  if n =? 0 then h_make []
  else if (n <? 0) || (0x7FFFFFFF <? n) then fail EMsg
  else d <- h_dec ;;
       if s_len (hd_data d) <? hd_pos d + n then fail EMsg
       else out <- h_lift (reslice (hd_data d) (hd_pos d) (hd_pos d + n)) ;;
            h_set_pos (hd_pos d + n) ;;; ret out.
(** Peek, /repo/decoder.go:352-369. *)
Definition h_peek (n : Z) : HM gslice :=
  if n <? 0 then fail EMsg
  else d <- h_dec ;;
       if s_len (hd_data d) - hd_pos d <? n then fail EMsg
       else h_lift (reslice (hd_data d) (hd_pos d) (hd_pos d + n)).
(** ReadByteSlice, /repo/decoder.go:231-247. *)
Definition h_read_byte_slice : HM gslice :=
  ln <- h_number read_length ;;
  d <- h_dec ;;
  if s_len (hd_data d) <? hd_pos d + ln then fail EMsg
  else out <- h_lift (reslice (hd_data d) (hd_pos d) (hd_pos d + ln)) ;;
       h_set_pos (hd_pos d + ln) ;;; ret out.
(** Read, /repo/decoder.go:306-317: fills the slice of the caller. *)
Definition h_read (buf : gslice) : HM Z :=
  h <- h_heap ;; d <- h_dec ;;
  if s_len (hd_data d) <? hd_pos d + s_len buf then fail EShortBuffer
  else src <- h_lift (reslice (hd_data d) (hd_pos d) (s_len (hd_data d))) ;;
       let '(n, h') := copy h buf src in
       h_set_heap h' ;;; h_set_pos (hd_pos d + n) ;;;
       if negb (n =? s_len buf) then fail EUnexpectedEOF else ret (s_len buf).
(** ReadTypeID (332-338) and PeekDiscriminator (344-350): the bytes are copied
    into an array value. *)
Definition h_read_type_id : HM (list Z) :=
  s <- h_read_n_bytes 8 ;; h <- h_heap ;; ret (type_id_from_bytes (view h s)).
(** ReadString, /repo/decoder.go:622-629: string(data) is a copy. *)
Definition h_read_string : HM (list Z) :=
  s <- h_read_byte_slice ;; h <- h_heap ;; ret (view h s).

(** reflect_readArrayOfBytes, /repo/decoder.go:762-795.  The variable: an array
    in memory ([DArray], its element type is uint8 or not: copied either way), a
    variable of type []uint8 ([DBytes]), or of type []T for another uint8 type T
    ([DCustom]).  The result is what the variable refers to afterwards. *)
Inductive bytes_dest : Type := DArray (a : gslice) | DBytes | DCustom.
Definition h_read_array_of_bytes (l : Z) (rv : bytes_dest) : HM gslice :=
  buf <- h_read_n_bytes l ;;
  h <- h_heap ;;
  match rv with
  | DArray a => let '(_, h') := copy h a buf in h_set_heap h' ;;; ret a
  | DBytes => ret buf
  | DCustom => h_make (view h buf)
  end.
(** HexBytes.UnmarshalWithDecoder, /repo/types.go:98-106: what the variable
    refers to afterwards. *)
Definition h_read_hex_bytes : HM gslice := map_err (fun _ => EMsg) h_read_byte_slice.

(** WriteByWrite, /repo/tools.go:41-63: Write keeps the slice; Bytes copies what
    the slices contain when it is called, into an array that grows. *)
Definition h_wbw_write (rec : list gslice) (b : gslice) : list gslice := rec ++ [b].
Definition h_wbw_bytes (grow : Z -> Z -> nat) (h : heap) (rec : list gslice) : heap * gslice :=
  fold_left (fun hs v => append grow (fst hs) (snd hs) (view (fst hs) v)) rec (make_slice h []).

(** EncodeCompactU16Length, /repo/compact-u16.go:26-43, on the slice of the
    caller: what *buf is afterwards, and the error.  [fuel] as in Compact.v. *)
Fixpoint h_cu16_loop (grow : Z -> Z -> nat) (fuel : nat) (h : heap) (buf : gslice) (rem : Z) : heap * gslice :=
  match fuel with
  | O => (h, buf)
  | S f =>
      let elem := Z.land rem 127 in
      let rem' := Z.shiftr rem 7 in
      if rem' =? 0 then append grow h buf [elem]
      else let '(h1, buf1) := append grow h buf [Z.lor elem 128] in h_cu16_loop grow f h1 buf1 rem'
  end.
Definition h_encode_compact_u16 (grow : Z -> Z -> nat) (h : heap) (buf : gslice) (ln : Z) : heap * gslice * option err :=
  if (ln <? 0) || (65535 <? ln) then (h, buf, Some EMsg)
  else (h_cu16_loop grow 3 h buf ln, None).
