(** Model of /repo/compact-u16.go. *)
From Verif Require Import Base.

(** EncodeCompactU16Length, the loop, /repo/compact-u16.go:30-41.  At most 3
    rounds are needed for [rem <= 65535] (the only case it is called for). *)
Fixpoint cu16_loop (fuel : nat) (rem : Z) : list Z :=
  match fuel with
  | O => []
  | S f =>
      let elem := Z.land rem 127 in
      let rem' := Z.shiftr rem 7 in
      if rem' =? 0 then [elem] else Z.lor elem 128 :: cu16_loop f rem'
  end.

(** EncodeCompactU16Length, /repo/compact-u16.go:26-43: new contents of the
    buffer and the error result. *)
Definition encode_compact_u16 (buf : list Z) (ln : Z) : list Z * option err :=
  if (ln <? 0) || (65535 <? ln) then (buf, Some EMsg)
  else (buf ++ cu16_loop 3 ln, None).

(** The loop of DecodeCompactU16, /repo/compact-u16.go:50-68 ([fuel] =
    3 - nth).  [inl e]: error return; [inr (ln, size)]: left the loop. *)
Fixpoint cu16_get (fuel : nat) (nth : Z) (bs : list Z) (ln size : Z)
  : err + (Z * Z) :=
  match fuel with
  | O => inr (ln, size)
  | S f =>
      match bs with
      | [] => inl EUnexpectedEOF
      | elem :: rest =>
          if (elem =? 0) && negb (nth =? 0) then inl EMsg        (* alias *)
          else if (nth =? 2) && negb (Z.land elem 128 =? 0) then inl EMsg
          else
            let ln' := Z.lor ln (Z.shiftl (Z.land elem 127) (size * 7)) in
            if Z.land elem 128 =? 0 then inr (ln', size + 1)
            else cu16_get f (nth + 1) rest ln' (size + 1)
      end
  end.

(** DecodeCompactU16, /repo/compact-u16.go:47-79: (ln, size) or an error (in
    which case ln = size = 0). *)
Definition decode_compact_u16 (bs : list Z) : err + (Z * Z) :=
  match cu16_get 3 0 bs 0 0 with
  | inl e => inl e
  | inr (ln, size) =>
      if (size =? 0) || (3 <? size) then inl EMsg
      else if (ln <? 0) || (65535 <? ln) then inl EMsg
      else inr (ln, size)
  end.

(** An io.ByteReader over a byte string that reports [eof] at the end:
    ReadByte is head/tail.  Loop of DecodeCompactU16LengthFromByteReader,
    /repo/compact-u16.go:85-104; returns also the unread bytes. *)
Fixpoint cu16_read (eof : err) (fuel : nat) (nth : Z) (bs : list Z)
  (ln size : Z) : (err + (Z * Z)) * list Z :=
  match fuel with
  | O => (inr (ln, size), bs)
  | S f =>
      match bs with
      | [] => (inl eof, [])
      | elem :: rest =>
          if (elem =? 0) && negb (nth =? 0) then (inl EMsg, rest)
          else if (nth =? 2) && negb (Z.land elem 128 =? 0) then (inl EMsg, rest)
          else
            let ln' := Z.lor ln (Z.shiftl (Z.land elem 127) (size * 7)) in
            if Z.land elem 128 =? 0 then (inr (ln', size + 1), rest)
            else cu16_read eof f (nth + 1) rest ln' (size + 1)
      end
  end.

(** DecodeCompactU16LengthFromByteReader, /repo/compact-u16.go:82-114. *)
Definition decode_compact_u16_reader (eof : err) (bs : list Z)
  : (err + Z) * list Z :=
  match cu16_read eof 3 0 bs 0 0 with
  | (inl e, rest) => (inl e, rest)
  | (inr (ln, size), rest) =>
      if (size =? 0) || (3 <? size) then (inl EMsg, rest)
      else if (ln <? 0) || (65535 <? ln) then (inl EMsg, rest)
      else (inr ln, rest)
  end.
