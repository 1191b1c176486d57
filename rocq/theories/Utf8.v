(** UTF-8 as in Go's unicode/utf8, and strings.Map(fixUtf, _) as used by
    SafeReadUTF8String, /repo/decoder.go:606-620. *)
From Verif Require Import Base.

Definition rune_error : Z := 0xFFFD.

(** Range of the second byte, by the first one (the tables [first] and
    [acceptRanges] of unicode/utf8): (number of bytes, lo, hi). *)
Definition utf8_first (b : Z) : option (Z * Z * Z) :=
  if (0xC2 <=? b) && (b <=? 0xDF) then Some (2, 0x80, 0xBF)
  else if b =? 0xE0 then Some (3, 0xA0, 0xBF)
  else if (0xE1 <=? b) && (b <=? 0xEC) then Some (3, 0x80, 0xBF)
  else if b =? 0xED then Some (3, 0x80, 0x9F)
  else if (0xEE <=? b) && (b <=? 0xEF) then Some (3, 0x80, 0xBF)
  else if b =? 0xF0 then Some (4, 0x90, 0xBF)
  else if (0xF1 <=? b) && (b <=? 0xF3) then Some (4, 0x80, 0xBF)
  else if b =? 0xF4 then Some (4, 0x80, 0x8F)
  else None.

Definition cont (b : Z) : bool := (0x80 <=? b) && (b <=? 0xBF).

(** utf8.DecodeRuneInString: (rune, bytes consumed); invalid or short input
    is (RuneError, 1); the empty string is (RuneError, 0). *)
Definition decode_rune (s : list Z) : Z * nat :=
  match s with
  | [] => (rune_error, 0%nat)
  | b0 :: r0 =>
      if b0 <? 0x80 then (b0, 1%nat)
      else match utf8_first b0 with
           | None => (rune_error, 1%nat)
           | Some (n, lo, hi) =>
               match r0 with
               | [] => (rune_error, 1%nat)
               | b1 :: r1 =>
                   if negb ((lo <=? b1) && (b1 <=? hi)) then (rune_error, 1%nat)
                   else if n =? 2 then
                     (Z.lor (Z.shiftl (Z.land b0 0x1F) 6) (Z.land b1 0x3F), 2%nat)
                   else match r1 with
                        | [] => (rune_error, 1%nat)
                        | b2 :: r2 =>
                            if negb (cont b2) then (rune_error, 1%nat)
                            else if n =? 3 then
                              (Z.lor (Z.lor (Z.shiftl (Z.land b0 0x0F) 12)
                                        (Z.shiftl (Z.land b1 0x3F) 6))
                                 (Z.land b2 0x3F), 3%nat)
                            else match r2 with
                                 | [] => (rune_error, 1%nat)
                                 | b3 :: _ =>
                                     if negb (cont b3) then (rune_error, 1%nat)
                                     else
                                       (Z.lor (Z.lor (Z.lor
                                          (Z.shiftl (Z.land b0 0x07) 18)
                                          (Z.shiftl (Z.land b1 0x3F) 12))
                                          (Z.shiftl (Z.land b2 0x3F) 6))
                                          (Z.land b3 0x3F), 4%nat)
                                 end
                        end
               end
           end
  end.

(** utf8.AppendRune / Builder.WriteRune: surrogates and out-of-range runes
    are written as RuneError. *)
Definition encode_rune (r : Z) : list Z :=
  let put r :=
    if r <=? 0x7F then [r]
    else if r <=? 0x7FF then
      [Z.lor 0xC0 (Z.shiftr r 6); Z.lor 0x80 (Z.land r 0x3F)]
    else if r <=? 0xFFFF then
      [Z.lor 0xE0 (Z.shiftr r 12); Z.lor 0x80 (Z.land (Z.shiftr r 6) 0x3F);
       Z.lor 0x80 (Z.land r 0x3F)]
    else
      [Z.lor 0xF0 (Z.shiftr r 18); Z.lor 0x80 (Z.land (Z.shiftr r 12) 0x3F);
       Z.lor 0x80 (Z.land (Z.shiftr r 6) 0x3F); Z.lor 0x80 (Z.land r 0x3F)] in
  if (r <? 0) || (0x10FFFF <? r) || ((0xD800 <=? r) && (r <=? 0xDFFF))
  then put rune_error else put r.

(** The runes of a string, as [for _, c := range s]. *)
Fixpoint runes_aux (fuel : nat) (s : list Z) : list Z :=
  match fuel with
  | O => []
  | S f =>
      match s with
      | [] => []
      | _ => let '(r, n) := decode_rune s in r :: runes_aux f (skipn n s)
      end
  end.
Definition runes (s : list Z) : list Z := runes_aux (length s) s.

(** fixUtf, /repo/decoder.go:615-620; the literal there is U+FFFD. *)
Definition fix_utf (r : Z) : Z := if r =? rune_error then 0xFFFD else r.

(** strings.Map(fixUtf, s): every rune mapped and written.  (The fast path of
    strings.Map for unchanged prefixes copies the bytes instead; for valid
    UTF-8 that is the same, see Utf8Facts.) *)
Definition safe_utf8 (s : list Z) : list Z :=
  flat_map (fun r => encode_rune (fix_utf r)) (runes s).
