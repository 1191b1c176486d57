(** Replays of /repo/decoder_test.go in the model (checks of the model, not
    proofs of properties). *)
From Coq Require Import String.
From Verif Require Import Types EncPrim DecPrim Enc Dec Builtin ParseFloat Ops Tests.

(** A test runs some calls on a new decoder and compares their results. *)
Definition on {A} (E : encoding) (buf : list Z) (m : DM A) : outcome A := fst (m (new_decoder E buf)).
(** A read and Remaining() after it. *)
Definition left {A} (m : DM A) : DM (A * Z) := a <- m ;; r <- d_remaining ;; ret (a, r).
Definition two {A B} (a : DM A) (b : DM B) : DM (A * B) := x <- a ;; y <- b ;; ret (x, y).
(** Go on after an error. *)
Definition try {A} (m : DM A) : DM (outcome A) := fun s => let '(r, s') := m s in (Ok r, s').
Definition is_err {A} (r : outcome A) : bool := match r with Err _ => true | _ => false end.

(** TestDecoder_Peek, /repo/decoder_test.go:31-71. *)
Example test_Peek :
  on Bin (n64 0x17)
    (a <- d_peek 8 ;; b <- d_peek 8 ;; c <- d_peek 1 ;; d <- d_peek 2 ;; e <- read_byte ;; f <- d_peek 1 ;;
     ret (a, b, c, d, e, f)) =
  Ok (n64 0x17, n64 0x17, [0x17], [0x17; 0], 0x17, [0]).
Proof. vm_compute. reflexivity. Qed.
(** TestDecoder_AliastTestType, /repo/decoder_test.go:73-82. *)
Example test_AliasTestType : unmarshal Bin (TUint UNamed W64) (VNum 0) (n64 0x17) = Ok (VNum 23).
Proof. vm_compute. reflexivity. Qed.
(** TestDecoder_Remaining, /repo/decoder_test.go:84-100. *)
Example test_Remaining :
  on Bin [1; 0; 2; 0] (two (left (read_uintw W16 LE)) (left (read_uintw W16 LE))) = Ok ((1, 2), (2, 0)).
Proof. vm_compute. reflexivity. Qed.
(** TestDecoder_int8, int16, int32, int64, /repo/decoder_test.go:102-233. *)
Example test_int8 :
  on Bin [0x9d; 0x64] (two (left (read_intw W8 LE)) (left (read_intw W8 LE))) = Ok ((-99, 1), (100, 0)).
Proof. vm_compute. reflexivity. Qed.
Example test_int16 :
  on Bin [0xae; 0xff; 0x49; 0x00] (two (left (read_intw W16 LE)) (left (read_intw W16 LE))) =
    Ok ((-82, 2), (73, 0)) /\
  on Bin [0xff; 0xae; 0x00; 0x49] (two (left (read_intw W16 BE)) (left (read_intw W16 BE))) =
    Ok ((-82, 2), (73, 0)).
Proof. vm_compute. auto. Qed.
Example test_int32 :
  on Bin [0xd8; 0x8d; 0x8a; 0xef; 0x4f; 0x9f; 0x3; 0x00]
    (two (left (read_intw W32 LE)) (left (read_intw W32 LE))) = Ok ((-276132392, 4), (237391, 0)) /\
  on Bin [0xef; 0x8a; 0x8d; 0xd8; 0x00; 0x3; 0x9f; 0x4f]
    (two (left (read_intw W32 BE)) (left (read_intw W32 BE))) = Ok ((-276132392, 4), (237391, 0)).
Proof. vm_compute. auto. Qed.
(** Also TestDecoder_Int64, /repo/decoder_test.go:615-651. *)
Example test_int64 :
  on Bin [0x91; 0x7d; 0xf3; 0xff; 0xff; 0xff; 0xff; 0xff; 0xe3; 0x1c; 0x1; 0x00; 0x00; 0x00; 0x00; 0x00]
    (two (left (read_intw W64 LE)) (left (read_intw W64 LE))) = Ok ((-819823, 8), (72931, 0)) /\
  on Bin [0xff; 0xff; 0xff; 0xff; 0xff; 0xf3; 0x7d; 0x91; 0x00; 0x00; 0x00; 0x00; 0x00; 0x1; 0x1c; 0xe3]
    (two (left (read_intw W64 BE)) (left (read_intw W64 BE))) = Ok ((-819823, 8), (72931, 0)).
Proof. vm_compute. auto. Qed.
(** TestDecoder_uint8, uint16, uint32, uint64, /repo/decoder_test.go:235-366. *)
Example test_uint8 :
  on Bin [0x63; 0x64] (two (left (read_uintw W8 LE)) (left (read_uintw W8 LE))) = Ok ((99, 1), (100, 0)).
Proof. vm_compute. reflexivity. Qed.
Example test_uint16 :
  on Bin [0x52; 0x00; 0x49; 0x00] (two (left (read_uintw W16 LE)) (left (read_uintw W16 LE))) =
    Ok ((82, 2), (73, 0)) /\
  on Bin [0x00; 0x52; 0x00; 0x49] (two (left (read_uintw W16 BE)) (left (read_uintw W16 BE))) =
    Ok ((82, 2), (73, 0)).
Proof. vm_compute. auto. Qed.
Example test_uint32 :
  on Bin [0x28; 0x72; 0x75; 0x10; 0x4f; 0x9f; 0x03; 0x00]
    (two (left (read_uintw W32 LE)) (left (read_uintw W32 LE))) = Ok ((276132392, 4), (237391, 0)) /\
  on Bin [0x10; 0x75; 0x72; 0x28; 0x00; 0x03; 0x9f; 0x4f]
    (two (left (read_uintw W32 BE)) (left (read_uintw W32 BE))) = Ok ((276132392, 4), (237391, 0)).
Proof. vm_compute. auto. Qed.
Example test_uint64 :
  on Bin [0x6f; 0x82; 0x0c; 0x00; 0x00; 0x00; 0x00; 0x00; 0xe3; 0x1c; 0x1; 0x00; 0x00; 0x00; 0x00; 0x00]
    (two (left (read_uintw W64 LE)) (left (read_uintw W64 LE))) = Ok ((819823, 8), (72931, 0)) /\
  on Bin [0x00; 0x00; 0x00; 0x00; 0x00; 0x0c; 0x82; 0x6f; 0x00; 0x00; 0x00; 0x00; 0x00; 0x1; 0x1c; 0xe3]
    (two (left (read_uintw W64 BE)) (left (read_uintw W64 BE))) = Ok ((819823, 8), (72931, 0)).
Proof. vm_compute. auto. Qed.

(** The constant of the Go source as a float64: [parse_float] rounds correctly,
    as the compiler does. *)
Definition lit (s : string) : Z := match parse_float (str s) with Some b => b | None => -1 end.
(** float32 constants are given by their bits. *)
Definition inf := 0x7FF0000000000000.
Definition ninf := 0xFFF0000000000000.
(** TestDecoder_float32, /repo/decoder_test.go:368-404. *)
Example test_float32 :
  on Bin [0xc3; 0xf5; 0xa8; 0x3f; 0xa4; 0x70; 0x4d; 0xc0]
    (two (left (read_float F32 LE)) (left (read_float F32 LE))) = Ok ((0x3FA8F5C3, 4), (0xC04D70A4, 0)) /\
  on Bin [0x3f; 0xa8; 0xf5; 0xc3; 0xc0; 0x4d; 0x70; 0xa4]
    (two (left (read_float F32 BE)) (left (read_float F32 BE))) = Ok ((0x3FA8F5C3, 4), (0xC04D70A4, 0)).
Proof. vm_compute. auto. Qed.
(** TestDecoder_float64, /repo/decoder_test.go:406-476. *)
Example test_float64 :
  let five o := a <- left (read_float F64 o) ;; b <- left (read_float F64 o) ;; c <- left (read_float F64 o) ;;
                d <- left (read_float F64 o) ;; e <- read_float F64 o ;; ret (a, b, c, d, e) in
  let want := Ok ((lit "-62.23", 32), (lit "23.239", 24), (inf, 16), (ninf, 8), 0x7FF8000000000001) in
  on Bin [0x3d; 0x0a; 0xd7; 0xa3; 0x70; 0x1d; 0x4f; 0xc0; 0x77; 0xbe; 0x9f; 0x1a; 0x2f; 0x3d; 0x37; 0x40;
          0x00; 0x00; 0x00; 0x00; 0x00; 0x00; 0xf0; 0x7f; 0x00; 0x00; 0x00; 0x00; 0x00; 0x00; 0xf0; 0xff;
          0x01; 0x00; 0x00; 0x00; 0x00; 0x00; 0xf8; 0x7f] (five LE) = want /\
  on Bin [0xc0; 0x4f; 0x1d; 0x70; 0xa3; 0xd7; 0x0a; 0x3d; 0x40; 0x37; 0x3d; 0x2f; 0x1a; 0x9f; 0xbe; 0x77;
          0x7f; 0xf0; 0x00; 0x00; 0x00; 0x00; 0x00; 0x00; 0xff; 0xf0; 0x00; 0x00; 0x00; 0x00; 0x00; 0x00;
          0x7f; 0xf8; 0x00; 0x00; 0x00; 0x00; 0x00; 0x01] (five BE) = want.
Proof. vm_compute. auto. Qed.

(** TestDecoder_string, /repo/decoder_test.go:478-501. *)
Example test_string :
  on Bin [0x03; 0x31; 0x32; 0x33; 0x00; 0x03; 0x61; 0x62; 0x63]
    (two (two (left read_string) (left read_string)) (left read_string)) =
  Ok ((str "123", 5), (str "", 4), (str "abc", 0)).
Proof. vm_compute. reflexivity. Qed.
(** TestDecoder_Decode_String_Err, /repo/decoder_test.go:503-514: the error says
    that eight bytes are required and five are there. *)
Example test_Decode_String_Err :
  is_err (unmarshal Bin TString (S_ "") [0x01; 0x00; 0x00; 0x00; 97]) = true.
Proof. vm_compute. reflexivity. Qed.
(** TestDecoder_Byte, Bool, ByteArray, ByteArray_MissingData,
    /repo/decoder_test.go:516-579. *)
Example test_Byte : on Bin [0; 1] (two (left read_byte) (left read_byte)) = Ok ((0, 1), (1, 0)).
Proof. vm_compute. reflexivity. Qed.
Example test_Bool : on Bin [1; 0] (two (left read_bool) (left read_bool)) = Ok ((true, 1), (false, 0)).
Proof. vm_compute. reflexivity. Qed.
Example test_ByteArray :
  on Bin [3; 1; 2; 3; 3; 4; 5; 6] (two (left read_byte_slice) (left read_byte_slice)) =
  Ok (([1; 2; 3], 4), ([4; 5; 6], 0)).
Proof. vm_compute. reflexivity. Qed.
Example test_ByteArray_MissingData : is_err (on Bin [0x0a] read_byte_slice) = true.
Proof. vm_compute. reflexivity. Qed.
(** TestDecoder_Array, Slice_Err, Slice_InvalidLen, /repo/decoder_test.go:581-613. *)
Example test_Array : unmarshal Bin (TArray 3 u8) (VSeq [VNum 0; VNum 0; VNum 0]) [1; 2; 4] =
  Ok (VSeq [VNum 1; VNum 2; VNum 4]).
Proof. vm_compute. reflexivity. Qed.
Example test_Slice_Err :
  unmarshal Bin (TSlice TString) (VSlice None) [] = Err EVarint /\
  unmarshal Bin (TSlice TString) (VSlice None) [1] = Err EUnexpectedEOF.
Proof. vm_compute. auto. Qed.
Example test_Slice_InvalidLen :
  unmarshal Bin (TSlice TString) (VSlice None) [0xd7; 0xff; 0xff; 0xff; 0xff; 0xff; 0xff; 0xff; 0xff; 0x01] =
  Err EUnexpectedEOF.
Proof. vm_compute. reflexivity. Qed.
(** TestDecoder_Uint128_2, /repo/decoder_test.go:653-677. *)
Example test_Uint128_2 :
  on Bin [0x0d; 0x88; 0xd3; 0xff; 0xff; 0xff; 0xff; 0xff; 0x6d; 0x0b; 0; 0; 0; 0; 0; 0] (read_uint128 LE) =
    Ok (0xffffffffffd3880d, 0xb6d) /\
  on Bin [0; 0; 0; 0; 0; 0; 0x08; 0xbb; 0xff; 0xff; 0xff; 0xff; 0xff; 0xac; 0xdc; 0xad] (read_uint128 BE) =
    Ok (0xffffffffffacdcad, 0x8bb).
Proof. vm_compute. auto. Qed.
(** TestDecoder_Decode_No_Ptr, /repo/decoder_test.go:722-726. *)
Example test_No_Ptr :
  on Bin [] (decode_target TgtNonPointer) = Err EInvalidDecoder.
Proof. vm_compute. reflexivity. Qed.
(** TestDecoder_BinaryTestStructWithTags, /repo/decoder_test.go:728-748. *)
Example test_DecodeWithTags :
  unmarshal Bin withTags (zero_val withTags)
    (hex "ffb50063ffffff19000003e7ffffffffffffcc51000000000001869fc1b90a3d400f5c28f5c28f5c010000000000000000") =
  Ok (VStruct [S_ ""; VNum (-75); VNum 99; VNum (-231); VNum 999; VNum (-13231); VNum 99999;
        VFloat 0xC1B90A3D; VFloat (lit "3.92"); VBool true; nil_; nil_]).
Proof. vm_compute. reflexivity. Qed.
(** TestDecoder_SkipBytes, /repo/decoder_test.go:750-767. *)
Example test_SkipBytes :
  on Bin (repeat 255 8)
    (a <- left (d_skip 1) ;; b <- left (d_skip 2) ;; c <- try (d_skip 6) ;; d <- left (d_skip 5) ;;
     ret (snd a, snd b, is_err c, snd d)) = Ok (7, 5, true, 0).
Proof. vm_compute. reflexivity. Qed.
(** Test_Discard, /repo/decoder_test.go:769-778. *)
Example test_Discard :
  on Bin [0; 1; 2; 3; 4; 5; 6; 7; 8; 9] (d_discard 5 ;;; r <- d_remaining ;; p <- d_peek r ;; ret (r, p)) =
  Ok (5, [5; 6; 7; 8; 9]).
Proof. vm_compute. reflexivity. Qed.
(** Test_reflect_readArrayOfBytes, Uint16, Uint32, Uint64, Uint,
    /repo/decoder_test.go:780-1100. *)
Definition bytes_same (a b : list Z) : bool := if list_eq_dec Z.eq_dec a b then true else false.
Definition upto8 := [0; 1; 2; 3; 4; 5; 6; 7].
Example test_readArrayOf :
  forallb (fun E => forallb (fun w =>
    match on E (flat_map (put_uint LE (wbytes w)) upto8) (read_uints w 8) with
    | Ok l => bytes_same l upto8
    | _ => false
    end) [W8; W16; W32; W64]) [Bin; CompactU16; Borsh] = true.
Proof. vm_compute. reflexivity. Qed.
(** Test_Decode_custom, /repo/decoder_test.go:1102-1175; Test_Decode_readArrayOfUint,
    1257-1333.  Named element types are [UNamed]; named slice and array types
    behave like unnamed ones. *)
Example test_Decode_custom :
  let buf := n32 0 ++ n32 1 ++ n32 2 in
  let got := [VNum 0; VNum 1; VNum 2] in
  unmarshal Bin (TSlice (TUint UNamed W32)) (VSlice (Some [])) (3 :: buf) = Ok (VSlice (Some got)) /\
  unmarshal Bin (TArray 3 (TUint UNamed W32)) (VSeq (repeat (VNum 0) 3)) buf = Ok (VSeq got) /\
  unmarshal Bin (TSlice u32) (VSlice (Some [])) (3 :: buf) = Ok (VSlice (Some got)) /\
  unmarshal Bin (TArray 3 u32) (VSeq (repeat (VNum 0) 3)) buf = Ok (VSeq got).
Proof. vm_compute. auto. Qed.
Example test_Decode_readArrayOfUint :
  let buf := flat_map n32 upto8 in
  unmarshal Bin (TArray 8 u32) (VSeq (repeat (VNum 0) 8)) buf = Ok (VSeq (map VNum upto8)) /\
  unmarshal Borsh (TSlice u32) (VSlice (Some [])) (n32 8 ++ buf) = Ok (VSlice (Some (map VNum upto8))) /\
  unmarshal Borsh (TArray 8 u32) (VSeq (repeat (VNum 0) 8)) buf = Ok (VSeq (map VNum upto8)).
Proof. vm_compute. auto. Qed.
(** Test_ReadNBytes, Test_ReadBytes, /repo/decoder_test.go:1177-1215 (ReadBytes is
    another name of ReadNBytes). *)
Definition b1 := [123; 99; 88; 77; 66; 55; 44; 33; 22; 11].
Definition b2 := [1; 2; 3; 4; 5; 6; 7; 8; 9; 10].
Example test_ReadNBytes : on Bin (b1 ++ b2) (two (read_n_bytes 10) (read_n_bytes 10)) = Ok (b1, b2).
Proof. vm_compute. reflexivity. Qed.
(** Test_Read, /repo/decoder_test.go:1217-1255. *)
Example test_Read :
  on Bin (b1 ++ b2) (a <- d_read 10 ;; b <- d_read 10 ;; c <- try (d_read 11) ;; d <- d_read 0 ;; ret (a, b, c, d)) =
  Ok (b1, b2, Err EShortBuffer, []).
Proof. vm_compute. reflexivity. Qed.
(** Test_reflect_readArrayOfUint16_asField, /repo/decoder_test.go:1335-1431. *)
Example test_readArrayOfUint16_asField :
  let buf := flat_map (put_uint LE 2) upto8 in
  let s := TStruct [fld "Val" (TSlice u16)] in
  let a := TStruct [fld "Val" (TArray 8 u16)] in
  unmarshal Bin s (zero_val s) (8 :: buf) = Ok (VStruct [VSlice (Some (map VNum upto8))]) /\
  unmarshal Bin a (zero_val a) buf = Ok (VStruct [VSeq (map VNum upto8)]) /\
  unmarshal Borsh s (zero_val s) (n32 8 ++ buf) = Ok (VStruct [VSlice (Some (map VNum upto8))]) /\
  unmarshal Borsh a (zero_val a) buf = Ok (VStruct [VSeq (map VNum upto8)]).
Proof. vm_compute. auto. Qed.
