(** Replays of /repo/encoder_test.go in the model (checks of the model, not
    proofs of properties). *)
From Coq Require Import String.
From Verif Require Import Types EncPrim DecPrim Enc Dec Builtin ParseFloat Ops Tests TestsDec.

(** What some calls write to a buffer. *)
Definition wrote (E : encoding) (ops : list eop) : list Z :=
  e_acc (snd (eops_run ops (new_encoder E buffer))).
(** Written() after each of the calls. *)
Fixpoint counts (ops : list eop) (s : est) : list Z :=
  match ops with
  | [] => [e_count s]
  | op :: ops' => e_count s :: counts ops' (snd (eop_run op s))
  end.

(** TestEncoder_Size, /repo/encoder_test.go:32-55. *)
Example test_Size :
  counts [OpEncode SafeString (S_ "hello"); OpWriteBool true] (new_encoder Bin buffer) = [0; 6; 7] /\
  counts [OpWriteByte 123; OpWriteBool true] (new_encoder Borsh buffer) = [0; 1; 2].
Proof. vm_compute. auto. Qed.
(** TestEncoder_AliastTestType, TestEncoder_safeString, /repo/encoder_test.go:57-76. *)
Example test_AliasTestType : wrote Bin [OpEncode (TUint UNamed W64) (VNum 23)] = n64 0x17.
Proof. vm_compute. reflexivity. Qed.
Example test_safeString : wrote Bin [OpEncode SafeString (S_ "hello")] = [0x5; 0x68; 0x65; 0x6c; 0x6c; 0x6f].
Proof. vm_compute. reflexivity. Qed.
(** TestEncoder_int8 to TestEncoder_uint64, /repo/encoder_test.go:78-259. *)
Example test_int8 : wrote Bin [OpWriteByte (uwrap 8 (-99)); OpWriteByte 100] = [0x9d; 0x64].
Proof. vm_compute. reflexivity. Qed.
Example test_int16 :
  wrote Bin [OpWriteUint 2 (-82) LE; OpWriteUint 2 73 LE] = [0xae; 0xff; 0x49; 0x00] /\
  wrote Bin [OpWriteUint 2 (-82) BE; OpWriteUint 2 73 BE] = [0xff; 0xae; 0x00; 0x49].
Proof. vm_compute. auto. Qed.
Example test_int32 :
  wrote Bin [OpWriteUint 4 (-276132392) LE; OpWriteUint 4 237391 LE] =
    [0xd8; 0x8d; 0x8a; 0xef; 0x4f; 0x9f; 0x3; 0x00] /\
  wrote Bin [OpWriteUint 4 (-276132392) BE; OpWriteUint 4 237391 BE] =
    [0xef; 0x8a; 0x8d; 0xd8; 0x00; 0x3; 0x9f; 0x4f].
Proof. vm_compute. auto. Qed.
Example test_int64 :
  wrote Bin [OpWriteUint 8 (-819823) LE; OpWriteUint 8 72931 LE] =
    [0x91; 0x7d; 0xf3; 0xff; 0xff; 0xff; 0xff; 0xff; 0xe3; 0x1c; 0x1; 0x00; 0x00; 0x00; 0x00; 0x00] /\
  wrote Bin [OpWriteUint 8 (-819823) BE; OpWriteUint 8 72931 BE] =
    [0xff; 0xff; 0xff; 0xff; 0xff; 0xf3; 0x7d; 0x91; 0x00; 0x00; 0x00; 0x00; 0x00; 0x1; 0x1c; 0xe3].
Proof. vm_compute. auto. Qed.
Example test_uint8 : wrote Bin [OpWriteByte 99; OpWriteByte 100] = [0x63; 0x64].
Proof. vm_compute. reflexivity. Qed.
Example test_uint16 :
  wrote Bin [OpWriteUint 2 82 LE; OpWriteUint 2 73 LE] = [0x52; 0x00; 0x49; 0x00] /\
  wrote Bin [OpWriteUint 2 82 BE; OpWriteUint 2 73 BE] = [0x00; 0x52; 0x00; 0x49].
Proof. vm_compute. auto. Qed.
Example test_uint32 :
  wrote Bin [OpWriteUint 4 276132392 LE; OpWriteUint 4 237391 LE] =
    [0x28; 0x72; 0x75; 0x10; 0x4f; 0x9f; 0x03; 0x00] /\
  wrote Bin [OpWriteUint 4 276132392 BE; OpWriteUint 4 237391 BE] =
    [0x10; 0x75; 0x72; 0x28; 0x00; 0x03; 0x9f; 0x4f].
Proof. vm_compute. auto. Qed.
Example test_uint64 :
  wrote Bin [OpWriteUint 8 819823 LE; OpWriteUint 8 72931 LE] =
    [0x6f; 0x82; 0x0c; 0x00; 0x00; 0x00; 0x00; 0x00; 0xe3; 0x1c; 0x1; 0x00; 0x00; 0x00; 0x00; 0x00] /\
  wrote Bin [OpWriteUint 8 819823 BE; OpWriteUint 8 72931 BE] =
    [0x00; 0x00; 0x00; 0x00; 0x00; 0x0c; 0x82; 0x6f; 0x00; 0x00; 0x00; 0x00; 0x00; 0x1; 0x1c; 0xe3].
Proof. vm_compute. auto. Qed.
(** TestEncoder_float32, TestEncoder_float64, /repo/encoder_test.go:261-318. *)
Example test_float32 :
  wrote Bin [OpWriteFloat F32 0x3FA8F5C3 LE; OpWriteFloat F32 0xC04D70A4 LE] =
    [0xc3; 0xf5; 0xa8; 0x3f; 0xa4; 0x70; 0x4d; 0xc0] /\
  wrote Bin [OpWriteFloat F32 0x3FA8F5C3 BE; OpWriteFloat F32 0xC04D70A4 BE] =
    [0x3f; 0xa8; 0xf5; 0xc3; 0xc0; 0x4d; 0x70; 0xa4].
Proof. vm_compute. auto. Qed.
Example test_float64 :
  let four o := [OpWriteFloat F64 (lit "-62.23") o; OpWriteFloat F64 (lit "23.239") o; OpWriteFloat F64 inf o;
                 OpWriteFloat F64 ninf o] in
  wrote Bin (four LE) =
    [0x3d; 0x0a; 0xd7; 0xa3; 0x70; 0x1d; 0x4f; 0xc0; 0x77; 0xbe; 0x9f; 0x1a; 0x2f; 0x3d; 0x37; 0x40;
     0x00; 0x00; 0x00; 0x00; 0x00; 0x00; 0xf0; 0x7f; 0x00; 0x00; 0x00; 0x00; 0x00; 0x00; 0xf0; 0xff] /\
  wrote Bin (four BE) =
    [0xc0; 0x4f; 0x1d; 0x70; 0xa3; 0xd7; 0x0a; 0x3d; 0x40; 0x37; 0x3d; 0x2f; 0x1a; 0x9f; 0xbe; 0x77;
     0x7f; 0xf0; 0x00; 0x00; 0x00; 0x00; 0x00; 0x00; 0xff; 0xf0; 0x00; 0x00; 0x00; 0x00; 0x00; 0x00].
Proof. vm_compute. auto. Qed.
(** TestEncoder_string, byte, bool, ByteArray, TestEncode_Array,
    /repo/encoder_test.go:320-393. *)
Example test_string :
  wrote Bin [OpWriteString (str "123"); OpWriteString (str ""); OpWriteString (str "abc")] =
  [0x03; 0x31; 0x32; 0x33; 0x00; 0x03; 0x61; 0x62; 0x63].
Proof. vm_compute. reflexivity. Qed.
Example test_byte : wrote Bin [OpWriteByte 0; OpWriteByte 1] = [0; 1].
Proof. vm_compute. reflexivity. Qed.
Example test_bool : wrote Bin [OpWriteBool true; OpWriteBool false] = [1; 0].
Proof. vm_compute. reflexivity. Qed.
Example test_ByteArray :
  wrote Bin [OpWriteBytes [1; 2; 3] true; OpWriteBytes [4; 5; 6] true; OpWriteBytes [7; 8] false] =
    [3; 1; 2; 3; 3; 4; 5; 6; 7; 8] /\
  wrote Bin [OpEncode (TSlice u8) (vbytes [1; 2; 3])] = [3; 1; 2; 3].
Proof. vm_compute. auto. Qed.
Example test_Array : wrote Bin [OpEncode (TArray 3 u8) (VSeq [VNum 1; VNum 2; VNum 4])] = [1; 2; 4].
Proof. vm_compute. reflexivity. Qed.
(** Test_OptionalPointerToPrimitiveType, /repo/encoder_test.go:395-416. *)
Example test_OptionalPointerToPrimitiveType :
  let test := TStruct [fldt "ID" "optional" (TPtr Uint64)] in
  marshal Bin test (VStruct [nil_]) = (Ok tt, [0; 0; 0; 0]) /\
  marshal Bin test (VStruct [some (VNum 0)]) = (Ok tt, [1; 0; 0; 0; 0; 0; 0; 0; 0; 0; 0; 0]) /\
  marshal Bin test (VStruct [some (VNum 10)]) = (Ok tt, [1; 0; 0; 0; 0xa; 0; 0; 0; 0; 0; 0; 0]).
Proof. vm_compute. auto. Qed.
(** TestEncoder_Uint128, /repo/encoder_test.go:418-445. *)
Example test_Uint128 :
  wrote Bin [OpWriteUint128 7 9 LE] = [7; 0; 0; 0; 0; 0; 0; 0; 9; 0; 0; 0; 0; 0; 0; 0] /\
  wrote Bin [OpWriteUint128 7 9 BE] = [0; 0; 0; 0; 0; 0; 0; 9; 0; 0; 0; 0; 0; 0; 0; 7].
Proof. vm_compute. auto. Qed.
(** TestEncoder_BinaryTestStructWithTags, the calls one by one and Encode with a
    pointer, /repo/encoder_test.go:528-632. *)
Definition withTags_b : list Z :=
  [255; 181; 0; 99; 255; 255; 255; 25; 0; 0; 3; 231; 255; 255; 255; 255; 255;
   255; 204; 81; 0; 0; 0; 0; 0; 1; 134; 159; 193; 185; 10; 61; 64; 15; 92; 40;
   245; 194; 143; 92; 1; 0; 0; 0; 0; 1; 0; 0; 0; 2; 99; 0; 0; 0; 0; 0; 0; 0;
   33; 0; 0; 0; 0; 0; 0; 0].
Example test_BinaryTestStructWithTags :
  wrote Bin [OpWriteUint 2 (-75) BE; OpWriteUint 2 99 BE; OpWriteUint 4 (-231) BE; OpWriteUint 4 999 BE;
    OpWriteUint 8 (-13231) BE; OpWriteUint 8 99999 BE; OpWriteFloat F32 0xC1B90A3D BE;
    OpWriteFloat F64 (lit "3.92") BE; OpWriteBool true; OpWriteUint 4 0 LE; OpWriteUint 4 1 LE; OpWriteUVarInt 2;
    OpWriteUint 8 99 LE; OpWriteUint 8 33 LE] = withTags_b /\
  wrote Bin [OpEncode (TPtr withTags) (some (withTags_v (S_ "abc")))] = withTags_b.
Proof. vm_compute. auto. Qed.
(** TestEncoder_InterfaceNil, /repo/encoder_test.go:635-642. *)
Example test_InterfaceNil : marshal Bin TIface (VIface None) = (Ok tt, []).
Proof. vm_compute. reflexivity. Qed.
(** TestByteArrays, TestUintArrays, TestUintSlices, /repo/encoder_test.go:644-870. *)
Definition enc1 (w : width) (z : Z) := put_uint LE (wbytes w) z.
Example test_UintArrays :
  forallb (fun E => forallb (fun w =>
    bytes_same (wrote E [OpEncode (TArray 3 (TUint UPlain w)) (VSeq [VNum 1; VNum 2; VNum 3])])
      (flat_map (enc1 w) [1; 2; 3])) [W8; W16; W32; W64]) [Bin; Borsh] = true.
Proof. vm_compute. reflexivity. Qed.
Example test_UintSlices :
  forallb (fun w =>
    bytes_same (wrote Bin [OpEncode (TSlice (TUint UPlain w)) (VSlice (Some [VNum 1; VNum 2; VNum 3]))])
      (3 :: flat_map (enc1 w) [1; 2; 3]) &&
    bytes_same (wrote Borsh [OpEncode (TSlice (TUint UPlain w)) (VSlice (Some [VNum 1; VNum 2; VNum 3]))])
      ([3; 0; 0; 0] ++ flat_map (enc1 w) [1; 2; 3])) [W8; W16; W32; W64] = true.
Proof. vm_compute. reflexivity. Qed.
(** Test_writeArrayOfBytes, Uint16, Uint32, Uint64, /repo/encoder_test.go:872-1274. *)
Definition iota (n : nat) : list Z := map Z.of_nat (seq 1 n).
Example test_writeArrayOf :
  forallb (fun E => forallb (fun p =>
    let '(w, n) := p in
    bytes_same (e_acc (snd (write_uints w (Z.of_nat n) (map VNum (iota n)) (new_encoder E buffer))))
      (flat_map (enc1 w) (iota n)))
    [(W8, 3%nat); (W8, 10%nat); (W8, 32%nat); (W16, 3%nat); (W32, 3%nat); (W32, 10%nat); (W32, 32%nat);
     (W64, 3%nat); (W64, 64%nat)]) [Bin; Borsh] = true.
Proof. vm_compute. reflexivity. Qed.
