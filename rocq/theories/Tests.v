(** Replays of the library's own Go tests in the model (checks of the model,
    not proofs of properties). *)
From Verif Require Import Types EncPrim DecPrim Enc Dec Builtin.

Fixpoint str (s : string) : list Z :=
  match s with
  | EmptyString => []
  | String c r => Z.of_nat (nat_of_ascii c) :: str r
  end.

Definition S_ (s : string) : val := VStr (str s).
Definition fld (n : string) (t : ty) : fhdr * ty := (mkF n true notag, t).
Definition fldt (n tag : string) (t : ty) : fhdr * ty := (mkF n true (mkTag tag "" ""), t).
Definition some (v : val) : val := VPtr (Some v).
Definition nil_ : val := VPtr None.
Definition u8 := TUint UPlain W8.
Definition u16 := TUint UPlain W16.
Definition u32 := TUint UPlain W32.
Definition u64 := TUint UPlain W64.
Definition i8 := TInt false W8.
Definition i16 := TInt false W16.
Definition i32 := TInt false W32.
Definition i64 := TInt false W64.
Definition f32 := TFloat F32.
Definition f64 := TFloat F64.
Definition vbytes (l : list Z) : val := VSlice (Some (map VNum l)).

(** Encoding [v] gives [bs], decoding [bs] into a new variable gives [back]. *)
Definition check (E : encoding) (t : ty) (v : val) (bs : list Z) (back : val) : Prop :=
  marshal E t v = (Ok tt, bs) /\ unmarshal E t (zero_val t) bs = Ok back.

Ltac check := split; vm_compute; reflexivity.

(** /repo/init_test.go:25-50, /repo/encoder_test.go:447-493,
    /repo/decoder_test.go:679-720. *)
Definition binaryTestStruct : ty := TStruct
  [ fld "F1" TString; fld "F2" i16; fld "F3" u16; fld "F4" i32; fld "F5" u32;
    fld "F6" i64; fld "F7" u64; fld "F8" f32; fld "F9" f64;
    fld "F10" (TSlice TString); fld "F11" (TArray 2 TString); fld "F12" u8;
    fld "F13" (TSlice u8); fld "F14" TBool; fld "F15" Int64; fld "F16" Uint64;
    fld "F17" JSONFloat64; fld "F18" Uint128; fld "F19" Int128;
    fld "F20" Float128; fld "F21" Varuint32; fld "F22" Varint32;
    fld "F23" Bool_; fld "F24" HexBytes ].
Definition binaryTestStruct_v : val := VStruct
  [ S_ "abc"; VNum (-75); VNum 99; VNum (-231); VNum 999; VNum (-13231);
    VNum 99999; VFloat 0xC1B90A3D; VFloat 0x400F5C28F5C28F5C;
    VSlice (Some [S_ "def"; S_ "789"]); VSeq [S_ "foo"; S_ "bar"]; VNum 255;
    vbytes [1;2;3;4;5]; VBool true; VNum (-23); VNum 23;
    VFloat 0x40091EB851EB851F; u128_val 10 82 None; u128_val 7 3 None;
    u128_val 10 82 None; VNum 999; VNum (-999); VBool true; vbytes [1;2;3;4;5] ].
Definition hexdigit (c : ascii) : Z :=
  let n := Z.of_nat (nat_of_ascii c) in if n <? 58 then n - 48 else n - 87.
Fixpoint hex (s : string) : list Z :=
  match s with
  | String a (String b r) => hexdigit a * 16 + hexdigit b :: hex r
  | _ => []
  end.
Example test_BinaryStruct :
  check Bin binaryTestStruct binaryTestStruct_v
    (hex "0300000000000000616263b5ff630019ffffffe703000051ccffffffffffff9f860100000000003d0ab9c15c8fc2f5285c0f4002030000000000000064656603000000000000003738390300000000000000666f6f0300000000000000626172ff05010203040501e9ffffffffffffff17000000000000001f85eb51b81e09400a000000000000005200000000000000070000000000000003000000000000000a000000000000005200000000000000e707cd0f01050102030405")
    binaryTestStruct_v.
Proof. check. Qed.

(** /repo/init_test.go:52-65, /repo/encoder_test.go:495-633. *)
Definition withTags : ty := TStruct
  [ fldt "F1" "-" TString; fldt "F2" "big" i16; fldt "F3" "big" u16;
    fldt "F4" "big" i32; fldt "F5" "big" u32; fldt "F6" "big" i64;
    fldt "F7" "big" u64; fldt "F8" "big" f32; fldt "F9" "big" f64;
    fld "F10" TBool; fldt "F11" "optional" (TPtr Int64);
    fldt "F12" "optional" (TPtr (TSlice i64)) ].
Definition withTags_v (s : val) : val := VStruct
  [ s; VNum (-75); VNum 99; VNum (-231); VNum 999; VNum (-13231); VNum 99999;
    VFloat 0xC1B90A3D; VFloat 0x400F5C28F5C28F5C; VBool true; nil_;
    some (VSlice (Some [VNum 99; VNum 33])) ].
Example test_BinaryTestStructWithTags :
  check Bin withTags (withTags_v (S_ "abc"))
    [255; 181; 0; 99; 255; 255; 255; 25; 0; 0; 3; 231; 255; 255; 255; 255; 255;
     255; 204; 81; 0; 0; 0; 0; 0; 1; 134; 159; 193; 185; 10; 61; 64; 15; 92; 40;
     245; 194; 143; 92; 1; 0; 0; 0; 0; 1; 0; 0; 0; 2; 99; 0; 0; 0; 0; 0; 0; 0;
     33; 0; 0; 0; 0; 0; 0; 0]
    (withTags_v (S_ "")).
Proof. check. Qed.

(** /repo/borsh_test.go:36-116. *)
Definition optionalPointerFields : ty :=
  TStruct [fld "Good" u8; fldt "Arr" "optional" (TPtr (TSlice TString))].
Example test_OptionWithPointer1 :
  let v := VStruct [VNum 9; nil_] in
  check Borsh optionalPointerFields v [9; 0] v.
Proof. check. Qed.
Example test_OptionWithPointer2 :
  check Borsh optionalPointerFields
    (VStruct [VNum 9; some (VSlice (Some []))]) [9; 1; 0; 0; 0; 0]
    (VStruct [VNum 9; some (VSlice None)]).
Proof. check. Qed.
Example test_OptionWithPointer3 :
  let v := VStruct [VNum 9; some (VSlice (Some [S_ "foo"]))] in
  check Borsh optionalPointerFields v
    ([9; 1; 1; 0; 0; 0; 3; 0; 0; 0] ++ str "foo") v.
Proof. check. Qed.

(** /repo/borsh_test.go:748-823, 1073-1082. *)
Definition structWithOptionalFields : ty := TStruct
  [ fld "FooRequired" (TPtr TString); fld "BarRequiredNotSet" (TPtr u32);
    fldt "FooPointer" "optional" (TPtr TString);
    fldt "FooPointerNotSet" "optional" (TPtr TString);
    fldt "BarPointer" "optional" (TPtr u32);
    fldt "FooValue" "optional" TString; fldt "BarValueNotSet" "optional" u32;
    fld "Hello" TString ].
Definition structWithOptionalFields_v (b : val) : val := VStruct
  [ some (S_ "hello"); b; some (S_ "-world"); nil_; some (VNum 33); S_ "hi";
    VNum 0; S_ "" ].
Example test_OptionalFields :
  check Borsh structWithOptionalFields (structWithOptionalFields_v nil_)
    ([5; 0; 0; 0] ++ str "hello" ++ [0; 0; 0; 0] ++ [1; 6; 0; 0; 0] ++
     str "-world" ++ [0] ++ [1; 33; 0; 0; 0] ++ [1; 2; 0; 0; 0] ++ str "hi" ++
     [0] ++ [0; 0; 0; 0])
    (structWithOptionalFields_v (some (VNum 0))).
Proof. check. Qed.

(** /repo/borsh_test.go:825-1045, 1049-1071, 1379-1411. *)
Definition Dummy : ty := TUint UNamed W8.
Definition enumfld : fhdr * ty := (mkF "Enum" true (mkTag "" "" "true"), BorshEnum).
Definition Foo : ty := TStruct [fld "FooA" i32; fld "FooB" TString].
Definition Bar : ty := TStruct [fld "BarA" i64; fld "BarB" TString].
Definition Struct_ : ty := TStruct [fld "Foo" TString; fld "Bar" u32].
Definition ComplexEnum : ty := TStruct [enumfld; fld "Foo" Foo; fld "Bar" Bar].
Definition ComplexEnumPointers : ty :=
  TStruct [enumfld; fld "Foo" (TPtr Foo); fld "Bar" (TPtr Bar)].
Definition ComplexEnumEmpty : ty :=
  TStruct [enumfld; fld "Foo" EmptyVariant; fld "Bar" Bar].
Definition ComplexEnumPrimitives : ty :=
  TStruct [enumfld; fld "Foo" u32; fld "Bar" i16].
Definition structWithEnum : ty := TStruct
  [ fld "Simple" Dummy; fld "SimplePointer" (TPtr Dummy);
    fld "Complex" ComplexEnum; fld "ComplexNotSet" ComplexEnum;
    fld "ComplexPtr" (TPtr ComplexEnum);
    fld "ComplexPtrNotSet" (TPtr ComplexEnum);
    fld "ComplexEmpty" ComplexEnumEmpty;
    fld "ComplexPrimitives1" ComplexEnumPrimitives;
    fld "ComplexPrimitives2" ComplexEnumPrimitives;
    fld "Complex2" ComplexEnumPointers;
    fld "Complex2Ptr" (TPtr ComplexEnumPointers);
    fldt "Complex2PtrOptionalSet" "optional" (TPtr ComplexEnumPointers);
    fldt "Complex2PtrOptionalNotSet" "optional" (TPtr ComplexEnumPointers);
    fld "Map" (TMap TString u64); fld "Slice" (TSlice Struct_);
    fld "Array" (TArray 4 Struct_) ].
Definition foo0 := VStruct [VNum 0; S_ ""].
Definition bar_ (n : Z) (s : string) := VStruct [VNum n; S_ s].
Definition st (s : string) (n : Z) := VStruct [S_ s; VNum n].
Definition structWithEnum_v (notset : val) (m : list (val * val)) : val := VStruct
  [ VNum 1; some (VNum 2);
    VStruct [VNum 1; foo0; bar_ 99 "this is bar"];
    VStruct [VNum 0; foo0; bar_ 0 ""];
    some (VStruct [VNum 1; foo0; bar_ 22 "this is bar from pointer"]);
    notset;
    VStruct [VNum 0; VStruct []; bar_ 0 ""];
    VStruct [VNum 0; VNum 20; VNum 0];
    VStruct [VNum 1; VNum 0; VNum 11];
    VStruct [VNum 1; nil_; some (bar_ 62 "very tested!!!")];
    some (VStruct [VNum 1; nil_; some (bar_ 123 "lorem ipsum")]);
    some (VStruct [VNum 1; nil_; some (bar_ 32 "very complex")]);
    nil_;
    VMap (Some m);
    VSlice (Some [st "this is first foo" 97; st "this is second foo" 98]);
    VSeq [st "arr 0" 22; st "arr 1" 23; st "arr 2" 24; st "arr 3" 25] ].
Definition n32 (n : Z) : list Z := [n; 0; 0; 0].
Definition n64 (n : Z) : list Z := [n; 0; 0; 0; 0; 0; 0; 0].
Definition structWithEnum_b : list Z :=
  [1] ++ [2] ++
  [1] ++ n64 99 ++ n32 11 ++ str "this is bar" ++
  [0] ++ n32 0 ++ n32 0 ++
  [1] ++ n64 22 ++ n32 24 ++ str "this is bar from pointer" ++
  [0] ++ n32 0 ++ n32 0 ++
  [0] ++
  [0] ++ n32 20 ++
  [1] ++ [11; 0] ++
  [1] ++ n64 62 ++ n32 14 ++ str "very tested!!!" ++
  [1] ++ n64 123 ++ n32 11 ++ str "lorem ipsum" ++
  [1] ++ [1] ++ n64 32 ++ n32 12 ++ str "very complex" ++
  [0] ++
  n32 2 ++ n32 3 ++ str "bar" ++ n64 46 ++ n32 3 ++ str "foo" ++ n64 1 ++
  n32 2 ++ n32 17 ++ str "this is first foo" ++ n32 97 ++
  n32 18 ++ str "this is second foo" ++ n32 98 ++
  n32 5 ++ str "arr 0" ++ n32 22 ++ n32 5 ++ str "arr 1" ++ n32 23 ++
  n32 5 ++ str "arr 2" ++ n32 24 ++ n32 5 ++ str "arr 3" ++ n32 25.
Example test_StructWithEnum :
  let foo := (S_ "foo", VNum 1) in
  let bar := (S_ "bar", VNum 46) in
  check Borsh structWithEnum (structWithEnum_v nil_ [foo; bar]) structWithEnum_b
    (structWithEnum_v (some (VStruct [VNum 0; foo0; bar_ 0 ""])) [bar; foo]).
Proof. check. Qed.

(** /repo/borsh_test.go:1093-1221, a type with its own codec. *)
Definition CustomEncoding : ty :=
  TCodec
    (simple_codec
       (fun v => match v with
                 | VStruct [VNum p; VNum n] => write_uint 4 n LE ;;; write_byte p
                 | _ => stuck
                 end)
       (n <- read_uint 4 LE ;; p <- read_byte ;; ret (VStruct [VNum p; VNum n])))
    (TStruct [fld "Prefix" u8; fld "Value" u32]).
Definition AA : ty := TStruct
  [ fld "A" i64; fld "B" i32; fld "C" TBool; fldt "D" "optional" (TPtr TBool);
    fldt "E" "optional" (TPtr u64); fld "Map" (TMap TString TString);
    fld "EmptyMap" (TMap i64 TString); fld "Array" (TArray 2 i64);
    fldt "Optional" "optional" (TPtr Struct_); fld "Value" Struct_;
    fld "ByValue" CustomEncoding; fld "ByPointer" (TPtr CustomEncoding);
    fld "HighValuesInt64" (TSlice i64); fld "HighValuesUint64" (TSlice u64);
    fld "HighValuesFloat64" (TSlice f64) ].
Definition AA_v : val := VStruct
  [ VNum 1; VNum 32; VBool true; some (VBool true); some (VNum 25464132585);
    VMap (Some [(S_ "foo", S_ "bar")]); VMap None; VSeq [VNum 57; VNum 88];
    some (st "optional foo" 8888886); st "value foo" 7777;
    VStruct [VNum 98; VNum 72]; some (VStruct [VNum 99; VNum 9999]);
    VSlice (Some (map VNum [127; 32767; 2147483647; 9223372036854775807; -127;
      -32767; -2147483647; -9223372036854775807; 255; 65535; 4294967295; -255;
      -65535; -4294967295]));
    VSlice (Some (map VNum [127; 32767; 2147483647; 9223372036854775807; 255;
      65535; 4294967295; 18446744073709551615]));
    VSlice (Some (map VFloat [0x47EFFFFFE0000000; 0x7FEFFFFFFFFFFFFF;
      0xC7EFFFFFE0000000; 0xFFEFFFFFFFFFFFFF])) ].
Example test_kitchenSink :
  fst (marshal Borsh AA AA_v) = Ok tt /\
  unmarshal Borsh AA (zero_val AA) (snd (marshal Borsh AA AA_v)) = Ok AA_v.
Proof. check. Qed.
