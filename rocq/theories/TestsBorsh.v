(** Replays of the rest of /repo/borsh_test.go in the model (checks of the
    model, not proofs of properties; Tests.v has the larger structs). *)
From Coq Require Import String.
From Verif Require Import Types EncPrim DecPrim Enc Dec Builtin ParseFloat Tests TestsDec.

Definition both (t : ty) (v : val) (bs : list Z) : Prop := check Borsh t v bs v.
(** Encode is given a pointer, Decode a variable. *)
Definition pointed (t : ty) (v : val) (bs : list Z) : Prop :=
  marshal Borsh (TPtr t) (some v) = (Ok tt, bs) /\ unmarshal Borsh t (zero_val t) bs = Ok v.
(** Marshal and unmarshal, the bytes are not looked at. *)
Definition returns (t : ty) (v : val) : Prop :=
  let '(r, bs) := marshal Borsh t v in r = Ok tt /\ unmarshal Borsh t (zero_val t) bs = Ok v.
Ltac run := vm_compute; repeat split; reflexivity.

(** TestBorsh_Encode, integers and booleans, /repo/borsh_test.go:164-447. *)
Example test_ints :
  both i8 (VNum 33) [33] /\ both i16 (VNum 44) [44; 0] /\ both i32 (VNum 55) [55; 0; 0; 0] /\
  both i64 (VNum 556) [0x2c; 2; 0; 0; 0; 0; 0; 0] /\
  pointed i64 (VNum 556) [0x2c; 2; 0; 0; 0; 0; 0; 0] /\ pointed i8 (VNum 120) [120] /\
  pointed i64 (VNum 0) [0; 0; 0; 0; 0; 0; 0; 0] /\ pointed i8 (VNum 0) [0].
Proof. run. Qed.
Example test_uints :
  both u8 (VNum 33) [33] /\ both u16 (VNum 44) [44; 0] /\ both u32 (VNum 55) [55; 0; 0; 0] /\
  both u64 (VNum 556) [0x2c; 2; 0; 0; 0; 0; 0; 0] /\
  pointed u64 (VNum 556) [0x2c; 2; 0; 0; 0; 0; 0; 0] /\ pointed u8 (VNum 120) [120] /\
  pointed u64 (VNum 0) [0; 0; 0; 0; 0; 0; 0; 0] /\ pointed u8 (VNum 0) [0].
Proof. run. Qed.
Example test_bools :
  both TBool (VBool true) [1] /\ both TBool (VBool false) [0] /\
  pointed TBool (VBool false) [0] /\ pointed TBool (VBool true) [1].
Proof. run. Qed.
(** Floats and strings, /repo/borsh_test.go:448-590. *)
Example test_floats :
  both f32 (VFloat 0x3f8fbe77) [0x77; 0xbe; 0x8f; 0x3f] /\
  pointed f32 (VFloat 0x3f8fbe77) [0x77; 0xbe; 0x8f; 0x3f] /\
  pointed f32 (VFloat 0) [0; 0; 0; 0] /\
  both f64 (VFloat (lit "1.123")) [0x2b; 0x87; 0x16; 0xd9; 0xce; 0xf7; 0xf1; 0x3f] /\
  pointed f64 (VFloat (lit "1.123")) [0x2b; 0x87; 0x16; 0xd9; 0xce; 0xf7; 0xf1; 0x3f] /\
  pointed f64 (VFloat 0) [0; 0; 0; 0; 0; 0; 0; 0].
Proof. run. Qed.
Example test_strings :
  both TString (S_ "hello world") ([11; 0; 0; 0] ++ str "hello world") /\
  pointed TString (S_ "hello world") ([11; 0; 0; 0] ++ str "hello world") /\
  pointed TString (S_ "") [0; 0; 0; 0].
Proof. run. Qed.
(** Interfaces, /repo/borsh_test.go:591-607. *)
Example test_interfaces :
  marshal Borsh TIface (VIface None) = (Ok tt, []) /\ marshal Borsh (TPtr TIface) (some (VIface None)) = (Ok tt, []).
Proof. run. Qed.
(** A type with its own methods, /repo/borsh_test.go:608-645. *)
Example test_custom :
  both CustomEncoding (VStruct [VNum 97; VNum 33]) [33; 0; 0; 0; 97] /\
  pointed CustomEncoding (VStruct [VNum 97; VNum 33]) [33; 0; 0; 0; 97].
Proof. run. Qed.
(** Structs, with and without pointers, /repo/borsh_test.go:646-748. *)
Definition structWithPointerFields : ty := TStruct [fld "Foo" (TPtr TString); fld "Bar" (TPtr u32)].
Example test_structs :
  let b := [5; 0; 0; 0] ++ str "hello" ++ [33; 0; 0; 0] in
  both Struct_ (st "hello" 33) b /\ pointed Struct_ (st "hello" 33) b /\
  both structWithPointerFields (VStruct [some (S_ "hello"); some (VNum 33)]) b /\
  pointed structWithPointerFields (VStruct [some (S_ "hello"); some (VNum 33)]) b.
Proof. run. Qed.

(** TestSimple, /repo/borsh_test.go:1223-1248. *)
Example test_Simple :
  returns (TStruct [fld "A" i64; fld "B" i32; fld "C" TBool; fld "D" (TPtr TBool); fld "E" (TPtr u64)])
    (VStruct [VNum 1; VNum 32; VBool true; some (VBool true); some (VNum 25464132585)]).
Proof. run. Qed.
(** TestBasic, /repo/borsh_test.go:1249-1288.  The unexported field and the nil
    error come back as their zero values. *)
Definition tyB : ty := TStruct
  [ fld "I8" i8; fld "I16" i16; fld "I32" i32; fld "I64" i64; fld "U8" u8; fld "U16" u16; fld "U32" u32;
    fld "U64" u64; fld "F32" f32; fld "F64" f64; (mkF "unexported" false notag, i64); fld "Err" TIface ].
Definition valB (n : Z) : val := VStruct
  [ VNum 12; VNum (-1); VNum 124; VNum 1243; VNum 1; VNum 979; VNum 123124; VNum 1135351135; VFloat 0xC3673AE1;
    VFloat (lit "3121221.232"); VNum n; VIface None ].
Example test_Basic :
  let '(r, bs) := marshal Borsh tyB (valB 333) in r = Ok tt /\ unmarshal Borsh tyB (zero_val tyB) bs = Ok (valB 0).
Proof. run. Qed.
(** TestBasicContainer, TestNested, /repo/borsh_test.go:1290-1355. *)
Definition tyC : ty := TStruct
  [ fld "A3" (TArray 3 i64); fld "S" (TSlice i64); fld "P" (TPtr i64); fld "M" (TMap TString TString) ].
Definition valC : val := VStruct
  [ VSeq [VNum 234; VNum (-123); VNum 123]; VSlice (Some [VNum 21442; VNum 421241241; VNum 2424]); some (VNum 213);
    VMap (Some [(S_ "foo", S_ "bar")]) ].
Example test_BasicContainer : returns tyC valC.
Proof. run. Qed.
Example test_Nested : returns (TStruct [fld "B" tyB; fld "C" tyC]) (VStruct [valB 0; valC]).
Proof. run. Qed.
(** TestSimpleEnum, TestComplexEnum, /repo/borsh_test.go:1357-1479. *)
Example test_SimpleEnum : returns (TStruct [fld "D" Dummy]) (VStruct [VNum 1]).
Proof. run. Qed.
Example test_ComplexEnum :
  returns ComplexEnum (VStruct [VNum 1; foo0; bar_ 23 "baz"]) /\
  returns ComplexEnumPointers (VStruct [VNum 1; nil_; some (bar_ 99999 "hello world")]) /\
  returns ComplexEnumEmpty (VStruct [VNum 1; VStruct []; bar_ 23 "baz"]) /\
  returns ComplexEnumPrimitives (VStruct [VNum 1; VNum 0; VNum 22]).
Proof. run. Qed.
(** TestSet, /repo/borsh_test.go:1481-1497: a map is compared as a set; the
    model's association list comes back in the order of the encoding. *)
Example test_Set :
  let t := TStruct [fld "S" (TMap i64 (TStruct []))] in
  let m l := VStruct [VMap (Some (map (fun z => (VNum z, VStruct [])) l))] in
  let '(r, bs) := marshal Borsh t (m [124; 214; 24; 53]) in
  r = Ok tt /\ unmarshal Borsh t (zero_val t) bs = Ok (m [24; 53; 124; 214]).
Proof. run. Qed.
(** TestSkipped, TestEmpty, /repo/borsh_test.go:1499-1536. *)
Example test_Skipped :
  let t := TStruct [fld "A" i64; (mkF "B" true (mkTag "" "true" ""), i64); fld "C" i64] in
  let '(r, bs) := marshal Borsh t (VStruct [VNum 32; VNum 535; VNum 123]) in
  r = Ok tt /\ unmarshal Borsh t (zero_val t) bs = Ok (VStruct [VNum 32; VNum 0; VNum 123]).
Proof. run. Qed.
Example test_Empty : both (TStruct []) (VStruct []) [].
Proof. run. Qed.
(** TestStrings, TestSlices, /repo/borsh_test.go:1548-1594. *)
Definition returns_b (t : ty) (v : list Z -> val) (l : list Z) : bool :=
  match marshal Borsh t (v l) with
  | (Ok tt, bs) =>
      match unmarshal Borsh t (zero_val t) bs with
      | Ok (VStr l') => bytes_same l l'
      | Ok (VSlice None) => bytes_same l []
      | Ok (VSlice (Some vs)) => match nums vs with Some l' => bytes_same l l' | None => false end
      | _ => false
      end
  | _ => false
  end.
Example test_Strings :
  forallb (returns_b TString VStr)
    [str ""; str "a"; str "hellow world"; repeat 120 1024; repeat 120 4096; repeat 120 (Z.to_nat 65535);
     List.concat (repeat (str "hello world!") 1000); [0xF0; 0x9F; 0x8E; 0xAF]] = true.
Proof. vm_compute. reflexivity. Qed.
Example test_Slices :
  returns (TSlice i32) (VSlice None) /\
  forallb (fun p => returns_b (TSlice i32) (fun l => VSlice (Some (map VNum l))) (repeat (fst p) (snd p)))
    [(1000000000, 1%nat); (1000000001, 2%nat); (1000000002, 3%nat); (1000000003, 4%nat); (1000000004, 8%nat);
     (1000000005, 16%nat); (1000000006, 32%nat); (1000000007, 64%nat); (1000000008, 65%nat)] = true.
Proof. run. Qed.
(** TestUint128_old, /repo/borsh_test.go:1596-1613. *)
Example test_Uint128_old : returns Int128 (u128_val 32767 32767 None).
Proof. run. Qed.
(** TestCustomType, /repo/borsh_test.go:1615-1655. *)
Example test_CustomType :
  let u w := TUint UNamed w in let i w := TInt true w in
  returns (TStruct [fld "U8" (u W8); fld "U16" (u W16); fld "U32" (u W32); fld "U64" (u W64); fld "I8" (i W8);
                    fld "I16" (i W16); fld "I32" (i W32); fld "I64" (i W64)])
    (VStruct [VNum 1; VNum 2; VNum 3; VNum 4; VNum 5; VNum 6; VNum 7; VNum 8]).
Proof. run. Qed.
(** TestStringSlice, /repo/borsh_test.go:1657-1764. *)
Example test_StringSlice :
  let l := VSlice (Some [S_ "a"; S_ "b"; S_ "c"]) in
  let b := [3; 0; 0; 0] ++ [1; 0; 0; 0] ++ str "a" ++ [1; 0; 0; 0] ++ str "b" ++ [1; 0; 0; 0] ++ str "c" in
  let o := TStruct [fldt "A" "optional" (TPtr (TSlice TString))] in
  both (TSlice TString) l b /\ both (TStruct [fld "A" (TSlice TString)]) (VStruct [l]) b /\
  both o (VStruct [some l]) ([1] ++ b) /\ both o (VStruct [nil_]) [0].
Proof. run. Qed.
