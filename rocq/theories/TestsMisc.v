(** Replays of the library's other Go tests in the model (checks of the model,
    not proofs of properties): compact-u16_test.go, interface_test.go,
    parse_test.go, sighash_test.go, u128_test.go, utils_test.go,
    variant_test.go.  heck_test.go and the case tables of sighash_test.go are
    at the end of Heck.v. *)
From Coq Require Import String.
From Verif Require Import Types Compact EncPrim DecPrim Enc Dec Builtin Text Tools U128 Json Heck Sighash Variant StructTag Ops Tests TestsDec TestsEnc.

(** TestCompactU16, /repo/compact-u16_test.go:25-75: every length
    of one byte and every 257th of the others (coqchk would compute for hours
    on all of them, which C17 covers). *)
Definition compact_ok (n : Z) : bool :=
  match encode_compact_u16 [] n with
  | (b, None) =>
      let buf := b ++ str "hello world" in
      match decode_compact_u16 buf, decode_compact_u16_reader EEOF buf with
      | inr (l, _), (inr l', _) => (l =? n) && (l' =? n)
      | _, _ => false
      end
  | _ => false
  end.
Example test_CompactU16 : forallb (fun k => compact_ok (Z.of_nat k)) (seq 0 130) &&
  forallb (fun k => compact_ok (Z.of_nat k * 257)) (seq 0 256) = true.
Proof. vm_compute. reflexivity. Qed.
(** TestShortVecEncodeLen, TestDeserialize, /repo/compact-u16_test.go:125-224. *)
Definition good (n : Z) (b : list Z) : bool :=
  match decode_compact_u16 b, decode_compact_u16_reader EEOF b with
  | inr (l, _), (inr l', _) => (l =? n) && (l' =? n)
  | _, _ => false
  end.
Definition bad (b : list Z) : bool :=
  match decode_compact_u16 b, decode_compact_u16_reader EEOF b with inl _, (inl _, _) => true | _, _ => false end.
Example test_ShortVecEncodeLen :
  forallb (fun p => bytes_same (fst (encode_compact_u16 [] (fst p))) (snd p) && good (fst p) (snd p))
    [(0x0, [0x0]); (0x7f, [0x7f]); (0x80, [0x80; 0x01]); (0xff, [0xff; 0x01]); (0x100, [0x80; 0x02]);
     (0x7fff, [0xff; 0xff; 0x01]); (0xffff, [0xff; 0xff; 0x03])] = true.
Proof. vm_compute. reflexivity. Qed.
Example test_Deserialize :
  forallb (fun p => good (fst p) (snd p))
    [(0x0000, [0x00]); (0x007f, [0x7f]); (0x0080, [0x80; 0x01]); (0x00ff, [0xff; 0x01]); (0x0100, [0x80; 0x02]);
     (0x07ff, [0xff; 0x0f]); (0x3fff, [0xff; 0x7f]); (0x4000, [0x80; 0x80; 0x01]); (0xffff, [0xff; 0xff; 0x03])] &&
  forallb bad
    [[0x80; 0x00]; [0x80; 0x80; 0x00]; [0xff; 0x00]; [0xff; 0x80; 0x00]; [0x80; 0x81; 0x00]; [0xff; 0x81; 0x00];
     [0x80; 0x82; 0x00]; [0xff; 0x8f; 0x00]; [0xff; 0xff; 0x00]; []; [0x80]; [0x80; 0x80; 0x80; 0x00];
     [0x80; 0x80; 0x04]; [0x80; 0x80; 0x06]] = true.
Proof. vm_compute. reflexivity. Qed.

(** TestMarshalWithEncoder, TestUnmarshalWithDecoder, /repo/interface_test.go:25-151. *)
Definition Example_ : ty :=
  TCodec
    (simple_codec
       (fun v => match v with
                 | VStruct [VNum p; VNum n] => write_byte p ;;; write_uint 4 n BE
                 | _ => stuck
                 end)
       (p <- read_byte ;; n <- read_uint 4 BE ;; ret (VStruct [VNum p; VNum n])))
    (TStruct [fld "Prefix" u8; fld "Value" u32]).
Definition testCustomCoder : ty :=
  TCodec
    (simple_codec (fun _ => write_bytes_nolen (str "this is a test")) (ret (VStruct [S_ "hello world"])))
    (TStruct [(mkF "val" false notag, TString)]).
Example test_MarshalWithEncoder :
  wrote Bin [OpEncode (TPtr Example_) (some (VStruct [VNum 0xaa; VNum 72]))] = [0xaa; 0x00; 0x00; 0x00; 0x48] /\
  forallb (fun E =>
    bytes_same (wrote E [OpEncode (TPtr testCustomCoder) (some (VStruct [S_ ""]))]) (str "this is a test") &&
    bytes_same (wrote E [OpEncode testCustomCoder (VStruct [S_ ""])]) (str "this is a test")) [Bin; Borsh] = true.
Proof. vm_compute. auto. Qed.
Example test_UnmarshalWithDecoder :
  on Bin [0xaa; 0x00; 0x00; 0x00; 0x48] (left (decode Example_ (VStruct [VNum 0; VNum 0]))) =
    Ok (VStruct [VNum 0xaa; VNum 72], 0) /\
  map (fun E => unmarshal E testCustomCoder (VStruct [S_ ""]) [0xaa; 0x00; 0x00; 0x00; 0x48]) [Bin; Borsh] =
    [Ok (VStruct [S_ "hello world"]); Ok (VStruct [S_ "hello world"])].
Proof. vm_compute. auto. Qed.

(** Test_parseFieldTag, /repo/parse_test.go:25-78. *)
Example test_parseFieldTag :
  map (fun t => parse_field_tag (rawtag_of (str t)))
    [""; "bin:""-"""; "bin:""sizeof=Tokens"""; "bin:""optional"""; "bin:""optional sizeof=Nodes"""]%string =
  [ mkFT "" false LE false false false false; mkFT "" true LE false false false false;
    mkFT "Tokens" false LE false false false false; mkFT "" false LE true false false false;
    mkFT "Nodes" false LE true false false false ].
Proof. vm_compute. reflexivity. Qed.

(** TestSighash, /repo/sighash_test.go:24-116. *)
Example test_Sighash :
  forallb (fun p =>
    bytes_same (sighash global_namespace (to_snake_for_sighash latin1 (str (fst p)))) (snd p) &&
    bytes_same (sighash_instruction latin1 (str (fst p))) (snd p))
    [("hello"%string, [149; 118; 59; 220; 196; 127; 161; 179]);
     ("serumSwap"%string, [88; 183; 70; 249; 214; 118; 82; 210]);
     ("aldrinV2Swap"%string, [190; 166; 89; 139; 33; 152; 16; 10]);
     ("raydiumSwapV2"%string, [69; 227; 98; 93; 237; 202; 223; 140])] = true /\
  sighash account_namespace (str "DialectAccount") = [157; 38; 120; 189; 93; 204; 119; 18] /\
  sighash_account latin1 (str "DialectAccount") = [157; 38; 120; 189; 93; 204; 119; 18].
Proof. vm_compute. auto. Qed.

(** TestUint128, /repo/u128_test.go:11-64.  (json.Unmarshal of the object hands
    the quoted text to UnmarshalJSON.  Decoding does not keep the byte order of
    the destination, which the test does not look at.) *)
Definition u128_data := [51; 47; 223; 255; 255; 255; 255; 255; 30; 12; 0; 0; 0; 0; 0; 0].
Example test_Uint128_json :
  let num := "57240246860720736513843"%string in
  let lo := 18446744073707401011 in
  on Borsh u128_data (u128_unmarshal false (u128_val 0 0 (Some 0))) = Ok (u128_val lo 3102 None) /\
  on Borsh (rev u128_data) (u128_unmarshal false (u128_val 0 0 (Some 1))) = Ok (u128_val lo 3102 None) /\
  map (u128_bigint lo 3102) [LE; BE] = [57240246860720736513843; 57240246860720736513843] /\
  map (u128_string lo 3102) [LE; BE] = [str num; str num] /\
  u128_unmarshal_json 0 0 LE (quoted (str num)) = Ok (lo, 3102) /\
  u128_marshal_json lo 3102 LE = quoted (str num).
Proof. vm_compute. repeat split. Qed.

(** Test_twosComplement, /repo/utils_test.go:23-52. *)
Example test_twosComplement :
  map twos_complement [[]; [0x01]; [0xaa; 0xbb; 0xcc]] = [[0x1]; [0xff]; [0x55; 0x44; 0x34]].
Proof. vm_compute. reflexivity. Qed.

(** TestTypeID, /repo/variant_test.go:29-85. *)
Example test_TypeID :
  let ha := sighash global_namespace (str "hello") in
  type_id_from_sighash ha = ha /\ type_id_equal (type_id_from_sighash ha) ha = true /\
  uint32_from_type_id (type_id_from_uint32 66 LE) LE = 66 /\
  match type_id_from_uvarint32 66 with Ok id => uvarint32_from_type_id id = 66 | _ => False end /\
  type_id_from_bytes [] = [0; 0; 0; 0; 0; 0; 0; 0] /\
  type_id_from_bytes [1; 2; 3; 4; 5; 6; 7; 8] = [1; 2; 3; 4; 5; 6; 7; 8] /\
  uint8_from_type_id (type_id_from_uint8 33) = 33 /\
  type_id_equal (type_id_from_sighash ha) (sighash global_namespace (str "world")) = false.
Proof. vm_compute. repeat split. Qed.

(** TestDecode_Variant, TestEncode_Variant, /repo/variant_test.go:87-292.  The
    Impl interface of a Node is one of three pointer types; the model's [Node]
    has a field for each. *)
Definition NodeLeft : ty := TStruct [fld "Key" u32; fld "Description" TString].
Definition NodeRight : ty := TStruct [fld "Owner" u64; fld "Padding" (TArray 2 u8); fld "Quantity" Uint64].
Definition NodeInner : ty := TStruct [fld "Key" Uint128].
Definition NodeVariantDef : outcome variant_def :=
  new_variant_definition IdUint32
    [mkVT (str "left_node") (Some (TPtr NodeLeft)); mkVT (str "right_node") (Some (TPtr NodeRight));
     mkVT (str "inner_node") (Some (TPtr NodeInner))].
Definition type_id_val (id : list Z) : val := VSeq (map VNum id).
Definition Node : ty :=
  TCodec
    (mkCodec
       (Some (fun v =>
          match v with
          | VStruct [VSeq id; l; r; i] =>
              match nums id with
              | Some id =>
                  write_uint 4 (uint32_from_type_id id LE) LE ;;;
                  match l, r, i with
                  | VPtr (Some _), _, _ => encode (TPtr NodeLeft) l
                  | _, VPtr (Some _), _ => encode (TPtr NodeRight) r
                  | _, _, _ => encode (TPtr NodeInner) i
                  end
              | None => stuck
              end
          | _ => stuck
          end))
       false panic
       (Some (fun _ =>
          match NodeVariantDef with
          | Ok d =>
              b <- unmarshal_binary_variant d ;;
              match bv_impl b with
              | Some (_, v) =>
                  let at_ k := if uint32_from_type_id (bv_id b) LE =? k then v else nil_ in
                  ret (VStruct [type_id_val (bv_id b); at_ 0; at_ 1; at_ 2])
              | None => stuck
              end
          | _ => panic
          end)))
    (TStruct [fld "TypeID" (TArray 8 u8); fld "Left" (TPtr NodeLeft); fld "Right" (TPtr NodeRight);
              fld "Inner" (TPtr NodeInner)]).
Definition Tree : ty := TStruct
  [fld "Padding" (TArray 5 u8); fldt "NodeCount" "sizeof=Nodes" u32; fld "Random" u64; fld "Nodes" (TSlice (TPtr Node))].
Definition Forest : ty := TStruct [fld "T" Tree].
Definition left_node (k : Z) (s : string) : val :=
  some (VStruct [type_id_val (type_id_from_uint32 0 LE); some (VStruct [VNum k; S_ s]); nil_; nil_]).
Definition right_node (o q : Z) : val :=
  some (VStruct [type_id_val (type_id_from_uint32 1 LE); nil_;
                 some (VStruct [VNum o; VSeq [VNum 0; VNum 0]; VNum q]); nil_]).
Definition inner_node (k : Z) : val :=
  some (VStruct [type_id_val (type_id_from_uint32 2 LE); nil_; nil_; some (VStruct [u128_val k 0 None])]).
Definition forest : val := VStruct [VStruct
  [ VSeq (map VNum [0x73; 0x65; 0x72; 0x75; 0x6d]); VNum 5; VNum 65535;
    VSlice (Some [left_node 3 "abc"; right_node 3 13; right_node 82 923; inner_node 999999999999999;
                  inner_node 983623123129123]) ]].
Definition forest_b : list Z :=
  [0x73; 0x65; 0x72; 0x75; 0x6d; 0x05; 0x00; 0x00; 0x00; 0xff; 0xff; 0x00; 0x00; 0x00; 0x0; 0x00; 0x00;
   0x00; 0x00; 0x00; 0x00; 0x03; 0x00; 0x00; 0x00; 0x03; 0x00; 0x00; 0x00; 0x00; 0x00; 0x00; 0x00; 0x61; 0x62; 0x63;
   0x01; 0x00; 0x00; 0x00; 0x03; 0x00; 0x00; 0x00; 0x00; 0x00; 0x00; 0x00; 0x00; 0x00; 0x0d; 0x00; 0x00; 0x00; 0x00;
   0x00; 0x00; 0x00;
   0x01; 0x00; 0x00; 0x00; 0x52; 0x00; 0x00; 0x00; 0x00; 0x00; 0x00; 0x00; 0x00; 0x00; 0x9b; 0x03; 0x00; 0x00; 0x00;
   0x00; 0x00; 0x00;
   0x02; 0x00; 0x00; 0x00; 0xff; 0x7f; 0xc6; 0xa4; 0x7e; 0x8d; 0x03; 0x00; 0x00; 0x00; 0x00; 0x00; 0x00; 0x00; 0x00;
   0x00;
   0x02; 0x00; 0x00; 0x00; 0x23; 0xd3; 0xd8; 0x9a; 0x99; 0x7e; 0x03; 0x00; 0x00; 0x00; 0x00; 0x00; 0x00; 0x00; 0x00;
   0x00].
Example test_Decode_Variant : on Bin forest_b (left (decode Forest (zero_val Forest))) = Ok (forest, 0).
Proof. vm_compute. reflexivity. Qed.
Example test_Encode_Variant : wrote Bin [OpEncode (TPtr Forest) (some forest)] = forest_b.
Proof. vm_compute. reflexivity. Qed.
(** TestDecode_UnexporterStruct, TestEncode_UnexporterStruct,
    /repo/variant_test.go:294-315. *)
Example test_UnexportedStruct :
  let t := TStruct [(mkF "value" false notag, u32)] in
  on Bin [5; 0; 0; 0] (left (decode t (zero_val t))) = Ok (VStruct [VNum 0], 4) /\
  wrote Bin [OpEncode (TPtr t) (some (VStruct [VNum 5]))] = [].
Proof. vm_compute. auto. Qed.

(** The case of /repo/sighash_test.go:168 with characters outside Latin-1: for
    it the tables of Latin-1, with the two rows it needs (931 is a capital
    sigma, 963 the small one, 0xFB04 the small ligature ffl, whose capital form
    is itself). *)
Definition with_sigma : unicode := mkUC
  (fun c => (c =? 931) || (c =? 963) || (c =? 0xFB04) || uc_letter latin1 c)
  (uc_digit latin1)
  (fun c => (c =? 931) || uc_upper latin1 c)
  (fun c => (c =? 963) || (c =? 0xFB04) || uc_lower latin1 c)
  (fun c => if c =? 963 then 931 else uc_to_upper latin1 c)
  (fun c => if c =? 931 then 963 else uc_to_lower latin1 c).
Example test_ToSnake_sigma :
  to_snake_for_sighash with_sigma
    ([88; 0xCE; 0xA3; 88; 0xCE; 0xA3; 32; 98; 97] ++ [0xEF; 0xAC; 0x84] ++ [101]) =
  [120; 0xCF; 0x83; 120; 0xCF; 0x83; 95; 98; 97] ++ [0xEF; 0xAC; 0x84] ++ [101].
Proof. vm_compute. reflexivity. Qed.
