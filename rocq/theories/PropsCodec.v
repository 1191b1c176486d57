(** Round trips, streams, wire format, injectivity (C01-C05, C08, C48). *)
From Verif Require Import Types EncPrim DecPrim Enc Dec Builtin Spec RoundTrip Check RoundTripProps.

(** ** C01-C03: round trip of one value *)

Theorem C01_bin_round_trip : forall t v,
  ok Bin t None LE v ->
  exists b c,
    marshal Bin t v = (Ok tt, b) /\
    decode t (zero_val t) (new_decoder Bin b) =
      (Ok (back Bin t None LE (zero_val t) v), mkD b (zlen b) c Bin) /\
    (canon Bin t None LE v -> unmarshal Bin t (zero_val t) b = Ok v).
Proof. exact (round_trip Bin). Qed.
Print Assumptions C01_bin_round_trip.

Theorem C02_compact_round_trip : forall t v,
  ok CompactU16 t None LE v ->
  exists b c,
    marshal CompactU16 t v = (Ok tt, b) /\
    decode t (zero_val t) (new_decoder CompactU16 b) =
      (Ok (back CompactU16 t None LE (zero_val t) v), mkD b (zlen b) c CompactU16) /\
    (canon CompactU16 t None LE v -> unmarshal CompactU16 t (zero_val t) b = Ok v).
Proof. exact (round_trip CompactU16). Qed.
Print Assumptions C02_compact_round_trip.

Theorem C03_borsh_round_trip : forall t v,
  ok Borsh t None LE v ->
  exists b c,
    marshal Borsh t v = (Ok tt, b) /\
    decode t (zero_val t) (new_decoder Borsh b) =
      (Ok (back Borsh t None LE (zero_val t) v), mkD b (zlen b) c Borsh) /\
    (canon Borsh t None LE v -> unmarshal Borsh t (zero_val t) b = Ok v).
Proof. exact (round_trip Borsh). Qed.
Print Assumptions C03_borsh_round_trip.

(** A struct with most features. *)
Definition tagged (n tag : string) (t : ty) : fhdr * ty := (mkF n true (mkTag tag "" ""), t).
Definition plain (n : string) (t : ty) : fhdr * ty := (mkF n true notag, t).
Definition hidden (n : string) (t : ty) : fhdr * ty := (mkF n false notag, t).
Definition u8 := TUint UPlain W8.
Definition sample (t : ty) : ty := TStruct
  [ tagged "Len" "sizeof=Items" (TUint UPlain W16);
    tagged "Price" "big" (TInt false W32);
    tagged "Note" "optional" (TPtr TString);
    tagged "Nope" "optional" (TPtr TString);
    tagged "Cache" "-" TString;
    plain "Items" (TSlice (TInt false W16));
    plain "Raw" (TSlice u8);
    plain "Grid" (TArray 2 (TArray 2 TBool));
    plain "Index" (TMap TString (TFloat F64));
    hidden "mu" (TInt false W64);
    plain "Next" t;
    tagged "Ext" "binary_extension" (TUint UPlain W32) ].
Definition sample_v (v : val) : val := VStruct
  [ VNum 3; VNum (-2); VPtr (Some (VStr [104; 105])); VPtr None; VStr [120];
    VSlice (Some [VNum (-1); VNum 7; VNum 300]);
    VSlice (Some [VNum 1; VNum 255]);
    VSeq [VSeq [VBool true; VBool false]; VSeq [VBool false; VBool true]];
    VMap (Some [(VStr [97], VFloat 0); (VStr [98], VFloat 4611686018427387904)]);
    VNum 99; v; VNum 5 ].

Example C01_case :
  let t := sample (TPtr (TInt false W8)) in
  let v := sample_v (VPtr (Some (VNum (-3)))) in
  ok Bin t None LE v /\
  snd (marshal Bin t v) =
  [3;0; 255;255;255;254; 1;0;0;0; 2;0;0;0;0;0;0;0;104;105; 0;0;0;0;
   255;255; 7;0; 44;1; 2;1;255; 1;0;0;1;
   2; 1;0;0;0;0;0;0;0;97; 0;0;0;0;0;0;0;0; 1;0;0;0;0;0;0;0;98; 0;0;0;0;0;0;0;64;
   253; 5;0;0;0].
Proof. split; [apply okb_ok|]; vm_compute; reflexivity. Qed.

Example C02_case :
  let t := sample (TPtr (TInt false W8)) in
  let v := sample_v (VPtr (Some (VNum (-3)))) in
  ok CompactU16 t None LE v /\
  snd (marshal CompactU16 t v) =
  [3;0; 255;255;255;254; 1; 2;104;105; 0;
   255;255; 7;0; 44;1; 2;1;255; 1;0;0;1;
   2; 1;97; 0;0;0;0;0;0;0;0; 1;98; 0;0;0;0;0;0;0;64;
   253; 5;0;0;0].
Proof. split; [apply okb_ok|]; vm_compute; reflexivity. Qed.

(** Borsh has no big endian. *)
Definition bsample : ty := TStruct
  [ tagged "Len" "sizeof=Items" (TUint UPlain W16);
    tagged "Note" "optional" (TPtr TString);
    tagged "Nope" "coption" (TPtr TString);
    plain "Items" (TSlice (TInt false W16));
    plain "Index" (TMap TString u8);
    plain "Choice" (TStruct
      [ (mkF "Enum" true (mkTag "" "" "true"), BorshEnum);
        plain "A" (TPtr (TStruct [plain "X" u8]));
        plain "B" (TPtr (TStruct [plain "Y" TString])) ]) ].
Definition bsample_v : val := VStruct
  [ VNum 2; VPtr (Some (VStr [104; 105])); VPtr None;
    VSlice (Some [VNum (-1); VNum 7]);
    VMap (Some [(VStr [98], VNum 1); (VStr [97; 97], VNum 2)]);
    VStruct [VNum 1; VPtr None; VPtr (Some (VStruct [VStr [122]]))] ].
Example C03_case :
  ok Borsh bsample None LE bsample_v /\
  snd (marshal Borsh bsample bsample_v) =
  [2;0; 1;2;0;0;0;104;105; 0;0;0;0; 255;255;7;0;
   2;0;0;0; 2;0;0;0;97;97;2; 1;0;0;0;98;1;
   1; 1;0;0;0;122].
Proof. split; [apply okb_ok|]; vm_compute; reflexivity. Qed.

(** The exact round trip: a canonical value. *)
Example C03_canonical :
  let t := TStruct [plain "M" (TMap u8 TString); plain "S" (TSlice TString);
                    tagged "P" "optional" (TPtr u8)] in
  let v := VStruct [VMap (Some [(VNum 1, VStr [65]); (VNum 2, VStr [])]);
                    VSlice (Some [VStr [66]]); VPtr None] in
  ok Borsh t None LE v /\ canon Borsh t None LE v.
Proof.
  split; [apply okb_ok; vm_compute; reflexivity|].
  eexists; split; [reflexivity|]. cbn -[entries]. repeat split.
  - right. eexists. repeat split; [discriminate|repeat constructor].
  - right. eexists. repeat split; [discriminate|repeat constructor].
Qed.

(** ** C04: streams *)

Theorem C04_streams : forall E l,
  Forall (fun tv => ok E (fst tv) None LE (snd tv)) l ->
  exists s c,
    encode_all l (new_encoder E buffer) = (Ok tt, s) /\
    decode_all (map (fun tv => (fst tv, zero_val (fst tv))) l) (new_decoder E (e_acc s)) =
      (Ok (map (fun tv => back E (fst tv) None LE (zero_val (fst tv)) (snd tv)) l),
       mkD (e_acc s) (zlen (e_acc s)) c E).
Proof. exact streams. Qed.
Print Assumptions C04_streams.

Example C04_case :
  Forall (fun tv => ok CompactU16 (fst tv) None LE (snd tv))
    [(TString, VStr [65]); (TInt false W16, VNum (-2)); (TSlice TBool, VSlice None)].
Proof. repeat constructor; apply okb_ok; vm_compute; reflexivity. Qed.

(** ** C05: the bytes are those of the format *)

Theorem C05_wire_format : forall E t v w c n hist acc,
  ok E t None LE v -> reliable w ->
  exists cs c',
    List.concat cs = wire E t None LE v /\
    encode t v (mkE E w c n hist acc) =
      (Ok tt, mkE E w c' (n + zlen (List.concat cs)) (hist ++ cs) (acc ++ List.concat cs)).
Proof. exact encode_format. Qed.
Print Assumptions C05_wire_format.

Example C05_case :
  wire Bin (TStruct [tagged "A" "big" (TUint UPlain W16); plain "B" (TSlice TString)]) None LE
    (VStruct [VNum 258; VSlice (Some [VStr [65; 66]])]) =
  [1;2; 1; 2;0;0;0;0;0;0;0;65;66].
Proof. vm_compute. reflexivity. Qed.

(** ** C08: injective and prefix free *)

Theorem C08_injective : forall E t v1 v2 b1 b2 r1 r2,
  ok E t None LE v1 -> ok E t None LE v2 ->
  marshal E t v1 = (Ok tt, b1) -> marshal E t v2 = (Ok tt, b2) ->
  b1 ++ r1 = b2 ++ r2 ->
  b1 = b2 /\
  back E t None LE (zero_val t) v1 = back E t None LE (zero_val t) v2 /\
  (canon E t None LE v1 -> canon E t None LE v2 -> v1 = v2).
Proof. exact injective. Qed.
Print Assumptions C08_injective.

Example C08_case :
  let t := TStruct [plain "A" (TSlice u8); plain "B" (TSlice u8)] in
  marshal Bin t (VStruct [VSlice (Some [VNum 1]); VSlice (Some [])]) = (Ok tt, [1; 1; 0]) /\
  marshal Bin t (VStruct [VSlice (Some []); VSlice (Some [VNum 0])]) = (Ok tt, [0; 1; 0]).
Proof. split; vm_compute; reflexivity. Qed.

(** ** C48: reused destinations *)

(** What is decoded into a used variable, for a value whose bytes are in the
    middle of the data. *)
Theorem C48_reused_destination : forall E t v p pre post c,
  ok E t None LE v -> fits t p ->
  exists c',
    decode t p (mkD (pre ++ wire E t None LE v ++ post) (zlen pre) c E) =
      (Ok (back E t None LE p v),
       mkD (pre ++ wire E t None LE v ++ post)
           (zlen pre + zlen (wire E t None LE v)) c' E).
Proof. exact reused. Qed.
Print Assumptions C48_reused_destination.

(** If the value overwrites everything, the old contents do not matter. *)
Theorem C48_overwritten : forall E t v p p' pre post c,
  ok E t None LE v -> fills E t None LE v -> fits t v -> fits t p -> fits t p' ->
  fst (decode t p (mkD (pre ++ wire E t None LE v ++ post) (zlen pre) c E)) =
  fst (decode t p' (mkD (pre ++ wire E t None LE v ++ post) (zlen pre) c E)).
Proof. exact overwritten. Qed.
Print Assumptions C48_overwritten.

Example C48_case :
  let t := TStruct [plain "A" (TPtr (TSlice u8)); plain "B" (TMap u8 u8)] in
  let v := VStruct [VPtr (Some (VSlice (Some [VNum 1]))); VMap (Some [(VNum 3, VNum 4)])] in
  let p := VStruct [VPtr (Some (VSlice (Some [VNum 9; VNum 9]))); VMap (Some [(VNum 1, VNum 2)])] in
  ok Borsh t None LE v /\ fills Borsh t None LE v /\ fits t v /\ fits t p /\
  unmarshal Borsh t p (wire Borsh t None LE v) = Ok v.
Proof.
  repeat split; try (apply okb_ok; vm_compute; reflexivity); try (apply fitsb_ok; vm_compute; reflexivity);
    right; exact I.
Qed.

(** What is left over: an empty Borsh slice, an empty map, a skipped field. *)
Example C48_leftovers :
  unmarshal Borsh (TSlice u8) (VSlice (Some [VNum 9])) (snd (marshal Borsh (TSlice u8) (VSlice (Some [])))) =
    Ok (VSlice (Some [VNum 9])) /\
  unmarshal Bin (TMap u8 u8) (VMap (Some [(VNum 1, VNum 2)])) (snd (marshal Bin (TMap u8 u8) (VMap None))) =
    Ok (VMap (Some [(VNum 1, VNum 2)])) /\
  let t := TStruct [tagged "A" "-" u8; plain "B" u8] in
  unmarshal Bin t (VStruct [VNum 7; VNum 7]) (snd (marshal Bin t (VStruct [VNum 1; VNum 2]))) =
    Ok (VStruct [VNum 7; VNum 2]).
Proof. repeat split; vm_compute; reflexivity. Qed.
