(** Wire format of the library's own types (C56). *)
From Verif Require Import Types EncPrim DecPrim Enc Dec Builtin Spec Utf8Facts LibSpec LibFacts PropsCodec.
Notation length := Datatypes.length.

(** ** C56 *)

(** The specification [wire] refers to the methods of types that have them; for
    the types of the library the bytes and the value that comes back are these. *)
Theorem C56_format : forall E k sz o v, (E = Borsh -> o = LE) -> carries E k v ->
  ok E (lib_ty k) sz o v /\ wire E (lib_ty k) sz o v = lib_bytes E o k v /\
  forall p, fits (lib_ty k) p -> back E (lib_ty k) sz o p v = lib_back v.
Proof. exact lib_format. Qed.
Print Assumptions C56_format.

Theorem C56_pointer : forall E k sz o v, (E = Borsh -> o = LE) -> carries E k v ->
  ok E (TPtr (lib_ty k)) sz o (VPtr (Some v)) /\
  wire E (TPtr (lib_ty k)) sz o (VPtr (Some v)) = lib_bytes E o k v /\
  forall p, fits (TPtr (lib_ty k)) p ->
    back E (TPtr (lib_ty k)) sz o p (VPtr (Some v)) = VPtr (Some (lib_back v)).
Proof. exact lib_pointer. Qed.
Print Assumptions C56_pointer.

Theorem C56_marshal : forall E k v p post, carries E k v -> fits (lib_ty k) p ->
  marshal E (lib_ty k) v = (Ok tt, lib_bytes E LE k v) /\
  unmarshal E (lib_ty k) p (lib_bytes E LE k v ++ post) = Ok (lib_back v).
Proof. exact lib_marshal. Qed.
Print Assumptions C56_marshal.

(** SafeString takes any text and gives well-formed text. *)
Theorem C56_safe_string : forall E s post, bytes_ok s -> zlen s <= text_max E ->
  marshal E SafeString (VStr s) = (Ok tt, count E (zlen s) ++ s) /\
  exists s', unmarshal E SafeString (VStr []) ((count E (zlen s) ++ s) ++ post) = Ok (VStr s') /\
    utf8 s' /\ (utf8 s -> s' = s).
Proof. exact safe_string_any. Qed.
Print Assumptions C56_safe_string.

Theorem C56_nonempty : forall E k o v, carries E k v -> (lib_bytes E o k v = [] <-> k = LEmptyVariant).
Proof. exact lib_nonempty. Qed.
Print Assumptions C56_nonempty.

(** Each type, marshalled by the model, and as a field of either byte order. *)
Example C56_values :
  let m E t v := snd (marshal E t v) in
  (m Bin SafeString (VStr [104; 105]), m CompactU16 HexBytes (VSlice (Some [VNum 9; VNum 8])),
   m Borsh SafeString (VStr [104; 105]), m Bin Varint16 (VNum (-300)), m Borsh Varuint32 (VNum 300),
   m Bin Int64 (VNum (-2)), m Bin Uint128 (VStruct [VNum 1; VNum 2; VIface None]),
   m Bin (TPtr EmptyVariant) (VPtr (Some (VStruct [])))) =
  ([2; 104; 105], [2; 9; 8], [2; 0; 0; 0; 104; 105], [215; 4], [172; 2],
   [254; 255; 255; 255; 255; 255; 255; 255],
   [1; 0; 0; 0; 0; 0; 0; 0; 2; 0; 0; 0; 0; 0; 0; 0], []).
Proof. vm_compute. reflexivity. Qed.
Definition c56_struct (n : string) : ty := TStruct
  [ tagged "A" n Int64; tagged "B" n Uint128; tagged "C" n JSONFloat64; tagged "D" n (TPtr Uint64);
    tagged "E" n Varuint16 ].
Definition c56_value : val := VStruct
  [ VNum 258; VStruct [VNum 3; VNum 4; VIface (Some 1)]; VFloat 5; VPtr (Some (VNum 6)); VNum 7 ].
Example C56_fields :
  (snd (marshal Bin (c56_struct "big") c56_value), snd (marshal CompactU16 (c56_struct "") c56_value)) =
  (fixed BE 8 258 ++ fixed BE 16 (3 + 4 * 2 ^ 64) ++ fixed BE 8 5 ++ fixed BE 8 6 ++ [7],
   fixed LE 8 258 ++ fixed LE 16 (3 + 4 * 2 ^ 64) ++ fixed LE 8 5 ++ fixed LE 8 6 ++ [7]).
Proof. vm_compute. reflexivity. Qed.
Example C56_fields_back :
  unmarshal Bin (c56_struct "big") (zero_val (c56_struct "big")) (snd (marshal Bin (c56_struct "big") c56_value)) =
  Ok (VStruct [ VNum 258; VStruct [VNum 3; VNum 4; VIface None]; VFloat 5; VPtr (Some (VNum 6)); VNum 7 ]).
Proof. vm_compute. reflexivity. Qed.
(** Malformed text: the byte 255 comes back as U+FFFD. *)
Example C56_malformed :
  unmarshal Bin SafeString (VStr []) (snd (marshal Bin SafeString (VStr [97; 255]))) = Ok (VStr [97; 239; 191; 189]).
Proof. vm_compute. reflexivity. Qed.
Example C56_carries : forall E, carries E LVarint32 (VNum (- 2 ^ 31)) /\ carries E LHexBytes (VSlice (Some [VNum 255])).
Proof.
  intro E. split; [constructor; lia|]. apply (car_hex E [255]).
  - repeat constructor; lia.
  - destruct E; unfold zlen; cbn; lia.
Qed.
