(** Types that are written alike: C77. *)
From Coq Require Import String.
From Verif Require Import Types EncPrim DecPrim Enc Dec Builtin Spec Check SameSpec SameFacts PropsCodec.
Notation length := Datatypes.length.
Open Scope string_scope.

(** [same E o t v t' v'] is generated by equations (SameSpec.v): numbers of
    either sign, bools and floats as numbers, strings as byte slices, defined
    types, pointers, maps as slices of pairs, renamed, added and removed fields
    that do not take part, nested structs and their fields, arrays and structs,
    optional fields as flag and value, Borsh enums as number and value. *)
Theorem C77_bytes : forall E t v t' v', same E LE t v t' v' -> ok E t None LE v -> ok E t' None LE v' ->
  marshal E t v = marshal E t' v'.
Proof. exact same_marshal. Qed.
Print Assumptions C77_bytes.
(** What was written as [v] is read as [v']. *)
Theorem C77_read : forall E t v t' v' p, same E LE t v t' v' -> ok E t None LE v -> ok E t' None LE v' -> fits t' p ->
  exists b, marshal E t v = (Ok tt, b) /\ unmarshal E t' p b = Ok (back E t' None LE p v').
Proof. exact same_unmarshal. Qed.
Print Assumptions C77_read.
(** The bytes of the format, whether or not they can be read back. *)
Theorem C77_wire : forall E o t v t' v', same E o t v t' v' -> wire E t None o v = wire E t' None o v'.
Proof. exact same_wire. Qed.
Print Assumptions C77_wire.
(** Variants added at the end of a Borsh enum. *)
Theorem C77_more_variants : forall o f fs gs z vs ws, enum_struct Borsh (f :: fs) = true -> 0 <= z < 256 -> z < zlen fs ->
  length vs = length fs ->
  same Borsh o (TStruct (f :: fs)) (VStruct (VNum z :: vs)) (TStruct (f :: fs ++ gs)%list) (VStruct (VNum z :: vs ++ ws)%list).
Proof. exact same_more_variants. Qed.
Print Assumptions C77_more_variants.

(** A struct before and after some rewriting: a nested struct is taken apart and
    its fields renamed, a field that is skipped is dropped, a string becomes a
    byte slice, an optional number a flag and a number, a map a slice of pairs. *)
Definition c77_before : ty := TStruct
  [ plain "ID" (TUint UPlain W16);
    plain "Pos" (TStruct [plain "X" (TInt false W32); tagged "Note" "-" TString; plain "Label" TString]);
    tagged "Age" "optional" (TUint UPlain W8);
    plain "Flags" (TMap TString TBool) ].
Definition c77_after : ty := TStruct
  [ plain "ID" (TUint UPlain W16); plain "X" (TUint UPlain W32); plain "Name" (TSlice u8);
    plain "HasAge" TBool; plain "Age" (TUint UPlain W8);
    plain "Flags" (TSlice (TStruct [plain "Key" TString; plain "Value" TBool])) ].
Definition c77_v : val := VStruct
  [ VNum 7; VStruct [VNum (-2); VStr []; VStr [104; 105]]; VNum 40;
    VMap (Some [(VStr [98], VBool true); (VStr [97], VBool false)]) ].
Definition c77_v' : val := VStruct
  [ VNum 7; VNum 4294967294; VSlice (Some [VNum 104; VNum 105]); VBool true; VNum 40;
    VSlice (Some [VStruct [VStr [97]; VBool false]; VStruct [VStr [98]; VBool true]]) ].
Ltac simp := split; [reflexivity|repeat constructor].
Example C77_sample : same Borsh LE c77_before c77_v c77_after c77_v' /\
  ok Borsh c77_before None LE c77_v /\ ok Borsh c77_after None LE c77_v' /\
  marshal Borsh c77_before c77_v = (Ok tt,
    [7; 0; 254; 255; 255; 255; 2; 0; 0; 0; 104; 105; 1; 40; 2; 0; 0; 0; 1; 0; 0; 0; 97; 0; 1; 0; 0; 0; 98; 1]) /\
  marshal Borsh c77_after c77_v' = marshal Borsh c77_before c77_v /\
  unmarshal Borsh c77_after (zero_val c77_after) (snd (marshal Borsh c77_before c77_v)) = Ok c77_v'.
Proof.
  split.
  { unfold c77_before, c77_after, c77_v, c77_v', plain.
    apply same_fields; [simp..|].
    eapply same_trans; [eapply (same_nested Borsh LE LE); [repeat split|simp|simp|simp|reflexivity]|]. cbn [app].
    eapply same_trans; [apply same_field with (h' := mkF "X" true notag) (t' := TUint UPlain W32) (v' := VNum 4294967294);
      [repeat split|simp|simp|apply same_sym, same_number; reflexivity|discriminate]|].
    apply same_fields; [simp..|].
    eapply same_trans; [apply same_dead; [reflexivity|simp|simp]|].
    eapply same_trans; [apply same_field with (h' := mkF "Name" true notag) (t' := TSlice u8) (v' := VSlice (Some (map VNum [104; 105])));
      [repeat split|simp|simp|apply (same_text Borsh LE UPlain); [discriminate|do 2 (constructor; [unfold is_byte; lia|]); constructor]|discriminate]|].
    apply same_fields; [simp..|].
    eapply same_trans; [apply (same_some Borsh LE LE) with (h1 := mkF "HasAge" true notag) (h2 := mkF "Age" true notag);
      [reflexivity..|repeat split|repeat split|simp|simp]|].
    do 2 (apply same_fields; [simp..|]).
    apply same_field; [repeat split|simp|simp| |discriminate].
    pose proof (same_map Borsh LE TString TBool [(VStr [98], VBool true); (VStr [97], VBool false)]
      (mkF "Key" true notag) (mkF "Value" true notag)) as H.
    match type of H with _ -> _ -> _ -> same _ _ _ _ _ (VSlice (Some ?l)) =>
      assert (Hl : l = [VStruct [VStr [97]; VBool false]; VStruct [VStr [98]; VBool true]]) by (vm_compute; reflexivity) end.
    rewrite Hl in H. assert (Ho : ft_order (parse_field_tag (f_tag (mkF "Flags" true notag))) = LE) by reflexivity.
    rewrite Ho. apply H; [repeat split..|simp]. }
  split; [apply okb_ok; vm_compute; reflexivity|]. split; [apply okb_ok; vm_compute; reflexivity|].
  split; [vm_compute; reflexivity|]. split; vm_compute; reflexivity.
Qed.
(** An enum with two variants, and with three. *)
Definition c77_enum : fhdr * ty := (mkF "Enum" true (mkTag "" "" "true"), TUint UBorshEnum W8).
Example C77_enum_sample :
  let old := [plain "A" (TStruct []); plain "B" (TStruct [plain "N" (TUint UPlain W16)])] in
  let new := (old ++ [plain "C" TString])%list in
  let v := [VStruct []; VStruct [VNum 513]] in
  enum_struct Borsh (c77_enum :: old) = true /\
  marshal Borsh (TStruct (c77_enum :: old)) (VStruct (VNum 1 :: v)) = (Ok tt, [1; 1; 2]) /\
  marshal Borsh (TStruct (c77_enum :: new)) (VStruct (VNum 1 :: v ++ [VStr [65]])%list) = (Ok tt, [1; 1; 2]) /\
  unmarshal Borsh (TStruct (c77_enum :: new)) (zero_val (TStruct (c77_enum :: new))) [1; 1; 2] =
    Ok (VStruct (VNum 1 :: v ++ [VStr []])%list).
Proof. cbv zeta. repeat split; vm_compute; reflexivity. Qed.
(** Limits: in Bin strings have longer lengths than byte slices, and a field
    with another byte order cannot become an element of an array. *)
Theorem C77_text_refuted : exists s, bytes_ok s /\
  wire Bin TString None LE (VStr s) <> wire Bin (TSlice u8) None LE (VSlice (Some (map VNum s))).
Proof. exists []. split; [constructor|vm_compute; discriminate]. Qed.
Print Assumptions C77_text_refuted.
Theorem C77_order_refuted : exists h x, live h = true /\
  wire Bin (TStruct [(h, TInt false W16)]) None LE (VStruct [VNum x]) <> wire Bin (TArray 1 (TInt false W16)) None LE (VSeq [VNum x]).
Proof. exists (mkF "A" true (mkTag "big" "" "")), 1. split; [reflexivity|vm_compute; discriminate]. Qed.
Print Assumptions C77_order_refuted.
