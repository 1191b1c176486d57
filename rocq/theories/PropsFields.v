(** Struct fields and their tags: C28-C33, C53. *)
From Verif Require Import Types EncPrim DecPrim Enc Dec Builtin Spec NumFacts EncFacts EncWire DecWire Check
  RoundTrip EncProps PropsCodec FieldFacts EnumFacts TagFacts.

Local Open Scope string_scope.
Local Open Scope list_scope.

(** ** C28: optional fields *)

(** [h] is the field [h'] with the word optional (resp. coption) added to its
    tag; [accepts b s]: the writer takes the bytes [b]; [wrote b s]: the encoder
    after that; [visible]/[forget]: up to the current byte order. *)
Theorem C28_zero_absent : forall h h' t s, made_optional h h' ->
  enum_struct (e_enc s) [(h, t)] = false -> accepts (flag (e_enc s) false) s ->
  visible (encode (TStruct [(h, t)]) (VStruct [zero_val t]) s) =
  (Ok tt, forget (wrote (flag (e_enc s) false) s)).
Proof. exact optional_zero. Qed.
Print Assumptions C28_zero_absent.
Theorem C28_nonzero_present : forall h h' t v s, made_optional h h' ->
  enum_struct (e_enc s) [(h, t)] = false -> no_deep t = true -> fits t v -> v <> zero_val t ->
  accepts (flag (e_enc s) true) s ->
  encode (TStruct [(h, t)]) (VStruct [v]) s =
  encode (TStruct [(h', t)]) (VStruct [v]) (wrote (flag (e_enc s) true) s).
Proof. exact optional_nonzero. Qed.
Print Assumptions C28_nonzero_present.
Theorem C28_coption_zero_absent : forall h h' t s, made_coptional h h' -> e_enc s = Borsh ->
  enum_struct Borsh [(h, t)] = false -> accepts (cflag false) s ->
  visible (encode (TStruct [(h, t)]) (VStruct [zero_val t]) s) =
  (Ok tt, forget (wrote (cflag false) s)).
Proof. exact coptional_zero. Qed.
Print Assumptions C28_coption_zero_absent.
Theorem C28_coption_nonzero_present : forall h h' t v s, made_coptional h h' -> e_enc s = Borsh ->
  enum_struct Borsh [(h, t)] = false -> no_deep t = true -> fits t v -> v <> zero_val t ->
  accepts (cflag true) s ->
  encode (TStruct [(h, t)]) (VStruct [v]) s =
  encode (TStruct [(h', t)]) (VStruct [v]) (wrote (cflag true) s).
Proof. exact coptional_nonzero. Qed.
Print Assumptions C28_coption_nonzero_present.
(** Decoder.  The absent flag resets the field whatever was in it, and consumes
    the flag only; the present flag is followed by the plain decoding.  (Behind
    any prefix, with any bytes following.) *)
Theorem C28_absent_resets : forall h h' t p E c pre post,
  made_optional h h' \/ (E = Borsh /\ made_coptional h h') ->
  enum_struct E [(h, t)] = false -> ft_ext (parse_field_tag (f_tag h)) = false ->
  resettable t -> (E = Borsh -> borsh_field_unmarshaler t = None) ->
  let b := if ft_option (parse_field_tag (f_tag h)) then flag E false else cflag false in
  dvisible (decode (TStruct [(h, t)]) (VStruct [p]) (at_bytes E c pre b post)) =
  (Ok (VStruct [zero_val t]), past_bytes E None pre b post).
Proof. exact dec_absent. Qed.
Print Assumptions C28_absent_resets.
Theorem C28_present_decodes : forall h h' t p E c c' pre post,
  (made_optional h h' /\ ft_coption (parse_field_tag (f_tag h)) = false) \/
  (E = Borsh /\ made_coptional h h') ->
  enum_struct E [(h, t)] = false -> ft_ext (parse_field_tag (f_tag h)) = false ->
  has_unmarshal t = None -> t <> TDeep -> (E = Borsh -> borsh_field_unmarshaler t = None) ->
  let b := if ft_option (parse_field_tag (f_tag h)) then flag E true else cflag true in
  decode (TStruct [(h, t)]) (VStruct [p]) (at_bytes E c pre b post) =
  decode (TStruct [(h', t)]) (VStruct [p]) (past_bytes E c' pre b post).
Proof. exact dec_present. Qed.
Print Assumptions C28_present_decodes.

Definition fname (w : string) : fhdr := mkF "F" true (mkTag w "" "").
Example C28_ex :
  made_optional (fname "big optional") (fname "big") /\
  made_coptional (fname "coption") (fname "") /\ resettable (TPtr (TUint UPlain W16)) /\
  (let t w := TStruct [tagged "F" w (TPtr (TUint UPlain W16))] in
   marshal Bin (t "big optional") (VStruct [VPtr None]) = (Ok tt, [0; 0; 0; 0]) /\
   marshal Borsh (t "coption") (VStruct [VPtr None]) = (Ok tt, [0; 0; 0; 0]) /\
   marshal CompactU16 (t "big optional") (VStruct [VPtr (Some (VNum 258))]) = (Ok tt, [1; 1; 2]) /\
   marshal Borsh (t "coption") (VStruct [VPtr (Some (VNum 258))]) = (Ok tt, [1; 0; 0; 0; 2; 1]) /\
   unmarshal Borsh (t "coption") (VStruct [VPtr (Some (VNum 9))]) [0; 0; 0; 0] =
     Ok (VStruct [VPtr None]) /\
   unmarshal Borsh (t "coption") (VStruct [VPtr (Some (VNum 9))]) [1; 0; 0; 0; 2; 1] =
     Ok (VStruct [VPtr (Some (VNum 258))])).
Proof.
  split; [do 4 eexists; repeat split|]. split; [do 3 eexists; repeat split|].
  repeat split; vm_compute; reflexivity.
Qed.
(** A pointer to a pointer is not reset: the decoder clears the inner one. *)
Theorem C28_double_pointer_refuted : exists t p x, fits t p /\
  unmarshal Bin (TStruct [tagged "F" "optional" t]) (VStruct [p]) (flag Bin false) = Ok (VStruct [x]) /\
  x <> zero_val t.
Proof.
  exists (TPtr (TPtr TBool)), (VPtr (Some (VPtr (Some (VBool true))))), (VPtr (Some (VPtr None))).
  split; [apply fitsb_ok; reflexivity|]. split; [vm_compute; reflexivity|discriminate].
Qed.
Print Assumptions C28_double_pointer_refuted.
(** Borsh: a field of a type with its own decoder is written behind its flag,
    but read without it. *)
Theorem C28_borsh_custom_refuted : exists t v b, fits t v /\
  marshal Borsh (TStruct [tagged "F" "optional" t]) (VStruct [v]) = (Ok tt, b) /\
  exists x, unmarshal Borsh (TStruct [tagged "F" "optional" t]) (VStruct [zero_val t]) b = Ok (VStruct [x]) /\
  x <> v.
Proof.
  exists Varuint32, (VNum 300), [1; 172; 2]. split; [apply fitsb_ok; reflexivity|].
  split; [vm_compute; reflexivity|]. exists (VNum 1). split; [vm_compute; reflexivity|discriminate].
Qed.
Print Assumptions C28_borsh_custom_refuted.
(** Bin: a field of a type with its own decoder cannot be decoded at all when it
    is absent and not behind a pointer. *)
Theorem C28_bin_custom_refuted : exists t b,
  marshal Bin (TStruct [tagged "F" "optional" t]) (VStruct [zero_val t]) = (Ok tt, b) /\
  unmarshal Bin (TStruct [tagged "F" "optional" t]) (VStruct [zero_val t]) b = Panic.
Proof. exists Varuint32, [0; 0; 0; 0]. split; vm_compute; reflexivity. Qed.
Print Assumptions C28_bin_custom_refuted.

(** ** C29: Borsh enums *)

(** One byte for the ordinal, then the selected variant (what is behind its
    pointer, without names) and nothing of the others.  [variant_payload] is
    [None] for a nil pointer and for types that are not encoded. *)
Theorem C29_selected_only : forall fs z vs h t v,
  enum_struct Borsh fs = true -> 0 <= z < 256 ->
  nth_error fs (S (Z.to_nat z)) = Some (h, t) -> f_exported h = true ->
  nth_error vs (Z.to_nat z) = Some v -> fits t v -> variant_base t <> TDeep ->
  all_codecs codec_scripted t ->
  marshal Borsh (TStruct fs) (VStruct (VNum z :: vs)) =
  match variant_payload t v with
  | Some (t', x) => let (r, b) := marshal Borsh t' x in (r, z :: b)
  | None => (Ok tt, [z])
  end.
Proof. exact marshal_enum. Qed.
Print Assumptions C29_selected_only.
Theorem C29_no_variant : forall fs z vs, enum_struct Borsh fs = true -> 0 <= z < 256 ->
  length fs = S (length vs) -> Z.of_nat (length vs) <= z ->
  exists e, marshal Borsh (TStruct fs) (VStruct (VNum z :: vs)) = (Err e, [z]).
Proof. exact marshal_enum_bad. Qed.
Print Assumptions C29_no_variant.
Theorem C29_decode : forall fs h0 n h t p0 p ps c c' pre post,
  enum_struct Borsh fs = true -> hd_error fs = Some (h0, BorshEnum) -> f_exported h0 = true ->
  0 <= n < 256 ->
  nth_error fs (S (Z.to_nat n)) = Some (h, t) -> f_exported h = true -> nth_error ps (Z.to_nat n) = Some p ->
  decode (TStruct fs) (VStruct (p0 :: ps)) (at_bytes Borsh c pre [n] post) =
  fmap (fun x => VStruct (VNum n :: upd (Z.to_nat n) x ps)) (decode t p) (past_bytes Borsh c' pre [n] post).
Proof. exact decode_enum. Qed.
Print Assumptions C29_decode.
Theorem C29_decode_rejects : forall fs h0 n p0 ps c pre post,
  enum_struct Borsh fs = true -> hd_error fs = Some (h0, BorshEnum) -> f_exported h0 = true ->
  length fs = S (length ps) -> Z.of_nat (length ps) <= n ->
  dvisible (decode (TStruct fs) (VStruct (p0 :: ps)) (at_bytes Borsh c pre [n] post)) =
  (Err EMsg, past_bytes Borsh None pre [n] post).
Proof. exact decode_enum_bad. Qed.
Print Assumptions C29_decode_rejects.
Theorem C29_others_untouched : forall fs p0 ps s x s', d_enc s = Borsh -> enum_struct Borsh fs = true ->
  decode (TStruct fs) (VStruct (p0 :: ps)) s = (Ok x, s') ->
  exists n xs, x = VStruct (VNum n :: xs) /\ length xs = length ps /\
    forall i, i <> Z.to_nat n -> nth_error xs i = nth_error ps i.
Proof. exact decode_enum_other. Qed.
Print Assumptions C29_others_untouched.

Definition c29_fs : list (fhdr * ty) :=
  [ tagged "Kind" "enum" BorshEnum; plain "A" (TStruct [plain "X" (TUint UPlain W16)]);
    plain "B" (TPtr TString); plain "C" TBool ].
Example C29_ex : enum_struct Borsh c29_fs = true /\
  (let vs := [VStruct [VNum 513]; VPtr (Some (VStr [104; 105])); VBool true] in
   marshal Borsh (TStruct c29_fs) (VStruct (VNum 0 :: vs)) = (Ok tt, [0; 1; 2]) /\
   marshal Borsh (TStruct c29_fs) (VStruct (VNum 1 :: vs)) = (Ok tt, [1; 2; 0; 0; 0; 104; 105]) /\
   marshal Borsh (TStruct c29_fs) (VStruct (VNum 2 :: vs)) = (Ok tt, [2; 1]) /\
   fst (marshal Borsh (TStruct c29_fs) (VStruct (VNum 3 :: vs))) = Err EMsg /\
   unmarshal Borsh (TStruct c29_fs) (VStruct (VNum 7 :: vs)) [0; 3; 4] =
     Ok (VStruct [VNum 0; VStruct [VNum 1027]; VPtr (Some (VStr [104; 105])); VBool true]) /\
   exists e, unmarshal Borsh (TStruct c29_fs) (VStruct (VNum 0 :: vs)) [3; 3; 4] = Err e).
Proof. repeat split; try (vm_compute; reflexivity). eexists. vm_compute. reflexivity. Qed.
(** Variants that are slices, arrays or maps lose their payload without an
    error, and so do numbers with their own encoding. *)
Theorem C29_slice_variant_refuted : exists t v, fits t v /\ v <> zero_val t /\
  marshal Borsh (TStruct [tagged "Kind" "enum" BorshEnum; plain "A" t]) (VStruct [VNum 0; v]) = (Ok tt, [0]) /\
  exists b, marshal Borsh t v = (Ok tt, b) /\ b <> [].
Proof.
  exists (TSlice u8), (VSlice (Some [VNum 1])). split; [apply fitsb_ok; reflexivity|]. split; [discriminate|].
  split; [vm_compute; reflexivity|]. eexists. split; [vm_compute; reflexivity|discriminate].
Qed.
Print Assumptions C29_slice_variant_refuted.
Theorem C29_custom_variant_refuted : exists t v b b', fits t v /\
  marshal Borsh (TStruct [tagged "Kind" "enum" BorshEnum; plain "A" t]) (VStruct [VNum 0; v]) = (Ok tt, 0 :: b) /\
  marshal Borsh t v = (Ok tt, b') /\ b <> b'.
Proof.
  exists Varuint32, (VNum 300), [44; 1; 0; 0], [172; 2].
  split; [apply fitsb_ok; reflexivity|]. split; [vm_compute; reflexivity|].
  split; [vm_compute; reflexivity|discriminate].
Qed.
Print Assumptions C29_custom_variant_refuted.

(** ** C30: sizeof counts *)

(** The slice is encoded like an array of its length in the same place: no
    length prefix. *)
Theorem C30_no_prefix : forall hs t ol l fs1 vs1 fs3 vs3 s,
  enum_struct (e_enc s) (fs1 ++ (hs, TSlice t) :: fs3) = false ->
  sized_field hs (e_enc s) -> slice_items (VSlice ol) = l -> zlen l < 2 ^ 63 -> length vs1 = length fs1 ->
  length_of fs1 vs1 (f_name hs) = Some (zlen l) ->
  encode (TStruct (fs1 ++ (hs, TSlice t) :: fs3)) (VStruct (vs1 ++ VSlice ol :: vs3)) s =
  encode (TStruct (fs1 ++ (hs, TArray (length l) t) :: fs3)) (VStruct (vs1 ++ VSeq l :: vs3)) s.
Proof. exact encode_sized. Qed.
Print Assumptions C30_no_prefix.
Theorem C30_count_decoded : forall hs t fs1 fs3 ps1 p ps3 s x s',
  enum_struct (d_enc s) (fs1 ++ (hs, TSlice t) :: fs3) = false ->
  sized_field hs (d_enc s) -> ft_ext (parse_field_tag (f_tag hs)) = false ->
  counts_decoded (d_enc s) fs1 -> length ps1 = length fs1 ->
  decode (TStruct (fs1 ++ (hs, TSlice t) :: fs3)) (VStruct (ps1 ++ p :: ps3)) s = (Ok x, s') ->
  exists xs1 y xs3, x = VStruct (xs1 ++ y :: xs3) /\ length xs1 = length fs1 /\
    forall n, length_of fs1 xs1 (f_name hs) = Some n -> - 2 ^ 63 <= n < 2 ^ 63 ->
      (exists vs, y = VSlice (Some vs) /\ zlen vs = Z.max 0 n) \/
      (d_enc s = Borsh /\ n <= 0 /\ y = p).
Proof. exact decode_sized. Qed.
Print Assumptions C30_count_decoded.

Definition c30_t : ty := TStruct
  [ tagged "N" "sizeof=Items" u8; plain "K" TBool; plain "Items" (TSlice (TUint UPlain W16)); plain "Z" u8 ].
Example C30_ex :
  let v := VStruct [VNum 2; VBool true; VSlice (Some [VNum 1; VNum 515]); VNum 9] in
  sized_field (mkF "Items" true notag) Bin /\
  marshal Bin c30_t v = (Ok tt, [2; 1; 1; 0; 3; 2; 9]) /\
  marshal Borsh c30_t v = (Ok tt, [2; 1; 1; 0; 3; 2; 9]) /\
  unmarshal Bin c30_t (zero_val c30_t) [2; 1; 1; 0; 3; 2; 9] = Ok v.
Proof. cbv zeta. repeat split; vm_compute; reflexivity. Qed.
(** The count has to match: a larger one panics (as found by reading past the
    slice), a smaller one drops elements. *)
Theorem C30_larger_count_refuted : exists v, fits c30_t v /\ fst (marshal Bin c30_t v) = Panic.
Proof.
  exists (VStruct [VNum 3; VBool true; VSlice (Some [VNum 1; VNum 515]); VNum 9]).
  split; [apply fitsb_ok; reflexivity|vm_compute; reflexivity].
Qed.
Print Assumptions C30_larger_count_refuted.
Theorem C30_smaller_count_refuted : exists v v' b, fits c30_t v /\ fits c30_t v' /\ v <> v' /\
  marshal Bin c30_t v = (Ok tt, b) /\ marshal Bin c30_t v' = (Ok tt, b).
Proof.
  exists (VStruct [VNum 1; VBool true; VSlice (Some [VNum 1; VNum 515]); VNum 9]),
    (VStruct [VNum 1; VBool true; VSlice (Some [VNum 1]); VNum 9]), [1; 1; 1; 0; 9].
  repeat split; try (apply fitsb_ok; reflexivity); try (vm_compute; reflexivity). discriminate.
Qed.
Print Assumptions C30_smaller_count_refuted.
(** The encoder takes the count from an unexported field too, the decoder does
    not. *)
Theorem C30_hidden_count_refuted : exists t v b x, fits t v /\
  marshal Bin t v = (Ok tt, b) /\ unmarshal Bin t v b = x /\ x <> Ok v.
Proof.
  exists (TStruct [(mkF "n" false (mkTag "sizeof=Items" "" ""), u8); plain "Items" (TSlice u8)]),
    (VStruct [VNum 1; VSlice (Some [VNum 0])]), [0], (Ok (VStruct [VNum 1; VSlice (Some [])])).
  split; [apply fitsb_ok; reflexivity|].
  repeat split; try (vm_compute; reflexivity). discriminate.
Qed.
Print Assumptions C30_hidden_count_refuted.

(** ** C31: binary extensions *)

(** Data of an older version, by a reader that knows more: any split of the
    fields into old ones and extensions. *)
Theorem C31_older_data : forall E fs es vs ps qs,
  enum_struct E fs = false -> enum_struct E es = false -> all_exts es -> length qs = length es ->
  ok E (TStruct fs) None LE (VStruct vs) -> fits (TStruct fs) (VStruct ps) ->
  exists b xs,
    marshal E (TStruct fs) (VStruct vs) = (Ok tt, b) /\
    unmarshal E (TStruct fs) (VStruct ps) b = Ok (VStruct xs) /\
    unmarshal E (TStruct (fs ++ es)) (VStruct (ps ++ qs)) b = Ok (VStruct (xs ++ qs)).
Proof. exact older_data. Qed.
Print Assumptions C31_older_data.
(** The same on arbitrary bytes: if the old version of the struct consumes all
    of them, the new version gives the same and leaves the extensions alone. *)
Theorem C31_missing : forall fs es ps qs s xs s',
  enum_struct (d_enc s) fs = false -> enum_struct (d_enc s) es = false ->
  all_exts es -> length qs = length es ->
  decode (TStruct fs) (VStruct ps) s = (Ok (VStruct xs), s') -> at_end s' ->
  decode (TStruct (fs ++ es)) (VStruct (ps ++ qs)) s = (Ok (VStruct (xs ++ qs)), s').
Proof. exact decode_missing. Qed.
Print Assumptions C31_missing.
(** Data of a newer version, by a reader that knows less. *)
Theorem C31_newer_data : forall E fs es vs ws ps,
  enum_struct E fs = false -> enum_struct E es = false -> length vs = length fs ->
  ok E (TStruct fs) None LE (VStruct vs) -> ok E (TStruct (fs ++ es)) None LE (VStruct (vs ++ ws)) ->
  fits (TStruct fs) (VStruct ps) ->
  exists b b', marshal E (TStruct fs) (VStruct vs) = (Ok tt, b) /\
    marshal E (TStruct (fs ++ es)) (VStruct (vs ++ ws)) = (Ok tt, b ++ b') /\
    unmarshal E (TStruct fs) (VStruct ps) (b ++ b') = unmarshal E (TStruct fs) (VStruct ps) b.
Proof. exact newer_data. Qed.
Print Assumptions C31_newer_data.

Definition c31_old : list (fhdr * ty) := [plain "A" (TUint UPlain W16); plain "S" TString].
Definition c31_new : list (fhdr * ty) :=
  [tagged "X" "binary_extension" (TUint UPlain W32); tagged "Y" "binary_extension big" (TInt false W16)].
Example C31_ex : all_exts c31_new /\ ok CompactU16 (TStruct c31_old) None LE (VStruct [VNum 7; VStr [104]]) /\
  marshal CompactU16 (TStruct c31_old) (VStruct [VNum 7; VStr [104]]) = (Ok tt, [7; 0; 1; 104]) /\
  unmarshal CompactU16 (TStruct (c31_old ++ c31_new)) (VStruct [VNum 0; VStr []; VNum 11; VNum 12]) [7; 0; 1; 104] =
    Ok (VStruct [VNum 7; VStr [104]; VNum 11; VNum 12]) /\
  (* with one of the two extensions *)
  unmarshal CompactU16 (TStruct (c31_old ++ c31_new)) (VStruct [VNum 0; VStr []; VNum 11; VNum 12])
      [7; 0; 1; 104; 1; 0; 0; 1] =
    Ok (VStruct [VNum 7; VStr [104]; VNum 16777217; VNum 12]) /\
  (* with both *)
  unmarshal CompactU16 (TStruct (c31_old ++ c31_new)) (VStruct [VNum 0; VStr []; VNum 11; VNum 12])
      [7; 0; 1; 104; 1; 0; 0; 1; 255; 254] =
    Ok (VStruct [VNum 7; VStr [104]; VNum 16777217; VNum (-2)]).
Proof.
  split; [repeat constructor|]. split; [apply okb_ok; vm_compute; reflexivity|].
  repeat split; vm_compute; reflexivity.
Qed.

(** ** C32: skipped and unexported fields *)

(** Structs that agree on the other fields are encoded in the same way (result,
    bytes, state), *)
Theorem C32_no_influence : forall fs vs vs' s, enum_struct (e_enc s) fs = false -> dead_sizeless fs ->
  same_live fs vs vs' ->
  encode (TStruct fs) (VStruct vs) s = encode (TStruct fs) (VStruct vs') s.
Proof. exact same_live_encode. Qed.
Print Assumptions C32_no_influence.
(** namely like the struct without these fields. *)
Theorem C32_no_bytes : forall fs vs s,
  enum_struct (e_enc s) fs = false -> enum_struct (e_enc s) (live_fields fs) = false ->
  dead_sizeless fs -> length vs = length fs ->
  encode (TStruct fs) (VStruct vs) s = encode (TStruct (live_fields fs)) (VStruct (live_vals fs vs)) s.
Proof. exact drop_dead_encode. Qed.
Print Assumptions C32_no_bytes.
(** Decode: any type, any bytes; the fields at any depth of structs, arrays and
    pointers (pointers that are nil are filled with new structs, whose fields
    stay zero). *)
Theorem C32_untouched : forall t p s x s', decode t p s = (Ok x, s') -> untouched (d_enc s) t p x.
Proof. exact decode_untouched. Qed.
Print Assumptions C32_untouched.

Definition c32_in : ty := TStruct [hidden "h" (TUint UPlain W16); plain "B" u8].
Definition c32_t : ty := TStruct
  [ plain "A" u8; tagged "S" "skip" TString; plain "P" (TPtr c32_in); hidden "z" TBool ].
Example C32_ex :
  let v := VStruct [VNum 5; VStr [104]; VPtr (Some (VStruct [VNum 77; VNum 6])); VBool true] in
  marshal Borsh c32_t v = (Ok tt, [5; 6]) /\
  unmarshal Borsh c32_t v [8; 9] =
    Ok (VStruct [VNum 8; VStr [104]; VPtr (Some (VStruct [VNum 77; VNum 9])); VBool true]) /\
  unmarshal Borsh c32_t (VStruct [VNum 0; VStr [120]; VPtr None; VBool true]) [8; 9] =
    Ok (VStruct [VNum 8; VStr [120]; VPtr (Some (VStruct [VNum 0; VNum 9])); VBool true]).
Proof. cbv zeta. repeat split; vm_compute; reflexivity. Qed.
(** The exception: an unexported field with a sizeof tag does influence the
    encoding. *)
Theorem C32_hidden_sizeof_refuted : exists fs vs vs' b b',
  fits (TStruct fs) (VStruct vs) /\ fits (TStruct fs) (VStruct vs') /\ same_live fs vs vs' /\
  marshal Bin (TStruct fs) (VStruct vs) = (Ok tt, b) /\
  marshal Bin (TStruct fs) (VStruct vs') = (Ok tt, b') /\ b <> b'.
Proof.
  exists [(mkF "n" false (mkTag "sizeof=Items" "" ""), u8); plain "Items" (TSlice u8)],
    [VNum 1; VSlice (Some [VNum 3; VNum 4])], [VNum 2; VSlice (Some [VNum 3; VNum 4])], [3], [3; 4].
  do 2 (split; [apply fitsb_ok; reflexivity|]). split; [cbn; intuition discriminate|].
  repeat split; try (vm_compute; reflexivity). discriminate.
Qed.
Print Assumptions C32_hidden_sizeof_refuted.

(** ** C33: tag parsing *)

(** The words of a tag are the pieces between single spaces. *)
Theorem C33_words : forall s, words_of s (split_sp s) /\ forall ws, words_of s ws -> split_sp s = ws.
Proof. intro s. split; [apply words_split|apply words_unique]. Qed.
Print Assumptions C33_words.
(** Every tag has exactly the meaning given by its words... *)
Theorem C33_meaning : forall tag ws, words_of (tg_bin tag) ws -> means tag ws (parse_field_tag tag).
Proof. exact tag_means. Qed.
Print Assumptions C33_meaning.
Theorem C33_meaning_unique : forall tag ws t t', means tag ws t -> means tag ws t' -> t = t'.
Proof. exact means_unique. Qed.
Print Assumptions C33_meaning_unique.
(** ...so unknown words and the order of the flags make no difference. *)
Theorem C33_same_words : forall tag tag' ws ws',
  words_of (tg_bin tag) ws -> words_of (tg_bin tag') ws' ->
  tg_borsh_skip tag = tg_borsh_skip tag' -> tg_borsh_enum tag = tg_borsh_enum tag' ->
  (forall w, In w flag_words -> In w ws <-> In w ws') ->
  filter is_order_word ws = filter is_order_word ws' ->
  filter is_sizeof_word ws = filter is_sizeof_word ws' ->
  parse_field_tag tag = parse_field_tag tag'.
Proof. exact same_tag. Qed.
Print Assumptions C33_same_words.

Example C33_ex :
  parse_field_tag (mkTag "big optional sizeof=A little json sizeof=B=C" "" " true ") =
    mkFT "B=C" false LE true false false true /\
  parse_field_tag (mkTag "nope  sizeof=A big sizeof=B=C little enum option" "" "") =
    mkFT "B=C" false LE true false false true /\
  words_of "big  -" ["big"; ""; "-"] /\
  parse_field_tag (mkTag "big  -" "" "") = mkFT "" true BE false false false false /\
  parse_field_tag (mkTag "big,optional" "" "") = ft0.
Proof.
  repeat split; try (vm_compute; reflexivity); try easy.
  repeat first [apply Forall_nil | apply Forall_cons]; repeat split; discriminate.
Qed.

(** ** C53: structs are encoded and decoded field by field *)

(** The encoding of a struct is the encoding of its first fields followed by
    the encoding of the others (no sizeof counts between the two). *)
Theorem C53_marshal_app : forall E fs1 fs2 vs1 vs2,
  enum_struct E fs1 = false -> enum_struct E fs2 = false ->
  sizeless fs1 -> length vs1 = length fs1 ->
  all_codecs codec_scripted (TStruct fs1) -> all_codecs codec_scripted (TStruct fs2) ->
  marshal E (TStruct (fs1 ++ fs2)) (VStruct (vs1 ++ vs2)) =
  let (r1, b1) := marshal E (TStruct fs1) (VStruct vs1) in
  match r1 with
  | Ok _ => let (r2, b2) := marshal E (TStruct fs2) (VStruct vs2) in (r2, b1 ++ b2)
  | _ => (r1, b1)
  end.
Proof. exact marshal_app. Qed.
Print Assumptions C53_marshal_app.
(** The same in the middle of a stream and with any writer, *)
Theorem C53_encode_app : forall fs1 fs2 vs1 vs2 s,
  enum_struct (e_enc s) fs1 = false -> enum_struct (e_enc s) fs2 = false ->
  sizeless fs1 -> length vs1 = length fs1 -> all_codecs codec_scripted (TStruct fs1) ->
  visible (encode (TStruct (fs1 ++ fs2)) (VStruct (vs1 ++ vs2)) s) =
  visible ((encode (TStruct fs1) (VStruct vs1) ;;; encode (TStruct fs2) (VStruct vs2)) s).
Proof. exact encode_app. Qed.
Print Assumptions C53_encode_app.
(** and for the decoder, on any bytes. *)
Theorem C53_decode_app : forall fs1 fs2 ps1 ps2 s,
  enum_struct (d_enc s) fs1 = false -> enum_struct (d_enc s) fs2 = false ->
  sizeless fs1 -> no_exts fs1 -> no_own_decoder (d_enc s) fs2 -> length ps1 = length fs1 ->
  (forall xs s1, decode (TStruct fs1) (VStruct ps1) s = (Ok xs, s1) -> d_enc s1 = d_enc s) ->
  dvisible (decode (TStruct (fs1 ++ fs2)) (VStruct (ps1 ++ ps2)) s) =
  dvisible ((x <- decode (TStruct fs1) (VStruct ps1) ;;
             y <- decode (TStruct fs2) (VStruct ps2) ;;
             match x, y with
             | VStruct xs, VStruct ys => ret (VStruct (xs ++ ys))
             | _, _ => stuck
             end) s).
Proof. exact decode_app. Qed.
Print Assumptions C53_decode_app.
Example C53_ex :
  let f1 := [plain "A" (TUint UPlain W16); tagged "B" "optional" (TPtr u8)] in
  let f2 := [tagged "C" "big" (TUint UPlain W16)] in
  sizeless f1 /\ no_exts f1 /\ no_own_decoder CompactU16 f2 /\
  marshal CompactU16 (TStruct (f1 ++ f2)) (VStruct [VNum 258; VPtr (Some (VNum 3)); VNum 1]) =
    (Ok tt, [2; 1] ++ [1; 3] ++ [0; 1]) /\
  marshal CompactU16 (TStruct f1) (VStruct [VNum 258; VPtr (Some (VNum 3))]) = (Ok tt, [2; 1; 1; 3]) /\
  marshal CompactU16 (TStruct f2) (VStruct [VNum 1]) = (Ok tt, [0; 1]).
Proof.
  cbv zeta. do 2 (split; [repeat constructor|]). split; [intros _; repeat constructor|].
  repeat split; vm_compute; reflexivity.
Qed.
(** Borsh: without the condition on own decoders the byte order of the field
    before is used for them. *)
Theorem C53_stale_order_refuted : exists f1 f2 p1 p2 q1 q2 b1 b2,
  unmarshal Borsh (TStruct [f1]) (VStruct [p1]) b1 = Ok (VStruct [q1]) /\
  unmarshal Borsh (TStruct [f2]) (VStruct [p2]) b2 = Ok (VStruct [q2]) /\
  unmarshal Borsh (TStruct [f1; f2]) (VStruct [p1; p2]) (b1 ++ b2) =
    Ok (VStruct [q1; VNum (2 ^ 56)]) /\ q2 <> VNum (2 ^ 56).
Proof.
  exists (tagged "A" "big" (TUint UPlain W16)), (plain "B" Uint64), (VNum 0), (VNum 0), (VNum 1), (VNum 1),
    [1; 0], [1; 0; 0; 0; 0; 0; 0; 0].
  repeat split; try (vm_compute; reflexivity). discriminate.
Qed.
Print Assumptions C53_stale_order_refuted.
