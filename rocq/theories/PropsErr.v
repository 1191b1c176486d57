(** C89: what errors.Is finds in the errors of decoders and encoders. *)
From Verif Require Import Types EncPrim DecPrim Enc Dec Utf8 Builtin Ops Spec EncFacts EncProps WriteFacts DecWithin ErrSpec ErrFacts ErrEnc ErrLib.

(** Decode into a variable of any type, from any state: a named error comes
    from a part of the type that can report it ([reports]). *)
Theorem C89_decode : forall t old s e s' x, all_codecs codec_keeps_enc t ->
  decode t old s = (Err e, s') -> err_is e x -> sentinel x -> reports true (d_enc s) t x.
Proof. exact decode_reports. Qed.
Print Assumptions C89_decode.

(** The methods of the library: most report no named error, not even for
    truncated input. *)
Theorem C89_methods : forall E x, sentinel x ->
  (forall t, In t [Bool_; HexBytes; Varint16; Varuint16; Varuint32; JSONFloat64; Int64; Uint64; Uint128; Int128; Float128; EmptyVariant] ->
     ~ reports true E t x) /\
  (reports true E Varint32 x <-> x = EVarint) /\
  (reports true E SafeString x <-> x = EUnexpectedEOF \/ (E = Bin /\ x = EVarint)).
Proof.
  intros E x Hx. split; [intros t Ht; now apply mute|]. split; [now apply varint32_reports|now apply safestring_reports].
Qed.
Theorem C89_keeps : Forall (all_codecs codec_keeps_enc) library_types.
Proof. exact library_keeps_enc. Qed.
Print Assumptions C89_methods.
Print Assumptions C89_keeps.

(** Types made of the library's: only two of the named errors come out of
    Decode; never io.EOF, io.ErrShortBuffer or *InvalidDecoderError. *)
Theorem C89_library : forall t old s e s' x, over_library t ->
  decode t old s = (Err e, s') -> err_is e x -> sentinel x -> x = EUnexpectedEOF \/ x = EVarint.
Proof.
  intros t old s e s' x Ho H Hx Hs. eapply (library_names (d_enc s) t x Ho Hs true).
  exact (decode_reports t old s e s' x (over_library_all _ t library_keeps_enc Ho) H Hx Hs).
Qed.
Print Assumptions C89_library.

(** Types made of numbers, flags, structs, pointers and arrays of signed
    numbers: no named error at all, although decoding can only fail for lack of
    bytes, or NaN, flags and enum numbers.  So errors.Is(err,
    io.ErrUnexpectedEOF) is no test for truncated input: *)
Theorem C89_countless : forall t old s e s' x, all_codecs codec_keeps_enc t -> countless t = true ->
  decode t old s = (Err e, s') -> err_is e x -> ~ sentinel x.
Proof.
  intros t old s e s' x Hk Hc H Hx Hs. exact (countless_silent t true (d_enc s) x Hc (decode_reports t old s e s' x Hk H Hx Hs)).
Qed.
Print Assumptions C89_countless.
Theorem C89_truncated_refuted : exists E t v b k e, marshal E t v = (Ok tt, b) /\ (k < length b)%nat /\
  unmarshal E t (zero_val t) (firstn k b) = Err e /\ ~ err_is e EUnexpectedEOF.
Proof.
  exists Bin, (TInt false W32), (VNum 7), [7; 0; 0; 0], 3%nat, EMsg.
  split; [vm_compute; reflexivity|]. split; [cbn; lia|]. split; [vm_compute; reflexivity|]. intros [H|[]]. discriminate H.
Qed.
Print Assumptions C89_truncated_refuted.
(** Nor does it mean that the input lacks something: there are bytes that no
    others behind them make acceptable. *)
Theorem C89_continued_refuted : exists data, forall old ext, exists e,
  unmarshal Borsh TString old (data ++ ext)%list = Err e /\ err_is e EUnexpectedEOF.
Proof. exact no_more. Qed.
Print Assumptions C89_continued_refuted.

(** The errors of [reports] do occur, for any element types. *)
Theorem C89_occur : forall E old,
  (exists data, match fst (decode TString old (new_decoder E data)) with Err e => err_is e EUnexpectedEOF | _ => False end) /\
  (forall t, exists data, match fst (decode (TSlice t) old (new_decoder E data)) with Err e => err_is e EUnexpectedEOF | _ => False end) /\
  (forall n w, uint_kind (TUint n w) = Some w -> forall k, exists data,
     match fst (decode (TArray (S k) (TUint n w)) old (new_decoder E data)) with Err e => err_is e EUnexpectedEOF | _ => False end) /\
  (forall kt vt x, count_reports E x -> exists data,
     match fst (decode (TMap kt vt) old (new_decoder E data)) with Err e => err_is e x | _ => False end).
Proof. exact heads. Qed.
Print Assumptions C89_occur.

(** The other methods of Decoder, exactly: [call_reports] is what they can
    report from a decoder whose position is inside the data. *)
Theorem C89_calls : forall op E x, (match op with OpRead n => 0 <= n | OpDecode _ _ => False | _ => True end) -> sentinel x ->
  (exists s e s', d_enc s = E /\ inside s /\ dop_run op s = (Err e, s') /\ err_is e x) <-> call_reports op E x.
Proof.
  intros op E x Hop Hx. split; [|apply call_occurs]. intros (s & e & s' & HE & Hin & H & He). exact (call_says op E x s e s' Hop HE Hin H He Hx).
Qed.
Print Assumptions C89_calls.
Example C89_ex_calls :
  map (fun op => fst (dop_run op (new_decoder Bin [200]))) [OpReadUint W16 LE; OpReadUvarint64; OpReadString; OpRead 2; OpReadCompactU16; OpPeek 2] =
  [Err EMsg; Err EVarint; Err EVarint; Err EShortBuffer; Err EUnexpectedEOF; Err EMsg].
Proof. vm_compute. reflexivity. Qed.

(** Encode: named errors are those of the writer. *)
Theorem C89_encode : forall t v s e s' x, all_codecs codec_frank t ->
  encode t v s = (Err e, s') -> err_is e x -> sentinel x -> exists n, x = EWriter n.
Proof. intros t v s e s' x Hc. exact (frank_encode t v Hc s e s' x). Qed.
Theorem C89_encode_library : forall t v s e s' x, over_library t ->
  encode t v s = (Err e, s') -> err_is e x -> sentinel x -> exists n, x = EWriter n.
Proof. intros t v s e s' x Ho. exact (frank_encode t v (over_library_all _ t library_frank Ho) s e s' x). Qed.
Print Assumptions C89_encode.
Print Assumptions C89_encode_library.

Definition c89_t : ty := TStruct
  [ (mkF "N" true notag, TInt false W16); (mkF "V" true notag, Varint32); (mkF "L" true notag, TSlice (TInt false W16));
    (mkF "H" true notag, HexBytes) ].
(** The same struct cut in each of its fields. *)
Example C89_ex :
  over_library c89_t /\
  map (fun data => unmarshal CompactU16 c89_t (zero_val c89_t) data)
    [[1]; [1; 0; 128]; [1; 0; 2; 2; 7]; [1; 0; 2; 1; 7; 0; 4; 9]] =
  [Err (EWrap EMsg); Err (EWrap EVarint); Err (EWrap EUnexpectedEOF); Err (EWrap EMsg)] /\
  reports true CompactU16 c89_t EVarint /\ reports true CompactU16 c89_t EUnexpectedEOF /\ ~ reports true CompactU16 c89_t EEOF.
Proof.
  split; [cbn; tauto|]. split; [vm_compute; reflexivity|].
  assert (Hl : over_library c89_t) by (cbn; tauto). split; [|split].
  - right; left. split; [reflexivity|]. now apply varint32_reports.
  - right; right; left. split; [reflexivity|]. now left.
  - intro H. destruct (library_names CompactU16 c89_t EEOF Hl I true H); discriminate.
Qed.
Example C89_ex_countless :
  let t := TStruct [(mkF "A" true notag, TInt false W64); (mkF "B" true notag, TArray 3 (TPtr (TFloat F32)))] in
  countless t = true /\ unmarshal Bin t (zero_val t) [1; 2; 3; 4; 5; 6; 7; 8; 9] = Err (EWrap EMsg).
Proof. split; vm_compute; reflexivity. Qed.
(** A writer that fails in its second call. *)
Example C89_ex_encode :
  let w : writer := fun h => if (length h <? 2)%nat then None else Some (1%nat, 5) in
  encode (TStruct [(mkF "A" true notag, TInt false W16); (mkF "B" true notag, TInt false W32)]) (VStruct [VNum 1; VNum 2]) (new_encoder Bin w) =
    (Err (EWrap (EWriter 5)), mkE Bin w (Some LE) 6 [[1; 0]; [2; 0; 0; 0]] [1; 0; 2]).
Proof. vm_compute. reflexivity. Qed.
