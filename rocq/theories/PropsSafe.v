(** C09: the decoder does not panic on untrusted bytes. *)
From Verif Require Import Types EncPrim DecPrim Enc Dec Utf8 Builtin Spec NumFacts Ops EncFacts EncProps
  PropsCodec PropsDec DecWithin DecSafe SafeFacts.

(** [decodable false E t] (DecSafe.v) spells out the class: fields with a
    sizeof tag have unsigned types; optional fields have no UnmarshalWithDecoder
    of their own; fields after a binary_extension field are tagged so, too; all
    fields of a Borsh enum are exported; codec methods do not panic. *)
Theorem C09_value_or_error : forall E t v data,
  decodable false E t -> fits t v -> bytes_ok data ->
  (exists x, unmarshal E t v data = Ok x /\ fits t x) \/
  (exists e, unmarshal E t v data = Err e).
Proof. exact decode_total. Qed.
Print Assumptions C09_value_or_error.
Theorem C09_fresh_variable : forall E t data, decodable false E t -> bytes_ok data ->
  (exists x, unmarshal E t (zero_val t) data = Ok x /\ fits t x) \/
  (exists e, unmarshal E t (zero_val t) data = Err e).
Proof. exact decode_fresh. Qed.
Print Assumptions C09_fresh_variable.
(** Finite unfoldings of recursive types: no panic before the input leads to
    the end of the unfolding. *)
Theorem C09_recursive_types : forall E t v data pos c, decodable true E t -> fits t v ->
  bytes_ok data -> 0 <= pos <= zlen data ->
  fst (decode t v (mkD data pos c E)) <> Panic.
Proof. exact decode_no_panic. Qed.
Print Assumptions C09_recursive_types.
(** The codec methods of the library are in the class. *)
Theorem C09_library_types : forall E, Forall (decodable false E) library_types.
Proof. exact library_decodable. Qed.
Print Assumptions C09_library_types.
(** Any program that calls the decoder's methods. *)
Theorem C09_programs : forall E data ops,
  bytes_ok data -> zlen data < 2 ^ 63 -> Forall harmless ops ->
  Forall (fun r => match r with Ok _ | Err _ => True | Panic | Deep | Stuck => False end)
    (fst (dops_run ops (new_decoder E data))).
Proof. exact fresh_programs. Qed.
Print Assumptions C09_programs.

Lemma msg_decodable E : decodable false E msg.
Proof.
  pose proof (library_decodable E) as H. rewrite Forall_forall in H.
  assert (Hs := H SafeString ltac:(cbn; tauto)). assert (Hu := H Uint128 ltac:(cbn; tauto)).
  assert (Hv := H Varuint32 ltac:(cbn; tauto)).
  unfold msg. rewrite decodable_struct. split.
  - replace (enum_struct E _) with false by (destruct E; reflexivity).
    apply tame_fieldsb_ok. destruct E; reflexivity.
  - repeat first [apply Forall_nil | apply Forall_cons]; try exact I; try assumption.
    + cbn [snd plain tagged decodable]. now split.
    + cbn [snd plain tagged]. change (decodable false E (TStruct [plain "Id" Uint128; plain "V" Varuint32])).
      rewrite decodable_struct. split.
      * replace (enum_struct E _) with false by (destruct E; reflexivity).
        apply tame_fieldsb_ok. destruct E; reflexivity.
      * constructor; [exact Hu|]. constructor; [exact Hv|constructor].
Qed.
(** A type with counts, options, maps, library codecs: full and cut input, and
    some wrong bytes. *)
Example C09_ex : (forall E, decodable false E msg) /\
  unmarshal Bin msg (zero_val msg) msg_bin = Ok msg_v /\
  (exists e, unmarshal Bin msg (zero_val msg) (firstn 30 msg_bin) = Err e) /\
  (exists e, unmarshal Bin msg (zero_val msg) (repeat 255 40) = Err e) /\
  (exists e, unmarshal Borsh msg (zero_val msg) msg_bin = Err e).
Proof.
  split; [exact msg_decodable|]. split; [vm_compute; reflexivity|].
  split; [eexists; vm_compute; reflexivity|]. split; eexists; vm_compute; reflexivity.
Qed.
(** Both kinds of flags, an extension field at the end, an enum. *)
Definition c09_t : ty := TStruct
  [ tagged "A" "optional coption" (TPtr (TPtr u8));
    plain "B" (TArray 3 (TFloat F32));
    plain "C" (TStruct [tagged "K" "enum" BorshEnum; plain "X" TBool; plain "Y" (TPtr TString)]);
    tagged "D" "binary_extension" (TSlice TString) ].
Example C09_class : forall E, decodable false E c09_t.
Proof. intro E. apply decodableb_ok. destruct E; vm_compute; reflexivity. Qed.
Definition c09_ops : list dop :=
  [OpReadByte; OpSetPosition 1; OpDecode msg (zero_val msg); OpPeek (-5); OpReadString; OpSkipBytes 3;
   OpSetEncoding Borsh; OpReadUint128 BE; OpDecode msg msg_v; OpReadNBytes (-1)].
Example C09_programs_ex : Forall harmless c09_ops.
Proof.
  unfold c09_ops. repeat first [apply Forall_nil | apply Forall_cons]; cbn [harmless]; try exact I; try lia;
    (split; [exact msg_decodable|]); split; try exact msg_within.
  - apply DecWire.fits_zero.
  - apply Check.fitsb_ok. vm_compute. reflexivity.
Qed.

(** Outside the class there are panics.  A negative count from a sizeof field
    of signed type: one byte of input. *)
Definition c09_signed : ty :=
  TStruct [tagged "N" "sizeof=A" (TInt false W8); plain "A" (TSlice (TUint UPlain W16))].
Theorem C09_signed_count_refuted : exists t data,
  t = c09_signed /\ bytes_ok data /\ forall E, unmarshal E t (zero_val t) data = Panic.
Proof.
  exists c09_signed, [255]. split; [reflexivity|]. split; [repeat constructor; easy|].
  intros [| |]; vm_compute; reflexivity.
Qed.
Print Assumptions C09_signed_count_refuted.
(** An optional field whose (non-pointer) type has UnmarshalWithDecoder, as
    [X bin.Uint128 `bin:"optional"`], in the Bin and compact-u16 encodings:
    every input, even the library's own output. *)
Theorem C09_optional_codec_refuted : exists t v,
  t = TStruct [tagged "X" "optional" Uint128] /\
  forall E, E <> Borsh -> exists data,
    marshal E t v = (Ok tt, data) /\ unmarshal E t (zero_val t) data = Panic.
Proof.
  eexists. exists (VStruct [u128_val 7 0 None]). split; [reflexivity|]. intros [| |] H; [| |easy];
    eexists; (split; [vm_compute; reflexivity|vm_compute; reflexivity]).
Qed.
Print Assumptions C09_optional_codec_refuted.
(** A normal field after a binary_extension field: whether the extension is
    there or not. *)
Theorem C09_extension_order_refuted : exists t,
  t = TStruct [tagged "A" "binary_extension" u8; plain "B" u8] /\
  forall E, unmarshal E t (zero_val t) [] = Panic /\ unmarshal E t (zero_val t) [1; 2] = Panic.
Proof.
  eexists. split; [reflexivity|]. intros [| |]; split; vm_compute; reflexivity.
Qed.
Print Assumptions C09_extension_order_refuted.
