(** The decoder on arbitrary bytes: trailing bytes, truncation, position,
    bounds, client programs, SafeString (C06, C07, C10, C16, C26, C34-C37, C51,
    C52). *)
From Verif Require Import Types EncPrim DecPrim Enc Dec Utf8 Builtin Spec NumFacts Ops EncFacts EncProps
  Check RoundTripProps PropsCodec DecWithin DecLocal DecBound Utf8Facts BuiltinFacts DecProps.

(** The hypotheses on custom codec methods hold for those of the library. *)
Theorem library_codecs_within : Forall (all_codecs codec_within) library_types.
Proof. exact library_within. Qed.
Print Assumptions library_codecs_within.
Theorem library_codecs_local : forall b, Forall (all_codecs (codec_local b)) library_types.
Proof. exact library_local. Qed.
Print Assumptions library_codecs_local.
Theorem library_codecs_small : Forall (all_codecs codec_small) library_types.
Proof. exact library_small. Qed.
Print Assumptions library_codecs_small.

(** A type without extension fields, with library codecs, for the examples. *)
Definition msg : ty := TStruct
  [ tagged "Len" "sizeof=Items" (TUint UPlain W16);
    tagged "Note" "optional" (TPtr TString);
    plain "Items" (TSlice (TInt false W16));
    plain "Name" SafeString;
    plain "Index" (TMap TString u8);
    plain "Rows" (TSlice (TStruct [plain "Id" Uint128; plain "V" Varuint32])) ].
Definition msg_v : val := VStruct
  [ VNum 2; VPtr (Some (VStr [104; 105])); VSlice (Some [VNum (-1); VNum 7]);
    VStr [104]; VMap (Some [(VStr [97], VNum 9)]);
    VSlice (Some [VStruct [u128_val 5 1 None; VNum 300]]) ].
Definition msg_bin : list Z :=
  [2;0; 1;0;0;0; 2;0;0;0;0;0;0;0;104;105; 255;255;7;0; 1;104;
   1; 1;0;0;0;0;0;0;0;97;9; 1; 5;0;0;0;0;0;0;0;1;0;0;0;0;0;0;0; 172;2].
Lemma msg_marshal : marshal Bin msg msg_v = (Ok tt, msg_bin).
Proof. reflexivity. Qed.
Ltac codecs Hs Hu Hv :=
  cbn [msg tagged plain u8 all_codecs snd];
  repeat match goal with |- _ /\ _ => split | |- True => exact I end; assumption.
Lemma msg_local b : all_codecs (codec_local b) msg.
Proof.
  pose proof (library_local b) as H. rewrite Forall_forall in H.
  assert (Hs := H SafeString ltac:(cbn; tauto)). assert (Hu := H Uint128 ltac:(cbn; tauto)).
  assert (Hv := H Varuint32 ltac:(cbn; tauto)).
  codecs Hs Hu Hv.
Qed.
Lemma msg_within : all_codecs codec_within msg.
Proof.
  pose proof library_within as H. rewrite Forall_forall in H.
  assert (Hs := H SafeString ltac:(cbn; tauto)). assert (Hu := H Uint128 ltac:(cbn; tauto)).
  assert (Hv := H Varuint32 ltac:(cbn; tauto)).
  codecs Hs Hu Hv.
Qed.
Lemma msg_no_ext : everywhere no_ext msg.
Proof. cbn. repeat split; repeat (constructor; cbn; auto). Qed.

(** ** C06: trailing bytes *)

Theorem C06_trailing_bytes : forall E t v data pos c x s' more,
  all_codecs (codec_local false) t -> everywhere no_ext t ->
  0 <= pos <= zlen data ->
  decode t v (mkD data pos c E) = (Ok x, s') ->
  decode t v (mkD (data ++ more) pos c E) = (Ok x, mkD (data ++ more) (d_pos s') (d_cur s') E).
Proof. exact decode_trailing. Qed.
Print Assumptions C06_trailing_bytes.
Example C06_ex : forall more,
  decode msg (zero_val msg) (mkD (msg_bin ++ more) 0 None Bin) =
    (Ok msg_v, mkD (msg_bin ++ more) 52 (Some LE) Bin).
Proof.
  intro more.
  refine (C06_trailing_bytes Bin msg (zero_val msg) msg_bin 0 None msg_v
            (mkD msg_bin 52 (Some LE) Bin) more
            (msg_local false) msg_no_ext _ _); [cbn; lia|vm_compute; reflexivity].
Qed.
(** Not so with an extension field: the trailing byte is taken for it. *)
Theorem C06_extension_refuted : exists t data more x y s s',
  decode t (zero_val t) (new_decoder Bin data) = (Ok x, s) /\
  decode t (zero_val t) (new_decoder Bin (data ++ more)) = (Ok y, s') /\ x <> y.
Proof.
  exists (TStruct [plain "A" u8; tagged "B" "binary_extension" u8]), [1], [2].
  do 4 eexists. repeat split; [vm_compute; reflexivity..|]. discriminate.
Qed.
Print Assumptions C06_extension_refuted.

(** ** C07: truncated input *)

Theorem C07_truncated : forall E t v b p q,
  ok E t None LE v -> all_codecs (codec_local false) t -> everywhere no_ext t ->
  marshal E t v = (Ok tt, b) -> b = p ++ q -> q <> [] ->
  exists e, unmarshal E t (zero_val t) p = Err e.
Proof. exact truncated. Qed.
Print Assumptions C07_truncated.
(** Not only encodings: nothing that was accepted is accepted if an end of what was
    read is missing, also into variables in use. *)
Theorem C07_accepted : forall E t v data x s' n,
  all_codecs (codec_local false) t -> everywhere no_ext t ->
  decode t v (new_decoder E data) = (Ok x, s') -> Z.of_nat n < d_pos s' ->
  exists e, unmarshal E t v (firstn n data) = Err e.
Proof. exact accepted_truncated. Qed.
Print Assumptions C07_accepted.
(** The second byte of the count is a superfluous group; marshal never writes it. *)
Example C07_accepted_ex : unmarshal Bin (TSlice TBool) (VSlice None) [130; 0; 1; 5] = Ok (VSlice (Some [VBool true; VBool true])) /\
  forall n, (n < 4)%nat -> exists e, unmarshal Bin (TSlice TBool) (VSlice None) (firstn n [130; 0; 1; 5]) = Err e.
Proof.
  split; [vm_compute; reflexivity|]. intros n Hn.
  apply (C07_accepted Bin (TSlice TBool) (VSlice None) [130; 0; 1; 5] (VSlice (Some [VBool true; VBool true])) (mkD [130; 0; 1; 5] 4 (Some LE) Bin));
    [cbn; tauto..|vm_compute; reflexivity|cbn; lia].
Qed.
(** The same type without codec methods. *)
Definition note : ty := TStruct
  [ tagged "Len" "sizeof=Items" (TUint UPlain W16);
    tagged "Note" "optional" (TPtr TString);
    plain "Items" (TSlice (TInt false W16));
    plain "Index" (TMap TString u8) ].
Definition note_v : val := VStruct
  [ VNum 2; VPtr (Some (VStr [104; 105])); VSlice (Some [VNum (-1); VNum 7]);
    VMap (Some [(VStr [97], VNum 9)]) ].
Definition note_bin : list Z :=
  [2;0; 1;0;0;0; 2;0;0;0;0;0;0;0;104;105; 255;255;7;0; 1; 1;0;0;0;0;0;0;0;97;9].
Example C07_ex : forall p q, note_bin = p ++ q -> q <> [] ->
  exists e, unmarshal Bin note (zero_val note) p = Err e.
Proof.
  intros p q Hp Hq. refine (C07_truncated Bin note note_v note_bin p q _ _ _ _ Hp Hq).
  - apply okb_ok. vm_compute. reflexivity.
  - cbn. tauto.
  - cbn. repeat split; repeat (constructor; cbn; auto).
  - vm_compute. reflexivity.
Qed.

(** ** C10: position in bounds *)

Theorem C10_position_in_bounds : forall E t v data pos c,
  all_codecs codec_within t -> 0 <= pos <= zlen data ->
  let s' := snd (decode t v (mkD data pos c E)) in
  d_data s' = data /\ d_enc s' = E /\ pos <= d_pos s' <= zlen data.
Proof.
  intros E t v data pos c Hc Hp. cbv zeta.
  destruct (within_decode t v Hc (mkD data pos c E) Hp) as (H1 & H2 & H3 & H4).
  cbn [d_data d_enc d_pos] in *. unfold inside in H4. rewrite H1 in H4. tauto.
Qed.
Print Assumptions C10_position_in_bounds.
(** A forged length: the error leaves the position behind the length. *)
Example C10_ex : forall data,
  let s' := snd (decode msg (zero_val msg) (mkD data 0 None Bin)) in
  0 <= d_pos s' <= zlen data.
Proof.
  intro data. apply (C10_position_in_bounds Bin msg (zero_val msg) data 0 None msg_within).
  pose proof (zlen_nonneg data). lia.
Qed.
Example C10_ex_error :
  decode (TSlice (TInt false W16)) (VSlice None) (new_decoder Borsh [255;255;255;255;1]) =
    (Err EUnexpectedEOF, mkD [255;255;255;255;1] 4 (Some LE) Borsh).
Proof. vm_compute. reflexivity. Qed.

(** ** C16: decoded values are bounded by the input *)

(** No slice in the value has more than [n] elements, no string more than
    [3 * n] bytes (SafeReadUTF8String may triple an invalid string). *)
Theorem C16_bounded : forall E t data pos c x s',
  all_codecs codec_small t -> 0 <= pos <= zlen data ->
  decode t (zero_val t) (mkD data pos c E) = (Ok x, s') ->
  small (zlen data - pos) x.
Proof.
  intros E t data pos c x s' Hc Hp H.
  change (zlen data - pos) with (zlen (d_data (mkD data pos c E)) - d_pos (mkD data pos c E)).
  rewrite <- remaining_pos by (cbn [d_pos]; lia).
  apply (bounded t (zero_val t) (mkD data pos c E) x s'); auto.
  apply small_zero. open_rem. cbn [d_data d_pos]. lia.
Qed.
Print Assumptions C16_bounded.
(** Readings of [small]. *)
Theorem C16_slice : forall E t data l,
  all_codecs codec_small t ->
  unmarshal E (TSlice t) (VSlice None) data = Ok (VSlice (Some l)) -> zlen l <= zlen data.
Proof.
  intros E t data l Hc H. unfold unmarshal in H.
  destruct (decode (TSlice t) (VSlice None) (new_decoder E data)) as [r s'] eqn:Ed.
  cbn [fst] in H. subst r.
  pose proof (C16_bounded E (TSlice t) data 0 None _ _ Hc ltac:(pose proof (zlen_nonneg data); lia) Ed) as H.
  apply small_slice in H. lia.
Qed.
Print Assumptions C16_slice.
Example C16_ex : forall data x,
  unmarshal Bin (TSlice SafeString) (VSlice None) data = Ok (VSlice (Some x)) -> zlen x <= zlen data.
Proof.
  intros data x. apply C16_slice. pose proof library_small as H. rewrite Forall_forall in H.
  apply H. cbn; tauto.
Qed.
(** A forged length of 2^32-1 for elements without bytes. *)
Example C16_ex_forged :
  fst (decode (TSlice (TStruct [])) (VSlice None) (new_decoder Borsh [255;255;255;255])) = Err EUnexpectedEOF /\
  fst (decode (TSlice (TStruct [])) (VSlice None) (new_decoder Borsh [2;0;0;0;9;9])) =
    Ok (VSlice (Some [VStruct []; VStruct []])).
Proof. split; vm_compute; reflexivity. Qed.

(** ** C26: SafeReadUTF8String *)

Theorem C26_valid : forall s, bytes_ok s -> utf8 (safe_utf8 s).
Proof. exact safe_valid. Qed.
Theorem C26_unchanged : forall s, utf8 s -> safe_utf8 s = s.
Proof. exact safe_id. Qed.
Theorem C26_idempotent : forall s, bytes_ok s -> safe_utf8 (safe_utf8 s) = safe_utf8 s.
Proof. intros s Hs. now apply safe_id, safe_valid. Qed.
(** What it does, character by character: well formed characters stay, each
    byte that does not start one becomes U+FFFD. *)
Theorem C26_good_char : forall r s, scalar r ->
  safe_utf8 (utf8_char r ++ s) = utf8_char r ++ safe_utf8 s.
Proof. exact safe_char. Qed.
Theorem C26_bad_byte : forall b s, bytes_ok (b :: s) ->
  (forall r rest, scalar r -> b :: s <> utf8_char r ++ rest) ->
  safe_utf8 (b :: s) = [0xEF; 0xBF; 0xBD] ++ safe_utf8 s.
Proof. exact safe_bad. Qed.
(** strings.Map copies unchanged prefixes; that gives the same. *)
Theorem C26_fast_path : forall s, bytes_ok s -> strings_map (length s) s = safe_utf8 s.
Proof. intros s Hs. now apply strings_map_safe. Qed.
(** The reader: whatever ReadString returns, sanitised. *)
Theorem C26_reader : forall s x s',
  safe_read_utf8_string s = (Ok x, s') <->
  exists y, read_string s = (Ok y, s') /\ x = safe_utf8 y.
Proof.
  intros s x s'. unfold safe_read_utf8_string, fmap, bind. change read_string with read_byte_slice.
  destruct (read_byte_slice s) as [[a|e| | |] s1]; split;
    try (intro H; discriminate H); try (intros (y & H & _); discriminate H).
  - intro H. injection H as <- <-. eauto.
  - intros (y & H & ->). injection H as <- <-. reflexivity.
Qed.
Print Assumptions C26_valid.
Print Assumptions C26_unchanged.
Print Assumptions C26_idempotent.
Print Assumptions C26_good_char.
Print Assumptions C26_bad_byte.
Print Assumptions C26_fast_path.
Print Assumptions C26_reader.
Example C26_ex :
  safe_utf8 [72; 0xC3; 0xA9; 0xE2; 0x82; 0xAC; 0xF0; 0x9F; 0x98; 0x80] =
    [72; 0xC3; 0xA9; 0xE2; 0x82; 0xAC; 0xF0; 0x9F; 0x98; 0x80] /\
  (* a lone continuation byte, an overlong form, a surrogate, a cut character *)
  safe_utf8 [65; 0x80; 66] = [65; 0xEF; 0xBF; 0xBD; 66] /\
  safe_utf8 [0xC0; 0x80] = [0xEF; 0xBF; 0xBD; 0xEF; 0xBF; 0xBD] /\
  safe_utf8 [0xED; 0xA0; 0x80] = [0xEF; 0xBF; 0xBD; 0xEF; 0xBF; 0xBD; 0xEF; 0xBF; 0xBD] /\
  safe_utf8 [0xE2; 0x82] = [0xEF; 0xBF; 0xBD; 0xEF; 0xBF; 0xBD].
Proof. repeat split; vm_compute; reflexivity. Qed.
Example C26_ex_utf8 : utf8 [72; 0xC3; 0xA9] /\ ~ utf8 [0xC0; 0x80].
Proof.
  split.
  - exact (utf8_cons 72 _ ltac:(unfold scalar; lia) (utf8_cons 0xE9 _ ltac:(unfold scalar; lia) utf8_nil)).
  - intro H. apply safe_id in H. discriminate.
Qed.

(** ** C34: Peek and Read *)

Theorem C34_peek_read : forall data pos c E n, 0 <= pos <= zlen data ->
  let s := mkD data pos c E in
  let here := firstn (Z.to_nat n) (skipn (Z.to_nat pos) data) in
  (0 <= n <= zlen data - pos ->
     d_peek n s = (Ok here, s) /\
     d_read n s = (Ok here, mkD data (pos + n) c E) /\
     (n <= 0x7FFFFFFF -> read_n_bytes n s = (Ok here, mkD data (pos + n) c E))) /\
  (n < 0 \/ zlen data - pos < n ->
     (exists e, d_peek n s = (Err e, s)) /\ (exists e, read_n_bytes n s = (Err e, s)) /\
     (0 <= n -> exists e, d_read n s = (Err e, s))).
Proof.
  intros data pos c E n Hp. pose proof (peek_read (mkD data pos c E) n Hp) as H.
  rewrite (remaining_pos (mkD data pos c E)) in H by (cbn [d_pos]; lia). exact H.
Qed.
Print Assumptions C34_peek_read.
Example C34_ex :
  let s := mkD [1;2;3;4] 1 None Bin in
  d_peek 2 s = (Ok [2;3], s) /\ d_read 2 s = (Ok [2;3], mkD [1;2;3;4] 3 None Bin) /\
  read_n_bytes 2 s = (Ok [2;3], mkD [1;2;3;4] 3 None Bin) /\
  fst (d_peek 4 s) = Err EMsg /\ fst (read_n_bytes (-1) s) = Err EMsg.
Proof. repeat split; reflexivity. Qed.
Theorem C34_discriminator : forall data pos c E, 0 <= pos -> pos + 8 <= zlen data ->
  let s := mkD data pos c E in
  let here := firstn 8 (skipn (Z.to_nat pos) data) in
  peek_discriminator s = (Ok here, s) /\ read_type_id s = (Ok here, mkD data (pos + 8) c E).
Proof.
  intros data pos c E H0 H1. cbv zeta.
  destruct (C34_peek_read data pos c E 8 ltac:(lia)) as [H _].
  destruct (H ltac:(lia)) as (Hp & _ & Hr). specialize (Hr ltac:(lia)).
  change (Z.to_nat 8) with 8%nat in Hp, Hr. unfold peek_discriminator, read_type_id, bind.
  rewrite Hp, Hr. unfold ret.
  assert (L : length (firstn 8 (skipn (Z.to_nat pos) data)) = 8%nat).
  { rewrite firstn_length, skipn_length. unfold zlen in H1. lia. }
  assert (F : forall l, length l = 8%nat -> type_id_from_bytes l = l).
  { clear. intros l L. unfold type_id_from_bytes. rewrite <- L at 1.
    now rewrite firstn_app, Nat.sub_diag, firstn_all, app_nil_r. }
  now rewrite F by exact L.
Qed.
Print Assumptions C34_discriminator.
Example C34_ex_discriminator :
  read_type_id (mkD [0;1;2;3;4;5;6;7;8] 1 None Borsh) =
    (Ok [1;2;3;4;5;6;7;8], mkD [0;1;2;3;4;5;6;7;8] 9 None Borsh).
Proof. reflexivity. Qed.

(** ** C35: failed primitive reads do not move *)

(** Readers of a fixed number of bytes: too few bytes give an error at the same
    position; enough bytes move by exactly that number (only ReadCOption and
    the float readers can still fail, on a bad flag or NaN). *)
Theorem C35_fixed_short : forall data pos c E op k, 0 <= pos <= zlen data -> zlen data < 2 ^ 63 ->
  read_size op = Some k -> 0 <= k -> zlen data - pos < k ->
  exists e, dop_run op (mkD data pos c E) = (Err e, mkD data pos c E).
Proof.
  intros data pos c E op k Hp Hd. pose proof (fixed_read_short op k (mkD data pos c E) Hp Hd) as H.
  rewrite (remaining_pos (mkD data pos c E)) in H by (cbn [d_pos]; lia). exact H.
Qed.
Theorem C35_fixed_enough : forall data pos c E op k, 0 <= pos <= zlen data -> zlen data < 2 ^ 63 ->
  read_size op = Some k -> 0 <= k <= zlen data - pos ->
  snd (dop_run op (mkD data pos c E)) = mkD data (pos + k) c E /\
  match fst (dop_run op (mkD data pos c E)) with
  | Ok _ => True
  | Err _ => op = OpReadCOption \/ exists f o, op = OpReadFloat f o
  | _ => False
  end.
Proof.
  intros data pos c E op k Hp Hd Hk H.
  apply (fixed_read_moves op k (mkD data pos c E) Hp Hd Hk); [lia|]. rewrite remaining_pos; cbn [d_pos d_data]; lia.
Qed.
(** Variable length integers: no error moves the position. *)
Theorem C35_varint : forall op s e s', read_leb op = true ->
  dop_run op s = (Err e, s') -> s' = s.
Proof. intros op s e s' Hop. exact (leb_read_shy op Hop s e s'). Qed.
Print Assumptions C35_fixed_short.
Print Assumptions C35_fixed_enough.
Print Assumptions C35_varint.
Example C35_ex :
  dop_run (OpReadUint W32 BE) (mkD [1;2;3] 0 None Bin) = (Err EMsg, mkD [1;2;3] 0 None Bin) /\
  dop_run OpReadUvarint64 (mkD [128;128] 0 None Bin) = (Err EVarint, mkD [128;128] 0 None Bin) /\
  dop_run (OpReadUint128 LE) (mkD [1;2;3] 2 None Bin) = (Err EMsg, mkD [1;2;3] 2 None Bin).
Proof. repeat split; reflexivity. Qed.
(** Not so for reads with a length prefix: when the body is too short, the
    position is behind the length. *)
Theorem C35_length_prefixed_refuted : exists op s e s',
  (op = OpReadByteSlice \/ op = OpReadString) /\ dop_run op s = (Err e, s') /\ d_pos s' <> d_pos s.
Proof.
  exists OpReadString, (mkD [5;1] 0 None Bin). do 2 eexists.
  split; [now right|]. split; [reflexivity|]. cbn. lia.
Qed.
Print Assumptions C35_length_prefixed_refuted.

(** ** C36: operation sequences *)

Theorem C36_positions : forall E data ops, zlen data < 2 ^ 63 -> Forall sane ops ->
  let s := snd (dops_run ops (new_decoder E data)) in
  exists pos len, 0 <= pos <= len /\
    dop_run OpPosition s = (Ok (RNum pos), s) /\
    dop_run OpLen s = (Ok (RNum len), s) /\
    dop_run OpRemaining s = (Ok (RNum (len - pos)), s) /\
    dop_run OpHasRemaining s = (Ok (RBool (pos <? len)), s).
Proof. exact positions. Qed.
Print Assumptions C36_positions.
Definition c36_ops : list dop :=
  [OpReadByte; OpSkipBytes 2; OpPeek 100; OpSetPosition 1; OpReadString; OpDiscard 1; OpSkipBytes 99].
Example C36_ex : Forall sane c36_ops /\
  let s := snd (dops_run c36_ops (new_decoder Bin [7; 2; 65; 66; 67])) in
  dop_run OpPosition s = (Ok (RNum 5), s) /\ dop_run OpRemaining s = (Ok (RNum 0), s).
Proof. split; [repeat constructor; cbn; lia|]. repeat split; vm_compute; reflexivity. Qed.
(** SetPosition takes a uint; arguments from 2^63 on become a negative
    position, which is accepted, and the next read panics. *)
Theorem C36_setposition_refuted : exists n s s' r s'',
  0 <= n < 2 ^ 64 /\ s = new_decoder Bin [1;2;3] /\
  dop_run (OpSetPosition n) s = (Ok RUnit, s') /\ dop_run (OpReadUvarint64) s' = (r, s'') /\
  r = Panic /\ dop_run OpRemaining s' = (Ok (RNum 4), s').
Proof.
  exists (2 ^ 64 - 1). do 4 eexists. split; [lia|]. split; [reflexivity|].
  split; [reflexivity|]. split; [reflexivity|]. split; reflexivity.
Qed.
Print Assumptions C36_setposition_refuted.
(** The same for every such argument (of a size for which Remaining() does not
    overflow) and every reader of a fixed number of bytes that passes the test
    of what remains: it panics and leaves the position as it is.  SkipBytes
    leads back to the data. *)
Theorem C36_negative : forall n op k s, 2 ^ 63 <= n < 2 ^ 64 -> zlen (d_data s) + (2 ^ 64 - n) < 2 ^ 63 ->
  read_size op = Some k -> 0 < k <= zlen (d_data s) + (2 ^ 64 - n) ->
  (forall n, op <> OpSkipBytes n /\ op <> OpDiscard n) ->
  let s' := mkD (d_data s) (n - 2 ^ 64) (d_cur s) (d_enc s) in
  dop_run (OpSetPosition n) s = (Ok RUnit, s') /\ dop_run op s' = (Panic, s') /\
  dop_run (OpSkipBytes (2 ^ 64 - n)) s' = (Ok RUnit, mkD (d_data s) 0 (d_cur s) (d_enc s)).
Proof. exact negative_position. Qed.
Print Assumptions C36_negative.
Example C36_sample_negative :
  dops_run [OpSetPosition (2 ^ 64 - 3); OpReadUint W16 BE; OpPosition; OpReadUint128 LE; OpSkipBytes 4; OpReadByte]
    (new_decoder Borsh [1;2;3]) =
  ([Ok RUnit; Panic; Ok (RNum (2 ^ 64 - 3)); Err EMsg; Ok RUnit; Ok (RNum 2)], mkD [1;2;3] 2 None Borsh).
Proof. vm_compute. reflexivity. Qed.

(** For the remaining arguments, from 2^63 up to the length of the data above
    it, the difference in Remaining() does overflow: it is negative, so that
    the readers that test what remains return an error, whatever their size.
    Those that compare the end of the read with the length of the data
    (ReadNBytes, Read and ReadTypeID) still panic, and SkipBytes, which converts
    Remaining() to uint, still leads back. *)
Theorem C36_overflow : forall n op k s, 2 ^ 63 <= n < 2 ^ 64 -> zlen (d_data s) < 2 ^ 62 -> 2 ^ 63 <= zlen (d_data s) + (2 ^ 64 - n) ->
  read_size op = Some k -> 0 < k < 2 ^ 62 -> (forall n, op <> OpSkipBytes n /\ op <> OpDiscard n) ->
  let s' := mkD (d_data s) (n - 2 ^ 64) (d_cur s) (d_enc s) in
  dop_run (OpSetPosition n) s = (Ok RUnit, s') /\
  (match op with
   | OpReadNBytes _ | OpRead _ | OpReadTypeID => dop_run op s' = (Panic, s')
   | _ => exists e, dop_run op s' = (Err e, s')
   end) /\
  dop_run OpRemaining s' = (Ok (RNum (zlen (d_data s) - n)), s') /\
  dop_run (OpSkipBytes (2 ^ 64 - n)) s' = (Ok RUnit, mkD (d_data s) 0 (d_cur s) (d_enc s)).
Proof. exact far_position. Qed.
Print Assumptions C36_overflow.
Example C36_sample_overflow :
  dops_run [OpSetPosition (2 ^ 63 + 2); OpRemaining; OpHasRemaining; OpReadByte; OpReadUint W64 LE; OpReadNBytes 1; OpSkipBytes (2 ^ 63 - 1); OpReadByte]
    (new_decoder Borsh [1;2;3]) =
  ([Ok RUnit; Ok (RNum (1 - 2 ^ 63)); Ok (RBool false); Err EMsg; Err EMsg; Panic; Ok RUnit; Ok (RNum 2)], mkD [1;2;3] 2 None Borsh).
Proof. vm_compute. reflexivity. Qed.

(** ** C37: Reset *)

Theorem C37_reset : forall E data0 before data after,
  zlen data0 < 2 ^ 63 -> Forall sane before ->
  Forall (fun op => forall E', op <> OpSetEncoding E') before ->
  dops_run (before ++ OpReset data :: after) (new_decoder E data0) =
  let '(r1, _) := dops_run before (new_decoder E data0) in
  let '(r2, s2) := dops_run after (new_decoder E data) in (r1 ++ Ok RUnit :: r2, s2).
Proof. exact reset_fresh. Qed.
Print Assumptions C37_reset.
Example C37_ex :
  dops_run ([OpReadByte; OpDecode msg (zero_val msg)] ++ OpReset [2;65;66] :: [OpReadString; OpPosition])
    (new_decoder CompactU16 [1;1;1]) =
  let '(r1, _) := dops_run [OpReadByte; OpDecode msg (zero_val msg)] (new_decoder CompactU16 [1;1;1]) in
  (r1 ++ [Ok RUnit; Ok (RBytes [65;66]); Ok (RNum 3)], mkD [2;65;66] 3 None CompactU16).
Proof.
  rewrite C37_reset.
  - destruct (dops_run [OpReadByte; _] _). vm_compute. reflexivity.
  - cbn; lia.
  - constructor; [exact I|]. constructor; [exact msg_within|constructor].
  - repeat constructor; discriminate.
Qed.

(** ** C51: compact-u16 slices of more than 65535 elements *)

(** MarshalCompactU16 succeeds and writes the elements without any length; no
    input at all decodes to a slice of that many elements. *)
Theorem C51_no_length_written : forall t l,
  Forall (fun x => match uint_kind t with
                   | Some w => exists z, x = VNum z /\ 0 <= z < 2 ^ wbits w
                   | None => ok CompactU16 t None LE x
                   end) l ->
  65535 < zlen l ->
  marshal CompactU16 (TSlice t) (VSlice (Some l)) =
    (Ok tt, flat_map (fun x => match uint_kind t, x with
                               | Some w, VNum z => fixed LE (wbytes w) z
                               | _, _ => wire CompactU16 t None LE x
                               end) l).
Proof. exact compact_long. Qed.
Theorem C51_never_decoded : forall t v data l,
  unmarshal CompactU16 (TSlice t) v data = Ok (VSlice (Some l)) -> zlen l <= 65535.
Proof. exact compact_decoded_len. Qed.
Print Assumptions C51_no_length_written.
Print Assumptions C51_never_decoded.
Example C51_ex : forall n, 65535 < Z.of_nat n ->
  marshal CompactU16 (TSlice (TUint UPlain W8)) (VSlice (Some (repeat (VNum 7) n))) =
    (Ok tt, repeat 7 n).
Proof.
  intros n Hn. rewrite C51_no_length_written.
  - f_equal. clear Hn. induction n as [|n IH]; [reflexivity|]. cbn [repeat flat_map]. now rewrite IH.
  - apply Forall_forall. intros x Hx. apply repeat_spec in Hx. subst. now exists 7.
  - unfold zlen. rewrite repeat_length. lia.
Qed.

(** ** C52: only the consumed bytes matter *)

Theorem C52_consumed_bytes : forall E t v data x s',
  all_codecs (codec_local true) t -> all_codecs codec_within t -> everywhere no_ext t ->
  everywhere (solid_slices E) t ->
  decode t v (new_decoder E data) = (Ok x, s') ->
  0 <= d_pos s' <= zlen data /\
  forall post, let data' := firstn (Z.to_nat (d_pos s')) data ++ post in
  decode t v (new_decoder E data') = (Ok x, mkD data' (d_pos s') (d_cur s') E).
Proof. exact decode_prefix. Qed.
Print Assumptions C52_consumed_bytes.
Lemma msg_solid : everywhere (solid_slices Bin) msg.
Proof.
  cbn [msg everywhere tagged plain snd u8 SafeString Uint128 Varuint32 u128_fields].
  repeat match goal with
         | |- _ /\ _ => split
         | |- True => exact I
         | |- solid_slices _ (TSlice _) => intros _
         | |- solid_slices _ _ => exact I
         end.
  - exact I.
  - right. right. left. unfold solid_field. cbv zeta. split; [reflexivity|]. split; [reflexivity|].
    right. split.
    + intro v. cbn [Varuint32 solid simple_codec c_unmarshal].
      apply eats_fmap; [within|]. apply eats_map_err, eats_uvarint.
    + left. reflexivity.
Qed.
Example C52_ex : forall post,
  decode msg (zero_val msg) (new_decoder Bin (msg_bin ++ post)) =
    (Ok msg_v, mkD (msg_bin ++ post) 52 (Some LE) Bin).
Proof.
  destruct (C52_consumed_bytes Bin msg (zero_val msg) (msg_bin ++ [9; 9; 9]) msg_v
              (mkD (msg_bin ++ [9; 9; 9]) 52 (Some LE) Bin) (msg_local true) msg_within msg_no_ext
              msg_solid) as [_ H]; [vm_compute; reflexivity|].
  intro post. exact (H post).
Qed.
