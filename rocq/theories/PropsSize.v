(** C74: how many bytes there are, and which encodings agree. *)
From Coq Require Import String.
From Verif Require Import Types DecPrim Enc Dec Spec Builtin EncWire DecWire RoundTrip AccSpec SizeSpec SizeFacts LayoutSpec LayoutFacts.
Open Scope string_scope.

(** A successful Decode consumes a number of bytes within the bounds of the type. *)
Theorem C74_consumes : forall own E t old pre inp c v s, kept own E t -> tame E t -> fits t old -> bytes_ok inp ->
  decode t old (mkD (pre ++ inp) (zlen pre) c E) = (Ok v, s) ->
  within (d_pos s - zlen pre) (span own E t false).
Proof. exact decode_span. Qed.
Print Assumptions C74_consumes.

(** With fewer bytes than the least it does not succeed. *)
Theorem C74_short : forall own E t old pre inp c v s, kept own E t -> tame E t -> fits t old -> bytes_ok inp ->
  zlen inp < fst (span own E t false) -> decode t old (mkD (pre ++ inp) (zlen pre) c E) <> (Ok v, s).
Proof. exact decode_short. Qed.
Print Assumptions C74_short.

(** For solid types the least is also enough. *)
Theorem C74_total : forall own E t old pre inp c, solid E t -> tame E t -> kept own E t -> fits t old -> bytes_ok inp ->
  fst (span own E t false) <= zlen inp ->
  exists v c', decode t old (mkD (pre ++ inp) (zlen pre) c E) = (Ok v, mkD (pre ++ inp) (zlen pre + fst (span own E t false)) c' E).
Proof. exact solid_total. Qed.
Print Assumptions C74_total.

(** What Marshal writes is within the bounds, and consists of bytes. *)
Theorem C74_writes : forall own E t v, kept own E t -> tame E t -> Forall (byte_writer E) (marshals t) -> ok E t None LE v ->
  exists b, marshal E t v = (Ok tt, b) /\ bytes_ok b /\ within (zlen b) (span own E t false).
Proof.
  intros own E t v Hk Ht Hm Hok. exists (wire E t None LE v). split; [now apply marshal_wire|].
  assert (Hb := wire_bytes E t None LE v Hm Hok). split; [exact Hb|]. now apply wire_span.
Qed.
Print Assumptions C74_writes.

(** The elements of a slice, if they are all of one size, are where one computes
    them to be. *)
Theorem C74_offset : forall own E t k vs i x, kept own E t -> tame E t -> Forall (byte_writer E) (marshals t) -> uint_kind t = None ->
  span own E t false = exactly k -> ok E (TSlice t) None LE (VSlice (Some vs)) -> nth_error vs i = Some x ->
  exists pre b post, marshal E t x = (Ok tt, b) /\
    marshal E (TSlice t) (VSlice (Some vs)) = (Ok tt, (pre ++ b ++ post)%list) /\
    zlen pre = zlen (count E (zlen vs)) + Z.of_nat i * k.
Proof.
  intros own E t k vs i x Hk Ht Hm Hu Hsp Hok Hi.
  destruct (slice_offset own E t k vs i x Hk Ht Hm Hu Hsp Hok Hi) as (pre & post & He & Hz).
  exists pre, (wire E t None LE x), post. split; [|split; [|exact Hz]].
  - apply marshal_wire. cbn [ok] in Hok. destruct Hok as (ol & [= <-] & _ & Hf & _). rewrite Hu in Hf. rewrite Forall_forall in Hf.
    apply Hf. now apply nth_error_In in Hi.
  - rewrite <- He. now apply marshal_wire.
Qed.
Print Assumptions C74_offset.

(** The library's types. *)
Theorem C74_library : forall E t, incl (owners t) lib_owners -> kept (lib_own E) E t.
Proof. exact library_kept. Qed.
Print Assumptions C74_library.

(** Where two encodings write the same. *)
Theorem C74_alike : forall E E' t v, alike E E' t false -> ok E t None LE v -> ok E' t None LE v ->
  marshal E t v = marshal E' t v.
Proof.
  intros E E' t v Ha H H'. rewrite !marshal_wire by assumption. f_equal. apply alike_wire; auto. now left.
Qed.
Print Assumptions C74_alike.

(** ** Samples *)
Definition size_header : ty := TStruct
  [ (mkF "Magic" true notag, TArray 4 (TUint UPlain W8));
    (mkF "Version" true (mkTag "big" "" ""), TUint UPlain W16);
    (mkF "Key" true notag, TPtr (TArray 2 (TInt false W64)));
    (mkF "note" false notag, TString);
    (mkF "Skip" true (mkTag "-" "" ""), TString);
    (mkF "F" true notag, TFloat F64) ].
Example C74_header_span : forall own, map (fun E => span own E size_header false) [Bin; CompactU16; Borsh] = [exactly 30; exactly 30; exactly 30].
Proof. intro own. vm_compute. reflexivity. Qed.
Example C74_header_solid : solid Bin size_header /\ solid CompactU16 size_header /\ ~ solid Borsh size_header /\
  (forall E, tame E size_header) /\ (forall own, (forall u, own u = exactly 0) -> forall E, kept own E size_header).
Proof.
  assert (Hm : bulk_max = 2147483647) by reflexivity.
  split; [|split; [|split; [|split]]].
  - split; [reflexivity|]. vm_compute; repeat (split || intro); try reflexivity; try discriminate; try exact I.
  - split; [reflexivity|]. vm_compute; repeat (split || intro); try reflexivity; try discriminate; try exact I.
  - intros [_ H]. vm_compute in H. destruct H as (_ & _ & _ & _ & _ & [_ H] & _). destruct (H eq_refl) as (_ & _ & _ & Hf). now apply Hf.
  - intro E. split; [constructor|]. intros _ H. now elim H.
  - intros own Ho E. split; [|constructor]. intro u. rewrite Ho. split; cbn; [lia|]. intros m [= <-]. lia.
Qed.
(** 29 bytes are too few, any 30 are enough. *)
Example C74_header_29 : forall E, exists e, fst (decode size_header (zero_val size_header) (new_decoder E (repeat 7 29))) = Err e.
Proof. intro E. destruct E; vm_compute; eexists; reflexivity. Qed.
Example C74_header_31 : map (fun E => let '(r, s) := decode size_header (zero_val size_header) (new_decoder E (repeat 7 31)) in
  (match r with Ok _ => true | _ => false end, d_pos s)) [Bin; CompactU16; Borsh] = [(true, 30); (true, 30); (true, 30)].
Proof. vm_compute. reflexivity. Qed.

(** Flags, an enum, a count given by a field, the library's types, and an
    extension. *)
Definition size_record : ty := TStruct
  [ (mkF "N" true (mkTag "sizeof=L" "" ""), TUint UPlain W8);
    (mkF "Opt" true (mkTag "optional" "" ""), TPtr (TUint UPlain W32));
    (mkF "L" true notag, TSlice TBool);
    (mkF "Name" true notag, SafeString);
    (mkF "Big" true notag, Uint128);
    (mkF "Var" true notag, Varuint32);
    (mkF "Ext" true (mkTag "binary_extension" "" ""), TUint UPlain W64) ].
Example C74_record_span : map (fun E => span (lib_own E) E size_record false) [Bin; CompactU16; Borsh] = [from 23; from 20; from 23].
Proof. vm_compute. reflexivity. Qed.
Example C74_record_kept : forall E, kept (lib_own E) E size_record.
Proof.
  intro E. apply library_kept. cbn [size_record owners gather app SafeString Uint128 Varuint32 simple_codec c_unmarshal u128_codec].
  intros x [<-|[<-|[<-|[]]]]; unfold lib_owners, library; cbn [flat_map fst owners SafeString Uint128 Varuint32 simple_codec c_unmarshal app]; cbn;
    repeat (try (left; reflexivity); right).
Qed.
Example C74_record_least : forall E, In E [Bin; CompactU16; Borsh] ->
  let b := match E with
           | Bin => [0; 0;0;0;0; 0; 1;0;0;0;0;0;0;0;0;0;0;0;0;0;0;0; 5]
           | CompactU16 => [0; 0; 0; 1;0;0;0;0;0;0;0;0;0;0;0;0;0;0;0; 5]
           | Borsh => [0; 0; 0;0;0;0; 1;0;0;0;0;0;0;0;0;0;0;0;0;0;0;0; 5]
           end in
  zlen b = fst (span (lib_own E) E size_record false) /\
  exists v, fst (decode size_record (zero_val size_record) (new_decoder E b)) = Ok v.
Proof. intros E [<-|[<-|[<-|[]]]]; cbv zeta; (split; [vm_compute; reflexivity|]); eexists; vm_compute; reflexivity. Qed.

Definition size_enum : ty := TStruct
  [ (mkF "Enum" true (mkTag "" "" "true"), TUint UBorshEnum W8);
    (mkF "A" true notag, TStruct [(mkF "X" true notag, TUint UPlain W16)]);
    (mkF "B" true notag, TStruct [(mkF "Y" true notag, TUint UPlain W64)]) ].
Example C74_enum_span : forall own, span own Borsh size_enum false = (3, Some 9) /\ span own Bin size_enum false = exactly 11.
Proof. intro own. vm_compute. auto. Qed.

(** Agreement: the header without its big-endian field in all three encodings;
    counts in Bin and CompactU16; flags in CompactU16 and Borsh.  Texts differ. *)
Definition size_common : ty := TStruct
  [ (mkF "Magic" true notag, TArray 4 (TUint UPlain W8));
    (mkF "N" true (mkTag "sizeof=L" "" ""), TUint UPlain W8);
    (mkF "L" true notag, TSlice (TInt false W16));
    (mkF "Key" true notag, TPtr (TFloat F32)) ].
Example C74_common_alike : forall E E', alike E E' size_common false.
Proof. intros E E'. split; [split; destruct E, E'; reflexivity|]. vm_compute; repeat (split || intro || (left; reflexivity)); try reflexivity; try discriminate. Qed.
Example C74_common_bytes : map (fun E => marshal E size_common (VStruct
    [VSeq [VNum 1; VNum 2; VNum 3; VNum 4]; VNum 2; VSlice (Some [VNum (-1); VNum 513]); VPtr (Some (VFloat 1065353216))])) [Bin; CompactU16; Borsh] =
  repeat (Ok tt, [1; 2; 3; 4; 2; 255; 255; 1; 2; 0; 0; 128; 63]) 3.
Proof. vm_compute. reflexivity. Qed.
Example C74_slice_alike : alike Bin CompactU16 (TSlice (TSlice TBool)) false /\
  alike CompactU16 Borsh (TStruct [(mkF "O" true (mkTag "optional" "" ""), TPtr TBool)]) false /\
  marshal Bin TString (VStr [104; 105]) <> marshal CompactU16 TString (VStr [104; 105]).
Proof.
  split; [|split].
  - split; [right; split; discriminate|]. intros _. split; [right; split; discriminate|]. intros _. exact I.
  - split; [split; reflexivity|]. cbn. split; [right; split; discriminate|]. split; [left; reflexivity|]. split; [left; reflexivity|]. split; [split; [reflexivity|exact I]|exact I].
  - vm_compute. discriminate.
Qed.
(** The third of four pairs, behind the count. *)
Example C74_offset_sample : let t := TStruct [(mkF "A" true notag, TUint UPlain W8); (mkF "B" true notag, TUint UPlain W16)] in
  let v i := VStruct [VNum i; VNum (i + 256)] in
  span (fun _ => exactly 0) Borsh t false = exactly 3 /\
  marshal Borsh (TSlice t) (VSlice (Some [v 1; v 2; v 3; v 4])) = (Ok tt, [4; 0; 0; 0; 1; 1; 1; 2; 2; 1; 3; 3; 1; 4; 4; 1]) /\
  marshal Borsh t (v 3) = (Ok tt, firstn 3 (skipn (4 + 2 * 3) [4; 0; 0; 0; 1; 1; 1; 2; 2; 1; 3; 3; 1; 4; 4; 1])).
Proof. vm_compute. auto. Qed.
