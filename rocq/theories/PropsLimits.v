(** Where sending a value and getting it back part (C61). *)
From Verif Require Import Types EncPrim DecPrim Enc Dec Utf8 Builtin Spec NumFacts EncFacts EncWire RoundTrip Check PropsCodec LimitFacts.
Notation length := Datatypes.length.

(** ** C61 *)

(** Slices whose elements take no bytes are written as their count.  Reading
    them back succeeds only if at least as many bytes follow as there are
    elements: otherwise the count is taken for a truncated input. *)
Theorem C61_blank_elements : forall E t l p post, uint_kind t = None -> l <> [] -> zlen l <= count_max E ->
  Forall (fun x => ok E t None LE x /\ wire E t None LE x = []) l ->
  marshal E (TSlice t) (VSlice (Some l)) = (Ok tt, count E (zlen l)) /\
  unmarshal E (TSlice t) p (count E (zlen l) ++ post) =
    if zlen post <? zlen l then Err EUnexpectedEOF
    else Ok (VSlice (Some (map (back E t None LE (zero_val t)) l))).
Proof. intros. split; [now apply blank_written|now apply blank_read]. Qed.
Print Assumptions C61_blank_elements.
Example C61_blank_elements_sample :
  marshal Borsh (TSlice (TStruct [])) (VSlice (Some [VStruct []; VStruct []])) = (Ok tt, [2; 0; 0; 0]) /\
  unmarshal Borsh (TSlice (TStruct [])) (VSlice None) [2; 0; 0; 0] = Err EUnexpectedEOF /\
  unmarshal Borsh (TSlice (TStruct [])) (VSlice None) [2; 0; 0; 0; 9; 9] = Ok (VSlice (Some [VStruct []; VStruct []])) /\
  Forall (fun x => ok Borsh (TStruct []) None LE x /\ wire Borsh (TStruct []) None LE x = []) [VStruct []; VStruct []].
Proof.
  split; [reflexivity|]. split; [reflexivity|]. split; [reflexivity|].
  repeat (apply Forall_cons; [split; [apply okb_ok; reflexivity|reflexivity]|]). apply Forall_nil.
Qed.

(** Empty slices and maps read into a variable that is in use: Borsh leaves a
    slice as it was, the other encodings make it empty; all leave a map as it
    was. *)
Theorem C61_stale_slice : forall t p post, unmarshal Borsh (TSlice t) p (count Borsh 0 ++ post) = Ok p.
Proof. exact empty_slice_kept. Qed.
Print Assumptions C61_stale_slice.
Theorem C61_empty_slice : forall E t p post, E <> Borsh ->
  unmarshal E (TSlice t) p (count E 0 ++ post) = Ok (VSlice (Some [])).
Proof. exact empty_slice_new. Qed.
Print Assumptions C61_empty_slice.
Theorem C61_stale_map : forall E kt vt p post, unmarshal E (TMap kt vt) p (count E 0 ++ post) = Ok p.
Proof. exact empty_map_kept. Qed.
Print Assumptions C61_stale_map.
(** So what is read depends on what was in the variable. *)
Theorem C61_fresh_result_refuted : exists t v p q, ok Borsh t None LE v /\ fits t p /\ fits t q /\
  exists bs, marshal Borsh t v = (Ok tt, bs) /\ unmarshal Borsh t p bs = Ok v /\ unmarshal Borsh t q bs <> Ok v.
Proof.
  exists (TSlice TBool), (VSlice (Some [])), (VSlice (Some [])), (VSlice (Some [VBool true])).
  split; [apply okb_ok; reflexivity|]. split; [apply fitsb_ok; reflexivity|]. split; [apply fitsb_ok; reflexivity|].
  exists [0; 0; 0; 0]. split; [reflexivity|]. split; [reflexivity|discriminate].
Qed.
Print Assumptions C61_fresh_result_refuted.

(** A nil pointer outside an optional field: nothing is written in Bin and
    CompactU16, so that what follows is read in its place; in Borsh it is
    written like a pointer to a zero value. *)
Theorem C61_nil_silent : forall E t, E <> Borsh -> ptr_marshal t = None ->
  marshal E (TPtr t) (VPtr None) = (Ok tt, []).
Proof. exact nil_silent. Qed.
Print Assumptions C61_nil_silent.
Theorem C61_nil_zero : forall t, ptr_marshal t = None -> ok Borsh t None LE (zero_val t) ->
  marshal Borsh (TPtr t) (VPtr None) = (Ok tt, wire Borsh t None LE (zero_val t)) /\
  marshal Borsh (TPtr t) (VPtr (Some (zero_val t))) = (Ok tt, wire Borsh t None LE (zero_val t)).
Proof. exact nil_zero. Qed.
Print Assumptions C61_nil_zero.
(** Two fields: the first pointer is nil, and its place is taken by the second
    field; what comes back is refused. *)
Example C61_nil_sample :
  let t := TStruct [plain "A" (TPtr u8); plain "B" (TPtr u8)] in
  marshal Bin t (VStruct [VPtr None; VPtr (Some (VNum 7))]) = (Ok tt, [7]) /\
  marshal Bin t (VStruct [VPtr (Some (VNum 7)); VPtr None]) = (Ok tt, [7]) /\
  (exists e, unmarshal Bin t (zero_val t) [7] = Err e) /\
  marshal Borsh t (VStruct [VPtr None; VPtr (Some (VNum 7))]) = (Ok tt, [0; 7]) /\
  unmarshal Borsh t (zero_val t) [0; 7] = Ok (VStruct [VPtr (Some (VNum 0)); VPtr (Some (VNum 7))]).
Proof. repeat split; try reflexivity. eexists. reflexivity. Qed.

(** Texts of 2^31 bytes and more are written but not read. *)
Theorem C61_long_text : forall s p post, 2 ^ 31 <= zlen s < 2 ^ 32 ->
  marshal Borsh TString (VStr s) = (Ok tt, fixed LE 4 (zlen s) ++ s) /\
  unmarshal Borsh TString p (fixed LE 4 (zlen s) ++ s ++ post) = Err EUnexpectedEOF.
Proof. intros. split; [apply long_text_written; lia|now apply long_text_unread]. Qed.
Print Assumptions C61_long_text.
Theorem C61_long_text_bin : forall s p post, 2 ^ 31 <= zlen s < 2 ^ 64 ->
  marshal Bin TString (VStr s) = (Ok tt, fixed LE 8 (zlen s) ++ s) /\
  unmarshal Bin TString p (fixed LE 8 (zlen s) ++ s ++ post) = Err EUnexpectedEOF.
Proof. intros. split; [apply long_text_written_bin|now apply long_text_unread_bin]. Qed.
Print Assumptions C61_long_text_bin.
Example C61_long_text_sample :
  unmarshal Borsh TString (VStr []) (fixed LE 4 (2 ^ 31) ++ [1; 2; 3]) = Err EUnexpectedEOF /\
  unmarshal Bin TString (VStr []) (fixed LE 8 (2 ^ 31) ++ [1; 2; 3]) = Err EUnexpectedEOF /\
  zlen (repeat 0 (Z.to_nat (2 ^ 31))) = 2 ^ 31.
Proof. split; [reflexivity|]. split; [reflexivity|]. unfold zlen. rewrite repeat_length. apply Z2Nat.id. discriminate. Qed.

(** A NaN among the keys of a map: its value is not found under it, and the
    call panics after the key has been written, in Bin and CompactU16. *)
Theorem C61_nan_key : forall E f vt m1 b x m2, E <> Borsh -> f_isnan f b = true ->
  zlen (m1 ++ (VFloat b, x) :: m2) <= count_max E -> ok E (TMap (TFloat f) vt) None LE (VMap (Some m1)) ->
  marshal E (TMap (TFloat f) vt) (VMap (Some (m1 ++ (VFloat b, x) :: m2))) =
  (Panic, count E (zlen (m1 ++ (VFloat b, x) :: m2)) ++
     flat_map (fun e => wire E (TFloat f) None LE (fst e) ++ wire E vt None LE (snd e)) m1 ++
     fixed LE (fbytes f) (quiet f b)).
Proof. exact nan_key. Qed.
Print Assumptions C61_nan_key.
Example C61_nan_key_sample :
  ok Bin (TMap (TFloat F32) TBool) None LE (VMap (Some [(VFloat 0, VBool true)])) /\
  marshal Bin (TMap (TFloat F32) TBool) (VMap (Some [(VFloat 0, VBool true); (VFloat 0x7FC00000, VBool false)])) =
    (Panic, [2; 0; 0; 0; 0; 1; 0; 0; 192; 127]).
Proof. split; [apply okb_ok; vm_compute; reflexivity|vm_compute; reflexivity]. Qed.
(** Not everything that was read can be written again: a map with a NaN key is
    read without complaint. *)
Theorem C61_reencode_refuted : forall E, E <> Borsh -> exists t data v bs,
  unmarshal E t (zero_val t) data = Ok v /\ fits t v /\ marshal E t v = (Panic, bs).
Proof.
  intros E HE. exists (TMap (TFloat F64) TBool), ([1] ++ fixed LE 8 0x7FF8000000000001 ++ [1]),
    (VMap (Some [(VFloat 0x7FF8000000000001, VBool true)])).
  destruct E; [| |easy]; eexists; (split; [vm_compute; reflexivity|]); (split; [apply fitsb_ok; reflexivity|]);
    vm_compute; reflexivity.
Qed.
Print Assumptions C61_reencode_refuted.

(** The count in a field with its own UnmarshalWithDecoder method is heeded by
    the Borsh encoder, but not by the decoder, which looks for another count:
    the text does not come back. *)
Definition c61_num : ty :=
  TCodec (mkCodec (Some (fun v => match v with VNum z => write_byte z | _ => stuck end)) true panic
                  (Some (fun _ => fmap VNum read_byte))) u8.
Definition c61_t : ty := TStruct [tagged "N" "sizeof=Items" c61_num; plain "Items" (TSlice TBool)].
Theorem C61_own_count_refuted : exists t v bs,
  marshal Borsh t v = (Ok tt, bs) /\ (exists e, unmarshal Borsh t (zero_val t) bs = Err e) /\
  marshal Bin t v = (Ok tt, bs) /\ unmarshal Bin t (zero_val t) bs = Ok v.
Proof.
  exists c61_t, (VStruct [VNum 2; VSlice (Some [VBool true; VBool false])]), [2; 1; 0].
  split; [reflexivity|]. split; [eexists; reflexivity|]. split; reflexivity.
Qed.
Print Assumptions C61_own_count_refuted.
