(** The methods of the library's types called directly, not through Encode and
    Decode (C72). *)
From Verif Require Import Types EncPrim DecPrim Enc Dec Builtin Spec NumFacts EncFacts EncWire DecWire RoundTrip
  Utf8 Utf8Facts LibSpec LibFacts.
Notation length := Datatypes.length.

(** The Endianness of a 128-bit number: nothing, binary.LittleEndian (0) or
    binary.BigEndian (1). *)
Definition endian (v : val) : option order :=
  match v with
  | VStruct [_; _; VIface None] | VStruct [_; _; VIface (Some 0)] => Some LE
  | VStruct [_; _; VIface (Some 1)] => Some BE
  | _ => None
  end.

(** The byte order in effect when the method of a variable holding [v] is
    called on an encoder or decoder whose currentFieldOpt is [c]; [None] if
    there is none (the method looks into a nil pointer). *)
Definition in_effect (k : lib) (v : val) (c : option order) : option order :=
  match k with
  | LJSONFloat64 | LInt64 | LUint64 => c
  | LUint128 | LInt128 | LFloat128 => match c with Some o => Some o | None => endian v end
  | _ => Some LE
  end.

(** The types that are held by a nil Endianness or one of the two orders. *)
Definition known_endian (k : lib) (v : val) : Prop :=
  match k with LUint128 | LInt128 | LFloat128 => endian v <> None | _ => True end.

Definition marshal_method (k : lib) (v : val) : EM unit :=
  match lib_ty k with
  | TCodec c _ => match c_marshal c with Some f => f v | None => stuck end
  | _ => stuck
  end.
Definition unmarshal_method (k : lib) (v : val) : DM val :=
  match lib_ty k with
  | TCodec c _ => match c_unmarshal c with Some f => f v | None => stuck end
  | _ => stuck
  end.

Lemma iface_endian a b e o : endian (VStruct [a; b; VIface e]) = Some o -> iface_order e = Some o.
Proof. destruct e as [[|[p|p|]|p]|]; cbn; congruence. Qed.

Lemma emits_cur E c lo hi e o : 0 <= lo < 2 ^ 64 -> 0 <= hi < 2 ^ 64 ->
  match c with Some o => Some o | None => iface_order e end = Some o ->
  emits E c (u128_marshal (VStruct [VNum lo; VNum hi; VIface e])) (fixed o 16 (lo + 2 ^ 64 * hi)) c.
Proof.
  intros Hl Hh Hc. cbn [u128_marshal]. apply emits_get_cur. destruct c as [o'|].
  - injection Hc as ->. now apply emits_u128.
  - rewrite Hc. now apply emits_u128.
Qed.

Lemma direct_marshal E k v c o : carries E k v -> known_endian k v -> in_effect k v c = Some o ->
  emits E c (marshal_method k v) (lib_bytes E o k v) c.
Proof.
  intros [] Hk Hc.
  - apply emits_write_bytes. pose proof (text_max_count E). lia.
  - apply emits_write_bool.
  - unfold marshal_method. cbn [lib_ty HexBytes simple_codec c_marshal bytes_val lib_bytes].
    rewrite nums_map, map_map, map_id. unfold zlen. rewrite map_length. fold (zlen l).
    apply emits_write_bytes. pose proof (text_max_count E). lia.
  - apply emits_write_varint. lia.
  - apply emits_write_uvarint. lia.
  - apply emits_write_varint. lia.
  - apply emits_write_uvarint. lia.
  - cbn [in_effect] in Hc. subst c. apply emits_cur_order. now apply (emits_write_float E (Some o) F64 b o).
  - cbn [in_effect] in Hc. subst c. apply emits_cur_order, emits_write_uint.
  - cbn [in_effect] in Hc. subst c. apply emits_cur_order, emits_write_uint.
  - assert (Hc' : match c with Some o => Some o | None => iface_order e end = Some o).
    { destruct H as [<-|[<-|[<-|[]]]]; cbn [in_effect] in Hc; (destruct c; [exact Hc|now apply iface_endian in Hc]). }
    destruct H as [<-|[<-|[<-|[]]]]; now apply emits_cur.
  - apply emits_ret.
Qed.

Lemma direct_marshal_panic E k v c s : carries E k v -> known_endian k v -> in_effect k v c = None -> e_cur s = c ->
  marshal_method k v s = (Panic, s).
Proof.
  intros [] Hk Hc Hs; try discriminate Hc; try (cbn [in_effect] in Hc; rewrite Hc in Hs).
  1-3: unfold marshal_method; cbn [lib_ty JSONFloat64 Int64 Uint64 simple_codec c_marshal with_num];
    unfold bind at 1, e_cur_order, bind, e_get_cur; now rewrite Hs.
  exfalso. destruct H as [<-|[<-|[<-|[]]]]; cbn [in_effect known_endian] in *; destruct c; congruence.
Qed.

Definition reads_here {A} E c (m : DM A) bs (x : A) : Prop :=
  forall pre post, m (mkD (pre ++ bs ++ post) (zlen pre) c E) =
    (Ok x, mkD (pre ++ bs ++ post) (zlen pre + zlen bs) c E).
Lemma here_keeps {A} E c (m : DM A) bs x : keeps E m bs x -> reads_here E c m bs x.
Proof. intros H pre post. apply H. Qed.
Lemma here_order {A} E o (k : order -> DM A) bs x : keeps E (k o) bs x -> reads_here E (Some o) (bind d_cur_order k) bs x.
Proof. intros H pre post. exact (H pre post (Some o)). Qed.

Lemma here_u128 E c fl lo hi a b e o : 0 <= lo < 2 ^ 64 -> 0 <= hi < 2 ^ 64 ->
  match c with Some o => Some o | None => iface_order e end = Some o ->
  reads_here E c (u128_unmarshal fl (VStruct [a; b; VIface e])) (fixed o 16 (lo + 2 ^ 64 * hi))
    (VStruct [VNum lo; VNum hi; VIface None]).
Proof.
  intros Hl Hh Hc pre post. cbn [u128_unmarshal]. unfold bind at 1, d_get_cur. cbn [d_cur]. rewrite Hc.
  assert (K : keeps E (p <- (if fl then emsg (read_uint128 o) else read_uint128 o) ;;
                       ret (u128_val (fst p) (snd p) None))
                (fixed o 16 (lo + 2 ^ 64 * hi)) (VStruct [VNum lo; VNum hi; VIface None])).
  { rewrite <- (app_nil_r (fixed _ _ _)). eapply keeps_bind.
    - destruct fl; [apply keeps_map_err|]; now apply keeps_u128.
    - apply keeps_ret. }
  apply K.
Qed.

Lemma fits_u128 p : fits (TStruct u128_fields) p -> exists a b e, p = VStruct [a; b; VIface e].
Proof.
  intro Hp. cbn [fits u128_fields] in Hp. destruct Hp as (vs & -> & Hf).
  destruct vs as [|a [|b [|c [|? ?]]]]; cbn [fits_fields u128_fields snd] in Hf; try tauto.
  destruct Hf as (_ & _ & (d & ->) & _). eauto.
Qed.

Lemma direct_unmarshal E k v p c o : carries E k v -> fits (lib_ty k) p -> known_endian k p ->
  in_effect k p c = Some o ->
  reads_here E c (unmarshal_method k p) (lib_bytes E o k v) (lib_back v).
Proof.
  intros [] Hp Hk Hc.
  - apply here_keeps. cbn [lib_bytes lib_back].
    replace (VStr s) with (VStr (safe_utf8 s)) by (now rewrite safe_id).
    apply keeps_fmap, keeps_fmap. pose proof (text_max_count E). pose proof (text_max_bulk E).
    apply keeps_byte_slice; lia.
  - apply here_keeps. cbn [lib_back]. apply keeps_fmap, keeps_bool.
  - apply here_keeps. cbn [lib_bytes lib_back]. rewrite map_map, map_id. unfold zlen. rewrite map_length. fold (zlen l).
    apply (keeps_fmap E (fun b => VSlice (Some (map VNum b)))). apply keeps_map_err.
    pose proof (text_max_count E). pose proof (text_max_bulk E). apply keeps_byte_slice; lia.
  - apply here_keeps. cbn [lib_bytes lib_back]. apply keeps_fmap, keeps_map_err.
    unfold read_varint16. replace z with (swrap 16 z) at 2 by (apply swrap_small; lia).
    apply keeps_fmap, keeps_varint. lia.
  - apply here_keeps. cbn [lib_bytes lib_back]. apply keeps_fmap, keeps_map_err.
    unfold read_uvarint16. replace z with (uwrap 16 z) at 2 by (apply Z.mod_small; lia).
    apply keeps_fmap, keeps_uvarint. lia.
  - apply here_keeps. cbn [lib_bytes lib_back]. apply keeps_fmap.
    unfold read_varint32. replace z with (swrap 32 z) at 2 by (apply swrap_small; lia).
    apply keeps_fmap, keeps_varint. lia.
  - apply here_keeps. cbn [lib_bytes lib_back].
    replace (VNum z) with (VNum (uwrap 32 z)) by (f_equal; apply Z.mod_small; lia).
    apply (keeps_fmap E (fun n => VNum (uwrap 32 n))). apply keeps_map_err, keeps_uvarint. lia.
  - cbn [in_effect] in Hc. subst c. apply here_order. cbn [lib_bytes lib_back]. apply keeps_fmap. now apply (keeps_read_float E F64).
  - cbn [in_effect] in Hc. subst c. apply here_order. cbn [lib_bytes lib_back]. apply keeps_fmap. now apply (keeps_intw_fixed E W64).
  - cbn [in_effect] in Hc. subst c. apply here_order. cbn [lib_bytes lib_back]. apply keeps_fmap. now apply (keeps_uintw_fixed E W64).
  - assert (Hp' : exists a b e, p = VStruct [a; b; VIface e]).
    { destruct H as [<-|[<-|[<-|[]]]]; now apply fits_u128. }
    destruct Hp' as (a & b & e' & ->).
    assert (Hc' : match c with Some o => Some o | None => iface_order e' end = Some o).
    { destruct H as [<-|[<-|[<-|[]]]]; cbn [in_effect] in Hc; (destruct c; [exact Hc|now apply iface_endian in Hc]). }
    destruct H as [<-|[<-|[<-|[]]]]; now apply here_u128.
  - apply here_keeps. cbn [lib_ty EmptyVariant fits] in Hp. destruct Hp as (vs & -> & Hf).
    destruct vs; [|contradiction]. apply keeps_ret.
Qed.

Lemma direct_unmarshal_panic E k v p c s : carries E k v -> fits (lib_ty k) p -> known_endian k p ->
  in_effect k p c = None -> d_cur s = c -> unmarshal_method k p s = (Panic, s).
Proof.
  intros [] Hp Hk Hc Hs; try discriminate Hc; try (cbn [in_effect] in Hc; rewrite Hc in Hs).
  1-3: unfold unmarshal_method; cbn [lib_ty JSONFloat64 Int64 Uint64 simple_codec c_unmarshal];
    unfold bind at 1, d_cur_order, bind, d_get_cur; rewrite Hs; reflexivity.
  exfalso. destruct H as [<-|[<-|[<-|[]]]]; cbn [in_effect known_endian] in *; destruct c; congruence.
Qed.
