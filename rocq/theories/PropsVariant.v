(** Variants and type IDs: C38, C39. *)
From Coq Require Import String.
From Verif Require Import Base Types Text Num NumFacts DecPrim Enc Dec Builtin Sighash Variant Spec EncWire DecWire RoundTrip
  DecWithin DecSafe VariantFacts.
Notation length := Datatypes.length.

(** ** C38 *)

(** Definitions with numbers: [id_wire e n] are the bytes of number [n]
    (LEB128, four bytes little endian or one byte), [id_number e n] the TypeID:
    these bytes and zeros.  There are enough numbers. *)
Theorem C38_defined : forall e types, numbered e = true -> zlen types <= id_limit e ->
  exists d, new_variant_definition e types = Ok d.
Proof. exact number_defined. Qed.
Print Assumptions C38_defined.
(** The type with the number is decoded from the following bytes; [v] is what
    Decode stores in a new variable of the type (or the type pointed to). *)
Theorem C38_dispatch : forall e types d n t T E pre post c, numbered e = true -> zlen types <= id_limit e ->
  new_variant_definition e types = Ok d -> nth_error types n = Some t -> vt_type t = Some T ->
  let bs := id_wire e (Z.of_nat n) in
  unmarshal_binary_variant d (mkD (pre ++ bs ++ post) (zlen pre) c E) =
  (v <- emsg (decode (pointed T) (zero_val (pointed T))) ;;
   ret (mkBV (id_number e (Z.of_nat n)) (Some (as_impl T v))))
    (mkD (pre ++ bs ++ post) (zlen pre + zlen bs) c E).
Proof. exact number_known. Qed.
Print Assumptions C38_dispatch.
Theorem C38_unknown : forall e types d n E pre post c, numbered e = true -> zlen types <= id_limit e ->
  new_variant_definition e types = Ok d -> zlen types <= n < id_limit e ->
  let bs := id_wire e n in
  unmarshal_binary_variant d (mkD (pre ++ bs ++ post) (zlen pre) c E) =
  (Err EMsg, mkD (pre ++ bs ++ post) (zlen pre + zlen bs) c E).
Proof. exact number_unknown. Qed.
Print Assumptions C38_unknown.
(** What Marshal writes comes back, with the ID and the name of the type. *)
Theorem C38_round_trip : forall e types d n t T v E pre post c, numbered e = true -> zlen types <= id_limit e ->
  new_variant_definition e types = Ok d -> nth_error types n = Some t -> vt_type t = Some T ->
  ok E (pointed T) None LE v -> canon E (pointed T) None LE v ->
  exists b c' r, marshal E (pointed T) v = (Ok tt, b) /\
  let bs := id_wire e (Z.of_nat n) ++ b in
  unmarshal_binary_variant d (mkD (pre ++ bs ++ post) (zlen pre) c E) =
    (Ok r, mkD (pre ++ bs ++ post) (zlen pre + zlen bs) c' E) /\
  bv_obtain r d = (id_number e (Z.of_nat n), vt_name t, Some (as_impl T v)).
Proof. exact number_round_trip. Qed.
Print Assumptions C38_round_trip.
(** TypeID of a name, if the names differ. *)
Theorem C38_type_id : forall e types d n t, numbered e = true -> zlen types <= id_limit e ->
  new_variant_definition e types = Ok d -> NoDup (map vt_name types) -> nth_error types n = Some t ->
  type_id_of d (vt_name t) = Ok (id_number e (Z.of_nat n)).
Proof. exact number_type_id. Qed.
Print Assumptions C38_type_id.
(** Assign with that ID, and Obtain: the ID, the name and the value. *)
Theorem C38_assign : forall e types d n t, numbered e = true -> zlen types <= id_limit e ->
  new_variant_definition e types = Ok d -> NoDup (map vt_name types) -> nth_error types n = Some t ->
  exists id, type_id_of d (vt_name t) = Ok id /\ forall impl, bv_obtain (bv_assign id impl) d = (id, vt_name t, impl).
Proof. exact number_assign. Qed.
Print Assumptions C38_assign.
Theorem C38_type_id_unknown : forall e types d name, numbered e = true -> zlen types <= id_limit e ->
  new_variant_definition e types = Ok d -> ~ In name (map vt_name types) -> type_id_of d name = Panic.
Proof. exact number_type_id_unknown. Qed.
Print Assumptions C38_type_id_unknown.
(** Anchor: the ID is the sighash of the name. *)
Theorem C38_anchor : forall types d n t T E pre post c,
  NoDup (map (fun t => sighash global_namespace (vt_name t)) types) ->
  new_variant_definition IdAnchor types = Ok d -> nth_error types n = Some t -> vt_type t = Some T ->
  let bs := sighash global_namespace (vt_name t) in
  unmarshal_binary_variant d (mkD (pre ++ bs ++ post) (zlen pre) c E) =
  (v <- emsg (decode (pointed T) (zero_val (pointed T))) ;; ret (mkBV bs (Some (as_impl T v))))
    (mkD (pre ++ bs ++ post) (zlen pre + zlen bs) c E).
Proof. exact anchor_known. Qed.
Print Assumptions C38_anchor.
Theorem C38_anchor_unknown : forall types d id E pre post c,
  NoDup (map (fun t => sighash global_namespace (vt_name t)) types) ->
  new_variant_definition IdAnchor types = Ok d -> zlen id = 8 ->
  ~ In id (map (fun t => sighash global_namespace (vt_name t)) types) ->
  unmarshal_binary_variant d (mkD (pre ++ id ++ post) (zlen pre) c E) =
  (Err EMsg, mkD (pre ++ id ++ post) (zlen pre + zlen id) c E).
Proof. exact anchor_unknown. Qed.
Print Assumptions C38_anchor_unknown.
(** No ID: one type, and nothing is read before the value. *)
Theorem C38_no_id : forall t T, vt_type t = Some T -> exists d, new_variant_definition IdNone [t] = Ok d /\
  forall s, unmarshal_binary_variant d s =
  (v <- emsg (decode (pointed T) (zero_val (pointed T))) ;; ret (mkBV (repeat 0 8) (Some (as_impl T v)))) s.
Proof. exact none_known. Qed.
Print Assumptions C38_no_id.
Theorem C38_no_id_panics : forall types, length types <> 1%nat -> new_variant_definition IdNone types = Panic.
Proof. exact none_panics. Qed.
Print Assumptions C38_no_id_panics.
(** Inputs that end in the ID, and all inputs. *)
Theorem C38_short : forall e d s k, vd_enc d = e -> inside s -> remaining_of s < k ->
  (e, k) = (IdUint8, 1) \/ (e, k) = (IdUint32, 4) \/ (e, k) = (IdAnchor, 8) ->
  unmarshal_binary_variant d s = (Err EMsg, s).
Proof. exact variant_short. Qed.
Print Assumptions C38_short.
Theorem C38_value_or_error : forall d E data pos c,
  Forall (fun e => match snd e with Some T => decodable false E (pointed T) | None => True end) (vd_types d) ->
  bytes_ok data -> 0 <= pos <= zlen data ->
  (exists b, fst (unmarshal_binary_variant d (mkD data pos c E)) = Ok b) \/
  (exists e, fst (unmarshal_binary_variant d (mkD data pos c E)) = Err e).
Proof. exact variant_total. Qed.
Print Assumptions C38_value_or_error.

(** The nodes of /repo/variant_test.go:86-232. *)
Definition vfield (n : string) (t : ty) : fhdr * ty := (mkF n true notag, t).
Definition node_left : ty := TStruct [vfield "Key" (TUint UPlain W32); vfield "Description" TString].
Definition node_right : ty :=
  TStruct [vfield "Owner" (TUint UPlain W64); vfield "Padding" (TArray 2 (TUint UPlain W8)); vfield "Quantity" Uint64].
Definition node_inner : ty := TStruct [vfield "Key" Uint128].
Definition node_types : list variant_type :=
  [mkVT (str "left_node") (Some (TPtr node_left)); mkVT (str "right_node") (Some (TPtr node_right));
   mkVT (str "inner_node") (Some (TPtr node_inner))].
Definition node_bytes : list Z :=
  [0x00; 0x00; 0x00; 0x00; 0x03; 0x00; 0x00; 0x00; 0x03; 0x00; 0x00; 0x00; 0x00; 0x00; 0x00; 0x00; 0x61; 0x62; 0x63;
   0x01; 0x00; 0x00; 0x00; 0x52; 0x00; 0x00; 0x00; 0x00; 0x00; 0x00; 0x00; 0x00; 0x00; 0x9b; 0x03; 0x00; 0x00; 0x00; 0x00; 0x00; 0x00;
   0x02; 0x00; 0x00; 0x00; 0xff; 0x7f; 0xc6; 0xa4; 0x7e; 0x8d; 0x03; 0x00; 0x00; 0x00; 0x00; 0x00; 0x00; 0x00; 0x00; 0x00].
Definition shown (d : variant_def) (r : outcome (list base_variant)) : outcome (list (list Z * list Z * option val)) :=
  match r with
  | Ok l => Ok (map (fun x => let '(id, name, impl) := bv_obtain x d in (id, name, option_map snd impl)) l)
  | Err e => Err e
  | _ => Panic
  end.
Example C38_sample : match new_variant_definition IdUint32 node_types with
  | Ok d =>
      shown d (fst ((a <- unmarshal_binary_variant d ;; b <- unmarshal_binary_variant d ;; c <- unmarshal_binary_variant d ;;
            ret [a; b; c]) (new_decoder Bin node_bytes))) =
      Ok [([0; 0; 0; 0; 0; 0; 0; 0], str "left_node", Some (VPtr (Some (VStruct [VNum 3; VStr (str "abc")]))));
          ([1; 0; 0; 0; 0; 0; 0; 0], str "right_node",
           Some (VPtr (Some (VStruct [VNum 82; VSeq [VNum 0; VNum 0]; VNum 923]))));
          ([2; 0; 0; 0; 0; 0; 0; 0], str "inner_node",
           Some (VPtr (Some (VStruct [u128_val 999999999999999 0 None]))))] /\
      fst (unmarshal_binary_variant d (new_decoder Bin [3; 0; 0; 0])) = Err EMsg /\
      fst (unmarshal_binary_variant d (new_decoder Bin [1; 0; 0])) = Err EMsg /\
      type_id_of d (str "right_node") = Ok [1; 0; 0; 0; 0; 0; 0; 0]
  | _ => False
  end.
Proof. repeat split; vm_compute; reflexivity. Qed.
Example C38_anchor_sample : exists d,
  new_variant_definition IdAnchor [mkVT (str "initialize") (Some TBool); mkVT (str "increment") (Some (TUint UPlain W16))] = Ok d /\
  fst (unmarshal_binary_variant d (new_decoder Bin [11; 18; 104; 9; 104; 174; 59; 33; 2; 1])) =
    Ok (mkBV [11; 18; 104; 9; 104; 174; 59; 33] (Some (TUint UPlain W16, VNum 258))).
Proof. eexists. split; [reflexivity|]. vm_compute. reflexivity. Qed.

(** A definition with one byte numbers accepts more than 256 types, and the
    first is then unreachable: its ID leads to the last. *)
Theorem C38_uint8_refuted : exists types d t t', zlen types = 257 /\ new_variant_definition IdUint8 types = Ok d /\
  nth_error types 0 = Some t /\ nth_error types 256 = Some t' /\ vt_type t <> vt_type t' /\
  exists v, fst (unmarshal_binary_variant d (new_decoder Bin [0; 7])) = Ok v /\
  option_map fst (bv_impl v) = vt_type t'.
Proof.
  exists (repeat (mkVT (str "a") (Some TBool)) 256 ++ [mkVT (str "b") (Some (TUint UPlain W8))]).
  eexists. exists (mkVT (str "a") (Some TBool)), (mkVT (str "b") (Some (TUint UPlain W8))).
  split; [vm_compute; reflexivity|]. split; [vm_compute; reflexivity|]. split; [reflexivity|]. split; [vm_compute; reflexivity|].
  split; [discriminate|]. eexists. split; [vm_compute; reflexivity|]. vm_compute. reflexivity.
Qed.
Print Assumptions C38_uint8_refuted.
(** LEB128 IDs are cut to 32 bits: 2^32 is not an unknown ID. *)
Theorem C38_uvarint32_refuted : exists types d r, zlen types = 1 /\ new_variant_definition IdUvarint32 types = Ok d /\
  fst (unmarshal_binary_variant d (new_decoder Bin (leb128 (2 ^ 32) ++ [1]))) = Ok r.
Proof.
  exists [mkVT (str "a") (Some TBool)]. eexists. eexists. split; [reflexivity|]. split; [reflexivity|]. vm_compute. reflexivity.
Qed.
Print Assumptions C38_uvarint32_refuted.
(** TypeID of a name that is used twice is the ID of the second. *)
Theorem C38_duplicate_name_refuted : exists types d t, new_variant_definition IdUint8 types = Ok d /\
  nth_error types 0 = Some t /\ type_id_of d (vt_name t) = Ok [1; 0; 0; 0; 0; 0; 0; 0].
Proof.
  exists [mkVT (str "a") (Some TBool); mkVT (str "a") (Some TString)]. eexists. eexists.
  split; [reflexivity|]. split; [reflexivity|]. vm_compute. reflexivity.
Qed.
Print Assumptions C38_duplicate_name_refuted.

(** ** C39 *)

Theorem C39_uint32 : forall v o, 0 <= v < 2 ^ 32 ->
  uint32_from_type_id (type_id_from_uint32 v o) o = v /\
  type_id_from_uint32 v o = fixed o 4 v ++ [0; 0; 0; 0].
Proof. exact uint32_both. Qed.
Print Assumptions C39_uint32.
Theorem C39_uint32_injective : forall v v' o, 0 <= v < 2 ^ 32 -> 0 <= v' < 2 ^ 32 ->
  type_id_from_uint32 v o = type_id_from_uint32 v' o -> v = v'.
Proof. exact uint32_inj. Qed.
Print Assumptions C39_uint32_injective.
Theorem C39_uvarint32 : forall v, 0 <= v < 2 ^ 32 -> exists id k,
  type_id_from_uvarint32 v = Ok id /\ id = leb128 v ++ repeat 0 k /\ length id = 8%nat /\
  uvarint32_from_type_id id = v.
Proof. exact uvarint32_both. Qed.
Print Assumptions C39_uvarint32.
(** Larger numbers are cut to 32 bits. *)
Theorem C39_uvarint32_cut : forall v r, 0 <= v < 2 ^ 64 -> uvarint32_from_type_id (leb128 v ++ r) = v mod 2 ^ 32.
Proof. exact uvarint32_cut. Qed.
Print Assumptions C39_uvarint32_cut.
Example C39_cut_sample : uvarint32_from_type_id [255; 255; 255; 255; 31; 0; 0; 0] = 2 ^ 32 - 1 /\ leb128 (2 ^ 33 - 1) = [255; 255; 255; 255; 31].
Proof. split; vm_compute; reflexivity. Qed.
Theorem C39_uvarint32_injective : forall v v', 0 <= v < 2 ^ 32 -> 0 <= v' < 2 ^ 32 ->
  type_id_from_uvarint32 v = type_id_from_uvarint32 v' -> v = v'.
Proof. exact uvarint32_inj. Qed.
Print Assumptions C39_uvarint32_injective.
Theorem C39_uint8 : forall v, 0 <= v < 256 ->
  uint8_from_type_id (type_id_from_uint8 v) = v /\ type_id_from_uint8 v = v :: repeat 0 7.
Proof. exact uint8_both. Qed.
Print Assumptions C39_uint8.
Theorem C39_uint8_injective : forall v v', type_id_from_uint8 v = type_id_from_uint8 v' -> v = v'.
Proof. exact uint8_inj. Qed.
Print Assumptions C39_uint8_injective.
Theorem C39_bytes : forall bs, length (type_id_from_bytes bs) = 8%nat /\
  (zlen bs <= 8 -> exists k, type_id_from_bytes bs = bs ++ repeat 0 k) /\
  (zlen bs >= 8 -> exists r, bs = type_id_from_bytes bs ++ r).
Proof. exact type_id_bytes. Qed.
Print Assumptions C39_bytes.
Theorem C39_equal : forall a b, type_id_equal a b = true <-> a = b.
Proof. exact type_id_equal_iff. Qed.
Print Assumptions C39_equal.
(** The number types agree on small numbers. *)
Theorem C39_small_numbers : forall v, 0 <= v < 128 ->
  type_id_from_uvarint32 v = Ok (type_id_from_uint8 v) /\ type_id_from_uint32 v LE = type_id_from_uint8 v.
Proof. exact small_ids. Qed.
Print Assumptions C39_small_numbers.
Example C39_sample :
  type_id_from_uint32 66 LE = [66; 0; 0; 0; 0; 0; 0; 0] /\ type_id_from_uint32 66 BE = [0; 0; 0; 66; 0; 0; 0; 0] /\
  type_id_from_uvarint32 300 = Ok [172; 2; 0; 0; 0; 0; 0; 0] /\ uvarint32_from_type_id [172; 2; 0; 0; 0; 0; 0; 0] = 300 /\
  type_id_from_bytes [1; 2; 3] = [1; 2; 3; 0; 0; 0; 0; 0].
Proof. repeat split; vm_compute; reflexivity. Qed.
(** Different bytes can give the same ID. *)
Theorem C39_bytes_refuted :
  (exists a b, a <> b /\ (length a <= 8)%nat /\ (length b <= 8)%nat /\ type_id_from_bytes a = type_id_from_bytes b) /\
  (exists a b, a <> b /\ length a = length b /\ type_id_from_bytes a = type_id_from_bytes b).
Proof.
  split.
  - exists [1], [1; 0]. repeat split; [discriminate|cbn; lia|cbn; lia].
  - exists (repeat 0 8 ++ [1]), (repeat 0 8 ++ [2]). repeat split. discriminate.
Qed.
Print Assumptions C39_bytes_refuted.
