(** /repo/variant.go. *)
From Verif Require Import Types Num Text DecPrim Enc Dec Builtin Sighash.

(** A TypeID (variant.go:52) is a list of 8 bytes; TypeID.Bytes (54-56) is the
    list itself.  TypeIDFromBytes (81-85) is [type_id_from_bytes]. *)

(** TypeIDFromSighash, /repo/variant.go:88-90. *)
Definition type_id_from_sighash (sh : list Z) : list Z := type_id_from_bytes sh.
(** TypeIDFromUvarint32, /repo/variant.go:93-97: PutUvarint into 8 bytes. *)
Definition type_id_from_uvarint32 (v : Z) : outcome (list Z) :=
  match put_uvarint 8 v with
  | Some bs => Ok (type_id_from_bytes bs)
  | None => Panic
  end.
(** TypeIDFromUint32, /repo/variant.go:100-104. *)
Definition type_id_from_uint32 (v : Z) (o : order) : list Z := type_id_from_bytes (put_uint o 4 v).
(** TypeIDFromUint8, /repo/variant.go:107-109. *)
Definition type_id_from_uint8 (v : Z) : list Z := type_id_from_bytes [v].

(** Uvarint32FromTypeID (112-116), Uint32FromTypeID (119-122), Uint8FromTypeID
    (125-127) and the methods Uvarint32, Uint32, Uint8 (59-71). *)
Definition uvarint32_from_type_id (id : list Z) : Z := uwrap 32 (fst (uvarint id)).
Definition uint32_from_type_id (id : list Z) (o : order) : Z := get_uint o (firstn 4 id).
Definition uint8_from_type_id (id : list Z) : Z := hd 0 id.

(** Equal, /repo/variant.go:75-77. *)
Definition same_bytes (a b : list Z) : bool := if list_eq_dec Z.eq_dec a b then true else false.
Definition type_id_equal (id b : list Z) : bool := same_bytes id b.

(** TypeIDEncoding, /repo/variant.go:129-141; [IdOther]: any other number. *)
Inductive id_encoding : Type := IdUvarint32 | IdUint32 | IdUint8 | IdAnchor | IdNone | IdOther.

(** VariantType, /repo/variant.go:37-40: a name and the type of a value; of a nil
    interface there is none. *)
Record variant_type : Type := mkVT { vt_name : list Z; vt_type : option ty }.

(** VariantDefinition, /repo/variant.go:42-47.  Go maps: the entry set last comes
    first. *)
Record variant_def : Type := mkVD {
  vd_types : list (list Z * option ty); vd_names : list (list Z * list Z);
  vd_ids : list (list Z * list Z); vd_enc : id_encoding }.
Fixpoint lookup {A} (k : list Z) (m : list (list Z * A)) : option A :=
  match m with
  | [] => None
  | (k', x) :: r => if same_bytes k k' then Some x else lookup k r
  end.
Definition add_type (d : variant_def) (id : list Z) (t : variant_type) : variant_def :=
  mkVD ((id, vt_type t) :: vd_types d) ((id, vt_name t) :: vd_names d)
       ((vt_name t, id) :: vd_ids d) (vd_enc d).

(** NoTypeIDDefaultID, /repo/variant.go:143. *)
Definition no_type_id : list Z := type_id_from_uint8 0.

(** The IDs that NewVariantDefinition gives, /repo/variant.go:170, 184, 198, 212:
    by the index, or by the name. *)
Definition given_id (e : id_encoding) (i : Z) (name : list Z) : outcome (list Z) :=
  match e with
  | IdUvarint32 => type_id_from_uvarint32 (uwrap 32 i)
  | IdUint32 => Ok (type_id_from_uint32 (uwrap 32 i) LE)
  | IdUint8 => Ok (type_id_from_uint8 (uwrap 8 i))
  | IdAnchor => Ok (type_id_from_sighash (sighash global_namespace name))
  | IdNone | IdOther => Ok no_type_id
  end.
Fixpoint add_types (i : Z) (types : list variant_type) (d : variant_def) : outcome variant_def :=
  match types with
  | [] => Ok d
  | t :: r =>
      match given_id (vd_enc d) i (vt_name t) with
      | Ok id => add_types (i + 1) r (add_type d id t)
      | _ => Panic
      end
  end.
(** NewVariantDefinition, /repo/variant.go:154-242. *)
Definition new_variant_definition (e : id_encoding) (types : list variant_type) : outcome variant_def :=
  let d := mkVD [] [] [] e in
  match e with
  | IdOther => Panic
  | IdNone => match types with [t] => Ok (add_type d no_type_id t) | _ => Panic end
  | _ => add_types 0 types d
  end.

(** VariantDefinition.TypeID, /repo/variant.go:244-258. *)
Definition type_id_of (d : variant_def) (name : list Z) : outcome (list Z) :=
  match lookup name (vd_ids d) with Some id => Ok id | None => Panic end.

(** BaseVariant, /repo/variant.go:265-268: Impl is a value with its type. *)
Record base_variant : Type := mkBV { bv_id : list Z; bv_impl : option (ty * val) }.
(** Assign, /repo/variant.go:272-275. *)
Definition bv_assign (id : list Z) (impl : option (ty * val)) : base_variant := mkBV id impl.
(** Obtain, /repo/variant.go:277-279. *)
Definition bv_obtain (a : base_variant) (d : variant_def) : list Z * list Z * option (ty * val) :=
  (bv_id a, match lookup (bv_id a) (vd_names d) with Some n => n | None => [] end, bv_impl a).

(** UnmarshalBinaryVariant, /repo/variant.go:281-353: the ID ... *)
Definition read_variant_id (e : id_encoding) : DM (list Z) :=
  match e with
  | IdUvarint32 => v <- emsg read_uvarint32 ;;
                   match type_id_from_uvarint32 v with Ok id => ret id | _ => panic end
  | IdUint32 => v <- emsg (read_uint 4 LE) ;; ret (type_id_from_uint32 v LE)
  | IdUint8 => v <- emsg read_byte ;; ret (type_id_from_bytes [v])
  | IdAnchor => emsg read_type_id
  | IdNone => ret no_type_id
  | IdOther => ret (repeat 0 8)
  end.
(** ... and the value: a new variable of the type, or of the type pointed to.
    What is left in the variant if there is an error: VariantDest.v. *)
Definition unmarshal_binary_variant (d : variant_def) : DM base_variant :=
  id <- read_variant_id (vd_enc d) ;;
  match lookup id (vd_types d) with
  | None | Some None => fail EMsg
  | Some (Some (TPtr t)) =>
      v <- emsg (decode t (zero_val t)) ;; ret (mkBV id (Some (TPtr t, VPtr (Some v))))
  | Some (Some t) =>
      v <- emsg (decode t (zero_val t)) ;; ret (mkBV id (Some (t, v)))
  end.
