(** The reflection encoders written down once more, one Go function at a time
    and in the order of their statements: /repo/encoder_bin.go,
    /repo/encoder_compact-u16.go, /repo/encoder_borsh.go ("bin:", "cu16:",
    "borsh:").  Enc.v merges the three; C63 shows that it describes the same
    functions.  The logging statements are left out. *)
From Verif Require Import Types EncPrim Enc.

(** * reflect *)
Inductive kind : Type :=
| KInvalid | KBool | KUint (w : width) | KInt (w : width) | KNative (signed : bool) | KFloat (f : fwidth)
| KString | KPtr | KInterface | KArray | KSlice | KMap | KStruct | KOther
| KDeep.  (* end of the unrolling of a recursive type *)

(** The underlying type. *)
Fixpoint under (t : ty) : ty := match t with TCodec _ u => under u | _ => t end.
Definition kind_of (t : ty) : kind :=
  match under t with
  | TBool => KBool
  | TUint _ w => KUint w
  | TInt _ w => KInt w
  | TFloat f => KFloat f
  | TString => KString
  | TNative s => KNative s
  | TOther => KOther
  | TIface => KInterface
  | TPtr _ => KPtr
  | TArray _ _ => KArray
  | TSlice _ => KSlice
  | TMap _ _ => KMap
  | TStruct _ => KStruct
  | TCodec _ _ => KInvalid
  | TDeep => KDeep
  end.

(** reflect.Value: the zero Value, or a value of a type; [RvRo]: one reached
    through an unexported field (flagRO; with flagStickyRO, so what is found in
    it has the flag, too). *)
Inductive rvalue : Type := Invalid | Rv (t : ty) (v : val) | RvRo (t : ty) (v : val).
Definition rv_kind (rv : rvalue) : kind := match rv with Invalid => KInvalid | Rv t _ | RvRo t _ => kind_of t end.
Definition rv_val (rv : rvalue) : val := match rv with Invalid => VOther | Rv _ v | RvRo _ v => v end.
Definition rv_ro (rv : rvalue) : bool := match rv with RvRo _ _ => true | _ => false end.
Definition rv_inner (rv : rvalue) (t : ty) (v : val) : rvalue := if rv_ro rv then RvRo t v else Rv t v.
(** Type(), Type().Elem(); only used where they exist. *)
Definition rv_type (rv : rvalue) : ty := match rv with Invalid => TOther | Rv t _ | RvRo t _ => t end.
Definition elem_type (t : ty) : ty :=
  match under t with TPtr t' | TArray _ t' | TSlice t' | TMap _ t' => t' | _ => TOther end.
Definition key_type (t : ty) : ty := match under t with TMap k _ => k | _ => TOther end.
(** Bool(), Int() and Uint(), the bits of Float(), String(). *)
Definition rv_bool (rv : rvalue) : bool := match rv_val rv with VBool b => b | _ => false end.
Definition rv_num (rv : rvalue) : Z := match rv_val rv with VNum z => z | _ => 0 end.
Definition rv_float (rv : rvalue) : Z := match rv_val rv with VFloat b => b | _ => 0 end.
Definition rv_string (rv : rvalue) : list Z := match rv_val rv with VStr s => s | _ => [] end.
(** IsZero(). *)
Definition rv_is_zero (rv : rvalue) : bool := is_zero (rv_val rv).
(** The elements of an array or slice; Index(i). *)
Definition rv_elems (rv : rvalue) : list val :=
  match rv_val rv with VSeq l => l | VSlice (Some l) => l | _ => [] end.
Definition rv_index (rv : rvalue) (i : nat) : option rvalue :=
  match nth_error (rv_elems rv) i with Some x => Some (rv_inner rv (elem_type (rv_type rv)) x) | None => None end.
(** Elem() of a pointer: the zero Value if it is nil. *)
Definition rv_elem (rv : rvalue) : rvalue :=
  match rv_val rv with VPtr (Some x) => rv_inner rv (elem_type (rv_type rv)) x | _ => Invalid end.
(** Type().Len() of an array. *)
Definition type_len (t : ty) : Z := match under t with TArray n _ => Z.of_nat n | _ => 0 end.
(** NumField, Type().Field(i), Field(i). *)
Definition type_fields (t : ty) : list (fhdr * ty) := match under t with TStruct fs => fs | _ => [] end.
Definition rv_fields (rv : rvalue) : list val := match rv_val rv with VStruct l => l | _ => [] end.
(** The entries of a map, MapKeys(), MapIndex(k). *)
Definition rv_entries (rv : rvalue) : list (val * val) := match rv_val rv with VMap (Some m) => m | _ => [] end.
Definition rv_map_keys (rv : rvalue) : list val := map fst (rv_entries rv).

(** rv.Interface().(BinaryMarshaler): the MarshalWithEncoder method bound to
    the value.  A value receiver method is also there for the pointer, and
    panics if that is nil.  Interface() panics if the Value has the flag. *)
Definition marshaler (rv : rvalue) : option (EM unit) :=
  match rv with
  | Rv (TCodec c _) v =>
      match c_marshal c with Some f => if c_byval c then Some (f v) else None | None => None end
  | Rv (TPtr (TCodec c _)) v =>
      match c_marshal c with
      | Some f => Some (match v with
                        | VPtr (Some x) => f x
                        | _ => if c_byval c then panic else c_marshal_nil c
                        end)
      | None => None
      end
  | RvRo _ _ => Some panic
  | _ => None
  end.

(** for i := 0; i < n; i++ { body(i) } *)
Fixpoint for_ (n i : nat) (body : nat -> EM unit) : EM unit :=
  match n with O => ret tt | S n' => body i ;;; for_ n' (S i) body end.

(** What an interface known as [z] holds: a value of a type that is not an
    interface.  (None: not said.) *)
Definition dynamic : Type := Z -> option (ty * val).
Definition unknown : dynamic := fun _ => None.

(** e.Encode(x.Interface()) for a map key or element: an interface type is
    replaced by the dynamic type. *)
Definition boxed (dyn : dynamic) (t : ty) (v : val) (enc : rvalue -> EM unit) : EM unit :=
  match t, v with
  | TIface, VIface None => enc Invalid
  | TIface, VIface (Some z) => match dyn z with Some (t', v') => enc (Rv t' v') | None => stuck end
  | TIface, _ => stuck
  | _, _ => enc (Rv t v)
  end.
Definition encode_entries (dyn : dynamic) (rv : rvalue) (enc : rvalue -> EM unit) (keys : list val) : EM unit :=
  let t := rv_type rv in
  each (fun k =>
    boxed dyn (key_type t) k enc ;;;
    match map_index (key_type t) (rv_entries rv) k with
    | Some x => boxed dyn (elem_type t) x enc
    | None => panic
    end) keys.

(** The loop over the fields of a struct, the same text in the three files:
    bin:203-264, cu16:201-262, borsh:307-369; [option]: bin:239-242,
    cu16:237-240, borsh:343-347. *)
Section StructLoop.
  Variable option_of : field_tag -> fopt.
  Variable enc : rvalue -> fopt -> EM unit.
  Fixpoint struct_loop (rv : rvalue) (n i : nat) (size_of_map : smap) {struct n} : EM unit :=
    match n with
    | O => ret tt
    | S n' =>
        match nth_error (type_fields (rv_type rv)) i, nth_error (rv_fields rv) i with
        | Some (structField, ft), Some fv =>
            let fieldTag := parse_field_tag (f_tag structField) in
            if ft_skip fieldTag then struct_loop rv n' (S i) size_of_map
            else
              let go size_of_map :=
                if negb (f_exported structField) || rv_ro rv then struct_loop rv n' (S i) size_of_map
                else
                  let option := option_of fieldTag in
                  let option :=
                    match sm_get size_of_map (f_name structField) with
                    | Some s => mkOpt (o_opt option) (o_copt option) (Some s) (o_order option)
                    | None => option
                    end in
                  map_err EWrap (enc (Rv ft fv) option) ;;;
                  struct_loop rv n' (S i) size_of_map in
              if negb (String.eqb (ft_sizeof fieldTag) "") then
                match sizeof_val ft fv with
                | Some z => go ((ft_sizeof fieldTag, z) :: size_of_map)
                | None => panic
                end
              else go size_of_map
        | _, _ => stuck
        end
    end.
End StructLoop.

Definition set_Optional (o : fopt) (b : bool) : fopt := mkOpt b (o_copt o) (o_size o) (o_order o).
Definition set_COptional (o : fopt) (b : bool) : fopt := mkOpt (o_opt o) b (o_size o) (o_order o).
Definition or_default (opt : option fopt) : fopt := match opt with None => opt0 | Some o => o end.

Section Encoders.
Variable dyn : dynamic.

(** * encodeBin, bin:28-194; encodeStructBin, bin:196-265.  [fuel]: depth of
    the calls. *)
Fixpoint encodeBin (fuel : nat) (rv : rvalue) (opt : option fopt) {struct fuel} : EM unit :=
  match fuel with
  | O => stuck
  | S fuel =>
      let opt := or_default opt in
      e_set_cur (o_order opt) ;;;
      if o_opt opt && rv_is_zero rv then write_uint 4 0 LE
      else
        (if o_opt opt then write_uint 4 1 LE else ret tt) ;;;
        let opt := set_Optional opt false in
        if match rv_kind rv with KInvalid => true | _ => false end then ret tt
        else
          match marshaler rv with
          | Some m => m
          | None =>
              match rv_kind rv with
              | KString => write_rust_string (rv_string rv)
              | KUint W8 => write_byte (rv_num rv)
              | KInt W8 => write_byte (rv_num rv)
              | KInt W16 => write_uint 2 (rv_num rv) (o_order opt)
              | KUint W16 => write_uint 2 (rv_num rv) (o_order opt)
              | KInt W32 => write_uint 4 (rv_num rv) (o_order opt)
              | KUint W32 => write_uint 4 (rv_num rv) (o_order opt)
              | KUint W64 => write_uint 8 (rv_num rv) (o_order opt)
              | KInt W64 => write_uint 8 (rv_num rv) (o_order opt)
              | KFloat f => write_float f (f32_through64 f (rv_float rv)) (o_order opt)
              | KBool => write_bool (rv_bool rv)
              | KPtr => encodeBin fuel (rv_elem rv) (Some opt)
              | KInterface => ret tt
              | KArray =>
                  let l := type_len (rv_type rv) in
                  match uint_kind (elem_type (rv_type rv)) with
                  | Some k => write_uints k l (rv_elems rv)
                  | None =>
                      for_ (Z.to_nat l) 0 (fun i =>
                        match rv_index rv i with Some x => encodeBin fuel x None | None => panic end)
                  end
              | KSlice =>
                  l <- match o_size opt with
                       | Some l => ret l
                       | None => let l := zlen (rv_elems rv) in write_uvarint l ;;; ret l
                       end ;;
                  match uint_kind (elem_type (rv_type rv)) with
                  | Some k => write_uints k l (rv_elems rv)
                  | None =>
                      for_ (Z.to_nat l) 0 (fun i =>
                        match rv_index rv i with Some x => encodeBin fuel x None | None => panic end)
                  end
              | KStruct => encodeStructBin fuel rv
              | KMap =>
                  let keyCount := zlen (rv_map_keys rv) in
                  write_uvarint keyCount ;;;
                  encode_entries dyn rv (fun x => encodeBin fuel x None) (rv_map_keys rv)
              | KNative _ | KOther | KInvalid => fail EMsg
              | KDeep => deep
              end
          end
  end
with encodeStructBin (fuel : nat) (rv : rvalue) {struct fuel} : EM unit :=
  match fuel with
  | O => stuck
  | S fuel =>
      struct_loop (fun fieldTag => mkOpt (ft_option fieldTag) false None (ft_order fieldTag))
        (fun rv option => encodeBin fuel rv (Some option)) rv (List.length (type_fields (rv_type rv))) 0 []
  end.

(** * encodeCompactU16, cu16:27-192; encodeStructCompactU16, cu16:194-263. *)
Fixpoint encodeCompactU16 (fuel : nat) (rv : rvalue) (opt : option fopt) {struct fuel} : EM unit :=
  match fuel with
  | O => stuck
  | S fuel =>
      let opt := or_default opt in
      e_set_cur (o_order opt) ;;;
      if o_opt opt && rv_is_zero rv then write_bool false
      else
        (if o_opt opt then write_bool true else ret tt) ;;;
        let opt := set_Optional opt false in
        if match rv_kind rv with KInvalid => true | _ => false end then ret tt
        else
          match marshaler rv with
          | Some m => m
          | None =>
              match rv_kind rv with
              | KString => write_string (rv_string rv)
              | KUint W8 => write_byte (rv_num rv)
              | KInt W8 => write_byte (rv_num rv)
              | KInt W16 => write_uint 2 (rv_num rv) (o_order opt)
              | KUint W16 => write_uint 2 (rv_num rv) (o_order opt)
              | KInt W32 => write_uint 4 (rv_num rv) (o_order opt)
              | KUint W32 => write_uint 4 (rv_num rv) (o_order opt)
              | KUint W64 => write_uint 8 (rv_num rv) (o_order opt)
              | KInt W64 => write_uint 8 (rv_num rv) (o_order opt)
              | KFloat f => write_float f (f32_through64 f (rv_float rv)) (o_order opt)
              | KBool => write_bool (rv_bool rv)
              | KPtr => encodeCompactU16 fuel (rv_elem rv) (Some opt)
              | KInterface => ret tt
              | KArray =>
                  let l := type_len (rv_type rv) in
                  match uint_kind (elem_type (rv_type rv)) with
                  | Some k => write_uints k l (rv_elems rv)
                  | None =>
                      for_ (Z.to_nat l) 0 (fun i =>
                        match rv_index rv i with Some x => encodeCompactU16 fuel x None | None => panic end)
                  end
              | KSlice =>
                  l <- match o_size opt with
                       | Some l => ret l
                       | None => let l := zlen (rv_elems rv) in write_compact_u16 l ;;; ret l
                       end ;;
                  match uint_kind (elem_type (rv_type rv)) with
                  | Some k => write_uints k l (rv_elems rv)
                  | None =>
                      for_ (Z.to_nat l) 0 (fun i =>
                        match rv_index rv i with Some x => encodeCompactU16 fuel x None | None => panic end)
                  end
              | KStruct => encodeStructCompactU16 fuel rv
              | KMap =>
                  let keyCount := zlen (rv_map_keys rv) in
                  write_compact_u16 keyCount ;;;
                  encode_entries dyn rv (fun x => encodeCompactU16 fuel x None) (rv_map_keys rv)
              | KNative _ | KOther | KInvalid => fail EMsg
              | KDeep => deep
              end
          end
  end
with encodeStructCompactU16 (fuel : nat) (rv : rvalue) {struct fuel} : EM unit :=
  match fuel with
  | O => stuck
  | S fuel =>
      struct_loop (fun fieldTag => mkOpt (ft_option fieldTag) false None (ft_order fieldTag))
        (fun rv option => encodeCompactU16 fuel rv (Some option)) rv (List.length (type_fields (rv_type rv))) 0 []
  end.

(** * encodePrimitive, borsh:29-64: [None] = not a primitive kind. *)
Definition encodePrimitive (rv : rvalue) : option (EM unit) :=
  match rv_kind rv with
  | KString => Some (write_string (rv_string rv))
  | KUint W8 => Some (write_byte (rv_num rv))
  | KInt W8 => Some (write_byte (rv_num rv))
  | KInt W16 => Some (write_uint 2 (rv_num rv) LE)
  | KUint W16 => Some (write_uint 2 (rv_num rv) LE)
  | KInt W32 => Some (write_uint 4 (rv_num rv) LE)
  | KUint W32 => Some (write_uint 4 (rv_num rv) LE)
  | KUint W64 => Some (write_uint 8 (rv_num rv) LE)
  | KInt W64 => Some (write_uint 8 (rv_num rv) LE)
  | KFloat f => Some (write_float f (f32_through64 f (rv_float rv)) LE)
  | KBool => Some (write_bool (rv_bool rv))
  | _ => None
  end.

(** vComp on interfaces, borsh:374-378: by the dynamic values.  The values that
    one comparison of borsh:379-391 deals with; [None]: it panics.  (int64 and
    uint64 in the assertions of lines 383 and 387.) *)
Inductive sort_class : Type := SInt | SInt64 | SUint | SUint64 | SFloat (f : fwidth) | SString.
Definition sort_class_eq_dec (x y : option sort_class) : {x = y} + {x <> y}.
Proof. repeat decide equality. Defined.
Definition class_of (t : ty) : option sort_class :=
  match kind_of t with
  | KInt W64 => match t with TInt false W64 => Some SInt64 | _ => None end
  | KInt _ | KNative true => Some SInt
  | KUint W64 => match t with TUint UPlain W64 => Some SUint64 | _ => None end
  | KUint _ | KNative false => Some SUint
  | KFloat f => Some (SFloat f)
  | KString => Some SString
  | _ => None
  end.
Definition inside (dyn : dynamic) (k : val) : option (ty * val) :=
  match k with VIface (Some z) => dyn z | _ => None end.
(** The class of all the keys, if they have the same; nothing is said of
    mixtures (the outcome depends on which keys get compared) and of interfaces
    whose values are not known. *)
Definition common_class (dyn : dynamic) (keys : list val) : option (option sort_class) :=
  match map (inside dyn) keys with
  | Some (t, _) :: r =>
      if forallb (fun p => match p with
                           | Some (t', _) => if sort_class_eq_dec (class_of t') (class_of t) then true else false
                           | None => false
                           end) r
      then Some (class_of t) else None
  | _ => None
  end.
Definition class_ltb (c : sort_class) : val -> val -> bool :=
  match c with
  | SFloat f => fun a b => match key_ltb (TFloat f) with Some lt => lt a b | None => false end
  | SString => fun a b => match key_ltb TString with Some lt => lt a b | None => false end
  | _ => num_ltb
  end.
Definition inside_ltb (dyn : dynamic) (c : sort_class) (a b : val) : bool :=
  match inside dyn a, inside dyn b with Some (_, x), Some (_, y) => class_ltb c x y | _, _ => false end.

(** The keys in the order in which they are written: sort.Slice(keys,
    vComp(keys)), borsh:210-211. *)
Definition sort_keys (dyn : dynamic) (E : encoding) (kt : ty) (keys : list val) : option (list val) :=
  match E, kt, keys with
  | Borsh, TIface, _ :: _ :: _ =>
      match common_class dyn keys with Some (Some c) => Some (isort (inside_ltb dyn c) keys) | _ => None end
  | _, _, _ => ordered_keys E kt keys
  end.
(** ... panics. *)
Definition cannot_sort (dyn : dynamic) (kt : ty) (keys : list val) : EM unit :=
  match kt with
  | TIface => match common_class dyn keys with Some None => panic | _ => stuck end
  | _ => panic
  end.

(** * encodeBorsh, borsh:66-247; encodeStructBorsh, borsh:289-370;
    encodeComplexEnumBorsh, borsh:249-274.  (The Value of a map's key or element
    passes through Interface(): it never has the flag, nor has that of the new
    element of line 127.) *)
Fixpoint encodeBorsh (fuel : nat) (rv : rvalue) (opt : option fopt) {struct fuel} : EM unit :=
  match fuel with
  | O => stuck
  | S fuel =>
      let opt := or_default opt in
      e_set_cur (o_order opt) ;;;
      if o_opt opt && rv_is_zero rv then write_bool false
      else
        (if o_opt opt then write_bool true else ret tt) ;;;
        let opt := set_Optional opt false in
        if o_copt opt && rv_is_zero rv then write_coption false
        else
          (if o_copt opt then write_coption true else ret tt) ;;;
          let opt := set_COptional (set_Optional opt false) false in
          if match rv_kind rv with KInvalid => true | _ => false end then ret tt
          else
            match marshaler rv with
            | Some m =>
                if match rv_kind rv with KPtr => rv_is_zero rv | _ => false end then ret tt else m
            | None =>
                match encodePrimitive rv with
                | Some m => m
                | None =>
                    match rv_kind rv with
                    | KPtr =>
                        if rv_is_zero rv then
                          encodeBorsh fuel (Rv (elem_type (rv_type rv)) (zero_val (elem_type (rv_type rv)))) None
                        else encodeBorsh fuel (rv_elem rv) None
                    | KInterface => ret tt
                    | KArray =>
                        let l := type_len (rv_type rv) in
                        match uint_kind (elem_type (rv_type rv)) with
                        | Some k => write_uints k l (rv_elems rv)
                        | None =>
                            for_ (Z.to_nat l) 0 (fun i =>
                              match rv_index rv i with Some x => encodeBorsh fuel x None | None => panic end)
                        end
                    | KSlice =>
                        l <- match o_size opt with
                             | Some l => ret l
                             | None => let l := zlen (rv_elems rv) in write_uint 4 l LE ;;; ret l
                             end ;;
                        match uint_kind (elem_type (rv_type rv)) with
                        | Some k => write_uints k l (rv_elems rv)
                        | None =>
                            for_ (Z.to_nat l) 0 (fun i =>
                              match rv_index rv i with Some x => encodeBorsh fuel x None | None => panic end)
                        end
                    | KStruct =>
                        encodeStructBorsh fuel rv
                    | KMap =>
                        match sort_keys dyn Borsh (key_type (rv_type rv)) (rv_map_keys rv) with
                        | None => cannot_sort dyn (key_type (rv_type rv)) (rv_map_keys rv)
                        | Some keys =>
                            let keyCount := zlen (rv_entries rv) in
                            write_uint 4 keyCount LE ;;;
                            encode_entries dyn rv (fun x => encodeBorsh fuel x None) keys
                        end
                    | KDeep => deep
                    | _ => fail EMsg
                    end
                end
            end
  end
with encodeStructBorsh (fuel : nat) (rv : rvalue) {struct fuel} : EM unit :=
  match fuel with
  | O => stuck
  | S fuel =>
      let loop :=
        struct_loop (fun fieldTag => mkOpt (ft_option fieldTag) (ft_coption fieldTag) None (ft_order fieldTag))
          (fun rv option => encodeBorsh fuel rv (Some option)) rv (List.length (type_fields (rv_type rv))) 0 [] in
      match type_fields (rv_type rv) with
      | (firstField, TUint UBorshEnum W8) :: _ =>
          if ft_enum (parse_field_tag (f_tag firstField)) then encodeComplexEnumBorsh fuel rv else loop
      | _ => loop
      end
  end
with encodeComplexEnumBorsh (fuel : nat) (rv : rvalue) {struct fuel} : EM unit :=
  match fuel with
  | O => stuck
  | S fuel =>
      match rv_fields rv with
      | VNum z :: _ =>
          let enum := z mod 256 in
          write_byte enum ;;;
          if zlen (type_fields (rv_type rv)) <=? enum + 1 then fail EMsg
          else
            match nth_error (type_fields (rv_type rv)) (Z.to_nat (enum + 1)),
                  nth_error (rv_fields rv) (Z.to_nat (enum + 1)) with
            | Some (h, ft), Some fv =>
                let field := if f_exported h then rv_inner rv ft fv else RvRo ft fv in
                let field := match rv_kind field with KPtr => rv_elem field | _ => field end in
                match rv_kind field with
                | KStruct => encodeStructBorsh fuel field
                | KDeep => deep
                | _ => match encodePrimitive field with Some m => m | None => ret tt end
                end
            | _, _ => stuck
            end
      | _ => stuck
      end
  end.

(** Encode, /repo/encoder.go:75-86. *)
Definition go_encode (fuel : nat) (rv : rvalue) : EM unit :=
  E <- e_get_enc ;;
  match E with
  | Bin => encodeBin fuel rv None
  | Borsh => encodeBorsh fuel rv None
  | CompactU16 => encodeCompactU16 fuel rv None
  end.
End Encoders.
