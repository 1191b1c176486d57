(** The reflection encoders: /repo/encoder_bin.go, /repo/encoder_compact-u16.go,
    /repo/encoder_borsh.go.  The first two differ in names and in four
    statements only; the third has further differences.  [enc_val] takes the
    encoding as a parameter and branches where the files differ.  Line numbers
    "bin:", "cu16:", "borsh:" refer to these files. *)
From Verif Require Import Types EncPrim.

Definition isSome {A} (o : option A) : bool :=
  match o with Some _ => true | None => false end.

(** sizeof, /repo/decoder.go:140-155, as a function of type and value;
    [None] = panic (kind not an integer). *)
Fixpoint sizeof_val (t : ty) (v : val) : option Z :=
  match t with
  | TInt _ _ | TNative true => match v with VNum z => Some z | _ => None end
  | TUint _ _ | TNative false =>
      match v with
      | VNum z => let n := swrap 64 z in Some (if n <? 0 then 0 else n)
      | _ => None
      end
  | TCodec _ u => sizeof_val u v
  | _ => None
  end.

(** sizeOfMap: association list, last assignment first. *)
Definition smap : Type := list (string * Z).
Fixpoint sm_get (m : smap) (n : string) : option Z :=
  match m with
  | [] => None
  | (k, z) :: r => if String.eqb k n then Some z else sm_get r n
  end.

(** isTypeBorshEnum of the first field and IsBorshEnum in its tag,
    borsh:297-305 and /repo/decoder_borsh.go:309-331. *)
Definition is_enum (fs : list (fhdr * ty)) : bool :=
  match fs with
  | (h, TUint UBorshEnum W8) :: _ => ft_enum (parse_field_tag (f_tag h))
  | _ => false
  end.

(** The options of a struct field: bin:239-249, cu16:237-247, borsh:343-354
    (coption exists in Borsh only). *)
Definition field_opt (E : encoding) (tg : field_tag) (name : string) (sizes : smap) : fopt :=
  mkOpt (ft_option tg) (is_borsh E && ft_coption tg) (sm_get sizes name) (ft_order tg).

(** Loop over the fields of a struct: encodeStructBin bin:203-264,
    encodeStructCompactU16 cu16:201-262, encodeStructBorsh borsh:307-369. *)
Section Struct.
  Variable E : encoding.
  Variable rec : ty -> fopt -> val -> EM unit.
  Fixpoint enc_fields (fs : list (fhdr * ty)) (vs : list val) (sizes : smap) {struct fs} : EM unit :=
    match fs, vs with
    | [], [] => ret tt
    | (h, t) :: fs', v :: vs' =>
        let tg := parse_field_tag (f_tag h) in
        if ft_skip tg then enc_fields fs' vs' sizes
        else
          let sizes' :=
            if String.eqb (ft_sizeof tg) "" then Some sizes
            else match sizeof_val t v with
                 | Some n => Some ((ft_sizeof tg, n) :: sizes)
                 | None => None
                 end in
          match sizes' with
          | None => panic
          | Some sizes' =>
              if negb (f_exported h) then enc_fields fs' vs' sizes'
              else
                map_err EWrap (rec t (field_opt E tg (f_name h) sizes') v) ;;;
                enc_fields fs' vs' sizes'
          end
    | _, _ => stuck
    end.
End Struct.

(** The flag of an optional field: bin:41-54 (u32), cu16:40-53 (bool byte),
    borsh:79-92 (WriteOption). *)
Definition write_flag (E : encoding) (b : bool) : EM unit :=
  match E with
  | Bin => write_uint 4 (if b then 1 else 0) LE
  | CompactU16 | Borsh => write_bool b
  end.

(** Length prefix of slices and maps: bin:133,176, cu16:131,174,
    borsh:178,224. *)
Definition write_count (E : encoding) (l : Z) : EM unit :=
  match E with
  | Bin => write_uvarint l
  | CompactU16 => write_compact_u16 l
  | Borsh => write_uint 4 l LE
  end.

(** Strings: bin:69, cu16:68, borsh:37. *)
Definition write_str (E : encoding) (s : list Z) : EM unit :=
  match E with
  | Bin => write_rust_string s
  | CompactU16 | Borsh => write_string s
  end.

(** Byte order used for a scalar: the option's (bin:74-89), LE in Borsh
    (borsh:42-57). *)
Definition scalar_order (E : encoding) (o : order) : order :=
  match E with Borsh => LE | _ => o end.

(** Integers: bin:70-85, cu16:69-84, borsh:38-53. *)
Definition write_int (E : encoding) (w : width) (z : Z) (o : order) : EM unit :=
  match w with
  | W8 => write_byte z
  | _ => write_uint (wbytes w) z (scalar_order E o)
  end.

(** vComp, borsh:372-395: [Some lt] for the comparison of two keys of type
    [t]; [None] = panic.  Defined int64/uint64 types fail the type assertions
    of lines 383 and 387. *)
Fixpoint bytes_ltb (a b : list Z) : bool :=
  match a, b with
  | [], [] => false
  | [], _ :: _ => true
  | _ :: _, [] => false
  | x :: a', y :: b' => (x <? y) || ((x =? y) && bytes_ltb a' b')
  end.

Definition num_ltb (a b : val) : bool :=
  match a, b with VNum x, VNum y => x <? y | _, _ => false end.

Fixpoint key_ltb_k (plain : bool) (t : ty) : option (val -> val -> bool) :=
  match t with
  | TInt named W64 => if named || negb plain then None else Some num_ltb
  | TUint n W64 =>
      match n with
      | UPlain => if plain then Some num_ltb else None
      | _ => None
      end
  | TInt _ _ | TUint _ _ | TNative _ => Some num_ltb
  | TFloat f =>
      Some (fun a b => match a, b with
                       | VFloat x, VFloat y =>
                           negb (f_isnan f x) && negb (f_isnan f y) &&
                           (f_key f x <? f_key f y)
                       | _, _ => false
                       end)
  | TString =>
      Some (fun a b => match a, b with
                       | VStr x, VStr y => bytes_ltb x y
                       | _, _ => false
                       end)
  | TCodec _ u => key_ltb_k false u
  | _ => None
  end.
Definition key_ltb (t : ty) : option (val -> val -> bool) := key_ltb_k true t.

(** sort.Slice(keys, less), borsh:211: a sorting function (insertion sort).
    Go's result for an inconsistent [less] (NaN keys) is unspecified; encoding
    a NaN key fails anyway. *)
Section Sort.
  Context {A : Type}.
  Variable lt : A -> A -> bool.
  Fixpoint insert_sorted (x : A) (l : list A) : list A :=
    match l with
    | [] => [x]
    | y :: r => if lt x y then x :: l else y :: insert_sorted x r
    end.
  Definition isort (l : list A) : list A := fold_right insert_sorted [] l.
End Sort.

(** The keys in the order in which they are written: as enumerated by the
    runtime (bin:180, cu16:178) or sorted (borsh:210-211; a comparison is
    made, and so can panic, only if there are two keys). *)
Definition ordered_keys (E : encoding) (kt : ty) (keys : list val) : option (list val) :=
  match E with
  | Borsh =>
      match keys with
      | [] | [_] => Some keys
      | _ => match key_ltb kt with
             | Some lt => Some (isort lt keys)
             | None => None
             end
      end
  | _ => Some keys
  end.

(** What happens with keys that cannot be sorted (two or more).  Keys of an
    interface type are compared by their dynamic values, which Enc.v does not
    know (GoEnc.v has them). *)
Definition unsortable (kt : ty) : EM unit :=
  match kt with TIface => stuck | _ => panic end.

(** rv.MapIndex(key); [None] is the invalid Value, on which .Interface()
    panics (NaN keys). *)
Definition map_index (kt : ty) (m : list (val * val)) (k : val) : option val :=
  match find (fun e => key_eqb kt (fst e) k) m with
  | Some e => Some (snd e)
  | None => None
  end.

(** Run an action on each element. *)
Section Each.
  Context {A : Type}.
  Variable f : A -> EM unit.
  Fixpoint each (l : list A) : EM unit :=
    match l with
    | [] => ret tt
    | a :: r => f a ;;; each r
    end.
End Each.

(** A map entry whose static type is an interface is encoded through its
    dynamic value; only nil is modelled (writes nothing). *)
Definition iface_elem (t : ty) (v : val) : bool :=
  match t, v with
  | TIface, VIface None => true
  | TIface, _ => false
  | _, _ => true
  end.

(** Loop over map entries: bin:180-188, cu16:178-186, borsh:228-236. *)
Definition enc_map (kt vt : ty) (enck encv : val -> EM unit)
  (m : list (val * val)) (keys : list val) : EM unit :=
  each (fun k =>
    if negb (iface_elem kt k) then stuck else
    enck k ;;;
    match map_index kt m k with
    | None => panic
    | Some v => if negb (iface_elem vt v) then stuck else encv v
    end) keys.

(** How [enc_val] is entered: with options (encodeBin and friends), or as the
    payload of a Borsh complex enum (borsh:265-273: encodeStructBorsh or
    encodePrimitive without looking for a MarshalWithEncoder method). *)
Inductive emode : Type :=
| EFull (o : fopt)
| EPayload.

Definition cut_opt (o : fopt) : fopt := mkOpt false false (o_size o) (o_order o).

(** Apply [f] to the [n]-th field type and value. *)
Section NthField.
  Context {R : Type}.
  Variable f : fhdr -> ty -> val -> R.
  Variable dflt bad : R.
  Fixpoint nth_field (fs : list (fhdr * ty)) (vs : list val) (n : nat) : R :=
    match fs, vs with
    | (h, t) :: fs', v :: vs' =>
        match n with O => f h t v | S n' => nth_field fs' vs' n' end
    | [], [] => dflt
    | _, _ => bad
    end.
End NthField.

(** Values that reflect has reached through an unexported field can be looked
    at but not turned into interfaces: rv.Field(i) of such a struct is again such
    a value, and the loop over the fields skips it (CanInterface, borsh:334-342),
    after the sizeof tags have been heeded.  As if no field were exported.
    (Simplification: embedded fields, whose own fields count anew, are not
    distinguished.) *)
Definition hide (fs : list (fhdr * ty)) : list (fhdr * ty) :=
  map (fun ht => (mkF (f_name (fst ht)) false (f_tag (fst ht)), snd ht)) fs.

(** The payload of an unexported variant of a Borsh enum, borsh:262-273: numbers
    and texts are written, structs are not, enums are written in the same way. *)
Fixpoint enc_sealed (t : ty) (v : val) {struct t} : EM unit :=
  match t with
  | TBool => match v with VBool b => write_bool b | _ => stuck end
  | TUint _ w | TInt _ w => match v with VNum z => write_int Borsh w z LE | _ => stuck end
  | TFloat f => match v with VFloat b => write_float f (f32_through64 f b) LE | _ => stuck end
  | TString => match v with VStr s => write_string s | _ => stuck end
  | TStruct fs =>
      match v with
      | VStruct vs =>
          if is_enum fs then
            match vs with
            | VNum z :: _ =>
                write_byte z ;;;
                nth_field
                  (fun _ t' v' =>
                     match t' with
                     | TPtr t'' =>
                         match v' with
                         | VPtr (Some x) => enc_sealed t'' x
                         | VPtr None => ret tt
                         | _ => stuck
                         end
                     | _ => enc_sealed t' v'
                     end)
                  (fail EMsg) stuck fs vs (S (Z.to_nat (z mod 256)))
            | _ => stuck
            end
          else enc_fields Borsh (fun _ _ _ => ret tt) (hide fs) vs []
      | _ => stuck
      end
  | TCodec _ u => enc_sealed u v
  | TDeep => deep
  | _ => ret tt
  end.

(** With the pointer in front of it, borsh:262-265. *)
Definition sealed_payload (t : ty) (v : val) : EM unit :=
  match t with
  | TPtr t' =>
      match v with
      | VPtr (Some x) => enc_sealed t' x
      | VPtr None => ret tt
      | _ => stuck
      end
  | _ => enc_sealed t v
  end.

(** The codec of a type, if it has methods. *)
Definition codec_of (t : ty) : option codec :=
  match t with TCodec c _ => Some c | _ => None end.

(** encodeBin bin:28-194, encodeCompactU16 cu16:27-192, encodeBorsh
    borsh:66-247 with encodePrimitive borsh:29-64 and encodeComplexEnumBorsh
    borsh:249-274. *)
Fixpoint enc_val (E : encoding) (t : ty) (m : emode) (v : val) {struct t} : EM unit :=
  (* encodeStructXxx *)
  let enc_struct (fs : list (fhdr * ty)) (vs : list val) : EM unit :=
    if is_borsh E && is_enum fs then
      match vs with
      | VNum z :: _ =>
          write_byte z ;;;
          nth_field
            (fun h t' v' =>
               if negb (f_exported h) then sealed_payload t' v' else
               match t' with
               | TPtr t'' =>
                   match v' with
                   | VPtr (Some x) => enc_val E t'' EPayload x
                   | VPtr None => ret tt
                   | _ => stuck
                   end
               | _ => enc_val E t' EPayload v'
               end)
            (fail EMsg) stuck fs vs (S (Z.to_nat (z mod 256)))
      | _ => stuck
      end
    else enc_fields E (fun t' o' v' => enc_val E t' (EFull o') v') fs vs []
  in
  let order := match m with EFull o => o_order o | EPayload => LE end in
  let size := match m with EFull o => o_size o | EPayload => None end in
  (* the part after the option flags *)
  let core : EM unit :=
    match t with
    | TBool => match v with VBool b => write_bool b | _ => stuck end
    | TUint _ w | TInt _ w =>
        match v with VNum z => write_int E w z order | _ => stuck end
    | TFloat f =>
        match v with
        | VFloat b => write_float f (f32_through64 f b) (scalar_order E order)
        | _ => stuck
        end
    | TString => match v with VStr s => write_str E s | _ => stuck end
    | TStruct fs =>
        match v with VStruct vs => enc_struct fs vs | _ => stuck end
    | TCodec c u =>
        match m with
        | EPayload => enc_val E u EPayload v
        | EFull o =>
            match c_marshal c, c_byval c with
            | Some f, true => f v
            | _, _ => enc_val E u (EFull (cut_opt o)) v
            end
        end
    | TDeep => deep
    | _ =>
        match m with
        | EPayload => ret tt                       (* borsh:273: not written *)
        | EFull o =>
            match t with
            | TIface => match v with VIface _ => ret tt | _ => stuck end
            | TPtr t' =>
                match match codec_of t' with
                      | Some c => match c_marshal c with
                                  | Some f => Some (c, f)
                                  | None => None
                                  end
                      | None => None
                      end with
                | Some (c, f) =>                   (* the pointer is a Marshaler *)
                    match v with
                    | VPtr (Some x) => f x
                    | VPtr None =>
                        match E with
                        | Borsh => ret tt          (* borsh:115 *)
                        | _ => if c_byval c then panic else c_marshal_nil c
                        end
                    | _ => stuck
                    end
                | None =>
                    match v with
                    | VPtr (Some x) =>
                        match E with
                        | Borsh => enc_val E t' (EFull opt0) x
                        | _ => enc_val E t' (EFull (cut_opt o)) x
                        end
                    | VPtr None =>
                        match E with
                        | Borsh => enc_val E t' (EFull opt0) (zero_val t')
                        | _ => ret tt              (* bin:56: invalid Value *)
                        end
                    | _ => stuck
                    end
                end
            | TArray n t' =>
                match v with
                | VSeq l =>
                    match uint_kind t' with
                    | Some w => write_uints w (Z.of_nat n) l
                    | None => each (enc_val E t' (EFull opt0)) l
                    end
                | _ => stuck
                end
            | TSlice t' =>
                match v with
                | VSlice ol =>
                    let l := match ol with Some l => l | None => [] end in
                    (match size with
                     | Some _ => ret tt
                     | None => write_count E (zlen l)
                     end) ;;;
                    let n := match size with Some n => n | None => zlen l end in
                    match uint_kind t' with
                    | Some w => write_uints w n l
                    | None =>
                        (* rv.Index panics at the first index beyond the end,
                           after the elements before it have been written *)
                        each (enc_val E t' (EFull opt0)) (firstn (Z.to_nat n) l) ;;;
                        if zlen l <? n then panic else ret tt
                    end
                | _ => stuck
                end
            | TMap kt vt =>
                match v with
                | VMap om =>
                    let m := match om with Some m => m | None => [] end in
                    match ordered_keys E kt (map fst m) with
                    | None => unsortable kt
                    | Some keys =>
                        write_count E (zlen m) ;;;
                        enc_map kt vt (enc_val E kt (EFull opt0))
                          (enc_val E vt (EFull opt0)) m keys
                    end
                | _ => stuck
                end
            | _ => fail EMsg                       (* unsupported type *)
            end
        end
    end
  in
  match m with
  | EPayload => core
  | EFull o =>
      e_set_cur (o_order o) ;;;
      (* option flags: bin:41-54, cu16:40-53, borsh:79-106 *)
      let rest : EM unit :=
        if is_borsh E && o_copt o then
          if is_zero v then write_coption false
          else write_coption true ;;; core
        else core in
      if o_opt o then
        if is_zero v then write_flag E false
        else write_flag E true ;;; rest
      else rest
  end.

(** Encoder.Encode, /repo/encoder.go:75-86. *)
Definition encode (t : ty) (v : val) : EM unit :=
  E <- e_get_enc ;; enc_val E t (EFull opt0) v.
