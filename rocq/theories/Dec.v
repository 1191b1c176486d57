(** The reflection decoders: /repo/decoder_bin.go, /repo/decoder_compact-u16.go,
    /repo/decoder_borsh.go and [indirect] of /repo/decoder.go:694-760.  One
    function with the encoding as a parameter, branching where the files
    differ.  Line numbers "bin:", "cu16:", "borsh:" refer to these files. *)
From Verif Require Import Types DecPrim Enc.

(** Option flag: bin:61-65 (u32), cu16:60-64 (byte), borsh:61-65
    (ReadOption); the error text is not wrapped. *)
Definition read_flag (E : encoding) : DM bool :=
  map_err (fun _ => EMsg)
    (match E with
     | Bin => fmap (fun n => negb (n =? 0)) (read_uint 4 LE)
     | CompactU16 => fmap (fun n => negb (n =? 0)) read_byte
     | Borsh => read_option
     end).

(** COption flag: borsh:80-84. *)
Definition read_cflag : DM bool := map_err (fun _ => EMsg) read_coption.

(** Strings: bin:90, cu16:89, borsh:123. *)
Definition read_str (E : encoding) : DM (list Z) :=
  match E with
  | Bin => read_rust_string
  | CompactU16 | Borsh => read_string
  end.

(** Length of a slice: bin:181, cu16:180, borsh:216. *)
Definition read_count (E : encoding) : DM Z :=
  match E with
  | Bin => read_length
  | CompactU16 => read_compact_u16
  | Borsh => read_uint 4 LE
  end.

(** SetMapIndex: replaces the entry of an equal key or adds one.  The runtime
    stores the new key as well where equal keys can differ (0 and -0; mapassign
    with NeedKeyUpdate).  (The position of entries is the model's enumeration
    order only.) *)
Fixpoint map_set (kt : ty) (m : list (val * val)) (k v : val) : list (val * val) :=
  match m with
  | [] => [(k, v)]
  | (k', v') :: r =>
      if key_eqb kt k' k then (k, v) :: r else (k', v') :: map_set kt r k v
  end.

(** for i := 0; i < n; i++ { decode key; decode value; SetMapIndex }:
    bin:230-242, cu16:229-241, borsh:269-281. *)
Fixpoint dec_map (kt : ty) (n : nat) (deck decv : DM val)
  (m : list (val * val)) : DM (list (val * val)) :=
  match n with
  | O => ret m
  | S n' =>
      k <- deck ;; v <- decv ;;
      dec_map kt n' deck decv (map_set kt m k v)
  end.

(** Decode into each element of an array: bin:169-173, cu16:168-172,
    borsh:204-208. *)
Section EachDec.
  Context {A B : Type}.
  Variable f : A -> DM B.
  Fixpoint each_dec (l : list A) : DM (list B) :=
    match l with
    | [] => ret []
    | a :: r => b <- f a ;; bs <- each_dec r ;; ret (b :: bs)
    end.
End EachDec.

(** The UnmarshalWithDecoder of a struct field of type T or *T as looked up
    by decodeStructBorsh, borsh:411-435: result is the new field value. *)
Definition borsh_field_unmarshaler (t : ty) : option (DM val) :=
  match t with
  | TCodec c u =>
      match c_unmarshal c with
      | Some f => Some (f (zero_val u))
      | None => None
      end
  | TPtr (TCodec c u) =>
      match c_unmarshal c with
      | Some f => Some (fmap (fun x => VPtr (Some x)) (f (zero_val u)))
      | None => None
      end
  | _ => None
  end.

(** Loop over the fields: decodeStructBin bin:259-351, cu16:258-350,
    decodeStructBorsh borsh:333-452.  Result: the new field values. *)
Section StructDec.
  Variable E : encoding.
  Variable rec : ty -> fopt -> val -> DM val.
  Fixpoint dec_fields (fs : list (fhdr * ty)) (ps : list val) (sizes : smap)
    (seen : bool) {struct fs} : DM (list val) :=
    match fs, ps with
    | [], [] => ret []
    | (h, t) :: fs', p :: ps' =>
        let tg := parse_field_tag (f_tag h) in
        let keep sn := fmap (cons p) (dec_fields fs' ps' sizes sn) in
        if ft_skip tg then keep seen
        else if negb (ft_ext tg) && seen then panic
        else
          let seen' := seen || ft_ext tg in
          let body :=
            if negb (f_exported h) then keep seen'
            else
              match is_borsh E, borsh_field_unmarshaler t with
              | true, Some m =>
                  x <- m ;; fmap (cons x) (dec_fields fs' ps' sizes seen')
              | _, _ =>
                  x <- map_err EWrap (rec t (field_opt E tg (f_name h) sizes) p) ;;
                  if String.eqb (ft_sizeof tg) "" then
                    fmap (cons x) (dec_fields fs' ps' sizes seen')
                  else match sizeof_val t x with
                       | None => panic
                       | Some n =>
                           fmap (cons x)
                             (dec_fields fs' ps' ((ft_sizeof tg, n) :: sizes) seen')
                       end
              end in
          if ft_ext tg then
            rest <- d_rest ;;
            match rest with [] => keep seen' | _ => body end
          else body
    | _, _ => stuck
    end.

End StructDec.

(** Read something, then panic because it cannot be stored.  [hopeless]: this is
    tried even if the reading failed (n, err = dec.ReadXxx(); rv.SetXxx(n)). *)
Definition then_panic {A} (m : DM A) : DM unit := _ <- m ;; panic.
Definition hopeless {A} (m : DM A) : DM unit :=
  then_panic (fun s => match m s with (Err _, s') => (Panic, s') | r => r end).

(** reflect_readArrayOfUintN into an array that cannot be set,
    /repo/decoder.go:762-927: reflect.Copy panics, also if there is nothing to
    copy; the loop for other element types panics with the first element. *)
Definition plain_uint (t : ty) : bool := match t with TUint UPlain _ => true | _ => false end.

(** decodeBorsh of a value that was reached through an unexported field:
    everything that is to be stored panics (reflect.Value.Set etc.), no method is
    looked for (CanInterface in [indirect]), and the fields of structs are
    skipped, borsh:371-397.  [v] is what the destination holds, and goes on
    holding. *)
Fixpoint dec_sealed (t : ty) (v : val) {struct t} : DM unit :=
  match t with
  | TBool => hopeless read_bool
  | TUint _ w => hopeless (read_uintw w LE)
  | TInt _ w => hopeless (read_intw w LE)
  | TFloat f => hopeless (read_float f LE)
  | TString => then_panic read_string
  | TIface => ret tt
  | TPtr t' => match v with VPtr (Some x) => dec_sealed t' x | VPtr None => panic | _ => stuck end
  | TCodec _ u => dec_sealed u v
  | TArray n t' =>
      match uint_kind t' with
      | Some w =>
          read_uints w (Z.of_nat n) ;;;
          match n with
          | O => if plain_uint t' then panic else ret tt
          | S _ => panic
          end
      | None => match v with VSeq ps => each_dec (fun x => d_set_cur LE ;;; dec_sealed t' x) ps ;;; ret tt | _ => stuck end
      end
  | TSlice t' =>
      l <- read_count Borsh ;;
      if l =? 0 then ret tt
      else
        r <- d_remaining ;;
        if r <? l then fail EUnexpectedEOF
        else match uint_kind t' with Some w => then_panic (read_uints w l) | None => panic end
  | TMap _ _ => l <- read_count Borsh ;; if l =? 0 then ret tt else panic
  | TStruct fs =>
      match v with
      | VStruct ps =>
          if is_enum fs then then_panic read_byte
          else dec_fields Borsh (fun _ _ p => ret p) (hide fs) ps [] false ;;; ret tt
      | _ => stuck
      end
  | TNative _ | TOther => fail EMsg
  | TDeep => deep
  end.

(** deserializeComplexEnum, borsh:302-306: decode into field [n], keep the
    others. *)
Section VariantDec.
  Variable rec : ty -> fopt -> val -> DM val.
  Fixpoint dec_variant (fs : list (fhdr * ty)) (ps : list val) (n : nat) : DM (list val) :=
    match fs, ps with
    | (h, t) :: fs', p :: ps' =>
        match n with
        | O => if negb (f_exported h) then d_set_cur LE ;;; dec_sealed t p ;;; ret ps
               else x <- rec t opt0 p ;; ret (x :: ps')
        | S n' => fmap (cons p) (dec_variant fs' ps' n')
        end
    | [], [] => fail EMsg
    | _, _ => stuck
    end.
End VariantDec.

(** Where in [decodeBin] (etc.) we are when the decoder descends through a
    pointer.
    - [DStart o]: entry of decodeBin with options [o];
    - [DNull o]: inside indirect(v, true): stops at the last pointer;
    - [DWalk o pend]: inside indirect(v, false), allocating; [pend]: a COption
      flag is still to be read when it stops (Borsh: both optional and
      coption). *)
Inductive dmode : Type :=
| DStart (o : fopt)
| DNull (o : fopt)
| DWalk (o : fopt) (pend : bool).

Definition mode_opt (m : dmode) : fopt :=
  match m with DStart o | DNull o | DWalk o _ => o end.

Definition is_ptr (t : ty) : bool := match t with TPtr _ => true | _ => false end.

(** What a destination pointer points to; a nil pointer gets a new zero
    value. *)
Definition pointee (t : ty) (v : val) : val :=
  match v with VPtr (Some x) => x | _ => zero_val t end.

(** decodeBin bin:44-250, decodeCompactU16 cu16:43-249, decodeBorsh
    borsh:44-289.  [v] is the old contents of the destination, the result the
    new contents.  (On an error the destination may have been changed partly;
    that is not modelled, callers see the error.) *)
Fixpoint dec_val (E : encoding) (t : ty) (m : dmode) (v : val) {struct t} : DM val :=
  let o := mode_opt m in
  let dec_struct (fs : list (fhdr * ty)) (ps : list val) : DM val :=
    if is_borsh E && is_enum fs then
      n <- read_byte ;;
      match fs, ps with
      | (h, _) :: fs', _ :: ps' =>
          if negb (f_exported h) then panic
          else
            rest <- dec_variant (fun t' o' v' => dec_val E t' (DStart o') v')
                      fs' ps' (Z.to_nat n) ;;
            ret (VStruct (VNum n :: rest))
      | _, _ => stuck
      end
    else
      fmap VStruct
        (dec_fields E (fun t' o' v' => dec_val E t' (DStart o') v') fs ps [] false)
  in
  (* a non-pointer without UnmarshalWithDecoder: bin:86-249 *)
  let core (v : val) : DM val :=
    match t with
    | TBool => fmap VBool read_bool
    | TUint _ w => fmap VNum (read_uintw w (scalar_order E (o_order o)))
    | TInt _ w => fmap VNum (read_intw w (scalar_order E (o_order o)))
    | TFloat f =>
        fmap (fun b => VFloat (f32_through64 f b))
          (read_float f (scalar_order E (o_order o)))
    | TString => fmap VStr (read_str E)
    | TIface => ret v
    | TArray n t' =>
        match uint_kind t' with
        | Some w => fmap (fun zs => VSeq (map VNum zs)) (read_uints w (Z.of_nat n))
        | None =>
            match v with
            | VSeq ps => fmap VSeq (each_dec (dec_val E t' (DStart opt0)) ps)
            | _ => stuck
            end
        end
    | TSlice t' =>
        l <- (match o_size o with Some n => ret n | None => read_count E end) ;;
        if is_borsh E && (l =? 0) then ret v       (* borsh:227-230 *)
        else
          r <- d_remaining ;;
          if r <? l then fail EUnexpectedEOF
          else
            match uint_kind t' with
            | Some w =>
                fmap (fun zs => VSlice (Some (map VNum zs))) (read_uints w l)
            | None =>
                fmap (fun vs => VSlice (Some vs))
                  (read_rep (Z.to_nat l) (dec_val E t' (DStart opt0) (zero_val t')))
            end
    | TMap kt vt =>
        l <- read_count E ;;
        if l =? 0 then ret v
        else
          fmap (fun es => VMap (Some es))
            (dec_map kt (Z.to_nat l)
               (dec_val E kt (DStart opt0) (zero_val kt))
               (dec_val E vt (DStart opt0) (zero_val vt)) [])
    | TStruct fs => match v with VStruct ps => dec_struct fs ps | _ => stuck end
    | TNative _ | TOther => fail EMsg              (* unsupported type *)
    | TPtr _ | TCodec _ _ | TDeep => stuck         (* not reached *)
    end
  in
  (* indirect(v, false) from here on, then the rest of decodeBin *)
  let walk (pend : bool) (v : val) : DM val :=
    match t with
    | TPtr t' =>
        fmap (fun x => VPtr (Some x)) (dec_val E t' (DWalk o pend) (pointee t' v))
    | TCodec c u =>
        match c_unmarshal c with
        | Some f => if pend then panic else f v
        | None => dec_val E u (DWalk o pend) v
        end
    | TDeep => deep
    | _ =>
        if pend then
          b <- read_cflag ;;
          if b then core v else ret (zero_val t)
        else core v
    end
  in
  (* indirect has stopped here; read the flags: bin:60-78, cu16:59-77,
     borsh:60-97.  If an Unmarshaler was found, rv is the zero Value and each
     of rv.Type(), rv.Set and indirect(rv, false) panics. *)
  let flagged (v : val) : DM val :=
    if o_opt o then
      b <- read_flag E ;;
      if b then walk (is_borsh E && o_copt o) v else ret (zero_val t)
    else
      b <- read_cflag ;;
      if b then walk false v else ret (zero_val t)
  in
  (* indirect(v, true) *)
  let null (v : val) : DM val :=
    match t with
    | TPtr t' =>
        if is_ptr t' then
          match v with
          | VPtr (Some x) =>
              fmap (fun y => VPtr (Some y)) (dec_val E t' (DNull o) x)
          | _ => flagged v
          end
        else flagged v
    | TCodec c u =>
        match c_unmarshal c with
        | Some _ => panic
        | None => flagged v
        end
    | TDeep => deep
    | _ => flagged v
    end
  in
  match m with
  | DStart _ =>
      d_set_cur (o_order o) ;;;
      if o_opt o || (is_borsh E && o_copt o) then null v else walk false v
  | DNull _ => null v
  | DWalk _ pend => walk pend v
  end.

(** Decoder.Decode, /repo/decoder.go:127-138, with decodeWithOptionXxx
    (bin:29-42, cu16:28-41, borsh:29-42): the argument is not a pointer, a nil
    pointer, or a pointer to a variable of type [t] holding [v]. *)
Inductive target : Type :=
| TgtNonPointer
| TgtNilPointer (t : ty)
| TgtVar (t : ty) (v : val).

(** On a nil *T, reflect.Value.Set panics in indirect (the value is not
    settable) before the nil check could report an error. *)
Definition decode_target (g : target) : DM val :=
  match g with
  | TgtNonPointer => fail EInvalidDecoder
  | TgtNilPointer _ => panic
  | TgtVar t v => E <- d_get_enc ;; dec_val E t (DStart opt0) v
  end.

Definition decode (t : ty) (v : val) : DM val := decode_target (TgtVar t v).
