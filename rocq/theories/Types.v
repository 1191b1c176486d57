(** Encodings, Go values, encoder / decoder state, Go types. *)
From Verif Require Export Base Num Compact Tags.

(** Encoding, /repo/tags-options.go:85-91.  Only the three valid ones: the
    constructors panic on any other (NewEncoderWithEncoding,
    /repo/encoder.go:52-61; NewDecoderWithEncoding, /repo/decoder.go:100-108);
    simplification: Decoder.SetEncoding with an invalid encoding (after which
    Decode panics) is not modelled. *)
Inductive encoding : Type := Bin | CompactU16 | Borsh.

Definition is_borsh (e : encoding) : bool :=
  match e with Borsh => true | _ => false end.

(** Go values.
    - [VNum]: any integer kind; [VFloat]: IEEE bits;
    - [VStr]: the bytes of a string;
    - [VPtr]: nil or pointer to a value (no sharing, no cycles);
    - [VSeq]: array; [VSlice]: nil or slice;
    - [VMap]: nil or the entries, in the order in which the runtime
      enumerates them;
    - [VStruct]: all fields, in order of declaration, including the skipped
      and unexported ones;
    - [VIface]: nil or an opaque dynamic value (a number naming it);
    - [VOther]: value of a kind the library does not support (nil func, chan,
      complex, ...). *)
Inductive val : Type :=
| VBool (b : bool)
| VNum (z : Z)
| VFloat (bits : Z)
| VStr (s : list Z)
| VPtr (p : option val)
| VSeq (l : list val)
| VSlice (l : option (list val))
| VMap (m : option (list (val * val)))
| VStruct (l : list val)
| VIface (d : option Z)
| VOther.

(** An io.Writer: given all chunks handed to Write so far (the current one
    last), either accepts the current chunk ([None]) or accepts its first [k]
    bytes and fails with error number [n]. *)
Definition writer : Type := list (list Z) -> option (nat * Z).

(** Encoder, /repo/encoder.go:31-38.  Of currentFieldOpt only .Order is ever
    read, so it is kept as [option order] ([None] = nil pointer).  [e_hist]
    and [e_acc] are what the writer has been given and has accepted. *)
Record est : Type := mkE {
  e_enc : encoding;
  e_w : writer;
  e_cur : option order;
  e_count : Z;
  e_hist : list (list Z);
  e_acc : list Z }.

Definition EM (A : Type) : Type := SM est A.

(** Decoder, /repo/decoder.go:72-79. *)
Record dst : Type := mkD {
  d_data : list Z;
  d_pos : Z;
  d_cur : option order;
  d_enc : encoding }.

Definition DM (A : Type) : Type := SM dst A.

(** A type's own codec methods.
    - [c_marshal]: MarshalWithEncoder applied to the value, if the type (or
      the pointer to it) has one; [c_byval]: it has a value receiver, so that
      it is found on plain values as well as on pointers; [c_marshal_nil]: for
      a pointer receiver, what it does on a nil pointer.
    - [c_unmarshal]: UnmarshalWithDecoder (pointer receiver), from the old
      contents of the variable to the new. *)
Record codec : Type := mkCodec {
  c_marshal : option (val -> EM unit);
  c_byval : bool;
  c_marshal_nil : EM unit;
  c_unmarshal : option (val -> DM val) }.

(** How an unsigned type is called: predeclared, some defined type, or
    BorshEnum (/repo/encoder_borsh.go:276). *)
Inductive uname : Type := UPlain | UNamed | UBorshEnum.

(** Struct field header: name, exported?, tag. *)
Record fhdr : Type := mkF {
  f_name : string;
  f_exported : bool;
  f_tag : rawtag }.

(** Go types.
    - [TNative]: int / uint (usable for sizeof only);
    - [TOther]: kinds without support;
    - [TCodec c u]: defined type with underlying type [u] (not a pointer or
      interface type) and the methods [c];
    - [TDeep]: a recursive Go type is modelled by its unrollings; [TDeep]
      marks the place where the unrolling has been cut. *)
Inductive ty : Type :=
| TBool
| TUint (n : uname) (w : width)
| TInt (named : bool) (w : width)
| TFloat (f : fwidth)
| TString
| TNative (signed : bool)
| TOther
| TIface
| TPtr (t : ty)
| TArray (n : nat) (t : ty)
| TSlice (t : ty)
| TMap (k v : ty)
| TStruct (fs : list (fhdr * ty))
| TCodec (c : codec) (u : ty)
| TDeep.

(** Width of the element kind if it is Uint8 .. Uint64 (reflect kinds look
    through defined types). *)
Fixpoint uint_kind (t : ty) : option width :=
  match t with
  | TUint _ w => Some w
  | TCodec _ u => uint_kind u
  | _ => None
  end.

(** reflect.Zero. *)
Fixpoint zero_val (t : ty) : val :=
  match t with
  | TBool => VBool false
  | TUint _ _ | TInt _ _ | TNative _ => VNum 0
  | TFloat _ => VFloat 0
  | TString => VStr []
  | TOther => VOther
  | TIface => VIface None
  | TPtr _ => VPtr None
  | TArray n t' => VSeq (repeat (zero_val t') n)
  | TSlice _ => VSlice None
  | TMap _ _ => VMap None
  | TStruct fs => VStruct (map (fun ht => zero_val (snd ht)) fs)
  | TCodec _ u => zero_val u
  | TDeep => VOther
  end.

(** reflect.Value.IsZero (floats: all bits zero, so -0 is not zero). *)
Fixpoint is_zero (v : val) : bool :=
  match v with
  | VBool b => negb b
  | VNum z => z =? 0
  | VFloat b => b =? 0
  | VStr s => match s with [] => true | _ => false end
  | VPtr p => match p with None => true | Some _ => false end
  | VSeq l => forallb is_zero l
  | VSlice l => match l with None => true | Some _ => false end
  | VMap m => match m with None => true | Some _ => false end
  | VStruct l => forallb is_zero l
  | VIface d => match d with None => true | Some _ => false end
  | VOther => true
  end.

(** Go's [==] on map keys of type [t]; fields called _ do not count.
    Simplification: pointers (identity) are not modelled as keys. *)
Fixpoint key_eqb (t : ty) (a b : val) : bool :=
  match t with
  | TBool => match a, b with VBool x, VBool y => Bool.eqb x y | _, _ => false end
  | TUint _ _ | TInt _ _ | TNative _ =>
      match a, b with VNum x, VNum y => x =? y | _, _ => false end
  | TFloat w =>
      match a, b with
      | VFloat x, VFloat y =>
          negb (f_isnan w x) && negb (f_isnan w y) && (f_key w x =? f_key w y)
      | _, _ => false
      end
  | TString =>
      match a, b with
      | VStr x, VStr y => if list_eq_dec Z.eq_dec x y then true else false
      | _, _ => false
      end
  | TIface =>
      match a, b with
      | VIface None, VIface None => true
      | VIface (Some m), VIface (Some n) => m =? n
      | _, _ => false
      end
  | TArray _ t' =>
      match a, b with
      | VSeq x, VSeq y =>
          (fix go x y := match x, y with
                         | [], [] => true
                         | a :: x', b :: y' => key_eqb t' a b && go x' y'
                         | _, _ => false
                         end) x y
      | _, _ => false
      end
  | TStruct fs =>
      match a, b with
      | VStruct x, VStruct y =>
          (fix go fs x y := match fs, x, y with
                            | [], [], [] => true
                            | ht :: fs', a :: x', b :: y' =>
                                (String.eqb (f_name (fst ht)) "_" || key_eqb (snd ht) a b) &&
                                go fs' x' y'
                            | _, _, _ => false
                            end) fs x y
      | _, _ => false
      end
  | TCodec _ u => key_eqb u a b
  | TOther | TPtr _ | TSlice _ | TMap _ _ | TDeep => false
  end.
