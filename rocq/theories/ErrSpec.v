(** Specification for C89: which of the errors that have a name a decoder can
    report for a type.

    The named errors are io.ErrUnexpectedEOF, io.ErrShortBuffer, io.EOF,
    ErrVarIntBufferSize (/repo/decoder.go:157), *InvalidDecoderError and those of
    a writer; errors.Is finds them below errors that wrap them with %w
    ([err_is]).  [EMsg] stands for all errors without a name. *)
From Verif Require Import Types DecPrim Enc Dec Builtin Ops Spec.

Definition sentinel (x : err) : Prop := match x with EMsg | EWrap _ => False | _ => True end.

(** A method UnmarshalWithDecoder returns an error in which errors.Is finds
    [x], from some decoder of this encoding. *)
Definition method_reports (f : val -> DM val) (E : encoding) (x : err) : Prop :=
  exists v s e s', d_enc s = E /\ f v s = (Err e, s') /\ err_is e x.

(** Reading the number of elements of a slice or map: a uvarint (Bin), a
    compact-u16, or 32 bits (Borsh). *)
Definition count_reports (E : encoding) (x : err) : Prop :=
  match E with
  | Bin => x = EUnexpectedEOF \/ x = EVarint
  | CompactU16 => x = EUnexpectedEOF
  | Borsh => False
  end.

Section AnyField.
  Variable P : bool -> ty -> Prop.
  (** Fields that take part; the variants of enums all do, but the methods of
      unexported ones are not called. *)
  Fixpoint any_field (enum : bool) (fs : list (fhdr * ty)) : Prop :=
    match fs with
    | [] => False
    | (h, t) :: r => (if enum then P (f_exported h) t else live h = true /\ P true t) \/ any_field enum r
    end.
End AnyField.

(** Names come from strings, slices, maps, arrays of unsigned integers and
    methods; numbers, flags, enum numbers and unsupported types have none.
    [meth]: methods are called. *)
Fixpoint reports (meth : bool) (E : encoding) (t : ty) (x : err) {struct t} : Prop :=
  match t with
  | TString => x = EUnexpectedEOF
  | TArray _ t' => match uint_kind t' with Some _ => x = EUnexpectedEOF | None => reports meth E t' x end
  | TSlice t' => x = EUnexpectedEOF \/ count_reports E x \/ match uint_kind t' with Some _ => False | None => reports meth E t' x end
  | TMap k v => count_reports E x \/ reports meth E k x \/ reports meth E v x
  | TStruct fs => any_field (fun b t' => reports (meth && b) E t' x) (enum_struct E fs) fs
  | TPtr t' => reports meth E t' x
  | TCodec c u => match (if meth then c_unmarshal c else None) with
                  | Some f => method_reports f E x
                  | None => reports meth E u x
                  end
  | _ => False
  end.

(** Methods that leave the decoder with its encoding. *)
Definition codec_keeps_enc (c : codec) (_ : ty) : Prop :=
  forall f v s, c_unmarshal c = Some f -> d_enc (snd (f v s)) = d_enc s.

(** Types without strings, slices, maps, arrays of unsigned integers and
    methods. *)
Fixpoint countless (t : ty) : bool :=
  match t with
  | TString | TSlice _ | TMap _ _ => false
  | TArray _ t' => match uint_kind t' with Some _ => false | None => countless t' end
  | TStruct fs => forallb (fun f => countless (snd f)) fs
  | TPtr t' => countless t'
  | TCodec c u => match c_unmarshal c with Some _ => false | None => countless u end
  | _ => true
  end.

(** The methods of Decoder, other than Decode. *)
Definition call_reports (op : dop) (E : encoding) (x : err) : Prop :=
  match op with
  | OpReadUvarint64 | OpReadVarint64 | OpReadUvarint32 | OpReadVarint32 | OpReadUvarint16 | OpReadVarint16 => x = EVarint
  | OpReadCompactU16 | OpReadRustString => x = EUnexpectedEOF
  | OpReadLength | OpReadByteSlice | OpReadString | OpSafeReadUTF8String => x = EUnexpectedEOF \/ (E = Bin /\ x = EVarint)
  | OpRead n => 0 < n /\ x = EShortBuffer
  | _ => False
  end.
