(** For which types a value that was encoded and decoded is encoded to the
    same bytes again. *)
From Verif Require Import Types Spec AccSpec RoundTrip SteadySpec.

(** The methods of a type, written both on the value: what they read they write
    as it was. *)
Definition stays (E : encoding) (c : codec) (u : ty) : Prop :=
  exists m f, c_marshal c = Some m /\ c_byval c = true /\ c_unmarshal c = Some f /\
    forall o v, (E = Borsh -> o = LE) -> fits u v ->
      codec_writes m E o v -> codec_reads f u E o (codec_bytes m E o v) ->
      let v' := codec_back f E o (zero_val u) (codec_bytes m E o v) in
      fits u v' /\ codec_writes m E o v' /\ codec_bytes m E o v' = codec_bytes m E o v.

(** A value that is not zero does not become zero. *)
Definition marked (E : encoding) (t : ty) : Prop :=
  forall sz o v, fits t v -> ok E t sz o v -> is_zero v = false -> is_zero (back E t sz o (zero_val t) v) = false.

(** A key comes back as it was. *)
Definition kept_key (E : encoding) (t : ty) : Prop :=
  forall k, ok E t None LE k -> back E t None LE (zero_val t) k = k.

Section Fields.
  Variable E : encoding.
  Variable P : ty -> Prop.
  (** Optional fields: the flag must come back. *)
  Fixpoint lasting_fields (fs : list (fhdr * ty)) : Prop :=
    match fs with
    | [] => True
    | (h, t) :: fs' =>
        (live h = true -> P t /\ (flagged_field E (parse_field_tag (f_tag h)) = true -> marked E t)) /\
        lasting_fields fs'
    end.
  Fixpoint lasting_variants (fs : list (fhdr * ty)) : Prop :=
    match fs with [] => True | (_, t) :: fs' => variant_ok t = true /\ P t /\ lasting_variants fs' end.
End Fields.

(** Maps: Borsh only, the other two encodings write the entries in the order in
    which Go happens to visit them. *)
Fixpoint lasting (E : encoding) (t : ty) : Prop :=
  match t with
  | TPtr t' => lasting E t'
  | TArray _ t' | TSlice t' => uint_kind t' <> None \/ lasting E t'
  | TMap kt vt => E = Borsh /\ kept_key E kt /\ lasting E kt /\ lasting E vt
  | TStruct fs =>
      if enum_struct E fs then match fs with [] => True | _ :: fs' => lasting_variants (lasting E) fs' end
      else lasting_fields E (lasting E) fs
  | TCodec c u => if no_codec c then lasting E u else stays E c u
  | _ => True
  end.
