(** For which types decoding and encoding again settles, and for which it gives
    back the bytes that were read. *)
From Verif Require Import Types Spec AccSpec RoundTrip.

(** The codec methods of a type: what was decoded into a new variable can be
    encoded, and decodes to the same value again. *)
Definition firm (E : encoding) (c : codec) (u : ty) : Prop :=
  exists m f, c_marshal c = Some m /\ c_byval c = true /\ c_unmarshal c = Some f /\
    forall o b rest v, (E = Borsh -> o = LE) -> bytes_ok (b ++ rest) -> own_in E o f (zero_val u) b rest v ->
      fits u v /\ codec_writes m E o v /\ codec_reads f u E o (codec_bytes m E o v) /\
      codec_back f E o (zero_val u) (codec_bytes m E o v) = v.
(** ... and gives the bytes that were read. *)
Definition same_bytes (E : encoding) (c : codec) (u : ty) : Prop :=
  forall m f, c_marshal c = Some m -> c_unmarshal c = Some f ->
    forall o b rest v, (E = Borsh -> o = LE) -> bytes_ok (b ++ rest) -> own_in E o f (zero_val u) b rest v ->
      codec_bytes m E o v = b.

Definition no_codec (c : codec) : bool :=
  match c_marshal c, c_unmarshal c with None, None => true | _, _ => false end.

(** Go's == on keys: no key differs from itself. *)
Definition plain_keys (t : ty) : Prop :=
  forall a b, fits t a -> fits t b -> key_eqb t a a = true /\ key_eqb t a b = key_eqb t b a.

(** What may be in a variant of an enum. *)
Definition variant_ok (t : ty) : bool :=
  match (match t with TPtr t' => t' | _ => t end) with
  | TCodec c u => no_codec c && payload u
  | t' => payload t'
  end.

Section Fields.
  Variable E : encoding.
  Variable P : bool -> ty -> Prop.
  (** [names]: fields whose counts are given by sizeof fields. *)
  Fixpoint steady_fields (fs : list (fhdr * ty)) (names : list string) : Prop :=
    match fs with
    | [] => True
    | (h, t) :: fs' =>
        let tg := parse_field_tag (f_tag h) in
        if ft_skip tg then steady_fields fs' names
        else
          if f_exported h then
            (E = Borsh -> ft_order tg = LE) /\
            (flagged_field E tg = true ->
               ft_option tg && (is_borsh E && ft_coption tg) = false /\
               has_unmarshal t = None /\ match t with TPtr (TPtr _) => False | _ => True end /\
               no_deep t = true /\ (E = Borsh -> bare t = true)) /\
            (* the new variable stays as it is if nothing is left of the input *)
            (ft_ext tg = true ->
               existsb (String.eqb (f_name h)) names = false /\ ft_sizeof tg = EmptyString /\
               (flagged_field E tg = true \/ ok E t None (ft_order tg) (zero_val t)) /\
               forall v, ok_field E (ok E) t tg None v -> with_flags E tg v (wire E t None (ft_order tg) v) <> []) /\
            P (existsb (String.eqb (f_name h)) names) t /\
            match ft_sizeof tg with
            | EmptyString => steady_fields fs' names
            | n => match t with TUint _ (W8 | W16 | W32) => True | _ => False end /\ n <> f_name h /\ steady_fields fs' (n :: names)
            end
          else ft_sizeof tg = EmptyString /\ steady_fields fs' names
    end.
  (** The variants of an enum. *)
  Fixpoint steady_variants (fs : list (fhdr * ty)) : Prop :=
    match fs with [] => True | (h, t) :: fs' => f_exported h = true /\ variant_ok t = true /\ P false t /\ steady_variants fs' end.

  Fixpoint strict_fields (fs : list (fhdr * ty)) (names : list string) : Prop :=
    match fs with
    | [] => True
    | (h, t) :: fs' =>
        let tg := parse_field_tag (f_tag h) in
        if live h then
          ft_ext tg = false /\
          (flagged_field E tg = false \/ (ft_option tg = false /\ is_pointer t = true)) /\
          P (existsb (String.eqb (f_name h)) names) t /\
          strict_fields fs' (match ft_sizeof tg with EmptyString => names | n => n :: names end)
        else strict_fields fs' names
    end.
  Fixpoint strict_variants (fs : list (fhdr * ty)) : Prop :=
    match fs with [] => True | (_, t) :: fs' => P false t /\ strict_variants fs' end.
End Fields.

(** No maps in Borsh, which come back sorted; new variables of extension fields
    come back as they were. *)
Section Orderly.
  Variable E : encoding.
  Variable P : ty -> Prop.
  Fixpoint orderly_fields (fs : list (fhdr * ty)) : Prop :=
    match fs with
    | [] => True
    | (h, t) :: fs' =>
        let tg := parse_field_tag (f_tag h) in
        P t /\
        (ft_ext tg = true -> live h = true -> flagged_field E tg = false -> canon E t None (ft_order tg) (zero_val t)) /\
        orderly_fields fs'
    end.
End Orderly.
Fixpoint orderly (E : encoding) (t : ty) : Prop :=
  match t with
  | TPtr t' | TArray _ t' | TSlice t' => orderly E t'
  | TMap kt vt => E <> Borsh /\ orderly E kt /\ orderly E vt
  | TStruct fs => orderly_fields E (orderly E) fs
  | TCodec c u => if no_codec c then orderly E u else True
  | _ => True
  end.

(** What was decoded can be encoded, and decodes to the same value again if the
    type is orderly.  [sized]: the count comes from a sizeof field. *)
Fixpoint steady (E : encoding) (sized : bool) (t : ty) : Prop :=
  match t with
  | TPtr t' => (E = Borsh -> sized = false) /\ steady E sized t'
  | TArray _ t' => uint_kind t' <> None \/ steady E false t'
  | TSlice t' =>
      uint_kind t' <> None \/
      (steady E false t' /\ forall v, ok E t' None LE v -> wire E t' None LE v <> [])
  | TMap kt vt => (E = Borsh -> key_sortable false kt = true) /\ orderly E kt /\ steady E false kt /\ steady E false vt /\ plain_keys kt
  | TStruct fs =>
      if enum_struct E fs then match fs with [] => True | _ :: fs' => steady_variants (steady E) fs' end
      else steady_fields E (steady E) fs []
  | TCodec c u => if no_codec c then steady E sized u else firm E c u
  | _ => True
  end.

(** ... and encoding gives the bytes that were read: no booleans, no flags but
    those of COption pointers, no varint counts, no maps, no float32 (but in
    Borsh, which refuses NaNs), no extension fields. *)
Fixpoint strict (E : encoding) (sized : bool) (t : ty) : Prop :=
  match t with
  | TBool | TMap _ _ => False
  | TFloat F32 => E = Borsh
  | TPtr t' => strict E sized t'
  | TArray _ t' => uint_kind t' <> None \/ strict E false t'
  | TSlice t' => (sized = true \/ E <> Bin) /\ (uint_kind t' <> None \/ strict E false t')
  | TStruct fs =>
      if enum_struct E fs then match fs with [] => True | _ :: fs' => strict_variants (strict E) fs' end
      else strict_fields E (strict E) fs []
  | TCodec c u => if no_codec c then strict E sized u else same_bytes E c u
  | _ => True
  end.
