(** Types every long enough input of which is a value, and types on which the
    encodings agree. *)
From Verif Require Import Types Spec AccSpec SizeSpec.

Section AllFields.
  Variable P : fhdr -> ty -> Prop.
  (** [P] of the fields that are not skipped. *)
  Fixpoint all_fields (fs : list (fhdr * ty)) : Prop :=
    match fs with
    | [] => True
    | (h, t) :: fs' => (if ft_skip (parse_field_tag (f_tag h)) then True else P h t) /\ all_fields fs'
    end.
End AllFields.

(** Numbers, arrays, structs: no flags, counts, texts, methods or NaNs that
    Borsh refuses. *)
Fixpoint solid (E : encoding) (t : ty) : Prop :=
  match t with
  | TBool | TUint _ _ | TInt _ _ | TIface => True
  | TFloat _ => E <> Borsh
  | TPtr t' => solid E t'
  | TArray n t' =>
      match uint_kind t' with
      | Some w => w = W8 -> Z.of_nat n <= bulk_max
      | None => solid E t'
      end
  | TStruct fs =>
      enum_struct E fs = false /\
      all_fields (fun h t' =>
        let tg := parse_field_tag (f_tag h) in
        ft_ext tg = false /\
        (f_exported h = true ->
           ft_option tg = false /\ is_borsh E && ft_coption tg = false /\ ft_sizeof tg = EmptyString /\ solid E t')) fs
  | TCodec c u => c_unmarshal c = None /\ solid E u
  | _ => False
  end.

(** Two encodings write the same bytes: texts and maps differ, counts only
    between Borsh and the others, flags only between Bin and the others. *)
Section AlikeFields.
  Variable E E' : encoding.
  Variable alike : ty -> bool -> Prop.
  (** [s]: the fields to which an earlier field gives the count. *)
  Fixpoint alike_fields (fs : list (fhdr * ty)) (s : string -> bool) : Prop :=
    match fs with
    | [] => True
    | (h, t) :: fs' =>
        let tg := parse_field_tag (f_tag h) in
        if live h then
          (ft_option tg = false \/ E <> Bin /\ E' <> Bin) /\
          (ft_coption tg = false \/ E <> Borsh /\ E' <> Borsh) /\
          (ft_order tg = LE \/ E <> Borsh /\ E' <> Borsh) /\
          alike t (s (f_name h)) /\
          alike_fields fs' (match ft_sizeof tg with EmptyString => s | n => fun x => String.eqb n x || s x end)
        else alike_fields fs' s
    end.
End AlikeFields.

Fixpoint alike (E E' : encoding) (t : ty) (sized : bool) : Prop :=
  match t with
  | TBool | TUint _ _ | TInt _ _ | TFloat _ | TIface => True
  | TPtr t' => ptr_marshal t' = None /\ alike E E' t' sized
  | TArray _ t' => uint_kind t' = None -> alike E E' t' false
  | TSlice t' => (sized = true \/ E <> Borsh /\ E' <> Borsh) /\ (uint_kind t' = None -> alike E E' t' false)
  | TMap k v => (E <> Borsh /\ E' <> Borsh) /\ alike E E' k false /\ alike E E' v false
  | TStruct fs => (enum_struct E fs = false /\ enum_struct E' fs = false) /\ alike_fields E E' (alike E E') fs (fun _ => false)
  | TCodec c u => val_marshal c = None /\ alike E E' u sized
  | _ => False
  end.

(** The MarshalWithEncoder methods that a type brings in. *)
Fixpoint marshals (t : ty) : list (val -> EM unit) :=
  match t with
  | TPtr t' | TArray _ t' | TSlice t' => marshals t'
  | TMap k v => marshals k ++ marshals v
  | TStruct fs => gather (fun _ => marshals) fs
  | TCodec c u => match c_marshal c with Some f => f :: marshals u | None => marshals u end
  | _ => []
  end.
Definition byte_writer (E : encoding) (f : val -> EM unit) : Prop :=
  forall o v, codec_writes f E o v -> bytes_ok (codec_bytes f E o v).
