(** How many bytes the values of a type take, read off the type alone: the least
    number and, if there is one, the most. *)
From Verif Require Import Types Spec AccSpec.

Definition bounds : Type := Z * option Z.
Definition within (n : Z) (s : bounds) : Prop := fst s <= n /\ forall m, snd s = Some m -> n <= m.
Definition exactly (n : Z) : bounds := (n, Some n).
Definition from (n : Z) : bounds := (n, None).

Definition most_of (f : Z -> Z -> Z) (a b : option Z) : option Z :=
  match a, b with Some x, Some y => Some (f x y) | _, _ => None end.
Definition plus (a b : bounds) : bounds := (fst a + fst b, most_of Z.add (snd a) (snd b)).
Definition times (n : Z) (a : bounds) : bounds := (n * fst a, option_map (Z.mul n) (snd a)).
(** One or the other. *)
Definition either (a b : bounds) : bounds := (Z.min (fst a) (fst b), most_of Z.max (snd a) (snd b)).
(** [a] or nothing at all. *)
Definition maybe (a : bounds) : bounds := (0, snd a).

(** The least of a count, of the length of a text; the flag of an optional field. *)
Definition count_size (E : encoding) : Z :=
  match E with Borsh => 4 | _ => 1 end.
Definition text_size (E : encoding) : Z :=
  match E with Bin => 8 | CompactU16 => 1 | Borsh => 4 end.
Definition flag_size (E : encoding) : bounds :=
  exactly match E with Bin => 4 | _ => 1 end.

(** The value [a] behind the flags of its field. *)
Definition flagged (E : encoding) (opt copt : bool) (a : bounds) : bounds :=
  let a' := if copt then plus (exactly 4) (maybe a) else a in
  if opt then plus (flag_size E) (maybe a') else a'.

(** A field that Borsh decodes with a method: the underlying type of it. *)
Definition by_method (E : encoding) (t : ty) : option ty :=
  match E, t with
  | Borsh, (TCodec c u | TPtr (TCodec c u)) => match c_unmarshal c with Some _ => Some u | None => None end
  | _, _ => None
  end.

(** An unexported variant of an enum; nothing is stored. *)
Fixpoint span_sealed (t : ty) : bounds :=
  match t with
  | TPtr t' | TCodec _ t' => span_sealed t'
  | TArray n t' => match uint_kind t' with Some _ => exactly 0 | None => times (Z.of_nat n) (span_sealed t') end
  | TSlice _ | TMap _ _ => exactly 4
  | _ => exactly 0
  end.

Section Fields.
  Variable own : ty -> bounds.
  Variable E : encoding.
  Variable span : ty -> bool -> bounds.
  (** [s]: the fields to which an earlier field gives the count. *)
  Fixpoint span_fields (fs : list (fhdr * ty)) (s : string -> bool) : bounds :=
    match fs with
    | [] => exactly 0
    | (h, t) :: fs' =>
        let tg := parse_field_tag (f_tag h) in
        if live h then
          let '(a, s') :=
            match by_method E t with
            | Some u => (own u, s)
            | None =>
                (flagged E (ft_option tg) (is_borsh E && ft_coption tg) (span t (s (f_name h))),
                 match ft_sizeof tg with EmptyString => s | n => fun x => String.eqb n x || s x end)
            end in
          let r := plus a (span_fields fs' s') in
          if ft_ext tg then maybe r else r
        else span_fields fs' s
    end.
  Fixpoint span_variants (fs : list (fhdr * ty)) : bounds :=
    match fs with
    | [] => exactly 0
    | (h, t) :: fs' =>
        let one := if f_exported h then span t false else span_sealed t in
        match fs' with [] => one | _ => either one (span_variants fs') end
    end.
End Fields.

(** [own u]: the bounds for the UnmarshalWithDecoder methods of the types whose
    underlying type is [u]; [sized]: the count is given by another field. *)
Fixpoint span (own : ty -> bounds) (E : encoding) (t : ty) (sized : bool) : bounds :=
  match t with
  | TBool => exactly 1
  | TUint _ w | TInt _ w => exactly (Z.of_nat (wbytes w))
  | TFloat f => exactly (Z.of_nat (fbytes f))
  | TString => from (text_size E)
  | TIface => exactly 0
  | TPtr t' => span own E t' sized
  | TArray n t' =>
      times (Z.of_nat n) (match uint_kind t' with Some w => exactly (Z.of_nat (wbytes w)) | None => span own E t' false end)
  | TSlice _ => if sized then from 0 else from (count_size E)
  | TMap _ _ => from (count_size E)
  | TStruct fs =>
      if enum_struct E fs then plus (exactly 1) (match fs with [] => exactly 0 | _ :: fs' => span_variants (span own E) fs' end)
      else span_fields own E (span own E) fs (fun _ => false)
  | TCodec c u => match c_unmarshal c with Some _ => own u | None => span own E u sized end
  | TNative _ | TOther | TDeep => exactly 0
  end.

(** The methods that a type brings in, each with the underlying type. *)
Fixpoint owners (t : ty) : list ((val -> DM val) * ty) :=
  match t with
  | TPtr t' | TArray _ t' | TSlice t' => owners t'
  | TMap k v => owners k ++ owners v
  | TStruct fs => gather (fun _ => owners) fs
  | TCodec c u => match c_unmarshal c with Some f => [(f, u)] | None => owners u end
  | _ => []
  end.
(** They keep to the bounds. *)
Definition keeps_to (own : ty -> bounds) (E : encoding) (f : val -> DM val) (u : ty) : Prop :=
  forall o old b rest v, good_cur E (Some o) -> fits u old -> bytes_ok (b ++ rest) ->
    own_in E o f old b rest v -> within (zlen b) (own u).
Definition kept (own : ty -> bounds) (E : encoding) (t : ty) : Prop :=
  (forall u, 0 <= fst (own u) /\ forall m, snd (own u) = Some m -> 0 <= m) /\
  Forall (fun '(f, u) => keeps_to own E f u) (owners t).

(** The methods of the library's types. *)
Definition lib_own (E : encoding) (u : ty) : bounds :=
  match u with
  | TBool => exactly 1
  | TString | TSlice _ => from (count_size E)
  | TInt _ W64 | TUint _ W64 | TFloat F64 => exactly 8
  | TInt _ _ | TUint _ _ => (1, Some 10)
  | TStruct (_ :: _) => exactly 16
  | _ => exactly 0
  end.
Definition lib_owners : list ((val -> DM val) * ty) := flat_map (fun e => owners (fst e)) library.
