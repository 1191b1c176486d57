(** What Encode writes when maps hold interfaces: their entries are written as
    the values inside.  Specification; facts in DynFacts.v. *)
From Verif Require Import Types EncPrim Enc Spec GoEnc GoEncFacts.
Notation length := Datatypes.length.

Section Sends.
  Variable dyn : dynamic.
  Variable E : encoding.

  (** [sends t sz o v bs]: the value [v] of type [t], of given length [sz] (if
      it is a slice) and given order [o], is written as [bs].
      [boxed_as]: the same for the key or value of a map entry. *)
  Inductive sends : ty -> option Z -> order -> val -> list Z -> Prop :=
  | sends_plain t sz o v : go_type t -> fits t v -> ok E t sz o v -> sends t sz o v (wire E t sz o v)
  | sends_ptr t sz o x bs : ptr_marshal t = None ->
      sends t (if is_borsh E then None else sz) (if is_borsh E then LE else o) x bs ->
      sends (TPtr t) sz o (VPtr (Some x)) bs
  | sends_array t sz o l bs : uint_kind t = None -> sends_all t l bs ->
      sends (TArray (length l) t) sz o (VSeq l) bs
  | sends_slice t sz o l bs : uint_kind t = None ->
      match sz with Some n => n = zlen l | None => zlen l <= count_max E end ->
      sends_all t l bs ->
      sends (TSlice t) sz o (VSlice (Some l)) (match sz with Some _ => [] | None => count E (zlen l) end ++ bs)
  | sends_map kt vt sz o m bs : zlen m <= count_max E ->
      Forall (fun e => key_eqb kt (fst e) (fst e) = true) m -> distinct kt (map fst m) ->
      (E = Borsh -> (2 <= length m)%nat -> key_sortable false kt = true) ->
      sends_entries kt vt (entries E kt m) bs ->
      sends (TMap kt vt) sz o (VMap (Some m)) (count E (zlen m) ++ bs)
  | sends_struct fs vs sz o bs : enum_struct E fs = false -> sends_fields fs vs no_sizes bs ->
      sends (TStruct fs) sz o (VStruct vs) bs
  with sends_all : ty -> list val -> list Z -> Prop :=
  | all_nil t : sends_all t [] []
  | all_cons t x l b1 b2 : sends t None LE x b1 -> sends_all t l b2 -> sends_all t (x :: l) (b1 ++ b2)
  with sends_entries : ty -> ty -> list (val * val) -> list Z -> Prop :=
  | entries_nil kt vt : sends_entries kt vt [] []
  | entries_cons kt vt k v m b1 b2 b3 : boxed_as kt k b1 -> boxed_as vt v b2 -> sends_entries kt vt m b3 ->
      sends_entries kt vt ((k, v) :: m) ((b1 ++ b2) ++ b3)
  with boxed_as : ty -> val -> list Z -> Prop :=
  | boxed_nil : boxed_as TIface (VIface None) []
  | boxed_value z t v bs : dyn z = Some (t, v) -> sends t None LE v bs -> boxed_as TIface (VIface (Some z)) bs
  | boxed_plain t v bs : t <> TIface -> sends t None LE v bs -> boxed_as t v bs
  with sends_fields : list (fhdr * ty) -> list val -> sizes -> list Z -> Prop :=
  | fields_nil s : sends_fields [] [] s []
  | fields_dead h t fs v vs s bs : live h = false ->
      ft_skip (parse_field_tag (f_tag h)) = true \/ ft_sizeof (parse_field_tag (f_tag h)) = EmptyString ->
      sends_fields fs vs s bs -> sends_fields ((h, t) :: fs) (v :: vs) s bs
  | fields_live h t fs v vs s b1 b2 : live h = true ->
      let tg := parse_field_tag (f_tag h) in
      ft_sizeof tg = EmptyString \/
        (int_like t = true /\ fits t v /\ ft_sizeof tg <> f_name h /\ exists z, v = VNum z /\ - 2 ^ 63 <= z < 2 ^ 63) ->
      sends t (s (f_name h)) (ft_order tg) v b1 ->
      sends_fields fs vs (bind_size tg v s) b2 ->
      sends_fields ((h, t) :: fs) (v :: vs) s (with_flags E tg v b1 ++ b2)
  | fields_absent h t fs v vs s b2 : live h = true ->
      let tg := parse_field_tag (f_tag h) in
      ft_sizeof tg = EmptyString -> flagged_field E tg && is_zero v = true ->
      sends_fields fs vs s b2 ->
      sends_fields ((h, t) :: fs) (v :: vs) s (with_flags E tg v [] ++ b2).
End Sends.

Scheme sends_ind2 := Minimality for sends Sort Prop
  with sends_all_ind2 := Minimality for sends_all Sort Prop
  with sends_entries_ind2 := Minimality for sends_entries Sort Prop
  with boxed_as_ind2 := Minimality for boxed_as Sort Prop
  with sends_fields_ind2 := Minimality for sends_fields Sort Prop.
Combined Scheme sends_mutind from sends_ind2, sends_all_ind2, sends_entries_ind2, boxed_as_ind2, sends_fields_ind2.
