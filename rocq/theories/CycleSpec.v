(** Values that contain themselves (C88).

    A Go value may contain itself: n.Next = n.  Values of [val] are finite; a
    value that contains itself is given by its unrollings, like a recursive type
    (RecSpec.v): if the value is [G x] where [x] stands for the value again, its
    unrollings are [G (G (... x0))]. *)
From Coq Require Import String.
From Verif Require Import Types Enc Spec WriteSpec RecSpec.
Notation length := Datatypes.length.

(** No field of [fs] counts the field [name]. *)
Definition uncounted (fs : list (fhdr * ty)) (name : string) : Prop :=
  forall h t, In (h, t) fs -> ft_sizeof (parse_field_tag (f_tag h)) <> name.

(** Encoding [v] goes on to encode [v']. *)
Inductive leads (E : encoding) : ty -> val -> ty -> val -> Prop :=
| l_ptr t x : (forall c u, t = TCodec c u -> c_marshal c = None) -> leads E (TPtr t) (VPtr (Some x)) t x
| l_codec c u v : c_marshal c = None \/ c_byval c = false -> leads E (TCodec c u) v u v
| l_array n t l x : uint_kind t = None -> In x l -> leads E (TArray n t) (VSeq l) t x
| l_slice t l x : uint_kind t = None -> In x l -> leads E (TSlice t) (VSlice (Some l)) t x
| l_entry kt vt m k x : distinct kt (map fst m) -> In (k, x) m -> leads E (TMap kt vt) (VMap (Some m)) vt x
| l_field fs vs i h t x : (E = Borsh -> is_enum fs = false) ->
    nth_error fs i = Some (h, t) -> nth_error vs i = Some x ->
    f_exported h = true -> ft_skip (parse_field_tag (f_tag h)) = false -> uncounted fs (f_name h) ->
    (ft_option (parse_field_tag (f_tag h)) = true \/ ft_coption (parse_field_tag (f_tag h)) = true -> is_zero x = false) ->
    leads E (TStruct fs) (VStruct vs) t x
| l_variant fs z vs h t x : E = Borsh -> is_enum fs = true ->
    nth_error fs (S (Z.to_nat (z mod 256))) = Some (h, TPtr t) -> nth_error vs (Z.to_nat (z mod 256)) = Some (VPtr (Some x)) ->
    f_exported h = true -> match t with TStruct _ | TDeep => True | _ => False end ->
    leads E (TStruct fs) (VStruct (VNum z :: vs)) t x.

(** In any number of steps. *)
Inductive reaches (E : encoding) : ty -> val -> ty -> val -> Prop :=
| r_here t v : reaches E t v t v
| r_on t v t1 v1 t2 v2 : leads E t v t1 v1 -> reaches E t1 v1 t2 v2 -> reaches E t v t2 v2.

(** Whatever [x] is, encoding [G x], of the recursive type [F], comes to [x].
    ([r] stands for the type itself.) *)
Definition contains_itself (E : encoding) (F : ty) (G : val -> val) : Prop :=
  forall r x, r = TDeep \/ (exists q, r = plug F q) -> reaches E (plug F r) (G x) r x.
Fixpoint again (G : val -> val) (n : nat) (x : val) : val :=
  match n with O => x | S n' => G (again G n' x) end.
