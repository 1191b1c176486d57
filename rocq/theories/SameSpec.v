(** Changes of types and values that do not change the bytes: equations, with
    reflexivity, symmetry and transitivity.  Specification; facts in
    SameFacts.v. *)
From Coq Require Import String.
From Verif Require Import Types Spec.
Notation length := Datatypes.length.

(** Fields without sizeof. *)
Definition sizeless (fs : list (fhdr * ty)) : Prop :=
  Forall (fun ht => ft_sizeof (parse_field_tag (f_tag (fst ht))) = EmptyString) fs.

Section Same.
  Variable E : encoding.

  (** A struct that is no Borsh enum and has no sizeof fields. *)
  Definition simple (fs : list (fhdr * ty)) : Prop := enum_struct E fs = false /\ sizeless fs.
  (** A field that is written, with order [o], and has no flag in front. *)
  Definition bare (h : fhdr) (o : order) : Prop :=
    let tg := parse_field_tag (f_tag h) in live h = true /\ flagged_field E tg = false /\ ft_order tg = o.
  (** Fields that are written in the same way. *)
  Definition as_field (h h' : fhdr) : Prop :=
    let tg := parse_field_tag (f_tag h) in let tg' := parse_field_tag (f_tag h') in
    live h = live h' /\ ft_option tg = ft_option tg' /\
    ft_coption tg = ft_coption tg' /\ ft_order tg = ft_order tg'.
  (** What encodes as the flag of an optional field. *)
  Definition flag_type : ty := match E with Bin => TUint UPlain W32 | _ => TBool end.
  Definition flag_value (b : bool) : val := match E with Bin => VNum (if b then 1 else 0) | _ => VBool b end.
  (** What is written of the variant of a Borsh enum. *)
  Definition payload (t : ty) (v : val) : ty * val :=
    match t, v with
    | TPtr (TCodec _ u), VPtr (Some x) => (u, x)
    | TCodec _ u, _ => (u, v)
    | _, _ => (t, v)
    end.

  (** [same o t v t' v']: the value [v] of type [t] and the value [v'] of type
      [t'] are written alike, in a field of byte order [o]. *)
  Inductive same : order -> ty -> val -> ty -> val -> Prop :=
  | same_refl o t v : same o t v t v
  | same_sym o t v t' v' : same o t v t' v' -> same o t' v' t v
  | same_trans o t v t' v' t'' v'' : same o t v t' v' -> same o t' v' t'' v'' -> same o t v t'' v''
  (* scalars *)
  | same_number o n w z nm z' : z mod 2 ^ wbits w = z' mod 2 ^ wbits w ->
      same o (TUint n w) (VNum z) (TInt nm w) (VNum z')
  | same_bool o n b : same o TBool (VBool b) (TUint n W8) (VNum (if b then 1 else 0))
  | same_float64 o n b : same o (TFloat F64) (VFloat b) (TUint n W64) (VNum b)
  | same_float32 o n b : same o (TFloat F32) (VFloat b) (TUint n W32) (VNum (quiet F32 b))
  | same_text o n s : E <> Bin -> bytes_ok s ->
      same o TString (VStr s) (TSlice (TUint n W8)) (VSlice (Some (map VNum s)))
  (* defined types and pointers *)
  | same_defined o c u v : val_marshal c = None -> same o (TCodec c u) v u v
  | same_ptr o t x : ptr_marshal t = None -> (E = Borsh -> o = LE) -> same o (TPtr t) (VPtr (Some x)) t x
  | same_ptr_method o c u x : c_byval c = true -> c_marshal c <> None ->
      same o (TPtr (TCodec c u)) (VPtr (Some x)) (TCodec c u) x
  | same_ptr_zero o t : E = Borsh -> ptr_marshal t = None -> same o (TPtr t) (VPtr None) (TPtr t) (VPtr (Some (zero_val t)))
  (* arrays, slices and maps *)
  | same_array o n n' t t' l l' : uint_kind t = None -> uint_kind t' = None ->
      Forall2 (fun x x' => same LE t x t' x') l l' -> same o (TArray n t) (VSeq l) (TArray n' t') (VSeq l')
  | same_uint_array o n t t' l : uint_kind t <> None -> uint_kind t = uint_kind t' -> Forall (fun x => exists z, x = VNum z) l ->
      same o (TArray n t) (VSeq l) (TArray n t') (VSeq l)
  | same_slice o t t' l l' : uint_kind t = None -> uint_kind t' = None ->
      Forall2 (fun x x' => same LE t x t' x') l l' -> same o (TSlice t) (VSlice (Some l)) (TSlice t') (VSlice (Some l'))
  | same_uint_slice o t t' l : uint_kind t <> None -> uint_kind t = uint_kind t' -> Forall (fun x => exists z, x = VNum z) l ->
      same o (TSlice t) (VSlice (Some l)) (TSlice t') (VSlice (Some l))
  | same_nil_slice o t : same o (TSlice t) (VSlice None) (TSlice t) (VSlice (Some []))
  | same_nil_map o kt vt : same o (TMap kt vt) (VMap None) (TMap kt vt) (VMap (Some []))
  | same_map o kt vt m h1 h2 : bare h1 LE -> bare h2 LE -> simple [(h1, kt); (h2, vt)] ->
      same o (TMap kt vt) (VMap (Some m))
        (TSlice (TStruct [(h1, kt); (h2, vt)]))
        (VSlice (Some (map (fun e => VStruct [fst e; snd e]) (entries E kt m))))
  (* structs *)
  | same_field o h t v h' t' v' fs vs : as_field h h' -> simple ((h, t) :: fs) -> simple ((h', t') :: fs) ->
      same (ft_order (parse_field_tag (f_tag h))) t v t' v' ->
      (flagged_field E (parse_field_tag (f_tag h)) = true -> is_zero v = is_zero v') ->
      same o (TStruct ((h, t) :: fs)) (VStruct (v :: vs)) (TStruct ((h', t') :: fs)) (VStruct (v' :: vs))
  | same_fields o h t v fs vs fs' vs' : simple ((h, t) :: fs) -> simple ((h, t) :: fs') -> simple fs -> simple fs' ->
      same o (TStruct fs) (VStruct vs) (TStruct fs') (VStruct vs') ->
      same o (TStruct ((h, t) :: fs)) (VStruct (v :: vs)) (TStruct ((h, t) :: fs')) (VStruct (v :: vs'))
  | same_dead o h t v fs vs : live h = false -> simple ((h, t) :: fs) -> simple fs ->
      same o (TStruct ((h, t) :: fs)) (VStruct (v :: vs)) (TStruct fs) (VStruct vs)
  | same_nested o o' h gs ws fs vs : bare h o' -> simple ((h, TStruct gs) :: fs) -> simple gs -> simple (gs ++ fs) ->
      length ws = length gs ->
      same o (TStruct ((h, TStruct gs) :: fs)) (VStruct (VStruct ws :: vs)) (TStruct (gs ++ fs)) (VStruct (ws ++ vs))
  | same_only o h t v : bare h o -> simple [(h, t)] -> same o (TStruct [(h, t)]) (VStruct [v]) t v
  | same_tuple o n h h' t x l : uint_kind t = None -> bare h LE -> bare h' LE -> simple [(h, t); (h', TArray n t)] ->
      same o (TArray (S n) t) (VSeq (x :: l)) (TStruct [(h, t); (h', TArray n t)]) (VStruct [x; VSeq l])
  | same_empty o t : same o (TArray 0 t) (VSeq []) (TStruct []) (VStruct [])
  (* optional fields *)
  | same_some o o' h t v fs vs h1 h2 :
      let tg := parse_field_tag (f_tag h) in
      live h = true -> ft_option tg = true -> is_borsh E && ft_coption tg = false -> ft_order tg = o' -> is_zero v = false ->
      bare h1 LE -> bare h2 o' -> simple ((h, t) :: fs) -> simple ((h1, flag_type) :: (h2, t) :: fs) ->
      same o (TStruct ((h, t) :: fs)) (VStruct (v :: vs))
        (TStruct ((h1, flag_type) :: (h2, t) :: fs)) (VStruct (flag_value true :: v :: vs))
  | same_none o h t v fs vs h1 :
      let tg := parse_field_tag (f_tag h) in
      live h = true -> ft_option tg = true -> is_zero v = true ->
      bare h1 LE -> simple ((h, t) :: fs) -> simple ((h1, flag_type) :: fs) ->
      same o (TStruct ((h, t) :: fs)) (VStruct (v :: vs)) (TStruct ((h1, flag_type) :: fs)) (VStruct (flag_value false :: vs))
  (* Borsh enums *)
  | same_variant o f fs z vs g t v h1 h2 : E = Borsh -> enum_struct E (f :: fs) = true -> 0 <= z < 256 ->
      nth_error fs (Z.to_nat z) = Some (g, t) -> nth_error vs (Z.to_nat z) = Some v ->
      bare h1 LE -> bare h2 LE -> sizeless [(h1, TUint UPlain W8); (h2, t)] ->
      same o (TStruct (f :: fs)) (VStruct (VNum z :: vs))
        (TStruct [(h1, TUint UPlain W8); (h2, fst (payload t v))]) (VStruct [VNum z; snd (payload t v)]).
End Same.
