(** Which values can be encoded, exactly; stated without the encoder. *)
From Verif Require Import Types Tags Builtin Spec AccSpec.

(** Bin's counts have to fit into the eight bytes set aside for them. *)
Definition countable (E : encoding) (n : Z) : Prop := E = Bin -> n < 2 ^ 56.

(** The [n]-th field has [P]. *)
Section Chosen.
  Variable P : fhdr -> ty -> val -> Prop.
  Fixpoint chosen (fs : list (fhdr * ty)) (vs : list val) (n : nat) : Prop :=
    match fs, vs, n with
    | (h, t) :: _, v :: _, O => P h t v
    | _ :: fs', _ :: vs', S n' => chosen fs' vs' n'
    | _, _, _ => False
    end.
End Chosen.

(** sizeof tags are on fields that hold integers. *)
Fixpoint counts_given (fs : list (fhdr * ty)) (vs : list val) : Prop :=
  match fs, vs with
  | (h, t) :: fs', v :: vs' =>
      let tg := parse_field_tag (f_tag h) in
      (ft_skip tg = false -> ft_sizeof tg <> EmptyString -> size_of t v <> None) /\ counts_given fs' vs'
  | _, _ => True
  end.

(** The value of an unexported variant of a Borsh enum. *)
Fixpoint veiled (t : ty) (v : val) {struct t} : Prop :=
  match t, v with
  | TFloat f, VFloat b => f_isnan f b = false
  | TCodec _ u, _ => veiled u v
  | TStruct fs, VStruct vs =>
      if enum_struct Borsh fs then
        match vs with
        | VNum z :: _ =>
            chosen (fun _ t' v' =>
              match t' with
              | TPtr t'' => match v' with VPtr (Some x) => veiled t'' x | _ => True end
              | _ => veiled t' v'
              end) fs vs (S (Z.to_nat z))
        | _ => False
        end
      else counts_given fs vs
  | TDeep, _ => False
  | _, _ => True
  end.

(** Where a value stands: in a field with flags and a count from a sizeof tag
    (or nowhere special), or as the variant of an enum. *)
Inductive site : Type := At (opt copt : bool) (sz : option Z) | InEnum.
Definition plainly : site := At false false None.

(** The method of the type that a pointer leads to. *)
Definition pointee_method (t : ty) : option codec :=
  match t with TCodec c _ => match c_marshal c with Some _ => Some c | None => None end | _ => None end.

Section Writable.
  Variable E : encoding.
  (** When MarshalWithEncoder returns without an error ([None]: on a nil
      pointer). *)
  Variable own : codec -> option val -> Prop.

  Section Fields.
    Variable W : ty -> site -> val -> Prop.
    Fixpoint fields_writable (fs : list (fhdr * ty)) (vs : list val) (s : sizes) : Prop :=
      match fs, vs with
      | (h, t) :: fs', v :: vs' =>
          let tg := parse_field_tag (f_tag h) in
          let here := fun s' => (f_exported h = true ->
                                   W t (At (ft_option tg) (ft_coption tg && is_borsh E) (s' (f_name h))) v) /\
                                fields_writable fs' vs' s' in
          if ft_skip tg then fields_writable fs' vs' s
          else
            match ft_sizeof tg, size_of t v with
            | EmptyString, _ => here s
            | n, Some z => here (fun y => if String.eqb n y then Some z else s y)
            | _, None => False
            end
      | _, _ => True
      end.
  End Fields.

  Fixpoint writable (t : ty) (p : site) (v : val) {struct t} : Prop :=
    let whole : Prop :=
      match t, v with
      | (TBool | TUint _ _ | TInt _ _ | TString), _ => True
      | TFloat f, VFloat b => E = Borsh -> f_isnan f b = false
      | TStruct fs, VStruct vs =>
          if enum_struct E fs then
            match vs with
            | VNum z :: _ =>
                chosen (fun h t' v' =>
                  match t' with
                  | TPtr t'' =>
                      match v' with
                      | VPtr (Some x) => if f_exported h then writable t'' InEnum x else veiled t'' x
                      | _ => True
                      end
                  | _ => if f_exported h then writable t' InEnum v' else veiled t' v'
                  end) fs vs (S (Z.to_nat z))
            | _ => False
            end
          else fields_writable writable fs vs no_sizes
      | TCodec c u, _ =>
          match p with
          | InEnum => writable u InEnum v
          | At _ _ sz =>
              match c_marshal c, c_byval c with
              | Some _, true => own c (Some v)
              | _, _ => writable u (At false false sz) v
              end
          end
      | TDeep, _ => False
      | _, _ =>
          match p with
          | InEnum => True
          | At _ _ sz =>
              match t, v with
              | TIface, _ => True
              | TPtr t', VPtr o =>
                  match pointee_method t', o with
                  | Some c, Some x => own c (Some x)
                  | Some c, None => E = Borsh \/ (c_byval c = false /\ own c None)
                  | None, Some x => writable t' (At false false (if is_borsh E then None else sz)) x
                  | None, None => E = Borsh -> writable t' plainly (zero_val t')
                  end
              | TArray _ t', VSeq l => uint_kind t' = None -> Forall (writable t' plainly) l
              | TSlice t', VSlice ol =>
                  let l := match ol with Some l => l | None => [] end in
                  match sz with
                  | None => countable E (zlen l) /\ (uint_kind t' = None -> Forall (writable t' plainly) l)
                  | Some n =>
                      n <= zlen l /\
                      match uint_kind t' with
                      | Some _ => 0 <= n
                      | None => Forall (writable t' plainly) (firstn (Z.to_nat n) l)
                      end
                  end
              | TMap kt vt, VMap om =>
                  let m := match om with Some m => m | None => [] end in
                  (E = Borsh -> (2 <= length m)%nat -> key_sortable false kt = true) /\ countable E (zlen m) /\
                  Forall (fun e => writable kt plainly (fst e) /\ key_eqb kt (fst e) (fst e) = true /\
                                   writable vt plainly (snd e)) m
              | _, _ => False
              end
          end
      end in
    match p with
    | InEnum => whole
    | At opt copt _ => if (opt || copt) && is_zero v then True else whole
    end.
End Writable.

(** Values as Go has them: the keys of a map differ, and lengths are below
    [lim] (2^63 for an int). *)
Section RealFields.
  Variable P : ty -> val -> Prop.
  Fixpoint each_field (fs : list (fhdr * ty)) (vs : list val) : Prop :=
    match fs, vs with
    | (_, t) :: fs', v :: vs' => P t v /\ each_field fs' vs'
    | _, _ => True
    end.
End RealFields.
Fixpoint real (lim : Z) (t : ty) (v : val) {struct t} : Prop :=
  match t, v with
  | TString, VStr s => zlen s < lim
  | TPtr t', VPtr (Some x) => real lim t' x
  | TArray _ t', VSeq l => Forall (real lim t') l
  | TSlice t', VSlice (Some l) => zlen l < lim /\ Forall (real lim t') l
  | TMap kt vt, VMap (Some m) =>
      zlen m < lim /\ distinct kt (map fst m) /\ Forall (fun e => real lim kt (fst e) /\ real lim vt (snd e)) m
  | TStruct fs, VStruct vs => each_field (real lim) fs vs
  | TCodec _ u, _ => real lim u v
  | _, _ => True
  end.

(** No maps of interfaces (C73 has these), no pointers in keys. *)
Fixpoint pointerless (t : ty) : bool :=
  match t with
  | TPtr _ => false
  | TArray _ t' | TCodec _ t' => pointerless t'
  | TStruct fs => forallb (fun ht => pointerless (snd ht)) fs
  | _ => true
  end.
Definition no_iface (t : ty) : bool := match t with TIface => false | _ => true end.
Fixpoint plain_maps (t : ty) : bool :=
  match t with
  | TPtr t' | TArray _ t' | TSlice t' | TCodec _ t' => plain_maps t'
  | TMap kt vt => no_iface kt && pointerless kt && no_iface vt && plain_maps kt && plain_maps vt
  | TStruct fs => forallb (fun ht => plain_maps (snd ht)) fs
  | _ => true
  end.
(** No cut of a recursive type. *)
Fixpoint uncut (t : ty) : bool :=
  match t with
  | TPtr t' | TArray _ t' | TSlice t' | TCodec _ t' => uncut t'
  | TMap kt vt => uncut kt && uncut vt
  | TStruct fs => forallb (fun ht => uncut (snd ht)) fs
  | TDeep => false
  | _ => true
  end.

(** * Types whose values never make the encoder panic *)

(** Keys that equal themselves, that is, without floats; a float as such will do
    in Borsh, where NaN is refused. *)
Fixpoint selfsame (t : ty) : bool :=
  match t with
  | TBool | TUint _ _ | TInt _ _ | TNative _ | TString => true
  | TArray _ t' | TCodec _ t' => selfsame t'
  | TStruct fs => forallb (fun ht => selfsame (snd ht)) fs
  | _ => false
  end.
Definition key_safe (E : encoding) (t : ty) : bool :=
  match E, t with
  | Borsh, TFloat _ => true
  | Borsh, _ => key_sortable false t && selfsame t
  | _, _ => selfsame t
  end.
(** Without sizeof; no pointers to types that have the method on the value, but
    in Borsh. *)
Fixpoint smooth (E : encoding) (t : ty) : bool :=
  match t with
  | TPtr t' =>
      (is_borsh E || match pointee_method t' with Some c => negb (c_byval c) | None => true end) && smooth E t'
  | TArray _ t' | TSlice t' | TCodec _ t' => smooth E t'
  | TMap kt vt => key_safe E kt && smooth E kt && smooth E vt
  | TStruct fs =>
      forallb (fun ht =>
        match ft_sizeof (parse_field_tag (f_tag (fst ht))) with EmptyString => true | _ => false end && smooth E (snd ht)) fs
  | _ => true
  end.

(** Types all values of which can be encoded: besides, no floats in Borsh, no
    int, uint, complex numbers, functions and the like, and no enums. *)
Fixpoint always (E : encoding) (t : ty) : bool :=
  match t with
  | TNative _ | TOther | TDeep => false
  | TFloat _ => negb (is_borsh E)
  | TPtr t' | TArray _ t' | TSlice t' | TCodec _ t' => always E t'
  | TMap kt vt => always E kt && always E vt
  | TStruct fs => negb (enum_struct E fs) && forallb (fun ht => always E (snd ht)) fs
  | _ => true
  end.

(** * The methods of the library's types *)

(** When they succeed. *)
Definition library_conditions (E : encoding) : list (ty * (val -> Prop)) :=
  let any := fun _ : val => True in
  [ (SafeString, fun v => match v with VStr s => countable E (zlen s) | _ => False end);
    (Bool_, any);
    (HexBytes, fun v => match v with VSlice (Some l) => countable E (zlen l) | _ => True end);
    (Varint16, any); (Varuint16, any); (Varuint32, any); (Varint32, any);
    (JSONFloat64, fun v => match v with VFloat b => E = Borsh -> f_isnan F64 b = false | _ => False end);
    (Int64, any); (Uint64, any); (Uint128, any); (Int128, any); (Float128, any); (EmptyVariant, any) ].
