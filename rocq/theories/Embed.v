(** Structs with embedded fields: which methods the struct has.  The Go language
    (Selectors, Struct types) gives a struct the methods of its embedded fields;
    the type switches on BinaryMarshaler and BinaryUnmarshaler
    (/repo/encoder_bin.go:60, /repo/encoder_compact-u16.go:59,
    /repo/encoder_borsh.go:114, /repo/decoder.go:747, /repo/decoder_borsh.go:411)
    see these as well.  Simplification: fields that are themselves called
    MarshalWithEncoder or UnmarshalWithDecoder, and embedded interfaces, are left
    out. *)
From Verif Require Import Types EncPrim DecPrim Enc Dec Builtin.

(** A type's own methods: as in [codec], and what UnmarshalWithDecoder does on a
    nil pointer (which does not come up elsewhere). *)
Definition meth : Type := (codec * DM unit)%type.
(** How a struct has a field: under a name, embedded (T), or embedded as a pointer
    ( *T ). *)
Inductive mode := Named | Embedded | Pointed.

(** Types as they are declared.
    - [DOwn c t]: a defined type with methods [c] of its own, underlying type [t];
    - [DPlain t]: a type without methods;
    - [DStruct fs]: a struct (defined or not) without methods of its own.  The
      fields: how, header, type (with [Pointed]: what is pointed to). *)
Inductive decl : Type :=
| DOwn (c : meth) (t : ty)
| DPlain (t : ty)
| DStruct (fs : list (mode * fhdr * decl)).

(** A way from a struct down to a field of a field ...: the indices, and whether
    the field is a pointer. *)
Definition way : Type := list (nat * bool).

(** The methods at depth [n] below a type, each with the way to the field: as many
    embedded fields as [n].  [has]: MarshalWithEncoder or UnmarshalWithDecoder. *)
Definition has_marshal (m : meth) : bool := match c_marshal (fst m) with Some _ => true | None => false end.
Definition has_unmarshal (m : meth) : bool := match c_unmarshal (fst m) with Some _ => true | None => false end.
Section Lookup.
  Variable has : meth -> bool.
  Section Fields.
    Variable f : decl -> list (way * meth).
    Definition step (i : nat) (ptr : bool) (d : decl) : list (way * meth) := map (fun pc => ((i, ptr) :: fst pc, snd pc)) (f d).
    Fixpoint below (i : nat) (fs : list (mode * fhdr * decl)) : list (way * meth) :=
      match fs with
      | [] => []
      | (emb, _, d) :: fs' => match emb with Named => [] | Embedded => step i false d | Pointed => step i true d end ++ below (S i) fs'
      end.
  End Fields.
  Fixpoint at_depth (n : nat) (d : decl) : list (way * meth) :=
    match n, d with
    | O, DOwn c _ => if has c then [([], c)] else []
    | S n', DStruct fs => below (at_depth n') 0 fs
    | _, _ => []
    end.
  (** The shallowest depth counts; if there are several methods there, the struct
      has none. *)
  Fixpoint selected (k n : nat) (d : decl) : option (way * meth) :=
    match k with
    | O => None
    | S k' =>
        match at_depth n d with
        | [] => selected k' (S n) d
        | [x] => Some x
        | _ => None
        end
    end.
End Lookup.

(** How deep it makes sense to look. *)
Fixpoint height (d : decl) : nat :=
  match d with
  | DOwn _ _ | DPlain _ => 1
  | DStruct fs => S (fold_right (fun f m => Nat.max (height (snd f)) m) 0%nat fs)
  end.
Definition promoted (has : meth -> bool) (d : decl) : option (way * meth) := selected has (height d) 0 d.

(** v.f.g. ...: the field, or a nil pointer at the end, or one on the way (Go
    panics there). *)
Inductive found := At (x : val) | Nil | Lost | Bad.
Fixpoint find (p : way) (v : val) : found :=
  match p with
  | [] => At v
  | (i, ptr) :: p' =>
      match v with
      | VStruct vs =>
          match nth_error vs i with
          | Some y =>
              if ptr : bool then
                match y with
                | VPtr (Some x) => find p' x
                | VPtr None => match p' with [] => Nil | _ => Lost end
                | _ => Bad
                end
              else find p' y
          | None => Bad
          end
      | _ => Bad
      end
  end.
(** The assignment to it. *)
Fixpoint replace_nth (vs : list val) (i : nat) (x : val) : list val :=
  match vs, i with
  | [], _ => []
  | _ :: r, O => x :: r
  | v :: r, S i' => v :: replace_nth r i' x
  end.
Fixpoint put (p : way) (v x : val) : val :=
  match p with
  | [] => x
  | (i, ptr) :: p' =>
      match v with
      | VStruct vs =>
          match nth_error vs i with
          | Some y =>
              VStruct (replace_nth vs i
                (if ptr : bool then match y with VPtr (Some z) => VPtr (Some (put p' z x)) | _ => y end else put p' y x))
          | None => v
          end
      | _ => v
      end
  end.

(** The methods as the struct has them: called on the field.  A nil pointer to the
    struct panics on the way to the field.  At a nil pointer that is the field, a
    method on the pointer runs, one on the value panics.  Below a pointer, methods
    on the pointer belong to the values of the struct as well. *)
Definition lift_marshal (pc : way * meth) : option (val -> EM unit) :=
  let c := fst (snd pc) in
  match c_marshal c with
  | Some f =>
      Some (fun v =>
        match find (fst pc) v with
        | At x => f x
        | Nil => if c_byval c then panic else c_marshal_nil c
        | Lost => panic
        | Bad => stuck
        end)
  | None => None
  end.
Definition lift_unmarshal (pc : way * meth) : option (val -> DM val) :=
  match c_unmarshal (fst (snd pc)) with
  | Some f =>
      Some (fun v =>
        match find (fst pc) v with
        | At x => fmap (put (fst pc) v) (f x)
        | Nil => snd (snd pc) ;;; ret v
        | Lost => panic
        | Bad => stuck
        end)
  | None => None
  end.
Definition lift_byval (pc : way * meth) : bool := c_byval (fst (snd pc)) || existsb snd (fst pc).
Definition lifted (m u : option (way * meth)) : option codec :=
  match m, u with
  | None, None => None
  | _, _ =>
      Some (mkCodec (match m with Some pc => lift_marshal pc | None => None end)
                    (match m with Some pc => lift_byval pc | None => false end)
                    panic
                    (match u with Some pc => lift_unmarshal pc | None => None end))
  end.

(** The type as the reflection code sees it. *)
Definition field_ty (m : mode) (t : ty) : ty := match m with Pointed => TPtr t | _ => t end.
Fixpoint elab (d : decl) : ty :=
  match d with
  | DOwn c t => TCodec (fst c) t
  | DPlain t => t
  | DStruct fs =>
      let u := TStruct (map (fun f => (snd (fst f), field_ty (fst (fst f)) (elab (snd f)))) fs) in
      match lifted (promoted has_marshal d) (promoted has_unmarshal d) with
      | Some c => TCodec c u
      | None => u
      end
  end.
Definition fields_of (fs : list (mode * fhdr * decl)) : ty :=
  TStruct (map (fun f => (snd (fst f), field_ty (fst (fst f)) (elab (snd f)))) fs).

(** The library's own types (/repo/types.go, /repo/u128.go) read and then store
    through the pointer; EmptyVariant (/repo/encoder_borsh.go:281-287) does not
    touch it. *)
Definition lib_decl (t : ty) : decl :=
  match t with
  | TCodec c u => DOwn (c, match c_unmarshal c with Some f => f (zero_val u) ;;; panic | None => panic end) u
  | _ => DPlain t
  end.
Definition empty_decl : decl := match EmptyVariant with TCodec c u => DOwn (c, ret tt) u | t => DPlain t end.
