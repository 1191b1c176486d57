(** Recursive Go types.

    A Go type that mentions itself, such as

      type Node struct { V uint8; Next *Node `bin:"optional"` }

    is modelled by its unrollings: the type expression with [TDeep] where the
    type mentions itself, substituted into itself any number of times.  An
    unrolling says [Deep] when a call gets to the point where it was cut.  This
    file says when one type is a deeper unrolling of another, which recursive
    types make the decoders terminate, and how deep a value is. *)
From Verif Require Import Types DecPrim Enc Dec Spec DecLocal.
Notation length := Datatypes.length.

(** * Unrolling *)

(** Replace each [TDeep] in [t] by [r]. *)
Fixpoint plug (t r : ty) : ty :=
  match t with
  | TDeep => r
  | TPtr t' => TPtr (plug t' r)
  | TArray n t' => TArray n (plug t' r)
  | TSlice t' => TSlice (plug t' r)
  | TMap k v => TMap (plug k r) (plug v r)
  | TStruct fs => TStruct (map (fun ht => (fst ht, plug (snd ht) r)) fs)
  | TCodec c u => TCodec c (plug u r)
  | _ => t
  end.

(** The type [F], which mentions itself at [TDeep], unrolled [n] times. *)
Fixpoint unroll (F : ty) (n : nat) : ty :=
  match n with
  | O => TDeep
  | S n' => plug F (unroll F n')
  end.

(** What a recursive type looks like from outside: a named Go type refers to
    itself as a struct, a slice or a map.  (A type with its own methods is a
    [TCodec], whose methods are not unrolled.) *)
Definition heavy (t : ty) : Prop :=
  match t with TStruct _ | TSlice _ | TMap _ _ => True | _ => False end.

(** No [TDeep] in [t]. *)
Fixpoint whole (t : ty) : Prop :=
  match t with
  | TDeep => False
  | TPtr t' | TArray _ t' | TSlice t' | TCodec _ t' => whole t'
  | TMap k v => whole k /\ whole v
  | TStruct fs =>
      (fix go fs := match fs with [] => True | ht :: fs' => whole (snd ht) /\ go fs' end) fs
  | _ => True
  end.

(** The type mentions itself behind pointers, slices and map values only (Go
    rejects other recursive types: they would have no size).  [g]: such a
    place was passed. *)
Fixpoint guarded (g : bool) (t : ty) : Prop :=
  match t with
  | TDeep => g = true
  | TPtr t' | TSlice t' => guarded true t'
  | TMap k v => whole k /\ guarded true v
  | TArray _ t' | TCodec _ t' => guarded false t'
  | TStruct fs =>
      (fix go fs := match fs with [] => True | ht :: fs' => guarded false (snd ht) /\ go fs' end) fs
  | _ => True
  end.

(** [deeper g t t']: [t'] is [t] with some of the cuts made later. *)
Fixpoint deeper (g : bool) (t t' : ty) {struct t} : Prop :=
  match t, t' with
  | TDeep, TDeep => True
  | TDeep, _ => g = true /\ heavy t'
  | TPtr a, TPtr b | TSlice a, TSlice b => deeper true a b
  | TArray n a, TArray n' b => n = n' /\ deeper false a b
  | TMap k a, TMap k' b => k = k' /\ deeper true a b
  | TStruct fs, TStruct fs' =>
      (fix go fs fs' :=
         match fs, fs' with
         | [], [] => True
         | (h, a) :: r, (h', b) :: r' => (h = h' /\ deeper false a b) /\ go r r'
         | _, _ => False
         end) fs fs'
  | TCodec c a, TCodec c' b => c = c' /\ deeper false a b
  | _, _ => t = t'
  end.

(** * Recursive types that can be decoded *)

Section Paid.
  Variable E : encoding.
  (** Whenever the decoder gets to a place where the type mentions itself, it
      has read a byte since it started with this type.  [e]: a byte has been
      read; [sz]: the length of a slice here may come from a `sizeof` field
      and not from the input (a mention of the type must not have one). *)
  Fixpoint paid (e sz : Prop) (t : ty) : Prop :=
    match t with
    | TDeep => e /\ ~ sz
    | TPtr t' => paid e sz t'
    | TArray _ t' => paid e False t'
    | TSlice t' => paid (e \/ ~ sz) False t'
    | TMap k v => paid True False k /\ paid True False v
    | TCodec c u =>
        match c_unmarshal c with
        | Some f => forall v s, fst (f v s) <> Deep
        | None => paid e sz u
        end
    | TStruct fs =>
        if enum_struct E fs then
          (fix go l := match l with [] => True | ht :: l' => paid True False (snd ht) /\ go l' end) fs
        else
          (fix go (e : Prop) l :=
             match l with
             | [] => True
             | (h, t') :: l' =>
                 let tg := parse_field_tag (f_tag h) in
                 paid (e \/ flagged_field E tg = true)
                   (Exists (fun ht => ft_sizeof (parse_field_tag (f_tag (fst ht))) = f_name h) fs) t' /\
                 go (e \/ solid_field E fs h t' (solid E t')) l'
             end) e fs
    | _ => True
    end.
End Paid.

(** * Values *)

(** Nesting depth of a value. *)
Fixpoint depth (v : val) : nat :=
  match v with
  | VPtr (Some x) => S (depth x)
  | VSeq l | VSlice (Some l) | VStruct l => S (fold_right (fun x n => Nat.max (depth x) n) 0%nat l)
  | VMap (Some m) =>
      S (fold_right (fun e n => Nat.max (Nat.max (depth (fst e)) (depth (snd e))) n) 0%nat m)
  | _ => 1%nat
  end.

(** Borsh writes the zero value of [T] for a nil *T that has no flag.  The type
    mentions itself behind flagged pointers, slices, map values and enum
    payloads only. *)
Fixpoint sheltered (t : ty) : Prop :=
  match t with
  | TPtr t' => whole t'
  | TArray _ t' | TSlice t' | TCodec _ t' => sheltered t'
  | TMap k v => sheltered k /\ sheltered v
  | TStruct fs =>
      (fix go l :=
         match l with
         | [] => True
         | (h, t) :: l' =>
             match t with
             | TPtr t' =>
                 if is_enum fs || flagged_field Borsh (parse_field_tag (f_tag h))
                 then sheltered t' else whole t'
             | _ => sheltered t
             end /\ go l'
         end) fs
  | _ => True
  end.

(** The methods of the codecs in a type do not run into a cut of their own. *)
Definition codec_ends (c : codec) (_ : ty) : Prop :=
  (forall f v s, c_marshal c = Some f -> fst (f v s) <> Deep) /\
  (forall s, fst (c_marshal_nil c s) <> Deep).
