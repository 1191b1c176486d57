(** Specification for C67: structs that have interfaces holding pointers among
    their fields, or among the fields of structs in them or pointed to by them. *)
From Verif Require Import Types DecPrim Enc Dec Spec Dest GoEnc GoEncFacts GoDec GoDecFacts.
Notation length := Datatypes.length.

(** A field and what is in it: [Plain], a field of a type without interfaces (or
    with interfaces that hold no pointers) containing [v]; [Held], an interface
    known as [z] that holds a pointer to the variable [k], which is a [t]
    containing [w]; [Alone], an interface that holds no pointer; [Inner], a
    struct with the fields [is]; [Far], an interface known as [z] that holds a
    pointer to the variable [k], a struct with the fields [is]; [Near], a pointer
    to a struct with the fields [is]. *)
Inductive item : Type :=
| Plain (h : fhdr) (t : ty) (v : val)
| Held (h : fhdr) (z : Z) (t : ty) (k : nat) (w : val)
| Alone (h : fhdr) (i : option Z)
| Inner (h : fhdr) (is : list item)
| Far (h : fhdr) (z : Z) (k : nat) (is : list item)
| Near (h : fhdr) (is : list item).

(** The field as declared; with a pointer instead of the interface. *)
Fixpoint decl (i : item) : fhdr * ty :=
  match i with
  | Plain h t _ => (h, t)
  | Held h _ _ _ _ | Alone h _ | Far h _ _ _ => (h, TIface)
  | Inner h is => (h, TStruct (map decl is))
  | Near h is => (h, TPtr (TStruct (map decl is)))
  end.
Fixpoint like (i : item) : fhdr * ty :=
  match i with
  | Plain h t _ => (h, t)
  | Held h _ t _ _ => (h, TPtr t)
  | Alone h _ => (h, TIface)
  | Inner h is => (h, TStruct (map like is))
  | Far h _ _ is | Near h is => (h, TPtr (TStruct (map like is)))
  end.
(** Its contents, with a pointer instead of the interface. *)
Fixpoint start (i : item) : val :=
  match i with
  | Plain _ _ v => v
  | Held _ _ _ _ w => VPtr (Some w)
  | Alone _ z => VIface z
  | Inner _ is => VStruct (map start is)
  | Far _ _ _ is | Near _ is => VPtr (Some (VStruct (map start is)))
  end.
(** The variables pointed to. *)
Fixpoint target (i : item) : list nat :=
  match i with Held _ _ _ k _ => [k] | Inner _ is | Near _ is => flat_map target is | Far _ _ k is => k :: flat_map target is | _ => [] end.
Definition targets (is : list item) : list nat := flat_map target is.

Section Fields.
  Variable f : item -> val -> val.
  Fixpoint over (is : list item) (xs : list val) : list val :=
    match is, xs with i :: is', x :: xs' => f i x :: over is' xs' | _, _ => [] end.
  Variable P : item -> val -> Prop.
  Fixpoint overall (is : list item) (xs : list val) : Prop :=
    match is, xs with
    | [], [] => True
    | i :: is', x :: xs' => P i x /\ overall is' xs'
    | _, _ => False
    end.
  Variable Q : item -> Prop.
  Fixpoint every (is : list item) : Prop := match is with [] => True | i :: is' => Q i /\ every is' end.
End Fields.

(** [x], contents of a field of type [like i]: what is in the field of type
    [decl i], and in the variable it points to.  If the field is optional and
    absent, the pointer becomes nil, and so does the interface. *)
Fixpoint shown (i : item) (x : val) : val :=
  match i with
  | Held _ z _ _ _ | Far _ z _ _ => match x with VPtr None => VIface None | _ => VIface (Some z) end
  | Inner _ is => match x with VStruct xs => VStruct (over shown is xs) | _ => x end
  | Near _ is => match x with VPtr (Some (VStruct xs)) => VPtr (Some (VStruct (over shown is xs))) | _ => x end
  | _ => x
  end.
Fixpoint behind (st : mem) (i : item) (x : val) : Prop :=
  match i with
  | Held _ _ _ k w => exists y, nth_error st k = Some y /\ (x = VPtr (Some y) \/ x = VPtr None /\ y = w)
  | Inner _ is => exists xs, x = VStruct xs /\ overall (behind st) is xs
  | Far _ _ k is => exists xs, nth_error st k = Some (VStruct (over shown is xs)) /\ overall (behind st) is xs /\
      (x = VPtr (Some (VStruct xs)) \/ x = VPtr None /\ xs = map start is)
  | Near _ is => exists xs, overall (behind st) is xs /\ (x = VPtr (Some (VStruct xs)) \/ x = VPtr None /\ xs = map start is)
  | _ => True
  end.
Definition shown_all (is : list item) (xs : list val) : list val := over shown is xs.
Definition behind_all (st : mem) (is : list item) (xs : list val) : Prop := overall (behind st) is xs.

(** The memory has the struct at [l], and [xs] in it and behind its interfaces. *)
Definition shows (st : mem) (l : loc) (is : list item) (xs : list val) : Prop :=
  mget st l = Some (VStruct (shown_all is xs)) /\ behind_all st is xs.
(** The memory was [st]; [xs] has been put in the struct at [l] and behind its
    interfaces, and nothing else was changed. *)
Definition filled (st st' : mem) (l : loc) (is : list item) (xs : list val) : Prop :=
  shows st' l is xs /\
  nth_error st' (l_var l) = nth_error (mset st l (VStruct (shown_all is xs))) (l_var l) /\
  (length st <= length st')%nat /\
  forall k, (k < length st)%nat -> k <> l_var l -> ~ In k (targets is) -> nth_error st' k = nth_error st k.

(** In Borsh, pointer fields whose elements have a method UnmarshalWithDecoder get
    a new variable, interfaces do not (C67_own_refuted).  The variants of an
    enum are exported. *)
Definition open_enum (E : encoding) (is : list item) : Prop :=
  enum_struct E (map decl is) = true -> forall i, In i is -> f_exported (fst (decl i)) = true.
Fixpoint good_item (named : outside) (E : encoding) (i : item) : Prop :=
  match i with
  | Plain _ t v => settled named t /\ fits t v
  | Held h z t k w => holds named z = Some (t, mkLoc k []) /\ settled named t /\ fits t w /\
      (E = Borsh -> borsh_field_unmarshaler (TPtr t) = None)
  | Alone h i => forall z, i = Some z -> holds named z = None
  | Inner h is | Near h is => open_enum E is /\ every (good_item named E) is
  | Far h z k is => holds named z = Some (TStruct (map decl is), mkLoc k []) /\ open_enum E is /\ every (good_item named E) is
  end.
Definition good_items (named : outside) (E : encoding) (is : list item) : Prop := open_enum E is /\ every (good_item named E) is.
