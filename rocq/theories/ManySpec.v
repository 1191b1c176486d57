(** Go types that mention each other.

    Types such as

      type Expr struct { Op uint8; Args []Term }
      type Term struct { Sub *Expr `bin:"optional"`; N uint16 }

    are modelled by type expressions that are cut ([TDeep]) somewhere below.
    This file says how far below the cuts are: in levels of nesting of a value,
    for the encoders, and in bytes of the input, for the decoders. *)
From Verif Require Import Types DecPrim Enc Dec Spec DecLocal RecSpec.
Notation length := Datatypes.length.

(** * Encoding *)

Section Beyond.
  Variable E : encoding.
  (** No value of depth less than [n] gets to a cut.  Borsh writes the zero
      value of [T] for a nil *T, which must not get to one either, except where
      a flag (or the index of an enum) says that nothing follows. *)
  Fixpoint beyond (n : nat) (t : ty) : Prop :=
    match t with
    | TDeep => n = 0%nat
    | TPtr t' => beyond (Nat.pred n) t' /\ ((1 < n)%nat -> E = Borsh -> beyond (S (depth (zero_val t'))) t')
    | TArray _ t' | TSlice t' => beyond (Nat.pred n) t'
    | TMap k v => beyond (Nat.pred n) k /\ beyond (Nat.pred n) v
    | TStruct fs =>
        (fix go l :=
           match l with
           | [] => True
           | (h, t) :: l' =>
               match t with
               | TPtr t' =>
                   beyond (Nat.pred (Nat.pred n)) t' /\
                   (is_enum fs || flagged_field Borsh (parse_field_tag (f_tag h)) = false ->
                    (2 < n)%nat -> E = Borsh -> beyond (S (depth (zero_val t'))) t')
               | _ => beyond (Nat.pred n) t
               end /\ go l'
           end) fs
    | TCodec _ t' => beyond n t'
    | _ => True
    end.
End Beyond.

(** * Decoding *)

(** Not cut right here. *)
Fixpoint uncut (t : ty) : Prop :=
  match t with
  | TDeep => False
  | TPtr t' | TArray _ t' | TCodec _ t' => uncut t'
  | _ => True
  end.

Section Behind.
  Variable E : encoding.
  (** At least [k] bytes are read before a cut.  [sz]: the length of a slice here
      may come from a `sizeof` field and not from the input. *)
  Fixpoint behind (k : Z) (sz : Prop) (t : ty) : Prop :=
    match t with
    | TDeep => k <= 0
    | TPtr t' => behind k sz t'
    | TArray _ t' => behind k False t'
    | TSlice t' => behind (k - 1) False t' /\ (sz -> behind k False t')
    | TMap kt vt => behind (k - 1) False kt /\ behind (k - 1) False vt
    | TCodec c u =>
        match c_unmarshal c with
        | Some f => uncut u /\ forall v s, fst (f v s) <> Deep
        | None => behind k sz u
        end
    | TStruct fs =>
        if enum_struct E fs then
          (fix go l := match l with [] => True | ht :: l' => behind (k - 1) False (snd ht) /\ go l' end) fs
        else
          (fix go (k : Z) l :=
             match l with
             | [] => True
             | (h, t') :: l' =>
                 behind (if flagged_field E (parse_field_tag (f_tag h)) then k - 1 else k)
                   (Exists (fun ht => ft_sizeof (parse_field_tag (f_tag (fst ht))) = f_name h) fs) t' /\
                 (t' = TDeep -> k <= 0) /\
                 (go k l' \/ (solid_field E fs h t' (solid E t') /\ go (k - 1) l'))
             end) k fs
    | _ => True
    end.
End Behind.
