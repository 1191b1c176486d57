(** Borsh enums with variants whose field names begin with a small letter, stated
    without the encoder and the decoder. *)
From Verif Require Import Base Num Types Tags Builtin Spec.

(** What is written for the value of such a variant: numbers and texts as usual,
    of an enum its number and, in the same way, its variant; of everything else
    nothing.  [None]: the encoder gives up (NaN; a text or a number of a variant
    that is too large). *)
Section Pick.
  Context {R : Type}.
  Variable f : ty -> val -> option R.
  Fixpoint pick (fs : list (fhdr * ty)) (vs : list val) (n : nat) : option R :=
    match fs, vs, n with
    | (_, TPtr t) :: _, VPtr (Some x) :: _, O => f t x
    | (_, t) :: _, v :: _, O => f t v
    | _ :: fs', _ :: vs', S n' => pick fs' vs' n'
    | _, _, _ => None
    end.
End Pick.
Fixpoint shown (t : ty) (v : val) {struct t} : option (list Z) :=
  match t, v with
  | TBool, VBool b => Some [if b then 1 else 0]
  | (TUint _ w | TInt _ w), VNum z => Some (fixed LE (wbytes w) z)
  | TFloat f, VFloat b => if f_isnan f b then None else Some (fixed LE (fbytes f) b)
  | TString, VStr s => if zlen s <=? text_max Borsh then Some (text Borsh s) else None
  | TCodec _ u, _ => shown u v
  | TStruct fs, VStruct (VNum z :: vs) =>
      if enum_struct Borsh fs then option_map (cons z) (pick shown fs (VNum z :: vs) (S (Z.to_nat z))) else Some []
  | TDeep, _ => None
  | _, _ => Some []
  end.
Definition shown_variant (t : ty) (v : val) : option (list Z) :=
  match t, v with TPtr t', VPtr (Some x) => shown t' x | _, _ => shown t v end.

(** No field is named as the length of another one. *)
Definition lends (h : fhdr) : bool :=
  let tg := parse_field_tag (f_tag h) in
  negb (ft_skip tg) && match ft_sizeof tg with EmptyString => false | _ => true end.
Fixpoint lendless (t : ty) : bool :=
  match t with
  | TPtr u | TCodec _ u => lendless u
  | TStruct fs => forallb (fun ht => negb (lends (fst ht)) && lendless (snd ht)) fs
  | _ => true
  end.

(** A struct that is no enum, perhaps with a name. *)
Fixpoint record (t : ty) : option (list (fhdr * ty)) :=
  match t with
  | TCodec _ u => record u
  | TStruct fs => if enum_struct Borsh fs then None else Some fs
  | _ => None
  end.
(** Numbers, texts and enums. *)
Fixpoint stores (t : ty) : bool :=
  match t with
  | TCodec _ u => stores u
  | TBool | TUint _ _ | TInt _ _ | TFloat _ | TString => true
  | TStruct fs => enum_struct Borsh fs
  | _ => false
  end.
(** binary_extension fields come last. *)
Fixpoint extensions_last (fs : list (fhdr * ty)) (seen : bool) : bool :=
  match fs with
  | [] => true
  | (h, _) :: r =>
      let tg := parse_field_tag (f_tag h) in
      if ft_skip tg then extensions_last r seen
      else (ft_ext tg || negb seen) && extensions_last r (seen || ft_ext tg)
  end.
Definition number (t : ty) : bool := match t with TBool | TUint _ _ | TInt _ _ | TFloat _ => true | _ => false end.
