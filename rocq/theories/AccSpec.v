(** What the decoders accept, on every input: a grammar with attributes, written
    without the functions of the decoder model.

    [accepts E t pl sz o old b rest v]: in front of the input [b ++ rest], the
    decoder of a variable of type [t] that holds [old] consumes exactly [b] and
    leaves [v] in the variable.  The bytes [rest] matter because counts are
    compared with the bytes that are left, and because of binary_extension. *)
From Verif Require Import Types Spec Utf8 Builtin.

Definition rel (A : Type) : Type := list Z -> list Z -> A -> Prop.

(** Nothing is read; nothing is accepted; one thing after another. *)
Definition yields {A} (a : A) : rel A := fun b _ x => b = [] /\ x = a.
Definition nothing {A} : rel A := fun _ _ _ => False.
Definition followed {A B} (R : rel A) (K : A -> rel B) : rel B :=
  fun b rest y => exists b1 b2 x, b = b1 ++ b2 /\ R b1 (b2 ++ rest) x /\ K x b2 rest y.
Definition image {A B} (f : A -> B) (R : rel A) : rel B :=
  fun b rest y => exists x, y = f x /\ R b rest x.

(** * Numbers *)

Definition unsigned (n : nat) (o : order) : rel Z :=
  fun b _ z => 0 <= z < 256 ^ Z.of_nat n /\ b = fixed o n z.
Definition signed (w : width) (o : order) : rel Z :=
  fun b _ z => - 2 ^ (wbits w - 1) <= z < 2 ^ (wbits w - 1) /\ b = fixed o (wbytes w) z.
(** NaNs are refused in Borsh. *)
Definition float (E : encoding) (f : fwidth) (o : order) : rel Z :=
  fun b _ z => 0 <= z < 2 ^ fbits f /\ b = fixed o (fbytes f) z /\ (E = Borsh -> f_isnan f z = false).
(** Anything but 0 is true. *)
Definition truth : rel bool := fun b _ x => exists z, b = [z] /\ x = negb (z =? 0).

(** Base 128 with bit 7 set on all bytes but the last, below 2^64 and in at most
    ten bytes; superfluous zero groups are accepted. *)
Fixpoint groups (b : list Z) : Z :=
  match b with [] => 0 | x :: r => x mod 128 + 128 * groups r end.
Definition uvarint64 : rel Z := fun b _ z =>
  exists init last, b = init ++ [last] /\ Forall (fun x => 128 <= x) init /\ last < 128 /\
    zlen b <= 10 /\ z = groups b /\ z < 2 ^ 64.

(** Counts of slices and maps; of Bin's and Borsh's 32-bit lengths only those
    below 2^31 are accepted as lengths of texts, and in Bin as counts. *)
Definition count_in (E : encoding) : rel Z := fun b rest n =>
  match E with
  | Bin => uvarint64 b rest n /\ n <= 2 ^ 31 - 1
  | CompactU16 => 0 <= n <= 2 ^ 16 - 1 /\ b = leb128 n
  | Borsh => unsigned 4 LE b rest n
  end.
Definition text_in (E : encoding) : rel (list Z) := fun b _ s =>
  zlen s <= text_max E /\ b = text E s.

(** Presence flags: anything but 0 is "present", but for COptions. *)
Definition flag_in (E : encoding) : rel bool := fun b _ x =>
  match E with
  | Bin => exists z, 0 <= z < 2 ^ 32 /\ b = fixed LE 4 z /\ x = negb (z =? 0)
  | _ => exists z, b = [z] /\ x = negb (z =? 0)
  end.
Definition cflag_in : rel bool := fun b _ x => b = cflag x.

(** * Sequences *)

Section Rep.
  Context {A : Type}.
  Fixpoint rep_in (n : nat) (R : rel A) : rel (list A) :=
    match n with
    | O => yields []
    | S n' => followed R (fun a => image (cons a) (rep_in n' R))
    end.
  (** The elements of an array, each with its old contents. *)
  Fixpoint each_in (R : val -> rel A) (olds : list val) : rel (list A) :=
    match olds with
    | [] => yields []
    | p :: ps => followed (R p) (fun a => image (cons a) (each_in R ps))
    end.
End Rep.

(** [l] unsigned numbers of width [w] in a row. *)
Definition bulk_in (w : width) (l : Z) : rel (list Z) := fun b _ zs =>
  l = zlen zs /\ Forall (fun z => 0 <= z < 2 ^ wbits w) zs /\ b = flat_map (fixed LE (wbytes w)) zs /\
  (w = W8 -> l <= bulk_max).

(** The bytes that are left. *)
Definition left_in {A} (K : Z -> rel A) : rel A := fun b rest x => K (zlen (b ++ rest)) b rest x.

(** * Maps: assignments one after the other *)
Fixpoint assign (kt : ty) (m : list (val * val)) (k v : val) : list (val * val) :=
  match m with
  | [] => [(k, v)]
  | e :: m' => if key_eqb kt (fst e) k then (k, v) :: m' else e :: assign kt m' k v
  end.
Definition assign_all (kt : ty) (es : list (val * val)) : list (val * val) :=
  fold_left (fun m e => assign kt m (fst e) (snd e)) es [].

(** * Methods *)

(** What an UnmarshalWithDecoder method accepts by itself. *)
Definition own_in (E : encoding) (o : order) (f : val -> DM val) (old : val) : rel val := fun b rest v =>
  forall pre, exists c, f old (mkD (pre ++ b ++ rest) (zlen pre) (Some o) E) = (Ok v, mkD (pre ++ b ++ rest) (zlen pre + zlen b) c E).

(** * Fields *)

(** The flags in front of a field that are still to be read: all of them, or
    (behind the pointers) only that of a COption. *)
Inductive place : Type := Front (opt copt : bool) | Below (copt : bool).

(** A count given by an integer field: int(n), 0 if that is negative. *)
Fixpoint size_of (t : ty) (v : val) : option Z :=
  match t, v with
  | (TInt _ _ | TNative true), VNum z => Some z
  | (TUint _ _ | TNative false), VNum z => Some (if z mod 2 ^ 64 <? 2 ^ 63 then z mod 2 ^ 64 else 0)
  | TCodec _ u, _ => size_of u v
  | _, _ => None
  end.

(** A field (or the pointee of one) with a method in Borsh: new contents by the
    method, flags are not looked at, and it gives no count. *)
Definition borsh_method (E : encoding) (t : ty) : option (rel val) :=
  match E, t with
  | Borsh, TCodec c u => match c_unmarshal c with Some f => Some (own_in E LE f (zero_val u)) | None => None end
  | Borsh, TPtr (TCodec c u) =>
      match c_unmarshal c with Some f => Some (image (fun x => VPtr (Some x)) (own_in E LE f (zero_val u))) | None => None end
  | _, _ => None
  end.

(** What is accepted for a Borsh variable that cannot be set, being in an
    unexported field: whatever needs nothing to be stored. *)
Fixpoint in_order (fs : list (fhdr * ty)) (seen : bool) : bool :=
  match fs with
  | [] => true
  | (h, _) :: fs' =>
      let tg := parse_field_tag (f_tag h) in
      if ft_skip tg then in_order fs' seen
      else (ft_ext tg || negb seen) && in_order fs' (seen || ft_ext tg)
  end.
Fixpoint sealed_in (t : ty) (old : val) {struct t} : rel unit :=
  match t, old with
  | TIface, _ => yields tt
  | TPtr t', VPtr (Some x) => sealed_in t' x
  | TCodec _ u, _ => sealed_in u old
  | TArray n t', _ =>
      match uint_kind t', old with
      | Some _, _ =>
          match n, t' with O, TUint UPlain _ => nothing | O, _ => yields tt | S _, _ => nothing end
      | None, VSeq ps => image (fun _ => tt) (each_in (sealed_in t') ps)
      | None, _ => nothing
      end
  | (TSlice _ | TMap _ _), _ => fun b _ _ => b = fixed LE 4 0
  | TStruct fs, VStruct ps =>
      if negb (enum_struct Borsh fs) && in_order fs false && Nat.eqb (List.length fs) (List.length ps) then yields tt else nothing
  | _, _ => nothing
  end.

Section Fields.
  Variable E : encoding.
  Variable acc : ty -> place -> option Z -> order -> val -> rel val.
  (** [s]: counts given by earlier fields; [seen]: a binary_extension field came
      before. *)
  Fixpoint fields_in (fs : list (fhdr * ty)) (olds : list val) (s : sizes) (seen : bool) : rel (list val) :=
    match fs, olds with
    | [], [] => yields []
    | (h, t) :: fs', p :: ps =>
        let tg := parse_field_tag (f_tag h) in
        let keep := fun sn => image (cons p) (fields_in fs' ps s sn) in
        if ft_skip tg then keep seen
        else if seen && negb (ft_ext tg) then nothing
        else
          let seen' := seen || ft_ext tg in
          if negb (f_exported h) then keep seen'
          else fun b rest vs =>
            if ft_ext tg && (zlen (b ++ rest) =? 0) then keep seen' b rest vs
            else
              match borsh_method E t with
              | Some R => followed R (fun x => image (cons x) (fields_in fs' ps s seen')) b rest vs
              | None =>
                  followed (acc t (Front (ft_option tg) (is_borsh E && ft_coption tg)) (s (f_name h)) (ft_order tg) p)
                    (fun x => match ft_sizeof tg, size_of t x with
                              | EmptyString, _ => image (cons x) (fields_in fs' ps s seen')
                              | n, Some z => image (cons x) (fields_in fs' ps (fun y => if String.eqb n y then Some z else s y) seen')
                              | _, None => nothing
                              end) b rest vs
              end
    | _, _ => nothing
    end.
  (** Variant [n] of an enum.  An unexported variant keeps its value, and only
      little is accepted for it. *)
  Fixpoint nth_in (fs : list (fhdr * ty)) (olds : list val) (n : nat) : rel (list val) :=
    match fs, olds, n with
    | (h, t) :: _, p :: ps, O => if f_exported h then image (fun x => x :: ps) (acc t (Front false false) None LE p)
                             else image (fun _ => p :: ps) (sealed_in t p)
    | _ :: fs', p :: ps, S n' => image (cons p) (nth_in fs' ps n')
    | _, _, _ => nothing
    end.
End Fields.

Definition is_pointer (t : ty) : bool := match t with TPtr _ => true | _ => false end.

(** * Values *)
Fixpoint accepts (E : encoding) (t : ty) (pl : place) (sz : option Z) (o : order) (old : val) {struct t} : rel val :=
  (* a value of its own, without flags *)
  let core : rel val :=
    match t with
    | TBool => image VBool truth
    | TUint _ w => image VNum (unsigned (wbytes w) (num_order E o))
    | TInt _ w => image VNum (signed w (num_order E o))
    | TFloat f => image (fun z => VFloat (quiet f z)) (float E f (num_order E o))
    | TString => image VStr (text_in E)
    | TIface => yields old
    | TArray n t' =>
        match uint_kind t', old with
        | Some w, _ => image (fun zs => VSeq (map VNum zs)) (bulk_in w (Z.of_nat n))
        | None, VSeq ps => image VSeq (each_in (accepts E t' (Front false false) None LE) ps)
        | None, _ => nothing
        end
    | TSlice t' =>
        followed (match sz with Some n => yields n | None => count_in E end) (fun n =>
          if is_borsh E && (n =? 0) then yields old
          else left_in (fun r =>
            if r <? n then nothing
            else
              match uint_kind t' with
              | Some w => image (fun zs => VSlice (Some (map VNum zs))) (bulk_in w n)
              | None => image (fun vs => VSlice (Some vs)) (rep_in (Z.to_nat n) (accepts E t' (Front false false) None LE (zero_val t')))
              end))
    | TMap kt vt =>
        followed (count_in E) (fun n =>
          if n =? 0 then yields old
          else image (fun es => VMap (Some (assign_all kt es)))
            (rep_in (Z.to_nat n)
               (followed (accepts E kt (Front false false) None LE (zero_val kt)) (fun k =>
                image (pair k) (accepts E vt (Front false false) None LE (zero_val vt))))))
    | TStruct fs =>
        match old with
        | VStruct ps =>
            if enum_struct E fs then
              followed (unsigned 1 LE) (fun n =>
                match fs, ps with
                | (h, _) :: fs', _ :: ps' =>
                    if f_exported h then image (fun vs => VStruct (VNum n :: vs)) (nth_in (accepts E) fs' ps' (Z.to_nat n)) else nothing
                | _, _ => nothing
                end)
            else image VStruct (fields_in E (accepts E) fs ps no_sizes false)
        | _ => nothing
        end
    | _ => nothing
    end in
  let below (pend : bool) : rel val :=
    match t with
    | TPtr t' => image (fun x => VPtr (Some x)) (accepts E t' (Below pend) sz o (deref t' old))
    | TCodec c u =>
        match c_unmarshal c with
        | Some f => if pend then nothing else own_in E o f old
        | None => accepts E u (Below pend) sz o old
        end
    | TDeep => nothing
    | _ => if pend then followed cflag_in (fun p => if p then core else yields (zero_val t)) else core
    end in
  match pl with
  | Below pend => below pend
  | Front opt copt =>
      let flags : rel val :=
        if opt then followed (flag_in E) (fun p => if p then below copt else yields (zero_val t))
        else followed cflag_in (fun p => if p then below false else yields (zero_val t)) in
      if opt || copt then
        match t, old with
        | TPtr t', VPtr (Some x) =>
            if is_pointer t' then image (fun y => VPtr (Some y)) (accepts E t' (Front opt copt) sz o x) else flags
        | TCodec c _, _ => match c_unmarshal c with Some _ => nothing | None => flags end
        | TDeep, _ => nothing
        | _, _ => flags
        end
      else below false
  end.

(** * Which types *)

Section Gather.
  Context {A : Type}.
  Variable f : fhdr -> ty -> list A.
  Fixpoint gather (fs : list (fhdr * ty)) : list A :=
    match fs with [] => [] | (h, t) :: fs' => f h t ++ gather fs' end.
End Gather.

(** The UnmarshalWithDecoder methods that a type brings in, and the byte orders
    its tags ask for. *)
Fixpoint methods (t : ty) : list (val -> DM val) :=
  match t with
  | TPtr t' | TArray _ t' | TSlice t' => methods t'
  | TMap k v => methods k ++ methods v
  | TStruct fs => gather (fun _ => methods) fs
  | TCodec c u => match c_unmarshal c with Some f => [f] | None => methods u end
  | _ => []
  end.
Fixpoint orders (t : ty) : list order :=
  match t with
  | TPtr t' | TArray _ t' | TSlice t' | TCodec _ t' => orders t'
  | TMap k v => orders k ++ orders v
  | TStruct fs => gather (fun h t' => ft_order (parse_field_tag (f_tag h)) :: orders t') fs
  | _ => []
  end.

(** A method that consumes some bytes in front of it and whose result depends on
    nothing but the input in front of it (and in Borsh leaves the order alone). *)
Definition regular (E : encoding) (f : val -> DM val) : Prop :=
  forall o old pre inp v s, good_cur E (Some o) -> bytes_ok inp ->
    f old (mkD (pre ++ inp) (zlen pre) (Some o) E) = (Ok v, s) ->
    exists b rest c, inp = b ++ rest /\ s = mkD (pre ++ inp) (zlen pre + zlen b) c E /\
      good_cur E c /\ own_in E o f old b rest v.

(** All methods are regular; in Borsh, if there are any, no tag asks for big
    endian. *)
Definition tame (E : encoding) (t : ty) : Prop :=
  Forall (regular E) (methods t) /\ (E = Borsh -> methods t <> [] -> Forall (eq LE) (orders t)).

(** * The library's own types *)

(** A counted byte string (also for Bin with a varint in front). *)
Definition counted (E : encoding) : rel (list Z) :=
  followed (fun b rest n => count_in E b rest n /\ n <= bulk_max) (fun n b _ s => zlen b = n /\ s = b).
(** Undo the zig-zag; keep the lowest [k] bits as a signed number. *)
Definition unzz (u : Z) : Z := if Z.even u then u / 2 else - (u / 2) - 1.
Definition low (k z : Z) : Z := (z + 2 ^ (k - 1)) mod 2 ^ k - 2 ^ (k - 1).

(** What their methods accept. *)
Definition library : list (ty * (encoding -> order -> val -> rel val)) :=
  [ (SafeString, fun E _ _ => image (fun s => VStr (safe_utf8 s)) (counted E));
    (Bool_, fun _ _ _ => image VBool truth);
    (HexBytes, fun E _ _ => image (fun s => VSlice (Some (map VNum s))) (counted E));
    (Varint16, fun _ _ _ => image (fun u => VNum (low 16 (unzz u))) uvarint64);
    (Varint32, fun _ _ _ => image (fun u => VNum (low 32 (unzz u))) uvarint64);
    (Varuint16, fun _ _ _ => image (fun u => VNum (u mod 2 ^ 16)) uvarint64);
    (Varuint32, fun _ _ _ => image (fun u => VNum (u mod 2 ^ 32)) uvarint64);
    (JSONFloat64, fun E o _ => image VFloat (float E F64 o));
    (Int64, fun _ o _ => image VNum (signed W64 o));
    (Uint64, fun _ o _ => image VNum (unsigned 8 o));
    (Uint128, fun _ o _ => image (fun z => VStruct [VNum (z mod 2 ^ 64); VNum (z / 2 ^ 64); VIface None]) (unsigned 16 o));
    (Int128, fun _ o _ => image (fun z => VStruct [VNum (z mod 2 ^ 64); VNum (z / 2 ^ 64); VIface None]) (unsigned 16 o));
    (Float128, fun _ o _ => image (fun z => VStruct [VNum (z mod 2 ^ 64); VNum (z / 2 ^ 64); VIface None]) (unsigned 16 o));
    (EmptyVariant, fun _ _ old => yields old) ].
