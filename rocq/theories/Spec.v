(** Specification of the wire formats, written without the functions of the
    encoder and decoder models.

    - [wire E t sz o v]: the bytes of value [v] of type [t] in encoding [E];
    - [back E t sz o p v]: what a variable that held [p] holds after [v] has
      been sent through the wire;
    - [ok E t sz o v]: [v] is a value of type [t] that the format can carry.

    [sz] is the length given by an earlier `sizeof` field and [o] the byte
    order of the field. *)
From Verif Require Import Types.

(** * Numbers *)

(** Fixed width, base 256. *)
Definition fixed_le (n : nat) (z : Z) : list Z :=
  map (fun i => z / 256 ^ Z.of_nat i mod 256) (seq 0 n).
Definition fixed (o : order) (n : nat) (z : Z) : list Z :=
  match o with LE => fixed_le n z | BE => rev (fixed_le n z) end.

(** LEB128: base 128, bit 7 set on all bytes but the last, no superfluous
    zero groups. *)
Definition leb128 (x : Z) : list Z :=
  let last := Z.to_nat (Z.log2 x / 7) in
  map (fun i => x / 128 ^ Z.of_nat i mod 128 + (if Nat.ltb i last then 128 else 0))
    (seq 0 (S last)).

(** Zig-zag map from int64 to uint64. *)
Definition zz (x : Z) : Z := if x <? 0 then - 2 * x - 1 else 2 * x.

(** Element count of slices and maps (also length of strings, but for Bin). *)
Definition count (E : encoding) (n : Z) : list Z :=
  match E with Bin | CompactU16 => leb128 n | Borsh => fixed LE 4 n end.
Definition count_max (E : encoding) : Z :=
  match E with Bin => 2 ^ 31 - 1 | CompactU16 => 2 ^ 16 - 1 | Borsh => 2 ^ 32 - 1 end.

(** Byte strings longer than this are written but not read. *)
Definition bulk_max : Z := 2 ^ 31 - 1.

Definition text (E : encoding) (s : list Z) : list Z :=
  (match E with Bin => fixed LE 8 (zlen s) | _ => count E (zlen s) end) ++ s.
Definition text_max (E : encoding) : Z :=
  match E with CompactU16 => 2 ^ 16 - 1 | _ => 2 ^ 31 - 1 end.

(** Byte order of numbers: Borsh is always little endian. *)
Definition num_order (E : encoding) (o : order) : order :=
  match E with Borsh => LE | _ => o end.

(** Presence flags. *)
Definition flag (E : encoding) (b : bool) : list Z :=
  fixed LE (match E with Bin => 4 | _ => 1 end)%nat (if b then 1 else 0).
Definition cflag (b : bool) : list Z := fixed LE 4 (if b then 1 else 0).

(** A signalling float32 NaN becomes quiet on its way through the API. *)
Definition quiet (f : fwidth) (b : Z) : Z :=
  match f with
  | F32 => if f_isnan F32 b && negb (Z.testbit b 22) then b + 2 ^ 22 else b
  | F64 => b
  end.

(** * Typed values *)

Section FitsFields.
  Variable fits : ty -> val -> Prop.
  Fixpoint fits_fields (fs : list (fhdr * ty)) (vs : list val) : Prop :=
    match fs, vs with
    | [], [] => True
    | ht :: fs', v :: vs' => fits (snd ht) v /\ fits_fields fs' vs'
    | _, _ => False
    end.
End FitsFields.

(** [fits t v]: [v] is a Go value of type [t]. *)
Fixpoint fits (t : ty) (v : val) {struct t} : Prop :=
  match t with
  | TBool => exists b, v = VBool b
  | TUint _ w => exists z, v = VNum z /\ 0 <= z < 2 ^ wbits w
  | TInt _ w => exists z, v = VNum z /\ - 2 ^ (wbits w - 1) <= z < 2 ^ (wbits w - 1)
  | TNative s =>
      exists z, v = VNum z /\
        if s then - 2 ^ 63 <= z < 2 ^ 63 else 0 <= z < 2 ^ 64
  | TFloat f => exists b, v = VFloat b /\ 0 <= b < 2 ^ fbits f
  | TString => exists s, v = VStr s /\ bytes_ok s
  | TOther => v = VOther
  | TIface => exists d, v = VIface d
  | TPtr t' => exists p, v = VPtr p /\ forall x, p = Some x -> fits t' x
  | TArray n t' => exists l, v = VSeq l /\ length l = n /\ Forall (fits t') l
  | TSlice t' => exists l, v = VSlice l /\ forall l', l = Some l' -> Forall (fits t') l'
  | TMap kt vt =>
      exists m, v = VMap m /\ forall es, m = Some es ->
        Forall (fun e => fits kt (fst e) /\ fits vt (snd e)) es
  | TStruct fs => exists vs, v = VStruct vs /\ fits_fields fits fs vs
  | TCodec _ u => fits u v
  | TDeep => True
  end.

(** * Codec methods of user types *)

(** A writer receives the chunks [cs] one after the other until it fails.
    Result: the failure, and Written(), the writes made, the bytes accepted. *)
Fixpoint play (w : writer) (cs : list (list Z)) (n : Z) (hist : list (list Z))
  (acc : list Z) : option Z * Z * list (list Z) * list Z :=
  match cs with
  | [] => (None, n, hist, acc)
  | b :: cs' =>
      match w (hist ++ [b]) with
      | None => play w cs' (n + zlen b) (hist ++ [b]) (acc ++ b)
      | Some (k, x) => (Some x, n + zlen b, hist ++ [b], acc ++ firstn k b)
      end
  end.

(** [script E c m cs r c']: started in encoding [E] with current order [c],
    the action [m] writes exactly the chunks [cs] whatever the writer is, and
    then ends with [r]; if the writer fails [m] stops and returns an error in
    which the writer's error is found. *)
Definition script {A} (E : encoding) (c : option order) (m : EM A)
  (cs : list (list Z)) (r : outcome A) (c' : option order) : Prop :=
  forall w n hist acc,
    match play w cs n hist acc with
    | (None, n', hist', acc') =>
        m (mkE E w c n hist acc) = (r, mkE E w c' n' hist' acc')
    | (Some x, n', hist', acc') =>
        exists e c'', err_is e (EWriter x) /\
          m (mkE E w c n hist acc) = (Err e, mkE E w c'' n' hist' acc')
    end.

(** In Borsh, the current order is little endian throughout. *)
Definition good_cur (E : encoding) (c : option order) : Prop :=
  E = Borsh -> c = Some LE.

(** [reads E P m bs x]: [m] reads the bytes [bs], wherever they are, and no
    more, and returns [x]. *)
Definition reads {A} (E : encoding) (P : option order -> Prop) (m : DM A)
  (bs : list Z) (x : A) : Prop :=
  forall pre post c, P c -> exists c',
    m (mkD (pre ++ bs ++ post) (zlen pre) c E) =
      (Ok x, mkD (pre ++ bs ++ post) (zlen pre + zlen bs) c' E) /\
    good_cur E c'.

Definition at_order (o : order) (c : option order) : Prop := c = Some o.

(** The bytes a MarshalWithEncoder method writes. *)
Definition codec_bytes (f : val -> EM unit) (E : encoding) (o : order) (v : val) : list Z :=
  e_acc (snd (f v (mkE E (fun _ => None) (Some o) 0 [] []))).
(** What an UnmarshalWithDecoder method makes of bytes. *)
Definition codec_back (f : val -> DM val) (E : encoding) (o : order) (p : val) (bs : list Z) : val :=
  match fst (f p (mkD bs 0 (Some o) E)) with Ok x => x | _ => p end.

Definition codec_writes (f : val -> EM unit) (E : encoding) (o : order) (v : val) : Prop :=
  exists cs c', script E (Some o) (f v) cs (Ok tt) c'.
Definition codec_reads (f : val -> DM val) (u : ty) (E : encoding) (o : order) (bs : list Z) : Prop :=
  forall p, fits u p -> exists x, reads E (at_order o) (f p) bs x.

(** The Marshal method found on a value of type T, and on a *T. *)
Definition val_marshal (c : codec) : option (val -> EM unit) :=
  if c_byval c then c_marshal c else None.
Definition ptr_marshal (t : ty) : option (val -> EM unit) :=
  match t with TCodec c _ => c_marshal c | _ => None end.
Definition has_unmarshal (t : ty) : option (val -> DM val) :=
  match t with TCodec c _ => c_unmarshal c | _ => None end.

(** * Struct fields *)

(** `sizeof` bindings in effect. *)
Definition sizes : Type := string -> option Z.
Definition no_sizes : sizes := fun _ => None.
Definition bind_size (tg : field_tag) (v : val) (s : sizes) : sizes :=
  match ft_sizeof tg, v with
  | EmptyString, _ => s
  | n, VNum z => fun x => if String.eqb n x then Some z else s x
  | _, _ => s
  end.

(** Flags (if the tag asks for them) around the bytes [b] of a value. *)
Definition with_flags (E : encoding) (tg : field_tag) (v : val) (b : list Z) : list Z :=
  let copt := is_borsh E && ft_coption tg in
  if ft_option tg && is_zero v then flag E false
  else (if ft_option tg then flag E true else []) ++
       (if copt && is_zero v then cflag false
        else (if copt then cflag true else []) ++ b).

Definition flagged_field (E : encoding) (tg : field_tag) : bool :=
  ft_option tg || (is_borsh E && ft_coption tg).

(** Does the field take part? *)
Definition live (h : fhdr) : bool :=
  negb (ft_skip (parse_field_tag (f_tag h))) && f_exported h.

Section WireFields.
  Variable E : encoding.
  Variable wire : ty -> option Z -> order -> val -> list Z.
  Fixpoint wire_fields (fs : list (fhdr * ty)) (vs : list val) (s : sizes) : list Z :=
    match fs, vs with
    | (h, t) :: fs', v :: vs' =>
        let tg := parse_field_tag (f_tag h) in
        if live h then
          with_flags E tg v (wire t (s (f_name h)) (ft_order tg) v) ++
          wire_fields fs' vs' (bind_size tg v s)
        else wire_fields fs' vs' s
    | _, _ => []
    end.

  (** Field [n] and its value. *)
  Fixpoint wire_nth (fs : list (fhdr * ty)) (vs : list val) (n : nat) : list Z :=
    match fs, vs, n with
    | (_, t) :: _, v :: _, O => wire t None LE v
    | _ :: fs', _ :: vs', S n' => wire_nth fs' vs' n'
    | _, _, _ => []
    end.
End WireFields.

(** Is this struct a Borsh enum (first field of type BorshEnum, tagged)? *)
Definition enum_struct (E : encoding) (fs : list (fhdr * ty)) : bool :=
  match E, fs with
  | Borsh, (h, TUint UBorshEnum W8) :: _ => ft_enum (parse_field_tag (f_tag h))
  | _, _ => false
  end.

(** * Maps *)

(** Order of the entries of a map in Borsh. *)
Fixpoint lex_lt (a b : list Z) : bool :=
  match a, b with
  | [], _ :: _ => true
  | x :: a', y :: b' => (x <? y) || ((x =? y) && lex_lt a' b')
  | _, _ => false
  end.
Fixpoint key_before (t : ty) (a b : val) : bool :=
  match t, a, b with
  | (TInt _ _ | TUint _ _ | TNative _), VNum x, VNum y => x <? y
  | TFloat f, VFloat x, VFloat y => f_key f x <? f_key f y
  | TString, VStr x, VStr y => lex_lt x y
  | TCodec _ u, _, _ => key_before u a b
  | _, _, _ => false
  end.
(** Key types for which Borsh can order two or more keys. *)
Fixpoint key_sortable (defined : bool) (t : ty) : bool :=
  match t with
  | TInt named W64 => negb defined && negb named
  | TUint n W64 => negb defined && match n with UPlain => true | _ => false end
  | TInt _ _ | TUint _ _ | TNative _ | TFloat _ | TString => true
  | TCodec _ u => key_sortable true u
  | _ => false
  end.

Section Sort.
  Context {A : Type}.
  Variable lt : A -> A -> bool.
  Fixpoint put (x : A) (l : list A) : list A :=
    match l with
    | [] => [x]
    | y :: r => if lt x y then x :: l else y :: put x r
    end.
  Definition sort (l : list A) : list A := fold_right put [] l.
End Sort.

Definition entries (E : encoding) (kt : ty) (m : list (val * val)) : list (val * val) :=
  match E with
  | Borsh => sort (fun a b => key_before kt (fst a) (fst b)) m
  | _ => m
  end.

(** Pairwise different keys. *)
Definition distinct (kt : ty) (ks : list val) : Prop :=
  ForallOrdPairs (fun a b => key_eqb kt a b = false /\ key_eqb kt b a = false) ks.

(** * The bytes *)

Fixpoint wire (E : encoding) (t : ty) (sz : option Z) (o : order) (v : val)
  {struct t} : list Z :=
  (* elements whose kind is an unsigned integer are written as such *)
  let elem t' x :=
    match uint_kind t', x with
    | Some w, VNum z => fixed LE (wbytes w) z
    | _, _ => wire E t' None LE x
    end in
  match t, v with
  | TBool, VBool b => [if b then 1 else 0]
  | (TUint _ w | TInt _ w), VNum z => fixed (num_order E o) (wbytes w) z
  | TFloat f, VFloat b => fixed (num_order E o) (fbytes f) (quiet f b)
  | TString, VStr s => text E s
  | TPtr t', VPtr p =>
      match ptr_marshal t', p with
      | Some f, Some x => codec_bytes f E o x
      | Some _, None => []
      | None, _ =>
          match E, p with
          | Borsh, Some x => wire E t' None LE x
          | Borsh, None => wire E t' None LE (zero_val t')
          | _, Some x => wire E t' sz o x
          | _, None => []
          end
      end
  | TArray _ t', VSeq l => flat_map (elem t') l
  | TSlice t', VSlice ol =>
      let l := match ol with Some l => l | None => [] end in
      (match sz with Some _ => [] | None => count E (zlen l) end) ++
      flat_map (elem t') l
  | TMap kt vt, VMap om =>
      let m := match om with Some m => m | None => [] end in
      count E (zlen m) ++
      flat_map (fun e => wire E kt None LE (fst e) ++ wire E vt None LE (snd e))
        (entries E kt m)
  | TStruct fs, VStruct vs =>
      if enum_struct E fs then
        match vs with
        | VNum z :: _ =>
            z :: wire_nth
                   (fun t' _ _ v' =>
                      (* the payload is written without its own codec method *)
                      match t', v' with
                      | TPtr (TCodec _ u), VPtr (Some x) => wire E u None LE x
                      | TCodec _ u, _ => wire E u None LE v'
                      | _, _ => wire E t' None LE v'
                      end)
                   fs vs (S (Z.to_nat z))
        | _ => []
        end
      else wire_fields E (wire E) fs vs no_sizes
  | TCodec c u, _ =>
      match val_marshal c with
      | Some f => codec_bytes f E o v
      | None => wire E u sz o v
      end
  | _, _ => []
  end.

(** * The value that comes back *)

Section BackFields.
  Variable E : encoding.
  Variable back : ty -> option Z -> order -> val -> val -> val.
  (** Absent optional fields become zero; the others are decoded.  Borsh
      decodes a field with its own codec into a new variable. *)
  Definition back_field (t : ty) (tg : field_tag) (sz : option Z) (p v : val) : val :=
    if flagged_field E tg && is_zero v then zero_val t
    else
      let p' := match E, t with
                | Borsh, TCodec c _ | Borsh, TPtr (TCodec c _) =>
                    match c_unmarshal c with Some _ => zero_val t | None => p end
                | _, _ => p
                end in
      back t sz (ft_order tg) p' v.
  Fixpoint back_fields (fs : list (fhdr * ty)) (ps vs : list val) (s : sizes) : list val :=
    match fs, ps, vs with
    | (h, t) :: fs', p :: ps', v :: vs' =>
        let tg := parse_field_tag (f_tag h) in
        if live h then
          back_field t tg (s (f_name h)) p v ::
          back_fields fs' ps' vs' (bind_size tg v s)
        else p :: back_fields fs' ps' vs' s
    | _, _, _ => []
    end.
  Fixpoint back_nth (fs : list (fhdr * ty)) (ps vs : list val) (n : nat) : list val :=
    match fs, ps, vs, n with
    | (_, t) :: _, p :: ps', v :: _, O => back t None LE p v :: ps'
    | _ :: fs', p :: ps', _ :: vs', S n' => p :: back_nth fs' ps' vs' n'
    | _, _, _, _ => ps
    end.
End BackFields.

Definition deref (t : ty) (p : val) : val :=
  match p with VPtr (Some x) => x | _ => zero_val t end.

Section Zip.
  Context {A B C : Type}.
  Variable f : A -> B -> C.
  Fixpoint zip_with (l : list A) (r : list B) : list C :=
    match l, r with
    | a :: l', b :: r' => f a b :: zip_with l' r'
    | _, _ => []
    end.
End Zip.

Fixpoint back (E : encoding) (t : ty) (sz : option Z) (o : order) (p v : val)
  {struct t} : val :=
  match t, v with
  | TFloat f, VFloat b => VFloat (quiet f b)
  | TIface, _ => p
  | TPtr t', VPtr q =>
      VPtr (Some
        (match ptr_marshal t', has_unmarshal t', q with
         | Some fm, Some fu, Some x =>
             codec_back fu E o (deref t' p) (codec_bytes fm E o x)
         | _, _, _ =>
             let x := match q with Some x => x | None => zero_val t' end in
             match E with
             | Borsh => back E t' None LE (deref t' p) x
             | _ => back E t' sz o (deref t' p) x
             end
         end))
  | TArray _ t', VSeq l =>
      match uint_kind t', p with
      | None, VSeq ps => VSeq (zip_with (back E t' None LE) ps l)
      | _, _ => v
      end
  | TSlice t', VSlice ol =>
      let l := match ol with Some l => l | None => [] end in
      match E, l with
      | Borsh, [] => p
      | _, _ =>
          VSlice (Some (match uint_kind t' with
                        | Some _ => l
                        | None => map (back E t' None LE (zero_val t')) l
                        end))
      end
  | TMap kt vt, VMap om =>
      match om with
      | None | Some [] => p
      | Some m =>
          VMap (Some (map (fun e => (back E kt None LE (zero_val kt) (fst e),
                                     back E vt None LE (zero_val vt) (snd e)))
                        (entries E kt m)))
      end
  | TStruct fs, VStruct vs =>
      match p with
      | VStruct ps =>
          if enum_struct E fs then
            match vs, ps with
            | VNum z :: _, _ :: _ =>
                VStruct (VNum z :: tl
                  (back_nth
                    (fun t' _ _ p' v' =>
                       match t', v' with
                       | TPtr (TCodec c u), VPtr (Some x) =>
                           match c_unmarshal c with
                           | Some f => VPtr (Some (codec_back f E LE (deref u p') (wire E u None LE x)))
                           | None => VPtr (Some (back E u None LE (deref u p') x))
                           end
                       | TCodec c u, _ =>
                           match c_unmarshal c with
                           | Some f => codec_back f E LE p' (wire E u None LE v')
                           | None => back E u None LE p' v'
                           end
                       | _, _ => back E t' None LE p' v'
                       end) fs ps vs (S (Z.to_nat z))))
            | _, _ => p
            end
          else VStruct (back_fields E (back E) fs ps vs no_sizes)
      | _ => v
      end
  | TCodec c u, _ =>
      match c_unmarshal c with
      | Some f => codec_back f E o p (wire E t sz o v)
      | None => back E u sz o p v
      end
  | _, _ => v
  end.

(** * What the format can carry *)

(** Integer kinds, for `sizeof`. *)
Fixpoint int_like (t : ty) : bool :=
  match t with
  | TInt _ _ | TUint _ _ => true
  | TCodec _ u => int_like u
  | _ => false
  end.

(** No UnmarshalWithDecoder method behind the pointers. *)
Fixpoint bare (t : ty) : bool :=
  match t with
  | TPtr t' => bare t'
  | TCodec c u => match c_unmarshal c with None => bare u | Some _ => false end
  | _ => true
  end.

Section OkFields.
  Variable E : encoding.
  Variable ok : ty -> option Z -> order -> val -> Prop.
  Variable back : ty -> option Z -> order -> val -> val -> val.

  (** The field's own value. *)
  Definition ok_field (t : ty) (tg : field_tag) (sz : option Z) (v : val) : Prop :=
    (* Borsh: little endian everywhere *)
    (E = Borsh -> ft_order tg = LE) /\
    (* flags and codec methods do not mix (see C28 for what happens) *)
    (flagged_field E tg = true ->
       has_unmarshal t = None /\
       match t with TPtr (TPtr _) | TDeep => False | _ => True end /\
       (E = Borsh -> bare t = true)) /\
    (flagged_field E tg && is_zero v = true \/ ok t sz (ft_order tg) v) /\
    fits t v.

  (** A field named by [ft_sizeof] gets the value of this one as its length,
      on both sides. *)
  Definition ok_sizeof (t : ty) (tg : field_tag) (name : string) (v : val) : Prop :=
    ft_sizeof tg = EmptyString \/
    (int_like t = true /\ ft_sizeof tg <> name /\
     (E = Borsh -> has_unmarshal t = None) /\
     exists z, v = VNum z /\ - 2 ^ 63 <= z < 2 ^ 63 /\
       forall sz p, fits t p -> back_field E back t tg sz p v = VNum z).

  (** [seen]: a binary_extension field came before. *)
  Fixpoint ok_fields (wire : ty -> option Z -> order -> val -> list Z)
    (fs : list (fhdr * ty)) (vs : list val) (s : sizes) (seen : bool) : Prop :=
    match fs, vs with
    | [], [] => True
    | (h, t) :: fs', v :: vs' =>
        let tg := parse_field_tag (f_tag h) in
        if ft_skip tg then ok_fields wire fs' vs' s seen
        else
          (seen = true -> ft_ext tg = true) /\
          if f_exported h then
            ok_field t tg (s (f_name h)) v /\
            ok_sizeof t tg (f_name h) v /\
            (ft_ext tg = true ->
               with_flags E tg v (wire t (s (f_name h)) (ft_order tg) v) <> []) /\
            ok_fields wire fs' vs' (bind_size tg v s) (seen || ft_ext tg)
          else
            ft_sizeof tg = EmptyString /\
            ok_fields wire fs' vs' s (seen || ft_ext tg)
    | _, _ => False
    end.

  Fixpoint ok_nth (fs : list (fhdr * ty)) (vs : list val) (n : nat) : Prop :=
    match fs, vs, n with
    | (h, t) :: fs', v :: vs', O =>
        f_exported h = true /\ ok t None LE v /\ length fs' = length vs'
    | _ :: fs', _ :: vs', S n' => ok_nth fs' vs' n'
    | _, _, _ => False
    end.
End OkFields.

(** Types whose values can be the payload of an enum variant. *)
Definition payload (t : ty) : bool :=
  match t with
  | TBool | TUint _ _ | TInt _ _ | TFloat _ | TString | TStruct _ => true
  | _ => false
  end.

Fixpoint ok (E : encoding) (t : ty) (sz : option Z) (o : order) (v : val)
  {struct t} : Prop :=
  let elem t' x :=
    match uint_kind t' with
    | Some w => exists z, x = VNum z /\ 0 <= z < 2 ^ wbits w
    | None => ok E t' None LE x
    end in
  match t with
  | TBool => exists b, v = VBool b
  | TUint _ w => exists z, v = VNum z /\ 0 <= z < 2 ^ wbits w
  | TInt _ w => exists z, v = VNum z /\ - 2 ^ (wbits w - 1) <= z < 2 ^ (wbits w - 1)
  | TFloat f =>
      exists b, v = VFloat b /\ 0 <= b < 2 ^ fbits f /\
        (E = Borsh -> f_isnan f b = false)
  | TString => exists s, v = VStr s /\ bytes_ok s /\ zlen s <= text_max E
  | TNative _ | TOther | TDeep => False
  | TIface => exists d, v = VIface d
  | TPtr t' =>
      exists q, v = VPtr q /\
      match ptr_marshal t' with
      | Some f =>
          exists x u fu, q = Some x /\ has_unmarshal t' = Some fu /\
            (exists c, t' = TCodec c u) /\
            codec_writes f E o x /\ codec_reads fu u E o (codec_bytes f E o x)
      | None =>
          match E with
          | Borsh =>
              sz = None /\
              ok E t' None LE (match q with Some x => x | None => zero_val t' end)
          | _ => exists x, q = Some x /\ ok E t' sz o x
          end
      end
  | TArray n t' =>
      exists l, v = VSeq l /\ length l = n /\ Forall (elem t') l /\
        (uint_kind t' = Some W8 -> zlen l <= bulk_max)
  | TSlice t' =>
      exists ol, v = VSlice ol /\
      let l := match ol with Some l => l | None => [] end in
      match sz with
      | Some n => n = zlen l
      | None => zlen l <= count_max E
      end /\
      Forall (elem t') l /\
      (uint_kind t' = Some W8 -> zlen l <= bulk_max) /\
      (* elements without bytes cannot be counted by the decoder *)
      (uint_kind t' = None -> Forall (fun x => wire E t' None LE x <> []) l)
  | TMap kt vt =>
      exists om, v = VMap om /\
      let m := match om with Some m => m | None => [] end in
      zlen m <= count_max E /\
      Forall (fun e => ok E kt None LE (fst e) /\ ok E vt None LE (snd e) /\
                       key_eqb kt (fst e) (fst e) = true /\
                       (kt = TIface -> fst e = VIface None) /\
                       (vt = TIface -> snd e = VIface None)) m /\
      distinct kt (map fst m) /\
      distinct kt (map (fun e => back E kt None LE (zero_val kt) (fst e)) m) /\
      (E = Borsh -> (2 <= length m)%nat -> key_sortable false kt = true)
  | TStruct fs =>
      exists vs, v = VStruct vs /\
      if enum_struct E fs then
        exists z vs', vs = VNum z :: vs' /\ 0 <= z < 256 /\
        (forall h t', hd_error fs = Some (h, t') -> f_exported h = true) /\
        ok_nth
          (fun t' _ _ v' =>
             match t' with
             | TPtr (TCodec c u) =>
                 exists x, v' = VPtr (Some x) /\ payload u = true /\
                   ok E u None LE x /\
                   (forall f, c_unmarshal c = Some f ->
                      codec_reads f u E LE (wire E u None LE x))
             | TPtr t'' =>
                 exists x, v' = VPtr (Some x) /\ payload t'' = true /\
                   ok E t' None LE v'
             | TCodec c u =>
                 payload u = true /\ ok E u None LE v' /\
                 (forall f, c_unmarshal c = Some f ->
                    codec_reads f u E LE (wire E u None LE v'))
             | _ => payload t' = true /\ ok E t' None LE v'
             end) fs vs (S (Z.to_nat z))
      else ok_fields E (ok E) (back E) (wire E) fs vs no_sizes false
  | TCodec c u =>
      match val_marshal c, c_unmarshal c with
      | Some f, Some fu =>
          codec_writes f E o v /\ codec_reads fu u E o (codec_bytes f E o v)
      | Some _, None => False
      | None, Some fu =>
          ok E u sz o v /\ codec_reads fu u E o (wire E u sz o v)
      | None, None => ok E u sz o v
      end
  end.
