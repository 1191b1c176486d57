(** What a failing decoder leaves in the destination (C62). *)
From Verif Require Import Types EncPrim DecPrim Enc Dec Builtin Spec NumFacts EncFacts DecSafe Check PropsCodec Dest DestFacts.
Notation length := Datatypes.length.

(** ** C62 *)

(** [unmarshal_into] and [unmarshal] describe the same calls: same outcome, and
    on success the same value; what user-written methods leave behind when they
    fail ([W]) has no influence on that. *)
Theorem C62_same : forall W E t v data, let '(r, x) := unmarshal_into W E t v data in
  unmarshal E t v data = match r with Ok _ => Ok x | Err e => Err e | Panic => Panic | Deep => Deep | Stuck => Stuck end.
Proof. exact into_unmarshal. Qed.
Print Assumptions C62_same.

(** Whatever the outcome, an error or a panic included, the variable holds a
    value of its type. *)
Theorem C62_typed : forall W E t v data, (forall c u v s, fits u v -> fits u (W c u v s)) -> typed t -> fits t v ->
  bytes_ok data -> fits t (snd (unmarshal_into W E t v data)).
Proof. exact into_fits. Qed.
Print Assumptions C62_typed.
(** The types of C04 are of this kind. *)
Theorem C62_typed_types : forall dp E t, decodable dp E t -> typed t.
Proof. exact decodable_typed. Qed.
Print Assumptions C62_typed_types.

(** A struct: the fields are filled in order.  If decoding does not succeed it
    stopped at some field [k]: the fields before it hold what decoding them
    alone gives, the fields after it hold what they held before.  Skipped and
    unexported fields are never touched. *)
Theorem C62_struct : forall W E fs ps data, is_borsh E && is_enum fs = false -> length ps = length fs ->
  exists r ls, unmarshal_into W E (TStruct fs) (VStruct ps) data = (r, VStruct ls) /\
    length ls = length ps /\
    (forall i h t, nth_error fs i = Some (h, t) -> live h = false -> nth_error ls i = nth_error ps i) /\
    (r = Ok tt \/ exists k, (k < length fs)%nat /\
       unmarshal E (TStruct (firstn k fs)) (VStruct (firstn k ps)) data = Ok (VStruct (firstn k ls)) /\
       skipn (S k) ls = skipn (S k) ps).
Proof. exact into_struct. Qed.
Print Assumptions C62_struct.

(** A Borsh enum: its number is set as soon as it is read, also if there is no
    such variant; no other variant is touched. *)
Theorem C62_enum : forall W h t fs p ps data, is_enum ((h, t) :: fs) = true -> f_exported h = true -> length ps = length fs ->
  exists r ls, unmarshal_into W Borsh (TStruct ((h, t) :: fs)) (VStruct (p :: ps)) data = (r, VStruct ls) /\
    length ls = length (p :: ps) /\
    match data with
    | [] => ls = p :: ps
    | n :: _ => nth_error ls 0 = Some (VNum n) /\ forall i, i <> 0%nat -> i <> S (Z.to_nat n) -> nth_error ls i = nth_error (p :: ps) i
    end.
Proof. exact into_enum. Qed.
Print Assumptions C62_enum.
Example C62_enum_sample :
  let t := TStruct [(mkF "Enum" true (mkTag "" "" "true"), TUint UBorshEnum W8); plain "A" u8; plain "B" TString] in
  exists e, unmarshal_into (fun _ _ v _ => v) Borsh t (VStruct [VNum 0; VNum 5; VStr [65]]) [2; 7] =
    (Err e, VStruct [VNum 2; VNum 5; VStr [65]]) /\
    exists e', unmarshal_into (fun _ _ v _ => v) Borsh t (VStruct [VNum 0; VNum 5; VStr [65]]) [0] =
    (Err e', VStruct [VNum 0; VNum 0; VStr [65]]).
Proof. eexists. split; [vm_compute; reflexivity|]. eexists. vm_compute. reflexivity. Qed.

(** An array whose elements are not read in bulk: likewise. *)
Theorem C62_array : forall W E n t ps data, uint_kind t = None -> length ps = n ->
  exists r ls, unmarshal_into W E (TArray n t) (VSeq ps) data = (r, VSeq ls) /\ length ls = length ps /\
    (r = Ok tt \/ exists k, (k < n)%nat /\
       unmarshal E (TArray k t) (VSeq (firstn k ps)) data = Ok (VSeq (firstn k ls)) /\
       skipn (S k) ls = skipn (S k) ps).
Proof. exact into_array. Qed.
Print Assumptions C62_array.

(** A slice whose elements are not read in bulk: it is untouched, or it holds
    the elements read before the one that failed, fewer than announced. *)
Theorem C62_slice : forall W E t v data, uint_kind t = None -> let '(r, x) := unmarshal_into W E (TSlice t) v data in
  r = Ok tt \/ x = v \/
  exists n vs s1 s2, x = VSlice (Some vs) /\ read_count E (at_start E data) = (Ok n, s1) /\
    reads_seq E t s1 vs s2 /\ zlen vs < n /\ r = blame (fst (dec_val E t (DStart opt0) (zero_val t) s2)).
Proof. exact into_slice. Qed.
Print Assumptions C62_slice.

(** A map: it is untouched, or it is a new map with the entries read so far. *)
Theorem C62_map : forall W E kt vt v data, let '(r, x) := unmarshal_into W E (TMap kt vt) v data in
  r = Ok tt \/ x = v \/
  exists n es s1 s2, x = VMap (Some (fold_left (fun m e => map_set kt m (fst e) (snd e)) es [])) /\
    read_count E (at_start E data) = (Ok n, s1) /\ reads_pairs E kt vt s1 es s2 /\ zlen es < n.
Proof. exact into_map. Qed.
Print Assumptions C62_map.

(** Booleans and numbers are set to zero by a failing call ... *)
Theorem C62_scalar : forall W E t v data e x, is_scalar t = true -> unmarshal_into W E t v data = (Err e, x) ->
  x = zero_val t.
Proof. exact into_scalar. Qed.
Print Assumptions C62_scalar.
(** ... texts and bulk-read sequences of unsigned numbers are left alone. *)
Theorem C62_bulk : forall W E t v data r x, is_bulk t = true -> unmarshal_into W E t v data = (r, x) -> r <> Ok tt -> x = v.
Proof. exact into_bulk. Qed.
Print Assumptions C62_bulk.
(** A pointer is not nil after the call, whatever the outcome; its target is
    the old target or a new zero variable, decoded into. *)
Theorem C62_pointer : forall W E t q data, unmarshal_into W E (TPtr t) (VPtr q) data =
  let '(r, x) := unmarshal_into W E t (match q with Some y => y | None => zero_val t end) data in (r, VPtr (Some x)).
Proof. exact into_pointer. Qed.
Print Assumptions C62_pointer.

(** type T struct { A uint8; B uint16; C string; d bool; E []string; F *uint32 } *)
Definition left_ty : ty :=
  TStruct [plain "A" u8; plain "B" (TUint UPlain W16); plain "C" TString; hidden "d" TBool;
           plain "E" (TSlice TString); plain "F" (TPtr (TUint UPlain W32))].
Definition left_old : val :=
  VStruct [VNum 1; VNum 2; VStr [120]; VBool true; VSlice (Some [VStr [121]]); VPtr None].
Definition keep_old : codec -> ty -> val -> dst -> val := fun _ _ v _ => v.
Example C62_sample : fits left_ty left_old /\ typed left_ty /\
  (* cut inside B: A is new, B is zero *)
  (exists e, unmarshal_into keep_old Borsh left_ty left_old [9; 8] =
     (Err e, VStruct [VNum 9; VNum 0; VStr [120]; VBool true; VSlice (Some [VStr [121]]); VPtr None])) /\
  (* cut inside C: C is old *)
  (exists e, unmarshal_into keep_old Borsh left_ty left_old [9; 8; 0; 2; 0; 0; 0; 65] =
     (Err e, VStruct [VNum 9; VNum 8; VStr [120]; VBool true; VSlice (Some [VStr [121]]); VPtr None])) /\
  (* cut inside the second element of E *)
  (exists e, unmarshal_into keep_old Borsh left_ty left_old [9; 8; 0; 0; 0; 0; 0; 2; 0; 0; 0; 1; 0; 0; 0; 66; 1; 0] =
     (Err e, VStruct [VNum 9; VNum 8; VStr []; VBool true; VSlice (Some [VStr [66]]); VPtr None])) /\
  (* cut inside F: F points to a zero *)
  (exists e, unmarshal_into keep_old Borsh left_ty left_old [9; 8; 0; 0; 0; 0; 0; 0; 0; 0; 0; 7; 7] =
     (Err e, VStruct [VNum 9; VNum 8; VStr []; VBool true; VSlice (Some [VStr [121]]); VPtr (Some (VNum 0))])).
Proof.
  split; [apply fitsb_ok; reflexivity|]. split; [cbn; tauto|].
  split; [eexists; vm_compute; reflexivity|]. split; [eexists; vm_compute; reflexivity|].
  split; [eexists; vm_compute; reflexivity|]. eexists; vm_compute; reflexivity.
Qed.
