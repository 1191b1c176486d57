(** The Go functions behind Encode and Decode, transcribed one by one, are
    described by Enc.v (C63) and by Dec.v and Dest.v (C64).  Interfaces that hold
    pointers (C67). *)
From Coq Require Import String.
From Verif Require Import Types EncPrim Enc DecPrim Dec Builtin Spec RoundTrip EncProps EncFacts TyInd Dest PropsCodec GoEnc GoEncFacts GoDec GoDecFacts IfaceFacts.
Notation length := Datatypes.length.

(** ** C63: encoders *)

(** encodeBin, encodeCompactU16, encodeBorsh: any options, any writer and any
    state of the encoder; errors, panics, and the state afterwards included.
    The fuel bounds the depth of the calls and can be given in advance. *)
Theorem C63_bin : forall t v o s fuel, go_type t -> fits t v -> (3 * ty_size t <= fuel)%nat ->
  encodeBin unknown fuel (Rv t v) (Some o) s = enc_val Bin t (EFull o) v s.
Proof. intros t v o s fuel Hg. exact (proj1 (agree t Hg) Bin v o s fuel). Qed.
Print Assumptions C63_bin.
Theorem C63_compactU16 : forall t v o s fuel, go_type t -> fits t v -> (3 * ty_size t <= fuel)%nat ->
  encodeCompactU16 unknown fuel (Rv t v) (Some o) s = enc_val CompactU16 t (EFull o) v s.
Proof. intros t v o s fuel Hg. exact (proj1 (agree t Hg) CompactU16 v o s fuel). Qed.
Print Assumptions C63_compactU16.
Theorem C63_borsh : forall t v o s fuel, go_type t -> fits t v -> (3 * ty_size t <= fuel)%nat ->
  encodeBorsh unknown fuel (Rv t v) (Some o) s = enc_val Borsh t (EFull o) v s.
Proof. intros t v o s fuel Hg. exact (proj1 (agree t Hg) Borsh v o s fuel). Qed.
Print Assumptions C63_borsh.
(** Encode. *)
Theorem C63_encode : forall t v s fuel, go_type t -> fits t v -> (3 * ty_size t <= fuel)%nat ->
  go_encode unknown fuel (Rv t v) s = encode t v s.
Proof. exact go_encode_eq. Qed.
Print Assumptions C63_encode.
(** Encode(nil) writes nothing and succeeds. *)
Theorem C63_encode_nil : forall s fuel, go_encode unknown (S fuel) Invalid s =
  (Ok tt, mkE (e_enc s) (e_w s) (Some LE) (e_count s) (e_hist s) (e_acc s)).
Proof. exact go_encode_nil. Qed.
Print Assumptions C63_encode_nil.
(** The types with methods of the library are such types. *)
Theorem C63_library : Forall go_type library_types.
Proof. unfold library_types. repeat constructor. Qed.
Print Assumptions C63_library.

(** One value, three encodings, through the transcribed functions. *)
Definition c63_t : ty := TStruct
  [tagged "N" "sizeof=L" u8; plain "L" (TSlice (TPtr TBool)); hidden "h" TString;
   tagged "P" "optional" (TPtr (TUint UPlain W16)); plain "M" (TMap TString (TInt false W16)); plain "E" (TStruct
     [(mkF "Enum" true (mkTag "" "" "true"), TUint UBorshEnum W8); plain "A" u8; plain "B" (TPtr (TStruct [plain "X" TString]))])].
Definition c63_v : val := VStruct
  [VNum 2; VSlice (Some [VPtr (Some (VBool true)); VPtr None]); VStr [65]; VPtr (Some (VNum 7));
   VMap (Some [(VStr [66], VNum (-1)); (VStr [65], VNum 3)]); VStruct [VNum 1; VNum 9; VPtr (Some (VStruct [VStr [67]]))]].
Example C63_sample : go_type c63_t /\ (3 * ty_size c63_t <= 80)%nat /\
  let run E := let '(r, s) := go_encode unknown 80 (Rv c63_t c63_v) (new_encoder E (fun _ => None)) in (r, e_acc s) in
  run Bin = (Ok tt, [2; 1; 1; 0; 0; 0; 7; 0; 2; 1; 0; 0; 0; 0; 0; 0; 0; 66; 255; 255; 1; 0; 0; 0; 0; 0; 0; 0; 65; 3; 0; 1; 9; 1; 0; 0; 0; 0; 0; 0; 0; 67]) /\
  run CompactU16 = (Ok tt, [2; 1; 1; 7; 0; 2; 1; 66; 255; 255; 1; 65; 3; 0; 1; 9; 1; 67]) /\
  run Borsh = (Ok tt, [2; 1; 0; 1; 7; 0; 2; 0; 0; 0; 1; 0; 0; 0; 65; 3; 0; 1; 0; 0; 0; 66; 255; 255; 1; 1; 0; 0; 0; 67]).
Proof. split; [cbn; tauto|]. split; [vm_compute; lia|]. vm_compute. repeat split. Qed.

(** ** C64: decoders *)

(** decodeBin, decodeCompactU16, decodeBorsh on the variable (or part of one)
    at [l], any options, any contents, any decoder: the outcome is that of
    Dest.v, [l] holds afterwards what Dest.v says, nothing else that existed is
    changed, and new variables [g] may have been made.  After a panic the
    position is not compared (with a panicking method lookup the Go code has
    read the flag of an optional field, Dec.v has not).  [settled]: either the type
    has no interfaces in it, or no interface holds a pointer (see C67). *)
Theorem C64_bin : forall W named t v o d st l fuel, settled named t -> fits t v -> mget st l = Some v -> (3 * ty_size t <= fuel)%nat ->
  let '(r, v', d') := dest_val Bin W t (DStart o) v d in
  exists g d1, decodeBin W named fuel (RVar t l false) (Some o) (mkG d st) = (r, mkG d1 (mset st l v' ++ g)) /\
    (r <> Panic -> d1 = d').
Proof. intros W named t v o d st l fuel Hg Hf Hm Hn. exact (proj1 (go_decodes Bin W named t Hg v o st l fuel Hf Hm Hn) d). Qed.
Print Assumptions C64_bin.
Theorem C64_compactU16 : forall W named t v o d st l fuel, settled named t -> fits t v -> mget st l = Some v -> (3 * ty_size t <= fuel)%nat ->
  let '(r, v', d') := dest_val CompactU16 W t (DStart o) v d in
  exists g d1, decodeCompactU16 W named fuel (RVar t l false) (Some o) (mkG d st) = (r, mkG d1 (mset st l v' ++ g)) /\
    (r <> Panic -> d1 = d').
Proof. intros W named t v o d st l fuel Hg Hf Hm Hn. exact (proj1 (go_decodes CompactU16 W named t Hg v o st l fuel Hf Hm Hn) d). Qed.
Print Assumptions C64_compactU16.
Theorem C64_borsh : forall W named t v o d st l fuel, settled named t -> fits t v -> mget st l = Some v -> (3 * ty_size t <= fuel)%nat ->
  let '(r, v', d') := dest_val Borsh W t (DStart o) v d in
  exists g d1, decodeBorsh W named fuel (RVar t l false) (Some o) (mkG d st) = (r, mkG d1 (mset st l v' ++ g)) /\
    (r <> Panic -> d1 = d').
Proof. intros W named t v o d st l fuel Hg Hf Hm Hn. exact (proj1 (go_decodes Borsh W named t Hg v o st l fuel Hf Hm Hn) d). Qed.
Print Assumptions C64_borsh.
(** Decode(&x): the error, the reading position and what x holds, also after a
    failure. *)
Theorem C64_decode : forall W named t v s fuel, settled named t -> fits t v -> (3 * ty_size t <= fuel)%nat ->
  exists x g d, go_decode W named fuel (RAddr t (mkLoc 0 [])) (mkG s [v]) = (blame (fst (decode t v s)), mkG d (x :: g)) /\
    (fst (decode t v s) <> Panic -> d = snd (decode t v s)) /\
    (forall y, fst (decode t v s) = Ok y -> x = y) /\
    x = snd (fst (dest_val (d_enc s) W t (DStart opt0) v s)).
Proof. exact go_decode_run. Qed.
Print Assumptions C64_decode.
(** Decode(x) where x is not a pointer, and Decode of a nil pointer. *)
Theorem C64_not_a_pointer : forall W named fuel rv s, is_kptr (r_kind rv) = false ->
  go_decode W named fuel rv s = (Err EInvalidDecoder, s).
Proof. exact go_decode_not_pointer. Qed.
Print Assumptions C64_not_a_pointer.
Theorem C64_nil_pointer : forall W named fuel t s, fst (go_decode W named (S (S fuel)) (RNil t) s) = Panic /\
  g_mem (snd (go_decode W named (S (S fuel)) (RNil t) s)) = g_mem s.
Proof. exact go_decode_nil. Qed.
Print Assumptions C64_nil_pointer.
(** What the transcribed encoder writes the transcribed decoder reads back. *)
Theorem C64_round_trip : forall E W named t v fuel, settled named t -> fits t v -> ok E t None LE v -> canon E t None LE v -> (3 * ty_size t <= fuel)%nat ->
  exists b g d,
    (let '(r, s) := go_encode unknown fuel (Rv t v) (new_encoder E buffer) in (r, e_acc s)) = (Ok tt, b) /\
    go_decode W named fuel (RAddr t (mkLoc 0 [])) (mkG (new_decoder E b) [zero_val t]) = (Ok tt, mkG d (v :: g)) /\
    d_pos d = zlen b.
Proof. exact go_round_trip. Qed.
Print Assumptions C64_round_trip.

(** The sample again: read back; cut off in the middle of the map, with the
    fields before it filled in; and in the wrong encoding. *)
Definition c64_run E data := let '(r, s) := go_decode (fun _ _ v _ => v) (mkOut (fun _ => false) (fun _ => None)) 80 (RAddr c63_t (mkLoc 0 [])) (mkG (new_decoder E data) [zero_val c63_t]) in
  (r, nth_error (g_mem s) 0, d_pos (g_dec s)).
Example C64_sample : let data := [2; 1; 0; 1; 7; 0; 2; 0; 0; 0; 1; 0; 0; 0; 65; 3; 0; 1; 0; 0; 0; 66; 255; 255; 1; 1; 0; 0; 0; 67] in
  let start := [VNum 2; VSlice (Some [VPtr (Some (VBool true)); VPtr (Some (VBool false))]); VStr []; VPtr (Some (VNum 7))] in
  c64_run Borsh data =
    (Ok tt, Some (VStruct (start ++
      [VMap (Some [(VStr [65], VNum 3); (VStr [66], VNum (-1))]); VStruct [VNum 1; VNum 0; VPtr (Some (VStruct [VStr [67]]))]])), 30) /\
  c64_run Borsh (firstn 21 data) =
    (Err (EWrap EMsg), Some (VStruct (start ++
      [VMap (Some [(VStr [65], VNum 3)]); VStruct [VNum 0; VNum 0; VPtr None]])), 21) /\
  c64_run Bin (firstn 20 data) =
    (Err (EWrap (EWrap (EWrap EUnexpectedEOF))), Some (VStruct
      [VNum 2; VSlice (Some [VPtr (Some (VBool true)); VPtr (Some (VBool false))]); VStr []; VPtr (Some (VNum 0)); VMap None;
       VStruct [VNum 1; VNum 0; VPtr (Some (VStruct [VStr []]))]]), 20).
Proof. vm_compute. repeat split. Qed.

(** ** C67: interfaces holding pointers *)

(** [goD E] is decodeBin, decodeCompactU16 or decodeBorsh.  [rv] is an interface
    variable at [l] or its address; it holds a pointer to a variable of type [t]
    somewhere else.  Then that variable is decoded into, as Dest.v says, and the
    interface is left alone - also when the field is optional, if the variable
    is itself a pointer. *)
Theorem C67_through : forall E W named t o l l' st v d rv fuel,
  points named st l t l' -> l' <> l -> settled named t -> fits t v -> mget st l' = Some v -> iface_at l rv ->
  is_ptr t = true \/ o_opt o || (is_borsh E && o_copt o) = false -> (3 * ty_size t + 4 <= fuel)%nat ->
  let '(r, v', d') := dest_val E W t (DStart o) v d in
  exists g d1, goD E W named fuel rv (Some o) (mkG d st) = (r, mkG d1 (mset st l' v' ++ g)) /\ (r <> Panic -> d1 = d').
Proof. exact through. Qed.
Print Assumptions C67_through.
(** Decode(&i). *)
Theorem C67_decode : forall W named t l l' st v d fuel,
  points named st l t l' -> l' <> l -> settled named t -> fits t v -> mget st l' = Some v -> (3 * ty_size t + 4 <= fuel)%nat ->
  exists x g d1, go_decode W named fuel (RAddr TIface l) (mkG d st) = (blame (fst (decode t v d)), mkG d1 (mset st l' x ++ g)) /\
    (fst (decode t v d) <> Panic -> d1 = snd (decode t v d)) /\
    (forall y, fst (decode t v d) = Ok y -> x = y).
Proof. exact decode_through. Qed.
Print Assumptions C67_decode.
(** An optional interface holding a pointer to something that is not a pointer:
    an absent value makes the interface nil and leaves the variable alone. *)
Theorem C67_optional : forall E W named t o l l' st v d d1 rv fuel,
  points named st l t l' -> l' <> l -> settled named t -> fits t v -> mget st l' = Some v -> iface_at l rv ->
  is_ptr t = false -> o_opt o = true -> (3 * ty_size t + 4 <= fuel)%nat ->
  let after := goD E W named fuel rv (Some o) (mkG d st) in
  let d0 := snd (d_set_cur (o_order o) d) in
  (raw_flag E d0 = (Ok false, d1) -> after = (Ok tt, mkG d1 (mset st l (VIface None)))) /\
  (raw_flag E d0 = (Ok true, d1) -> same l' st after (dest_val E W t (DWalk o (is_borsh E && o_copt o)) v d1)) /\
  (forall e, raw_flag E d0 = (Err e, d1) -> after = (Err EMsg, mkG d1 st)).
Proof. exact optional_through. Qed.
Print Assumptions C67_optional.
(** Nil interfaces, interfaces holding something else, and an interface holding
    its own address: nothing is read and nothing is changed. *)
Theorem C67_left_alone : forall E W named o l st d rv fuel, iface_at l rv -> opaque named st l \/ points named st l TIface l ->
  o_opt o || (is_borsh E && o_copt o) = false -> (4 <= fuel)%nat ->
  goD E W named fuel rv (Some o) (mkG d st) = (Ok tt, mkG (snd (d_set_cur (o_order o) d)) st).
Proof. exact left_alone. Qed.
Print Assumptions C67_left_alone.
(** The check for an interface holding its own address (/repo/decoder.go:736-742)
    does not see longer rings: Decode then runs forever.  No amount of fuel is
    enough, whatever the encoding and the input. *)
Theorem C67_ring : forall W named st L l d fuel, ring named st L -> In l L ->
  fst (go_decode W named fuel (RAddr TIface l) (mkG d st)) = Stuck.
Proof. exact ring_forever. Qed.
Print Assumptions C67_ring.
Definition c67_world : outside := mkOut (fun _ => false) (fun z =>
  match z with
  | 1 => Some (TUint UPlain W16, mkLoc 1 [])
  | 2 => Some (TIface, mkLoc 3 []) | 3 => Some (TIface, mkLoc 2 [])
  | 4 => Some (TPtr (TUint UPlain W16), mkLoc 4 [])
  | _ => None
  end).
Theorem C67_returns_refuted : exists named st t l v, mget st l = Some v /\ fits t v /\
  forall W d fuel, fst (go_decode W named fuel (RAddr t l) (mkG d st)) = Stuck.
Proof.
  exists c67_world, [VOther; VOther; VIface (Some 2); VIface (Some 3)], TIface, (mkLoc 2 []), (VIface (Some 2)).
  split; [reflexivity|]. split; [cbn; eauto|]. intros W d fuel.
  apply (C67_ring W c67_world _ [mkLoc 2 []; mkLoc 3 []]); [|now left].
  intros l [<-|[<-|[]]]; [exists (mkLoc 3 [])|exists (mkLoc 2 [])]; (split; [eexists; split; reflexivity|]); (split; [cbn; auto|discriminate]).
Qed.
Print Assumptions C67_returns_refuted.

(** struct { A interface{}; N uint8; B interface{} `bin:"optional"`; C interface{} }
    where A and B hold pointers to a uint16 and C a pointer to a *uint16. *)
Definition c67_t : ty := TStruct [plain "A" TIface; plain "N" u8; tagged "B" "optional" TIface; plain "C" TIface].
Definition c67_run E data := let '(r, s) := go_decode (fun _ _ v _ => v) c67_world 80 (RAddr c67_t (mkLoc 0 []))
    (mkG (new_decoder E data) [VStruct [VIface (Some 1); VNum 0; VIface (Some 1); VIface (Some 4)]; VNum 7; VOther; VOther; VPtr None]) in
  (r, g_mem s, d_pos (g_dec s)).
Example C67_sample :
  c67_run Borsh [1; 2; 9; 1; 3; 4; 5; 6] =
    (Ok tt, [VStruct [VIface (Some 1); VNum 9; VIface (Some 1); VIface (Some 4)]; VNum 1027; VOther; VOther; VPtr (Some (VNum 1541))], 8) /\
  c67_run Borsh [1; 2; 9; 0; 5; 6] =
    (Ok tt, [VStruct [VIface (Some 1); VNum 9; VIface None; VIface (Some 4)]; VNum 513; VOther; VOther; VPtr (Some (VNum 1541))], 6) /\
  c67_run Borsh [1; 2; 9; 0; 5] =
    (Err (EWrap EMsg), [VStruct [VIface (Some 1); VNum 9; VIface None; VIface (Some 4)]; VNum 513; VOther; VOther; VPtr (Some (VNum 0))], 4).
Proof. vm_compute. repeat split. Qed.
