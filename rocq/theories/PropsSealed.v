(** C78: unexported variants of Borsh enums. *)
From Verif Require Import Types EncPrim DecPrim Enc Dec Builtin Spec NumFacts EncFacts EncWire Check PropsCodec FieldFacts EnumFacts
  GoEnc Dest GoDec SealedSpec SealedFacts.

Local Open Scope string_scope.
Local Open Scope list_scope.

(** [shown]: numbers and texts, and for enums the number and in turn the variant;
    [lendless]: no sizeof tags. *)
Theorem C78_written : forall fs z vs h t v b,
  enum_struct Borsh fs = true -> 0 <= z < 256 ->
  nth_error fs (S (Z.to_nat z)) = Some (h, t) -> f_exported h = false ->
  nth_error vs (Z.to_nat z) = Some v -> fits t v -> lendless t = true -> shown_variant t v = Some b ->
  marshal Borsh (TStruct fs) (VStruct (VNum z :: vs)) = (Ok tt, z :: b).
Proof. exact marshal_sealed. Qed.
Print Assumptions C78_written.
(** Nothing is written of a struct, and there is no error. *)
Theorem C78_struct_not_written : forall fs z vs h t v r, enum_struct Borsh fs = true -> 0 <= z < 256 ->
  nth_error fs (S (Z.to_nat z)) = Some (h, t) -> f_exported h = false ->
  nth_error vs (Z.to_nat z) = Some v -> fits t v -> lendless t = true ->
  record (match t with TPtr t' => t' | _ => t end) = Some r ->
  marshal Borsh (TStruct fs) (VStruct (VNum z :: vs)) = (Ok tt, [z]).
Proof. exact struct_not_written. Qed.
Print Assumptions C78_struct_not_written.
(** Nor is anything read: it keeps what the destination has. *)
Theorem C78_struct_not_read : forall fs h0 n h t p0 p ps r data,
  enum_struct Borsh fs = true -> hd_error fs = Some (h0, BorshEnum) -> f_exported h0 = true -> 0 <= n < 256 ->
  nth_error fs (S (Z.to_nat n)) = Some (h, t) -> f_exported h = false -> nth_error ps (Z.to_nat n) = Some p ->
  fits t p -> record t = Some r -> extensions_last r false = true ->
  unmarshal Borsh (TStruct fs) (VStruct (p0 :: ps)) (n :: data) = Ok (VStruct (VNum n :: ps)).
Proof. exact struct_read. Qed.
Print Assumptions C78_struct_not_read.
(** Whatever the type of the variant: if there is no error, only the number has
    changed. *)
Theorem C78_kept : forall fs n h t p0 p ps data x, enum_struct Borsh fs = true -> hd 0 data = n -> 0 <= n < 256 ->
  nth_error fs (S (Z.to_nat n)) = Some (h, t) -> f_exported h = false -> nth_error ps (Z.to_nat n) = Some p ->
  unmarshal Borsh (TStruct fs) (VStruct (p0 :: ps)) data = Ok x -> x = VStruct (VNum n :: ps).
Proof. exact kept. Qed.
Print Assumptions C78_kept.
(** Numbers, texts and enums never decode, though they were written; numbers
    panic, even where bytes are missing; so do nil pointers. *)
Theorem C78_values_fail : forall fs n h t p0 p ps data x, enum_struct Borsh fs = true -> hd 0 data = n -> 0 <= n < 256 ->
  nth_error fs (S (Z.to_nat n)) = Some (h, t) -> f_exported h = false -> nth_error ps (Z.to_nat n) = Some p ->
  stores t = true -> unmarshal Borsh (TStruct fs) (VStruct (p0 :: ps)) data <> Ok x.
Proof. exact stores_fail. Qed.
Print Assumptions C78_values_fail.
Theorem C78_numbers_panic : forall fs h0 n h t p0 p ps data,
  enum_struct Borsh fs = true -> hd_error fs = Some (h0, BorshEnum) -> f_exported h0 = true -> 0 <= n < 256 -> bytes_ok data ->
  nth_error fs (S (Z.to_nat n)) = Some (h, t) -> f_exported h = false -> nth_error ps (Z.to_nat n) = Some p ->
  number (under t) = true ->
  unmarshal Borsh (TStruct fs) (VStruct (p0 :: ps)) (n :: data) = Panic.
Proof. exact numbers_panic. Qed.
Print Assumptions C78_numbers_panic.
Theorem C78_nil_pointer_panics : forall fs h0 n h t p0 ps data,
  enum_struct Borsh fs = true -> hd_error fs = Some (h0, BorshEnum) -> f_exported h0 = true -> 0 <= n < 256 ->
  nth_error fs (S (Z.to_nat n)) = Some (h, TPtr t) -> f_exported h = false -> nth_error ps (Z.to_nat n) = Some (VPtr None) ->
  unmarshal Borsh (TStruct fs) (VStruct (p0 :: ps)) (n :: data) = Panic.
Proof. exact nil_pointer_panics. Qed.
Print Assumptions C78_nil_pointer_panics.

(** type E struct { Kind BorshEnum `borsh_enum:"true"`; A struct{ X uint16 };
    b struct{ X uint16 }; c uint16; d *string; e (an enum with the variants
    x struct{ X uint16 } and y bool); f []uint16 } *)
Definition small (n : string) (t : ty) : fhdr * ty := (mkF n false notag, t).
Definition c78_in : ty := TStruct [plain "X" (TUint UPlain W16)].
Definition c78_fs : list (fhdr * ty) :=
  [ tagged "Kind" "enum" BorshEnum; plain "A" c78_in; small "b" c78_in; small "c" (TUint UPlain W16);
    small "d" (TPtr TString); small "e" (TStruct [tagged "Kind" "enum" BorshEnum; plain "X" c78_in; plain "Y" TBool]);
    small "f" (TSlice (TUint UPlain W16)) ].
Definition c78_vs : list val :=
  [ VStruct [VNum 1]; VStruct [VNum 2]; VNum 3; VPtr (Some (VStr [104])); VStruct [VNum 1; VStruct [VNum 4]; VBool true];
    VSlice (Some [VNum 5]) ].
Example C78_sample_written : enum_struct Borsh c78_fs = true /\ fits (TStruct c78_fs) (VStruct (VNum 0 :: c78_vs)) /\
  map (fun z => marshal Borsh (TStruct c78_fs) (VStruct (VNum z :: c78_vs))) [0; 1; 2; 3; 4; 5] =
  [ (Ok tt, [0; 1; 0]); (Ok tt, [1]); (Ok tt, [2; 3; 0]); (Ok tt, [3; 1; 0; 0; 0; 104]); (Ok tt, [4; 1; 1]); (Ok tt, [5]) ] /\
  map (fun z => match nth_error c78_fs (S z), nth_error c78_vs z with Some (_, t), Some v => shown_variant t v | _, _ => None end) [1; 2; 3; 4; 5]%nat =
  [ Some []; Some [3; 0]; Some [1; 0; 0; 0; 104]; Some [1; 1]; Some [] ].
Proof. split; [reflexivity|]. split; [apply fitsb_ok; reflexivity|]. split; vm_compute; reflexivity. Qed.
Example C78_sample_read :
  map (fun d => unmarshal Borsh (TStruct c78_fs) (VStruct (VNum 9 :: c78_vs)) d)
    [ [0; 7; 0]; [1]; [2; 3; 0]; [2]; [3; 1; 0; 0; 0; 104]; [4; 1; 1]; [5; 0; 0; 0; 0]; [5; 1; 0; 0; 0; 1; 0]; [5; 1; 0; 0; 0] ] =
  [ Ok (VStruct (VNum 0 :: VStruct [VNum 7] :: tl c78_vs)); Ok (VStruct (VNum 1 :: c78_vs)); Panic; Panic; Panic; Panic;
    Ok (VStruct (VNum 5 :: c78_vs)); Panic; Err EUnexpectedEOF ] /\
  unmarshal Borsh (TStruct c78_fs) (zero_val (TStruct c78_fs)) [3; 1; 0; 0; 0; 104] = Panic.
Proof. split; vm_compute; reflexivity. Qed.
(** The same with the functions written after the Go text. *)
Example C78_sample_go :
  map (fun z => let '(r, s) := go_encode unknown 80 (Rv (TStruct c78_fs) (VStruct (VNum z :: c78_vs))) (new_encoder Borsh buffer) in (r, e_acc s))
    [1; 2; 3; 4] = [ (Ok tt, [1]); (Ok tt, [2; 3; 0]); (Ok tt, [3; 1; 0; 0; 0; 104]); (Ok tt, [4; 1; 1]) ] /\
  map (fun d => let '(r, s) := go_decode (fun _ _ v _ => v) (mkOut (fun _ => false) (fun _ => None)) 80
      (RAddr (TStruct c78_fs) (mkLoc 0 [])) (mkG (new_decoder Borsh d) [VStruct (VNum 9 :: c78_vs)]) in (r, nth_error (g_mem s) 0))
    [ [1]; [2; 3; 0]; [5; 0; 0; 0; 0] ] =
  [ (Ok tt, Some (VStruct (VNum 1 :: c78_vs))); (Panic, Some (VStruct (VNum 2 :: c78_vs))); (Ok tt, Some (VStruct (VNum 5 :: c78_vs))) ].
Proof. split; vm_compute; reflexivity. Qed.

(** That values of enums come back is not so with such variants: they may be
    lost in silence, or written and never read. *)
Theorem C78_round_trip_refuted : exists fs v b x, fits (TStruct fs) v /\ marshal Borsh (TStruct fs) v = (Ok tt, b) /\
  unmarshal Borsh (TStruct fs) (zero_val (TStruct fs)) b = Ok x /\ x <> v /\
  exists v' b', fits (TStruct fs) v' /\ marshal Borsh (TStruct fs) v' = (Ok tt, b') /\
    unmarshal Borsh (TStruct fs) (zero_val (TStruct fs)) b' = Panic.
Proof.
  exists c78_fs, (VStruct (VNum 1 :: c78_vs)), [1]. eexists. split; [apply fitsb_ok; reflexivity|].
  split; [vm_compute; reflexivity|]. split; [vm_compute; reflexivity|]. split; [discriminate|].
  exists (VStruct (VNum 2 :: c78_vs)), [2; 3; 0]. split; [apply fitsb_ok; reflexivity|]. split; vm_compute; reflexivity.
Qed.
Print Assumptions C78_round_trip_refuted.
