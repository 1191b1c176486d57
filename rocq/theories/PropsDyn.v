(** Maps of interfaces: Encode looks into interfaces that are keys or values of
    maps, and nowhere else (C73). *)
From Coq Require Import String.
From Verif Require EncWire.
From Verif Require Import Types EncPrim Enc DecPrim Dec Builtin Spec TyInd PropsCodec GoEnc GoEncFacts GoDec DynSpec DynFacts.
Notation length := Datatypes.length.

(** ** C73: maps of interfaces *)

(** [dyn] says what interfaces hold.  Whatever it says, Encode does what Enc.v
    describes, unless that leaves the outcome open: so C63 and all that is stated
    about Encode elsewhere do not depend on it. *)
Theorem C73_same : forall dyn t v s fuel, go_type t -> fits t v -> (3 * ty_size t <= fuel)%nat -> fst (encode t v s) <> Stuck ->
  go_encode dyn fuel (Rv t v) s = encode t v s.
Proof. exact go_encode_dyn. Qed.
Print Assumptions C73_same.
(** The bytes of [sends] (DynSpec.v) are written, with any writer: in chunks,
    until it fails. *)
Theorem C73_writes : forall dyn E t v bs, sends dyn E t None LE v bs -> exists n, forall fuel, (n <= fuel)%nat -> forall c, exists cs c',
  script E c (go_encode dyn fuel (Rv t v)) cs (Ok tt) c' /\ List.concat cs = bs.
Proof. exact sends_go. Qed.
Print Assumptions C73_writes.
(** If all the values are of one type, map[K]interface{} is written as map[K]T:
    also errors, panics, and the state afterwards. *)
Theorem C73_uniform : forall dyn kt vt m m' s fuel, vt <> TIface -> unboxes dyn vt m m' ->
  go_type (TMap kt vt) -> fits (TMap kt vt) (VMap (Some m')) -> (3 * ty_size (TMap kt vt) <= fuel)%nat ->
  fst (encode (TMap kt vt) (VMap (Some m')) s) <> Stuck ->
  go_encode dyn fuel (Rv (TMap kt TIface) (VMap (Some m))) s = encode (TMap kt vt) (VMap (Some m')) s.
Proof. exact uniform_encode. Qed.
Print Assumptions C73_uniform.
(** If all the keys are of one type, map[interface{}]V is written as map[K]V.
    In Borsh: sorted as the keys inside the interfaces are. *)
Theorem C73_uniform_keys : forall dyn kt vt m m' s fuel, kt <> TIface -> well_named dyn kt -> unboxes_keys dyn kt m m' ->
  go_type (TMap kt vt) -> fits (TMap kt vt) (VMap (Some m')) -> (3 * ty_size (TMap kt vt) <= fuel)%nat ->
  fst (encode (TMap kt vt) (VMap (Some m')) s) <> Stuck ->
  go_encode dyn fuel (Rv (TMap TIface vt) (VMap (Some m))) s = encode (TMap kt vt) (VMap (Some m')) s.
Proof. exact uniform_keys_encode. Qed.
Print Assumptions C73_uniform_keys.
(** map[interface{}]uint8{"b": 2, "a": 1}; and two keys of type bool, which
    vComp cannot compare. *)
Example C73_keys : let dyn := fun z => if z =? 1 then Some (TString, VStr [98]) else if z =? 2 then Some (TString, VStr [97])
    else Some (TBool, VBool (z =? 3)) in
  let run E k1 k2 := let '(r, s) := go_encode dyn 40 (Rv (TMap TIface u8) (VMap (Some [(VIface (Some k1), VNum 2); (VIface (Some k2), VNum 1)])))
    (new_encoder E (fun _ => None)) in (r, e_acc s) in
  run Borsh 1 2 = (Ok tt, [2; 0; 0; 0; 1; 0; 0; 0; 97; 1; 1; 0; 0; 0; 98; 2]) /\
  run CompactU16 1 2 = (Ok tt, [2; 1; 98; 2; 1; 97; 1]) /\
  run Borsh 3 4 = (Panic, []) /\
  run Bin 3 4 = (Ok tt, [2; 1; 2; 0; 1]).
Proof. vm_compute. repeat split. Qed.

(** Elsewhere interfaces are written as nothing. *)
Theorem C73_elsewhere : forall dyn i s fuel, go_encode dyn (S fuel) (Rv TIface (VIface i)) s =
  (Ok tt, mkE (e_enc s) (e_w s) (Some LE) (e_count s) (e_hist s) (e_acc s)).
Proof. intros dyn i s fuel. rewrite go_encode_goEd, goEd_eq. destruct s as [[] ? ? ? ? ?]; reflexivity. Qed.
Print Assumptions C73_elsewhere.

(** m := map[uint8]interface{}{}; m[k] = m; Encode(m): every level writes at
    least a byte and calls itself again.  (In Go: "stack overflow", which cannot
    be recovered from.) *)
Theorem C73_knot : forall dyn z k E fuel, dyn z = Some (knot_type, knot z k) ->
  let '(r, s) := go_encode dyn fuel (Rv knot_type (knot z k)) (new_encoder E (fun _ => None)) in
  r = Stuck /\ Z.of_nat fuel <= zlen (e_acc s).
Proof. exact knot_forever. Qed.
Print Assumptions C73_knot.
Theorem C73_ends_refuted : exists dyn t v, go_type t /\ fits t v /\
  forall E fuel, fst (go_encode dyn fuel (Rv t v) (new_encoder E (fun _ => None))) = Stuck.
Proof.
  exists (fun _ => Some (knot_type, knot 0 7)), knot_type, (knot 0 7). split; [cbn; tauto|]. split.
  - eexists. split; [reflexivity|]. intros es [= <-]. repeat constructor; cbn; eauto. exists 7. split; [reflexivity|]. cbn. lia.
  - intros E fuel. pose proof (C73_knot (fun _ => Some (knot_type, knot 0 7)) 0 7 E fuel eq_refl) as H.
    destruct (go_encode _ _ _ _) as [r s]. apply H.
Qed.
Print Assumptions C73_ends_refuted.

(** A document: map[string]interface{}{"a": uint16(258), "b": []string{"x"},
    "c": nil, "d": map[uint8]interface{}{9: true, 4: int8(-1)}} inside
    struct { V uint8; M map[string]interface{}; O interface{} }. *)
Definition c73_dyn : dynamic := fun z =>
  match z with
  | 1 => Some (TUint UPlain W16, VNum 258)
  | 2 => Some (TSlice TString, VSlice (Some [VStr [120]]))
  | 3 => Some (TMap u8 TIface, VMap (Some [(VNum 9, VIface (Some 4)); (VNum 4, VIface (Some 5))]))
  | 4 => Some (TBool, VBool true)
  | 5 => Some (TInt false W8, VNum (-1))
  | _ => None
  end.
Definition c73_t : ty := TStruct [plain "V" u8; plain "M" (TMap TString TIface); plain "O" TIface].
Definition c73_v : val := VStruct [VNum 1; VMap (Some
  [(VStr [100], VIface (Some 3)); (VStr [97], VIface (Some 1)); (VStr [99], VIface None); (VStr [98], VIface (Some 2))]); VIface (Some 1)].
Definition c73_run E := let '(r, s) := go_encode c73_dyn 40 (Rv c73_t c73_v) (new_encoder E (fun _ => None)) in (r, e_acc s).
Definition c73_borsh : list Z := [1; 4; 0; 0; 0;
  1; 0; 0; 0; 97; 2; 1;
  1; 0; 0; 0; 98; 1; 0; 0; 0; 1; 0; 0; 0; 120;
  1; 0; 0; 0; 99;
  1; 0; 0; 0; 100; 2; 0; 0; 0; 4; 255; 9; 1].
Example C73_document :
  c73_run Borsh = (Ok tt, c73_borsh) /\
  c73_run CompactU16 = (Ok tt, [1; 4; 1; 100; 2; 9; 1; 4; 255; 1; 97; 2; 1; 1; 99; 1; 98; 1; 1; 120]).
Proof. vm_compute. repeat split. Qed.
(** The same by the specification. *)
Example C73_document_sends : sends c73_dyn Borsh c73_t None LE c73_v c73_borsh.
Proof.
  assert (Hs : forall c, 0 <= c < 256 -> boxed_as c73_dyn Borsh TString (VStr [c]) [1; 0; 0; 0; c]).
  { intros c Hc. apply boxed_plain; [discriminate|]. change [1; 0; 0; 0; c] with (wire Borsh TString None LE (VStr [c])).
    assert (bytes_ok [c]) by (repeat constructor; lia).
    apply sends_plain; [exact I|eexists; eauto|]. eexists. split; [reflexivity|]. split; [assumption|]. cbn. lia. }
  assert (Hk : forall c, 0 <= c < 256 -> boxed_as c73_dyn Borsh u8 (VNum c) [c]).
  { intros c Hc. apply boxed_plain; [discriminate|].
    replace [c] with (wire Borsh u8 None LE (VNum c)) by (change (fixed LE 1 c = [c]); rewrite EncWire.fixed_1, Z.mod_small by lia; reflexivity).
    apply sends_plain; [exact I|exists c; cbn; auto|exists c; cbn; auto]. }
  assert (H1 : boxed_as c73_dyn Borsh TIface (VIface (Some 1)) [2; 1]).
  { eapply boxed_value; [reflexivity|]. apply (sends_plain c73_dyn Borsh (TUint UPlain W16) None LE (VNum 258)); [exact I| |]; exists 258; cbn; auto with zarith. }
  assert (H2 : boxed_as c73_dyn Borsh TIface (VIface (Some 2)) [1; 0; 0; 0; 1; 0; 0; 0; 120]).
  { eapply boxed_value; [reflexivity|]. change [1; 0; 0; 0; 1; 0; 0; 0; 120] with (count Borsh (zlen [VStr [120]]) ++ [1; 0; 0; 0; 120] ++ []).
    apply (sends_slice c73_dyn Borsh _ None); [reflexivity|cbn; lia|]. constructor; [|constructor]. specialize (Hs 120 ltac:(lia)). now inversion Hs. }
  assert (H4 : boxed_as c73_dyn Borsh TIface (VIface (Some 4)) [1]).
  { eapply boxed_value; [reflexivity|]. apply (sends_plain c73_dyn Borsh TBool None LE (VBool true)); [exact I| |]; exists true; reflexivity. }
  assert (H5 : boxed_as c73_dyn Borsh TIface (VIface (Some 5)) [255]).
  { eapply boxed_value; [reflexivity|]. apply (sends_plain c73_dyn Borsh (TInt false W8) None LE (VNum (-1))); [exact I| |]; exists (-1); cbn; auto with zarith. }
  assert (H3 : boxed_as c73_dyn Borsh TIface (VIface (Some 3)) [2; 0; 0; 0; 4; 255; 9; 1]).
  { eapply boxed_value; [reflexivity|].
    apply (sends_map c73_dyn Borsh u8 TIface None LE [(VNum 9, VIface (Some 4)); (VNum 4, VIface (Some 5))] [4; 255; 9; 1]);
      [cbn; lia|repeat constructor|repeat constructor|reflexivity|].
    apply (entries_cons c73_dyn Borsh _ _ _ _ _ [4] [255]); [apply Hk; lia|exact H5|].
    apply (entries_cons c73_dyn Borsh _ _ _ _ _ [9] [1] []); [apply Hk; lia|exact H4|constructor]. }
  assert (Hf : forall name t fs v vs s b1 b2, sends c73_dyn Borsh t (s name) LE v b1 -> sends_fields c73_dyn Borsh fs vs s b2 ->
    sends_fields c73_dyn Borsh (plain name t :: fs) (v :: vs) s (b1 ++ b2)).
  { intros name t fs v vs s b1 b2 Ha Hb.
    exact (fields_live c73_dyn Borsh (fst (plain name t)) t fs v vs s b1 b2 eq_refl (or_introl eq_refl) Ha Hb). }
  apply sends_struct; [reflexivity|].
  apply (Hf "V"%string u8 _ (VNum 1) _ _ [1]); [specialize (Hk 1 ltac:(lia)); now inversion Hk|].
  apply (Hf "M"%string (TMap TString TIface) _ _ _ _ (skipn 1 c73_borsh) []).
  - apply (sends_map c73_dyn Borsh TString TIface None LE [(VStr [100], VIface (Some 3)); (VStr [97], VIface (Some 1)); (VStr [99], VIface None); (VStr [98], VIface (Some 2))] (skipn 5 c73_borsh)); [cbn; lia|repeat constructor|repeat constructor|reflexivity|].
    apply (entries_cons c73_dyn Borsh _ _ _ _ _ [1; 0; 0; 0; 97] [2; 1]); [apply Hs; lia|exact H1|].
    apply (entries_cons c73_dyn Borsh _ _ _ _ _ [1; 0; 0; 0; 98] [1; 0; 0; 0; 1; 0; 0; 0; 120]); [apply Hs; lia|exact H2|].
    apply (entries_cons c73_dyn Borsh _ _ _ _ _ [1; 0; 0; 0; 99] []); [apply Hs; lia|constructor|].
    apply (entries_cons c73_dyn Borsh _ _ _ _ _ [1; 0; 0; 0; 100] [2; 0; 0; 0; 4; 255; 9; 1] []); [apply Hs; lia|exact H3|constructor].
  - apply (Hf "O"%string TIface _ _ _ _ [] []); [|constructor].
    apply (sends_plain c73_dyn Borsh TIface None LE (VIface (Some 1))); [exact I|eexists; reflexivity|eexists; reflexivity].
Qed.

(** What is written for map[uint8]interface{}{1: uint8(2)} is not read back: the
    decoder leaves the values nil and does not read their bytes. *)
Theorem C73_round_trip_refuted : exists dyn t v, go_type t /\ fits t v /\ forall E,
  let '(r, s) := go_encode dyn 40 (Rv t v) (new_encoder E (fun _ => None)) in
  r = Ok tt /\
  let '(x, d) := decode t (zero_val t) (new_decoder E (e_acc s)) in
  x = Ok (VMap (Some [(VNum 1, VIface None)])) /\ x <> Ok v /\ d_pos d = zlen (e_acc s) - 1.
Proof.
  exists (fun _ => Some (u8, VNum 2)), (TMap u8 TIface), (VMap (Some [(VNum 1, VIface (Some 0))])). split; [cbn; tauto|]. split.
  - eexists. split; [reflexivity|]. intros es [= <-]. repeat constructor; cbn; eauto. exists 1. split; [reflexivity|]. cbn. lia.
  - intros []; vm_compute; repeat split; discriminate.
Qed.
Print Assumptions C73_round_trip_refuted.
