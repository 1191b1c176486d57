(** Methods called directly, and the argument of Decode: C72. *)
From Coq Require Import String.
From Verif Require Import Types EncPrim DecPrim Enc Dec Builtin Spec NumFacts EncFacts EncWire LibSpec DirectFacts Dest GoEnc GoDec GoDecFacts.

(** * C72 *)

(** MarshalWithEncoder of a library type called on an encoder in any state: the
    bytes of C56 in the order of currentFieldOpt; without one, 128-bit numbers use
    their Endianness and Int64, Uint64 and JSONFloat64 panic. *)
Theorem C72_marshal : forall E k v c, carries E k v -> known_endian k v ->
  match in_effect k v c with
  | Some o => emits E c (marshal_method k v) (lib_bytes E o k v) c
  | None => forall s, e_cur s = c -> marshal_method k v s = (Panic, s)
  end.
Proof.
  intros E k v c Hv Hk. destruct (in_effect k v c) as [o|] eqn:H.
  - now apply direct_marshal.
  - intros s Hs. now apply (direct_marshal_panic E k v c s).
Qed.
Print Assumptions C72_marshal.

(** UnmarshalWithDecoder on a variable holding [p]. *)
Theorem C72_unmarshal : forall E k v p c, carries E k v -> fits (lib_ty k) p -> known_endian k p ->
  match in_effect k p c with
  | Some o => forall pre post,
      unmarshal_method k p (mkD (pre ++ lib_bytes E o k v ++ post) (zlen pre) c E) =
      (Ok (lib_back v), mkD (pre ++ lib_bytes E o k v ++ post) (zlen pre + zlen (lib_bytes E o k v)) c E)
  | None => forall s, d_cur s = c -> unmarshal_method k p s = (Panic, s)
  end.
Proof.
  intros E k v p c Hv Hp Hk. destruct (in_effect k p c) as [o|] eqn:H.
  - exact (direct_unmarshal E k v p c o Hv Hp Hk H).
  - intros s Hs. now apply (direct_unmarshal_panic E k v p c s).
Qed.
Print Assumptions C72_unmarshal.

(** So a 128-bit number keeps its value if both variables have the same
    Endianness and both sides are called on a new encoder and decoder. *)
Theorem C72_own_order : forall E k lo hi a b e o, In k [LUint128; LInt128; LFloat128] ->
  0 <= lo < 2 ^ 64 -> 0 <= hi < 2 ^ 64 -> fits (lib_ty k) (VStruct [a; b; VIface e]) ->
  endian (VStruct [a; b; VIface e]) = Some o ->
  emits E None (marshal_method k (VStruct [VNum lo; VNum hi; VIface e])) (fixed o 16 (lo + 2 ^ 64 * hi)) None /\
  unmarshal_method k (VStruct [a; b; VIface e]) (new_decoder E (fixed o 16 (lo + 2 ^ 64 * hi))) =
    (Ok (VStruct [VNum lo; VNum hi; VIface None]), mkD (fixed o 16 (lo + 2 ^ 64 * hi)) 16 None E).
Proof.
  intros E k lo hi a b e o Hk Hl Hh Hf He.
  pose proof (car_128 E k lo hi e Hk Hl Hh) as Hv.
  assert (He' : endian (VStruct [VNum lo; VNum hi; VIface e]) = Some o) by exact He.
  pose proof (C72_marshal E k (VStruct [VNum lo; VNum hi; VIface e]) None Hv) as H1.
  pose proof (C72_unmarshal E k _ (VStruct [a; b; VIface e]) None Hv Hf) as H2.
  assert (L : zlen (fixed o 16 (lo + 2 ^ 64 * hi)) = 16) by (unfold zlen; now rewrite fixed_length).
  destruct Hk as [<-|[<-|[<-|[]]]]; cbn [in_effect known_endian] in H1, H2; rewrite He' in H1; rewrite He in H2;
    (split; [apply H1; discriminate|]);
    (specialize (H2 ltac:(discriminate) [] []); cbn [app lib_bytes lib_back] in H2; rewrite app_nil_r, L in H2; exact H2).
Qed.
Print Assumptions C72_own_order.

(** Encode leaves its last byte order behind, and a method called directly
    afterwards uses it: a number with LittleEndian comes out big endian, and
    Uint64, which panics on a new encoder, does not. *)
Definition big_field : ty := TStruct [(mkF "A" true (mkTag "big" "" ""), TUint UPlain W16)].
Definition fresh (E : encoding) : est := mkE E (fun _ => None) None 0 [] [].
Theorem C72_order_left_refuted :
  exists t v k x, carries Bin k x /\ endian x = Some LE /\
    marshal_method k x (fresh Bin) = (Ok tt, mkE Bin (fun _ => None) None 16 [lib_bytes Bin LE k x] (lib_bytes Bin LE k x)) /\
    e_acc (snd ((encode t v ;;; marshal_method k x) (fresh Bin))) = [1; 2] ++ lib_bytes Bin BE k x /\
    lib_bytes Bin BE k x <> lib_bytes Bin LE k x.
Proof.
  exists big_field, (VStruct [VNum 258]), LUint128, (VStruct [VNum 7; VNum 0; VIface (Some 0)]).
  split; [constructor; cbn; auto; lia|]. split; [reflexivity|]. split; [vm_compute; reflexivity|].
  split; [vm_compute; reflexivity|]. vm_compute. discriminate.
Qed.
Print Assumptions C72_order_left_refuted.

(** Decode of anything but a pointer (nil among them) is an InvalidDecoderError,
    and nothing is read; Decode of a nil pointer panics.  [decode_target] says
    the same as the transcription of decodeWithOptionBin and its copies. *)
Theorem C72_target : forall W named fuel s,
  (forall rv, is_kptr (r_kind rv) = false ->
     go_decode W named fuel rv s = (Err EInvalidDecoder, s) /\
     decode_target TgtNonPointer (g_dec s) = (Err EInvalidDecoder, g_dec s)) /\
  (forall t, fst (go_decode W named (S (S fuel)) (RNil t) s) = Panic /\
     fst (decode_target (TgtNilPointer t) (g_dec s)) = Panic).
Proof.
  intros W named fuel s. split.
  - intros rv H. split; [now apply go_decode_not_pointer|reflexivity].
  - intro t. split; [exact (proj1 (go_decode_nil W named fuel t s))|reflexivity].
Qed.
Print Assumptions C72_target.

(** ** Cases *)
Example C72_methods :
  let run k x c := let r := marshal_method k x (mkE Borsh (fun _ => None) c 0 [] []) in (fst r, e_acc (snd r)) in
  (run LUint64 (VNum 258) None, run LUint64 (VNum 258) (Some BE), run LUint64 (VNum 258) (Some LE),
   run LInt128 (VStruct [VNum 1; VNum 2; VIface (Some 1)]) None, run LInt128 (VStruct [VNum 1; VNum 2; VIface None]) None,
   run LInt128 (VStruct [VNum 1; VNum 2; VIface (Some 1)]) (Some LE), run LBool (VBool true) None) =
  ((Panic, []), (Ok tt, [0;0;0;0;0;0;1;2]), (Ok tt, [2;1;0;0;0;0;0;0]),
   (Ok tt, [0;0;0;0;0;0;0;2; 0;0;0;0;0;0;0;1]), (Ok tt, [1;0;0;0;0;0;0;0; 2;0;0;0;0;0;0;0]),
   (Ok tt, [1;0;0;0;0;0;0;0; 2;0;0;0;0;0;0;0]), (Ok tt, [1])).
Proof. vm_compute. reflexivity. Qed.
Example C72_methods_read :
  let d := [0;0;0;0;0;0;0;2; 0;0;0;0;0;0;0;1] in
  let run k p c := fst (unmarshal_method k p (mkD d 0 c CompactU16)) in
  (run LUint128 (VStruct [VNum 9; VNum 9; VIface (Some 1)]) None, run LUint128 (VStruct [VNum 9; VNum 9; VIface None]) None,
   run LUint128 (VStruct [VNum 9; VNum 9; VIface None]) (Some BE), run LInt64 (VNum 0) None, run LInt64 (VNum 0) (Some BE)) =
  (Ok (VStruct [VNum 1; VNum 2; VIface None]), Ok (VStruct [VNum (2 ^ 57); VNum (2 ^ 56); VIface None]),
   Ok (VStruct [VNum 1; VNum 2; VIface None]), Panic, Ok (VNum 2)).
Proof. vm_compute. reflexivity. Qed.
