(** C87. *)
From Coq Require Import String.
From Verif Require Import Types EncPrim DecPrim Enc Dec Builtin Spec NumFacts EncFacts EncProps DecWithin DecLocal DecBound DecWire BuiltinFacts Cost CostSpec CostFacts CostBound
  MemSpec MemFacts MemLib WriteSpec WriteFacts BulkSpec BulkFacts BulkLib Check RelaySpec RelayFacts PropsMem PropsBulk.

(** * C87: encoding again what was decoded *)

(** Decoding into a variable whose maps have differing keys gives a value whose
    maps have: an entry of the input that repeats a key replaces. *)
Theorem C87_keys : forall E t v data x s', all_codecs codec_keyed t -> keyed t v ->
  decode t v (new_decoder E data) = (Ok x, s') -> keyed t x.
Proof. exact decode_keyed. Qed.
Print Assumptions C87_keys.

(** So a decoded value is one Go can have, with lengths that its slots bound. *)
Theorem C87_real : forall E t v data x s', all_codecs codec_keyed t -> keyed t v ->
  decode t v (new_decoder E data) = (Ok x, s') -> real (1 + slots x) t x.
Proof. intros E t v data x s' Hc Hv H. apply keyed_real; [exact (decode_keyed E t v data x s' Hc Hv H)|lia]. Qed.
Print Assumptions C87_real.

(** Marshal, in whichever encoding, gives bytes in proportion to the input used
    up, if the elements of slices and the entries of maps take up room in it. *)
Theorem C87_linear : forall cc kd ke E E' t v data x s', (forall c, 0 <= kd c) ->
  fed E true t -> all_codecs codec_within t -> all_codecs (codec_cheap cc kd) t -> all_codecs (codec_modest cc) t ->
  all_codecs (codec_terse ke) t -> all_codecs codec_scripted t -> all_codecs codec_keyed t -> fits t v -> keyed t v ->
  decode t v (new_decoder E data) = (Ok x, s') ->
  zlen (snd (marshal E' t x)) <= weight ke E' t * (slots v + toll kd t * (1 + d_pos s')).
Proof.
  intros cc kd ke E E' t v data x s' Hkd Hf Hw Hc Hm Ht Hs Hk Hv Hkv Hd.
  pose proof (C83_linear cc kd E t v data x s' Hkd Hf Hw Hc Hm Hv Hd) as H1.
  pose proof (slots_pos x). pose proof (C84_marshal ke E' (1 + slots x) t x ltac:(lia) Ht Hs (C87_real E t v data x s' Hk Hkv Hd)) as H2.
  etransitivity; [exact H2|]. apply Z.mul_le_mono_nonneg_l; [|exact H1]. pose proof (weight_pos ke E' t). lia.
Qed.
Print Assumptions C87_linear.

(** Otherwise the length of the input is another factor. *)
Theorem C87_quadratic : forall cc kd ke E E' t v data x s', (forall c, 0 <= kd c) ->
  fed E false t -> all_codecs codec_within t -> all_codecs (codec_cheap cc kd) t -> all_codecs (codec_modest cc) t ->
  all_codecs (codec_terse ke) t -> all_codecs codec_scripted t -> all_codecs codec_keyed t -> fits t v -> keyed t v ->
  decode t v (new_decoder E data) = (Ok x, s') ->
  zlen (snd (marshal E' t x)) <= weight ke E' t * (slots v + toll kd t * (1 + (1 + zlen data) * d_pos s')).
Proof.
  intros cc kd ke E E' t v data x s' Hkd Hf Hw Hc Hm Ht Hs Hk Hv Hkv Hd.
  pose proof (C83_quadratic cc kd E t v data x s' Hkd Hf Hw Hc Hm Hv Hd) as H1.
  pose proof (slots_pos x). pose proof (C84_marshal ke E' (1 + slots x) t x ltac:(lia) Ht Hs (C87_real E t v data x s' Hk Hkv Hd)) as H2.
  etransitivity; [exact H2|]. apply Z.mul_le_mono_nonneg_l; [|exact H1]. pose proof (weight_pos ke E' t). lia.
Qed.
Print Assumptions C87_quadratic.

(** The methods of the library meet the condition on methods. *)
Theorem C87_methods : Forall (all_codecs codec_keyed) library_types.
Proof. exact library_keyed. Qed.
Print Assumptions C87_methods.

(** Types made of the library's, and a new variable. *)
Theorem C87_library : forall E E' t data x s', over_library t -> fed E true t ->
  decode t (zero_val t) (new_decoder E data) = (Ok x, s') ->
  zlen (snd (marshal E' t x)) <= weight (fun _ => 11) E' t * (room t + toll (fun _ => 3) t * (1 + d_pos s')).
Proof.
  intros E E' t data x s' Ho Hf Hd. rewrite <- slots_zero.
  assert (L1 : Forall (all_codecs (codec_modest (fun c v s => 3 * byte_cost c v s))) library_types) by (eapply Forall_impl; [|exact C83_library]; intros a [H _]; exact H).
  assert (L2 : Forall (all_codecs (codec_cheap (fun c v s => 3 * byte_cost c v s) (fun _ => 3))) library_types) by (eapply Forall_impl; [|exact C83_library]; intros a [_ H]; exact H).
  apply (C87_linear (fun c v s => 3 * byte_cost c v s) _ _ E E' t (zero_val t) data x s'); try assumption; try (intro; lia);
    try (apply over_library_all; [|exact Ho]); try assumption.
  - exact library_within.
  - exact library_terse.
  - exact library_scripted.
  - exact library_keyed.
  - apply fits_zero.
  - apply keyed_zero.
Qed.
Print Assumptions C87_library.

(** ** Cases *)

(** map[string]uint8 with the key "a" twice: the second entry replaces, and what
    is written is shorter. *)
Definition tally : ty := TMap TString (TUint UPlain W8).
Example twice_key : exists s', decode tally (VMap None) (new_decoder CompactU16 [3; 1; 97; 7; 1; 98; 8; 1; 97; 9]) =
    (Ok (VMap (Some [(VStr [97], VNum 9); (VStr [98], VNum 8)])), s') /\
  marshal CompactU16 tally (VMap (Some [(VStr [97], VNum 9); (VStr [98], VNum 8)])) = (Ok tt, [2; 1; 97; 9; 1; 98; 8]).
Proof. eexists. split; vm_compute; reflexivity. Qed.
Example twice_not_keyed : ~ keyed tally (VMap (Some [(VStr [97], VNum 7); (VStr [97], VNum 9)])).
Proof. cbn. intros [H _]. inversion_clear H as [|? ? H1 _]. inversion_clear H1 as [|? ? H2 _]. destruct H2. discriminate. Qed.
(** A key that is not equal to itself is kept each time it comes. *)
Definition nan_key : list Z := [0;0;0;0;0;0;248;127].
Example nan_twice : exists s', decode (TMap (TFloat F64) (TUint UPlain W8)) (VMap None) (new_decoder Bin ([2] ++ nan_key ++ [1] ++ nan_key ++ [2])) =
    (Ok (VMap (Some [(VFloat 9221120237041090560, VNum 1); (VFloat 9221120237041090560, VNum 2)])), s') /\
  keyed (TMap (TFloat F64) (TUint UPlain W8)) (VMap (Some [(VFloat 9221120237041090560, VNum 1); (VFloat 9221120237041090560, VNum 2)])).
Proof. eexists. split; [vm_compute; reflexivity|]. cbn. split; repeat constructor. Qed.
(** [packet2] of C83 from Borsh into each encoding. *)
Example packet2_relay : exists x s', decode packet2 (zero_val packet2) (new_decoder Borsh packet2_data) = (Ok x, s') /\
  zlen packet2_data = 24 /\ map (fun E' => zlen (snd (marshal E' packet2 x))) [Bin; CompactU16; Borsh] = [26; 12; 24] /\
  over_library packet2 /\ weight (fun _ => 11) Borsh packet2 = 34.
Proof. eexists _, _. split; [vm_compute; reflexivity|]. split; [reflexivity|]. split; [vm_compute; reflexivity|]. split; [cbn; tauto|reflexivity]. Qed.
