(** C84. *)
From Coq Require Import String.
From Verif Require Import Types EncPrim Enc Builtin Spec NumFacts EncFacts EncProps DecLocal Cost MemSpec WriteSpec WriteFacts BulkSpec BulkFacts BulkLib Check.

(** * C84: what is written is in proportion to the value *)

(** Bytes handed to Write and calls of Write together, whatever the writer does
    and however Encode ends (success, error, panic). *)
Theorem C84_load : forall kc E w lim t v, 0 < lim -> all_codecs (codec_terse kc) t -> real lim t v ->
  load (snd (encode t v (new_encoder E w))) <= weight kc E t * slots v.
Proof. exact encode_load. Qed.
Print Assumptions C84_load.

(** An encoder in any state: what Encode adds. *)
Theorem C84_later : forall kc lim t v s, 0 < lim -> all_codecs (codec_terse kc) t -> real lim t v ->
  load (snd (encode t v s)) <= load s + weight kc (e_enc s) t * slots v.
Proof. intros kc lim t v s Hl Hc Hv. exact (sends_val kc (e_enc s) lim t Hl Hc v Hv (EFull opt0) s). Qed.
Print Assumptions C84_later.

(** The bytes of Marshal. *)
Theorem C84_marshal : forall kc E lim t v, 0 < lim -> all_codecs (codec_terse kc) t -> all_codecs codec_scripted t -> real lim t v ->
  zlen (snd (marshal E t v)) <= weight kc E t * slots v.
Proof. exact marshal_load. Qed.
Print Assumptions C84_marshal.

(** The type does not matter in Bin and CompactU16 if there are no methods. *)
Theorem C84_flat : forall E t v, E <> Borsh -> all_codecs (fun _ _ => False) t -> real (2 ^ 63) t v ->
  zlen (snd (marshal E t v)) <= 24 * slots v.
Proof.
  intros E t v HE Hc Hv. rewrite <- (weight_flat (fun _ => 0) E t) by (try assumption; now destruct E).
  apply (marshal_load _ _ (2 ^ 63)); [lia| | |exact Hv]; (eapply DecBound.all_codecs_impl; [|exact Hc]; easy).
Qed.
Print Assumptions C84_flat.

(** Types made of the library's. *)
Theorem C84_library : forall E t v, over_library t -> real (2 ^ 63) t v ->
  zlen (snd (marshal E t v)) <= weight (fun _ => 11) E t * slots v.
Proof.
  intros E t v Ht Hv. apply (marshal_load _ _ (2 ^ 63)); [lia| | |exact Hv].
  - apply over_library_all; [exact library_terse|exact Ht].
  - apply over_library_all; [exact library_scripted|exact Ht].
Qed.
Print Assumptions C84_library.

(** In Borsh it does: a nil pointer has one slot and is written as the zero
    value of its type.  So no number does for all types. *)
Theorem C84_nil : forall n, fst (marshal Borsh (wide n) (VPtr None)) = Ok tt /\
  zlen (snd (marshal Borsh (wide n) (VPtr None))) = 8 * Z.of_nat n /\ slots (VPtr None) = 1.
Proof. intro n. destruct (wide_bytes n). auto. Qed.
Print Assumptions C84_nil.
Theorem C84_flat_borsh_refuted : forall k, exists t v,
  all_codecs (fun _ _ => False) t /\ fits t v /\ real (2 ^ 63) t v /\ k * slots v < zlen (snd (marshal Borsh t v)).
Proof.
  intro k. exists (wide (S (Z.to_nat k))), (VPtr None). split; [exact I|]. split; [exists None; split; [reflexivity|discriminate]|].
  split; [exact I|]. destruct (C84_nil (S (Z.to_nat k))) as (_ & -> & ->). lia.
Qed.
Print Assumptions C84_flat_borsh_refuted.

(** ** Cases *)

Definition parcel : ty := TStruct
  [ (mkF "Name" true notag, TString);
    (mkF "Where" true (mkTag "optional" "" ""), TPtr (TStruct [(mkF "X" true notag, TFloat F64); (mkF "Y" true notag, TFloat F64)]));
    (mkF "Sizes" true notag, TMap TString (TUint UPlain W32));
    (mkF "Raw" true notag, TSlice (TUint UPlain W8)) ].
Definition parcel_val (w : val) : val := VStruct
  [ VStr [104; 105]; w; VMap (Some [(VStr [97], VNum 1); (VStr [98], VNum 2)]); VSlice (Some [VNum 7; VNum 8; VNum 9]) ].
Definition here : val := VPtr (Some (VStruct [VFloat 0; VFloat 4607182418800017408])).
Example parcel_real : forall w, w = here \/ w = VPtr None -> fits parcel (parcel_val w) /\ real (2 ^ 63) parcel (parcel_val w).
Proof.
  intros w Hw. split.
  - apply fitsb_ok. destruct Hw as [-> | ->]; reflexivity.
  - destruct Hw as [-> | ->]; cbn; (repeat split; try (repeat constructor; fail); try reflexivity);
    repeat constructor.
Qed.
Example parcel_load : map (fun E => load (snd (encode parcel (parcel_val here) (new_encoder E buffer)))) [Bin; CompactU16; Borsh] = [75; 51; 66]
  /\ slots (parcel_val here) = 19 /\ map (fun E => weight (fun _ => 0) E parcel) [Bin; CompactU16; Borsh] = [24; 24; 82].
Proof. vm_compute. auto. Qed.
(** A writer that fails at once has been handed less. *)
Example parcel_fails : load (snd (encode parcel (parcel_val here) (new_encoder Bin (fun _ => Some (0%nat, 1))))) = 9.
Proof. reflexivity. Qed.
Example wide_100 : zlen (snd (marshal Borsh (wide 100) (VPtr None))) = 800 /\ snd (marshal Bin (wide 100) (VPtr None)) = [] /\
  weight (fun _ => 0) Borsh (wide 100) = 2434 /\ weight (fun _ => 0) Bin (wide 100) = 24.
Proof. vm_compute. auto. Qed.
