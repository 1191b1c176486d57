(** Programs of calls of the methods of Encoder and Decoder (C60). *)
From Verif Require Import Types EncPrim DecPrim Enc Dec Utf8 Builtin Spec NumFacts EncFacts EncWire RoundTrip Check PropsCodec Ops OpsSpec OpsFacts.
Notation length := Datatypes.length.

(** ** C60 *)

(** A sequence of writing calls, with values in the ranges of OpsSpec, succeeds
    and writes the bytes stated there, after whatever was written before; the
    corresponding reading calls return the values and stop at the end of these
    bytes, whatever follows. *)
Theorem C60_written : forall E ws rs bs xs, conversation E ws rs bs xs -> forall w c n hist acc, reliable w ->
  exists cs c', List.concat cs = bs /\
    eops_run ws (mkE E w c n hist acc) =
      (map (fun _ => Ok tt) ws, mkE E w c' (n + zlen bs) (hist ++ cs) (acc ++ bs)).
Proof. exact conversation_written. Qed.
Print Assumptions C60_written.
Theorem C60_read : forall E ws rs bs xs, conversation E ws rs bs xs -> forall pre post c,
  zlen (pre ++ bs ++ post) < 2 ^ 63 -> exists c',
    dops_run rs (mkD (pre ++ bs ++ post) (zlen pre) c E) =
      (map Ok xs, mkD (pre ++ bs ++ post) (zlen pre + zlen bs) c' E).
Proof. exact conversation_read. Qed.
Print Assumptions C60_read.
(** From a new Encoder into a buffer to a new Decoder. *)
Theorem C60_conversation : forall E ws rs bs xs post, conversation E ws rs bs xs -> zlen (bs ++ post) < 2 ^ 63 ->
  fst (eops_run ws (new_encoder E buffer)) = map (fun _ => Ok tt) ws /\
  e_acc (snd (eops_run ws (new_encoder E buffer))) = bs /\
  e_count (snd (eops_run ws (new_encoder E buffer))) = zlen bs /\
  fst (dops_run rs (new_decoder E (bs ++ post))) = map Ok xs /\
  d_pos (snd (dops_run rs (new_decoder E (bs ++ post)))) = zlen bs.
Proof. exact conversations. Qed.
Print Assumptions C60_conversation.

(** Borsh: a tag of three raw bytes, a string, a 128-bit number in big endian
    order, a C option, a signed varint, a struct, a compact length. *)
Definition c60_t : ty := TStruct [plain "A" (TUint UPlain W16); plain "B" (TSlice TBool)].
Definition c60_v : val := VStruct [VNum 513; VSlice (Some [VBool true; VBool false])].
Definition c60_ws : list eop :=
  [OpWrite [1; 2; 3]; OpWriteBytes [9] false; OpWriteBytes [9] true; OpWriteString [104; 105]; OpWriteUint128 5 1 BE;
   OpWriteCOption true; OpWriteVarInt (-3); OpEncode c60_t c60_v; OpWriteCompactU16 200].
Definition c60_rs : list dop :=
  [OpReadNBytes 3; OpReadNBytes 1; OpReadByteSlice; OpReadString; OpReadUint128 BE; OpReadCOption; OpReadVarint64;
   OpDecode c60_t (zero_val c60_t); OpReadCompactU16].
Definition c60_bs : list Z :=
  [1;2;3; 9; 1;0;0;0;9; 2;0;0;0;104;105; 0;0;0;0;0;0;0;1;0;0;0;0;0;0;0;5; 1;0;0;0; 5; 1;2;2;0;0;0;1;0; 200;1].
Definition c60_xs : list dres :=
  [RBytes [1;2;3]; RBytes [9]; RBytes [9]; RBytes [104;105]; RPair 5 1; RBool true; RNum (-3); RVal c60_v; RNum 200].
Example C60_sample : conversation Borsh c60_ws c60_rs c60_bs c60_xs /\
  fst (dops_run c60_rs (new_decoder Borsh (c60_bs ++ [7; 7]))) = map Ok c60_xs /\
  e_acc (snd (eops_run c60_ws (new_encoder Borsh buffer))) = c60_bs.
Proof.
  split; [|vm_compute; auto].
  change c60_bs with ([1;2;3] ++ [9] ++ (count Borsh 1 ++ [9]) ++ (count Borsh 2 ++ [104;105]) ++ fixed BE 16 (1 * 2 ^ 64 + 5)
    ++ fixed LE 4 1 ++ leb128 (zz (-3)) ++ wire Borsh c60_t None LE c60_v ++ leb128 200 ++ []).
  repeat apply conv_call; try apply conv_end.
  - apply (ex_raw Borsh [1;2;3]). vm_compute. discriminate.
  - apply (ex_no_length Borsh [9]). vm_compute. discriminate.
  - apply (ex_bytes Borsh [9]); vm_compute; discriminate.
  - apply (ex_string Borsh [104;105]); vm_compute; discriminate.
  - apply ex_uint128; lia.
  - apply (ex_coption Borsh true).
  - apply ex_varint64. lia.
  - apply (ex_value Borsh c60_t c60_v (zero_val c60_t)); [apply okb_ok; vm_compute; reflexivity|apply fitsb_ok; reflexivity].
  - apply ex_compact. lia.
Qed.
