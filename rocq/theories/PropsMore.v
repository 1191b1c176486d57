(** More about texts, sighashes and sharing: C23, C40, C43, C44, C50, C54, C55. *)
From Coq Require Import String.
From Verif Require Import Types Spec Text Tools U128 Json DecPrim TextFacts JsonSpec Heck HeckFacts Sha256 Sighash
  DecProps Alias AliasFacts MoreFacts.
Notation length := Datatypes.length.

(** ** C23 *)

Theorem C23_hex_string : forall lo hi o, 0 <= lo < 2 ^ 64 -> 0 <= hi < 2 ^ 64 ->
  exists ds, u128_hex_string lo hi o = [48; 120] ++ ds /\ length ds = 32%nat /\
    hex_text ds (fixed BE 16 (hi * 2 ^ 64 + lo)) /\ Forall (fun c => 48 <= c <= 57 \/ 97 <= c <= 102) ds.
Proof. exact hex_string_spec. Qed.
Print Assumptions C23_hex_string.
Theorem C23_decimal_string : forall lo hi o, 0 <= lo < 2 ^ 64 -> 0 <= hi < 2 ^ 64 ->
  decimal (hi * 2 ^ 64 + lo) (u128_string lo hi o) /\
  integer (if hi <? 2 ^ 63 then hi * 2 ^ 64 + lo else hi * 2 ^ 64 + lo - 2 ^ 128) (i128_decimal_string lo hi o).
Proof. exact decimal_string_spec. Qed.
Print Assumptions C23_decimal_string.
Example C23_texts :
  u128_hex_string 0xab 1 LE = str "0x000000000000000100000000000000ab" /\
  i128_decimal_string 0 (2 ^ 63) BE = str "-170141183460469231731687303715884105728".
Proof. split; vm_compute; reflexivity. Qed.

(** ** C40 *)

(** What is hashed for ASCII names, whatever the Unicode tables. *)
Theorem C40_instruction : forall u name, ascii name -> exists rest,
  sha256 (str "global:" ++ join [95] (map (map lower_of) (text_words name))) = sighash_instruction u name ++ rest /\
  length (sighash_instruction u name) = 8%nat.
Proof. exact instruction_preimage. Qed.
Print Assumptions C40_instruction.
Theorem C40_account : forall u name, ascii name -> exists rest,
  sha256 (str "account:" ++ List.concat (map capital (text_words name))) = sighash_account u name ++ rest /\
  length (sighash_account u name) = 8%nat.
Proof. exact account_preimage. Qed.
Print Assumptions C40_account.
Example C40_account_sample :
  List.concat (map capital (text_words (str "dialect_account"))) = str "DialectAccount" /\
  sighash_account latin1 (str "dialect_account") = [157; 38; 120; 189; 93; 204; 119; 18].
Proof. split; vm_compute; reflexivity. Qed.

(** ** C43 *)

(** String of a recorder: a header if it has a name, a line for each write. *)
Theorem C43_report : forall name l, exists h r, header name h /\ report 0 l r /\
  wbw_string (fold_left wbw_write l (new_write_by_write name)) = h ++ r.
Proof. exact wbw_string_report. Qed.
Print Assumptions C43_report.
(** From it the name and the writes can be told, whatever the name contains. *)
Theorem C43_string_injective : forall a b, Forall bytes_ok (wbw_writes a) -> Forall bytes_ok (wbw_writes b) ->
  wbw_string a = wbw_string b -> a = b.
Proof. exact wbw_string_inj. Qed.
Print Assumptions C43_string_injective.
(** A name that looks like a report. *)
Example C43_odd_name :
  wbw_string (mkWBW [[7]] (str "x:" ++ [10] ++ str "- 0: {7}(len=1)")) =
    str "x:" ++ [10] ++ str "- 0: {7}(len=1):" ++ [10] ++ str "- 0: {7}(len=1)" ++ [10] /\
  wbw_string (mkWBW [[7]] (str "x:" ++ [10] ++ str "- 0: {7}(len=1)")) <> wbw_string (mkWBW [[7]; [7]] (str "x")).
Proof. split; vm_compute; [reflexivity|discriminate]. Qed.

(** ** C44 *)

Theorem C44_is_byte_slice : forall t, is_byte_slice t = true <-> t = TSlice (TUint UPlain W8).
Proof.
  intro t. split; [|now intros ->]. destruct t; try discriminate.
  destruct t; try discriminate. destruct n, w; try discriminate. reflexivity.
Qed.
Print Assumptions C44_is_byte_slice.

(** ** C50 *)

(** ReadString and ReadTypeID return copies of the bytes of the model without
    sharing. *)
Theorem C50_read_string : forall h d, hready h d -> bytes_ok (view h (hd_data d)) ->
  exists d', h_read_string (h, d) = (fst (read_string (plain_dst h d)), (h, d')) /\ hd_data d' = hd_data d /\
    plain_dst h d' = snd (read_string (plain_dst h d)).
Proof. exact h_string_agrees. Qed.
Print Assumptions C50_read_string.
Theorem C50_read_type_id : forall h d, hready h d -> 8 <= s_len (hd_data d) - hd_pos d ->
  h_read_type_id (h, d) = (Ok (window (plain_dst h d) 8), (h, advanced d 8)).
Proof. exact h_type_id_agrees. Qed.
Print Assumptions C50_read_type_id.
Example C50_string_sample :
  fst (h_read_string ([[9; 2; 65; 66; 1]], mkHD (mkS 0 1 4 4) 0 None Bin)) = Ok [65; 66].
Proof. reflexivity. Qed.

(** ** C54 *)

Theorem C54_text : forall b, bool_marshal_json b = if b then true_text else false_text.
Proof. exact bool_text. Qed.
Print Assumptions C54_text.

(** ** C55 *)

Theorem C55_order : forall grow h l, Forall (valid h) l ->
  let '(h', out) := h_wbw_bytes grow h (fold_left h_wbw_write l []) in view h' out = List.concat (map (view h) l).
Proof. exact h_wbw_order. Qed.
Print Assumptions C55_order.
