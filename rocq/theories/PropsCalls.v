(** C82: the calls of Write. *)
From Verif Require Import Types EncPrim Enc Builtin Spec NumFacts EncFacts EncWire EncProps RoundTrip Check Tools PropsCodec CallsSpec CallsFacts CallsLib.

Local Open Scope string_scope.
Local Open Scope list_scope.

(** The encoder makes the calls of the specification, in that order and with
    those bytes, on every writer that accepts them. *)
Theorem C82_calls : forall E t v, ok E t None LE v -> forall w c n hist acc, reliable w ->
  let cs := calls E t None LE v in
  exists c', encode t v (mkE E w c n hist acc) =
    (Ok tt, mkE E w c' (n + zlen (List.concat cs)) (hist ++ cs) (acc ++ List.concat cs)).
Proof. exact encode_calls. Qed.
Print Assumptions C82_calls.

(** Together they are the bytes of the format. *)
Theorem C82_bytes : forall E t sz o v, ok E t sz o v ->
  List.concat (calls E t sz o v) = wire E t sz o v.
Proof. exact calls_wire. Qed.
Print Assumptions C82_bytes.

(** A writer that fails at call [i], taking [k] bytes of it: the calls before
    it were made, none comes after it, and the error is reported. *)
Theorem C82_failure : forall E t v, ok E t None LE v -> forall w c n hist acc i k x,
  let cs := calls E t None LE v in
  (i < length cs)%nat ->
  (forall j, (j < i)%nat -> w (hist ++ firstn (S j) cs) = None) ->
  w (hist ++ firstn (S i) cs) = Some (k, x) ->
  exists e c', err_is e (EWriter x) /\
    encode t v (mkE E w c n hist acc) =
      (Err e, mkE E w c' (n + total (firstn (S i) cs)) (hist ++ firstn (S i) cs)
                (acc ++ List.concat (firstn i cs) ++ firstn k (nth i cs []))).
Proof. exact encode_calls_fail. Qed.
Print Assumptions C82_failure.

(** Write is never called with no bytes, unless by a method of a user type. *)
Theorem C82_never_empty : forall E t, all_codecs codec_some t ->
  forall sz o v, Forall some_bytes (calls E t sz o v).
Proof. exact calls_some. Qed.
Print Assumptions C82_never_empty.

Theorem C82_library_never_empty : Forall (all_codecs codec_some) library_types.
Proof. exact library_some. Qed.
Print Assumptions C82_library_never_empty.

(** So there are at most as many calls as bytes. *)
Theorem C82_few : forall E t v, all_codecs codec_some t -> ok E t None LE v ->
  let s := snd (encode t v (new_encoder E buffer)) in
  zlen (e_hist s) <= zlen (e_acc s).
Proof. exact few_calls. Qed.
Print Assumptions C82_few.

(** The methods of the library's types make one call for each number; one for
    the length and one for the content of a string. *)
Theorem C82_library : forall E sz o,
  (forall b, calls E Bool_ sz o (VBool b) = [[if b then 1 else 0]]) /\
  (forall s, zlen s <= count_max E ->
     calls E SafeString sz o (VStr s) = [count E (zlen s)] ++ one_call s) /\
  (forall b, zlen b <= count_max E ->
     calls E HexBytes sz o (VSlice (Some (map VNum b))) = [count E (zlen b)] ++ one_call b) /\
  (forall z, - 2 ^ 15 <= z < 2 ^ 15 -> calls E Varint16 sz o (VNum z) = [leb128 (zz z)]) /\
  (forall z, - 2 ^ 31 <= z < 2 ^ 31 -> calls E Varint32 sz o (VNum z) = [leb128 (zz z)]) /\
  (forall z, 0 <= z < 2 ^ 16 -> calls E Varuint16 sz o (VNum z) = [leb128 z]) /\
  (forall z, 0 <= z < 2 ^ 32 -> calls E Varuint32 sz o (VNum z) = [leb128 z]) /\
  (forall z, calls E Int64 sz o (VNum z) = [fixed o 8 z]) /\
  (forall z, calls E Uint64 sz o (VNum z) = [fixed o 8 z]) /\
  (forall b, (E = Borsh -> f_isnan F64 b = false) ->
     calls E JSONFloat64 sz o (VFloat b) = [fixed o 8 b]) /\
  (forall lo hi e, 0 <= lo < 2 ^ 64 -> 0 <= hi < 2 ^ 64 ->
     calls E Uint128 sz o (u128_val lo hi e) = [fixed o 16 (lo + 2 ^ 64 * hi)]).
Proof. exact library_calls. Qed.
Print Assumptions C82_library.

(** The recorder (WriteByWrite) holds one entry for each call. *)
Theorem C82_recorder : forall E t v name, ok E t None LE v ->
  wbw_writes (recorded name (snd (encode t v (new_encoder E buffer)))) = calls E t None LE v.
Proof. exact encode_recorded. Qed.
Print Assumptions C82_recorder.

(** Two values with the same bytes, written with different calls. *)
Theorem C82_bytes_decide_refuted : exists t1 v1 t2 v2,
  ok Bin t1 None LE v1 /\ ok Bin t2 None LE v2 /\
  wire Bin t1 None LE v1 = wire Bin t2 None LE v2 /\
  calls Bin t1 None LE v1 <> calls Bin t2 None LE v2.
Proof.
  exists (TArray 2 u8), (VSeq [VNum 1; VNum 2]),
    (TArray 2 (TInt false W8)), (VSeq [VNum 1; VNum 2]).
  repeat split; try (apply okb_ok; vm_compute; reflexivity). vm_compute. discriminate.
Qed.
Print Assumptions C82_bytes_decide_refuted.

Definition C82_ty : ty :=
  TStruct [plain "A" TString; plain "B" (TSlice (TUint UPlain W16)); tagged "C" "optional" (TPtr u8);
           plain "D" (TMap u8 TString); plain "E" (TArray 2 (TInt false W16))].
Definition C82_val : val :=
  VStruct [VStr [104; 105]; VSlice (Some [VNum 1; VNum 258]); VPtr (Some (VNum 7));
           VMap (Some [(VNum 2, VStr []); (VNum 1, VStr [65])]); VSeq [VNum 3; VNum (-1)]].
Example C82_sample :
  ok Borsh C82_ty None LE C82_val /\
  calls Borsh C82_ty None LE C82_val =
    [[2; 0; 0; 0]; [104; 105];
     [2; 0; 0; 0]; [1; 0; 2; 1];
     [1]; [7];
     [2; 0; 0; 0]; [1]; [1; 0; 0; 0]; [65]; [2]; [0; 0; 0; 0];
     [3; 0]; [255; 255]] /\
  e_hist (snd (encode C82_ty C82_val (new_encoder Borsh buffer))) = calls Borsh C82_ty None LE C82_val.
Proof. split; [apply okb_ok; vm_compute; reflexivity|]. split; vm_compute; reflexivity. Qed.

Example C82_sample_bin :
  calls Bin C82_ty None LE C82_val =
    [[2; 0; 0; 0; 0; 0; 0; 0]; [104; 105]; [2]; [1; 0; 2; 1]; [1; 0; 0; 0]; [7];
     [2]; [2]; [0; 0; 0; 0; 0; 0; 0; 0]; [1]; [1; 0; 0; 0; 0; 0; 0; 0]; [65]; [3; 0]; [255; 255]] /\
  e_hist (snd (encode C82_ty C82_val (new_encoder Bin buffer))) = calls Bin C82_ty None LE C82_val.
Proof. split; vm_compute; reflexivity. Qed.

(** The writer takes 1 byte of the second call and fails. *)
Example C82_sample_failure :
  let w := fun h : list (list Z) => if (length h =? 2)%nat then Some (1%nat, 5) else None in
  let s := snd (encode C82_ty C82_val (new_encoder Borsh w)) in
  fst (encode C82_ty C82_val (new_encoder Borsh w)) = Err (EWrap (EWriter 5)) /\
  e_hist s = [[2; 0; 0; 0]; [104; 105]] /\ e_acc s = [2; 0; 0; 0; 104].
Proof. vm_compute. auto. Qed.

Example C82_sample_library :
  calls Bin (TStruct [plain "A" Varuint16; tagged "B" "big" Uint128]) None LE
    (VStruct [VNum 300; u128_val 1 0 None]) =
  [[172; 2]; [0; 0; 0; 0; 0; 0; 0; 0; 0; 0; 0; 0; 0; 0; 0; 1]].
Proof. vm_compute. reflexivity. Qed.
