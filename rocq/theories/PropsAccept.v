(** C68. *)
From Coq Require Import String.
From Verif Require Import Types DecPrim Enc Dec Spec Utf8 Builtin AccSpec AccLib SteadySpec SteadyLib.
Notation length := Datatypes.length.

(** * C68: what the decoders accept, exactly *)

Theorem C68_exact : forall E t old pre inp c, tame E t -> bytes_ok inp -> forall b rest v, inp = b ++ rest ->
  accepts E t (Front false false) None LE old b rest v <->
  exists c', decode t old (mkD (pre ++ inp) (zlen pre) c E) = (Ok v, mkD (pre ++ inp) (zlen pre + zlen b) c' E).
Proof. exact accepts_exact. Qed.
Print Assumptions C68_exact.

Theorem C68_only : forall E t old pre inp c v s, tame E t -> bytes_ok inp ->
  decode t old (mkD (pre ++ inp) (zlen pre) c E) = (Ok v, s) ->
  exists b rest c', inp = b ++ rest /\ s = mkD (pre ++ inp) (zlen pre + zlen b) c' E /\
    accepts E t (Front false false) None LE old b rest v.
Proof. exact decode_only. Qed.
Print Assumptions C68_only.

Theorem C68_unique : forall E t old b rest v b' rest' v', tame E t -> bytes_ok (b ++ rest) -> b ++ rest = b' ++ rest' ->
  accepts E t (Front false false) None LE old b rest v -> accepts E t (Front false false) None LE old b' rest' v' ->
  b = b' /\ v = v'.
Proof. exact accepts_unique. Qed.
Print Assumptions C68_unique.

(** The formats of C05 are among what is accepted. *)
Theorem C68_wire : forall E t v old rest, tame E t -> ok E t None LE v -> fits t old ->
  bytes_ok (wire E t None LE v ++ rest) ->
  accepts E t (Front false false) None LE old (wire E t None LE v) rest (back E t None LE old v).
Proof. exact wire_accepted. Qed.
Print Assumptions C68_wire.

(** The library's types: their methods are regular and accept this. *)
Theorem C68_library : forall E t R, In (t, R) library ->
  exists c u f, t = TCodec c u /\ c_unmarshal c = Some f /\ regular E f /\
    forall o old b rest v, good_cur E (Some o) -> fits u old -> bytes_ok (b ++ rest) ->
      own_in E o f old b rest v <-> R E o old b rest v.
Proof.
  intros E t R Hin. pose proof (library_exact E) as H. rewrite Forall_forall in H. specialize (H _ Hin). cbn [fst snd] in H.
  destruct t; try contradiction. destruct H as (f & Hf & Hr & Hx). exists c, t, f. split; [reflexivity|]. split; [exact Hf|]. split; [exact Hr|].
  intros o old b rest v Ho Hfit Hb. apply (own_of E o f old (R E o old)); auto.
Qed.
Print Assumptions C68_library.

(** Several inputs for one value: Bin booleans, counts and flags. *)
Theorem C68_canonical_refuted : exists t b b' v, b <> b' /\
  accepts Bin t (Front false false) None LE (zero_val t) b [] v /\
  accepts Bin t (Front false false) None LE (zero_val t) b' [] v.
Proof.
  exists TBool, [1], [2], (VBool true). split; [discriminate|].
  split; exists true; (split; [reflexivity|]); [exists 1|exists 2]; auto.
Qed.
Print Assumptions C68_canonical_refuted.

(** ** Samples *)
Definition acc_struct : ty := TStruct
  [ (mkF "N" true (mkTag "sizeof=L" "" ""), TInt false W8);
    (mkF "O" true (mkTag "optional" "" ""), TPtr (TUint UPlain W16));
    (mkF "L" true notag, TSlice TBool);
    (mkF "M" true notag, TMap (TUint UPlain W8) TString) ].
Example C68_sample_tame : tame Bin acc_struct /\ tame Borsh (TStruct [(mkF "U" true notag, Uint128); (mkF "S" true notag, SafeString)]).
Proof.
  split; (split; [|intros; try discriminate; repeat constructor]).
  - constructor.
  - cbn [methods gather app]. pose proof (library_exact Borsh) as H. rewrite Forall_forall in H.
    repeat constructor.
    + destruct (H (Uint128, _) (or_intror (or_intror (or_intror (or_intror (or_intror (or_intror (or_intror (or_intror (or_intror (or_intror (or_introl eq_refl)))))))))))) as (f & Hf & Hr & _).
      injection Hf as <-. exact Hr.
    + destruct (H (SafeString, _) (or_introl eq_refl)) as (f & Hf & Hr & _). injection Hf as <-. exact Hr.
Qed.
(** 2 as a boolean, 7 as a presence flag, a count in two bytes, the key 5 twice. *)
Example C68_sample_accepts :
  decode acc_struct (zero_val acc_struct) (new_decoder Bin
    [3;  7; 0; 0; 0; 1; 2;  2; 0; 255;  130; 0;  5; 1; 0; 0; 0; 0; 0; 0; 0; 97;  5; 1; 0; 0; 0; 0; 0; 0; 0; 98;  9]) =
  (Ok (VStruct [VNum 3; VPtr (Some (VNum 513)); VSlice (Some [VBool true; VBool false; VBool true]);
                VMap (Some [(VNum 5, VStr [98])])]),
   mkD [3;  7; 0; 0; 0; 1; 2;  2; 0; 255;  130; 0;  5; 1; 0; 0; 0; 0; 0; 0; 0; 97;  5; 1; 0; 0; 0; 0; 0; 0; 0; 98;  9] 32 (Some LE) Bin).
Proof. vm_compute. reflexivity. Qed.
(** A negative count is an empty slice. *)
Example C68_sample_negative :
  fst (decode acc_struct (zero_val acc_struct) (new_decoder Bin [255; 0; 0; 0; 0; 0])) =
  Ok (VStruct [VNum (-1); VPtr None; VSlice (Some []); VMap None]).
Proof. vm_compute. reflexivity. Qed.
(** Keys that are equal without being the same: +0 and -0, and structs that
    differ in a field called _ .  The later key stays, with its value. *)
Example C68_sample_keys :
  fst (decode (TMap (TFloat F32) (TUint UPlain W8)) (VMap None) (new_decoder Borsh [2; 0; 0; 0;  0; 0; 0; 0;  1;  0; 0; 0; 128;  2])) =
  Ok (VMap (Some [(VFloat 2147483648, VNum 2)])) /\
  fst (decode (TMap (TStruct [(mkF "_" false notag, (TUint UPlain W8)); (mkF "A" true notag, (TUint UPlain W8))]) (TUint UPlain W8)) (VMap (Some [(VStruct [VNum 7; VNum 5], VNum 1)])) (new_decoder Borsh [1; 0; 0; 0;  5;  2])) =
  Ok (VMap (Some [(VStruct [VNum 0; VNum 5], VNum 2)])).
Proof. vm_compute. auto. Qed.
(** The grammar itself. *)
Example C68_sample_grammar : accepts Bin (TSlice TBool) (Front false false) None LE (VSlice None)
  [130; 0; 7; 0] [1] (VSlice (Some [VBool true; VBool false])).
Proof.
  exists [130; 0], [7; 0], 2. split; [reflexivity|]. split.
  - split; [|lia]. exists [130], 0. split; [reflexivity|]. split; [constructor; [lia|constructor]|]. split; [lia|]. split; [vm_compute; discriminate|]. split; reflexivity.
  - exists [VBool true; VBool false]. split; [reflexivity|].
    exists [7], [0], (VBool true). split; [reflexivity|]. split.
    + exists true. split; [reflexivity|]. now exists 7.
    + exists [VBool false]. split; [reflexivity|]. exists [0], [], (VBool false). split; [reflexivity|]. split.
      * exists false. split; [reflexivity|]. now exists 0.
      * exists []. split; [reflexivity|]. split; reflexivity.
Qed.
Example C68_sample_refused :
  fst (decode (TFloat F32) (VFloat 0) (new_decoder Borsh [0; 0; 192; 127])) = Err EMsg /\
  fst (decode (TSlice TBool) (VSlice None) (new_decoder CompactU16 [130; 0; 7; 0])) = Err EMsg.
Proof. vm_compute. auto. Qed.

(** * C69: decoding, encoding and decoding again *)

(** What was decoded into a new variable can be encoded, and the bytes decode
    to the same value. *)
Theorem C69_settles : forall E t inp v s, steady E false t -> orderly E t -> tame E t -> bytes_ok inp ->
  decode t (zero_val t) (new_decoder E inp) = (Ok v, s) ->
  exists b, marshal E t v = (Ok tt, b) /\
    exists c, decode t (zero_val t) (new_decoder E b) = (Ok v, mkD b (zlen b) c E).
Proof.
  intros E t inp v s Hs Ho Ht Hb Hd. destruct (decode_settles E t inp v s Hs Ht Hb Hd) as (b & H1 & H2 & _). eauto.
Qed.
Print Assumptions C69_settles.

(** For strict types they are the bytes that were read. *)
Theorem C69_same_bytes : forall E t inp v s, steady E false t -> strict E false t -> tame E t -> bytes_ok inp ->
  decode t (zero_val t) (new_decoder E inp) = (Ok v, s) ->
  exists b rest, inp = b ++ rest /\ d_pos s = zlen b /\ marshal E t v = (Ok tt, b).
Proof.
  intros E t inp v s Hs HS Ht Hb Hd. destruct (decode_settles E t inp v s Hs Ht Hb Hd) as (b & H1 & _ & H3).
  destruct (H3 HS) as (rest & H4 & H5). eauto.
Qed.
Print Assumptions C69_same_bytes.

(** So two inputs that give the same value are equal. *)
Theorem C69_one_form : forall E t inp inp' v s s', steady E false t -> strict E false t -> tame E t ->
  bytes_ok inp -> bytes_ok inp' ->
  decode t (zero_val t) (new_decoder E inp) = (Ok v, s) -> d_pos s = zlen inp ->
  decode t (zero_val t) (new_decoder E inp') = (Ok v, s') -> d_pos s' = zlen inp' ->
  inp = inp'.
Proof. exact decode_injective. Qed.
Print Assumptions C69_one_form.

(** The library types that settle, and those that keep the bytes. *)
Theorem C69_library : forall E, Forall (firm_ty E) settling /\ Forall (same_ty E) (keeping E).
Proof. exact both_lib. Qed.
Print Assumptions C69_library.

(** Other types do not keep the bytes ... *)
Theorem C69_same_bytes_refuted : Forall (fun '(E, t, inp) => exists v s,
  decode t (zero_val t) (new_decoder E inp) = (Ok v, s) /\ fst (marshal E t v) = Ok tt /\
  forall rest, inp <> snd (marshal E t v) ++ rest) loose.
Proof. exact loose_refuted. Qed.
Print Assumptions C69_same_bytes_refuted.

(** ... and a SafeString that was decoded may be too long to be decoded again:
    21846 bytes that are not UTF-8 become 65538. *)
Theorem C69_safe_string_refuted : exists inp v s b,
  decode SafeString (zero_val SafeString) (new_decoder CompactU16 inp) = (Ok v, s) /\
  marshal CompactU16 SafeString v = (Ok tt, b) /\
  unmarshal CompactU16 SafeString (zero_val SafeString) b = Err EMsg.
Proof. exact safe_string_unsettled. Qed.
Print Assumptions C69_safe_string_refuted.

(** ** Samples *)
Definition keep_borsh : ty := TStruct
  [ (mkF "C" true (mkTag "coption" "" ""), TPtr (TUint UPlain W16));
    (mkF "F" true notag, TFloat F32);
    (mkF "L" true notag, TSlice TString);
    (mkF "U" true notag, Uint128);
    (mkF "E" true notag, TStruct [ (mkF "Enum" true (mkTag "" "" "true"), BorshEnum);
                                   (mkF "A" true notag, TPtr (TInt false W32)); (mkF "B" true notag, TString) ]) ].
Example C69_sample_borsh : steady Borsh false keep_borsh /\ strict Borsh false keep_borsh.
Proof.
  destruct (both_lib Borsh) as [H1 H2]. rewrite Forall_forall in H1, H2.
  split.
  - cbn. repeat split; try (now left); try discriminate.
    + right. split; [exact I|]. intros v (s & -> & _). discriminate.
    + exact (H1 _ (nth_error_In settling 9 eq_refl)).
  - cbn. repeat split; try (now left); try (right; easy).
    exact (H2 _ (nth_error_In (keeping Borsh) 3 eq_refl)).
Qed.
(** Some 258; 1.5; one text "a"; 3; variant 1 with the text "b". *)
Example C69_sample_run :
  let inp := [1; 0; 0; 0; 2; 1] ++ [0; 0; 192; 63] ++ [1; 0; 0; 0; 1; 0; 0; 0; 97] ++
             (3 :: repeat 0 15) ++ [1; 1; 0; 0; 0; 98] in
  match decode keep_borsh (zero_val keep_borsh) (new_decoder Borsh inp) with
  | (Ok v, s) => (if list_eq_dec Z.eq_dec (snd (marshal Borsh keep_borsh v)) inp then true else false) && (d_pos s =? 41)
  | _ => false
  end = true.
Proof. vm_compute. reflexivity. Qed.
(** Bin: counts from a sizeof field. *)
Definition keep_bin : ty := TStruct
  [ (mkF "N" true (mkTag "sizeof=L" "" ""), TUint UPlain W16); (mkF "X" true (mkTag "big" "" ""), TInt false W32);
    (mkF "L" true notag, TSlice TString) ].
Example C69_sample_bin : steady Bin false keep_bin /\ strict Bin false keep_bin /\ ~ strict Bin false (TSlice TString).
Proof.
  split; [|split].
  - cbn. repeat split; try (now left); try discriminate. right. split; [exact I|]. intros v (s & -> & _). discriminate.
  - cbn. repeat split; try (now left). right. exact I.
  - cbn. intros [[H|H] _]; [discriminate|congruence].
Qed.
(** Settled but not kept: 2 as a boolean. *)
Example C69_sample_settled : steady Borsh false TBool /\
  decode TBool (VBool false) (new_decoder Borsh [2]) = (Ok (VBool true), mkD [2] 1 (Some LE) Borsh) /\
  marshal Borsh TBool (VBool true) = (Ok tt, [1]).
Proof. vm_compute. auto. Qed.
(** An extension field: two bytes are read, four are written, and then it stays. *)
Definition keep_ext : ty := TStruct
  [ (mkF "A" true notag, TUint UPlain W16); (mkF "B" true (mkTag "binary_extension" "" ""), TInt false W16);
    (mkF "C" true (mkTag "binary_extension optional" "" ""), TSlice TString) ].
Example C69_sample_ext : steady Bin false keep_ext /\ orderly Bin keep_ext /\ ~ strict Bin false keep_ext /\
  unmarshal Bin keep_ext (zero_val keep_ext) [1; 2] = Ok (VStruct [VNum 513; VNum 0; VSlice None]) /\
  marshal Bin keep_ext (VStruct [VNum 513; VNum 0; VSlice None]) = (Ok tt, [1; 2; 0; 0; 0; 0; 0; 0]) /\
  unmarshal Bin keep_ext (zero_val keep_ext) [1; 2; 0; 0; 0; 0; 0; 0] = Ok (VStruct [VNum 513; VNum 0; VSlice None]).
Proof.
  split; [|split; [|split; [|repeat split; vm_compute; reflexivity]]].
  - cbn. repeat split; try discriminate; try (now right); try reflexivity.
    + right. exists 0. split; [reflexivity|lia].
    + intros v (_ & _ & [Ha|(z & -> & _)] & _) Hb; [discriminate Ha|]. discriminate Hb.
    + now left.
    + intros v _. unfold with_flags. cbn. destruct (is_zero v); discriminate.
    + right. split; [exact I|]. intros v (s & -> & _). discriminate.
  - cbn. repeat split; discriminate.
  - cbn. intros (_ & _ & _ & H & _). discriminate H.
Qed.
(** Without the flag the nil slice comes back as an empty one. *)
Theorem C69_extension_refuted : exists t inp v v' b s, steady Bin false t /\ tame Bin t /\ ~ orderly Bin t /\
  decode t (zero_val t) (new_decoder Bin inp) = (Ok v, s) /\ marshal Bin t v = (Ok tt, b) /\
  unmarshal Bin t (zero_val t) b = Ok v' /\ v <> v'.
Proof.
  exists (TStruct [(mkF "C" true (mkTag "binary_extension" "" ""), TSlice (TUint UPlain W8))]), [].
  do 4 eexists. split; [|split; [|split; [|split; [|split; [|split]]]]].
  - cbn. repeat split; try discriminate.
    + right. exists None. repeat split; auto; try (now constructor). all: unfold zlen; cbn; lia.
    + intros v (_ & _ & [Ha|(ol & -> & _)] & _) Hb; [discriminate Ha|].
      discriminate Hb.
    + left. discriminate.
  - split; [constructor|discriminate].
  - cbn. intros (_ & H & _). destruct (H eq_refl eq_refl eq_refl) as (l & Hl & _). discriminate Hl.
  - vm_compute. reflexivity.
  - vm_compute. reflexivity.
  - vm_compute. reflexivity.
  - discriminate.
Qed.
Print Assumptions C69_extension_refuted.
