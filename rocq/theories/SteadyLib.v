(** The library types, and what it means for Decode and Encode. *)
From Coq Require Import String.
From Verif Require Import Types DecPrim Enc Dec Spec NumFacts TyInd EncWire DecWire RoundTrip Utf8 Builtin LibSpec LibFacts AccSpec AccFacts AccLib SteadySpec SteadyFacts.
Notation length := Datatypes.length.

Theorem decode_settles E t inp v s : steady E false t -> tame E t -> bytes_ok inp ->
  decode t (zero_val t) (new_decoder E inp) = (Ok v, s) ->
  exists b, marshal E t v = (Ok tt, b) /\
    (orderly E t -> exists c, decode t (zero_val t) (new_decoder E b) = (Ok v, mkD b (zlen b) c E)) /\
    (strict E false t -> exists rest, inp = b ++ rest /\ d_pos s = zlen b).
Proof.
  intros Hs Ht Hb Hd.
  destruct (decode_only E t (zero_val t) [] inp None v s Ht Hb Hd) as (b & rest & c' & -> & -> & Ha).
  rewrite accepts_front in Ha. cbn [orb] in Ha.
  destruct (settles_all E t None LE b rest v Hs ltac:(discriminate) ltac:(auto) Hb Ha) as (F & O & C & W).
  exists (wire E t None LE v). split; [now apply marshal_wire|]. split.
  - intro Hor. specialize (C Hor). destruct (decode_run E t v (zero_val t) [] [] None O (fits_zero t)) as (c & Hr).
    rewrite app_nil_r in Hr. cbn [app] in Hr. exists c. unfold new_decoder. change (zlen []) with 0 in Hr. rewrite Hr. now rewrite back_canon.
  - intro HS. exists rest. rewrite <- (W HS). split; reflexivity.
Qed.

Lemma decode_ok E t inp v s : steady E false t -> tame E t -> bytes_ok inp ->
  decode t (zero_val t) (new_decoder E inp) = (Ok v, s) -> fits t v /\ ok E t None LE v.
Proof.
  intros Hs Ht Hb Hd.
  destruct (decode_only E t (zero_val t) [] inp None v s Ht Hb Hd) as (b & rest & c' & -> & -> & Ha).
  rewrite accepts_front in Ha. cbn [orb] in Ha.
  destruct (settles_all E t None LE b rest v Hs ltac:(discriminate) ltac:(auto) Hb Ha) as (F & O & _). auto.
Qed.

(** ** Library types *)
Lemma firm_lib E k c u m f R : lib_ty k = TCodec c u -> c_marshal c = Some m -> c_byval c = true -> c_unmarshal c = Some f ->
  (forall o old, good_cur E (Some o) -> fits u old -> exact (at_order o) (good_cur E) E (f old) (R E o old)) ->
  (forall o b rest v, bytes_ok (b ++ rest) -> R E o (zero_val u) b rest v -> fits u v /\ carries E k v /\ lib_back v = v) ->
  firm E c u /\
  ((forall o b rest v, bytes_ok (b ++ rest) -> R E o (zero_val u) b rest v -> b = lib_bytes E o k v) -> same_bytes E c u).
Proof.
  intros Et Hm Hv Hf Hx HR.
  assert (H : forall o b rest v, (E = Borsh -> o = LE) -> bytes_ok (b ++ rest) -> own_in E o f (zero_val u) b rest v ->
    R E o (zero_val u) b rest v /\ fits u v /\ ok E (TCodec c u) None o v /\ wire E (TCodec c u) None o v = lib_bytes E o k v /\
    back E (TCodec c u) None o (zero_val u) v = v).
  { intros o b rest v Ho Hb Hown.
    assert (Hg : good_cur E (Some o)) by (intro HE; now rewrite Ho).
    apply (own_of E o f (zero_val u) _ (Hx o (zero_val u) Hg (fits_zero u)) b rest v Hb) in Hown.
    destruct (HR o b rest v Hb Hown) as (H1 & H2 & H3).
    destruct (lib_format E k None o v Ho H2) as (F1 & F2 & F3). rewrite Et in *.
    split; [exact Hown|]. split; [exact H1|]. split; [exact F1|]. split; [exact F2|].
    rewrite F3; [exact H3|]. exact (fits_zero u). }
  split.
  - exists m, f. repeat split; auto; destruct (H o b rest v H0 H1 H2) as (_ & H3 & H4 & _ & H5); auto;
      cbn [ok back wire] in H4, H5; unfold val_marshal in *; rewrite Hv, Hm, Hf in *; tauto.
  - intros Hsb m' f' Hm' Hf' o b rest v Ho Hb Hown. assert (m' = m) by congruence. assert (f' = f) by congruence. subst m' f'.
    destruct (H o b rest v Ho Hb Hown) as (Hr & _ & _ & Hw & _). rewrite (Hsb o b rest v Hb Hr), <- Hw.
    cbn [wire]. unfold val_marshal. now rewrite Hv, Hm.
Qed.

Definition firm_ty (E : encoding) (t : ty) : Prop := match t with TCodec c u => firm E c u | _ => False end.
Definition same_ty (E : encoding) (t : ty) : Prop := match t with TCodec c u => same_bytes E c u | _ => False end.

Lemma counted_bytes E b rest s : bytes_ok (b ++ rest) -> counted E b rest s ->
  bytes_ok s /\ zlen s <= text_max E /\ (E <> Bin -> b = count E (zlen s) ++ s).
Proof.
  intros Hb (b1 & b2 & n & -> & [Hc Hm] & <- & ->). rewrite <- app_assoc in Hb.
  apply bytes_ok_app in Hb. destruct Hb as [_ Hb]. apply bytes_ok_app in Hb. split; [tauto|].
  unfold bulk_max in Hm. destruct E; cbn [count_in text_max count] in *.
  - split; [lia|congruence].
  - destruct Hc as [Hc ->]. split; [lia|reflexivity].
  - destruct Hc as [Hc ->]. split; [lia|reflexivity].
Qed.

Lemma halves z : 0 <= z < 2 ^ 128 -> 0 <= z mod 2 ^ 64 < 2 ^ 64 /\ 0 <= z / 2 ^ 64 < 2 ^ 64 /\ z mod 2 ^ 64 + 2 ^ 64 * (z / 2 ^ 64) = z.
Proof.
  intro Hz. split; [apply Z.mod_pos_bound; lia|]. split.
  - split; [apply Z.div_pos; lia|]. apply Z.div_lt_upper_bound; lia.
  - pose proof (Z.div_mod z (2 ^ 64)). lia.
Qed.

Lemma low_range k z : 0 < k -> - 2 ^ (k - 1) <= low k z < 2 ^ (k - 1).
Proof.
  intro Hk. unfold low. pose proof (Z.mod_pos_bound (z + 2 ^ (k - 1)) (2 ^ k) ltac:(apply Z.pow_pos_nonneg; lia)).
  replace (2 ^ k) with (2 * 2 ^ (k - 1)) in * by (rewrite <- Z.pow_succ_r by lia; f_equal; lia). lia.
Qed.

Definition settling : list ty :=
  [Bool_; HexBytes; Varint16; Varuint16; Varint32; Varuint32; JSONFloat64; Int64; Uint64; Uint128; Int128; Float128].
Definition keeping (E : encoding) : list ty :=
  [JSONFloat64; Int64; Uint64; Uint128; Int128; Float128] ++ match E with Bin => [] | _ => [HexBytes] end.

Lemma both_lib E : Forall (firm_ty E) settling /\ Forall (same_ty E) (keeping E).
Proof.
  assert (HL := proj1 (Forall_forall _ _) (library_exact E)).
  assert (L : forall k c u m (R : encoding -> order -> val -> rel val), lib_ty k = TCodec c u -> c_marshal c = Some m -> c_byval c = true ->
    (exists f, c_unmarshal c = Some f /\ regular E f /\
      forall o old, good_cur E (Some o) -> fits u old -> exact (at_order o) (good_cur E) E (f old) (R E o old)) ->
    (forall o b rest v, bytes_ok (b ++ rest) -> R E o (zero_val u) b rest v -> fits u v /\ carries E k v /\ lib_back v = v) ->
    firm_ty E (TCodec c u) /\
    ((forall o b rest v, bytes_ok (b ++ rest) -> R E o (zero_val u) b rest v -> b = lib_bytes E o k v) -> same_ty E (TCodec c u))).
  { intros k c u m R Et Hm Hv (f & Hf & _ & Hx) HR. exact (firm_lib E k c u m f R Et Hm Hv Hf Hx HR). }
  assert (B : firm_ty E Bool_).
  { eapply (L LBool); [reflexivity|reflexivity|reflexivity|exact (HL _ (nth_error_In library 1 eq_refl))|].
    cbn beta. intros o b rest v Hb (x & -> & _). split; [eexists; reflexivity|]. split; [constructor|reflexivity]. }
  assert (Hx : firm_ty E HexBytes /\ (E <> Bin -> same_ty E HexBytes)).
  { edestruct (L LHexBytes) as [L1 L2]; [reflexivity|reflexivity|reflexivity|exact (HL _ (nth_error_In library 2 eq_refl))| |].
    - cbn beta. intros o b rest v Hb (x & -> & Hc). destruct (counted_bytes E b rest x Hb Hc) as (H1' & H2' & _).
      split; [|split; [now constructor|reflexivity]]. exists (Some (map VNum x)). split; [reflexivity|].
      intros l' Hl'. assert (l' = map VNum x) by congruence. subst l'. apply Forall_map. eapply Forall_impl; [|exact H1'].
      intros z Hz. exists z. split; [reflexivity|]. exact Hz.
    - split; [exact L1|]. intro HE. apply L2. cbn beta. intros o b rest v Hb (x & -> & Hc).
      destruct (counted_bytes E b rest x Hb Hc) as (_ & _ & H3'). rewrite (H3' HE). cbn [lib_bytes].
      rewrite map_map, map_id. unfold zlen. now rewrite map_length. }
  assert (I16 : firm_ty E Varint16).
  { eapply (L LVarint16); [reflexivity|reflexivity|reflexivity|exact (HL _ (nth_error_In library 3 eq_refl))|].
    cbn beta. intros o b rest v Hb (x & -> & _). pose proof (low_range 16 (unzz x) ltac:(lia)) as Hr. cbn [Z.sub] in Hr.
    split; [eexists; split; [reflexivity|exact Hr]|]. split; [now constructor|reflexivity]. }
  assert (I32 : firm_ty E Varint32).
  { eapply (L LVarint32); [reflexivity|reflexivity|reflexivity|exact (HL _ (nth_error_In library 4 eq_refl))|].
    cbn beta. intros o b rest v Hb (x & -> & _). pose proof (low_range 32 (unzz x) ltac:(lia)) as Hr.
    split; [eexists; split; [reflexivity|exact Hr]|]. split; [now constructor|reflexivity]. }
  assert (U16 : firm_ty E Varuint16).
  { eapply (L LVaruint16); [reflexivity|reflexivity|reflexivity|exact (HL _ (nth_error_In library 5 eq_refl))|].
    cbn beta. intros o b rest v Hb (x & -> & _). pose proof (Z.mod_pos_bound x (2 ^ 16) ltac:(lia)) as Hr.
    split; [eexists; split; [reflexivity|exact Hr]|]. split; [now constructor|reflexivity]. }
  assert (U32 : firm_ty E Varuint32).
  { eapply (L LVaruint32); [reflexivity|reflexivity|reflexivity|exact (HL _ (nth_error_In library 6 eq_refl))|].
    cbn beta. intros o b rest v Hb (x & -> & _). pose proof (Z.mod_pos_bound x (2 ^ 32) ltac:(lia)) as Hr.
    split; [eexists; split; [reflexivity|exact Hr]|]. split; [now constructor|reflexivity]. }
  assert (F64' : firm_ty E JSONFloat64 /\ same_ty E JSONFloat64).
  { edestruct (L LJSONFloat64) as [L1 L2]; [reflexivity|reflexivity|reflexivity|exact (HL _ (nth_error_In library 7 eq_refl))| |].
    - cbn beta. intros o b rest v Hb (x & -> & Hr & _ & Hn). split; [eexists; split; [reflexivity|exact Hr]|]. split; [now constructor|reflexivity].
    - split; [exact L1|]. apply L2. cbn beta. now intros o b rest v Hb (x & -> & Hr & -> & Hn). }
  assert (I64' : firm_ty E Int64 /\ same_ty E Int64).
  { edestruct (L LInt64) as [L1 L2]; [reflexivity|reflexivity|reflexivity|exact (HL _ (nth_error_In library 8 eq_refl))| |].
    - cbn beta. intros o b rest v Hb (x & -> & Hr & _). split; [eexists; split; [reflexivity|exact Hr]|]. split; [now constructor|reflexivity].
    - split; [exact L1|]. apply L2. cbn beta. now intros o b rest v Hb (x & -> & Hr & ->). }
  assert (U64' : firm_ty E Uint64 /\ same_ty E Uint64).
  { edestruct (L LUint64) as [L1 L2]; [reflexivity|reflexivity|reflexivity|exact (HL _ (nth_error_In library 9 eq_refl))| |].
    - cbn beta. intros o b rest v Hb (x & -> & Hr & _). split; [eexists; split; [reflexivity|exact Hr]|]. split; [now constructor|reflexivity].
    - split; [exact L1|]. apply L2. cbn beta. now intros o b rest v Hb (x & -> & Hr & ->). }
  assert (H128 : forall k, In k [LUint128; LInt128; LFloat128] ->
    (forall o b rest v, bytes_ok (b ++ rest) -> image (fun z => VStruct [VNum (z mod 2 ^ 64); VNum (z / 2 ^ 64); VIface None]) (unsigned 16 o) b rest v ->
      fits (TStruct u128_fields) v /\ carries E k v /\ lib_back v = v) /\
    (forall o b rest v, bytes_ok (b ++ rest) -> image (fun z => VStruct [VNum (z mod 2 ^ 64); VNum (z / 2 ^ 64); VIface None]) (unsigned 16 o) b rest v ->
      b = lib_bytes E o k v)).
  { intros k Hk. split.
    - intros o b rest v Hb (x & -> & Hr & _). destruct (halves x) as (A1 & A2 & _); [exact Hr|].
      split; [|split; [now constructor|reflexivity]].
      eexists. split; [reflexivity|]. split; [eexists; split; [reflexivity|exact A1]|]. split; [eexists; split; [reflexivity|exact A2]|].
      split; [|exact I]. eexists; reflexivity.
    - intros o b rest v Hb (x & -> & Hr & ->). destruct (halves x) as (_ & _ & A3); [exact Hr|].
      destruct Hk as [<-|[<-|[<-|[]]]]; cbn [lib_bytes]; now rewrite A3. }
  assert (A : firm_ty E Uint128 /\ same_ty E Uint128).
  { destruct (H128 LUint128) as [P1 P2]; [cbn; tauto|].
    edestruct (L LUint128) as [L1 L2]; [reflexivity|reflexivity|reflexivity|exact (HL _ (nth_error_In library 10 eq_refl))|exact P1|].
    split; [exact L1|]. apply L2. exact P2. }
  assert (A' : firm_ty E Int128 /\ same_ty E Int128).
  { destruct (H128 LInt128) as [P1 P2]; [cbn; tauto|].
    edestruct (L LInt128) as [L1 L2]; [reflexivity|reflexivity|reflexivity|exact (HL _ (nth_error_In library 11 eq_refl))|exact P1|].
    split; [exact L1|]. apply L2. exact P2. }
  assert (A'' : firm_ty E Float128 /\ same_ty E Float128).
  { destruct (H128 LFloat128) as [P1 P2]; [cbn; tauto|].
    edestruct (L LFloat128) as [L1 L2]; [reflexivity|reflexivity|reflexivity|exact (HL _ (nth_error_In library 12 eq_refl))|exact P1|].
    split; [exact L1|]. apply L2. exact P2. }
  clear HL L H128. split.
  - unfold settling. repeat (constructor; [tauto|]). constructor.
  - unfold keeping. apply Forall_app. split; [repeat (constructor; [tauto|]); constructor|].
    destruct E; constructor; try constructor; apply Hx; discriminate.
Qed.

Theorem decode_injective E t inp inp' v s s' : steady E false t -> strict E false t -> tame E t ->
  bytes_ok inp -> bytes_ok inp' ->
  decode t (zero_val t) (new_decoder E inp) = (Ok v, s) -> d_pos s = zlen inp ->
  decode t (zero_val t) (new_decoder E inp') = (Ok v, s') -> d_pos s' = zlen inp' ->
  inp = inp'.
Proof.
  intros Hs HS Ht Hb Hb' Hd Hp Hd' Hp'.
  destruct (decode_settles E t inp v s Hs Ht Hb Hd) as (b & H1 & _ & H3).
  destruct (decode_settles E t inp' v s' Hs Ht Hb' Hd') as (b' & H1' & _ & H3').
  destruct (H3 HS) as (r & -> & H5). destruct (H3' HS) as (r' & -> & H5').
  assert (b' = b) by congruence. subst b'. rewrite zlen_app in *.
  assert (zlen r = 0) by lia. assert (zlen r' = 0) by lia.
  destruct r; [|rewrite zlen_cons in *; pose proof (zlen_nonneg r); lia].
  destruct r'; [|rewrite zlen_cons in *; pose proof (zlen_nonneg r'); lia]. reflexivity.
Qed.

(** ** Types that do not keep the bytes *)
Definition acc_flag : ty := TStruct [(mkF "O" true (mkTag "optional" "" ""), TUint UPlain W8)].
Definition acc_cflag : ty := TStruct [(mkF "O" true (mkTag "coption" "" ""), TUint UPlain W8)].
Definition loose : list (encoding * ty * list Z) :=
  [ (Borsh, TBool, [2]);
    (Bin, TFloat F32, [1; 0; 128; 127]);
    (Bin, TSlice (TUint UPlain W8), [129; 0; 5]);
    (Bin, acc_flag, [7; 0; 0; 0; 5]);
    (Borsh, acc_cflag, [1; 0; 0; 0; 0]);
    (CompactU16, TMap (TUint UPlain W8) TBool, [2; 5; 0; 5; 1]);
    (Borsh, TMap (TUint UPlain W8) TString, [2; 0; 0; 0; 9; 0; 0; 0; 0; 5; 0; 0; 0; 0]);
    (Bin, Varuint16, [129; 0]);
    (Borsh, TStruct [(mkF "B" true (mkTag "binary_extension" "" ""), TInt false W16)], []) ].

Lemma loose_refuted : Forall (fun '(E, t, inp) => exists v s,
  decode t (zero_val t) (new_decoder E inp) = (Ok v, s) /\ fst (marshal E t v) = Ok tt /\
  forall rest, inp <> snd (marshal E t v) ++ rest) loose.
Proof.
  unfold loose. repeat constructor.
  all: eexists; eexists; (split; [vm_compute; reflexivity|]).
  all: (split; [vm_compute; reflexivity|]); intro rest; 
    match goal with |- _ <> ?x ++ _ => let y := eval vm_compute in x in replace x with y by (vm_compute; reflexivity) end; cbn [app]; discriminate.
Qed.

Definition broken_text : list Z := [214; 170; 1] ++ repeat 255 (Z.to_nat 21846).
Lemma safe_string_unsettled : exists inp v s b,
  decode SafeString (zero_val SafeString) (new_decoder CompactU16 inp) = (Ok v, s) /\
  marshal CompactU16 SafeString v = (Ok tt, b) /\
  unmarshal CompactU16 SafeString (zero_val SafeString) b = Err EMsg.
Proof.
  assert (H : match decode SafeString (zero_val SafeString) (new_decoder CompactU16 broken_text) with
    | (Ok v, _) => match marshal CompactU16 SafeString v with
                   | (Ok _, b) => match unmarshal CompactU16 SafeString (zero_val SafeString) b with Err EMsg => true | _ => false end
                   | _ => false
                   end
    | _ => false
    end = true) by (vm_compute; reflexivity).
  exists broken_text.
  destruct (decode SafeString (zero_val SafeString) (new_decoder CompactU16 broken_text)) as [[v|e| | |] s]; try discriminate H.
  destruct (marshal CompactU16 SafeString v) as [[[]|e| | |] b] eqn:Em; try discriminate H.
  exists v, s, b. split; [reflexivity|]. split; [exact Em|].
  destruct (unmarshal CompactU16 SafeString (zero_val SafeString) b) as [x|e| | |]; try discriminate H. destruct e; try discriminate H. reflexivity.
Qed.
