(** Encode, decode, encode again: the library types, and Encode and Decode. *)
From Coq Require Import String.
From Verif Require Import Types DecPrim EncPrim Enc Dec Spec NumFacts TyInd EncWire DecWire RoundTrip FieldFacts Builtin LibSpec LibFacts AccSpec SteadySpec SteadyFacts SteadyLib MapFacts AgainSpec AccFacts AccLib AgainFacts.
Notation length := Datatypes.length.

Theorem marshal_again E t v : lasting E t -> fits t v -> ok E t None LE v ->
  exists b v', marshal E t v = (Ok tt, b) /\ unmarshal E t (zero_val t) b = Ok v' /\
    marshal E t v' = (Ok tt, b) /\ fits t v' /\ ok E t None LE v'.
Proof.
  intros HL HF HO. destruct (again_all E t None LE v HL (fun _ => eq_refl) HF HO) as (A & B & C & D). cbv zeta in *.
  exists (wire E t None LE v), (back E t None LE (zero_val t) v).
  split; [now apply marshal_wire|]. split; [|split; [rewrite <- D; now apply marshal_wire|auto]].
  pose proof (unmarshal_wire E t v (zero_val t) [] HO (fits_zero t)) as H. now rewrite app_nil_r in H.
Qed.

(** ** Library types *)
Definition lasting_library : list ty :=
  [Bool_; HexBytes; Varint16; Varuint16; Varint32; Varuint32; JSONFloat64; Int64; Uint64; Uint128; Int128; Float128].

Definition stays_ty (E : encoding) (t : ty) : Prop := match t with TCodec c u => stays E c u | _ => False end.

Lemma stays_lib E k c u m f : lib_ty k = TCodec c u -> c_marshal c = Some m -> c_byval c = true -> c_unmarshal c = Some f ->
  (forall o v, fits u v -> codec_writes m E o v -> carries E k v /\ carries E k (lib_back v) /\ forall o, lib_bytes E o k (lib_back v) = lib_bytes E o k v) ->
  stays E c u.
Proof.
  intros Et Hm Hv Hf HC. exists m, f. repeat (split; [assumption|]). intros o v Ho HF Hw _. destruct (HC o v HF Hw) as (C1 & C2 & C3).
  destruct (lib_format E k None o v Ho C1) as (_ & F2 & F3). destruct (lib_format E k None o (lib_back v) Ho C2) as (G1 & G2 & _).
  rewrite Et in *. specialize (F3 (zero_val u) (fits_zero u)). cbn [back] in F3. rewrite Hf, F2 in F3.
  cbn [wire ok] in *. unfold val_marshal in *. rewrite Hv, Hm, Hf in *. cbv zeta. rewrite F2, F3, G2, C3.
  split; [|split; [tauto|reflexivity]].
  pose proof (carries_fits E k _ C2) as H. rewrite Et in H. exact H.
Qed.

Lemma float_writes E o b : codec_writes (fun v => match v with
    | VFloat b => o <- e_cur_order ;; write_float F64 b o
    | _ => stuck end) E o (VFloat b) -> E = Borsh -> f_isnan F64 b = false.
Proof.
  intros (cs & c' & H) ->. specialize (H (fun _ => None) 0 [] []). rewrite play_buffer in H.
  destruct (f_isnan F64 b) eqn:En; [|reflexivity]. exfalso. unfold bind, e_cur_order, write_float in H. cbn in H. cbn in En. rewrite En in H. discriminate H.
Qed.

(** HexBytes: whatever is written in front of the content, if it is read back as
    a whole then as what would be written for what is read. *)
Definition head (E : encoding) (n : Z) : list Z :=
  match E with Bin => leb128 (uwrap 64 n) | CompactU16 => fst (encode_compact_u16 [] n) | Borsh => fixed LE 4 n end.
Lemma leb128_shape x : 0 <= x -> exists init last, leb128 x = init ++ [last] /\ Forall (fun y => 128 <= y) init /\ last < 128.
Proof.
  revert x. apply (leb128_ind (fun x => exists init last, leb128 x = init ++ [last] /\ Forall (fun y => 128 <= y) init /\ last < 128)).
  - intros x Hx. exists [], x. rewrite leb128_small by lia. repeat split; [constructor|lia].
  - intros x Hx (init & last & E1 & E2 & E3). exists ((x mod 128 + 128) :: init), last. rewrite leb128_big, E1 by lia.
    split; [reflexivity|]. split; [|exact E3]. constructor; [|exact E2]. pose proof (Z.mod_pos_bound x 128). lia.
Qed.
Lemma groups_leb128 x : 0 <= x -> groups (leb128 x) = x.
Proof.
  revert x. apply (leb128_ind (fun x => groups (leb128 x) = x)).
  - intros x Hx. rewrite leb128_small by lia. cbn [groups]. rewrite Z.mod_small; lia.
  - intros x Hx IH. rewrite leb128_big by lia. cbn [groups]. rewrite IH.
    replace (x mod 128 + 128) with (x mod 128 + 1 * 128) by ring. rewrite Z.mod_add, Z.mod_mod by lia. pose proof (Z.div_mod x 128). lia.
Qed.
Lemma one_prefix a : forall x s b y r, a ++ x :: s = b ++ y :: r -> Forall (fun y => 128 <= y) a -> Forall (fun y => 128 <= y) b ->
  x < 128 -> y < 128 -> a = b /\ x = y /\ s = r.
Proof.
  induction a as [|z a IH]; intros x s [|w b] y r H Ha Hb Hx Hy; cbn [app] in H.
  - split; [reflexivity|]. split; congruence.
  - exfalso. assert (x = w) by congruence. inversion_clear Hb. lia.
  - exfalso. assert (z = y) by congruence. inversion_clear Ha. lia.
  - inversion_clear Ha as [|? ? Ha1 Ha2]. inversion_clear Hb as [|? ? Hb1 Hb2]. assert (z = w) by congruence. subst w.
    destruct (IH x s b y r) as (-> & -> & ->); auto. congruence.
Qed.
Lemma hex_bytes E o v s : bytes_val v = Some s -> 
  codec_writes (fun v => match bytes_val v with Some b => write_bytes b | None => stuck end) E o v ->
  codec_bytes (fun v => match bytes_val v with Some b => write_bytes b | None => stuck end) E o v = head E (zlen s) ++ s.
Proof.
  intros Hs Hw. 
  assert (Hh : emits E (Some o) (write_bytes s) (head E (zlen s) ++ s) (Some o)).
  { unfold write_bytes. eapply emits_bind; [|apply emits_bytes_nolen]. unfold write_length. apply emits_get_enc. destruct E; cbn [head].
    - unfold write_uvarint, put_uvarint. rewrite uvarint_bytes_leb by (unfold uwrap; lia).
      destruct (_ <=? 8) eqn:E8; [apply emits_to_writer|]. exfalso. destruct Hw as (cs & c' & Hw).
      specialize (Hw (fun _ => None) 0 [] []). rewrite play_buffer, Hs in Hw.
      unfold write_bytes, write_length, bind, e_get_enc, write_uvarint, put_uvarint in Hw. cbn [e_enc] in Hw.
      rewrite uvarint_bytes_leb in Hw by (unfold uwrap; lia). rewrite E8 in Hw. discriminate Hw.
    - apply emits_bytes_nolen.
    - apply emits_write_uint. }
  unfold codec_bytes. destruct Hh as (cs & Hh & <-). specialize (Hh (fun _ => None) 0 [] []). rewrite play_buffer in Hh.
  rewrite Hs, Hh. reflexivity.
Qed.
Lemma hex_stays E : stays_ty E HexBytes.
Proof.
  cbn [stays_ty HexBytes]. eexists. eexists. split; [reflexivity|]. split; [reflexivity|]. split; [reflexivity|].
  intros o v Ho HF Hw Hr. cbn beta. set (m := fun v => match bytes_val v with Some b => write_bytes b | None => stuck end) in *.
  assert (Hv : exists s, bytes_val v = Some s /\ bytes_ok s).
  { destruct HF as (p & -> & Hp). destruct p as [l|]; [|exists []; split; [reflexivity|constructor]]. cbn [bytes_val].
    specialize (Hp l eq_refl). clear -Hp. induction Hp as [|x l (z & -> & Hz) _ (s & Hs & IH)]; [exists []; split; [reflexivity|constructor]|].
    exists (z :: s). cbn [nums]. rewrite Hs. split; [reflexivity|]. constructor; [exact Hz|exact IH]. }
  destruct Hv as (s & Hs & Hb). assert (Hm := hex_bytes E o v s Hs Hw). fold m in Hm.
  set (b := codec_bytes m E o v) in *.
  assert (Hbb : bytes_ok b).
  { rewrite Hm. apply bytes_ok_app. split; [|exact Hb]. destruct E; cbn [head].
    - apply leb128_ok. unfold uwrap. lia.
    - destruct (Z.le_gt_cases (zlen s) 65535) as [El|El]; pose proof (zlen_nonneg s).
      + rewrite encode_cu16_leb by lia. now apply leb128_ok.
      + unfold encode_compact_u16. replace ((zlen s <? 0) || (65535 <? zlen s)) with true by lia. constructor.
    - apply fixed_ok. }
  destruct (Hr (VSlice None)) as (x & Hx); [now exists None|].
  destruct (Hx [] [] (Some o) eq_refl) as (c' & Hx1 & _). rewrite app_nil_r in Hx1. cbn [app] in Hx1. change (zlen []) with 0 in Hx1.
  assert (Hback : codec_back (fun _ => fmap (fun b0 => VSlice (Some (map VNum b0))) (emsg read_byte_slice)) E o (zero_val (TSlice (TUint UPlain W8))) b = x).
  { unfold codec_back. cbn [zero_val]. rewrite Hx1. reflexivity. }
  cbv zeta. rewrite Hback.
  assert (HE : exact (fun _ => True) (fun _ => True) E (fmap (fun b0 => VSlice (Some (map VNum b0))) (emsg read_byte_slice)) (image (fun s => VSlice (Some (map VNum s))) (counted E))).
  { apply exact_fmap. apply exact_map_err. apply exact_counted. }
  destruct (HE [] b (Some o) I Hbb) as [H1 _]. destruct (H1 _ _ Hx1) as (b' & rest & c2 & Hsplit & Hpos & _ & (s2 & -> & Hc)).
  cbn [app] in Hpos. change (zlen []) with 0 in Hpos. assert (rest = []) by (destruct rest; [reflexivity|]; injection Hpos as Hp _; rewrite Hsplit, zlen_app, zlen_cons in Hp; pose proof (zlen_nonneg rest); lia).
  subst rest. rewrite app_nil_r in Hsplit. subst b'.
  assert (Hbb' : bytes_ok (b ++ [])) by (now rewrite app_nil_r).
  destruct (counted_bytes E b [] s2 Hbb' Hc) as (Hs2 & Hl & Hn).
  assert (Heq : b = count E (zlen s2) ++ s2).
  { destruct E; [|apply Hn; discriminate..]. clear Hn.
    destruct Hc as (b1 & b2 & n & Eb & [[Hu _] _] & Hzl & ->). rewrite Hm in Eb. cbn [head] in Eb.
    destruct (leb128_shape (uwrap 64 (zlen s))) as (i1 & l1 & E1 & E2 & E3); [unfold uwrap; lia|].
    destruct Hu as (i2 & l2 & -> & Hi2 & Hl2 & _ & Hg & _). rewrite E1 in Eb. rewrite <- !app_assoc in Eb. cbn [app] in Eb.
    destruct (one_prefix _ _ _ _ _ _ Eb E2 Hi2 E3 Hl2) as (-> & -> & ->).
    rewrite Hm. cbn [head count]. f_equal. f_equal. transitivity (groups (i2 ++ [l2])); [|congruence]. rewrite <- E1. symmetry. apply groups_leb128. unfold uwrap. lia. }
  assert (C2 : carries E LHexBytes (VSlice (Some (map VNum s2)))) by (now constructor).
  destruct (lib_format E LHexBytes None o _ Ho C2) as (G1 & G2 & _). cbn [lib_ty HexBytes simple_codec wire ok] in G1, G2.
  unfold val_marshal, simple_codec in *. cbn [c_byval c_marshal c_unmarshal] in *. fold m in G1, G2. rewrite G2.
  split; [exact (carries_fits E LHexBytes _ C2)|]. split; [tauto|]. rewrite Heq. cbn [lib_bytes].
  unfold zlen at 1. rewrite map_length, map_map. f_equal. now rewrite map_id.
Qed.

Lemma library_stays E : Forall (stays_ty E) lasting_library.
Proof.
  assert (Hsame : forall k v, carries E k v -> lib_back v = v -> carries E k v /\ carries E k (lib_back v) /\ forall o, lib_bytes E o k (lib_back v) = lib_bytes E o k v).
  { intros k v Hc Hb. rewrite Hb. auto. }
  assert (Hw : forall k lo hi e, In k [LUint128; LInt128; LFloat128] -> 0 <= lo < 2 ^ 64 -> 0 <= hi < 2 ^ 64 ->
    carries E k (VStruct [VNum lo; VNum hi; VIface e]) /\ carries E k (lib_back (VStruct [VNum lo; VNum hi; VIface e])) /\
    forall o, lib_bytes E o k (lib_back (VStruct [VNum lo; VNum hi; VIface e])) = lib_bytes E o k (VStruct [VNum lo; VNum hi; VIface e])).
  { intros k lo hi e Hk Hlo Hhi. split; [now constructor|]. split; [now constructor|]. intro o. destruct Hk as [<-|[<-|[<-|[]]]]; reflexivity. }
  assert (H128 : forall k v, In k [LUint128; LInt128; LFloat128] -> fits (TStruct u128_fields) v ->
    carries E k v /\ carries E k (lib_back v) /\ forall o, lib_bytes E o k (lib_back v) = lib_bytes E o k v).
  { intros k v Hk (vs & -> & HF). unfold u128_fields in HF. destruct vs as [|a [|b [|c [|d vs]]]]; cbn [fits_fields snd] in HF; try tauto.
    destruct HF as ((lo & -> & Hlo) & (hi & -> & Hhi) & (e & ->) & _). now apply Hw. }
  unfold lasting_library. repeat (constructor; [cbn [stays_ty]|]); try constructor.
  - eapply (stays_lib E LBool); try reflexivity. intros o v (b & ->) _. apply Hsame; [constructor|reflexivity].
  - apply hex_stays.
  - eapply (stays_lib E LVarint16); try reflexivity. intros o v (z & -> & Hz) _. apply Hsame; [now constructor|reflexivity].
  - eapply (stays_lib E LVaruint16); try reflexivity. intros o v (z & -> & Hz) _. apply Hsame; [now constructor|reflexivity].
  - eapply (stays_lib E LVarint32); try reflexivity. intros o v (z & -> & Hz) _. apply Hsame; [now constructor|reflexivity].
  - eapply (stays_lib E LVaruint32); try reflexivity. intros o v (z & -> & Hz) _. apply Hsame; [now constructor|reflexivity].
  - eapply (stays_lib E LJSONFloat64); try reflexivity. intros o v (z & -> & Hz) H. apply Hsame; [|reflexivity].
    constructor; [exact Hz|]. now apply float_writes with (o := o).
  - eapply (stays_lib E LInt64); try reflexivity. intros o v (z & -> & Hz) _. apply Hsame; [now constructor|reflexivity].
  - eapply (stays_lib E LUint64); try reflexivity. intros o v (z & -> & Hz) _. apply Hsame; [now constructor|reflexivity].
  - eapply (stays_lib E LUint128); try reflexivity. intros o v HF _. apply H128; [cbn; tauto|exact HF].
  - eapply (stays_lib E LInt128); try reflexivity. intros o v HF _. apply H128; [cbn; tauto|exact HF].
  - eapply (stays_lib E LFloat128); try reflexivity. intros o v HF _. apply H128; [cbn; tauto|exact HF].
Qed.

(** ** Which types may be optional, and which may be keys *)
(** Booleans, numbers, texts, pointers. *)
Fixpoint scalar (t : ty) : bool :=
  match t with
  | TBool | TUint _ _ | TInt _ _ | TFloat _ | TString => true
  | TCodec c u => no_codec c && scalar u
  | _ => false
  end.
Definition scalar_or_pointer (t : ty) : bool := match t with TPtr _ => true | _ => scalar t end.

Lemma quiet_zero f b : 0 <= b < 2 ^ fbits f -> quiet f b = 0 -> b = 0.
Proof. unfold quiet. destruct f; [destruct (_ && _); lia|lia]. Qed.

Lemma scalar_marked E t : scalar_or_pointer t = true -> marked E t.
Proof.
  induction t as [t IH] using ty_strong_ind. intros Hs sz o v HF HO Hz.
  destruct t as [|u w|u w|f| |s| | |t|n t|t|kt vt|fs|c u|]; try discriminate Hs; cbn [ok] in HO.
  - destruct HO as (b & ->). exact Hz.
  - destruct HO as (z & -> & _). exact Hz.
  - destruct HO as (z & -> & _). exact Hz.
  - destruct HO as (b & -> & Hb & _). cbn [back is_zero] in *. destruct (quiet f b =? 0) eqn:Eq; [|reflexivity].
    apply Z.eqb_eq in Eq. apply (quiet_zero f b Hb) in Eq. lia.
  - destruct HO as (s & -> & _). exact Hz.
  - destruct HO as (q & -> & _). reflexivity.
  - cbn [scalar_or_pointer scalar] in Hs. apply andb_true_iff in Hs. destruct Hs as [Hc Hs].
    destruct (no_codec_none c Hc) as [Em Eu]. unfold val_marshal in HO. rewrite Em, Eu in HO.
    replace (if c_byval c then None else None) with (@None (val -> EM unit)) in HO by (now destruct (c_byval c)).
    cbn [back zero_val]. rewrite Eu. apply (IH u); auto. destruct u; auto; discriminate.
Qed.

Lemma scalar_kept t : scalar t = true -> kept_key Borsh t.
Proof.
  induction t as [t IH] using ty_strong_ind. intros Hs v HO.
  destruct t as [|u w|u w|f| |s| | |t|n t|t|kt vt|fs|c u|]; try discriminate Hs; cbn [ok] in HO.
  - destruct HO as (b & ->). reflexivity.
  - destruct HO as (z & -> & _). reflexivity.
  - destruct HO as (z & -> & _). reflexivity.
  - destruct HO as (b & -> & Hb & Hn). cbn [back]. now rewrite quiet_notnan by auto.
  - destruct HO as (s & -> & _). reflexivity.
  - cbn [scalar] in Hs. apply andb_true_iff in Hs. destruct Hs as [Hc Hs].
    destruct (no_codec_none c Hc) as [Em Eu]. unfold val_marshal in HO. rewrite Em, Eu in HO.
    replace (if c_byval c then None else None) with (@None (val -> EM unit)) in HO by (now destruct (c_byval c)).
    cbn [back zero_val]. rewrite Eu. apply (IH u); auto.
Qed.

(** Whatever order the maps are visited in. *)
Theorem marshal_again_shuffled t v : lasting Borsh t -> fits t v -> ok Borsh t None LE v ->
  exists b v', marshal Borsh t v = (Ok tt, b) /\ unmarshal Borsh t (zero_val t) b = Ok v' /\
    forall v'', shuffled good_keys t v' v'' -> marshal Borsh t v'' = (Ok tt, b).
Proof.
  intros HL HF HO. destruct (marshal_again Borsh t v HL HF HO) as (b & v' & H1 & H2 & H3 & _).
  exists b, v'. split; [exact H1|]. split; [exact H2|]. intros v'' Hs. rewrite <- H3. unfold marshal.
  now rewrite (encode_same t v' v'' (new_encoder Borsh buffer) eq_refl Hs).
Qed.

(** What was decoded, from whatever bytes: encoding settles after one round. *)
Theorem decode_again E t inp v s : steady E false t -> lasting E t -> tame E t -> bytes_ok inp ->
  decode t (zero_val t) (new_decoder E inp) = (Ok v, s) ->
  exists b v', marshal E t v = (Ok tt, b) /\ unmarshal E t (zero_val t) b = Ok v' /\ marshal E t v' = (Ok tt, b).
Proof.
  intros Hs HL Ht Hb Hd. destruct (decode_ok E t inp v s Hs Ht Hb Hd) as [F O].
  destruct (marshal_again E t v HL F O) as (b & v' & H1 & H2 & H3 & _). eauto.
Qed.

(** Keys for which Go's == is an equivalence. *)
Fixpoint exact_key (t : ty) : bool :=
  match t with
  | TBool | TUint _ _ | TInt _ _ | TString => true
  | TCodec _ u => exact_key u
  | _ => false
  end.
Lemma exact_plain t : exact_key t = true -> plain_keys t.
Proof.
  induction t as [t IH] using ty_strong_ind. intros Hs a b Ha Hb.
  destruct t as [|u w|u w|f| |s| | |t|n t|t|kt vt|fs|c u|]; try discriminate Hs; cbn [fits key_eqb] in *.
  - destruct Ha as (x & ->), Hb as (y & ->). split; [apply Bool.eqb_reflx|]. now destruct x, y.
  - destruct Ha as (x & -> & _), Hb as (y & -> & _). split; [apply Z.eqb_refl|apply Z.eqb_sym].
  - destruct Ha as (x & -> & _), Hb as (y & -> & _). split; [apply Z.eqb_refl|apply Z.eqb_sym].
  - destruct Ha as (x & -> & _), Hb as (y & -> & _).
    destruct (list_eq_dec Z.eq_dec x x), (list_eq_dec Z.eq_dec x y), (list_eq_dec Z.eq_dec y x); split; congruence.
  - apply (IH u); auto.
Qed.
