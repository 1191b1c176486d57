(** The library's own types in the wire format. *)
From Verif Require Import Types EncPrim DecPrim Enc Dec Builtin Spec NumFacts EncFacts EncWire DecWire RoundTrip
  Utf8 Utf8Facts LibSpec.
Notation length := Datatypes.length.

Lemma emits_codec f E o v bs c' : emits E (Some o) (f v) bs c' ->
  codec_writes f E o v /\ codec_bytes f E o v = bs.
Proof.
  intros (cs & H & Hc). split; [now exists cs, c'|].
  specialize (H (fun _ => None) 0 [] []). rewrite play_buffer in H.
  unfold codec_bytes. rewrite H. exact Hc.
Qed.

Lemma ok_simple E c u sz o v f fu bs c' x :
  (E = Borsh -> o = LE) ->
  val_marshal c = Some f -> c_unmarshal c = Some fu ->
  emits E (Some o) (f v) bs c' ->
  (forall p, fits u p -> reads E (at_order o) (fu p) bs x) ->
  ok E (TCodec c u) sz o v /\ wire E (TCodec c u) sz o v = bs /\
  forall p, fits (TCodec c u) p -> back E (TCodec c u) sz o p v = x.
Proof.
  intros Ho Hm Hu He Hr. destruct (emits_codec f E o v bs c' He) as [Hw Hb].
  cbn [ok wire back]. rewrite Hm, Hu. rewrite Hb. split; [split; [exact Hw|]|].
  - intros p Hp. exists x. now apply Hr.
  - split; [reflexivity|]. intros p Hp. apply codec_back_reads; [exact Ho|now apply Hr].
Qed.

Lemma keeps_at {A} E o (m : DM A) bs x : (E = Borsh -> o = LE) ->
  keeps E m bs x -> reads E (at_order o) m bs x.
Proof.
  intros Ho H. eapply reads_weaken; [|apply keeps_reads, H].
  intros c -> HE. now rewrite Ho.
Qed.

Lemma nums_map l : nums (map VNum l) = Some l.
Proof. induction l as [|a l IH]; [reflexivity|]. cbn. now rewrite IH. Qed.

Lemma fixed_le_16 lo hi : 0 <= lo < 2 ^ 64 -> 0 <= hi < 2 ^ 64 ->
  fixed_le 16 (lo + 2 ^ 64 * hi) = fixed_le 8 lo ++ fixed_le 8 hi.
Proof.
  intros Hl Hh. unfold fixed_le. change (seq 0 16) with (seq 0 8 ++ seq 8 8). rewrite map_app. f_equal.
  - apply map_ext_in. intros i Hi. apply in_seq in Hi.
    assert (Hi' : 0 <= Z.of_nat i <= 7) by lia. revert Hi'. generalize (Z.of_nat i) as j. intros j Hj.
    assert (E2 : 2 ^ 64 = 256 ^ j * (256 ^ (7 - j) * 256)).
    { replace (256 ^ (7 - j) * 256) with (256 ^ (8 - j)).
      - rewrite <- Z.pow_add_r by lia. replace (j + (8 - j)) with 8 by lia. reflexivity.
      - replace (8 - j) with (7 - j + 1) by lia. rewrite Z.pow_add_r by lia. reflexivity. }
    assert (0 < 256 ^ j) by (apply Z.pow_pos_nonneg; lia).
    rewrite E2, <- Z.mul_assoc, Z.mul_comm with (n := 256 ^ j).
    rewrite Z.div_add by lia.
    rewrite <- Z.mul_assoc, (Z.mul_comm 256), Z.mul_assoc. apply Z.mod_add. lia.
  - change (seq 8 8) with (map (fun i => 8 + i)%nat (seq 0 8)). rewrite map_map. apply map_ext.
    intro i. rewrite Nat2Z.inj_add, Z.pow_add_r by lia. change (256 ^ Z.of_nat 8) with (2 ^ 64).
    rewrite <- Z.div_div by (try apply Z.pow_nonzero; try apply Z.pow_pos_nonneg; lia).
    rewrite (Z.mul_comm (2 ^ 64) hi), Z.div_add by lia. now rewrite (Z.div_small lo) by lia.
Qed.
Lemma fixed_16 o lo hi : 0 <= lo < 2 ^ 64 -> 0 <= hi < 2 ^ 64 ->
  fixed o 16 (lo + 2 ^ 64 * hi) =
  match o with LE => fixed LE 8 lo ++ fixed LE 8 hi | BE => fixed BE 8 hi ++ fixed BE 8 lo end.
Proof.
  intros Hl Hh. destruct o; cbn [fixed]; rewrite fixed_le_16 by assumption; [reflexivity|].
  now rewrite rev_app_distr.
Qed.
Lemma emits_u128 E c lo hi o : 0 <= lo < 2 ^ 64 -> 0 <= hi < 2 ^ 64 ->
  emits E c (write_uint128 lo hi o) (fixed o 16 (lo + 2 ^ 64 * hi)) c.
Proof.
  intros Hl Hh. rewrite fixed_16 by assumption. unfold write_uint128.
  destruct o; rewrite !put_uint_fixed; apply emits_to_writer.
Qed.
Lemma keeps_u128 E lo hi o : 0 <= lo < 2 ^ 64 -> 0 <= hi < 2 ^ 64 ->
  keeps E (read_uint128 o) (fixed o 16 (lo + 2 ^ 64 * hi)) (lo, hi).
Proof.
  intros Hl Hh. unfold read_uint128.
  assert (L : length (fixed o 16 (lo + 2 ^ 64 * hi)) = 16%nat) by apply fixed_length.
  apply keeps_remaining; [unfold zlen; lia|]. rewrite fixed_16 in * by assumption.
  rewrite <- (app_nil_r (match o with LE => _ | BE => _ end)). eapply keeps_bind.
  - apply keeps_take. unfold zlen. lia.
  - assert (F : forall a b : list Z, length a = 8%nat -> firstn 8 (a ++ b) = a /\ skipn 8 (a ++ b) = b).
    { intros a b Ha. rewrite <- Ha, firstn_app, Nat.sub_diag, firstn_all, firstn_O, app_nil_r.
      rewrite skipn_app, Nat.sub_diag, skipn_all, skipn_O. auto. }
    destruct o.
    + destruct (F (fixed LE 8 lo) (fixed LE 8 hi) (fixed_length _ _ _)) as [-> ->].
      rewrite !get_fixed by (cbn; lia). rewrite !Z.mod_small by (cbn; lia). apply keeps_ret.
    + destruct (F (fixed BE 8 hi) (fixed BE 8 lo) (fixed_length _ _ _)) as [-> ->].
      rewrite !get_fixed by (cbn; lia). rewrite !Z.mod_small by (cbn; lia). apply keeps_ret.
Qed.
Lemma emits_cur_order E o k b c' : emits E (Some o) (k o) b c' -> emits E (Some o) (bind e_cur_order k) b c'.
Proof.
  intro H. unfold e_cur_order.
  apply emits_ext with (m := k o); [|exact H]. intros s _ Hs. unfold bind, e_get_cur. now rewrite Hs.
Qed.
Lemma reads_u128 E o fl lo hi p : (E = Borsh -> o = LE) ->
  0 <= lo < 2 ^ 64 -> 0 <= hi < 2 ^ 64 -> fits (TStruct u128_fields) p ->
  reads E (at_order o) (u128_unmarshal fl p) (fixed o 16 (lo + 2 ^ 64 * hi))
    (VStruct [VNum lo; VNum hi; VIface None]).
Proof.
  intros Ho Hl Hh Hp. cbn [fits u128_fields] in Hp. destruct Hp as (vs & -> & Hf).
  destruct vs as [|a [|b [|c [|? ?]]]]; cbn [fits_fields u128_fields snd] in Hf; try tauto.
  destruct Hf as (_ & _ & (d & ->) & _). cbn [u128_unmarshal].
  assert (K : keeps E (p <- (if fl then emsg (read_uint128 o) else read_uint128 o) ;;
                       ret (u128_val (fst p) (snd p) None))
                (fixed o 16 (lo + 2 ^ 64 * hi)) (VStruct [VNum lo; VNum hi; VIface None])).
  { rewrite <- (app_nil_r (fixed _ _ _)). eapply keeps_bind.
    - destruct fl; [apply keeps_map_err|]; now apply keeps_u128.
    - apply keeps_ret. }
  intros pre post c0 ->. destruct (keeps_at E o _ _ _ Ho K pre post (Some o) eq_refl) as (c' & E1 & G).
  exists c'. split; [exact E1|exact G].
Qed.

Lemma carries_fits E k v : carries E k v -> fits (lib_ty k) v.
Proof.
  intros []; cbn [lib_ty fits SafeString Bool_ HexBytes Varint16 Varuint16 Varint32 Varuint32
    JSONFloat64 Int64 Uint64 EmptyVariant]; eauto.
  - eexists; split; [reflexivity|]. now apply utf8_bytes.
  - eexists; split; [reflexivity|]. intros l' [= <-]. apply Forall_forall. intros x Hx.
    apply in_map_iff in Hx as (b & <- & Hb). exists b. split; [reflexivity|].
    exact (proj1 (Forall_forall _ _) H b Hb).
  - destruct H as [<-|[<-|[<-|[]]]]; cbn [lib_ty fits Uint128 Int128 Float128 u128_fields];
      (eexists; split; [reflexivity|]; cbn; eauto 10).
  - eexists; split; [reflexivity|]. exact I.
Qed.

Theorem lib_format E k sz o v : (E = Borsh -> o = LE) -> carries E k v ->
  ok E (lib_ty k) sz o v /\ wire E (lib_ty k) sz o v = lib_bytes E o k v /\
  forall p, fits (lib_ty k) p -> back E (lib_ty k) sz o p v = lib_back v.
Proof.
  intros Ho [].
  - apply ok_simple with (f := fun v => match v with VStr s => write_string s | _ => stuck end)
      (fu := fun _ => fmap VStr safe_read_utf8_string) (c' := Some o); try easy.
    + cbn [lib_bytes]. apply emits_write_bytes. pose proof (text_max_count E). lia.
    + intros p _. apply keeps_at; [exact Ho|]. cbn [lib_bytes lib_back].
      replace (VStr s) with (VStr (safe_utf8 s)) by (now rewrite safe_id).
      apply keeps_fmap, keeps_fmap. pose proof (text_max_count E). pose proof (text_max_bulk E).
      apply keeps_byte_slice; lia.
  - apply ok_simple with (f := fun v => match v with VBool b => write_bool b | _ => stuck end)
      (fu := fun _ => fmap VBool read_bool) (c' := Some o); try easy.
    + apply emits_write_bool.
    + intros p _. apply keeps_at; [exact Ho|]. cbn [lib_back]. apply keeps_fmap, keeps_bool.
  - cbn [lib_bytes lib_back]. rewrite map_map, map_id. unfold zlen. rewrite map_length. fold (zlen l).
    eapply ok_simple with (c' := Some o); try reflexivity; try exact Ho.
    + cbn [bytes_val]. rewrite nums_map. apply emits_write_bytes. pose proof (text_max_count E). lia.
    + intros p _. apply keeps_at; [exact Ho|].
      apply (keeps_fmap E (fun b => VSlice (Some (map VNum b)))). apply keeps_map_err.
      pose proof (text_max_count E). pose proof (text_max_bulk E). apply keeps_byte_slice; lia.
  - eapply ok_simple with (c' := Some o); try reflexivity; try exact Ho.
    + apply emits_write_varint. lia.
    + intros p _. apply keeps_at; [exact Ho|]. cbn [lib_bytes lib_back]. apply keeps_fmap, keeps_map_err.
      unfold read_varint16. replace z with (swrap 16 z) at 2 by (apply swrap_small; lia).
      apply keeps_fmap, keeps_varint. lia.
  - eapply ok_simple with (c' := Some o); try reflexivity; try exact Ho.
    + apply emits_write_uvarint. lia.
    + intros p _. apply keeps_at; [exact Ho|]. cbn [lib_bytes lib_back]. apply keeps_fmap, keeps_map_err.
      unfold read_uvarint16. replace z with (uwrap 16 z) at 2 by (apply Z.mod_small; lia).
      apply keeps_fmap, keeps_uvarint. lia.
  - eapply ok_simple with (c' := Some o); try reflexivity; try exact Ho.
    + apply emits_write_varint. lia.
    + intros p _. apply keeps_at; [exact Ho|]. cbn [lib_bytes lib_back]. apply keeps_fmap.
      unfold read_varint32. replace z with (swrap 32 z) at 2 by (apply swrap_small; lia).
      apply keeps_fmap, keeps_varint. lia.
  - eapply ok_simple with (c' := Some o); try reflexivity; try exact Ho.
    + apply emits_write_uvarint. lia.
    + intros p _. apply keeps_at; [exact Ho|]. cbn [lib_bytes lib_back].
      replace (VNum z) with (VNum (uwrap 32 z)) by (f_equal; apply Z.mod_small; lia).
      apply (keeps_fmap E (fun n => VNum (uwrap 32 n))). apply keeps_map_err, keeps_uvarint. lia.
  - eapply ok_simple with (c' := Some o); try reflexivity; try exact Ho.
    + apply emits_cur_order. apply (emits_write_float E (Some o) F64 b o). assumption.
    + intros p _. apply reads_cur_order. apply keeps_at; [exact Ho|]. cbn [lib_bytes lib_back]. apply keeps_fmap.
      now apply (keeps_read_float E F64).
  - eapply ok_simple with (c' := Some o); try reflexivity; try exact Ho.
    + cbn [with_num lib_bytes]. apply emits_cur_order, emits_write_uint.
    + intros p _. apply reads_cur_order. apply keeps_at; [exact Ho|]. cbn [lib_bytes lib_back]. apply keeps_fmap.
      now apply (keeps_intw_fixed E W64).
  - eapply ok_simple with (c' := Some o); try reflexivity; try exact Ho.
    + cbn [with_num lib_bytes]. apply emits_cur_order, emits_write_uint.
    + intros p _. apply reads_cur_order. apply keeps_at; [exact Ho|]. cbn [lib_bytes lib_back]. apply keeps_fmap.
      now apply (keeps_uintw_fixed E W64).
  - destruct H as [<-|[<-|[<-|[]]]];
    (eapply ok_simple with (c' := Some o); try reflexivity; try exact Ho;
     [|intros p Hp; now apply reads_u128]);
    (cbn [u128_marshal]; apply emits_get_cur; cbn [lib_bytes]; now apply emits_u128).
  - cbn [lib_ty EmptyVariant ok wire back val_marshal c_byval c_unmarshal]. cbn [lib_bytes lib_back]. split; [split|split].
    + eexists; split; [reflexivity|]. destruct E; exact I.
    + intros p Hp. exists p. apply keeps_at; [exact Ho|]. destruct E; apply keeps_ret.
    + destruct E; reflexivity.
    + intros p Hp. cbn [fits] in Hp. destruct Hp as ([|? ?] & -> & Hf); [reflexivity|destruct Hf].
Qed.

Lemma ptr_same E c u f fu sz o v : val_marshal c = Some f -> c_unmarshal c = Some fu ->
  ok E (TCodec c u) sz o v ->
  ok E (TPtr (TCodec c u)) sz o (VPtr (Some v)) /\
  wire E (TPtr (TCodec c u)) sz o (VPtr (Some v)) = wire E (TCodec c u) sz o v /\
  forall p, back E (TPtr (TCodec c u)) sz o p (VPtr (Some v)) =
    VPtr (Some (back E (TCodec c u) sz o (deref (TCodec c u) p) v)).
Proof.
  intros Hm Hu H. cbn [ok] in H. rewrite Hm, Hu in H.
  assert (Hc : c_marshal c = Some f).
  { unfold val_marshal in Hm. destruct (c_byval c); [exact Hm|discriminate]. }
  cbn [ok wire back ptr_marshal has_unmarshal]. rewrite Hm, Hu, Hc. split; [|split; reflexivity].
  eexists; split; [reflexivity|]. exists v, u, fu. destruct H. eauto 10.
Qed.

Lemma fits_deref t p : fits (TPtr t) p -> fits t (deref t p).
Proof.
  intros (q & -> & Hq). destruct q as [x|]; cbn [deref]; [now apply Hq|apply fits_zero].
Qed.

Theorem lib_pointer E k sz o v : (E = Borsh -> o = LE) -> carries E k v ->
  ok E (TPtr (lib_ty k)) sz o (VPtr (Some v)) /\
  wire E (TPtr (lib_ty k)) sz o (VPtr (Some v)) = lib_bytes E o k v /\
  forall p, fits (TPtr (lib_ty k)) p ->
    back E (TPtr (lib_ty k)) sz o p (VPtr (Some v)) = VPtr (Some (lib_back v)).
Proof.
  intros Ho Hv. destruct (lib_format E k sz o v Ho Hv) as (H1 & H2 & H3).
  assert (C : k = LEmptyVariant \/ exists c u f fu,
      lib_ty k = TCodec c u /\ val_marshal c = Some f /\ c_unmarshal c = Some fu).
  { destruct k; try (right; do 4 eexists; split; [reflexivity|split; reflexivity]). now left. }
  destruct C as [->|(c & u & f & fu & Et & Hm & Hu)].
  - inversion Hv; subst; [match goal with H : In _ _ |- _ => destruct H as [H|[H|[H|[]]]]; discriminate H end|].
    cbn [lib_ty EmptyVariant ok wire back ptr_marshal has_unmarshal c_marshal c_unmarshal lib_bytes lib_back].
    split; [|split].
    + eexists; split; [reflexivity|]. do 3 eexists. split; [reflexivity|]. split; [reflexivity|].
      split; [eexists; reflexivity|]. split.
      * exists [], (Some o). intros w n hist acc. reflexivity.
      * intros p Hp. exists p. apply keeps_at; [exact Ho|]. apply keeps_ret.
    + reflexivity.
    + intros p Hp. apply fits_deref in Hp. cbn [fits lib_ty EmptyVariant] in Hp.
      destruct Hp as ([|? ?] & Hd & Hf); [|destruct Hf].
      change (VPtr (Some (deref EmptyVariant p)) = VPtr (Some (VStruct []))). now rewrite <- Hd.
  - rewrite Et in *. destruct (ptr_same E c u f fu sz o v Hm Hu H1) as (P1 & P2 & P3).
    split; [exact P1|]. split; [now rewrite P2|].
    intros p Hp. rewrite P3, H3; [reflexivity|]. now apply fits_deref.
Qed.

Theorem lib_marshal E k v p post : carries E k v -> fits (lib_ty k) p ->
  marshal E (lib_ty k) v = (Ok tt, lib_bytes E LE k v) /\
  unmarshal E (lib_ty k) p (lib_bytes E LE k v ++ post) = Ok (lib_back v).
Proof.
  intros Hv Hp. destruct (lib_format E k None LE v (fun _ => eq_refl) Hv) as (H1 & H2 & H3).
  split; [rewrite marshal_wire by exact H1; now rewrite H2|].
  rewrite <- H2, unmarshal_wire by assumption. now rewrite H3.
Qed.

(** SafeString: any bytes are written, the text read is UTF-8. *)
Theorem safe_string_any E s post : bytes_ok s -> zlen s <= text_max E ->
  marshal E SafeString (VStr s) = (Ok tt, count E (zlen s) ++ s) /\
  exists s', unmarshal E SafeString (VStr []) ((count E (zlen s) ++ s) ++ post) = Ok (VStr s') /\
    utf8 s' /\ (utf8 s -> s' = s).
Proof.
  intros Hs Hl.
  assert (H : ok E SafeString None LE (VStr s) /\ wire E SafeString None LE (VStr s) = count E (zlen s) ++ s /\
    forall p, fits SafeString p -> back E SafeString None LE p (VStr s) = VStr (safe_utf8 s)).
  { apply ok_simple with (f := fun v => match v with VStr s => write_string s | _ => stuck end)
      (fu := fun _ => fmap VStr safe_read_utf8_string) (c' := Some LE); try easy.
    + apply emits_write_bytes. pose proof (text_max_count E). lia.
    + intros p _. apply keeps_at; [easy|]. apply keeps_fmap, keeps_fmap.
      pose proof (text_max_count E). pose proof (text_max_bulk E). apply keeps_byte_slice; lia. }
  destruct H as (H1 & H2 & H3).
  split; [rewrite marshal_wire by exact H1; now rewrite H2|].
  exists (safe_utf8 s). rewrite <- H2, unmarshal_wire; [|exact H1|exists []; split; [reflexivity|constructor]].
  rewrite H3 by (exists []; split; [reflexivity|constructor]).
  split; [reflexivity|]. split; [now apply safe_valid|apply safe_id].
Qed.

(** Only EmptyVariant has no bytes. *)
Lemma leb128_nonempty x : leb128 x <> [].
Proof. unfold leb128. discriminate. Qed.
Lemma fixed_nonempty o n z : n <> O -> fixed o n z <> [].
Proof. intros Hn H. apply (f_equal (@length Z)) in H. rewrite fixed_length in H. now cbn in H. Qed.
Lemma count_nonempty E n : count E n <> [].
Proof. destruct E; [apply leb128_nonempty..|now apply fixed_nonempty]. Qed.
Theorem lib_nonempty E k o v : carries E k v -> (lib_bytes E o k v = [] <-> k = LEmptyVariant).
Proof.
  intro H. destruct H; cbn [lib_bytes]; split; intro X; try discriminate; try reflexivity; exfalso.
  all: try (now apply leb128_nonempty in X).
  all: try (now apply fixed_nonempty in X).
  all: try (apply app_eq_nil in X as [X _]; now apply count_nonempty in X).
  all: match goal with H : In _ _ |- _ => destruct H as [H|[H|[H|[]]]]; subst end; cbn [lib_bytes] in X.
  all: try discriminate.
  all: try (now apply fixed_nonempty in X).
Qed.
