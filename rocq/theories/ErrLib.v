(** Proofs for C89, the library's types. *)
From Verif Require Import Types DecPrim Enc Dec Utf8 Builtin Ops Spec NumFacts TyInd EncFacts EncProps WriteFacts DecEq DecWithin ErrSpec ErrFacts.

Lemma method_says f E x Q : (forall v, says E Q (f v)) -> method_reports f E x -> sentinel x -> Q x.
Proof.
  intros H (v & s & e & s' & Hs & Hf & Hx) Hsx. destruct (H v s Hs) as [_ H2]. rewrite Hf in H2. exact (H2 e x eq_refl Hx Hsx).
Qed.

Lemma codec_of_says c u : (forall E, exists Q, forall f v, c_unmarshal c = Some f -> says E Q (f v)) -> codec_keeps_enc c u.
Proof.
  intros H f v s Hf. destruct (H (d_enc s)) as [Q HQ]. exact (proj1 (HQ f v Hf s eq_refl)).
Qed.

Lemma says_u128 E Q b v : says E Q (u128_unmarshal b v).
Proof. unfold u128_unmarshal, emsg. says. Qed.
Lemma says_any_uvarint E : says E (fun _ => True) read_uvarint64. Proof. now apply says_uvarint. Qed.
Lemma says_any_varint E : says E (fun _ => True) read_varint64. Proof. now apply says_varint. Qed.
Lemma says_any_slice E : says E (fun _ => True) read_byte_slice. Proof. now apply says_byte_slice. Qed.
#[global] Hint Resolve says_u128 says_any_uvarint says_any_varint says_any_slice : says.

Definition mute_types : list ty :=
  [Bool_; HexBytes; Varint16; Varuint16; Varuint32; JSONFloat64; Int64; Uint64; Uint128; Int128; Float128; EmptyVariant].
Ltac saying := unfold read_varint16, read_uvarint16, read_varint32, emsg; says.
Lemma mute E x t : In t mute_types -> sentinel x -> ~ reports true E t x.
Proof.
  intros Hin Hx Hr. assert (exists c u f, t = TCodec c u /\ c_unmarshal c = Some f /\ forall v, says E (fun _ => False) (f v)) as (c & u & f & -> & Hf & H).
  { unfold mute_types in Hin. cbn [In] in Hin. decompose [or] Hin; try subst t; try contradiction;
      (eexists _, _, _; split; [reflexivity|]; split; [reflexivity|]; intro v; cbn beta; saying). }
  cbn [reports] in Hr. rewrite Hf in Hr. exact (method_says f E x (fun _ => False) H Hr Hx).
Qed.
Lemma varint32_reports E x : sentinel x -> (reports true E Varint32 x <-> x = EVarint).
Proof.
  intro Hx. cbn [reports Varint32 simple_codec c_unmarshal]. split.
  - intro H. refine (method_says _ E x (fun x => x = EVarint) _ H Hx). intro v. cbn beta.
    apply says_fmap. unfold read_varint32. apply says_fmap. now apply says_varint.
  - intros ->. exists (VNum 0), (new_decoder E []), EVarint, (new_decoder E []). split; [reflexivity|]. split; [|left; reflexivity].
    vm_compute. reflexivity.
Qed.
Lemma safestring_reports E x : sentinel x -> (reports true E SafeString x <-> x = EUnexpectedEOF \/ (E = Bin /\ x = EVarint)).
Proof.
  intro Hx. cbn [reports SafeString simple_codec c_unmarshal]. split.
  - intro H. refine (method_says _ E x (fun x => x = EUnexpectedEOF \/ (E = Bin /\ x = EVarint)) _ H Hx). intro v. cbn beta.
    apply says_fmap. unfold safe_read_utf8_string. apply says_fmap. apply says_byte_slice; auto.
  - intros [->|[-> ->]].
    + set (d := match E with Bin => [255; 255; 255; 255; 255; 1] | CompactU16 => [] | Borsh => [0; 0; 0; 128] end).
      exists (VStr []), (new_decoder E d), EUnexpectedEOF. subst d.
      destruct E; (eexists; split; [reflexivity|]; split; [|left; reflexivity]); vm_compute; reflexivity.
    + exists (VStr []), (new_decoder Bin []), EVarint. eexists. split; [reflexivity|]. split; [|left; reflexivity]. vm_compute. reflexivity.
Qed.

Lemma library_keeps_enc : Forall (all_codecs codec_keeps_enc) library_types.
Proof.
  unfold library_types. repeat constructor; cbn [all_codecs u128_fields snd]; repeat split; try exact I;
    apply codec_of_says; intro E; exists (fun _ => True); intros f v [= <-]; unfold safe_read_utf8_string; saying.
Qed.

Lemma library_names E t x : over_library t -> sentinel x -> forall b, reports b E t x -> x = EUnexpectedEOF \/ x = EVarint.
Proof.
  intros Ho Hx. induction t as [t IH] using ty_strong_ind. intro b.
  assert (Hcnt : count_reports E x -> x = EUnexpectedEOF \/ x = EVarint) by (destruct E; cbn [count_reports]; tauto).
  unfold over_library in *.
  destruct t as [|un w|nm w|f| |sg| | |t|n t|t|t1 t2|fs|c t|]; cbn [reports]; try tauto.
  - intro H. exact (IH t ltac:(cbn; lia) Ho b H).
  - destruct (uint_kind t); [tauto|]. intro H. exact (IH t ltac:(cbn; lia) Ho b H).
  - intros [H|[H|H]]; [tauto|tauto|]. destruct (uint_kind t); [tauto|]. exact (IH t ltac:(cbn; lia) Ho b H).
  - destruct Ho as [Ho1 Ho2]. intros [H|[H|H]]; [tauto| |].
    + exact (IH t1 ltac:(cbn; lia) Ho1 b H).
    + exact (IH t2 ltac:(cbn; lia) Ho2 b H).
  - apply all_codecs_struct in Ho. rewrite Forall_forall in Ho.
    assert (Hf : forall h t, In (h, t) fs -> forall b, reports b E t x -> x = EUnexpectedEOF \/ x = EVarint).
    { intros h t Hin b'. apply IH; [now apply (ty_size_field _ h)|exact (Ho _ Hin)]. }
    clear IH Ho. generalize (enum_struct E fs) as en. intro en. revert Hf.
    induction fs as [|[h t] fs IHf]; intros Hf; cbn [any_field]; [tauto|]. intros [H|H].
    + destruct en; [exact (Hf h t (or_introl eq_refl) _ H)|exact (Hf h t (or_introl eq_refl) _ (proj2 H))].
    + refine (IHf _ H). intros h' t' Hin. apply (Hf h' t'). now right.
  - destruct Ho as [Hin Ho]. destruct b.
    + destruct (c_unmarshal c) as [f|] eqn:Ef; [|intro H; exact (IH t ltac:(cbn; lia) Ho true H)].
      intro H. assert (Hr : reports true E (TCodec c t) x) by (cbn [reports]; now rewrite Ef).
      assert (Hcase : In (TCodec c t) mute_types \/ TCodec c t = Varint32 \/ TCodec c t = SafeString \/ False).
      { unfold mute_types. unfold library_types in Hin. cbn [In] in *. decompose [or] Hin; try contradiction;
          repeat match goal with H : ?a = TCodec c t |- _ => rewrite <- H end; first [discriminate | tauto]. }
      destruct Hcase as [Hm|[Hm|[Hm|[]]]].
      * destruct (mute E x _ Hm Hx Hr).
      * rewrite Hm in Hr. apply varint32_reports in Hr; auto.
      * rewrite Hm in Hr. apply safestring_reports in Hr; [|exact Hx]. tauto.
    + intro H. exact (IH t ltac:(cbn; lia) Ho false H).
Qed.

(** * Witnesses *)
Lemma heads E : forall old,
  (exists data, match fst (decode TString old (new_decoder E data)) with Err e => err_is e EUnexpectedEOF | _ => False end) /\
  (forall t, exists data, match fst (decode (TSlice t) old (new_decoder E data)) with Err e => err_is e EUnexpectedEOF | _ => False end) /\
  (forall n w, uint_kind (TUint n w) = Some w -> forall k, exists data,
     match fst (decode (TArray (S k) (TUint n w)) old (new_decoder E data)) with Err e => err_is e EUnexpectedEOF | _ => False end) /\
  (forall kt vt x, count_reports E x -> exists data,
     match fst (decode (TMap kt vt) old (new_decoder E data)) with Err e => err_is e x | _ => False end).
Proof.
  intro old. split; [|split; [|split]].
  - exists (match E with Bin => [0; 0; 0; 128; 0; 0; 0; 0] | CompactU16 => [] | Borsh => [0; 0; 0; 128] end).
    destruct E; vm_compute; auto.
  - intro t. exists (match E with Bin => [1] | CompactU16 => [1] | Borsh => [1; 0; 0; 0] end).
    destruct E; vm_compute; auto.
  - intros n w Hu k. exists []. unfold decode, decode_target, bind, d_get_enc, new_decoder. cbn [d_enc].
    rewrite dec_start_eq. cbn [opt0 o_opt o_copt orb]. rewrite andb_false_r. rewrite dec_walk_eq. cbn [with_pend]. rewrite Hu.
    unfold bind, d_set_cur, fmap, bind, read_uints, bind, d_remaining. cbn [remaining_of d_pos d_data Z.ltb Z.compare].
    change (zlen [] - 0) with 0. destruct (Z.ltb_spec (Z.of_nat (S k)) 0); [lia|].
    destruct (Z.ltb_spec 0 (Z.of_nat (S k) * Z.of_nat (wbytes w))) as [_|H']; [left; reflexivity|].
    destruct w; cbn [wbytes] in H'; lia.
  - intros kt vt x H. destruct E; cbn [count_reports] in H; try contradiction.
    + destruct H as [->| ->]; [exists [255; 255; 255; 255; 255; 1]|exists []]; vm_compute; auto.
    + subst x. exists []. vm_compute. auto.
Qed.
Lemma no_more : exists data, forall old ext, exists e,
  unmarshal Borsh TString old (data ++ ext)%list = Err e /\ err_is e EUnexpectedEOF.
Proof.
  exists [0; 0; 0; 128]. intros old ext. exists EUnexpectedEOF. split; [|left; reflexivity].
  unfold unmarshal, decode, decode_target, bind, d_get_enc, new_decoder. cbn [d_enc].
  rewrite dec_start_eq. cbn [opt0 o_opt o_copt orb is_borsh andb]. rewrite dec_walk_eq. cbn [with_pend read_str].
  unfold bind, d_set_cur, fmap, bind, read_string, read_byte_slice, read_length, bind, d_get_enc. cbn [d_enc].
  unfold bind, read_uint, bind, d_remaining, remaining_of. cbn [d_pos d_data Z.ltb Z.compare app].
  change (Z.of_nat 4) with 4. rewrite !zlen_cons. pose proof (zlen_nonneg ext).
  destruct (Z.ltb_spec (1 + (1 + (1 + (1 + zlen ext))) - 0) 4); [lia|].
  unfold d_take, bind, d_get, slice_n. cbn [d_pos d_data]. rewrite !zlen_cons.
  change (0 <=? 0) with true. change (0 <=? 4) with true. cbn [andb].
  destruct (Z.leb_spec (0 + 4) (1 + (1 + (1 + (1 + zlen ext))))); [|lia]. cbn. reflexivity.
Qed.

(** * The other methods *)
Lemma call_says op E x s e s' : (match op with OpRead n => 0 <= n | OpDecode _ _ => False | _ => True end) ->
  d_enc s = E -> inside s -> dop_run op s = (Err e, s') -> err_is e x -> sentinel x -> call_reports op E x.
Proof.
  intros Hop HE Hin H Hx Hs.
  assert (Hsay : says E (call_reports op E) (dop_run op) -> call_reports op E x).
  { intro Hm. destruct (Hm s HE) as [_ H2]. rewrite H in H2. exact (H2 e x eq_refl Hx Hs). }
  destruct op; cbn [dop_run] in *; try contradiction; try discriminate;
    try (lazymatch type of H with fmap _ (d_read _) _ = _ => fail | _ => idtac end; apply Hsay; clear - E; apply says_fmap; unfold call_reports); try solve [lazymatch goal with |- says _ _ _ => clear; says end].
  all: try solve [lazymatch goal with |- says _ _ _ => idtac end; unfold read_string, safe_read_utf8_string, read_uvarint32, read_varint32, read_uvarint16, read_varint16; repeat apply says_fmap;
    first [now apply says_uvarint|now apply says_varint|now apply says_compact|apply says_length; auto|apply says_byte_slice; auto]].
  all: try solve [lazymatch goal with |- says _ _ _ => idtac end; unfold d_peek, read_type_id, peek_discriminator, d_peek, d_discard, d_skip, d_setposition, read_rust_string, read_uint64; says].
  - clear Hsay. unfold fmap, d_read, bind, d_get in H. destruct (Z.ltb_spec (zlen (d_data s)) (d_pos s + n)) as [Hl|Hl].
    + cbn in H. injection H as <- _. destruct Hx as [<-|[]]. cbn [call_reports]. unfold inside in Hin. split; [lia|reflexivity].
    + unfold d_rest, bind, d_get in H. destruct (slice_from (d_data s) (d_pos s)) as [r|] eqn:Er; [|discriminate].
      apply rest_len in Er. cbn [ret] in H. unfold d_set_pos in H.
      assert (L : zlen (firstn (Z.to_nat n) r) = n) by (unfold zlen in *; rewrite firstn_length; unfold inside, zlen in Hin; lia).
      rewrite L, Z.eqb_refl in H. discriminate.
Qed.
Lemma call_occurs op E x : call_reports op E x ->
  exists s e s', d_enc s = E /\ inside s /\ dop_run op s = (Err e, s') /\ err_is e x.
Proof.
  intro H.
  assert (Hi : forall d, inside (new_decoder E d)) by (intro; unfold inside; cbn [new_decoder d_pos d_data]; pose proof (zlen_nonneg d); lia).
  assert (Hgo : forall d, (exists s', dop_run op (new_decoder E d) = (Err x, s')) ->
    exists s e s', d_enc s = E /\ inside s /\ dop_run op s = (Err e, s') /\ err_is e x).
  { intros d [s' Hd]. exists (new_decoder E d), x, s'. split; [reflexivity|]. split; [apply Hi|]. split; [exact Hd|]. destruct x; now left. }
  destruct op; cbn [call_reports] in H; try contradiction; try (subst x; apply (Hgo []); eexists; vm_compute; reflexivity);
    try (destruct H as [->|[-> ->]];
      [apply (Hgo (match E with Bin => [255; 255; 255; 255; 255; 1] | CompactU16 => [] | Borsh => [0; 0; 0; 128] end)); destruct E; eexists; vm_compute; reflexivity
      |apply (Hgo []); eexists; vm_compute; reflexivity]).
  - subst x. apply (Hgo [0; 0; 0; 128; 0; 0; 0; 0]). eexists. vm_compute. reflexivity.
  - destruct H as [Hn ->]. apply (Hgo []). exists (new_decoder E []). cbn [dop_run]. unfold fmap, d_read, bind, d_get, new_decoder. cbn [d_data d_pos].
    change (zlen []) with 0. destruct (Z.ltb_spec 0 (0 + n)); [reflexivity|lia].
Qed.
