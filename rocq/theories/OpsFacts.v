(** Programs of calls of the methods of Encoder and Decoder. *)
From Verif Require Import Types EncPrim DecPrim Enc Dec Utf8 Builtin Spec NumFacts EncFacts EncWire DecWire DecWithin RoundTrip NumProps LibFacts
  Ops OpsSpec.
Notation length := Datatypes.length.

Lemma writes_emits E m bs : writes E m bs -> forall c, exists c', emits E c m bs c'.
Proof. intros H c. exists c. apply H. Qed.
Lemma exchange_write E w r bs x : exchange E w r bs x -> forall c, exists c', emits E c (eop_run w) bs c'.
Proof.
  destruct 1; cbn [eop_run]; intro c0; try (now apply emits_encode);
    exists c0.
  all: try apply emits_to_writer.
  - apply emits_bytes_nolen.
  - now apply emits_write_bytes.
  - now apply emits_write_length.
  - now apply emits_write_uvarint.
  - apply emits_write_uvarint. lia.
  - apply emits_write_uvarint. lia.
  - now apply emits_write_varint.
  - apply emits_write_varint. lia.
  - apply emits_write_varint. lia.
  - rewrite <- (Z.mod_small z 256) at 2 by lia. apply emits_write_byte.
  - rewrite fixed_1. apply emits_write_byte.
  - apply emits_write_bool.
  - apply emits_write_bool.
  - apply emits_write_coption.
  - apply emits_write_uint.
  - apply emits_write_uint.
  - now apply float_writes.
  - now apply uint128_writes.
  - now apply emits_write_bytes.
  - now apply emits_write_bytes.
  - apply rust_string_writes. unfold bulk_max in *. lia.
  - now apply emits_compact_u16.
Qed.
Lemma keeps_d_read E n b : n = zlen b -> keeps E (d_read n) b b.
Proof.
  intros -> pre post c. unfold d_read, d_get, bind at 1. cbn [d_data d_pos].
  rewrite !zlen_app. pose proof (zlen_nonneg post).
  destruct (Z.ltb_spec (zlen pre + (zlen b + zlen post)) (zlen pre + zlen b)) as [L|_]; [lia|].
  unfold d_rest, d_get, bind. cbn [d_data d_pos]. rewrite slice_from_mid. cbn [ret].
  assert (F : firstn (Z.to_nat (zlen b)) (b ++ post) = b).
  { unfold zlen. rewrite Nat2Z.id, firstn_app, firstn_all, Nat.sub_diag. apply app_nil_r. }
  rewrite F. unfold d_set_pos. cbn [d_data d_pos d_cur d_enc]. rewrite Z.eqb_refl. reflexivity.
Qed.
Lemma swrap_id z : 0 <= z < 2 ^ 63 -> swrap 64 z = z.
Proof. intro H. apply swrap_small; cbn; lia. Qed.
Lemma skip_over E b pre post c : zlen (pre ++ b ++ post) < 2 ^ 63 ->
  d_skip (zlen b) (mkD (pre ++ b ++ post) (zlen pre) c E) = (Ok tt, mkD (pre ++ b ++ post) (zlen pre + zlen b) c E).
Proof.
  intro H. rewrite !zlen_app in H. pose proof (zlen_nonneg pre). pose proof (zlen_nonneg b). pose proof (zlen_nonneg post).
  (unfold d_skip, d_get, bind; open_rem). cbn [d_data d_pos]. rewrite !zlen_app.
  replace (zlen pre + (zlen b + zlen post) - zlen pre) with (zlen b + zlen post) by lia.
  unfold uwrap. rewrite Z.mod_small by lia. destruct (Z.ltb_spec (zlen b + zlen post) (zlen b)); [lia|].
  rewrite (swrap_id (zlen b)), (swrap_id (zlen pre + zlen b)) by lia. reflexivity.
Qed.
Lemma exchange_read E w r bs x : exchange E w r bs x -> forall pre post c, zlen (pre ++ bs ++ post) < 2 ^ 63 -> exists c',
  dop_run r (mkD (pre ++ bs ++ post) (zlen pre) c E) = (Ok x, mkD (pre ++ bs ++ post) (zlen pre + zlen bs) c' E).
Proof.
  intros H pre post c Hz.
  assert (K : forall A (f : A -> dres) m y, keeps E m bs y -> exists c',
    fmap f m (mkD (pre ++ bs ++ post) (zlen pre) c E) = (Ok (f y), mkD (pre ++ bs ++ post) (zlen pre + zlen bs) c' E)).
  { intros A f m y Hk. exists c. now apply keeps_fmap. }
  destruct H; cbn [dop_run].
  - apply K, keeps_read_n_bytes; auto.
  - apply K, keeps_d_read; auto.
  - exists c. unfold fmap, bind. now rewrite skip_over.
  - exists c. unfold d_discard, fmap, bind. unfold bulk_max in H. pose proof (zlen_nonneg b).
    destruct (Z.eqb_spec (zlen b) 0) as [E0|N]; [unfold ret; do 2 f_equal; lia|].
    destruct (Z.ltb_spec (zlen b) 0); [lia|]. destruct (Z.ltb_spec 0x7FFFFFFF (zlen b)); [lia|]. cbn [orb].
    now rewrite skip_over.
  - apply K. unfold read_type_id. rewrite <- (app_nil_r b) at 1.
    apply keeps_bind with b; [apply keeps_read_n_bytes; [unfold zlen; now rewrite H|lia]|].
    unfold type_id_from_bytes. rewrite firstn_app, firstn_all2 by lia. rewrite H, Nat.sub_diag. cbn [firstn]. rewrite app_nil_r. apply keeps_ret.
  - apply K, keeps_read_n_bytes; auto.
  - now apply K, keeps_byte_slice.
  - now apply K, keeps_read_length.
  - apply K, keeps_uvarint. lia.
  - apply K, (keeps_uvarint_wrap E 32); lia.
  - apply K, (keeps_uvarint_wrap E 16); lia.
  - apply K, keeps_varint. lia.
  - apply K, (keeps_varint_wrap E 32); cbn; lia.
  - apply K, (keeps_varint_wrap E 16); cbn; lia.
  - apply K, keeps_read_byte.
  - apply K. replace (fixed LE 1 z) with (fixed o 1 z) by now rewrite !fixed_1.
    apply (keeps_intw_fixed E W8); cbn; lia.
  - apply K, keeps_bool.
  - apply K. intros pre' post' c'. rewrite option_accepts by (destruct b; unfold is_byte; lia). destruct b; reflexivity.
  - apply K, keeps_coption.
  - now apply K, keeps_uintw_fixed.
  - now apply K, keeps_intw_fixed.
  - now apply K, keeps_read_float.
  - apply (K _ (fun p => RPair (fst p) (snd p)) _ (lo, hi)). now apply keeps_read_uint128.
  - now apply K, keeps_byte_slice.
  - apply K. unfold safe_read_utf8_string. now apply keeps_fmap, keeps_byte_slice.
  - now apply K, keeps_rust_string.
  - now apply K, keeps_compact.
  - destruct (reads_decode E t v p H H0 pre post c I) as (c' & E1 & _). exists c'. unfold fmap, bind. now rewrite E1.
Qed.

Lemma conversation_written E ws rs bs xs : conversation E ws rs bs xs -> forall w c n hist acc, reliable w -> exists cs c',
  concat cs = bs /\
  eops_run ws (mkE E w c n hist acc) = (map (fun _ => Ok tt) ws, mkE E w c' (n + zlen bs) (hist ++ cs) (acc ++ bs)).
Proof.
  induction 1 as [|w r bs x ws rs bs' xs Hx Hc IH]; intros wr c n hist acc Hw.
  - exists [], c. split; [reflexivity|]. cbn [eops_run map]. rewrite zlen_nil, Z.add_0_r, !app_nil_r. reflexivity.
  - destruct (exchange_write _ _ _ _ _ Hx c) as [c1 H1]. destruct (emits_run E c _ bs c1 wr n hist acc H1 Hw) as (cs & Hcs & E1).
    destruct (IH wr c1 (n + zlen bs) (hist ++ cs) (acc ++ bs) Hw) as (cs' & c2 & Hcs' & E2).
    exists (cs ++ cs'), c2. split; [rewrite concat_app; congruence|]. cbn [eops_run map]. rewrite E1, E2.
    now rewrite zlen_app, Z.add_assoc, !app_assoc.
Qed.
Lemma conversation_read E ws rs bs xs : conversation E ws rs bs xs -> forall pre post c, zlen (pre ++ bs ++ post) < 2 ^ 63 ->
  exists c', dops_run rs (mkD (pre ++ bs ++ post) (zlen pre) c E) =
    (map Ok xs, mkD (pre ++ bs ++ post) (zlen pre + zlen bs) c' E).
Proof.
  induction 1 as [|w r bs x ws rs bs' xs Hx Hc IH]; intros pre post c Hz.
  - exists c. cbn [dops_run map]. now rewrite zlen_nil, Z.add_0_r.
  - rewrite <- app_assoc in *. destruct (exchange_read _ _ _ _ _ Hx pre (bs' ++ post) c Hz) as (c1 & E1).
    destruct (IH (pre ++ bs) post c1) as (c2 & E2); [now rewrite <- app_assoc|].
    rewrite <- app_assoc, zlen_app in E2. exists c2. cbn [dops_run map]. rewrite E1, E2. now rewrite zlen_app, Z.add_assoc.
Qed.
Theorem conversations E ws rs bs xs post : conversation E ws rs bs xs -> zlen (bs ++ post) < 2 ^ 63 ->
  fst (eops_run ws (new_encoder E buffer)) = map (fun _ => Ok tt) ws /\
  e_acc (snd (eops_run ws (new_encoder E buffer))) = bs /\
  e_count (snd (eops_run ws (new_encoder E buffer))) = zlen bs /\
  fst (dops_run rs (new_decoder E (bs ++ post))) = map Ok xs /\
  d_pos (snd (dops_run rs (new_decoder E (bs ++ post)))) = zlen bs.
Proof.
  intros H Hz. destruct (conversation_written _ _ _ _ _ H buffer None 0 [] [] (fun _ => eq_refl)) as (cs & c' & _ & Ew).
  destruct (conversation_read _ _ _ _ _ H [] post None Hz) as (c2 & Er). unfold new_encoder. rewrite Ew.
  cbn [app] in Er. change (zlen []) with 0 in Er. unfold new_decoder. rewrite Er. auto.
Qed.
