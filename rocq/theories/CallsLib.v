(** The library's own types, failing writers and the recorder (C82). *)
From Verif Require Import Types EncPrim DecPrim Enc Dec Builtin Spec NumFacts TyInd EncFacts EncWire EncProps RoundTrip Tools LibFacts CallsSpec CallsFacts.

(** [m] only ever hands the writer at least one byte. *)
Definition solid {A} (m : EM A) : Prop :=
  forall s, exists cs, e_hist (snd (m s)) = e_hist s ++ cs /\ Forall some_bytes cs.

Lemma solid_same {A} (m : EM A) : (forall s, e_hist (snd (m s)) = e_hist s) -> solid m.
Proof. intros H s. exists []. rewrite H, app_nil_r. split; [reflexivity|constructor]. Qed.
Lemma solid_to_writer b : b <> [] -> solid (to_writer b).
Proof.
  intros H s. exists [b]. split; [|now apply one_ok].
  unfold to_writer. destruct (e_w s (e_hist s ++ [b])) as [[? ?]|]; reflexivity.
Qed.
Lemma solid_bind {A B} (m : EM A) (k : A -> EM B) : solid m -> (forall a, solid (k a)) -> solid (bind m k).
Proof.
  intros H1 H2 s. destruct (H1 s) as (cs & Hc & Hf). unfold bind.
  destruct (m s) as [[a|e| | |] s1]; cbn [snd] in *; try (exists cs; auto; fail).
  destruct (H2 a s1) as (cs2 & Hc2 & Hf2). exists (cs ++ cs2).
  rewrite Hc2, Hc, app_assoc. split; [reflexivity|]. apply Forall_app. auto.
Qed.
Ltac solid0 := apply solid_same; reflexivity.

Lemma put_uint_some o n z : (0 < n)%nat -> put_uint o n z <> [].
Proof. intro H. rewrite put_uint_fixed. now apply fixed_some. Qed.
Lemma uvarint_some z : uvarint_bytes z <> [].
Proof. unfold uvarint_bytes. cbn [uvarint_loop]. destruct (z <? 128); discriminate. Qed.
Lemma solid_nolen b : solid (write_bytes_nolen b).
Proof. unfold write_bytes_nolen. destruct b; [solid0|]. apply solid_to_writer. discriminate. Qed.
Lemma solid_uint n z o : (0 < n)%nat -> solid (write_uint n z o).
Proof. intro H. unfold write_uint. now apply solid_to_writer, put_uint_some. Qed.
Lemma solid_put_uvarint n z : solid (match put_uvarint n z with Some bs => to_writer bs | None => panic end).
Proof.
  unfold put_uvarint. destruct (_ <=? n); [|solid0]. apply solid_to_writer, uvarint_some.
Qed.
Lemma solid_uvarint z : solid (write_uvarint z).
Proof. apply solid_put_uvarint. Qed.
Lemma solid_varint z : solid (write_varint z).
Proof. unfold write_varint, put_varint. apply solid_put_uvarint. Qed.
Lemma solid_length n : solid (write_length n).
Proof.
  unfold write_length. apply solid_bind; [solid0|]. intros []; [apply solid_uvarint| |apply solid_uint; lia].
  apply solid_nolen.
Qed.
Lemma solid_bytes b : solid (write_bytes b).
Proof. unfold write_bytes. apply solid_bind; [apply solid_length|intro; apply solid_nolen]. Qed.
Lemma solid_float f b o : solid (write_float f b o).
Proof.
  unfold write_float. apply solid_bind; [solid0|]. intro E.
  destruct (is_borsh E && f_isnan f b); [solid0|]. apply solid_to_writer, put_uint_some.
  destruct f; cbn; lia.
Qed.
Lemma solid_bool b : solid (write_bool b).
Proof. unfold write_bool. destruct b; apply solid_to_writer; discriminate. Qed.
Lemma solid_cur_order : solid e_cur_order.
Proof.
  unfold e_cur_order. apply solid_bind; [solid0|]. intros [|]; solid0.
Qed.
Lemma solid_128 lo hi o : solid (write_uint128 lo hi o).
Proof.
  unfold write_uint128. destruct o; apply solid_to_writer; intro H; apply app_eq_nil in H;
  destruct H as [H _]; revert H; apply put_uint_some; lia.
Qed.
Lemma solid_u128 v : solid (u128_marshal v).
Proof.
  unfold u128_marshal.
  repeat match goal with |- solid (match ?x with _ => _ end) => destruct x; try solid0 end.
  apply solid_bind; [solid0|]. intros [|]; [apply solid_128|].
  destruct (iface_order _); [apply solid_128|solid0].
Qed.

Lemma solid_calls f E o v : solid (f v) -> Forall some_bytes (codec_calls f E o v).
Proof.
  intro H. destruct (H (mkE E (fun _ => None) (Some o) 0 [] [])) as (cs & Hc & Hf).
  unfold codec_calls. rewrite Hc. exact Hf.
Qed.

Lemma library_some : Forall (all_codecs codec_some) library_types.
Proof.
  assert (Hnum : forall g v, (forall z, solid (g z)) -> solid (with_num g v)).
  { intros g v H. unfold with_num. destruct v; try solid0. apply H. }
  unfold library_types.
  repeat (apply Forall_cons || apply Forall_nil);
    repeat match goal with
    | |- all_codecs _ (TCodec _ _) => split
    | |- all_codecs _ ?t => first [exact I | unfold t]
    end.
  all: try (cbn; tauto).
  all: intros f [= <-] E o v; apply solid_calls.
  - destruct v; try solid0. apply solid_bytes.
  - destruct v; try solid0. apply solid_bool.
  - destruct (bytes_val v); [|solid0]. apply solid_bytes.
  - apply Hnum, solid_varint.
  - apply Hnum, solid_uvarint.
  - apply Hnum, solid_uvarint.
  - apply Hnum, solid_varint.
  - destruct v; try solid0. apply solid_bind; [apply solid_cur_order|]. intro. apply solid_float.
  - apply Hnum. intro. apply solid_bind; [apply solid_cur_order|]. intro. apply solid_uint. lia.
  - apply Hnum. intro. apply solid_bind; [apply solid_cur_order|]. intro. apply solid_uint. lia.
  - apply solid_u128.
  - apply solid_u128.
  - apply solid_u128.
  - solid0.
Qed.

Lemma encode_calls E t v : ok E t None LE v -> forall w c n hist acc, reliable w ->
  let cs := calls E t None LE v in
  exists c', encode t v (mkE E w c n hist acc) =
    (Ok tt, mkE E w c' (n + zlen (concat cs)) (hist ++ cs) (acc ++ concat cs)).
Proof.
  intros H w c n hist acc Hw cs. destruct (makes_encode E t v c H) as [c' Hc'].
  exists c'. specialize (Hc' w n hist acc). fold cs in Hc'.
  rewrite play_reliable in Hc' by exact Hw. exact Hc'.
Qed.

Lemma encode_calls_fail E t v : ok E t None LE v -> forall w c n hist acc i k x,
  let cs := calls E t None LE v in
  (i < length cs)%nat ->
  (forall j, (j < i)%nat -> w (hist ++ firstn (S j) cs) = None) ->
  w (hist ++ firstn (S i) cs) = Some (k, x) ->
  exists e c', err_is e (EWriter x) /\
    encode t v (mkE E w c n hist acc) =
      (Err e, mkE E w c' (n + total (firstn (S i) cs)) (hist ++ firstn (S i) cs)
                (acc ++ concat (firstn i cs) ++ firstn k (nth i cs []))).
Proof.
  intros H w c n hist acc i k x cs Hi Hb Hf. destruct (makes_encode E t v c H) as [c' Hc'].
  specialize (Hc' w n hist acc). fold cs in Hc'.
  rewrite (play_fail w cs n hist acc i k x Hi Hb Hf) in Hc'.
  destruct Hc' as (e & c'' & He & Hc'). exists e, c''. auto.
Qed.

Lemma encode_recorded E t v name : ok E t None LE v ->
  wbw_writes (recorded name (snd (encode t v (new_encoder E buffer)))) = calls E t None LE v.
Proof.
  intro H. destruct (encode_calls E t v H buffer None 0 [] [] (fun _ => eq_refl)) as [c' Hc'].
  unfold new_encoder, recorded. cbv zeta in Hc'. rewrite Hc', wbw_writes_fold. reflexivity.
Qed.

(** The calls of the library's own methods. *)
Lemma makes_calls f E o v cs c' : makes E (Some o) (f v) cs c' -> codec_calls f E o v = cs.
Proof.
  intro H. specialize (H (fun _ => None) 0 [] []). rewrite play_buffer in H.
  unfold codec_calls. rewrite H. reflexivity.
Qed.
Lemma makes_cur_order E o k cs c' :
  makes E (Some o) (k o) cs c' -> makes E (Some o) (bind e_cur_order k) cs c'.
Proof.
  intro H. unfold e_cur_order.
  apply (makes_ext _ _ (bind e_get_cur (fun c => match c with Some o => k o | None => panic end))).
  { intros s _ Hs. unfold bind, e_get_cur. cbn. rewrite Hs. reflexivity. }
  change cs with ([] ++ cs). eapply script_bind; [apply script_get_cur|exact H].
Qed.
Lemma makes_varint E c z : - 2 ^ 55 <= z < 2 ^ 55 -> makes E c (write_varint z) [leb128 (zz z)] c.
Proof.
  intro H. unfold write_varint, put_varint, put_uvarint.
  rewrite zigzag_zz by lia.
  assert (Hz : 0 <= zz z < 2 ^ 56) by (unfold zz; destruct (z <? 0) eqn:E'; lia).
  rewrite uvarint_bytes_leb by lia.
  pose proof (leb128_len56 _ Hz). destruct (zlen (leb128 (zz z)) <=? 8) eqn:E'; [|lia].
  apply makes_to_writer.
Qed.

Lemma library_calls E sz o :
  (forall b, calls E Bool_ sz o (VBool b) = [[if b then 1 else 0]]) /\
  (forall s, zlen s <= count_max E ->
     calls E SafeString sz o (VStr s) = [count E (zlen s)] ++ one_call s) /\
  (forall b, zlen b <= count_max E ->
     calls E HexBytes sz o (VSlice (Some (map VNum b))) = [count E (zlen b)] ++ one_call b) /\
  (forall z, - 2 ^ 15 <= z < 2 ^ 15 -> calls E Varint16 sz o (VNum z) = [leb128 (zz z)]) /\
  (forall z, - 2 ^ 31 <= z < 2 ^ 31 -> calls E Varint32 sz o (VNum z) = [leb128 (zz z)]) /\
  (forall z, 0 <= z < 2 ^ 16 -> calls E Varuint16 sz o (VNum z) = [leb128 z]) /\
  (forall z, 0 <= z < 2 ^ 32 -> calls E Varuint32 sz o (VNum z) = [leb128 z]) /\
  (forall z, calls E Int64 sz o (VNum z) = [fixed o 8 z]) /\
  (forall z, calls E Uint64 sz o (VNum z) = [fixed o 8 z]) /\
  (forall b, (E = Borsh -> f_isnan F64 b = false) ->
     calls E JSONFloat64 sz o (VFloat b) = [fixed o 8 b]) /\
  (forall lo hi e, 0 <= lo < 2 ^ 64 -> 0 <= hi < 2 ^ 64 ->
     calls E Uint128 sz o (u128_val lo hi e) = [fixed o 16 (lo + 2 ^ 64 * hi)]).
Proof.
  repeat match goal with |- _ /\ _ => split end; intros;
    match goal with |- calls ?e ?t ?s ?o ?v = _ => unfold t; cbn [calls val_marshal simple_codec c_byval c_marshal u128_codec] end;
    eapply makes_calls; cbn beta iota.
  - apply makes_write_bool.
  - now apply makes_write_bytes.
  - cbn [bytes_val].
    assert (Hn : nums (map VNum b) = Some b).
    { clear. induction b as [|x b IH]; [reflexivity|]. cbn [map nums]. now rewrite IH. }
    rewrite Hn. now apply makes_write_bytes.
  - apply makes_varint. lia.
  - apply makes_varint. lia.
  - apply makes_write_uvarint. lia.
  - apply makes_write_uvarint. lia.
  - apply makes_cur_order. apply makes_write_uint.
  - apply makes_cur_order. apply makes_write_uint.
  - apply makes_cur_order. apply (makes_write_float E _ F64 b o H).
  - unfold u128_marshal, u128_val.
    change ([fixed o 16 (lo + 2 ^ 64 * hi)]) with ([] ++ [fixed o 16 (lo + 2 ^ 64 * hi)]).
    eapply script_bind; [apply script_get_cur|]. cbn beta iota.
    assert (Hw : write_uint128 lo hi o = to_writer (fixed o 16 (lo + 2 ^ 64 * hi))).
    { rewrite fixed_16 by assumption. unfold write_uint128. rewrite !put_uint_fixed. destruct o; reflexivity. }
    rewrite Hw. apply makes_to_writer.
Qed.

(** There are at most as many calls as bytes. *)
Lemma some_count cs : Forall some_bytes cs -> (length cs <= length (concat cs))%nat.
Proof.
  induction 1 as [|b cs Hb Hc IH]; [apply le_n|]. cbn [concat length]. rewrite app_length.
  destruct b; [now elim Hb|]. cbn [length]. lia.
Qed.
Lemma few_calls E t v : all_codecs codec_some t -> ok E t None LE v ->
  let s := snd (encode t v (new_encoder E buffer)) in
  zlen (e_hist s) <= zlen (e_acc s).
Proof.
  intros Hc H. destruct (encode_calls E t v H buffer None 0 [] [] (fun _ => eq_refl)) as [c' Hc'].
  unfold new_encoder. cbv zeta in *. rewrite Hc'. cbn [snd e_hist e_acc app]. unfold zlen.
  pose proof (some_count _ (calls_some E t Hc None LE v)). lia.
Qed.
