(** Facts about client programs of the decoder, in the shape of the
    properties C06, C07, C10, C34-C37, C51, C52. *)
From Verif Require Import Types EncPrim DecPrim Enc Dec Utf8 Builtin Spec Ops NumFacts TyInd
  EncFacts EncWire DecWire RoundTrip DecEq DecWithin DecLocal.

(** * Truncated encodings (C07) *)

Lemma truncated E t v b p q :
  ok E t None LE v -> all_codecs (codec_local false) t -> everywhere no_ext t ->
  marshal E t v = (Ok tt, b) -> b = p ++ q -> q <> [] ->
  exists e, unmarshal E t (zero_val t) p = Err e.
Proof.
  intros Hok Hc Hx Hm -> Hq. rewrite (marshal_wire E t v Hok) in Hm. injection Hm as Hw.
  destruct (RoundTrip.decode_run E t v (zero_val t) [] [] None Hok (fits_zero t)) as (c & Hd).
  cbn [app] in Hd. rewrite app_nil_r in Hd. rewrite Hw in Hd. rewrite DecLocal.decode_run in Hd.
  cbn [d_enc] in Hd.
  destruct (local_dec_val false E t Hc Hx ltac:(easy) (DStart opt0) (zero_val t) E None [] (p ++ q) _ _ Hd)
    as (bs & post & c' & H1 & H2 & _ & _ & H5).
  assert (Hp : post = []).
  { injection H2 as H2. change (zlen (@nil Z)) with 0 in H2. cbn [app] in H1, H2.
    rewrite H1, zlen_app in H2. assert (zlen post = 0) by lia. destruct post; [reflexivity|].
    unfold zlen in *. cbn in *. lia. }
  subst post. rewrite app_nil_r in H1. symmetry in H1.
  destruct (H5 p q H1 Hq []) as (e & s' & He). exists e.
  unfold unmarshal. rewrite DecLocal.decode_run. cbn [d_enc new_decoder].
  cbn [app] in He. change (zlen (@nil Z)) with 0 in He. unfold new_decoder. now rewrite He.
Qed.

Lemma accepted_truncated E t v data x s' n :
  all_codecs (codec_local false) t -> everywhere no_ext t ->
  decode t v (new_decoder E data) = (Ok x, s') -> Z.of_nat n < d_pos s' ->
  exists e, unmarshal E t v (firstn n data) = Err e.
Proof.
  intros Hc Hx Hd Hn. rewrite DecLocal.decode_run in Hd. cbn [d_enc new_decoder] in Hd. unfold new_decoder in Hd.
  destruct (local_dec_val false E t Hc Hx ltac:(easy) (DStart opt0) v E None [] data _ _ Hd)
    as (bs & post & c' & H1 & H2 & _ & _ & H5).
  cbn [app] in H1, H2. rewrite H2 in Hn. cbn [d_pos] in Hn. change (zlen (@nil Z)) with 0 in Hn.
  assert (Hl : (n < length bs)%nat) by (unfold zlen in Hn; lia).
  assert (Hf : firstn n data = firstn n bs).
  { rewrite H1, firstn_app. replace (n - length bs)%nat with 0%nat by lia. cbn [firstn]. now rewrite app_nil_r. }
  destruct (H5 (firstn n bs) (skipn n bs) (eq_sym (firstn_skipn n bs))) with (pre' := @nil Z) as (e & s2 & He).
  { intro H. apply (f_equal (@length Z)) in H. rewrite skipn_length in H. cbn in H. lia. }
  exists e. unfold unmarshal. rewrite Hf, DecLocal.decode_run. cbn [d_enc new_decoder].
  cbn [app] in He. change (zlen (@nil Z)) with 0 in He. unfold new_decoder. now rewrite He.
Qed.

(** * Peek and the reads of n bytes (C34) *)

Definition window (s : dst) (n : Z) : list Z :=
  firstn (Z.to_nat n) (skipn (Z.to_nat (d_pos s)) (d_data s)).
Definition moved (s : dst) (n : Z) : dst := mkD (d_data s) (d_pos s + n) (d_cur s) (d_enc s).

Lemma moved_0 s : moved s 0 = s.
Proof. destruct s. unfold moved. cbn. now rewrite Z.add_0_r. Qed.

Lemma slice_n_window s n : inside s -> 0 <= n <= remaining_of s ->
  slice_n (d_data s) (d_pos s) n = Some (window s n).
Proof.
  (unfold inside, slice_n; open_rem). intros H Hn. open_rem.
  replace ((0 <=? d_pos s) && (0 <=? n) && (d_pos s + n <=? zlen (d_data s))) with true by lia.
  reflexivity.
Qed.
Lemma d_take_window s n : inside s -> 0 <= n <= remaining_of s ->
  d_take n s = (Ok (window s n), moved s n).
Proof.
  intros H Hn. unfold d_take, d_get, bind. rewrite (slice_n_window s n H Hn). reflexivity.
Qed.
Lemma window_len s n : inside s -> 0 <= n <= remaining_of s -> zlen (window s n) = n.
Proof.
  unfold inside, window. intros Hi Hn. rewrite remaining_pos in Hn by lia. unfold zlen in *. rewrite firstn_length, skipn_length. lia.
Qed.

Lemma peek_ok s n : inside s -> 0 <= n <= remaining_of s -> d_peek n s = (Ok (window s n), s).
Proof.
  intros H Hn. unfold d_peek. destruct (n <? 0) eqn:E; [lia|]. unfold d_get, bind.
  destruct (remaining_of s <? n) eqn:E'; [lia|]. now rewrite (slice_n_window s n H Hn).
Qed.
Lemma peek_short s n : n < 0 \/ remaining_of s < n -> d_peek n s = (Err EMsg, s).
Proof.
  intro Hn. unfold d_peek. destruct (n <? 0) eqn:E; [reflexivity|]. unfold d_get, bind.
  destruct (remaining_of s <? n) eqn:E'; [reflexivity|lia].
Qed.
Lemma read_n_ok s n : inside s -> 0 <= n <= remaining_of s -> n <= 0x7FFFFFFF ->
  read_n_bytes n s = (Ok (window s n), moved s n).
Proof.
  intros H Hn Hm. unfold read_n_bytes. destruct (n =? 0) eqn:E.
  - assert (n = 0) as -> by lia. rewrite moved_0. reflexivity.
  - destruct ((n <? 0) || (0x7FFFFFFF <? n)) eqn:E1; [lia|]. unfold d_get, bind at 1.
    pose proof Hn as Hn0. rewrite remaining_pos in Hn by (unfold inside in H; lia). destruct (zlen (d_data s) <? d_pos s + n) eqn:E2; [lia|].
    apply d_take_window; [exact H|]. exact Hn0.
Qed.
Lemma read_n_short s n : n < 0 \/ remaining_of s < n \/ 0x7FFFFFFF < n -> inside s ->
  read_n_bytes n s = (Err EMsg, s).
Proof.
  (unfold inside; open_rem). intros Hn Hs. open_rem. unfold read_n_bytes. destruct (n =? 0) eqn:E; [lia|].
  destruct ((n <? 0) || (0x7FFFFFFF <? n)) eqn:E1; [reflexivity|]. unfold d_get, bind at 1.
  destruct (zlen (d_data s) <? d_pos s + n) eqn:E2; [reflexivity|lia].
Qed.
Lemma read_ok s n : inside s -> 0 <= n <= remaining_of s ->
  d_read n s = (Ok (window s n), moved s n).
Proof.
  intros H Hn. pose proof (window_len s n H Hn) as L. unfold d_read, d_get, bind at 1.
  (unfold inside in *; open_rem).
  destruct (zlen (d_data s) <? d_pos s + n) eqn:E2; [lia|]. unfold d_rest, d_get, bind at 1 2.
  unfold slice_from. destruct ((0 <=? d_pos s) && (d_pos s <=? zlen (d_data s))) eqn:E3; [|lia].
  cbn [ret]. fold (window s n). rewrite L, Z.eqb_refl. reflexivity.
Qed.
Lemma read_short s n : inside s -> remaining_of s < n -> d_read n s = (Err EShortBuffer, s).
Proof.
  intros Hs Hn. rewrite remaining_pos in Hn by (unfold inside in Hs; lia). unfold d_read, d_get, bind at 1.
  destruct (zlen (d_data s) <? d_pos s + n) eqn:E2; [reflexivity|lia].
Qed.

Lemma peek_read s n : inside s ->
  (0 <= n <= remaining_of s ->
     d_peek n s = (Ok (window s n), s) /\
     d_read n s = (Ok (window s n), moved s n) /\
     (n <= 0x7FFFFFFF -> read_n_bytes n s = (Ok (window s n), moved s n))) /\
  (n < 0 \/ remaining_of s < n ->
     (exists e, d_peek n s = (Err e, s)) /\ (exists e, read_n_bytes n s = (Err e, s)) /\
     (0 <= n -> exists e, d_read n s = (Err e, s))).
Proof.
  intro H. split; intro Hn.
  - split; [now apply peek_ok|]. split; [now apply read_ok|]. intro. now apply read_n_ok.
  - split; [eexists; now apply peek_short|].
    split; [eexists; apply read_n_short; [tauto|exact H]|].
    intro. eexists. apply read_short; [exact H|destruct Hn; lia].
Qed.

(** * Short input (C35) *)

(** Number of bytes of the reads of fixed size. *)
Definition read_size (op : dop) : option Z :=
  match op with
  | OpReadByte | OpReadBool | OpReadOption => Some 1
  | OpReadUint w _ | OpReadInt w _ => Some (Z.of_nat (wbytes w))
  | OpReadCOption => Some 4
  | OpReadFloat f _ => Some (Z.of_nat (fbytes f))
  | OpReadUint128 _ => Some 16
  | OpReadTypeID => Some 8
  | OpReadNBytes n | OpDiscard n => if n <=? 0x7FFFFFFF then Some n else None
  | OpRead n | OpSkipBytes n => Some n
  | _ => None
  end.

Lemma take_short_1 s : remaining_of s < 1 -> read_byte s = (Err EMsg, s).
Proof.
  intro H. unfold read_byte, bind, d_remaining. destruct (remaining_of s <? 1) eqn:E; [reflexivity|lia].
Qed.
Lemma uintw_short s w o : remaining_of s < Z.of_nat (wbytes w) -> read_uintw w o s = (Err EMsg, s).
Proof.
  intro H. destruct w; [now apply take_short_1| | |];
    unfold read_uintw, read_uint, read_uint64, bind, d_remaining; cbn [wbytes] in *.
  - destruct (remaining_of s <? Z.of_nat 2) eqn:E; [reflexivity|lia].
  - destruct (remaining_of s <? Z.of_nat 4) eqn:E; [reflexivity|lia].
  - destruct (remaining_of s <? 8) eqn:E; [reflexivity|lia].
Qed.

Lemma fixed_read_short op k s : inside s -> small_data s -> read_size op = Some k -> 0 <= k ->
  remaining_of s < k -> exists e, dop_run op s = (Err e, s).
Proof.
  intros H Hd Hk Hk0 Hs.
  destruct op; try discriminate; cbn [read_size] in Hk;
    try (destruct (n <=? 0x7FFFFFFF) eqn:En; [|discriminate]); injection Hk as <-; cbn [dop_run];
    unfold fmap, bind at 1.
  - rewrite take_short_1 by exact Hs. eauto.
  - rewrite uintw_short by exact Hs. eauto.
  - unfold read_intw, fmap, bind at 1. rewrite uintw_short by exact Hs. eauto.
  - unfold read_bool, bind, d_remaining. destruct (remaining_of s <? 1) eqn:E; [|lia].
    unfold fail. eauto.
  - unfold read_option, bind, map_err. rewrite take_short_1 by exact Hs. eauto.
  - unfold read_coption, read_uint, bind, map_err, d_remaining.
    destruct (remaining_of s <? Z.of_nat 4) eqn:E; [|lia]. unfold fail. eauto.
  - unfold read_float, bind, d_remaining.
    destruct (remaining_of s <? Z.of_nat (fbytes f)) eqn:E; [|lia]. unfold fail. eauto.
  - unfold read_uint128, bind, d_remaining. destruct (remaining_of s <? 16) eqn:E; [|lia].
    unfold fail. eauto.
  - rewrite read_n_short; [eauto|tauto|exact H].
  - rewrite read_short by assumption. eauto.
  - unfold read_type_id, bind. rewrite read_n_short; [eauto|tauto|exact H].
  - unfold d_skip, d_get, bind. (unfold inside, small_data in *; open_rem).
    rewrite uwrap_id by lia. destruct (zlen (d_data s) - d_pos s <? n) eqn:E; [|lia]. unfold fail. eauto.
  - unfold d_discard. (unfold inside, small_data in *; open_rem).
    destruct (n =? 0) eqn:E0; [lia|]. destruct ((n <? 0) || (0x7FFFFFFF <? n)) eqn:E1; [lia|].
    (unfold d_skip, d_get, bind; open_rem). rewrite uwrap_id by lia.
    destruct (zlen (d_data s) - d_pos s <? n) eqn:E; [|lia]. unfold fail. eauto.
Qed.

Lemma byte_moves s : inside s -> 1 <= remaining_of s ->
  exists b, window s 1 = [b] /\ read_byte s = (Ok b, moved s 1).
Proof.
  intros H Hr. assert (L : zlen (window s 1) = 1) by (apply window_len; [exact H|lia]).
  destruct (window s 1) as [|b [|b' l]] eqn:Ew; unfold zlen in L; cbn [length] in L; try lia.
  exists b. split; [reflexivity|]. unfold read_byte, bind, d_remaining.
  destruct (remaining_of s <? 1) eqn:E; [lia|]. rewrite d_take_window by (auto; lia).
  now rewrite Ew.
Qed.
Lemma uintw_moves s w o : inside s -> Z.of_nat (wbytes w) <= remaining_of s ->
  exists z, read_uintw w o s = (Ok z, moved s (Z.of_nat (wbytes w))).
Proof.
  intros H Hr. destruct w; cbn [read_uintw wbytes] in *.
  - destruct (byte_moves s H Hr) as (b & _ & Hb). eauto.
  - unfold read_uint, bind, d_remaining. destruct (remaining_of s <? Z.of_nat 2) eqn:E; [lia|].
    rewrite d_take_window by (auto; lia). unfold ret. eauto.
  - unfold read_uint, bind, d_remaining. destruct (remaining_of s <? Z.of_nat 4) eqn:E; [lia|].
    rewrite d_take_window by (auto; lia). unfold ret. eauto.
  - unfold read_uint64, bind, d_remaining. destruct (remaining_of s <? 8) eqn:E; [lia|].
    rewrite read_n_ok by (auto; lia). unfold ret. eauto.
Qed.

Lemma fixed_read_moves op k s : inside s -> small_data s -> read_size op = Some k -> 0 <= k ->
  k <= remaining_of s ->
  snd (dop_run op s) = moved s k /\
  match fst (dop_run op s) with
  | Ok _ => True
  | Err _ => op = OpReadCOption \/ exists f o, op = OpReadFloat f o
  | _ => False
  end.
Proof.
  intros H Hd Hk Hk0 Hs.
  destruct op; try discriminate; cbn [read_size] in Hk;
    try (destruct (n <=? 0x7FFFFFFF) eqn:En; [|discriminate]); injection Hk as <-; cbn [dop_run];
    unfold fmap, bind.
  - destruct (byte_moves s H Hs) as (b & _ & Hb). rewrite Hb. now cbn.
  - destruct (uintw_moves s w o H Hs) as (z & Hz). rewrite Hz. now cbn.
  - destruct (uintw_moves s w o H Hs) as (z & Hz). unfold read_intw, fmap, bind. rewrite Hz. now cbn.
  - destruct (byte_moves s H Hs) as (b & _ & Hb).
    unfold read_bool, bind, d_remaining, map_err. destruct (remaining_of s <? 1) eqn:E; [lia|].
    rewrite Hb. now cbn.
  - destruct (byte_moves s H Hs) as (b & _ & Hb). unfold read_option, bind, map_err. rewrite Hb. now cbn.
  - destruct (uintw_moves s W32 LE H Hs) as (z & Hz). cbn [read_uintw wbytes] in Hz.
    unfold read_coption, bind, map_err. rewrite Hz. destruct (1 <? z); cbn; auto.
  - unfold read_float, bind, d_remaining.
    destruct (remaining_of s <? Z.of_nat (fbytes f)) eqn:E; [lia|].
    rewrite d_take_window by (auto; lia). unfold d_get_enc.
    destruct (is_borsh _ && _); cbn; split; auto. right. eauto.
  - unfold read_uint128, bind, d_remaining. destruct (remaining_of s <? 16) eqn:E; [lia|].
    rewrite d_take_window by (auto; lia). destruct o; now cbn.
  - rewrite read_n_ok by (auto; lia). now cbn.
  - rewrite read_ok by (auto; lia). now cbn.
  - unfold read_type_id, bind. rewrite read_n_ok by (auto; lia). now cbn.
  - unfold d_skip, d_get, bind. (unfold inside, small_data in *; open_rem).
    rewrite uwrap_id by lia. destruct (zlen (d_data s) - d_pos s <? n) eqn:E; [lia|].
    rewrite (swrap_small 64 n) by lia. rewrite swrap_small by lia. now cbn.
  - unfold d_discard. (unfold inside, small_data in *; open_rem).
    destruct (n =? 0) eqn:E0.
    + assert (n = 0) as -> by lia. rewrite moved_0. now cbn.
    + destruct ((n <? 0) || (0x7FFFFFFF <? n)) eqn:E1; [lia|].
      (unfold d_skip, d_get, bind; open_rem). rewrite uwrap_id by lia.
      destruct (zlen (d_data s) - d_pos s <? n) eqn:E; [lia|]. rewrite (swrap_small 64 n) by lia.
      rewrite swrap_small by lia. now cbn.
Qed.

(** Negative positions (SetPosition makes them). *)
Lemma d_take_negative n s : d_pos s < 0 -> d_take n s = (Panic, s).
Proof.
  intro H. unfold d_take, bind, d_get, slice_n. destruct (0 <=? d_pos s) eqn:E; [lia|]. reflexivity.
Qed.
Lemma remaining_neg s : d_pos s < 0 -> zlen (d_data s) - d_pos s < 2 ^ 63 -> remaining_of s = zlen (d_data s) - d_pos s.
Proof.
  intros H Hd. pose proof (zlen_nonneg (d_data s)). unfold remaining_of. destruct (d_pos s <? 0); [|reflexivity]. apply swrap_small; lia.
Qed.
Lemma remaining_far s : - 2 ^ 63 <= d_pos s < 0 -> zlen (d_data s) < 2 ^ 63 -> 2 ^ 63 <= zlen (d_data s) - d_pos s ->
  remaining_of s = zlen (d_data s) - d_pos s - 2 ^ 64.
Proof.
  intros H Hl Hd. unfold remaining_of. destruct (d_pos s <? 0) eqn:E; [|lia].
  rewrite <- (swrap_small 64 (zlen (d_data s) - d_pos s - 2 ^ 64)) by lia. unfold swrap, uwrap. cbv zeta.
  replace ((zlen (d_data s) - d_pos s) mod 2 ^ 64) with ((zlen (d_data s) - d_pos s - 2 ^ 64) mod 2 ^ 64); [reflexivity|].
  rewrite <- (Z.mod_add (zlen (d_data s) - d_pos s) (-1) (2 ^ 64)) by lia. f_equal; lia.
Qed.
Lemma read_n_negative n s : d_pos s < 0 -> 0 < n <= 0x7FFFFFFF -> n <= zlen (d_data s) - d_pos s -> read_n_bytes n s = (Panic, s).
Proof.
  intros H Hn Hr. unfold read_n_bytes. destruct (n =? 0) eqn:E0; [lia|].
  destruct ((n <? 0) || (0x7FFFFFFF <? n)) eqn:E1; [lia|]. unfold bind, d_get.
  destruct (zlen (d_data s) <? d_pos s + n) eqn:E2; [lia|]. now apply d_take_negative.
Qed.
Lemma uintw_negative w o s : d_pos s < 0 -> zlen (d_data s) - d_pos s < 2 ^ 63 -> Z.of_nat (wbytes w) <= zlen (d_data s) - d_pos s -> read_uintw w o s = (Panic, s).
Proof.
  intros H Hd Hr. pose proof (remaining_neg s H Hd) as R. destruct w; cbn [read_uintw wbytes] in *; unfold read_byte, read_uint, read_uint64, bind, d_remaining; rewrite R.
  - destruct (_ <? 1) eqn:E; [lia|]. now rewrite d_take_negative.
  - destruct (_ <? Z.of_nat 2) eqn:E; [lia|]. now rewrite d_take_negative.
  - destruct (_ <? Z.of_nat 4) eqn:E; [lia|]. now rewrite d_take_negative.
  - destruct (_ <? 8) eqn:E; [lia|]. rewrite read_n_negative by (auto; lia). reflexivity.
Qed.
Lemma fixed_read_negative op k s : d_pos s < 0 -> zlen (d_data s) - d_pos s < 2 ^ 63 -> read_size op = Some k -> 0 < k <= zlen (d_data s) - d_pos s ->
  (forall n, op <> OpSkipBytes n /\ op <> OpDiscard n) -> dop_run op s = (Panic, s).
Proof.
  intros H Hd Hk (Hk0 & Hr) Hop. pose proof (remaining_neg s H Hd) as R.
  destruct op; try discriminate; try (exfalso; destruct (Hop n); congruence); cbn [read_size] in Hk;
    try (destruct (n <=? 0x7FFFFFFF) eqn:En; [|discriminate]); injection Hk as Hk; subst k; cbn [dop_run];
    unfold fmap, bind.
  - now rewrite (uintw_negative W8 LE s H Hd Hr : read_byte s = _).
  - now rewrite uintw_negative.
  - unfold read_intw, fmap, bind. now rewrite uintw_negative.
  - unfold read_bool, bind, d_remaining, map_err. rewrite R. destruct (_ <? 1) eqn:E; [lia|].
    now rewrite (uintw_negative W8 LE s H Hd Hr : read_byte s = _).
  - unfold read_option, bind, map_err. now rewrite (uintw_negative W8 LE s H Hd Hr : read_byte s = _).
  - unfold read_coption, bind, map_err. now rewrite (uintw_negative W32 LE s H Hd Hr : read_uint 4 LE s = _).
  - unfold read_float, bind, d_remaining. rewrite R. destruct (_ <? Z.of_nat (fbytes f)) eqn:E; [lia|].
    now rewrite d_take_negative.
  - unfold read_uint128, bind, d_remaining. rewrite R. destruct (_ <? 16) eqn:E; [lia|].
    now rewrite d_take_negative.
  - rewrite read_n_negative by (auto; lia). reflexivity.
  - unfold d_read, bind, d_get. destruct (zlen (d_data s) <? d_pos s + n) eqn:E; [lia|].
    unfold d_rest, bind, d_get, slice_from. destruct (0 <=? d_pos s) eqn:E1; [lia|]. reflexivity.
  - unfold read_type_id, bind. rewrite read_n_negative by (auto; lia). reflexivity.
Qed.
Lemma swrap_high n : 2 ^ 63 <= n < 2 ^ 64 -> swrap 64 n = n - 2 ^ 64.
Proof.
  intro Hn. rewrite <- (swrap_small 64 (n - 2 ^ 64)) by lia. unfold swrap, uwrap. cbv zeta.
  replace (n mod 2 ^ 64) with ((n - 2 ^ 64) mod 2 ^ 64); [reflexivity|].
  rewrite <- (Z.mod_add n (-1) (2 ^ 64)) by lia. f_equal; lia.
Qed.
Lemma set_high n s : 2 ^ 63 <= n < 2 ^ 64 -> dop_run (OpSetPosition n) s = (Ok RUnit, mkD (d_data s) (n - 2 ^ 64) (d_cur s) (d_enc s)).
Proof.
  intro Hn. pose proof (zlen_nonneg (d_data s)). cbn [dop_run]. unfold fmap, d_setposition, bind, d_get. rewrite (swrap_high n Hn).
  destruct (n - 2 ^ 64 <? zlen (d_data s)) eqn:E; [reflexivity|lia].
Qed.
Lemma negative_position n op k s : 2 ^ 63 <= n < 2 ^ 64 -> zlen (d_data s) + (2 ^ 64 - n) < 2 ^ 63 ->
  read_size op = Some k -> 0 < k <= zlen (d_data s) + (2 ^ 64 - n) ->
  (forall n, op <> OpSkipBytes n /\ op <> OpDiscard n) ->
  let s' := mkD (d_data s) (n - 2 ^ 64) (d_cur s) (d_enc s) in
  dop_run (OpSetPosition n) s = (Ok RUnit, s') /\ dop_run op s' = (Panic, s') /\
  dop_run (OpSkipBytes (2 ^ 64 - n)) s' = (Ok RUnit, mkD (d_data s) 0 (d_cur s) (d_enc s)).
Proof.
  intros Hn Hd Hk Hr Hop s'. pose proof (zlen_nonneg (d_data s)).
  split; [now apply set_high|split].
  - apply (fixed_read_negative op k); subst s'; cbn [d_pos d_data]; try lia; auto.
  - subst s'. cbn [dop_run]. unfold fmap, d_skip, bind, d_get. rewrite remaining_neg by (cbn [d_data d_pos]; lia). cbn [d_data d_pos].
    rewrite uwrap_id by lia. destruct (zlen (d_data s) - (n - 2 ^ 64) <? 2 ^ 64 - n) eqn:E; [lia|].
    rewrite (swrap_small 64 (2 ^ 64 - n)) by lia. rewrite swrap_small by lia. unfold d_set_pos. cbn [d_data d_cur d_enc].
    replace (n - 2 ^ 64 + (2 ^ 64 - n)) with 0 by lia. reflexivity.
Qed.

(** Still further down the difference wraps around. *)
Lemma far_position n op k s : 2 ^ 63 <= n < 2 ^ 64 -> zlen (d_data s) < 2 ^ 62 -> 2 ^ 63 <= zlen (d_data s) + (2 ^ 64 - n) ->
  read_size op = Some k -> 0 < k < 2 ^ 62 -> (forall n, op <> OpSkipBytes n /\ op <> OpDiscard n) ->
  let s' := mkD (d_data s) (n - 2 ^ 64) (d_cur s) (d_enc s) in
  dop_run (OpSetPosition n) s = (Ok RUnit, s') /\
  (match op with
   | OpReadNBytes _ | OpRead _ | OpReadTypeID => dop_run op s' = (Panic, s')
   | _ => exists e, dop_run op s' = (Err e, s')
   end) /\
  dop_run OpRemaining s' = (Ok (RNum (zlen (d_data s) - n)), s') /\
  dop_run (OpSkipBytes (2 ^ 64 - n)) s' = (Ok RUnit, mkD (d_data s) 0 (d_cur s) (d_enc s)).
Proof.
  intros Hn Hl Hd Hk Hk0 Hop s'. pose proof (zlen_nonneg (d_data s)).
  assert (R : remaining_of s' = zlen (d_data s) - (n - 2 ^ 64) - 2 ^ 64) by (apply remaining_far; subst s'; cbn [d_data d_pos]; lia).
  split; [now apply set_high|]. split.
  - assert (Hp : d_pos s' < 0) by (subst s'; cbn [d_pos]; lia).
    assert (Hr : k <= zlen (d_data s') - d_pos s') by (subst s'; cbn [d_data d_pos]; lia).
    assert (R' : remaining_of s' < 0) by lia. clearbody s'. clear R.
    destruct op; try discriminate; try (exfalso; destruct (Hop n0); congruence); cbn [read_size] in *;
      try (destruct (n0 <=? 0x7FFFFFFF) eqn:En; [|discriminate]); injection Hk as Hk; subst k; cbn [dop_run];
      unfold fmap, bind.
    + rewrite take_short_1 by lia. eauto.
    + rewrite uintw_short by lia. eauto.
    + unfold read_intw, fmap, bind. rewrite uintw_short by lia. eauto.
    + unfold read_bool, bind, d_remaining. destruct (remaining_of s' <? 1) eqn:E; [|lia]. unfold fail. eauto.
    + unfold read_option, bind, map_err. rewrite take_short_1 by lia. eauto.
    + unfold read_coption, read_uint, bind, map_err, d_remaining.
      destruct (remaining_of s' <? Z.of_nat 4) eqn:E; [|lia]. unfold fail. eauto.
    + unfold read_float, bind, d_remaining.
      destruct (remaining_of s' <? Z.of_nat (fbytes f)) eqn:E; [|lia]. unfold fail. eauto.
    + unfold read_uint128, bind, d_remaining. destruct (remaining_of s' <? 16) eqn:E; [|lia]. unfold fail. eauto.
    + rewrite read_n_negative by (auto; lia). reflexivity.
    + unfold d_read, bind, d_get. destruct (zlen (d_data s') <? d_pos s' + n0) eqn:E; [lia|].
      unfold d_rest, bind, d_get, slice_from. destruct (0 <=? d_pos s') eqn:E1; [lia|]. reflexivity.
    + unfold read_type_id, bind. rewrite read_n_negative by (auto; lia). reflexivity.
  - split.
    { cbn [dop_run]. unfold fmap, bind, d_get, ret. rewrite R. do 3 f_equal. lia. }
    cbn [dop_run]. unfold fmap, d_skip, bind, d_get. rewrite R. subst s'. cbn [d_data d_pos].
    replace (uwrap 64 (zlen (d_data s) - (n - 2 ^ 64) - 2 ^ 64)) with (zlen (d_data s) - (n - 2 ^ 64)).
    2: { unfold uwrap. rewrite <- (Z.mod_small (zlen (d_data s) - (n - 2 ^ 64)) (2 ^ 64)) at 1 by lia.
         rewrite <- (Z.mod_add (zlen (d_data s) - (n - 2 ^ 64) - 2 ^ 64) 1 (2 ^ 64)) by lia. f_equal; lia. }
    destruct (zlen (d_data s) - (n - 2 ^ 64) <? 2 ^ 64 - n) eqn:E; [lia|].
    assert (Hw : swrap 64 (n - 2 ^ 64 + swrap 64 (2 ^ 64 - n)) = 0).
    { destruct (Z.eq_dec n (2 ^ 63)) as [->|Hne]; [reflexivity|]. rewrite (swrap_small 64 (2 ^ 64 - n)) by lia.
      replace (n - 2 ^ 64 + (2 ^ 64 - n)) with 0 by lia. reflexivity. }
    rewrite Hw. reflexivity.
Qed.

(** The reads of variable size. *)
Definition read_leb (op : dop) : bool :=
  match op with
  | OpReadUvarint64 | OpReadVarint64 | OpReadUvarint32 | OpReadVarint32 | OpReadUvarint16
  | OpReadVarint16 | OpReadCompactU16 => true
  | _ => false
  end.

Definition shy {A} (m : DM A) : Prop := forall s e s', m s = (Err e, s') -> s' = s.
Lemma shy_fmap {A B} (f : A -> B) m : shy m -> shy (fmap f m).
Proof.
  intros H s e s' E. unfold fmap, bind in E. destruct (m s) as [[a|e0| | |] s1] eqn:Em; inversion E; subst.
  now apply H in Em.
Qed.
Lemma shy_uvarint64 : shy read_uvarint64.
Proof.
  intros s e s' E. unfold read_uvarint64, d_rest, d_get, bind in E.
  destruct (slice_from _ _); [|discriminate]. cbn [ret] in E. destruct (uvarint l) as [v n].
  destruct (n <=? 0); [now inversion E|discriminate].
Qed.
Lemma shy_varint64 : shy read_varint64.
Proof.
  intros s e s' E. unfold read_varint64, d_rest, d_get, bind in E.
  destruct (slice_from _ _); [|discriminate]. cbn [ret] in E. destruct (varint l) as [v n].
  destruct (n <=? 0); [now inversion E|discriminate].
Qed.
Lemma shy_compact : shy read_compact_u16.
Proof.
  intros s e s' E. unfold read_compact_u16, d_rest, d_get, bind in E.
  destruct (slice_from _ _); [|discriminate]. cbn [ret] in E.
  destruct (decode_compact_u16 l) as [e0|[ln sz]]; [now inversion E|discriminate].
Qed.
Lemma leb_read_shy op : read_leb op = true -> shy (dop_run op).
Proof.
  destruct op; try discriminate; intros _; cbn [dop_run]; repeat apply shy_fmap;
    first [apply shy_uvarint64|apply shy_varint64|apply shy_compact].
Qed.

(** * Operation sequences (C36, C37) *)

(** SkipBytes and SetPosition take a uint, Read a buffer. *)
Definition sane (op : dop) : Prop :=
  match op with
  | OpRead n => 0 <= n
  | OpSkipBytes n => 0 <= n < 2 ^ 64
  | OpSetPosition n => 0 <= n < 2 ^ 63
  | OpDecode t _ => all_codecs codec_within t
  | OpReset d => zlen d < 2 ^ 63
  | _ => True
  end.

Definition steady (s : dst) : Prop := inside s /\ small_data s.

Lemma within_steady {A} (m : DM A) s : within m -> steady s -> steady (snd (m s)).
Proof.
  intros Hm [Hi Hs]. destruct (Hm s Hi) as (Hd & _ & _ & Hi'). split; [exact Hi'|].
  unfold small_data. now rewrite Hd.
Qed.

Lemma snd_fmap {A B} (f : A -> B) (m : DM A) s : snd (fmap f m s) = snd (m s).
Proof. unfold fmap, bind. now destruct (m s) as [[a|e| | |] s1]. Qed.

Lemma sane_steady op s : sane op -> steady s -> steady (snd (dop_run op s)).
Proof.
  intros Ho Hs. destruct op; cbn [dop_run]; rewrite snd_fmap;
    try (apply within_steady; [solve [within]|exact Hs]); try exact Hs.
  - apply within_steady; [now apply within_read|exact Hs].
  - cbn [sane] in Ho. destruct Hs as [Hi Hs].
    destruct (onward_skip n s Ho Hi Hs) as (Hd & _ & _ & Hi'). split; [exact Hi'|].
    unfold small_data. now rewrite Hd.
  - destruct Hs as [Hi Hs].
    destruct (onward_discard n s Hi Hs) as (Hd & _ & _ & Hi'). split; [exact Hi'|].
    unfold small_data. now rewrite Hd.
  - cbn [sane] in Ho. destruct Hs as [Hi Hs].
    destruct (inside_setposition n s Ho Hi) as (Hd & _ & Hi'). split; [exact Hi'|].
    unfold small_data. now rewrite Hd.
  - apply within_steady; [now apply within_decode|exact Hs].
  - split; [|exact Ho]. unfold inside. cbn. pose proof (zlen_nonneg data). lia.
Qed.

Lemma sane_steady_all ops : forall s, Forall sane ops -> steady s -> steady (snd (dops_run ops s)).
Proof.
  induction ops as [|op ops IH]; intros s Ho Hs; cbn [dops_run]; [exact Hs|].
  inversion_clear Ho as [|? ? H1 H2]. pose proof (sane_steady op s H1 Hs) as H3.
  destruct (dop_run op s) as [r s1]. cbn [snd] in H3. specialize (IH s1 H2 H3).
  destruct (dops_run ops s1) as [rs s2]. exact IH.
Qed.

Lemma observers s : steady s ->
  dop_run OpPosition s = (Ok (RNum (d_pos s)), s) /\
  dop_run OpLen s = (Ok (RNum (zlen (d_data s))), s) /\
  dop_run OpRemaining s = (Ok (RNum (zlen (d_data s) - d_pos s)), s) /\
  dop_run OpHasRemaining s = (Ok (RBool (d_pos s <? zlen (d_data s))), s).
Proof.
  intros [Hi Hs]. unfold inside, small_data in *.
  cbn [dop_run]. (unfold fmap, bind, d_get, ret, position_of; open_rem). repeat split.
  - rewrite uwrap_id; [reflexivity|lia].
  - do 3 f_equal. destruct (d_pos s <? zlen (d_data s)) eqn:E1; lia.
Qed.

Lemma positions E data ops : zlen data < 2 ^ 63 -> Forall sane ops ->
  let s := snd (dops_run ops (new_decoder E data)) in
  exists pos len, 0 <= pos <= len /\
    dop_run OpPosition s = (Ok (RNum pos), s) /\
    dop_run OpLen s = (Ok (RNum len), s) /\
    dop_run OpRemaining s = (Ok (RNum (len - pos)), s) /\
    dop_run OpHasRemaining s = (Ok (RBool (pos <? len)), s).
Proof.
  intros Hd Ho s.
  assert (Hs : steady s).
  { apply sane_steady_all; [exact Ho|]. split; [|exact Hd]. unfold inside. cbn.
    pose proof (zlen_nonneg data). lia. }
  exists (d_pos s), (zlen (d_data s)). split; [apply Hs|]. now apply observers.
Qed.

(** Without SetEncoding the encoding stays. *)
Lemma sane_enc op s : sane op -> steady s -> (forall E, op <> OpSetEncoding E) ->
  d_enc (snd (dop_run op s)) = d_enc s.
Proof.
  intros Ho [Hi Hs] Hn.
  assert (Hw : forall A (m : DM A), within m -> d_enc (snd (m s)) = d_enc s).
  { intros A m Hm. now destruct (Hm s Hi) as (_ & He & _). }
  destruct op; cbn [dop_run]; rewrite snd_fmap; try (apply Hw; solve [within]); try reflexivity.
  - apply Hw. now apply within_read.
  - now destruct (onward_skip n s Ho Hi Hs) as (_ & He & _).
  - now destruct (onward_discard n s Hi Hs) as (_ & He & _).
  - now destruct (inside_setposition n s Ho Hi) as (_ & He & _).
  - apply Hw. now apply within_decode.
  - now destruct (Hn E).
Qed.

Lemma dops_app ops1 : forall ops2 s,
  dops_run (ops1 ++ ops2) s =
  let '(r1, s1) := dops_run ops1 s in
  let '(r2, s2) := dops_run ops2 s1 in (r1 ++ r2, s2).
Proof.
  induction ops1 as [|op ops1 IH]; intros ops2 s; cbn [dops_run app].
  - now destruct (dops_run ops2 s).
  - destruct (dop_run op s) as [r s1]. rewrite IH. destruct (dops_run ops1 s1) as [r1 s2].
    now destruct (dops_run ops2 s2).
Qed.

Lemma sane_enc_all ops : forall s, Forall sane ops -> steady s ->
  Forall (fun op => forall E, op <> OpSetEncoding E) ops ->
  d_enc (snd (dops_run ops s)) = d_enc s.
Proof.
  induction ops as [|op ops IH]; intros s Ho Hs Hn; cbn [dops_run]; [reflexivity|].
  inversion_clear Ho as [|? ? H1 H2]. inversion_clear Hn as [|? ? N1 N2].
  pose proof (sane_steady op s H1 Hs) as H3. pose proof (sane_enc op s H1 Hs N1) as H4.
  destruct (dop_run op s) as [r s1]. cbn [snd] in H3, H4. specialize (IH s1 H2 H3 N2).
  destruct (dops_run ops s1) as [rs s2]. cbn [snd] in *. congruence.
Qed.

Lemma reset_fresh E data0 before data after :
  zlen data0 < 2 ^ 63 -> Forall sane before ->
  Forall (fun op => forall E', op <> OpSetEncoding E') before ->
  dops_run (before ++ OpReset data :: after) (new_decoder E data0) =
  let '(r1, _) := dops_run before (new_decoder E data0) in
  let '(r2, s2) := dops_run after (new_decoder E data) in (r1 ++ Ok RUnit :: r2, s2).
Proof.
  intros Hd Ho Hn. rewrite dops_app.
  assert (Hs : steady (new_decoder E data0)).
  { split; [|exact Hd]. unfold inside. cbn. pose proof (zlen_nonneg data0). lia. }
  pose proof (sane_enc_all before _ Ho Hs Hn) as He.
  destruct (dops_run before _) as [r1 s1]. cbn [snd] in He. cbn [dops_run dop_run].
  unfold fmap, bind, d_reset. cbn [ret]. rewrite He. cbn [d_enc new_decoder].
  unfold new_decoder. now destruct (dops_run after _).
Qed.

(** * More than 65535 elements in compact-u16 (C51) *)

Lemma compact_long t l :
  Forall (fun x => match uint_kind t with
                   | Some w => exists z, x = VNum z /\ 0 <= z < 2 ^ wbits w
                   | None => ok CompactU16 t None LE x
                   end) l ->
  65535 < zlen l ->
  marshal CompactU16 (TSlice t) (VSlice (Some l)) =
    (Ok tt, flat_map (fun x => match uint_kind t, x with
                               | Some w, VNum z => fixed LE (wbytes w) z
                               | _, _ => wire CompactU16 t None LE x
                               end) l).
Proof.
  intros Hall Hl. set (bs := flat_map _ l).
  enough (exists c', emits CompactU16 None
           (enc_val CompactU16 (TSlice t) (EFull opt0) (VSlice (Some l))) bs c') as [c' H].
  { unfold marshal, encode, bind, e_get_enc. cbn [e_enc new_encoder].
    destruct (emits_buffer _ _ _ _ _ H 0 [] []) as (cs & _ & Hr). unfold new_encoder, buffer. now rewrite Hr. }
  cbn [enc_val o_opt o_copt o_size o_order is_borsh andb orb opt0].
  enough (exists c', emits CompactU16 (Some LE)
     (match uint_kind t with
      | Some w => write_uints w (zlen l) l
      | None => each (enc_val CompactU16 t (EFull opt0)) (firstn (Z.to_nat (zlen l)) l) ;;;
                (if zlen l <? zlen l then panic else ret tt)
      end) bs c') as [c' H].
  { exists c'. apply emits_set_cur. change bs with ([] ++ bs).
    eapply emits_bind; [|exact H]. unfold write_count, write_compact_u16, encode_compact_u16.
    destruct ((zlen l <? 0) || (65535 <? zlen l)) eqn:E; [|lia]. apply emits_to_writer. }
  unfold bs. destruct (uint_kind t) as [w|] eqn:Ek.
  - eexists. apply emits_write_uints; [exact Hall|reflexivity].
  - unfold zlen at 1. rewrite Nat2Z.id, firstn_all.
    destruct (zlen l <? zlen l) eqn:E'; [lia|].
    destruct (emits_each CompactU16 (enc_val CompactU16 t (EFull opt0)) (wire CompactU16 t None LE)
                l (Some LE)) as [c' Hc'].
    { eapply Forall_impl; [|exact Hall]. cbn beta. intros x Hx c1. now apply enc_wire. }
    exists c'. rewrite <- (app_nil_r (flat_map _ l)).
    eapply emits_bind; [exact Hc'|apply emits_ret].
Qed.

Lemma compact_count_bound s n s' : read_compact_u16 s = (Ok n, s') -> 0 <= n <= 65535.
Proof.
  unfold read_compact_u16, d_rest, d_get, bind. destruct (slice_from _ _) as [b|]; [|discriminate].
  cbn [ret]. unfold decode_compact_u16.
  destruct (cu16_get 3 0 b 0 0) as [e|[ln sz]] eqn:Ed; [discriminate|].
  destruct ((sz =? 0) || (3 <? sz)); [discriminate|].
  destruct ((ln <? 0) || (65535 <? ln)) eqn:Er; [discriminate|]. intros [= <- _]. lia.
Qed.

(** The number of elements of a decoded slice. *)
Lemma rep_len {A} k (m : DM A) : forall s l s', read_rep k m s = (Ok l, s') -> length l = k.
Proof.
  induction k as [|k IH]; intros s l s' E; cbn [read_rep] in E; [now injection E as <- _|].
  unfold bind in E. destruct (m s) as [[a|e| | |] s1]; try discriminate.
  destruct (read_rep k m s1) as [[r|e| | |] s2] eqn:Er; try discriminate.
  injection E as <- _. cbn [length]. f_equal. eapply IH; eauto.
Qed.
Lemma take_len k s l s' : d_take k s = (Ok l, s') -> zlen l = k.
Proof.
  intro E. unfold d_take, d_get, bind, slice_n in E.
  destruct ((0 <=? d_pos s) && (0 <=? k) && (d_pos s + k <=? zlen (d_data s))) eqn:Ec; [|discriminate].
  injection E as <- _. unfold zlen in *. rewrite firstn_length, skipn_length. lia.
Qed.
Lemma uints_len w k s l s' : read_uints w k s = (Ok l, s') -> zlen l = k.
Proof.
  unfold read_uints, bind at 1, d_remaining. destruct (_ <? _); [discriminate|].
  destruct w.
  - unfold read_n_bytes. destruct (k =? 0) eqn:E0; [intros [= <- _]; change (zlen (@nil Z)) with 0; lia|].
    destruct ((k <? 0) || _); [discriminate|]. unfold bind at 1, d_get.
    destruct (_ <? _); [discriminate|]. apply take_len.
  - destruct (k <? 0) eqn:Ek; [discriminate|]. intro E. apply rep_len in E. unfold zlen. lia.
  - destruct (k <? 0) eqn:Ek; [discriminate|]. intro E. apply rep_len in E. unfold zlen. lia.
  - destruct (k <? 0) eqn:Ek; [discriminate|]. intro E. apply rep_len in E. unfold zlen. lia.
Qed.

Lemma slice_len E t o v s x s' :
  dec_val E (TSlice t) (DWalk o false) v s = (Ok x, s') ->
  exists l s1,
    (match o_size o with Some n => ret n | None => read_count E end) s = (Ok l, s1) /\
    (E = Borsh /\ l = 0 /\ x = v \/
     exists vs, x = VSlice (Some vs) /\ zlen vs = Z.max 0 l /\ l <= remaining_of s1).
Proof.
  rewrite dec_walk_eq. unfold with_pend. intro Ex. unfold bind at 1 in Ex.
  destruct ((match o_size o with Some n => ret n | None => read_count E end) s)
    as [[l|e| | |] s1] eqn:Ec; try discriminate.
  exists l, s1. split; [reflexivity|].
  destruct (is_borsh E && (l =? 0)) eqn:Eb.
  - left. injection Ex as <- _. repeat split; [destruct E; easy|lia].
  - right. unfold bind at 1, d_remaining in Ex. destruct (remaining_of s1 <? l) eqn:Er; [discriminate|].
    destruct (uint_kind t) as [w|]; unfold fmap, bind in Ex.
    + destruct (read_uints w l s1) as [[zs|e| | |] s2] eqn:Eu; try discriminate.
      injection Ex as <- _. exists (map VNum zs). split; [reflexivity|]. rewrite zlen_map.
      assert (0 <= zlen zs) by apply zlen_nonneg. apply uints_len in Eu. lia.
    + destruct (read_rep _ _ s1) as [[vs|e| | |] s2] eqn:Eu; try discriminate.
      injection Ex as <- _. exists vs. split; [reflexivity|]. apply rep_len in Eu. unfold zlen. lia.
Qed.

Lemma compact_decoded_len t v data l :
  unmarshal CompactU16 (TSlice t) v data = Ok (VSlice (Some l)) -> zlen l <= 65535.
Proof.
  unfold unmarshal. rewrite decode_run. cbn [d_enc new_decoder]. rewrite dec_start_eq.
  unfold bind, d_set_cur. cbn [opt0 o_opt o_copt is_borsh andb orb].
  destruct (dec_val CompactU16 (TSlice t) (DWalk opt0 false) v _) as [r s'] eqn:Ed.
  cbn [fst]. intros ->. apply slice_len in Ed.
  destruct Ed as (n & s1 & Hc & [(H & _)|(vs & H & Hl & _)]); [discriminate|].
  injection H as <-. cbn [opt0 o_size read_count] in Hc. apply compact_count_bound in Hc. lia.
Qed.
