(** Sharing of byte slices: C50, C55, C85. *)
From Verif Require Import Types Num DecPrim Builtin NumFacts DecWithin DecSafe DecProps Spec Compact Alias AliasFacts.
Notation length := Datatypes.length.

(** ** C50 *)

(** [part d s i n]: the slice [s] is the part [i : i+n] of [d]: in every heap it
    shows these bytes of [d]; a store into one is a store into the other. *)
Theorem C50_part_shows : forall d s i n h, 0 <= s_off d -> part d s i n ->
  view h s = firstn (Z.to_nat n) (skipn (Z.to_nat i) (view h d)).
Proof. exact part_view. Qed.
Print Assumptions C50_part_shows.
Theorem C50_part_store : forall d s i n h j b, valid h d -> part d s i n -> 0 <= j < n ->
  exists h', store h d (i + j) b = Ok h' /\ store h s j b = Ok h' /\
    view h' s = overwrite (view h s) j [b] /\ view h' d = overwrite (view h d) (i + j) [b].
Proof. exact part_store. Qed.
Print Assumptions C50_part_store.
(** Appending to it overwrites the input bytes that follow. *)
Theorem C50_part_append : forall grow d s i n h bs, valid h d -> part d s i n -> i + n + zlen bs <= s_len d ->
  exists h' s', append grow h s bs = (h', s') /\ view h' d = overwrite (view h d) (i + n) bs.
Proof. exact part_append. Qed.
Print Assumptions C50_part_append.
(** Stores stop at its end, but s[:j] opens the rest of the input up to the
    capacity. *)
Theorem C50_part_bounds : forall d s i n h j b, part d s i n -> ~ 0 <= j < n -> store h s j b = Panic.
Proof. intros d s i n h j b (-> & _) Hj. unfold store. cbn [s_len]. now replace ((0 <=? j) && (j <? n)) with false by lia. Qed.
Print Assumptions C50_part_bounds.
Theorem C50_part_extend : forall d s i n j, part d s i n -> s_len d <= s_cap d ->
  (0 <= j <= s_len d - i -> exists s', reslice s 0 j = Ok s' /\ part d s' i j) /\
  (~ 0 <= j <= s_cap d - i -> reslice s 0 j = Panic).
Proof.
  intros d s i n j (-> & H1 & H2 & H3) Hc. split; intro Hj;
    [|unfold reslice; cbn [s_cap s_arr s_off]; now replace ((0 <=? 0) && (0 <=? j) && (j <=? s_cap d - i)) with false by lia]. unfold reslice. cbn [s_cap s_arr s_off]. replace ((0 <=? 0) && (0 <=? j) && (j <=? s_cap d - i)) with true by lia.
  eexists. split; [reflexivity|]. split; [|lia]. f_equal; lia.
Qed.
Print Assumptions C50_part_extend.

(** ReadNBytes and ReadBytes, Peek and ReadByteSlice return such parts, and the
    bytes, errors and positions of the model without sharing. *)
Theorem C50_read_n_bytes : forall h d n, hready h d -> 0 < n <= 0x7FFFFFFF -> n <= s_len (hd_data d) - hd_pos d ->
  exists s, h_read_n_bytes n (h, d) = (Ok s, (h, advanced d n)) /\
    part (hd_data d) s (hd_pos d) n /\
    read_n_bytes n (plain_dst h d) = (Ok (view h s), plain_dst h (advanced d n)).
Proof. exact h_read_n_ok. Qed.
Print Assumptions C50_read_n_bytes.
Theorem C50_read_n_bytes_error : forall h d n, hready h d ->
  n < 0 \/ 0x7FFFFFFF < n \/ s_len (hd_data d) - hd_pos d < n ->
  h_read_n_bytes n (h, d) = (Err EMsg, (h, d)) /\ read_n_bytes n (plain_dst h d) = (Err EMsg, plain_dst h d).
Proof. exact h_read_n_err. Qed.
Print Assumptions C50_read_n_bytes_error.
Theorem C50_peek : forall h d n, hready h d -> 0 <= n <= s_len (hd_data d) - hd_pos d ->
  exists s, h_peek n (h, d) = (Ok s, (h, d)) /\
    part (hd_data d) s (hd_pos d) n /\
    d_peek n (plain_dst h d) = (Ok (view h s), plain_dst h d).
Proof. exact h_peek_ok. Qed.
Print Assumptions C50_peek.
Theorem C50_read_byte_slice : forall h d, hready h d -> bytes_ok (view h (hd_data d)) ->
  match read_byte_slice (plain_dst h d) with
  | (Ok bs, s') => exists s d', h_read_byte_slice (h, d) = (Ok s, (h, d')) /\ hd_data d' = hd_data d /\
      plain_dst h d' = s' /\ part (hd_data d) s (hd_pos d' - zlen bs) (zlen bs) /\ view h s = bs
  | (Err e, s') => exists d', h_read_byte_slice (h, d) = (Err e, (h, d')) /\ hd_data d' = hd_data d /\ plain_dst h d' = s'
  | _ => False
  end.
Proof. exact h_slice_agrees. Qed.
Print Assumptions C50_read_byte_slice.
(** So does a variable of type HexBytes, whose method reads a byte slice. *)
Theorem C50_hex_bytes : forall h d, hready h d -> bytes_ok (view h (hd_data d)) ->
  match read_byte_slice (plain_dst h d) with
  | (Ok bs, s') => exists s d', h_read_hex_bytes (h, d) = (Ok s, (h, d')) /\ hd_data d' = hd_data d /\
      plain_dst h d' = s' /\ part (hd_data d) s (hd_pos d' - zlen bs) (zlen bs) /\ view h s = bs
  | (Err e, s') => exists d', h_read_hex_bytes (h, d) = (Err EMsg, (h, d')) /\ hd_data d' = hd_data d /\ plain_dst h d' = s'
  | _ => False
  end.
Proof. exact h_hex_agrees. Qed.
Print Assumptions C50_hex_bytes.
(** Decoding into a []byte variable shares the input too ... *)
Theorem C50_bytes_variable : forall h d l, hready h d -> 0 < l <= 0x7FFFFFFF -> l <= s_len (hd_data d) - hd_pos d ->
  exists s, h_read_array_of_bytes l DBytes (h, d) = (Ok s, (h, advanced d l)) /\ part (hd_data d) s (hd_pos d) l.
Proof. exact h_bytes_slice. Qed.
Print Assumptions C50_bytes_variable.
(** ... into an array, a slice of another byte type, or with Read it does not. *)
Theorem C50_array_variable : forall h d a, hready h d -> valid h a -> s_arr a <> s_arr (hd_data d) ->
  0 < s_len a <= 0x7FFFFFFF -> s_len a <= s_len (hd_data d) - hd_pos d ->
  exists h', h_read_array_of_bytes (s_len a) (DArray a) (h, d) = (Ok a, (h', advanced d (s_len a))) /\
    view h' a = window (plain_dst h d) (s_len a) /\ (forall t, s_arr t <> s_arr a -> view h' t = view h t).
Proof. exact h_bytes_array. Qed.
Print Assumptions C50_array_variable.
Theorem C50_custom_variable : forall h d l, hready h d -> 0 < l <= 0x7FFFFFFF -> l <= s_len (hd_data d) - hd_pos d ->
  exists s h', h_read_array_of_bytes l DCustom (h, d) = (Ok s, (h', advanced d l)) /\
    s_arr s <> s_arr (hd_data d) /\ view h' s = window (plain_dst h d) l /\ exists x, h' = h ++ [x].
Proof. exact h_bytes_custom. Qed.
Print Assumptions C50_custom_variable.
Theorem C50_read : forall h d buf, hready h d -> valid h buf -> s_arr buf <> s_arr (hd_data d) ->
  s_len buf <= s_len (hd_data d) - hd_pos d ->
  exists h', h_read buf (h, d) = (Ok (s_len buf), (h', advanced d (s_len buf))) /\
    view h' buf = window (plain_dst h d) (s_len buf) /\
    (forall t, s_arr t <> s_arr buf -> view h' t = view h t).
Proof. exact h_read_ok. Qed.
Print Assumptions C50_read.
(** Decoding does not write to memory that was there before (except where Read
    and arrays are filled). *)
Theorem C50_read_n_bytes_keeps : forall n h d, exists x, fst (snd (h_read_n_bytes n (h, d))) = h ++ x.
Proof. exact h_read_n_keeps. Qed.
Print Assumptions C50_read_n_bytes_keeps.
Theorem C50_peek_keeps : forall n h d, snd (h_peek n (h, d)) = (h, d).
Proof. exact h_peek_keeps. Qed.
Print Assumptions C50_peek_keeps.
Theorem C50_read_byte_slice_keeps : forall h d, fst (snd (h_read_byte_slice (h, d))) = h.
Proof. exact h_slice_keeps. Qed.
Print Assumptions C50_read_byte_slice_keeps.

(** The input 1..6 in the middle of a larger array; the third byte is changed
    later, and then 9 is appended to the two bytes read first. *)
Definition c50_heap : heap := [[0]; [7; 1; 2; 3; 4; 5; 6; 8]].
Definition c50_dec : hdst := mkHD (mkS 1 1 6 7) 1 None Bin.
Example C50_sample :
  match h_read_n_bytes 2 (c50_heap, c50_dec) with
  | (Ok s, (h, d)) =>
      view h s = [2; 3] /\
      match store h (hd_data d) 2 42 with
      | Ok h1 =>
          view h1 s = [2; 42] /\
          let '(h2, s2) := append (fun _ _ => 3%nat) h1 s [9] in
          view h2 s2 = [2; 42; 9] /\ view h2 (hd_data d) = [1; 2; 42; 9; 5; 6] /\
          fst (read_byte (plain_dst h2 d)) = Ok 9
      | _ => False
      end
  | _ => False
  end /\
  fst (h_read (mkS 0 0 1 1) (c50_heap, c50_dec)) = Ok 1.
Proof. vm_compute. repeat split. Qed.
Example C50_sample_bounds :
  match h_read_n_bytes 2 (c50_heap, c50_dec) with
  | (Ok s, (h, _)) => store h s 2 9 = Panic /\ match reslice s 0 5 with Ok s' => view h s' = [2; 3; 4; 5; 6] | _ => False end
  | _ => False
  end.
Proof. vm_compute. repeat split. Qed.
(** So the slices are not safe to keep: appending to one changes what is decoded
    next. *)
Theorem C50_independent_refuted : forall grow, exists h d s h' s', hready h d /\ h_read_n_bytes 2 (h, d) = (Ok s, (h, advanced d 2)) /\
  append grow h s [9] = (h', s') /\
  fst (read_byte (plain_dst h' (advanced d 2))) <> fst (read_byte (plain_dst h (advanced d 2))).
Proof.
  intro grow. exists c50_heap, c50_dec. eexists. eexists. eexists. split; [repeat split; cbn; lia|]. split; [reflexivity|].
  split; [reflexivity|]. vm_compute. discriminate.
Qed.
Print Assumptions C50_independent_refuted.

(** ** C55 *)

(** Bytes of a WriteByWrite shows the slices as they are when it is called: what
    was written, if the writer has not changed them.  The result shares memory
    with none of them, whatever append does for spare capacity, and nothing that
    was there before is changed. *)
Theorem C55_bytes : forall grow h rec, Forall (valid h) rec ->
  let '(h', out) := h_wbw_bytes grow h rec in
  view h' out = List.concat (map (view h) rec) /\ valid h' out /\ (length h <= s_arr out)%nat /\
  forall t, valid h t -> valid h' t /\ view h' t = view h t.
Proof. exact wbw_views. Qed.
Print Assumptions C55_bytes.
Theorem C55_unchanged : forall grow grow' h h' rec, Forall (valid h) rec -> Forall (valid h') rec ->
  Forall (fun s => view h' s = view h s) rec ->
  let '(h1, b1) := h_wbw_bytes grow h rec in let '(h2, b2) := h_wbw_bytes grow' h' rec in view h1 b1 = view h2 b2.
Proof.
  intros grow grow' h h' rec H1 H2 H3. pose proof (wbw_views grow h rec H1) as W1. pose proof (wbw_views grow' h' rec H2) as W2.
  destruct (h_wbw_bytes grow h rec), (h_wbw_bytes grow' h' rec). destruct W1 as [-> _], W2 as [-> _].
  f_equal. apply map_ext_in. intros s Hs. rewrite Forall_forall in H3. symmetry. now apply H3.
Qed.
Print Assumptions C55_unchanged.
Definition shown (p : heap * gslice) : list Z := view (fst p) (snd p).
Example C55_sample :
  map (fun g => shown (h_wbw_bytes g c50_heap (h_wbw_write (h_wbw_write [] (mkS 1 1 2 7)) (mkS 0 0 1 1)))) [fun _ _ => O; fun c n => Z.to_nat (2 * n)]
  = [[1; 2; 0]; [1; 2; 0]].
Proof. reflexivity. Qed.
(** A buffer that is used again changes what has been recorded. *)
Theorem C55_reused_buffer_refuted : forall grow, exists h s h',
  shown (h_wbw_bytes grow h (h_wbw_write [] s)) = [1; 2] /\ store h s 0 5 = Ok h' /\
  shown (h_wbw_bytes grow h' (h_wbw_write (h_wbw_write [] s) s)) = [5; 2; 5; 2].
Proof.
  intro grow. exists [[1; 2]], (mkS 0 0 2 2), [[5; 2]].
  assert (Hv : forall a b, valid [[a; b]] (mkS 0 0 2 2)) by (intros; unfold valid; cbn; lia).
  pose proof (wbw_views grow [[1; 2]] [mkS 0 0 2 2] (Forall_cons _ (Hv 1 2) (Forall_nil _))) as H1.
  pose proof (wbw_views grow [[5; 2]] [mkS 0 0 2 2; mkS 0 0 2 2] (Forall_cons _ (Hv 5 2) (Forall_cons _ (Hv 5 2) (Forall_nil _)))) as H2.
  unfold shown, h_wbw_write. cbn [app]. destruct (h_wbw_bytes grow [[1; 2]] _) as [h1 b1], (h_wbw_bytes grow [[5; 2]] _) as [h2 b2].
  cbn [fst snd]. destruct H1 as [-> _], H2 as [-> _]. repeat split.
Qed.
Print Assumptions C55_reused_buffer_refuted.

(** ** C85 *)

(** EncodeCompactU16Length leaves in *buf what was there followed by the bytes of
    the number, and changes no bytes outside of the room between the length and
    the capacity of the slice it was given. *)
Theorem C85_appends : forall grow h buf ln h' b' e, valid h buf -> 0 <= ln <= 65535 ->
  h_encode_compact_u16 grow h buf ln = (h', b', e) ->
  e = None /\ valid h' b' /\ view h' b' = view h buf ++ leb128 ln /\
  forall t, valid h t -> valid h' t /\ (clear_of buf t -> view h' t = view h t).
Proof.
  intros grow h buf ln h' b' e Hv Hn H. unfold h_encode_compact_u16 in H. replace ((ln <? 0) || (65535 <? ln)) with false in H by lia.
  destruct (h_cu16_loop grow 3 h buf ln) as [h1 b1] eqn:E. destruct (cu16_loop_spec grow 3 h buf ln h1 b1 Hv E) as (A1 & A2 & A3 & A4).
  assert (h' = h1) as -> by congruence. assert (b' = b1) as -> by congruence. split; [congruence|]. split; [exact A1|]. split; [|auto].
  rewrite A2. pose proof (encode_cu16_leb [] ln Hn) as L. unfold encode_compact_u16 in L.
  replace ((ln <? 0) || (65535 <? ln)) with false in L by lia. cbn [app] in L. congruence.
Qed.
Print Assumptions C85_appends.
(** Numbers out of range change nothing. *)
Theorem C85_refused : forall grow h buf ln, ~ 0 <= ln <= 65535 -> h_encode_compact_u16 grow h buf ln = (h, buf, Some EMsg).
Proof. intros grow h buf ln H. unfold h_encode_compact_u16. now replace ((ln <? 0) || (65535 <? ln)) with true by lia. Qed.
Print Assumptions C85_refused.
(** If there is room, it is done in place: the array is the same, and slices that
    reach into the room see the bytes. *)
Theorem C85_in_place : forall grow h buf ln, valid h buf -> 0 <= ln <= 65535 -> s_len buf + zlen (leb128 ln) <= s_cap buf ->
  h_encode_compact_u16 grow h buf ln =
  (write_array h (s_arr buf) (s_off buf + s_len buf) (leb128 ln),
   mkS (s_arr buf) (s_off buf) (s_len buf + zlen (leb128 ln)) (s_cap buf), None).
Proof.
  intros grow h buf ln Hv Hn Hb. unfold h_encode_compact_u16. replace ((ln <? 0) || (65535 <? ln)) with false by lia.
  pose proof (encode_cu16_leb [] ln Hn) as L. unfold encode_compact_u16 in L.
  replace ((ln <? 0) || (65535 <? ln)) with false in L by lia. cbn [app] in L. assert (L' : cu16_loop 3 ln = leb128 ln) by congruence.
  rewrite <- L' in *. now rewrite cu16_in_place.
Qed.
Print Assumptions C85_in_place.
(** So two numbers appended to the same prefix are not independent. *)
Theorem C85_independent_refuted : forall grow, exists h buf h1 b1 h2 b2, valid h buf /\
  h_encode_compact_u16 grow h buf 5 = (h1, b1, None) /\ h_encode_compact_u16 grow h1 buf 300 = (h2, b2, None) /\
  view h1 b1 = [1; 5] /\ view h2 b2 = [1; 172; 2] /\ view h2 b1 = [1; 172].
Proof.
  intro grow. exists [[1; 0; 0; 0]], (mkS 0 0 1 4). do 4 eexists. split; [unfold valid; cbn; lia|]. repeat split.
Qed.
Print Assumptions C85_independent_refuted.
(** Half of it in the spare room: the first byte of 300 is written behind the
    slice although the second needs a new array. *)
Example C85_half : exists h' b', h_encode_compact_u16 (fun _ n => Z.to_nat n) [[1; 9]] (mkS 0 0 1 2) 300 = (h', b', None) /\
  h' = [[1; 172]; [1; 172; 2; 0; 0; 0]] /\ b' = mkS 1 0 3 6 /\ view h' b' = [1; 172; 2].
Proof. eexists _, _. repeat split. Qed.
Example C85_clear : let buf := mkS 0 1 1 2 in clear_of buf (mkS 0 0 2 4) /\ clear_of buf (mkS 0 3 1 1) /\ ~ clear_of buf (mkS 0 2 1 2).
Proof. unfold clear_of. cbn. lia. Qed.
