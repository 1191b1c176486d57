(** Facts about byte slices with sharing (C50, C55). *)
From Verif Require Import Types Num DecPrim Builtin NumFacts DecWithin DecSafe DecProps Compact Alias.
Notation length := Datatypes.length.

(** * Lists *)

Lemma nth_set_same {A} (l : list A) : forall n x d, (n < length l)%nat -> nth n (set_nth l n x) d = x.
Proof. induction l as [|y l IH]; intros [|n] x d H; cbn in *; try lia; [reflexivity|]. apply IH. lia. Qed.
Lemma nth_set_other {A} (l : list A) : forall n m x d, n <> m -> nth m (set_nth l n x) d = nth m l d.
Proof. induction l as [|y l IH]; intros [|n] [|m] x d H; cbn; try reflexivity; try easy. apply IH. congruence. Qed.
Lemma set_nth_length {A} (l : list A) : forall n x, length (set_nth l n x) = length l.
Proof. induction l as [|y l IH]; intros [|n] x; cbn; congruence. Qed.
Lemma overwrite_length l i bs : 0 <= i -> i + zlen bs <= zlen l -> length (overwrite l i bs) = length l.
Proof.
  unfold zlen, overwrite. intros H1 H2. rewrite !app_length, firstn_length, skipn_length. lia.
Qed.
Lemma nth_overwrite_in l i bs k d : 0 <= i -> i + zlen bs <= zlen l -> (k < length bs)%nat ->
  nth (Z.to_nat i + k) (overwrite l i bs) d = nth k bs d.
Proof.
  unfold zlen, overwrite. intros H1 H2 H3. rewrite app_nth2; rewrite firstn_length; [|lia].
  replace (Z.to_nat i + k - Nat.min (Z.to_nat i) (length l))%nat with k by lia. now apply app_nth1.
Qed.
Lemma nth_skipn {A} n (l : list A) k d : nth k (skipn n l) d = nth (n + k) l d.
Proof. revert l. induction n as [|n IH]; intros [|x l]; cbn; try reflexivity; [now destruct k|]. apply IH. Qed.
Lemma nth_firstn {A} n (l : list A) k d : (k < n)%nat -> nth k (firstn n l) d = nth k l d.
Proof. revert l k. induction n as [|n IH]; intros [|x l] [|k] H; cbn; try reflexivity; try lia. apply IH. lia. Qed.
Lemma nth_overwrite_out l i bs k d : 0 <= i -> i + zlen bs <= zlen l ->
  (k < Z.to_nat i \/ Z.to_nat i + length bs <= k)%nat -> nth k (overwrite l i bs) d = nth k l d.
Proof.
  unfold zlen, overwrite. intros H1 H2 [H|H].
  - rewrite app_nth1 by (rewrite firstn_length; lia). now apply nth_firstn.
  - rewrite app_nth2; rewrite firstn_length; [|lia]. rewrite app_nth2 by lia.
    rewrite nth_skipn. f_equal. lia.
Qed.

(** * Views *)

Lemma view_length h s : valid h s -> zlen (view h s) = s_len s.
Proof.
  intros (H1 & H2 & H3 & H4). unfold view, zlen in *. rewrite firstn_length, skipn_length. lia.
Qed.
Lemma nth_view h s k d : (k < Z.to_nat (s_len s))%nat -> nth k (view h s) d = nth (Z.to_nat (s_off s) + k) (array_of h s) d.
Proof. intro H. unfold view. rewrite nth_firstn by exact H. apply nth_skipn. Qed.
Lemma view_app h x s : (s_arr s < length h)%nat -> view (h ++ x) s = view h s.
Proof. intro H. unfold view, array_of. now rewrite app_nth1. Qed.
Lemma valid_app h x s : valid h s -> valid (h ++ x) s.
Proof.
  intros (H1 & H2). unfold valid, array_of in *. rewrite app_length, app_nth1 by exact H1. split; [lia|exact H2].
Qed.

(** [s] is the part [i : i+n] of the slice [d]. *)
Definition part (d s : gslice) (i n : Z) : Prop :=
  s = mkS (s_arr d) (s_off d + i) n (s_cap d - i) /\ 0 <= i /\ 0 <= n /\ i + n <= s_len d.
Lemma skipn_skipn_add {A} a b (l : list A) : skipn a (skipn b l) = skipn (b + a) l.
Proof. revert l. induction b as [|b IH]; intros [|x l]; cbn; try reflexivity; [now destruct a|apply IH]. Qed.
Lemma part_view d s i n h : 0 <= s_off d -> part d s i n ->
  view h s = firstn (Z.to_nat n) (skipn (Z.to_nat i) (view h d)).
Proof.
  intros Ho (-> & H1 & H2 & H3). unfold view, array_of. cbn [s_arr s_off s_len].
  rewrite skipn_firstn_comm, skipn_skipn_add, firstn_firstn. f_equal; [lia|]. f_equal. lia.
Qed.
Lemma part_valid d s i n h : valid h d -> part d s i n -> valid h s.
Proof.
  intros (H1 & H2 & H3 & H4) (-> & K1 & K2 & K3). unfold valid, array_of in *. cbn [s_arr s_off s_len s_cap]. lia.
Qed.

(** A store into the input is seen through the part, and the other way round. *)
Lemma store_view h s i b : valid h s -> 0 <= i < s_len s ->
  exists h', store h s i b = Ok h' /\ length h' = length h /\
    (forall t, valid h t -> valid h' t) /\
    view h' s = overwrite (view h s) i [b].
Proof.
  intros Hv Hi. destruct (Hv) as (H1 & H2 & H3 & H4). unfold store.
  replace ((0 <=? i) && (i <? s_len s)) with true by lia. eexists. split; [reflexivity|].
  assert (L : length (overwrite (nth (s_arr s) h []) (s_off s + i) [b]) = length (nth (s_arr s) h [])).
  { apply overwrite_length; [lia|]. change (zlen [b]) with 1. unfold array_of in H4. lia. }
  split; [apply set_nth_length|]. split.
  - intros t (T1 & T2 & T3 & T4). unfold valid, array_of, write_array in *. rewrite set_nth_length.
    split; [exact T1|]. split; [exact T2|]. split; [exact T3|].
    destruct (Nat.eq_dec (s_arr s) (s_arr t)) as [E|E].
    + rewrite E in *. rewrite nth_set_same by exact T1. unfold zlen in *. now rewrite L.
    + now rewrite nth_set_other.
  - assert (Lv : length (view (write_array h (s_arr s) (s_off s + i) [b]) s) = length (view h s)).
    { unfold view, array_of, write_array. rewrite nth_set_same by exact H1.
      rewrite !firstn_length, !skipn_length. now rewrite L. }
    pose proof (view_length h s Hv) as Lz. unfold zlen in Lz.
    apply (nth_ext _ _ 0 0).
    + rewrite overwrite_length; [exact Lv|lia|]. change (zlen [b]) with 1. unfold zlen. lia.
    + intros k Hk. rewrite Lv in Hk. rewrite nth_view by lia. unfold array_of, write_array. rewrite nth_set_same by exact H1.
      unfold array_of, zlen in H4.
      destruct (Nat.eq_dec k (Z.to_nat i)) as [->|Hn].
      * replace (Z.to_nat (s_off s) + Z.to_nat i)%nat with (Z.to_nat (s_off s + i) + 0)%nat by lia.
        rewrite nth_overwrite_in; [|lia|change (zlen [b]) with 1; unfold zlen; lia|cbn; lia].
        replace (Z.to_nat i) with (Z.to_nat i + 0)%nat by lia.
        rewrite nth_overwrite_in; [reflexivity|lia|change (zlen [b]) with 1; unfold zlen; lia|cbn; lia].
      * rewrite nth_overwrite_out; [|lia|change (zlen [b]) with 1; unfold zlen; lia|cbn [length]; lia].
        rewrite nth_overwrite_out; [|lia|change (zlen [b]) with 1; unfold zlen; lia|cbn [length]; lia].
        now rewrite nth_view by lia.
Qed.
Lemma overwrite_nth l i bs : 0 <= i -> i + zlen bs <= zlen l -> forall k d,
  nth k (overwrite l i bs) d =
  if (Z.to_nat i <=? k)%nat && (k <? Z.to_nat i + length bs)%nat then nth (k - Z.to_nat i) bs d else nth k l d.
Proof.
  intros H1 H2 k d. destruct ((Z.to_nat i <=? k)%nat && (k <? Z.to_nat i + length bs)%nat) eqn:E.
  - apply andb_prop in E as [E1 E2]. apply Nat.leb_le in E1. apply Nat.ltb_lt in E2.
    replace k with (Z.to_nat i + (k - Z.to_nat i))%nat at 1 by lia. apply nth_overwrite_in; [exact H1|exact H2|lia].
  - apply nth_overwrite_out; [exact H1|exact H2|]. apply andb_false_iff in E as [E|E];
      [apply Nat.leb_gt in E|apply Nat.ltb_ge in E]; lia.
Qed.
(** Writing [bs] into the array of [s] from element [i] of [s] on, where [t] is
    a slice of the same array. *)
Lemma write_view h s i bs : valid h s -> 0 <= i -> i + zlen bs <= s_len s ->
  view (write_array h (s_arr s) (s_off s + i) bs) s = overwrite (view h s) i bs.
Proof.
  intros Hv Hi Hb. destruct (Hv) as (H1 & H2 & H3 & H4). pose proof (zlen_nonneg bs).
  pose proof (view_length h s Hv) as Lz. unfold array_of in H4.
  assert (L : length (overwrite (nth (s_arr s) h []) (s_off s + i) bs) = length (nth (s_arr s) h [])).
  { apply overwrite_length; [lia|]. lia. }
  assert (Lv : length (view (write_array h (s_arr s) (s_off s + i) bs) s) = length (view h s)).
  { unfold view, array_of, write_array. rewrite nth_set_same by exact H1.
    rewrite !firstn_length, !skipn_length. now rewrite L. }
  unfold zlen in Lz. apply (nth_ext _ _ 0 0).
  - rewrite overwrite_length; [exact Lv|lia|]. unfold zlen in *. lia.
  - intros k Hk. rewrite Lv in Hk. rewrite nth_view by lia. unfold array_of, write_array. rewrite nth_set_same by exact H1.
    rewrite !overwrite_nth; [|unfold zlen in *; lia..].
    replace (Z.to_nat (s_off s + i) <=? Z.to_nat (s_off s) + k)%nat with (Z.to_nat i <=? k)%nat.
    2:{ destruct (Z.to_nat i <=? k)%nat eqn:E; symmetry; [apply Nat.leb_le|apply Nat.leb_gt];
          [apply Nat.leb_le in E|apply Nat.leb_gt in E]; lia. }
    replace (Z.to_nat (s_off s) + k <? Z.to_nat (s_off s + i) + length bs)%nat with (k <? Z.to_nat i + length bs)%nat.
    2:{ destruct (k <? Z.to_nat i + length bs)%nat eqn:E; symmetry; [apply Nat.ltb_lt|apply Nat.ltb_ge];
          [apply Nat.ltb_lt in E|apply Nat.ltb_ge in E]; lia. }
    replace (Z.to_nat (s_off s) + k - Z.to_nat (s_off s + i))%nat with (k - Z.to_nat i)%nat by lia.
    now rewrite nth_view by lia.
Qed.
Lemma write_other h a i bs t : s_arr t <> a -> view (write_array h a i bs) t = view h t.
Proof. intro H. unfold view, array_of, write_array. now rewrite nth_set_other by congruence. Qed.

(** Through a part: writes to the whole, and to the part. *)
Lemma part_store d s i n h j b : valid h d -> part d s i n -> 0 <= j < n ->
  exists h', store h d (i + j) b = Ok h' /\ store h s j b = Ok h' /\
    view h' s = overwrite (view h s) j [b] /\ view h' d = overwrite (view h d) (i + j) [b].
Proof.
  intros Hv Hp Hj. pose proof (part_valid d s i n h Hv Hp) as Hs.
  destruct Hp as (E & H1 & H2 & H3). assert (s_len s = n) as Ln by now rewrite E.
  destruct (store_view h s j b Hs) as (h' & E1 & _ & _ & E2); [lia|]. exists h'.
  assert (E3 : store h d (i + j) b = Ok h').
  { rewrite <- E1. unfold store. rewrite Ln. replace ((0 <=? j) && (j <? n)) with true by lia.
    replace ((0 <=? i + j) && (i + j <? s_len d)) with true by lia. rewrite E. cbn [s_arr s_off].
    do 2 f_equal. lia. }
  split; [exact E3|]. split; [exact E1|]. split; [exact E2|].
  destruct (store_view h d (i + j) b Hv) as (h2 & E4 & _ & _ & E5); [lia|]. congruence.
Qed.
(** Append to a part that ends before the end of the whole. *)
Lemma part_append grow d s i n h bs : valid h d -> part d s i n -> i + n + zlen bs <= s_len d ->
  exists h' s', append grow h s bs = (h', s') /\ view h' d = overwrite (view h d) (i + n) bs.
Proof.
  intros Hv (-> & H1 & H2 & H3) Hb. destruct (Hv) as (V1 & V2 & V3 & V4). unfold append. cbn [s_arr s_off s_len s_cap].
  replace (n + zlen bs <=? s_cap d - i) with true by lia. eexists. eexists. split; [reflexivity|].
  replace (s_off d + i + n) with (s_off d + (i + n)) by lia. apply write_view; [exact Hv|lia|lia].
Qed.

(** * The methods *)

Definition hready (h : heap) (d : hdst) : Prop := valid h (hd_data d) /\ 0 <= hd_pos d <= s_len (hd_data d).
Definition advanced (d : hdst) (n : Z) : hdst := mkHD (hd_data d) (hd_pos d + n) (hd_cur d) (hd_enc d).
Lemma ready_inside h d : hready h d -> inside (plain_dst h d) /\ remaining_of (plain_dst h d) = s_len (hd_data d) - hd_pos d.
Proof.
  intros (H1 & H2). (unfold inside, plain_dst; open_rem). cbn [d_data d_pos]. rewrite view_length by exact H1. lia.
Qed.
Lemma reslice_part d i n : 0 <= i -> 0 <= n -> i + n <= s_len d -> s_len d <= s_cap d ->
  exists s, reslice d i (i + n) = Ok s /\ part d s i n.
Proof.
  intros H1 H2 H3 H4. unfold reslice. replace ((0 <=? i) && (i <=? i + n) && (i + n <=? s_cap d)) with true by lia.
  eexists. split; [reflexivity|]. unfold part. replace (i + n - i) with n by lia. auto.
Qed.
Lemma part_window h d s n : hready h d -> part (hd_data d) s (hd_pos d) n -> view h s = window (plain_dst h d) n.
Proof. intros ((_ & H & _) & _) Hp. now apply part_view. Qed.

Lemma h_read_n_ok h d n : hready h d -> 0 < n <= 0x7FFFFFFF -> n <= s_len (hd_data d) - hd_pos d ->
  exists s, h_read_n_bytes n (h, d) = (Ok s, (h, advanced d n)) /\
    part (hd_data d) s (hd_pos d) n /\
    read_n_bytes n (plain_dst h d) = (Ok (view h s), plain_dst h (advanced d n)).
Proof.
  intros Hr Hn Hl. destruct (Hr) as ((V1 & V2 & V3 & V4) & Hp).
  destruct (reslice_part (hd_data d) (hd_pos d) n) as (s & Es & Hs); [lia..|]. exists s. split; [|split; [exact Hs|]].
  - unfold h_read_n_bytes. replace (n =? 0) with false by lia. replace ((n <? 0) || (0x7FFFFFFF <? n)) with false by lia.
    unfold bind, h_dec. cbn [snd]. replace (s_len (hd_data d) <? hd_pos d + n) with false by lia.
    unfold h_lift. rewrite Es. reflexivity.
  - destruct (ready_inside h d Hr) as [Hi Hrem]. rewrite read_n_ok; [|exact Hi|lia|lia].
    now rewrite (part_window h d s n Hr Hs).
Qed.
Lemma h_read_n_err h d n : hready h d -> n < 0 \/ 0x7FFFFFFF < n \/ s_len (hd_data d) - hd_pos d < n ->
  h_read_n_bytes n (h, d) = (Err EMsg, (h, d)) /\ read_n_bytes n (plain_dst h d) = (Err EMsg, plain_dst h d).
Proof.
  intros Hr Hn. destruct (Hr) as (Hv & Hp). destruct (ready_inside h d Hr) as [Hi Hrem]. split.
  - unfold h_read_n_bytes. replace (n =? 0) with false by lia. destruct ((n <? 0) || (0x7FFFFFFF <? n)) eqn:E; [reflexivity|].
    unfold bind, h_dec. cbn [snd]. now replace (s_len (hd_data d) <? hd_pos d + n) with true by lia.
  - apply read_n_short; [lia|exact Hi].
Qed.
Lemma h_read_0 h d : h_read_n_bytes 0 (h, d) = (Ok (mkS (length h) 0 0 0), (h ++ [[]], d)).
Proof. reflexivity. Qed.
Lemma h_peek_ok h d n : hready h d -> 0 <= n <= s_len (hd_data d) - hd_pos d ->
  exists s, h_peek n (h, d) = (Ok s, (h, d)) /\
    part (hd_data d) s (hd_pos d) n /\
    d_peek n (plain_dst h d) = (Ok (view h s), plain_dst h d).
Proof.
  intros Hr Hn. destruct (Hr) as ((V1 & V2 & V3 & V4) & Hp).
  destruct (reslice_part (hd_data d) (hd_pos d) n) as (s & Es & Hs); [lia..|]. exists s. split; [|split; [exact Hs|]].
  - unfold h_peek. replace (n <? 0) with false by lia. unfold bind, h_dec. cbn [snd].
    replace (s_len (hd_data d) - hd_pos d <? n) with false by lia. unfold h_lift. now rewrite Es.
  - destruct (ready_inside h d Hr) as [Hi Hrem]. rewrite peek_ok; [|exact Hi|lia].
    now rewrite (part_window h d s n Hr Hs).
Qed.
Lemma h_peek_err h d n : hready h d -> n < 0 \/ s_len (hd_data d) - hd_pos d < n ->
  h_peek n (h, d) = (Err EMsg, (h, d)) /\ d_peek n (plain_dst h d) = (Err EMsg, plain_dst h d).
Proof.
  intros Hr Hn. destruct (ready_inside h d Hr) as [Hi Hrem]. split; [|apply peek_short; lia].
  unfold h_peek. destruct (n <? 0) eqn:E; [reflexivity|]. unfold bind, h_dec. cbn [snd].
  now replace (s_len (hd_data d) - hd_pos d <? n) with true by lia.
Qed.

(** ReadByteSlice. *)
Lemma h_slice_agrees h d : hready h d -> bytes_ok (view h (hd_data d)) ->
  match read_byte_slice (plain_dst h d) with
  | (Ok bs, s') => exists s d', h_read_byte_slice (h, d) = (Ok s, (h, d')) /\ hd_data d' = hd_data d /\
      plain_dst h d' = s' /\ part (hd_data d) s (hd_pos d' - zlen bs) (zlen bs) /\ view h s = bs
  | (Err e, s') => exists d', h_read_byte_slice (h, d) = (Err e, (h, d')) /\ hd_data d' = hd_data d /\ plain_dst h d' = s'
  | _ => False
  end.
Proof.
  intros Hr Hb. destruct (Hr) as ((V1 & V2 & V3 & V4) & Hp). destruct (ready_inside h d Hr) as [Hi Hrem].
  unfold read_byte_slice. unfold bind at 1.
  pose proof (within_read_length (plain_dst h d) Hi) as W. destruct W as (W1 & W2 & W3 & W4).
  assert (C : calm false (plain_dst h d)) by (split; [exact Hi|now split]).
  destruct (safe_length false false (plain_dst h d) C) as [_ R].
  destruct (read_length (plain_dst h d)) as [[ln|e| | |] s1] eqn:E; cbn [snd fst] in *; try contradiction; try discriminate.
  2:{ eexists. unfold h_read_byte_slice, bind, h_number. rewrite E. split; [reflexivity|]. split; [reflexivity|]. unfold plain_dst. cbn [hd_data hd_pos hd_cur hd_enc].
      destruct s1 as [da po cu en]. cbn in *. now rewrite W1. }
  set (d1 := mkHD (hd_data d) (d_pos s1) (d_cur s1) (d_enc s1)).
  assert (P1 : plain_dst h d1 = s1) by (unfold plain_dst, d1; destruct s1 as [da po cu en]; cbn in *; now rewrite W1).
  assert (L1 : zlen (d_data s1) = s_len (hd_data d)) by (rewrite W1; now apply view_length).
  unfold inside in W4. rewrite L1 in W4.
  assert (Hn : h_number read_length (h, d) = (Ok ln, (h, d1))) by (unfold h_number; now rewrite E).
  unfold h_read_byte_slice. unfold bind at 1, d_get; cbv beta iota. rewrite L1.
  destruct (s_len (hd_data d) <? d_pos s1 + ln) eqn:El.
  { exists d1. split; [|now split]. unfold bind. rewrite Hn. unfold h_dec. cbn [snd hd_data hd_pos d1]. now rewrite El. }
  assert (Hr1 : hready h d1) by (split; [now split|]; cbn [hd_data hd_pos d1]; lia).
  destruct (reslice_part (hd_data d) (d_pos s1) ln) as (s & Es & Hs); [lia..|].
  destruct (ready_inside h d1 Hr1) as [Hi1 Hrem1]. replace (d_take ln s1) with (d_take ln (plain_dst h d1)) by now rewrite P1.
  rewrite d_take_window; [|exact Hi1|cbn [hd_data hd_pos d1] in Hrem1; lia].
  assert (Vw : view h s = window (plain_dst h d1) ln) by (apply (part_window h d1 s ln Hr1); exact Hs).
  exists s, (advanced d1 ln). split; [|split; [reflexivity|split; [reflexivity|]]].
  - unfold bind. rewrite Hn. unfold h_dec. cbn [snd hd_data hd_pos d1]. rewrite El. unfold h_lift. rewrite Es. reflexivity.
  - rewrite <- Vw. rewrite view_length by (eapply part_valid; [exact (proj1 Hr)|exact Hs]).
    replace (s_len s) with ln by (destruct Hs as (-> & _); reflexivity).
    cbn [advanced hd_pos d1]. replace (d_pos s1 + ln - ln) with (d_pos s1) by lia. now split.
Qed.

(** Read fills the slice of the caller, in another array. *)
Lemma copy_all h dst src : valid h dst -> valid h src -> s_len dst <= s_len src ->
  exists h', copy h dst src = (s_len dst, h') /\
    view h' dst = firstn (Z.to_nat (s_len dst)) (view h src) /\
    (forall t, s_arr t <> s_arr dst -> view h' t = view h t).
Proof.
  intros Hd Hs Hl. unfold copy. rewrite Z.min_l by exact Hl. eexists. split; [reflexivity|].
  destruct (Hd) as (D1 & D2 & D3 & D4). pose proof (view_length h src Hs) as Ls. pose proof (view_length h dst Hd) as Ld.
  assert (Lf : length (firstn (Z.to_nat (s_len dst)) (view h src)) = Z.to_nat (s_len dst)).
  { unfold zlen in *. rewrite firstn_length. lia. }
  split.
  - replace (s_off dst) with (s_off dst + 0) by lia. rewrite write_view; [|exact Hd|lia|unfold zlen; lia].
    unfold overwrite. cbn [Z.to_nat firstn app]. rewrite skipn_all2; [apply app_nil_r|]. unfold zlen in *. lia.
  - intros t Ht. now apply write_other.
Qed.
Lemma h_read_ok h d buf : hready h d -> valid h buf -> s_arr buf <> s_arr (hd_data d) ->
  s_len buf <= s_len (hd_data d) - hd_pos d ->
  exists h', h_read buf (h, d) = (Ok (s_len buf), (h', advanced d (s_len buf))) /\
    view h' buf = window (plain_dst h d) (s_len buf) /\
    (forall t, s_arr t <> s_arr buf -> view h' t = view h t).
Proof.
  intros Hr Hb Ha Hl. destruct (Hr) as ((V1 & V2 & V3 & V4) & Hp). destruct (Hb) as (B1 & B2 & B3 & B4).
  destruct (reslice_part (hd_data d) (hd_pos d) (s_len (hd_data d) - hd_pos d)) as (s & Es & Hs); [lia..|].
  replace (hd_pos d + (s_len (hd_data d) - hd_pos d)) with (s_len (hd_data d)) in Es by lia.
  assert (Ls : s_len s = s_len (hd_data d) - hd_pos d) by (destruct Hs as (-> & _); reflexivity).
  destruct (copy_all h buf s) as (h' & E1 & E2 & E3).
  - exact Hb.
  - eapply part_valid; [exact (proj1 Hr)|exact Hs].
  - lia.
  - exists h'. split; [|split; [|exact E3]].
    + unfold h_read, bind, h_heap, h_dec. cbn [fst snd]. replace (s_len (hd_data d) <? hd_pos d + s_len buf) with false by lia.
      unfold h_lift. rewrite Es, E1. cbn. now rewrite Z.eqb_refl.
    + rewrite E2, (part_view (hd_data d) s _ _ h V2 Hs). unfold window, plain_dst. cbn [d_data d_pos].
      rewrite firstn_firstn. f_equal. lia.
Qed.
Lemma h_read_err h d buf : hready h d -> s_len (hd_data d) - hd_pos d < s_len buf ->
  h_read buf (h, d) = (Err EShortBuffer, (h, d)).
Proof.
  intros Hr Hl. unfold h_read, bind, h_heap, h_dec. cbn [fst snd].
  now replace (s_len (hd_data d) <? hd_pos d + s_len buf) with true by lia.
Qed.

(** reflect_readArrayOfBytes. *)
Lemma h_bytes_slice h d l : hready h d -> 0 < l <= 0x7FFFFFFF -> l <= s_len (hd_data d) - hd_pos d ->
  exists s, h_read_array_of_bytes l DBytes (h, d) = (Ok s, (h, advanced d l)) /\ part (hd_data d) s (hd_pos d) l.
Proof.
  intros Hr Hl Hn. destruct (h_read_n_ok h d l Hr Hl Hn) as (s & E & Hs & _). exists s. split; [|exact Hs].
  unfold h_read_array_of_bytes, bind. rewrite E. reflexivity.
Qed.
Lemma h_bytes_custom h d l : hready h d -> 0 < l <= 0x7FFFFFFF -> l <= s_len (hd_data d) - hd_pos d ->
  exists s h', h_read_array_of_bytes l DCustom (h, d) = (Ok s, (h', advanced d l)) /\
    s_arr s <> s_arr (hd_data d) /\ view h' s = window (plain_dst h d) l /\ exists x, h' = h ++ [x].
Proof.
  intros Hr Hl Hn. destruct (h_read_n_ok h d l Hr Hl Hn) as (s & E & Hs & _). destruct (Hr) as ((V1 & V2 & V3 & V4) & Hp).
  exists (mkS (length h) 0 (zlen (view h s)) (zlen (view h s))), (h ++ [view h s]). split; [|split; [|split]].
  - unfold h_read_array_of_bytes, bind. rewrite E. reflexivity.
  - cbn [s_arr]. lia.
  - rewrite <- (part_window h d s l Hr Hs). unfold view at 1, array_of. cbn [s_arr s_off s_len].
    rewrite app_nth2, Nat.sub_diag by lia. cbn [nth]. unfold zlen. rewrite Nat2Z.id. apply firstn_all.
  - now eexists.
Qed.
Lemma h_bytes_array h d a : hready h d -> valid h a -> s_arr a <> s_arr (hd_data d) ->
  0 < s_len a <= 0x7FFFFFFF -> s_len a <= s_len (hd_data d) - hd_pos d ->
  exists h', h_read_array_of_bytes (s_len a) (DArray a) (h, d) = (Ok a, (h', advanced d (s_len a))) /\
    view h' a = window (plain_dst h d) (s_len a) /\ (forall t, s_arr t <> s_arr a -> view h' t = view h t).
Proof.
  intros Hr Ha Hne Hl Hn. destruct (h_read_n_ok h d (s_len a) Hr Hl Hn) as (s & E & Hs & _).
  assert (Ls : s_len s = s_len a) by (destruct Hs as (-> & _); reflexivity).
  destruct (copy_all h a s) as (h' & E1 & E2 & E3); [exact Ha|eapply part_valid; [exact (proj1 Hr)|exact Hs]|lia|].
  exists h'. split; [|split; [|exact E3]].
  - unfold h_read_array_of_bytes, bind. rewrite E. unfold h_heap. cbn [fst]. rewrite E1. reflexivity.
  - rewrite E2, (part_window h d s _ Hr Hs). apply firstn_all2. rewrite <- (part_window h d s _ Hr Hs).
    pose proof (view_length h s (part_valid _ _ _ _ h (proj1 Hr) Hs)) as L. unfold zlen in L. lia.
Qed.

(** No method writes to the input, whatever the outcome. *)
Lemma h_read_n_keeps n h d : exists x, fst (snd (h_read_n_bytes n (h, d))) = h ++ x.
Proof.
  unfold h_read_n_bytes. destruct (n =? 0); [now eexists|]. destruct ((n <? 0) || (0x7FFFFFFF <? n)).
  { exists []. cbn. now rewrite app_nil_r. }
  exists []. rewrite app_nil_r. unfold bind, h_dec. cbn [snd]. destruct (s_len (hd_data d) <? hd_pos d + n); [reflexivity|].
  unfold h_lift. now destruct (reslice (hd_data d) (hd_pos d) (hd_pos d + n)).
Qed.
Lemma h_peek_keeps n h d : snd (h_peek n (h, d)) = (h, d).
Proof.
  unfold h_peek. destruct (n <? 0); [reflexivity|]. unfold bind, h_dec. cbn [snd].
  destruct (s_len (hd_data d) - hd_pos d <? n); [reflexivity|]. reflexivity.
Qed.
(** HexBytes. *)
Lemma h_hex_agrees h d : hready h d -> bytes_ok (view h (hd_data d)) ->
  match read_byte_slice (plain_dst h d) with
  | (Ok bs, s') => exists s d', h_read_hex_bytes (h, d) = (Ok s, (h, d')) /\ hd_data d' = hd_data d /\
      plain_dst h d' = s' /\ part (hd_data d) s (hd_pos d' - zlen bs) (zlen bs) /\ view h s = bs
  | (Err e, s') => exists d', h_read_hex_bytes (h, d) = (Err EMsg, (h, d')) /\ hd_data d' = hd_data d /\ plain_dst h d' = s'
  | _ => False
  end.
Proof.
  intros H1 H2. pose proof (h_slice_agrees h d H1 H2) as H. unfold h_read_hex_bytes, map_err.
  destruct (read_byte_slice (plain_dst h d)) as [[bs|e| | |] s']; try easy.
  - destruct H as (s & d' & H & H3). exists s, d'. now rewrite H.
  - destruct H as (d' & H & H3). exists d'. now rewrite H.
Qed.
Lemma h_slice_keeps h d : fst (snd (h_read_byte_slice (h, d))) = h.
Proof.
  unfold h_read_byte_slice, bind, h_number. destruct (read_length (plain_dst h d)) as [[ln|e| | |] s1]; try reflexivity.
  unfold h_dec. cbn [snd hd_data hd_pos]. destruct (s_len (hd_data d) <? d_pos s1 + ln); [reflexivity|].
  unfold h_lift. now destruct (reslice (hd_data d) (d_pos s1) (d_pos s1 + ln)).
Qed.

(** * Appending *)

(** [t] does not touch the elements between the length and the capacity of [s]. *)
Definition clear_of (s t : gslice) : Prop :=
  s_arr t <> s_arr s \/ s_off t + s_len t <= s_off s + s_len s \/ s_off s + s_cap s <= s_off t.

Lemma view_ext h h' t : (forall k, (Z.to_nat (s_off t) <= k < Z.to_nat (s_off t) + Z.to_nat (s_len t))%nat -> nth k (array_of h' t) 0 = nth k (array_of h t) 0) ->
  length (array_of h' t) = length (array_of h t) -> view h' t = view h t.
Proof.
  intros H L. apply (nth_ext _ _ 0 0).
  - unfold view. rewrite !firstn_length, !skipn_length. now rewrite L.
  - intros k Hk. assert (Hk' : (k < Z.to_nat (s_len t))%nat) by (unfold view in Hk; rewrite firstn_length in Hk; lia).
    rewrite !nth_view by exact Hk'. apply H. lia.
Qed.
Lemma write_clear h s bs t : valid h s -> s_len s + zlen bs <= s_cap s -> valid h t -> clear_of s t ->
  view (write_array h (s_arr s) (s_off s + s_len s) bs) t = view h t.
Proof.
  intros (V1 & V2 & V3 & V4) Hb (T1 & T2 & T3 & T4) Hc. destruct (Nat.eq_dec (s_arr t) (s_arr s)) as [E|E]; [|now apply write_other].
  assert (L : length (overwrite (nth (s_arr s) h []) (s_off s + s_len s) bs) = length (nth (s_arr s) h [])).
  { apply overwrite_length; [lia|]. unfold array_of in V4. lia. }
  apply view_ext; unfold array_of, write_array; rewrite E, nth_set_same by exact V1; [|exact L].
  intros k Hk. apply nth_overwrite_out; [lia|unfold array_of in V4; lia|]. destruct Hc as [Hc|[Hc|Hc]]; [congruence|left; lia|right].
  unfold zlen in Hb. lia.
Qed.
Lemma write_valid h s bs t : valid h s -> s_len s + zlen bs <= s_cap s -> valid h t ->
  valid (write_array h (s_arr s) (s_off s + s_len s) bs) t.
Proof.
  intros (V1 & V2 & V3 & V4) Hb (T1 & T2 & T3 & T4). unfold valid, array_of, write_array in *. rewrite set_nth_length.
  destruct (Nat.eq_dec (s_arr t) (s_arr s)) as [E|E]; [|rewrite nth_set_other by congruence; auto].
  rewrite E in *. rewrite nth_set_same by exact V1. unfold zlen in *. rewrite overwrite_length; [auto|lia|unfold zlen; lia].
Qed.
Lemma view_written h s bs : valid h s -> s_len s + zlen bs <= s_cap s ->
  view (write_array h (s_arr s) (s_off s + s_len s) bs) (mkS (s_arr s) (s_off s) (s_len s + zlen bs) (s_cap s)) = view h s ++ bs.
Proof.
  intros Hv Hb. pose proof (zlen_nonneg bs). destruct (Hv) as (V1 & V2 & V3 & V4).
  set (s2 := mkS (s_arr s) (s_off s) (s_len s + zlen bs) (s_cap s)).
  assert (Hv2 : valid h s2) by (unfold valid, array_of in *; cbn [s2 s_arr s_off s_len s_cap]; lia).
  pose proof (write_view h s2 (s_len s) bs Hv2 ltac:(lia) ltac:(cbn [s2 s_len]; lia)) as H1. cbn [s2 s_arr s_off] in H1. fold s2 in H1. rewrite H1.
  unfold overwrite. pose proof (view_length h s2 Hv2) as L. cbn [s2 s_len] in L. fold s2 in L. unfold zlen in L.
  rewrite (skipn_all2 (view h s2)) by (unfold zlen in *; lia). rewrite app_nil_r. f_equal.
  unfold view, array_of. cbn [s2 s_arr s_off s_len]. rewrite firstn_firstn. f_equal. lia.
Qed.

(** What append does. *)
Lemma append_spec grow h s bs h' s' : valid h s -> append grow h s bs = (h', s') ->
  valid h' s' /\ view h' s' = view h s ++ bs /\ s_len s' = s_len s + zlen bs /\
  (forall t, valid h t -> valid h' t) /\ (forall t, valid h t -> clear_of s t -> view h' t = view h t) /\
  ((s_arr s' = s_arr s /\ s_off s' = s_off s /\ s_cap s' = s_cap s /\ length h' = length h) \/
   (s_arr s' = length h /\ length h' = S (length h) /\ forall t, valid h t -> view h' t = view h t)).
Proof.
  intros Hv H. pose proof (zlen_nonneg bs). unfold append in H. cbv zeta in H. destruct (s_len s + zlen bs <=? s_cap s) eqn:E.
  - assert (H1 : h' = write_array h (s_arr s) (s_off s + s_len s) bs) by congruence.
    assert (H2 : s' = mkS (s_arr s) (s_off s) (s_len s + zlen bs) (s_cap s)) by congruence. subst h' s'. clear H.
    assert (Hb : s_len s + zlen bs <= s_cap s) by lia. split.
    + pose proof (write_valid h s bs s Hv Hb Hv) as (W1 & W2 & W3 & W4). unfold valid, array_of in *. cbn [s_arr s_off s_len s_cap]. lia.
    + split; [now apply view_written|]. split; [reflexivity|]. split; [intros; now apply write_valid|]. split; [intros; now apply write_clear|].
      left. repeat split. apply set_nth_length.
  - set (k := grow (s_cap s) (s_len s + zlen bs)) in *. pose proof (view_length h s Hv) as L.
    assert (H1 : h' = h ++ [view h s ++ bs ++ repeat 0 k]) by congruence.
    assert (H2 : s' = mkS (length h) 0 (s_len s + zlen bs) (s_len s + zlen bs + Z.of_nat k)) by congruence. subst h' s'. clear H.
    assert (A : nth (length h) (h ++ [view h s ++ bs ++ repeat 0 k]) [] = view h s ++ bs ++ repeat 0 k).
    { rewrite app_nth2 by lia. now rewrite Nat.sub_diag. }
    destruct Hv as (V1 & V2 & V3 & V4). split; [|split; [|split; [|split; [|split]]]].
    + unfold valid, array_of. cbn [s_arr s_off s_len s_cap]. rewrite A, app_length, !zlen_app, L. cbn [length].
      assert (zlen (repeat 0 k) = Z.of_nat k) by (unfold zlen; now rewrite repeat_length). lia.
    + unfold view at 1, array_of. cbn [s_arr s_off s_len]. rewrite A. cbn [Z.to_nat skipn]. rewrite app_assoc, firstn_app.
      replace (Z.to_nat (s_len s + zlen bs) - length (view h s ++ bs))%nat with O by (rewrite app_length; unfold zlen in *; lia).
      cbn [firstn]. rewrite app_nil_r. apply firstn_all2. rewrite app_length. unfold zlen in *. lia.
    + reflexivity.
    + intros t Ht. now apply valid_app.
    + intros t (T1 & _) _. now apply view_app.
    + right. split; [reflexivity|]. split; [rewrite app_length; cbn; lia|]. intros t (T1 & _). now apply view_app.
Qed.

(** * WriteByWrite *)
Lemma wbw_loop grow h0 rec : forall h out, Forall (valid h0) rec -> valid h out -> (length h0 <= s_arr out)%nat ->
  (forall t, valid h0 t -> valid h t /\ view h t = view h0 t) ->
  let '(h', out') := fold_left (fun hs v => append grow (fst hs) (snd hs) (view (fst hs) v)) rec (h, out) in
  valid h' out' /\ view h' out' = view h out ++ List.concat (map (view h0) rec) /\ (length h0 <= s_arr out')%nat /\
  forall t, valid h0 t -> valid h' t /\ view h' t = view h0 t.
Proof.
  induction rec as [|v rec IH]; intros h out Hr Ho Ha Hk; cbn [fold_left map List.concat].
  - rewrite app_nil_r. auto.
  - inversion_clear Hr as [|? ? Hv Hr']. cbn [fst snd]. destruct (append grow h out (view h v)) as [h1 o1] eqn:E.
    destruct (append_spec grow h out (view h v) h1 o1 Ho E) as (A1 & A2 & _ & A3 & A4 & A5).
    specialize (IH h1 o1 Hr' A1). destruct (fold_left _ rec (h1, o1)) as [h' o'].
    assert (K : forall t, valid h0 t -> valid h1 t /\ view h1 t = view h0 t).
    { intros t Ht. destruct (Hk t Ht) as [K1 K2]. split; [now apply A3|]. rewrite A4; [exact K2|exact K1|]. left. destruct Ht. lia. }
    destruct IH as (I1 & I2 & I3 & I4); [|exact K|].
    + destruct A5 as [[-> _]|[-> _]]; [exact Ha|]. destruct Ho. lia.
    + split; [exact I1|]. split; [rewrite I2, A2, (proj2 (Hk v Hv)), app_assoc; reflexivity|]. auto.
Qed.
Lemma wbw_views grow h rec : Forall (valid h) rec ->
  let '(h', out) := h_wbw_bytes grow h rec in
  view h' out = List.concat (map (view h) rec) /\ valid h' out /\ (length h <= s_arr out)%nat /\
  forall t, valid h t -> valid h' t /\ view h' t = view h t.
Proof.
  intro Hr. unfold h_wbw_bytes, make_slice. change (zlen (@nil Z)) with 0.
  pose proof (wbw_loop grow h rec (h ++ [[]]) (mkS (length h) 0 0 0) Hr) as H.
  destruct (fold_left _ rec _) as [h' out]. destruct H as (H1 & H2 & H3 & H4).
  - unfold valid, array_of. cbn [s_arr s_off s_len s_cap]. rewrite app_length, app_nth2, Nat.sub_diag by lia. cbn. lia.
  - cbn [s_arr]. lia.
  - intros t Ht. split; [now apply valid_app|]. destruct Ht. now apply view_app.
  - split; [exact H2|]. auto.
Qed.

(** * EncodeCompactU16Length *)
Lemma clear_after (s s' t : gslice) : s_arr s' = s_arr s -> s_off s' = s_off s -> s_cap s' = s_cap s -> s_len s <= s_len s' -> clear_of s t -> clear_of s' t.
Proof. unfold clear_of. intros -> -> -> H. lia. Qed.
Lemma cu16_loop_spec grow fuel : forall h buf rem h' b', valid h buf -> h_cu16_loop grow fuel h buf rem = (h', b') ->
  valid h' b' /\ view h' b' = view h buf ++ cu16_loop fuel rem /\
  (forall t, valid h t -> valid h' t) /\ (forall t, valid h t -> clear_of buf t -> view h' t = view h t).
Proof.
  induction fuel as [|f IH]; intros h buf rem h' b' Hv H; cbn [h_cu16_loop cu16_loop] in *; cbv zeta in *.
  - assert (h' = h) as -> by congruence. assert (b' = buf) as -> by congruence. rewrite app_nil_r. auto.
  - destruct (Z.shiftr rem 7 =? 0).
    + destruct (append_spec grow h buf _ h' b' Hv H) as (A1 & A2 & _ & A3 & A4 & _). auto.
    + destruct (append grow h buf [Z.lor (Z.land rem 127) 128]) as [h1 b1] eqn:E.
      destruct (append_spec grow h buf _ h1 b1 Hv E) as (A1 & A2 & A0 & A3 & A4 & A5).
      destruct (IH h1 b1 _ h' b' A1 H) as (I1 & I2 & I3 & I4). split; [exact I1|]. split; [rewrite I2, A2, <- app_assoc; reflexivity|].
      split; [auto|]. intros t Ht Hc. rewrite I4; [now apply A4|now apply A3|].
      destruct A5 as [(B1 & B2 & B3 & _)|(B1 & _)].
      * apply (clear_after buf b1 t); auto. rewrite A0. change (zlen [Z.lor (Z.land rem 127) 128]) with 1. lia.
      * left. rewrite B1. destruct Ht. lia.
Qed.
(** In place if there is room. *)
Lemma overwrite_nil l i : overwrite l i [] = l.
Proof. unfold overwrite. cbn [app length]. rewrite Nat.add_0_r. apply firstn_skipn. Qed.
Lemma set_nth_id {A} (l : list A) : forall n d, set_nth l n (nth n l d) = l.
Proof. induction l as [|x l IH]; intros [|n] d; cbn; try reflexivity. now rewrite IH. Qed.
Lemma set_nth_twice {A} (l : list A) : forall n x y, set_nth (set_nth l n x) n y = set_nth l n y.
Proof. induction l as [|z l IH]; intros [|n] x y; cbn; try reflexivity. now rewrite IH. Qed.
Lemma overwrite_twice l i x bs : 0 <= i -> i + 1 + zlen bs <= zlen l -> overwrite (overwrite l i [x]) (i + 1) bs = overwrite l i (x :: bs).
Proof.
  intros Hi Hb. pose proof (zlen_nonneg bs). assert (zlen [x] = 1) by reflexivity. assert (zlen (x :: bs) = 1 + zlen bs) by (rewrite zlen_cons; lia).
  assert (L : length (overwrite l i [x]) = length l) by (apply overwrite_length; lia).
  assert (L1 : zlen (overwrite l i [x]) = zlen l) by (unfold zlen; now rewrite L).
  apply (nth_ext _ _ 0 0).
  - rewrite !overwrite_length; lia.
  - intros k _. rewrite !overwrite_nth by lia. cbn [length].
    destruct (Nat.lt_trichotomy k (Z.to_nat i)) as [Hk|[->|Hk]].
    + replace (Z.to_nat (i + 1) <=? k)%nat with false by (symmetry; apply Nat.leb_gt; lia).
      replace (Z.to_nat i <=? k)%nat with false by (symmetry; apply Nat.leb_gt; lia). reflexivity.
    + replace (Z.to_nat (i + 1) <=? Z.to_nat i)%nat with false by (symmetry; apply Nat.leb_gt; lia).
      rewrite Nat.leb_refl. replace (Z.to_nat i <? Z.to_nat i + 1)%nat with true by (symmetry; apply Nat.ltb_lt; lia).
      replace (Z.to_nat i <? Z.to_nat i + S (length bs))%nat with true by (symmetry; apply Nat.ltb_lt; lia).
      cbn [andb]. now rewrite Nat.sub_diag.
    + replace (Z.to_nat (i + 1) <=? k)%nat with true by (symmetry; apply Nat.leb_le; lia).
      replace (Z.to_nat i <=? k)%nat with true by (symmetry; apply Nat.leb_le; lia).
      replace (k <? Z.to_nat i + 1)%nat with false by (symmetry; apply Nat.ltb_ge; lia).
      replace (Z.to_nat (i + 1) + length bs)%nat with (Z.to_nat i + S (length bs))%nat by lia. cbn [andb].
      destruct (k <? _)%nat; [|reflexivity]. replace (k - Z.to_nat i)%nat with (S (k - Z.to_nat (i + 1))) by lia. reflexivity.
Qed.
Lemma cu16_in_place grow fuel : forall h buf rem, valid h buf -> s_len buf + zlen (cu16_loop fuel rem) <= s_cap buf ->
  h_cu16_loop grow fuel h buf rem =
  (write_array h (s_arr buf) (s_off buf + s_len buf) (cu16_loop fuel rem),
   mkS (s_arr buf) (s_off buf) (s_len buf + zlen (cu16_loop fuel rem)) (s_cap buf)).
Proof.
  induction fuel as [|f IH]; intros h buf rem Hv Hb; cbn [h_cu16_loop cu16_loop] in *; cbv zeta in *.
  - unfold write_array. rewrite overwrite_nil, set_nth_id. change (zlen (@nil Z)) with 0. rewrite Z.add_0_r. now destruct buf.
  - destruct (Z.shiftr rem 7 =? 0).
    + unfold append. cbv zeta. change (zlen [Z.land rem 127]) with 1 in *. now replace (s_len buf + 1 <=? s_cap buf) with true by lia.
    + rewrite zlen_cons in *. pose proof (zlen_nonneg (cu16_loop f (Z.shiftr rem 7))).
      set (x := Z.lor (Z.land rem 127) 128) in *.
      destruct (append grow h buf [x]) as [h1 b1] eqn:E. pose proof (append_spec grow h buf [x] h1 b1 Hv E) as (A1 & _).
      unfold append in E. cbv zeta in E. change (zlen [x]) with 1 in E. replace (s_len buf + 1 <=? s_cap buf) with true in E by lia.
      assert (H1 : h1 = write_array h (s_arr buf) (s_off buf + s_len buf) [x]) by congruence.
      assert (H2 : b1 = mkS (s_arr buf) (s_off buf) (s_len buf + 1) (s_cap buf)) by congruence.
      rewrite IH; [|exact A1|rewrite H2; cbn [s_len s_cap]; lia]. rewrite H2, H1. cbn [s_arr s_off s_len s_cap]. f_equal; [|f_equal; lia].
      destruct Hv as (V1 & V2 & V3 & V4). unfold write_array. rewrite set_nth_twice, nth_set_same by exact V1. f_equal.
      replace (s_off buf + (s_len buf + 1)) with (s_off buf + s_len buf + 1) by lia. apply overwrite_twice; [lia|]. unfold array_of in V4. lia.
Qed.
