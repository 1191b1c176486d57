(** Properties of the primitive readers and writers. *)
From Verif Require Import Types EncPrim DecPrim Enc Dec Utf8 Builtin Spec NumFacts EncFacts EncWire DecWire DecWithin Text Tools U128.

(** [writes E m bs]: with any writer the action hands over exactly [bs] (in
    some chunks, until the writer fails), and succeeds if the writer does. *)
Definition writes (E : encoding) (m : EM unit) (bs : list Z) : Prop :=
  forall c, exists cs, script E c m cs (Ok tt) c /\ concat cs = bs.

(** * compact-u16 *)

Lemma cu16_size x : 0 <= x <= 65535 -> 1 <= zlen (leb128 x) <= 3.
Proof.
  intro H. split.
  - pose proof (leb128_nonempty x ltac:(lia)). destruct (leb128 x); [easy|].
    rewrite zlen_cons. pose proof (zlen_nonneg l). lia.
  - unfold zlen. enough ((length (leb128 x) <= 3)%nat) by lia.
    apply leb128_len; [lia|lia|]. cbn. lia.
Qed.

Lemma cu16_round_trip buf n post :
  (0 <= n <= 65535 -> exists bs,
     encode_compact_u16 buf n = (buf ++ bs, None) /\
     1 <= zlen bs <= 3 /\ decode_compact_u16 (bs ++ post) = inr (n, zlen bs)) /\
  (~ 0 <= n <= 65535 -> encode_compact_u16 buf n = (buf, Some EMsg)).
Proof.
  split; intro H.
  - exists (leb128 n). split; [now apply encode_cu16_leb|].
    split; [now apply cu16_size|]. now apply decode_cu16_leb.
  - unfold encode_compact_u16. destruct ((n <? 0) || (65535 <? n)) eqn:E; [reflexivity|lia].
Qed.

Lemma cu16_canonical bs x n : bytes_ok bs ->
  decode_compact_u16 bs = inr (x, n) <->
  (0 <= x <= 65535 /\ n = zlen (leb128 x) /\ exists rest, bs = leb128 x ++ rest).
Proof.
  intro Hb. split.
  - now apply decode_cu16_inv.
  - intros (Hx & -> & rest & ->). now apply decode_cu16_leb.
Qed.

Lemma cu16_reader_rest fuel eof : forall nth bs ln size l n rest,
  cu16_read eof fuel nth bs ln size = (inr (l, n), rest) ->
  exists used, bs = used ++ rest /\ zlen used = n - size.
Proof.
  induction fuel as [|f IH]; intros nth bs ln size l n rest; cbn [cu16_read].
  - intros [= <- <- <-]. exists []. split; [reflexivity|]. cbn. lia.
  - destruct bs as [|e r]; [discriminate|].
    destruct ((e =? 0) && negb (nth =? 0)); [discriminate|].
    destruct ((nth =? 2) && negb (Z.land e 128 =? 0)); [discriminate|].
    destruct (Z.land e 128 =? 0).
    + intros [= <- <- <-]. exists [e]. split; [reflexivity|]. cbn [zlen length]. unfold zlen. cbn. lia.
    + intro H. apply IH in H. destruct H as (used & -> & Hu). exists (e :: used).
      split; [reflexivity|]. rewrite zlen_cons. lia.
Qed.

Lemma cu16_reader_ok fuel eof : forall nth bs ln size,
  match cu16_get fuel nth bs ln size with
  | inr r => exists rest, cu16_read eof fuel nth bs ln size = (inr r, rest)
  | inl _ => exists e rest, cu16_read eof fuel nth bs ln size = (inl e, rest)
  end.
Proof.
  induction fuel as [|f IH]; intros nth bs ln size; cbn [cu16_get cu16_read]; [eauto|].
  destruct bs as [|e r]; [eauto|].
  destruct ((e =? 0) && negb (nth =? 0)); [eauto|].
  destruct ((nth =? 2) && negb (Z.land e 128 =? 0)); [eauto|].
  destruct (Z.land e 128 =? 0); [eauto|]. apply IH.
Qed.

Lemma cu16_reader eof bs :
  match decode_compact_u16 bs with
  | inr (x, n) => decode_compact_u16_reader eof bs = (inr x, skipn (Z.to_nat n) bs)
  | inl _ => exists e rest, decode_compact_u16_reader eof bs = (inl e, rest)
  end.
Proof.
  unfold decode_compact_u16, decode_compact_u16_reader.
  pose proof (cu16_reader_ok 3 eof 0 bs 0 0) as H.
  destruct (cu16_get 3 0 bs 0 0) as [e|[l n]].
  - destruct H as (e' & rest & ->). eauto.
  - destruct H as (rest & H). rewrite H. apply cu16_reader_rest in H.
    destruct H as (used & -> & Hu).
    destruct ((n =? 0) || (3 <? n)); [eauto|].
    destruct ((l <? 0) || (65535 <? l)); [eauto|].
    rewrite Z.sub_0_r in Hu. subst n. unfold zlen. rewrite Nat2Z.id.
    f_equal. now rewrite skipn_app, skipn_all, Nat.sub_diag.
Qed.

Lemma cu16_reader_bad fuel eof : forall nth bs ln size e, cu16_get fuel nth bs ln size = inl e ->
  exists rest, cu16_read eof fuel nth bs ln size = (inl (match e with EUnexpectedEOF => eof | _ => e end), rest) /\
    (e = EUnexpectedEOF -> rest = []).
Proof.
  induction fuel as [|f IH]; intros nth bs ln size e; cbn [cu16_get cu16_read]; [discriminate|].
  destruct bs as [|b r]; [intros [= <-]; now exists []|].
  destruct ((b =? 0) && negb (nth =? 0)); [intros [= <-]; now exists r|].
  destruct ((nth =? 2) && negb (Z.land b 128 =? 0)); [intros [= <-]; now exists r|].
  destruct (Z.land b 128 =? 0); [discriminate|]. apply IH.
Qed.
Lemma cu16_reader_errors eof bs e : decode_compact_u16 bs = inl e ->
  exists rest, decode_compact_u16_reader eof bs = (inl (match e with EUnexpectedEOF => eof | _ => e end), rest) /\
    (e = EUnexpectedEOF -> rest = []).
Proof.
  unfold decode_compact_u16, decode_compact_u16_reader.
  pose proof (cu16_reader_bad 3 eof 0 bs 0 0) as Hbad. pose proof (cu16_reader_ok 3 eof 0 bs 0 0) as Hok.
  destruct (cu16_get 3 0 bs 0 0) as [e'|[l n]].
  - intros [= ->]. destruct (Hbad e eq_refl) as (rest & -> & H). now exists rest.
  - destruct Hok as (rest & ->). destruct ((n =? 0) || (3 <? n)); [intros [= <-]; now exists rest|].
    destruct ((l <? 0) || (65535 <? l)); [intros [= <-]; now exists rest|]. discriminate.
Qed.

(** * Varints *)

Lemma leb128_len_ge n x : 128 ^ Z.of_nat n <= x -> (n < length (leb128 x))%nat.
Proof.
  revert x. induction n as [|n IH]; intros x H.
  - cbn in H. pose proof (leb128_nonempty x ltac:(lia)). destruct (leb128 x); [easy|]. cbn. lia.
  - rewrite Nat2Z.inj_succ, Z.pow_succ_r in H by lia.
    pose proof (Z.pow_pos_nonneg 128 (Z.of_nat n) ltac:(lia) ltac:(lia)).
    rewrite leb128_big by lia. cbn [length]. apply (proj1 (Nat.succ_lt_mono _ _)), IH.
    apply Z.div_le_lower_bound; lia.
Qed.

Lemma uvarint_writes E v : 0 <= v < 2 ^ 56 -> writes E (write_uvarint v) (leb128 v).
Proof. intros H c. now apply emits_write_uvarint. Qed.
Lemma uvarint_limit v s : - 2 ^ 63 <= v < 2 ^ 63 -> ~ 0 <= v < 2 ^ 56 ->
  write_uvarint v s = (Panic, s).
Proof.
  intros Hv Hn. unfold write_uvarint, put_uvarint.
  assert (Hu : 2 ^ 56 <= uwrap 64 v < 2 ^ 64).
  { unfold uwrap. destruct (Z.lt_ge_cases v 0); [|rewrite Z.mod_small; lia].
    replace (v mod 2 ^ 64) with (v + 2 ^ 64) by lia. lia. }
  rewrite uvarint_bytes_leb by lia.
  pose proof (leb128_len_ge 8 (uwrap 64 v) ltac:(cbn; lia)).
  destruct (zlen _ <=? 8) eqn:E; [unfold zlen in E; lia|reflexivity].
Qed.
Lemma varint_writes E v : - 2 ^ 55 <= v < 2 ^ 55 -> writes E (write_varint v) (leb128 (zz v)).
Proof. intros H c. now apply emits_write_varint. Qed.
Lemma varint_limit v s : - 2 ^ 63 <= v < 2 ^ 63 -> ~ - 2 ^ 55 <= v < 2 ^ 55 ->
  write_varint v s = (Panic, s).
Proof.
  intros Hv Hn. unfold write_varint, put_varint, put_uvarint.
  rewrite zigzag_zz by lia. pose proof (zz_range v Hv).
  rewrite uvarint_bytes_leb by lia.
  assert (2 ^ 56 <= zz v) by (unfold zz; destruct (v <? 0) eqn:E; lia).
  pose proof (leb128_len_ge 8 (zz v) ltac:(cbn; lia)).
  destruct (zlen _ <=? 8) eqn:E; [unfold zlen in E; lia|reflexivity].
Qed.

Lemma keeps_varint_wrap E bits x : 0 < bits <= 64 ->
  - 2 ^ (bits - 1) <= x < 2 ^ (bits - 1) ->
  keeps E (fmap (swrap bits) read_varint64) (leb128 (zz x)) x.
Proof.
  intros Hb Hx. pose proof (Z.pow_le_mono_r 2 (bits - 1) 63 ltac:(lia) ltac:(lia)).
  rewrite <- (swrap_small bits x) at 2 by lia.
  apply keeps_fmap. apply keeps_varint. lia.
Qed.
Lemma keeps_uvarint_wrap E bits x : 0 < bits <= 64 -> 0 <= x < 2 ^ bits ->
  keeps E (fmap (uwrap bits) read_uvarint64) (leb128 x) x.
Proof.
  intros Hb Hx. pose proof (Z.pow_le_mono_r 2 bits 64 ltac:(lia) ltac:(lia)).
  rewrite <- (uwrap_id bits x) at 2 by lia.
  apply keeps_fmap. apply keeps_uvarint. lia.
Qed.

(** * Fixed width *)

Lemma fixed_writes E n z o : writes E (write_uint n z o) (fixed o n z).
Proof. intros c. apply emits_write_uint. Qed.
Lemma fixed_rev n z : fixed BE n z = rev (fixed LE n z).
Proof. reflexivity. Qed.
Lemma fixed_onto E w o bs : bytes_ok bs -> length bs = wbytes w ->
  exists z, 0 <= z < 2 ^ wbits w /\ fixed o (wbytes w) z = bs /\ keeps E (read_uintw w o) bs z.
Proof.
  intros Hb Hl. exists (get_uint o bs). split; [|split].
  - rewrite <- wbytes_pow, <- Hl. now apply get_uint_range.
  - rewrite <- Hl. now apply fixed_get.
  - now apply keeps_read_uintw.
Qed.

(** * 128 bits *)

Lemma fixed_le_app n m z : fixed_le n z ++ fixed_le m (z / 256 ^ Z.of_nat n) = fixed_le (n + m) z.
Proof.
  revert z. induction n as [|n IH]; intro z.
  - cbn [plus]. change (Z.of_nat 0) with 0. now rewrite Z.pow_0_r, Z.div_1_r.
  - cbn [plus]. rewrite !fixed_le_S. cbn [app]. f_equal. rewrite pow256_S.
    rewrite <- Z.div_div by (pose proof (pow256_pos n); lia). apply IH.
Qed.
Lemma fixed_le_mod n z k : fixed_le n (z + k * 256 ^ Z.of_nat n) = fixed_le n z.
Proof.
  revert z k. induction n as [|n IH]; intros z k; [reflexivity|].
  rewrite !fixed_le_S, pow256_S. f_equal.
  - replace (z + k * (256 * 256 ^ Z.of_nat n)) with (z + (k * 256 ^ Z.of_nat n) * 256) by ring.
    apply Z_mod_plus_full.
  - replace (z + k * (256 * 256 ^ Z.of_nat n)) with (z + (k * 256 ^ Z.of_nat n) * 256) by ring.
    rewrite Z_div_plus_full by lia. apply IH.
Qed.
Lemma fixed_halves lo hi : 0 <= lo < 2 ^ 64 ->
  fixed_le 8 lo ++ fixed_le 8 hi = fixed_le 16 (hi * 2 ^ 64 + lo).
Proof.
  intro H. change 16%nat with (8 + 8)%nat. rewrite <- fixed_le_app.
  change (256 ^ Z.of_nat 8) with (2 ^ 64). f_equal.
  - rewrite Z.add_comm. change (2 ^ 64) with (256 ^ Z.of_nat 8). now rewrite fixed_le_mod.
  - f_equal. rewrite Z.div_add_l by lia. rewrite Z.div_small by lia. lia.
Qed.

Lemma uint128_writes E lo hi o : 0 <= lo < 2 ^ 64 -> 0 <= hi < 2 ^ 64 ->
  writes E (write_uint128 lo hi o) (fixed o 16 (hi * 2 ^ 64 + lo)).
Proof.
  intros Hl Hh c.
  assert (Hb : (match o with LE => put_uint LE 8 lo ++ put_uint LE 8 hi
                        | BE => put_uint BE 8 hi ++ put_uint BE 8 lo end)
               = fixed o 16 (hi * 2 ^ 64 + lo)).
  { destruct o; rewrite !put_uint_fixed; cbn [fixed].
    - now apply fixed_halves.
    - rewrite <- rev_app_distr. f_equal. now apply fixed_halves. }
  rewrite <- Hb. destruct o; cbn [write_uint128]; apply emits_to_writer.
Qed.

Lemma firstn_exact {A} n (a b : list A) : length a = n -> firstn n (a ++ b) = a.
Proof. intros <-. rewrite firstn_app, firstn_all, Nat.sub_diag. cbn. apply app_nil_r. Qed.
Lemma skipn_exact {A} n (a b : list A) : length a = n -> skipn n (a ++ b) = b.
Proof. intros <-. rewrite skipn_app, skipn_all, Nat.sub_diag. reflexivity. Qed.

Lemma keeps_read_uint128 E o lo hi : 0 <= lo < 2 ^ 64 -> 0 <= hi < 2 ^ 64 ->
  keeps E (read_uint128 o) (fixed o 16 (hi * 2 ^ 64 + lo)) (lo, hi).
Proof.
  intros Hl Hh. unfold read_uint128. apply keeps_remaining; [rewrite fixed_zlen; lia|].
  rewrite <- (app_nil_r (fixed o 16 _)). eapply keeps_bind.
  - apply keeps_take. now rewrite fixed_zlen.
  - destruct o; cbn [fixed].
    + rewrite <- fixed_halves by lia.
      assert (L : length (fixed_le 8 lo) = 8%nat) by exact (fixed_length LE 8 lo).
      rewrite (firstn_exact _ _ _ L), (skipn_exact _ _ _ L).
      change (fixed_le 8 lo) with (fixed LE 8 lo). change (fixed_le 8 hi) with (fixed LE 8 hi).
      rewrite !get_fixed. change (256 ^ Z.of_nat 8) with (2 ^ 64).
      rewrite !Z.mod_small by lia. apply keeps_ret.
    + rewrite <- fixed_halves by lia. rewrite rev_app_distr.
      change (rev (fixed_le 8 hi)) with (fixed BE 8 hi). change (rev (fixed_le 8 lo)) with (fixed BE 8 lo).
      assert (L : length (fixed BE 8 hi) = 8%nat) by apply fixed_length.
      rewrite firstn_exact, skipn_exact by exact L. rewrite !get_fixed.
      change (256 ^ Z.of_nat 8) with (2 ^ 64). rewrite !Z.mod_small by lia. apply keeps_ret.
Qed.

Lemma be_num_app a : forall b n, fold_left (fun a b => a * 256 + b) (a ++ b) n =
  fold_left (fun a b => a * 256 + b) b (fold_left (fun a b => a * 256 + b) a n).
Proof. intros. apply fold_left_app. Qed.
Lemma be_num_rev bs : be_num (rev bs) = le_val bs.
Proof.
  unfold be_num. induction bs as [|b r IH]; [reflexivity|].
  cbn [rev le_val]. rewrite fold_left_app, IH. cbn [fold_left]. lia.
Qed.
Lemma be_num_val bs : be_num bs = get_uint BE bs.
Proof. cbn [get_uint]. now rewrite <- be_num_rev, rev_involutive. Qed.

Lemma set_nth_length s i b : length (set_nth s i b) = length s.
Proof.
  unfold set_nth. rewrite <- (firstn_skipn i s) at 3. rewrite !app_length.
  destruct (skipn i s); reflexivity.
Qed.
Lemma set_nth_nth s b : forall i k, (i < length s)%nat ->
  nth k (set_nth s i b) 0 = if Nat.eqb k i then b else nth k s 0.
Proof.
  induction s as [|a s IH]; intros i k Hi; cbn in Hi; [lia|].
  destruct i as [|i]; [destruct k; reflexivity|].
  destruct k as [|k]; [reflexivity|]. cbn. apply IH. lia.
Qed.
Lemma reverse_loop_length fuel : forall i j s, length (reverse_loop fuel i j s) = length s.
Proof.
  induction fuel as [|f IH]; intros i j s; [reflexivity|]. cbn [reverse_loop].
  destruct (i <? j); [|reflexivity]. now rewrite IH, !set_nth_length.
Qed.
Lemma reverse_loop_nth fuel : forall i j s k, 0 <= i -> j = zlen s - 1 - i ->
  j - i <= 2 * Z.of_nat fuel ->
  nth k (reverse_loop fuel i j s) 0 =
  if (i <=? Z.of_nat k) && (Z.of_nat k <=? j) then nth (Z.to_nat (zlen s - 1 - Z.of_nat k)) s 0
  else nth k s 0.
Proof.
  unfold zlen. induction fuel as [|f IH]; intros i j s k Hi Hj Hf; cbn [reverse_loop].
  - destruct (i <=? Z.of_nat k) eqn:E1, (Z.of_nat k <=? j) eqn:E2; cbn [andb]; try easy.
    f_equal. lia.
  - destruct (i <? j) eqn:E.
    + rewrite IH; rewrite ?set_nth_length; try lia.
      rewrite !set_nth_nth; rewrite ?set_nth_length; try lia.
      destruct (i <=? Z.of_nat k) eqn:E1, (Z.of_nat k <=? j) eqn:E2,
        (i + 1 <=? Z.of_nat k) eqn:E3, (Z.of_nat k <=? j - 1) eqn:E4; cbn [andb]; try lia;
      repeat match goal with |- context [Nat.eqb ?a ?b] => destruct (Nat.eqb a b) eqn:?; try lia end;
      try easy; f_equal; lia.
    + destruct (i <=? Z.of_nat k) eqn:E1, (Z.of_nat k <=? j) eqn:E2; cbn [andb]; try easy.
      f_equal. lia.
Qed.
Lemma reverse_bytes_rev s : reverse_bytes s = rev s.
Proof.
  apply (nth_ext _ _ 0 0); unfold reverse_bytes.
  - now rewrite reverse_loop_length, rev_length.
  - intros k Hk. rewrite reverse_loop_length in Hk. rewrite reverse_loop_nth; unfold zlen in *; try lia.
    replace ((0 <=? Z.of_nat k) && (Z.of_nat k <=? Z.of_nat (length s) - 1)) with true by lia.
    rewrite rev_nth by easy. f_equal. lia.
Qed.

Lemma u128_bytes_spec lo hi o : 0 <= lo < 2 ^ 64 -> 0 <= hi < 2 ^ 64 ->
  u128_bytes lo hi o = fixed BE 16 (hi * 2 ^ 64 + lo).
Proof.
  intros Hl Hh. unfold u128_bytes. destruct o; rewrite ?reverse_bytes_rev, !put_uint_fixed; cbn [fixed].
  - f_equal. now apply fixed_halves.
  - rewrite <- rev_app_distr. f_equal. now apply fixed_halves.
Qed.
Lemma u128_bigint_spec lo hi o : 0 <= lo < 2 ^ 64 -> 0 <= hi < 2 ^ 64 ->
  u128_bigint lo hi o = hi * 2 ^ 64 + lo.
Proof.
  intros Hl Hh. unfold u128_bigint. rewrite u128_bytes_spec, be_num_val, get_fixed by easy.
  change (256 ^ Z.of_nat 16) with (2 ^ 128). apply Z.mod_small. lia.
Qed.

Lemma be_digits_num fuel : forall n acc, 0 <= n < 2 ^ Z.of_nat fuel ->
  be_num (be_digits fuel n acc) =
  fold_left (fun a b => a * 256 + b) acc n.
Proof.
  induction fuel as [|f IH]; intros n acc H.
  - change (2 ^ Z.of_nat 0) with 1 in H. replace n with 0 by lia. reflexivity.
  - cbn [be_digits]. destruct (n <=? 0) eqn:E.
    + replace n with 0 by lia. reflexivity.
    + rewrite IH.
      * cbn [fold_left]. f_equal. lia.
      * rewrite Nat2Z.inj_succ, Z.pow_succ_r in H by lia. lia.
Qed.
Lemma big_bytes_num n : 0 <= n -> be_num (big_bytes n) = n.
Proof.
  intro H. unfold big_bytes. rewrite be_digits_num; [reflexivity|].
  split; [exact H|]. rewrite Nat2Z.inj_succ, Z2Nat.id by apply Z.log2_nonneg.
  destruct (Z.eq_dec n 0) as [->|]; [reflexivity|]. apply Z.log2_spec. lia.
Qed.

Lemma lxor_255 b : is_byte b -> Z.lxor b 255 = 255 - b.
Proof.
  intro H. unfold is_byte in H.
  assert (Hall : forall n, (n < 256)%nat -> Z.lxor (Z.of_nat n) 255 = 255 - Z.of_nat n).
  { intros n Hn. do 256 (destruct n as [|n]; [reflexivity|]). lia. }
  rewrite <- (Z2Nat.id b) by lia. apply Hall. lia.
Qed.
Lemma le_val_compl bs : bytes_ok bs ->
  le_val (map (fun b => Z.lxor b 255) bs) = 256 ^ zlen bs - 1 - le_val bs.
Proof.
  induction 1 as [|b r Hb Hr IH]; [reflexivity|].
  cbn [map le_val]. rewrite IH, lxor_255 by easy. unfold zlen. cbn [length].
  rewrite pow256_S. lia.
Qed.
Lemma twos_complement_num bs : bytes_ok bs ->
  be_num (twos_complement bs) = 256 ^ zlen bs - be_num bs.
Proof.
  intro H. unfold twos_complement.
  assert (Hc : be_num (map (fun b => Z.lxor b 255) bs) = 256 ^ zlen bs - 1 - be_num bs).
  { rewrite !be_num_val. cbn [get_uint]. rewrite <- map_rev, le_val_compl by now apply bytes_ok_rev.
    now rewrite zlen_rev. }
  pose proof (get_uint_range BE bs H) as R. rewrite <- be_num_val in R.
  rewrite big_bytes_num; lia.
Qed.

Lemma fixed_be_hd n z : hd 0 (fixed BE (S n) z) = z / 256 ^ Z.of_nat n mod 256.
Proof.
  cbn [fixed]. unfold fixed_le. rewrite seq_S, map_app, rev_app_distr. reflexivity.
Qed.

Lemma i128_bigint_spec lo hi o : 0 <= lo < 2 ^ 64 -> 0 <= hi < 2 ^ 64 ->
  i128_bigint lo hi o = swrap 128 (hi * 2 ^ 64 + lo).
Proof.
  intros Hl Hh. set (x := hi * 2 ^ 64 + lo).
  assert (Hx : 0 <= x < 2 ^ 128) by (unfold x; lia).
  unfold i128_bigint. rewrite u128_bytes_spec by easy. fold x.
  pose proof (fixed_ok BE 16 x) as Hok.
  rewrite twos_complement_num by exact Hok. rewrite fixed_zlen.
  change (256 ^ Z.of_nat 16) with (2 ^ 128).
  assert (Hn : be_num (fixed BE 16 x) = x).
  { rewrite be_num_val, get_fixed. change (256 ^ Z.of_nat 16) with (2 ^ 128). now apply Z.mod_small. }
  rewrite Hn, fixed_be_hd. change (256 ^ Z.of_nat 15) with (2 ^ 120).
  rewrite land_128 by (apply Z.mod_pos_bound; lia).
  unfold swrap. rewrite (Z.mod_small x (2 ^ 128)) by exact Hx. change (2 ^ (128 - 1)) with (2 ^ 127).
  assert (Hd : x / 2 ^ 120 < 256) by (apply Z.div_lt_upper_bound; lia).
  rewrite (Z.mod_small (x / 2 ^ 120)) by (split; [apply Z.div_pos; lia|exact Hd]).
  assert (Hc : x / 2 ^ 120 < 128 <-> x < 2 ^ 127).
  { split; intro.
    - assert (x < 2 ^ 120 * (x / 2 ^ 120 + 1)).
      { pose proof (Z.mul_succ_div_gt x (2 ^ 120) ltac:(lia)). lia. }
      lia.
    - apply Z.div_lt_upper_bound; lia. }
  destruct (x / 2 ^ 120 <? 128) eqn:E1; destruct (x <? 2 ^ 127) eqn:E2; cbv [Z.eqb Pos.eqb]; try lia.
Qed.

(** * Floats *)

Lemma float_writes E f b o : (E = Borsh -> f_isnan f b = false) ->
  writes E (write_float f b o) (fixed o (fbytes f) b).
Proof.
  intros H c. unfold write_float.
  assert (Hb : is_borsh E && f_isnan f b = false).
  { destruct E; try reflexivity. cbn. now apply H. }
  apply emits_get_enc. rewrite Hb, put_uint_fixed. apply emits_to_writer.
Qed.
Lemma float_nan_write s f b o : e_enc s = Borsh -> f_isnan f b = true ->
  write_float f b o s = (Err EMsg, s).
Proof.
  intros H Hn. unfold write_float, bind, e_get_enc. rewrite H. cbn [is_borsh andb]. now rewrite Hn.
Qed.
Lemma float_nan_read f b o pre post c : 0 <= b < 2 ^ fbits f -> f_isnan f b = true ->
  fst (read_float f o (mkD (pre ++ fixed o (fbytes f) b ++ post) (zlen pre) c Borsh)) = Err EMsg.
Proof.
  intros Hb Hn. (unfold read_float, bind at 1, d_remaining; open_rem). cbn [d_data d_pos].
  rewrite !zlen_app, fixed_zlen. pose proof (zlen_nonneg post).
  destruct (_ <? _) eqn:E; [lia|].
  pose proof (keeps_take Borsh (Z.of_nat (fbytes f)) (fixed o (fbytes f) b)) as K.
  rewrite fixed_zlen in K. specialize (K eq_refl pre post c). unfold bind at 1. rewrite K.
  unfold bind, d_get_enc. cbn [d_enc is_borsh].
  rewrite get_fixed, fbytes_pow, Z.mod_small by exact Hb. now rewrite Hn.
Qed.

(** * Strings *)

Lemma bytes_writes E b : zlen b <= count_max E -> writes E (write_bytes b) (count E (zlen b) ++ b).
Proof. intros H c. now apply emits_write_bytes. Qed.
Lemma rust_string_writes E b : zlen b < 2 ^ 64 ->
  writes E (write_rust_string b) (fixed LE 8 (zlen b) ++ b).
Proof.
  intros H c. unfold write_rust_string.
  apply (emits_bind E c _ _ c _ _ c); [apply emits_write_uint|apply emits_bytes_nolen].
Qed.
Lemma keeps_rust_string E s : zlen s <= bulk_max ->
  keeps E read_rust_string (fixed LE 8 (zlen s) ++ s) s.
Proof.
  intro H. pose proof (zlen_nonneg s). unfold bulk_max in H. unfold read_rust_string.
  eapply keeps_bind.
  - apply (keeps_uintw_fixed E W64 LE (zlen s)). cbn [wbits]. lia.
  - destruct (0x7FFFFFFF <? zlen s) eqn:E'; [lia|]. apply keeps_read_n_bytes; lia.
Qed.

(** A declared length beyond the input. *)
Lemma byte_slice_too_long E n pre post c :
  0 <= n <= count_max E -> zlen post < n ->
  exists e s, read_byte_slice (mkD (pre ++ count E n ++ post) (zlen pre) c E) = (Err e, s).
Proof.
  intros Hn Hp. destruct (Z.le_gt_cases n bulk_max) as [Hb|Hb].
  - pose proof (keeps_read_length E n Hn Hb pre post c) as K.
    unfold read_byte_slice, bind at 1. rewrite K. unfold bind, d_get. cbn [d_data d_pos].
    rewrite !zlen_app. destruct (_ <? _) eqn:E'; [|lia]. unfold fail. eauto.
  - (* only Borsh counts go beyond 2^31 *)
    unfold bulk_max in Hb. destruct E; cbn [count_max] in Hn; try lia.
    pose proof (keeps_uint_fixed Borsh 4 LE n ltac:(cbn; lia) pre post c) as K.
    unfold read_byte_slice, read_length, bind at 1, bind at 1, d_get_enc. cbn [d_enc count].
    unfold bind at 1. rewrite K. destruct (0x7FFFFFFF <? n) eqn:E'; [|lia]. unfold fail. eauto.
Qed.
Lemma rust_string_too_long E n pre post c :
  0 <= n < 2 ^ 64 -> zlen post < n ->
  exists e s, read_rust_string (mkD (pre ++ fixed LE 8 n ++ post) (zlen pre) c E) = (Err e, s).
Proof.
  intros Hn Hp.
  pose proof (keeps_uintw_fixed E W64 LE n ltac:(cbn [wbits]; lia) pre post c) as K.
  cbn [read_uintw wbytes] in K. unfold read_rust_string, bind at 1. rewrite K.
  destruct (0x7FFFFFFF <? n) eqn:E'; [unfold fail; eauto|].
  pose proof (zlen_nonneg post). unfold read_n_bytes.
  destruct (n =? 0) eqn:E0; [lia|]. destruct ((n <? 0) || _) eqn:E1; [lia|].
  unfold bind, d_get. cbn [d_data d_pos]. rewrite !zlen_app, !fixed_zlen. clear K.
  destruct (zlen pre + (Z.of_nat 8 + zlen post) <? _) eqn:E2; [unfold fail; eauto|lia].
Qed.

(** * Flags *)

Lemma option_accepts E b pre post c : is_byte b ->
  read_option (mkD (pre ++ [b] ++ post) (zlen pre) c E) =
    (Ok (negb (b =? 0)), mkD (pre ++ [b] ++ post) (zlen pre + 1) c E).
Proof.
  intro H.
  assert (K : keeps E read_option ([b] ++ []) (negb (b =? 0))).
  { eapply keeps_bind; [apply keeps_map_err, keeps_read_byte|apply keeps_ret]. }
  exact (K pre post c).
Qed.
Lemma coption_accepts E bs pre post c : bytes_ok bs -> length bs = 4%nat ->
  exists s, read_coption (mkD (pre ++ bs ++ post) (zlen pre) c E) =
    ((if get_uint LE bs =? 0 then Ok false
      else if get_uint LE bs =? 1 then Ok true else Err EMsg), s).
Proof.
  intros Hb Hl. pose proof (keeps_map_err E EWrap _ _ _ (keeps_read_uint E 4 LE bs Hl) pre post c) as K.
  unfold read_coption, bind at 1. rewrite K.
  pose proof (get_uint_range LE bs Hb) as R.
  destruct (get_uint LE bs =? 0) eqn:E0; [|destruct (get_uint LE bs =? 1) eqn:E1];
  destruct (1 <? get_uint LE bs) eqn:E2; try lia; unfold ret, fail; cbn; eauto.
Qed.
Lemma option_writes E b : writes E (write_bool b) [if b then 1 else 0].
Proof. intro c. apply emits_write_bool. Qed.
Lemma coption_writes E b : writes E (write_coption b) (fixed LE 4 (if b then 1 else 0)).
Proof. intro c. apply emits_write_coption. Qed.

(** * Bulk integers *)

Lemma read_uintw_step w o s : inside s ->
  (Z.of_nat (wbytes w) <= remaining_of s ->
     exists z, read_uintw w o s =
       (Ok z, mkD (d_data s) (d_pos s + Z.of_nat (wbytes w)) (d_cur s) (d_enc s))) /\
  (remaining_of s < Z.of_nat (wbytes w) -> exists e, read_uintw w o s = (Err e, s)).
Proof.
  intro Hs. destruct s as [data pos c E]. unfold inside in Hs. cbn [d_data d_pos] in Hs.
  open_rem. cbn [d_data d_pos d_cur d_enc]. split; intro H.
  - set (pre := firstn (Z.to_nat pos) data).
    set (bs := firstn (wbytes w) (skipn (Z.to_nat pos) data)).
    set (post := skipn (wbytes w) (skipn (Z.to_nat pos) data)).
    assert (Hd : data = pre ++ bs ++ post).
    { unfold bs, post. rewrite firstn_skipn. unfold pre. now rewrite firstn_skipn. }
    assert (Hp : zlen pre = pos).
    { unfold pre, zlen in *. rewrite firstn_length. lia. }
    assert (Hl : length bs = wbytes w).
    { unfold bs. rewrite firstn_length, skipn_length. unfold zlen in *. lia. }
    exists (get_uint o bs). pose proof (keeps_read_uintw E w o bs Hl pre post c) as K.
    rewrite <- Hd in K. unfold zlen at 3 in K. rewrite Hl, Hp in K. exact K.
  - destruct w; cbn [read_uintw wbytes] in *;
      (unfold read_byte, read_uint, read_uint64, d_remaining, bind, fail; open_rem);
      cbn [d_data d_pos]; destruct (_ <? _) eqn:E'; try lia; eauto.
Qed.

Lemma read_rep_uintw w : forall n s, inside s ->
  Z.of_nat n * Z.of_nat (wbytes w) <= remaining_of s ->
  exists zs, length zs = n /\ read_rep n (read_uintw w LE) s =
    (Ok zs, mkD (d_data s) (d_pos s + Z.of_nat n * Z.of_nat (wbytes w)) (d_cur s) (d_enc s)).
Proof.
  induction n as [|n IH]; intros s Hs Hr.
  - exists []. split; [reflexivity|]. destruct s. cbn. now rewrite Z.add_0_r.
  - destruct (proj1 (read_uintw_step w LE s Hs)) as (z & Hz); [lia|].
    destruct (IH (mkD (d_data s) (d_pos s + Z.of_nat (wbytes w)) (d_cur s) (d_enc s))) as (zs & Hl & Hzs).
    + (unfold inside in *; open_rem). cbn [d_data d_pos]. lia.
    + open_rem. cbn [d_data d_pos]. lia.
    + exists (z :: zs). split; [cbn; lia|]. cbn [read_rep]. unfold bind at 1. rewrite Hz.
      unfold bind at 1. rewrite Hzs. unfold ret. cbn [d_data d_pos d_cur d_enc]. do 2 f_equal. lia.
Qed.
Lemma read_rep_short w : forall n s, inside s ->
  remaining_of s < Z.of_nat n * Z.of_nat (wbytes w) ->
  exists e s', read_rep n (read_uintw w LE) s = (Err e, s').
Proof.
  induction n as [|n IH]; intros s Hs Hr.
  - (unfold inside in *; open_rem). lia.
  - cbn [read_rep]. unfold bind at 1.
    destruct (Z.lt_ge_cases (remaining_of s) (Z.of_nat (wbytes w))) as [H|H].
    + destruct (proj2 (read_uintw_step w LE s Hs) H) as (e & He). rewrite He. eauto.
    + destruct (proj1 (read_uintw_step w LE s Hs) H) as (z & Hz). rewrite Hz.
      destruct (IH (mkD (d_data s) (d_pos s + Z.of_nat (wbytes w)) (d_cur s) (d_enc s))) as (e & s' & He).
      * (unfold inside in *; open_rem). cbn [d_data d_pos]. lia.
      * open_rem. cbn [d_data d_pos]. lia.
      * unfold bind. rewrite He. eauto.
Qed.

Lemma skipn_plus {A} a : forall b (l : list A), skipn a (skipn b l) = skipn (a + b) l.
Proof.
  induction b as [|b IH]; intro l; [now rewrite Nat.add_0_r|].
  destruct l as [|x l]; [now rewrite !skipn_nil|].
  rewrite Nat.add_succ_r. cbn [skipn]. apply IH.
Qed.

Lemma read_rep_bytes : forall n s, inside s -> Z.of_nat n <= remaining_of s ->
  read_rep n read_byte s = d_take (Z.of_nat n) s.
Proof.
  induction n as [|n IH]; intros s Hs Hr.
  - cbn [read_rep]. unfold d_take, d_get, bind, slice_n, inside in *.
    change (Z.of_nat 0) with 0. destruct (_ && _ && _) eqn:E; [|lia].
    cbn [firstn Z.to_nat]. unfold ret, d_set_pos. rewrite Z.add_0_r. now destruct s.
  - cbn [read_rep].
    destruct s as [data pos c E]. (unfold inside in *; open_rem). cbn [d_data d_pos] in *.
    assert (Hb : exists b rest, skipn (Z.to_nat pos) data = b :: rest).
    { destruct (skipn (Z.to_nat pos) data) as [|b rest] eqn:Es; [|eauto].
      apply (f_equal (@length Z)) in Es. rewrite skipn_length in Es. cbn in Es. unfold zlen in *. lia. }
    destruct Hb as (b & rest & Hb).
    assert (H1 : read_byte (mkD data pos c E) = (Ok b, mkD data (pos + 1) c E)).
    { (unfold read_byte, d_remaining, bind at 1; open_rem). cbn [d_data d_pos].
      destruct (_ <? 1) eqn:E1; [lia|]. unfold d_take, d_get, bind, slice_n. cbn [d_data d_pos].
      destruct (_ && _ && _) eqn:E2; [|lia]. rewrite Hb. reflexivity. }
    unfold bind at 1. rewrite H1.
    unfold bind at 1. rewrite IH by (unfold inside; open_rem; lia).
    unfold d_take, d_get, bind, slice_n. cbn [d_data d_pos].
    destruct ((0 <=? pos + 1) && _ && _) eqn:E1; [|lia].
    destruct ((0 <=? pos) && _ && _) eqn:E2; [|lia].
    unfold d_set_pos, ret. cbn [d_data d_cur d_enc]. rewrite Hb, !Nat2Z.id. cbn [firstn].
    replace (Z.to_nat (pos + 1)) with (1 + Z.to_nat pos)%nat by lia.
    rewrite <- skipn_plus, Hb. cbn [skipn].
    replace (pos + 1 + Z.of_nat n) with (pos + Z.of_nat (S n)) by lia. reflexivity.
Qed.

Lemma bulk_read w n s : inside s -> (w = W8 -> Z.of_nat n <= bulk_max) ->
  (Z.of_nat n * Z.of_nat (wbytes w) <= remaining_of s ->
     read_uints w (Z.of_nat n) s = read_rep n (read_uintw w LE) s) /\
  (remaining_of s < Z.of_nat n * Z.of_nat (wbytes w) ->
     read_uints w (Z.of_nat n) s = (Err EUnexpectedEOF, s) /\
     exists e s', read_rep n (read_uintw w LE) s = (Err e, s')).
Proof.
  intros Hs Hm. unfold read_uints, bind, d_remaining.
  destruct (Z.of_nat n <? 0) eqn:E0; [lia|]. split; intro H.
  - destruct (remaining_of s <? _) eqn:E1; [lia|]. rewrite Nat2Z.id.
    destruct w; try reflexivity. cbn [read_uintw wbytes] in *.
    rewrite read_rep_bytes by (auto; lia). unfold read_n_bytes, bulk_max in *.
    destruct (Z.of_nat n =? 0) eqn:E2.
    + unfold d_take, d_get, bind, slice_n, inside in *. replace (Z.of_nat n) with 0 by lia.
      destruct (_ && _ && _) eqn:E; [|lia].
      cbn [firstn Z.to_nat]. unfold ret, d_set_pos. rewrite Z.add_0_r. now destruct s.
    + specialize (Hm eq_refl). destruct ((_ <? 0) || _) eqn:E3; [lia|].
      (unfold bind, d_get in *; open_rem). destruct (zlen (d_data s) <? _) eqn:E4; [lia|]. reflexivity.
  - destruct (remaining_of s <? _) eqn:E1; [|lia]. split; [reflexivity|]. now apply read_rep_short.
Qed.

Lemma bulk_writes E w zs : Forall (fun z => 0 <= z < 2 ^ wbits w) zs ->
  writes E (write_uints w (zlen zs) (map VNum zs)) (flat_map (fixed LE (wbytes w)) zs) /\
  writes E (each (fun z => write_uint (wbytes w) z LE) zs) (flat_map (fixed LE (wbytes w)) zs).
Proof.
  intro H. split.
  - intro c. rewrite <- (zlen_map VNum zs).
    pose proof (emits_write_uints E c w (map VNum zs)) as K.
    specialize (K ltac:(rewrite Forall_map; eapply Forall_impl; [|exact H]; intros z Hz; exists z; auto)
      (fun v => match v with VNum z => fixed LE (wbytes w) z | _ => [] end) (fun z => eq_refl)).
    rewrite flat_map_concat_map, map_map, <- flat_map_concat_map in K. exact K.
  - intro c. clear H. revert c. induction zs as [|z zs IH]; intro c; cbn [each flat_map].
    + apply emits_ret.
    + exact (emits_bind E c _ _ c _ _ c (emits_write_uint E c _ z LE) (IH c)).
Qed.
