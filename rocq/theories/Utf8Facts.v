(** UTF-8: specification, and what the model of SafeReadUTF8String does. *)
From Verif Require Import Base Utf8 NumFacts.

(** A Unicode scalar value and its encoding (RFC 3629), by arithmetic. *)
Definition scalar (r : Z) : Prop := 0 <= r < 0xD800 \/ 0xE000 <= r <= 0x10FFFF.
Definition utf8_char (r : Z) : list Z :=
  if r <? 0x80 then [r]
  else if r <? 0x800 then [192 + r / 64; 128 + r mod 64]
  else if r <? 0x10000 then [224 + r / 4096; 128 + r / 64 mod 64; 128 + r mod 64]
  else [240 + r / 262144; 128 + r / 4096 mod 64; 128 + r / 64 mod 64; 128 + r mod 64].

(** Valid UTF-8. *)
Inductive utf8 : list Z -> Prop :=
| utf8_nil : utf8 []
| utf8_cons r s : scalar r -> utf8 s -> utf8 (utf8_char r ++ s).

Lemma high_bit b n i : 0 <= b < 2 ^ n -> 0 <= n <= i -> Z.testbit b i = false.
Proof.
  intros Hb Hi. destruct (Z.eq_dec b 0) as [->|]; [apply Z.bits_0|].
  apply Z.bits_above_log2; [lia|]. apply Z.log2_lt_pow2; [lia|].
  apply Z.lt_le_trans with (2 ^ n); [lia|]. apply Z.pow_le_mono_r; lia.
Qed.
Lemma lor_shift a n b : 0 <= n -> 0 <= b < 2 ^ n -> Z.lor (Z.shiftl a n) b = a * 2 ^ n + b.
Proof.
  intros Hn Hb. rewrite Z.shiftl_mul_pow2 by lia. rewrite Z.add_nocarry_lxor.
  - apply Z.bits_inj'. intros i Hi. rewrite Z.lxor_spec, Z.lor_spec.
    destruct (Z.ltb_spec i n).
    + rewrite Z.mul_pow2_bits_low by lia. now destruct (Z.testbit b i).
    + rewrite (high_bit b n i) by lia. now destruct (Z.testbit (a * 2 ^ n) i).
  - apply Z.bits_inj'. intros i Hi. rewrite Z.land_spec, Z.bits_0. destruct (Z.ltb_spec i n).
    + now rewrite Z.mul_pow2_bits_low by lia.
    + rewrite (high_bit b n i) by lia. apply andb_false_r.
Qed.

Lemma land_ones k z : 0 <= k -> Z.land z (Z.ones k) = z mod 2 ^ k.
Proof. apply Z.land_ones. Qed.

Lemma lor_128 b : 0 <= b < 64 -> Z.lor 0x80 b = 128 + b.
Proof. intro H. change 0x80 with (Z.shiftl 2 6). now rewrite lor_shift by (change (2 ^ 6) with 64; lia). Qed.
Lemma lor_192 b : 0 <= b < 32 -> Z.lor 0xC0 b = 192 + b.
Proof. intro H. change 0xC0 with (Z.shiftl 6 5). now rewrite lor_shift by (change (2 ^ 5) with 32; lia). Qed.
Lemma lor_224 b : 0 <= b < 16 -> Z.lor 0xE0 b = 224 + b.
Proof. intro H. change 0xE0 with (Z.shiftl 14 4). now rewrite lor_shift by (change (2 ^ 4) with 16; lia). Qed.
Lemma lor_240 b : 0 <= b < 8 -> Z.lor 0xF0 b = 240 + b.
Proof. intro H. change 0xF0 with (Z.shiftl 30 3). now rewrite lor_shift by (change (2 ^ 3) with 8; lia). Qed.

Lemma land_63 z : Z.land z 0x3F = z mod 64.
Proof. exact (Z.land_ones z 6 ltac:(lia)). Qed.
Lemma land_31 z : Z.land z 0x1F = z mod 32.
Proof. exact (Z.land_ones z 5 ltac:(lia)). Qed.
Lemma land_15 z : Z.land z 0x0F = z mod 16.
Proof. exact (Z.land_ones z 4 ltac:(lia)). Qed.
Lemma land_7 z : Z.land z 0x07 = z mod 8.
Proof. exact (Z.land_ones z 3 ltac:(lia)). Qed.
Lemma shr k z : 0 <= k -> Z.shiftr z k = z / 2 ^ k.
Proof. apply Z.shiftr_div_pow2. Qed.

(** encode_rune writes the specified bytes. *)
Lemma encode_rune_spec r : scalar r -> encode_rune r = utf8_char r.
Proof.
  intro H. unfold scalar in H. unfold encode_rune, utf8_char.
  destruct ((r <? 0) || (0x10FFFF <? r) || ((0xD800 <=? r) && (r <=? 0xDFFF))) eqn:E0; [lia|].
  destruct (r <=? 0x7F) eqn:E1.
  { destruct (r <? 0x80) eqn:F1; [reflexivity|lia]. }
  destruct (r <? 0x80) eqn:F1; [lia|].
  rewrite !land_63, !shr by lia.
  change (2 ^ 6) with 64. change (2 ^ 12) with 4096. change (2 ^ 18) with 262144.
  destruct (r <=? 0x7FF) eqn:E2.
  { destruct (r <? 0x800) eqn:F2; [|lia]. rewrite lor_192, lor_128 by lia. reflexivity. }
  destruct (r <? 0x800) eqn:F2; [lia|].
  destruct (r <=? 0xFFFF) eqn:E3.
  { destruct (r <? 0x10000) eqn:F3; [|lia]. rewrite lor_224, !lor_128 by lia. reflexivity. }
  destruct (r <? 0x10000) eqn:F3; [lia|]. rewrite lor_240, !lor_128 by lia. reflexivity.
Qed.

(** decode_rune: either a well formed character, or an invalid first byte. *)
Definition bad_start (s : list Z) : Prop :=
  forall r rest, scalar r -> s <> utf8_char r ++ rest.

Lemma scalar_cases r : scalar r -> 0 <= r <= 0x10FFFF /\ ~ (0xD800 <= r < 0xE000).
Proof. unfold scalar. lia. Qed.

(** Inverse: the bytes determine the first byte's class. *)
Lemma decode_char r s : scalar r -> decode_rune (utf8_char r ++ s) = (r, length (utf8_char r)).
Proof.
  intro H. pose proof (scalar_cases r H) as H'. unfold utf8_char.
  destruct (r <? 0x80) eqn:F1.
  { cbn [app decode_rune length]. destruct (r <? 0x80) eqn:E; [reflexivity|lia]. }
  destruct (r <? 0x800) eqn:F2.
  { cbn [app decode_rune length]. destruct (192 + r / 64 <? 0x80) eqn:E; [lia|].
    unfold utf8_first. replace ((0xC2 <=? 192 + r / 64) && (192 + r / 64 <=? 0xDF)) with true by lia.
    replace (negb ((0x80 <=? 128 + r mod 64) && (128 + r mod 64 <=? 0xBF))) with false by lia.
    cbn [Z.eqb Pos.eqb]. rewrite land_31, land_63, lor_shift by (change (2 ^ 6) with 64; lia).
    f_equal. change (2 ^ 6) with 64. lia. }
  destruct (r <? 0x10000) eqn:F3.
  { cbn [app decode_rune length]. destruct (224 + r / 4096 <? 0x80) eqn:E; [lia|].
    set (b0 := 224 + r / 4096). set (b1 := 128 + r / 64 mod 64). set (b2 := 128 + r mod 64).
    assert (Hc : cont b2 = true) by (unfold cont, b2; lia).
    assert (Hu : exists lo hi, utf8_first b0 = Some (3, lo, hi) /\ lo <= b1 <= hi).
    { unfold utf8_first. destruct ((0xC2 <=? b0) && (b0 <=? 0xDF)) eqn:G1; [unfold b0 in *; lia|].
      destruct (b0 =? 0xE0) eqn:G2; [do 2 eexists; split; [reflexivity|unfold b0, b1 in *; lia]|].
      destruct ((0xE1 <=? b0) && (b0 <=? 0xEC)) eqn:G3; [do 2 eexists; split; [reflexivity|unfold b0, b1 in *; lia]|].
      destruct (b0 =? 0xED) eqn:G4; [do 2 eexists; split; [reflexivity|unfold b0, b1 in *; lia]|].
      destruct ((0xEE <=? b0) && (b0 <=? 0xEF)) eqn:G5; [do 2 eexists; split; [reflexivity|unfold b0, b1 in *; lia]|].
      unfold b0 in *; lia. }
    destruct Hu as (lo & hi & -> & Hb1).
    replace (negb ((lo <=? b1) && (b1 <=? hi))) with false by lia. rewrite Hc. cbn [negb Z.eqb Pos.eqb].
    f_equal. rewrite !land_63, land_15. rewrite <- Z.lor_assoc.
    rewrite (lor_shift (b1 mod 64) 6) by (change (2 ^ 6) with 64; lia).
    rewrite lor_shift by (change (2 ^ 6) with 64; change (2 ^ 12) with 4096; lia).
    change (2 ^ 6) with 64. change (2 ^ 12) with 4096. unfold b0, b1, b2. lia. }
  cbn [app decode_rune length]. destruct (240 + r / 262144 <? 0x80) eqn:E; [lia|].
  set (b0 := 240 + r / 262144). set (b1 := 128 + r / 4096 mod 64). set (b2 := 128 + r / 64 mod 64).
  set (b3 := 128 + r mod 64).
  assert (Hc2 : cont b2 = true) by (unfold cont, b2; lia).
  assert (Hc3 : cont b3 = true) by (unfold cont, b3; lia).
  assert (Hu : exists lo hi, utf8_first b0 = Some (4, lo, hi) /\ lo <= b1 <= hi).
  { unfold utf8_first. destruct ((0xC2 <=? b0) && (b0 <=? 0xDF)) eqn:G1; [unfold b0 in *; lia|].
    destruct (b0 =? 0xE0) eqn:G2; [unfold b0 in *; lia|].
    destruct ((0xE1 <=? b0) && (b0 <=? 0xEC)) eqn:G3; [unfold b0 in *; lia|].
    destruct (b0 =? 0xED) eqn:G4; [unfold b0 in *; lia|].
    destruct ((0xEE <=? b0) && (b0 <=? 0xEF)) eqn:G5; [unfold b0 in *; lia|].
    destruct (b0 =? 0xF0) eqn:G6; [do 2 eexists; split; [reflexivity|unfold b0, b1 in *; lia]|].
    destruct ((0xF1 <=? b0) && (b0 <=? 0xF3)) eqn:G7; [do 2 eexists; split; [reflexivity|unfold b0, b1 in *; lia]|].
    destruct (b0 =? 0xF4) eqn:G8; [do 2 eexists; split; [reflexivity|unfold b0, b1 in *; lia]|].
    unfold b0 in *; lia. }
  destruct Hu as (lo & hi & -> & Hb1).
  replace (negb ((lo <=? b1) && (b1 <=? hi))) with false by lia. rewrite Hc2, Hc3.
  cbn [negb Z.eqb Pos.eqb].
  f_equal. rewrite !land_63, land_7. rewrite <- !Z.lor_assoc.
  rewrite (lor_shift (b2 mod 64) 6) by (change (2 ^ 6) with 64; lia).
  rewrite (lor_shift (b1 mod 64) 12) by (change (2 ^ 6) with 64; change (2 ^ 12) with 4096; lia).
  rewrite lor_shift by (change (2 ^ 6) with 64; change (2 ^ 12) with 4096; change (2 ^ 18) with 262144; lia).
  change (2 ^ 6) with 64. change (2 ^ 12) with 4096. change (2 ^ 18) with 262144.
  unfold b0, b1, b2, b3. lia.
Qed.

Lemma decode_cases b s : bytes_ok (b :: s) ->
  (exists r rest, scalar r /\ b :: s = utf8_char r ++ rest) \/
  decode_rune (b :: s) = (rune_error, 1%nat).
Proof.
  intro Hb. inversion_clear Hb as [|? ? Hb0 Hs]. unfold is_byte in *. cbn [decode_rune].
  destruct (b <? 0x80) eqn:E0.
  { left. exists b, s. split; [unfold scalar; lia|]. unfold utf8_char. now rewrite E0. }
  destruct (utf8_first b) as [[[n lo] hi]|] eqn:Eu; [|now right].
  destruct s as [|b1 s]; [now right|]. inversion_clear Hs as [|? ? Hb1 Hs'].
  destruct ((lo <=? b1) && (b1 <=? hi)) eqn:E1; cbn [negb]; [|now right].
  destruct (n =? 2) eqn:En.
  { left. set (r := (b - 192) * 64 + (b1 - 128)). exists r, s.
    assert (Hr : 0xC2 <= b <= 0xDF /\ 0x80 <= b1 <= 0xBF).
    { unfold utf8_first in Eu. destruct ((0xC2 <=? b) && (b <=? 0xDF)) eqn:G.
      - injection Eu as <- <- <-. lia.
      - repeat match type of Eu with (if ?x then _ else _) = _ => destruct x end;
          try discriminate Eu; injection Eu as <- <- <-; discriminate. }
    split; [unfold scalar, r; lia|]. unfold utf8_char, r.
    replace ((b - 192) * 64 + (b1 - 128) <? 0x80) with false by lia.
    replace ((b - 192) * 64 + (b1 - 128) <? 0x800) with true by lia.
    cbn [app]. repeat f_equal; lia. }
  destruct s as [|b2 s]; [now right|]. inversion_clear Hs' as [|? ? Hb2 Hs].
  unfold cont. destruct ((0x80 <=? b2) && (b2 <=? 0xBF)) eqn:E2; cbn [negb]; [|now right].
  destruct (n =? 3) eqn:En3.
  { left. set (r := (b - 224) * 4096 + (b1 - 128) * 64 + (b2 - 128)). exists r, s.
    assert (Hr : 0xE0 <= b <= 0xEF /\ 0x80 <= b1 <= 0xBF /\ (b = 0xE0 -> 0xA0 <= b1) /\
                 (b = 0xED -> b1 <= 0x9F)).
    { unfold utf8_first in Eu.
      destruct ((0xC2 <=? b) && (b <=? 0xDF)) eqn:G1; [injection Eu as <- <- <-; discriminate|].
      destruct (b =? 0xE0) eqn:G2; [injection Eu as <- <- <-; lia|].
      destruct ((0xE1 <=? b) && (b <=? 0xEC)) eqn:G3; [injection Eu as <- <- <-; lia|].
      destruct (b =? 0xED) eqn:G4; [injection Eu as <- <- <-; lia|].
      destruct ((0xEE <=? b) && (b <=? 0xEF)) eqn:G5; [injection Eu as <- <- <-; lia|].
      repeat match type of Eu with (if ?x then _ else _) = _ => destruct x end;
        try discriminate Eu; injection Eu as <- <- <-; discriminate. }
    split; [unfold scalar, r; lia|]. unfold utf8_char.
    replace (r <? 0x80) with false by (unfold r; lia).
    replace (r <? 0x800) with false by (unfold r; lia).
    replace (r <? 0x10000) with true by (unfold r; lia).
    cbn [app]. unfold r. repeat f_equal; lia. }
  destruct s as [|b3 s]; [now right|]. inversion_clear Hs as [|? ? Hb3 Hs'].
  destruct ((0x80 <=? b3) && (b3 <=? 0xBF)) eqn:E3; cbn [negb]; [|now right].
  left. set (r := (b - 240) * 262144 + (b1 - 128) * 4096 + (b2 - 128) * 64 + (b3 - 128)).
  exists r, s.
  assert (Hr : 0xF0 <= b <= 0xF4 /\ 0x80 <= b1 <= 0xBF /\ (b = 0xF0 -> 0x90 <= b1) /\
               (b = 0xF4 -> b1 <= 0x8F)).
  { unfold utf8_first in Eu.
    destruct ((0xC2 <=? b) && (b <=? 0xDF)) eqn:G1; [injection Eu as <- <- <-; discriminate|].
    destruct (b =? 0xE0) eqn:G2; [injection Eu as <- <- <-; discriminate|].
    destruct ((0xE1 <=? b) && (b <=? 0xEC)) eqn:G3; [injection Eu as <- <- <-; discriminate|].
    destruct (b =? 0xED) eqn:G4; [injection Eu as <- <- <-; discriminate|].
    destruct ((0xEE <=? b) && (b <=? 0xEF)) eqn:G5; [injection Eu as <- <- <-; discriminate|].
    destruct (b =? 0xF0) eqn:G6; [injection Eu as <- <- <-; lia|].
    destruct ((0xF1 <=? b) && (b <=? 0xF3)) eqn:G7; [injection Eu as <- <- <-; lia|].
    destruct (b =? 0xF4) eqn:G8; [injection Eu as <- <- <-; lia|discriminate]. }
  split; [unfold scalar, r; lia|]. unfold utf8_char.
  replace (r <? 0x80) with false by (unfold r; lia).
  replace (r <? 0x800) with false by (unfold r; lia).
  replace (r <? 0x10000) with false by (unfold r; lia).
  cbn [app]. unfold r. repeat f_equal; lia.
Qed.

Lemma utf8_char_len r : (1 <= length (utf8_char r) <= 4)%nat.
Proof. unfold utf8_char. destruct (r <? 0x80), (r <? 0x800), (r <? 0x10000); cbn; lia. Qed.

Lemma decode_bad b s : bytes_ok (b :: s) ->
  (bad_start (b :: s) <-> decode_rune (b :: s) = (rune_error, 1%nat)).
Proof.
  intro Hb. split.
  - intro H. destruct (decode_cases b s Hb) as [(r & rest & Hr & E)|E]; [|exact E].
    now apply (H r rest) in Hr.
  - intros E r rest Hr Heq. rewrite Heq, (decode_char r rest Hr) in E. injection E as -> E.
    discriminate E.
Qed.

(** * Loops over the runes *)

Lemma skipn_char r s : skipn (length (utf8_char r)) (utf8_char r ++ s) = s.
Proof. rewrite skipn_app, skipn_all, Nat.sub_diag. reflexivity. Qed.

Lemma decode_rune_pos b s : (1 <= snd (decode_rune (b :: s)))%nat.
Proof.
  cbn [decode_rune].
  repeat match goal with
         | |- context [if ?x then _ else _] => destruct x
         | |- context [match ?x with _ => _ end] => destruct x
         end; cbn; lia.
Qed.

Lemma runes_fuel : forall f s, (length s <= f)%nat -> runes_aux f s = runes s.
Proof.
  intro f. induction f as [f IH] using lt_wf_ind. intros s Hs. unfold runes.
  destruct f as [|f]; [destruct s; [reflexivity|cbn in Hs; lia]|].
  destruct s as [|b s]; [reflexivity|]. cbn [length] in *. cbn [runes_aux].
  pose proof (decode_rune_pos b s) as Hn. destruct (decode_rune (b :: s)) as [r n]. cbn [snd] in Hn.
  f_equal. assert (L : (length (skipn n (b :: s)) <= length s)%nat)
    by (rewrite skipn_length; cbn [length]; lia).
  destruct f as [|f].
  - destruct s; [|cbn in Hs; lia]. cbn [length] in L. destruct (skipn n [b]); [reflexivity|cbn in L; lia].
  - rewrite (IH (S f)) by lia. destruct (length s) as [|f'] eqn:El.
    + destruct (skipn n (b :: s)); [reflexivity|cbn in L; lia].
    + now rewrite (IH (S f')) by lia.
Qed.

Lemma runes_char r s : scalar r -> runes (utf8_char r ++ s) = r :: runes s.
Proof.
  intro H. pose proof (utf8_char_len r) as L. pose proof (decode_char r s H) as D.
  pose proof (skipn_char r s) as K. unfold runes at 1. rewrite app_length.
  destruct (utf8_char r) as [|c cs] eqn:Ec; [cbn in L; lia|]. cbn [length plus app runes_aux] in *.
  rewrite D, K. f_equal. apply runes_fuel. lia.
Qed.
Lemma runes_bad b s : bytes_ok (b :: s) -> bad_start (b :: s) -> runes (b :: s) = rune_error :: runes s.
Proof.
  intros Hb H. apply decode_bad in H; [|exact Hb]. unfold runes at 1. cbn [length runes_aux].
  rewrite H. f_equal.
Qed.

(** Every byte string starts with a well formed character or an invalid byte. *)
Lemma by_chars (P : list Z -> Prop) :
  P [] ->
  (forall r s, scalar r -> bytes_ok s -> P s -> P (utf8_char r ++ s)) ->
  (forall b s, bytes_ok (b :: s) -> bad_start (b :: s) -> P s -> P (b :: s)) ->
  forall s, bytes_ok s -> P s.
Proof.
  intros H0 H1 H2 s. remember (length s) as n eqn:En. revert s En.
  induction n as [n IH] using lt_wf_ind. intros s -> Hs.
  destruct s as [|b s]; [exact H0|]. destruct (decode_cases b s Hs) as [(r & rest & Hr & E)|E].
  - rewrite E in Hs |- *. apply Forall_app in Hs. destruct Hs as [_ Hs].
    apply H1; [exact Hr|exact Hs|]. apply (IH (length rest)); [|reflexivity|exact Hs].
    rewrite E, app_length. pose proof (utf8_char_len r). lia.
  - apply H2; [exact Hs|now apply decode_bad|]. inversion_clear Hs.
    apply (IH (length s)); [cbn; lia|reflexivity|assumption].
Qed.

Lemma safe_char r s : scalar r -> safe_utf8 (utf8_char r ++ s) = utf8_char r ++ safe_utf8 s.
Proof.
  intro H. unfold safe_utf8. rewrite runes_char by exact H. cbn [flat_map]. f_equal.
  unfold fix_utf. destruct (Z.eqb_spec r rune_error) as [->|]; now apply encode_rune_spec.
Qed.
Lemma safe_bad b s : bytes_ok (b :: s) -> bad_start (b :: s) ->
  safe_utf8 (b :: s) = [0xEF; 0xBF; 0xBD] ++ safe_utf8 s.
Proof. intros Hb H. unfold safe_utf8. rewrite (runes_bad b s Hb H). reflexivity. Qed.

Lemma safe_valid s : bytes_ok s -> utf8 (safe_utf8 s).
Proof.
  revert s. apply by_chars.
  - constructor.
  - intros r s Hr _ IH. rewrite safe_char by exact Hr. now constructor.
  - intros b s Hb Hbad IH. rewrite safe_bad by assumption.
    change [0xEF; 0xBF; 0xBD] with (utf8_char 0xFFFD). constructor; [unfold scalar; lia|exact IH].
Qed.
Lemma safe_id s : utf8 s -> safe_utf8 s = s.
Proof. induction 1 as [|r s Hr _ IH]; [reflexivity|]. now rewrite safe_char, IH. Qed.
Lemma utf8_bytes s : utf8 s -> bytes_ok s.
Proof.
  induction 1 as [|r s Hr _ IH]; [constructor|]. apply Forall_app. split; [|exact IH].
  apply scalar_cases in Hr. unfold utf8_char, is_byte.
  destruct (r <? 0x80) eqn:F1; [repeat constructor; lia|].
  destruct (r <? 0x800) eqn:F2; [repeat constructor; lia|].
  destruct (r <? 0x10000) eqn:F3; repeat constructor; lia.
Qed.
Lemma encode_rune_len r : (length (encode_rune r) <= 4)%nat.
Proof.
  unfold encode_rune.
  repeat match goal with |- context [if ?x then _ else _] => destruct x end; cbn; lia.
Qed.
Lemma decode_1 b s r : decode_rune (b :: s) = (r, 1%nat) -> r = b /\ b < 128 \/ r = rune_error.
Proof.
  cbn [decode_rune]. destruct (b <? 0x80) eqn:E; [intros [= <-]; left; lia|].
  repeat match goal with
         | |- context [if ?x then _ else _] => destruct x
         | |- context [match ?x with _ => _ end] => destruct x
         end; intro H; inversion H; auto.
Qed.
Lemma decode_shrink b s : (snd (decode_rune (b :: s)) <= S (length s))%nat.
Proof.
  cbn [decode_rune].
  repeat match goal with
         | |- context [if ?x then _ else _] => destruct x
         | |- context [match ?x with _ => _ end] => destruct x
         end; cbn; lia.
Qed.
(** (for any list of integers) *)
Lemma safe_len s : zlen (safe_utf8 s) <= 3 * zlen s.
Proof.
  enough (H : forall f s, (length s <= f)%nat ->
    zlen (flat_map (fun r => encode_rune (fix_utf r)) (runes_aux f s)) <= 3 * zlen s)
    by (apply H; lia).
  clear s. induction f as [|f IH]; intros s Hs.
  - change (0 <= 3 * zlen s). unfold zlen. lia.
  - destruct s as [|b s]; [cbn; lia|]. cbn [runes_aux]. cbn [length] in Hs.
    pose proof (decode_rune_pos b s) as H1. pose proof (decode_shrink b s) as H2.
    destruct (decode_rune (b :: s)) as [r n] eqn:D. cbn [snd] in H1, H2. cbn [flat_map].
    assert (L : (length (skipn n (b :: s)) + n = S (length s))%nat) by (rewrite skipn_length; cbn [length]; lia).
    specialize (IH (skipn n (b :: s)) ltac:(lia)). rewrite zlen_app.
    assert (K : zlen (encode_rune (fix_utf r)) <= 3 * Z.of_nat n).
    { assert (Hf : fix_utf r = r).
      { unfold fix_utf. destruct (Z.eqb_spec r rune_error) as [->|]; reflexivity. }
      rewrite Hf. destruct n as [|[|n]]; [lia| |].
      - apply decode_1 in D. destruct D as [[-> Hb]| ->]; [|cbn; lia].
        unfold encode_rune. destruct ((b <? 0) || (0x10FFFF <? b) || ((0xD800 <=? b) && (b <=? 0xDFFF))); [cbn; lia|].
        replace (b <=? 0x7F) with true by lia. cbn. lia.
      - pose proof (encode_rune_len r). unfold zlen. lia. }
    unfold zlen in *. cbn [length] in *. lia.
Qed.

(** strings.Map of Go's standard library with its fast path: as long as the
    mapping changes nothing (and the rune is not an invalid byte) the bytes are
    copied; from the first change on each rune is mapped and written. *)
Fixpoint strings_map (fuel : nat) (s : list Z) : list Z :=
  match fuel with
  | O => []
  | S f =>
      match s with
      | [] => []
      | _ =>
          let '(r, n) := decode_rune s in
          if (fix_utf r =? r) && negb ((r =? rune_error) && Nat.eqb n 1)
          then firstn n s ++ strings_map f (skipn n s)
          else flat_map (fun r => encode_rune (fix_utf r)) (runes s)
      end
  end.
Lemma strings_map_safe : forall s, bytes_ok s -> forall f, (length s <= f)%nat ->
  strings_map f s = safe_utf8 s.
Proof.
  apply (by_chars (fun s => forall f, (length s <= f)%nat -> strings_map f s = safe_utf8 s)).
  - intros [|f] _; reflexivity.
  - intros r s Hr _ IH f Hf. pose proof (utf8_char_len r) as L. pose proof (decode_char r s Hr) as D.
    pose proof (skipn_char r s) as K. rewrite safe_char by exact Hr.
    rewrite app_length in Hf. destruct f as [|f]; [lia|].
    assert (F : firstn (length (utf8_char r)) (utf8_char r ++ s) = utf8_char r).
    { now rewrite firstn_app, firstn_all, Nat.sub_diag, app_nil_r. }
    assert (C : (fix_utf r =? r) && negb ((r =? rune_error) && Nat.eqb (length (utf8_char r)) 1) = true).
    { unfold fix_utf. destruct (Z.eqb_spec r rune_error) as [->|]; [reflexivity|].
      now rewrite Z.eqb_refl. }
    destruct (utf8_char r ++ s) as [|c cs] eqn:Ec.
    { destruct (utf8_char r); [cbn in L; lia|discriminate]. }
    cbn [strings_map]. rewrite D, C, F, K. f_equal. apply IH. lia.
  - intros b s Hb Hbad IH f Hf. cbn [length] in Hf. destruct f as [|f]; [lia|].
    cbn [strings_map]. pose proof (proj1 (decode_bad b s Hb) Hbad) as D. rewrite D.
    reflexivity.
Qed.
