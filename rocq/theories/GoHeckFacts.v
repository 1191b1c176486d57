(** The transcription of heck.go agrees with Heck.v; its index and slice
    expressions are in range. *)
From Verif Require Import Base Utf8 Utf8Facts Heck GoHeck.
Notation length := Datatypes.length.

Lemma split_runes s : split_string_by_rune s = runes s.
Proof.
  unfold split_string_by_rune. rewrite <- (app_nil_l (runes s)) at 2. generalize (@nil Z) at 2 3.
  induction (runes s) as [|r rs IH]; intro l; cbn [fold_left]; [now rewrite app_nil_r|].
  rewrite IH, <- app_assoc. reflexivity.
Qed.
Lemma runes_le s : (length (runes s) <= length s)%nat.
Proof.
  unfold runes. generalize (length s) at 1 2. intro f. revert s.
  induction f as [|f IH]; intro s; [cbn; lia|]. cbn [runes_aux]. destruct s as [|b s]; [cbn; lia|].
  destruct (decode_rune (b :: s)) as [r n]. cbn [length]. specialize (IH (skipn n (b :: s))). lia.
Qed.

(** A reader that has gone over [pre]. *)
Definition past (pre rest : list Z) : reader := mkReader (pre ++ rest) (zlen pre - 1).
Lemma new_past s : new_reader s = past [] (runes s).
Proof. unfold new_reader, past. rewrite split_runes. reflexivity. Qed.
Lemma has_next_past pre rest : rd_has_next (past pre rest) = match rest with [] => false | _ => true end.
Proof.
  unfold rd_has_next, past. cbn [rd_index rd_runes]. unfold zlen. rewrite app_length.
  destruct rest; cbn [length]; [apply Z.ltb_ge|apply Z.ltb_lt]; lia.
Qed.
Lemma at_past pre c rest : at_index (pre ++ c :: rest) (zlen pre) = Some c.
Proof.
  unfold at_index, zlen. rewrite app_length. cbn [length]. rewrite Nat2Z.id.
  replace _ with true by (symmetry; apply andb_true_iff; split; [apply Z.leb_le|apply Z.ltb_lt]; lia).
  rewrite nth_error_app2 by lia. rewrite Nat.sub_diag. reflexivity.
Qed.
Lemma past_snoc pre c rest : mkReader (pre ++ c :: rest) (zlen pre) = past (pre ++ [c]) rest.
Proof.
  unfold past. rewrite <- app_assoc. cbn [app]. f_equal. unfold zlen. rewrite app_length. cbn [length]. lia.
Qed.
Lemma move_past pre rest : rd_move (past pre rest) =
  match rest with [] => (false, past pre rest) | c :: r => (true, past (pre ++ [c]) r) end.
Proof.
  unfold rd_move. rewrite has_next_past. destruct rest as [|c r]; [reflexivity|].
  rewrite <- past_snoc. unfold past. cbn [rd_runes rd_index]. do 2 f_equal. lia.
Qed.
Lemma this_past pre c rest : rd_this (past (pre ++ [c]) rest) = Some (zlen pre, c).
Proof. rewrite <- past_snoc. unfold rd_this. cbn [rd_runes rd_index]. now rewrite at_past. Qed.
Lemma peek_past pre rest : rd_peek (past pre rest) =
  match rest with [] => Some (-1, 0) | c :: _ => Some (zlen pre, c) end.
Proof.
  unfold rd_peek. rewrite has_next_past. destruct rest as [|c r]; [reflexivity|].
  unfold past. cbn [rd_runes rd_index]. replace (zlen pre - 1 + 1) with (zlen pre) by lia. now rewrite at_past.
Qed.
Lemma peek_next_past pre rest : rd_peek_next (past pre rest) = Some (hd 0 rest).
Proof.
  unfold rd_peek_next. rewrite has_next_past. destruct rest as [|c r]; [reflexivity|].
  unfold past. cbn [rd_runes rd_index]. replace (zlen pre - 1 + 1) with (zlen pre) by lia. now rewrite at_past.
Qed.
Lemma next_past pre rest : rd_next (past pre rest) =
  match rest with [] => Some (-1, 0, past pre rest) | c :: r => Some (zlen pre, c, past (pre ++ [c]) r) end.
Proof.
  unfold rd_next. rewrite has_next_past. destruct rest as [|c r]; [reflexivity|].
  rewrite <- past_snoc. unfold past. cbn [rd_runes rd_index].
  replace (zlen pre - 1 + 1) with (zlen pre) by lia. now rewrite at_past.
Qed.

Lemma lower_loop_eq u : forall rest fuel pre f, (length rest < fuel)%nat ->
  go_lower_loop u fuel (past pre rest) f = Some (f ++ lowercase_runes u rest).
Proof.
  induction rest as [|c r IH]; intros [|fuel] pre f L; cbn [length] in L; try lia; cbn [go_lower_loop]; rewrite move_past.
  - cbn [lowercase_runes]. now rewrite app_nil_r.
  - rewrite this_past, peek_next_past. cbv zeta. cbn [snd lowercase_runes].
    destruct ((c =? 931) && (hd 0 r =? 0)); rewrite IH by lia; now rewrite <- app_assoc.
Qed.
Lemma go_lowercase_eq u s f : go_lowercase u s f = Some (f ++ lowercase u s).
Proof. unfold go_lowercase. rewrite new_past. apply lower_loop_eq. pose proof (runes_le s). lia. Qed.
Lemma go_capitalize_eq u s f : go_capitalize u s f = Some (f ++ capitalize u s).
Proof.
  unfold go_capitalize, capitalize. rewrite new_past, next_past. pose proof (runes_le s) as L.
  destruct (runes s) as [|c r]; cbn [negb Z.eqb]; [now rewrite app_nil_r|].
  change (zlen [] =? -1) with false. cbn [negb app]. cbv zeta. rewrite next_past. destruct r as [|c' r].
  - cbn [negb Z.eqb]. now rewrite app_nil_r.
  - change (zlen [c] =? -1) with false. cbn [negb]. unfold str_from, str_slice.
    change (zlen [c]) with 1. cbn [length] in L. unfold zlen.
    replace _ with true by (symmetry; rewrite !andb_true_iff; repeat split; apply Z.leb_le; lia).
    rewrite go_lowercase_eq, <- app_assoc. change (Z.to_nat 1) with 1%nat.
    rewrite (firstn_all2 (skipn 1 s)) by (rewrite skipn_length; lia). reflexivity.
Qed.

Lemma mode_lower m : mode_eqb m MLowercase = is_lower_mode m.
Proof. now destruct m. Qed.
Lemma mode_upper m : mode_eqb m MUppercase = is_upper_mode m.
Proof. now destruct m. Qed.
Lemma slice_sub s a b : 0 <= a <= b -> b <= zlen s -> str_slice s a b = Some (sub s a b).
Proof.
  intros A B. unfold str_slice, sub.
  now replace _ with true by (symmetry; rewrite !andb_true_iff; repeat split; apply Z.leb_le; lia).
Qed.
Lemma slice_from_skip s a : 0 <= a <= zlen s -> str_from s a = Some (skipn (Z.to_nat a) s).
Proof.
  intro A. unfold str_from. rewrite slice_sub by lia. unfold sub. rewrite firstn_all2; [reflexivity|].
  rewrite skipn_length. unfold zlen in *. lia.
Qed.

Lemma transform_word_eq u ww gw sep gs word :
  (forall w b, gw w b = Some (b ++ ww w)) -> (forall b, gs b = b ++ sep) ->
  forall rest fuel pre init mode first b,
  (length rest < fuel)%nat -> 0 <= init <= zlen pre -> zlen pre + zlen rest <= zlen word ->
  go_transform_word u gw gs word fuel (past pre rest) init mode first b =
    let '(f, out) := word_loop u ww sep word rest (zlen pre) init mode first in Some (f, b ++ out).
Proof.
  intros W S. induction rest as [|c r IH]; intros [|fuel] pre init mode first b L I B; cbn [length] in L; try lia;
    cbn [go_transform_word word_loop]; rewrite move_past.
  - now rewrite app_nil_r.
  - assert (P : zlen (pre ++ [c]) = zlen pre + 1) by (unfold zlen; rewrite app_length; cbn [length]; lia).
    assert (R : zlen (c :: r) = zlen r + 1) by (unfold zlen; cbn [length]; lia).
    assert (N : 0 <= zlen r /\ 0 <= zlen pre) by (unfold zlen; lia).
    rewrite this_past. destruct (c =? 95) eqn:C.
    + rewrite IH, P by (destruct (Z.eqb_spec init (zlen pre)); lia). reflexivity.
    + rewrite peek_past. destruct r as [|n r'].
      * cbn [negb Z.eqb]. rewrite slice_from_skip by lia. destruct first; cbn [negb]; rewrite ?S, W; [reflexivity|].
        now rewrite <- app_assoc.
      * replace (zlen (pre ++ [c]) =? -1) with false by lia. cbn [negb]. cbv zeta.
        change (go_next_mode u mode c) with (next_mode u mode c). rewrite mode_lower, mode_upper.
        destruct ((n =? 95) || (is_lower_mode (next_mode u mode c) && is_upper u n)).
        -- rewrite slice_sub by lia. rewrite W. rewrite IH, P by lia.
           destruct (word_loop _ _ _ _ _ _ _ _ _) as [f out].
           destruct first; cbn [negb app]; rewrite ?S, <- ?app_assoc; reflexivity.
        -- destruct (is_upper_mode mode && is_upper u c && is_lower u n).
           ++ destruct first; cbn [negb]; rewrite slice_sub by lia; rewrite W; rewrite IH, P by lia;
                destruct (word_loop _ _ _ _ _ _ _ _ _) as [f out]; cbn [app]; rewrite ?S, <- ?app_assoc; reflexivity.
           ++ rewrite IH, P by lia. reflexivity.
Qed.
Lemma transform_words_eq u ww gw sep gs :
  (forall w b, gw w b = Some (b ++ ww w)) -> (forall b, gs b = b ++ sep) ->
  forall words first b,
  go_transform_words u gw gs words first b = Some (b ++ words_loop u ww sep words first).
Proof.
  intros W S. induction words as [|w ws IH]; intros first b; cbn [go_transform_words words_loop].
  - now rewrite app_nil_r.
  - pose proof (runes_le w) as L. rewrite new_past, (transform_word_eq u ww gw sep gs w W S) by (unfold zlen; cbn [length]; lia).
    change (zlen []) with 0. destruct (word_loop _ _ _ _ _ _ _ _ _) as [f out]. cbn [fst snd]. rewrite IH. now rewrite <- app_assoc.
Qed.

Theorem go_pascal_eq u s : go_to_pascal_case u s = Some (to_pascal_case u s).
Proof.
  unfold go_to_pascal_case, go_transform, to_pascal_case, transform.
  rewrite (transform_words_eq u (capitalize u) (go_capitalize u) [] (fun b => b)); [reflexivity| |].
  - apply go_capitalize_eq.
  - intro b. now rewrite app_nil_r.
Qed.

Lemma snake_word_eq u word : forall fuel r init mode first b,
  go_snake_word u word fuel r init mode first b =
  go_transform_word u (fun w b => Some (b ++ strings_lower u w)) (fun b => b ++ encode_rune 95) word fuel r init mode first b.
Proof.
  induction fuel as [|k IH]; intros r init mode first b; [reflexivity|]. cbn [go_snake_word go_transform_word].
  destruct (rd_move r) as [[] r']; [|reflexivity]. destruct (rd_this r') as [[i c]|]; [|reflexivity].
  destruct (c =? 95); [apply IH|]. destruct (rd_peek r') as [[ni n]|]; [|reflexivity].
  destruct (negb (ni =? -1)).
  - cbv zeta. destruct ((n =? 95) || _).
    + destruct (str_slice word init ni); [apply IH|reflexivity].
    + destruct (_ && is_lower u n); [|apply IH]. destruct (negb first); (destruct (str_slice word init i); [apply IH|reflexivity]).
  - destruct (negb first); destruct (str_from word init); reflexivity.
Qed.
Lemma snake_words_eq u : forall words first b,
  go_snake_words u words first b =
  go_transform_words u (fun w b => Some (b ++ strings_lower u w)) (fun b => b ++ encode_rune 95) words first b.
Proof.
  induction words as [|w ws IH]; intros first b; [reflexivity|]. cbn [go_snake_words go_transform_words].
  rewrite snake_word_eq. destruct (go_transform_word _ _ _ _ _ _ _ _ _ _); [apply IH|reflexivity].
Qed.
Theorem go_snake_eq u s : go_to_rust_snake_case u s = Some (to_rust_snake_case u s).
Proof.
  unfold go_to_rust_snake_case, to_rust_snake_case, transform. rewrite snake_words_eq.
  rewrite (transform_words_eq u (strings_lower u) _ [95]); [reflexivity| |]; reflexivity.
Qed.

(** * The results are UTF-8 *)
Lemma utf8_app a b : utf8 a -> utf8 b -> utf8 (a ++ b).
Proof. intros A B. induction A; [exact B|]. rewrite <- app_assoc. constructor; assumption. Qed.
Lemma utf8_rune r : utf8 (encode_rune r).
Proof.
  assert (R : exists r', scalar r' /\ encode_rune r = utf8_char r').
  { destruct ((r <? 0) || (0x10FFFF <? r) || ((0xD800 <=? r) && (r <=? 0xDFFF))) eqn:E.
    - exists 0xFFFD. split; [unfold scalar; lia|]. unfold encode_rune. rewrite E. reflexivity.
    - exists r. assert (S : scalar r) by (unfold scalar; lia). split; [exact S|]. now apply encode_rune_spec. }
  destruct R as [r' [S ->]]. rewrite <- (app_nil_r (utf8_char r')). constructor; [exact S|constructor].
Qed.
Lemma utf8_flat (f : Z -> Z) rs : utf8 (flat_map (fun r => encode_rune (f r)) rs).
Proof. induction rs; cbn [flat_map]; [constructor|]. apply utf8_app; [apply utf8_rune|assumption]. Qed.
Lemma utf8_lower u s : utf8 (strings_lower u s).
Proof. apply utf8_flat. Qed.
Lemma utf8_lowercase u rs : utf8 (lowercase_runes u rs).
Proof.
  induction rs as [|c r IH]; cbn [lowercase_runes]; [constructor|]. apply utf8_app; [|exact IH].
  destruct (_ && _); [apply utf8_rune|apply utf8_lower].
Qed.
Lemma utf8_capitalize u s : utf8 (capitalize u s).
Proof.
  unfold capitalize. destruct (runes s) as [|c r]; [constructor|]. apply utf8_app; [apply utf8_flat|].
  destruct r; [constructor|]. apply utf8_lowercase.
Qed.
Lemma utf8_word_loop u ww sep word : (forall w, utf8 (ww w)) -> utf8 sep ->
  forall rs i init mode first, utf8 (snd (word_loop u ww sep word rs i init mode first)).
Proof.
  intros W S. induction rs as [|c r IH]; intros i init mode first; cbn [word_loop]; [constructor|].
  assert (F : utf8 (if first then [] else sep)) by (destruct first; [constructor|exact S]).
  destruct (c =? 95); [apply IH|]. destruct r as [|n r'].
  - cbn [snd]. apply utf8_app; auto.
  - cbv zeta. destruct (_ || _).
    + specialize (IH (i + 1) (i + 1) MBoundary false). destruct (word_loop _ _ _ _ _ _ _ _ _) as [f out].
      cbn [snd] in *. repeat apply utf8_app; auto.
    + destruct (_ && is_lower u n); [|apply IH].
      specialize (IH (i + 1) i MBoundary false). destruct (word_loop _ _ _ _ _ _ _ _ _) as [f out].
      cbn [snd] in *. repeat apply utf8_app; auto.
Qed.
Lemma utf8_transform u s ww sep : (forall w, utf8 (ww w)) -> utf8 sep -> utf8 (transform u s ww sep).
Proof.
  intros W S. unfold transform. generalize true. induction (split_into_words u s) as [|w ws IH]; intro first; cbn [words_loop].
  - constructor.
  - pose proof (utf8_word_loop u ww sep w W S (runes w) 0 0 MBoundary first) as H.
    destruct (word_loop _ _ _ _ _ _ _ _ _) as [f out]. apply utf8_app; [exact H|apply IH].
Qed.
Theorem cases_utf8 u s : utf8 (to_pascal_case u s) /\ utf8 (to_rust_snake_case u s).
Proof.
  split; apply utf8_transform.
  - apply utf8_capitalize.
  - constructor.
  - apply utf8_lower.
  - apply (utf8_rune 95).
Qed.
