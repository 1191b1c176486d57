(** reflect.StructTag.Get against its specification. *)
From Coq Require Import String.
From Verif Require Import Base Tags Types Text Utf8 StructTag Utf8Facts TextFacts JsonSpec JsonExact TagSpec NumFacts.
Notation length := Datatypes.length.

Lemma hexn_sound n : forall acc s v r, hexn n acc s = Some (v, r) ->
  exists u w, digits16 n w u /\ v = acc * 16 ^ Z.of_nat n + w /\ s = u ++ r.
Proof.
  assert (P : forall n acc s v r, hexn (S n) acc s = Some (v, r) ->
    exists c d s', hexn n acc s = Some (s', c :: r) /\ hexd c d /\ v = s' * 16 + d).
  { clear. induction n as [|n IH]; intros acc s v r H.
    - cbn [hexn] in *. destruct s as [|c s]; [discriminate|]. destruct (hex_val c) as [d|] eqn:E; [|discriminate].
      injection H as H1 H2. subst. exists c, d, acc. split; [reflexivity|]. split; [now apply hexd_val|reflexivity].
    - change (hexn (S (S n)) acc s) with (match s with c :: r => match hex_val c with Some d => hexn (S n) (acc * 16 + d) r | None => None end | [] => None end) in H.
      change (hexn (S n) acc s) with (match s with c :: r => match hex_val c with Some d => hexn n (acc * 16 + d) r | None => None end | [] => None end).
      destruct s as [|c s]; [discriminate|]. destruct (hex_val c) as [d|]; [|discriminate]. now apply IH. }
  induction n as [|n IH]; intros acc s v r H.
  - cbn [hexn] in H. injection H as -> ->. exists [], 0. split; [constructor|]. split; [change (16 ^ Z.of_nat 0) with 1; lia|reflexivity].
  - apply P in H as (c & d & s' & H & Hd & ->). apply IH in H as (u & w & Hu & -> & ->).
    exists (u ++ [c]), (w * 16 + d). split; [now constructor|]. split; [|now rewrite <- app_assoc].
    rewrite Nat2Z.inj_succ, Z.pow_succ_r by lia. ring.
Qed.
Lemma hexn_complete n w u : digits16 n w u -> forall acc r, hexn n acc (u ++ r) = Some (acc * 16 ^ Z.of_nat n + w, r).
Proof.
  assert (P : forall n acc s v c d r, hexn n acc s = Some (v, c :: r) -> hexd c d -> hexn (S n) acc s = Some (v * 16 + d, r)).
  { clear. induction n as [|n IH]; intros acc s v c d r H Hd.
    - cbn [hexn] in *. injection H as -> ->. apply hexd_val in Hd. now rewrite Hd.
    - change (hexn (S (S n)) acc s) with (match s with c :: r => match hex_val c with Some d => hexn (S n) (acc * 16 + d) r | None => None end | [] => None end).
      change (hexn (S n) acc s) with (match s with c :: r => match hex_val c with Some d => hexn n (acc * 16 + d) r | None => None end | [] => None end) in H.
      destruct s as [|x s]; [discriminate|]. destruct (hex_val x); [|discriminate]. now apply IH with c. }
  induction 1 as [|n v s c d H IH Hd]; intros acc r.
  - cbn [app hexn]. do 2 f_equal. change (16 ^ Z.of_nat 0) with 1. lia.
  - rewrite <- app_assoc. cbn [app]. rewrite (P n acc _ _ c d r (IH acc (c :: r)) Hd).
    do 2 f_equal. rewrite Nat2Z.inj_succ, Z.pow_succ_r by lia. ring.
Qed.
Lemma digits16_range n v u : digits16 n v u -> 0 <= v < 16 ^ Z.of_nat n /\ length u = n /\ Forall (fun c => c <> 34 /\ c <> 92) u.
Proof.
  induction 1 as [|n v s c d H (IH1 & IH2 & IH3) Hd].
  - change (16 ^ Z.of_nat 0) with 1. split; [lia|]. split; [reflexivity|constructor].
  - rewrite Nat2Z.inj_succ, Z.pow_succ_r by lia. unfold hexd in Hd. split; [lia|].
    rewrite app_length, IH2. split; [cbn; lia|]. apply Forall_app. split; [exact IH3|]. constructor; [lia|constructor].
Qed.
Lemma valid_rune_spec v : valid_rune v = true <-> scalar v.
Proof. unfold valid_rune, scalar. lia. Qed.

Lemma escape_sound e s b r : go_unescape e s = Some (b, r) -> forall t, quoted_text r t -> quoted_text (92 :: e :: s) (b ++ t).
Proof.
  unfold go_unescape. intros H t Ht.
  repeat match type of H with (if ?a =? ?k then Some _ else _) = _ =>
    destruct (Z.eqb_spec a k) as [->|?];
    [injection H as <- <-; cbn [app]; apply qt_escape; [unfold go_escape; cbn [In]; tauto|exact Ht]|] end.
  destruct (Z.eqb_spec e 120) as [->|].
  { destruct (hexn 2 0 s) as [[v r']|] eqn:E; [|discriminate]. injection H as <- <-.
    apply hexn_sound in E as (u & w & Hu & -> & ->). cbn [app]. apply qt_hex; [exact Hu|exact Ht]. }
  destruct ((e =? 117) || (e =? 85)) eqn:Eu.
  { destruct (hexn (if e =? 117 then 4 else 8) 0 s) as [[v r']|] eqn:E; [|discriminate].
    destruct (valid_rune v) eqn:Ev; [|discriminate]. injection H as <- <-. apply valid_rune_spec in Ev.
    apply hexn_sound in E as (u & w & Hu & Ew & ->). rewrite encode_rune_spec by exact Ev.
    rewrite Z.mul_0_l, Z.add_0_l in Ew. subst v.
    assert (Ee : e = 117 \/ e = 85) by lia. clear - Ee Hu Ev Ht. destruct Ee as [-> | ->].
    - apply qt_rune4; assumption.
    - apply qt_rune8; assumption. }
  destruct ((48 <=? e) && (e <=? 55)) eqn:Eo.
  { destruct s as [|x [|y s]]; try discriminate.
    destruct ((48 <=? x) && (x <=? 55) && (48 <=? y) && (y <=? 55)) eqn:Ex; [|discriminate].
    destruct (255 <? (e - 48) * 64 + (x - 48) * 8 + (y - 48)) eqn:El; [discriminate|]. injection H as <- <-.
    cbn [app]. apply qt_octal; unfold octal; try lia. exact Ht. }
  destruct ((e =? 92) || (e =? 34)) eqn:Eq; [|discriminate]. injection H as <- <-. cbn [app].
  apply qt_escape; [|exact Ht]. unfold go_escape. cbn [In]. assert (e = 92 \/ e = 34) as [->| ->] by lia; tauto.
Qed.
Lemma escape_complete e c s : go_escape e c -> go_unescape e s = Some ([c], s).
Proof.
  unfold go_escape. cbn [In]. intros [H|[H|[H|[H|[H|[H|[H|[H|[H|[]]]]]]]]]]; injection H as <- <-; reflexivity.
Qed.
Lemma escape_rest e s b r : bytes_ok s -> go_unescape e s = Some (b, r) -> bytes_ok r /\ (length r <= length s)%nat.
Proof.
  intros Hb H. unfold go_unescape in H.
  repeat match type of H with (if ?a =? ?k then Some _ else _) = _ =>
    destruct (Z.eqb_spec a k) as [->|?]; [injection H as <- <-; now split|] end.
  assert (P : forall n v, hexn n 0 s = Some (v, r) -> bytes_ok r /\ (length r <= length s)%nat).
  { intros k v E. apply hexn_sound in E as (u & w & _ & _ & ->). apply Forall_app in Hb as [_ Hb].
    rewrite app_length. split; [exact Hb|lia]. }
  destruct (Z.eqb_spec e 120) as [->|].
  { destruct (hexn 2 0 s) as [[v r']|] eqn:E; [|discriminate]. injection H as <- ->. now apply P in E. }
  destruct ((e =? 117) || (e =? 85)) eqn:Eu.
  { destruct (hexn (if e =? 117 then 4 else 8) 0 s) as [[v r']|] eqn:E; [|discriminate].
    destruct (valid_rune v); [|discriminate]. injection H as <- ->. now apply P in E. }
  destruct ((48 <=? e) && (e <=? 55)).
  { destruct s as [|x [|y s]]; try discriminate.
    destruct ((48 <=? x) && (x <=? 55) && (48 <=? y) && (y <=? 55)); [|discriminate].
    destruct (255 <? _); [discriminate|]. injection H as <- <-. inversion_clear Hb as [|? ? _ H2]. inversion_clear H2 as [|? ? _ H3].
    split; [exact H3|cbn; lia]. }
  destruct ((e =? 92) || (e =? 34)); [|discriminate]. injection H as <- <-. now split.
Qed.

Lemma unquote_sound f : forall s t, bytes_ok s -> unquote_loop f s = Some (t, []) -> quoted_text s t.
Proof.
  induction f as [|f IH]; intros s t Hb H; [discriminate|].
  destruct s as [|c r]; [discriminate|].
  assert (Hr : bytes_ok r) by (now inversion Hb). assert (Hc : 0 <= c < 256) by (inversion Hb; assumption).
  cbn [unquote_loop] in H. destruct (Z.eqb_spec c 34) as [->|N34].
  { injection H as <- ->. constructor. }
  destruct (Z.eqb_spec c 10) as [->|N10]; [discriminate|].
  destruct (Z.eqb_spec c 92) as [->|N92].
  { destruct r as [|e r1]; [discriminate|]. destruct (go_unescape e r1) as [[b r2]|] eqn:Ee; [|discriminate].
    destruct (unquote_loop f r2) as [[t' rem]|] eqn:Et; [|discriminate]. injection H as <- ->.
    apply escape_sound with r2; [exact Ee|]. apply IH; [|exact Et].
    apply escape_rest in Ee; [tauto|now inversion Hr]. }
  destruct (c <? 128) eqn:E128.
  { destruct (unquote_loop f r) as [[t' rem]|] eqn:Et; [|discriminate]. injection H as <- ->.
    apply qt_ascii; auto. lia. }
  destruct (decode_cases c r Hb) as [(x & rest & Hx & E)|E].
  - rewrite E in H |- *. rewrite decode_char in H by exact Hx. rewrite skipn_char in H.
    assert (Hrest : bytes_ok rest) by (rewrite E in Hb; now apply Forall_app in Hb as [_ Hb]).
    destruct (unquote_loop f rest) as [[t' rem]|] eqn:Et; [|discriminate].
    assert (encode_rune x ++ t' = t /\ rem = []) as [<- ->] by (split; congruence).
    rewrite encode_rune_spec by exact Hx. apply qt_char; auto.
    destruct (Z.lt_ge_cases x 128) as [Hlt|]; [|assumption].
    unfold utf8_char in E. destruct (x <? 0x80) eqn:Ex; [|lia]. cbn [app] in E. injection E as -> _. lia.
  - pose proof (proj2 (decode_bad c r Hb) E) as Hbad. rewrite E in H. cbn [skipn] in H.
    destruct (unquote_loop f r) as [[t' rem]|] eqn:Et; [|discriminate].
    assert (encode_rune rune_error ++ t' = t /\ rem = []) as [<- ->] by (split; congruence).
    rewrite encode_error. apply qt_bad; auto. lia.
Qed.
Lemma loop_escape f e s b r t : go_unescape e s = Some (b, r) -> unquote_loop f r = Some (t, []) ->
  unquote_loop (S f) (92 :: e :: s) = Some (b ++ t, []).
Proof. intros H1 H2. cbn [unquote_loop Z.eqb Pos.eqb]. now rewrite H1, H2. Qed.
Lemma unquote_complete s t : quoted_text s t -> bytes_ok s -> forall f, (length s <= f)%nat -> unquote_loop f s = Some (t, []).
Proof.
  induction 1 as [|c s t H1 H2 H3 H4 _ IH|r s t Hr H1 _ IH|b s t Hr Hbad _ IH|e c s t He _ IH|v u s t Hu _ IH
    |v u s t Hu Hv _ IH|v u s t Hu Hv _ IH|a b c s t Ha Hb' Hc Hl _ IH]; intros Hb f Hf.
  - destruct f; [cbn in Hf; lia|reflexivity].
  - destruct f; [cbn in Hf; lia|]. cbn [unquote_loop length] in *.
    destruct (Z.eqb_spec c 34); [lia|]. destruct (Z.eqb_spec c 10); [lia|]. destruct (Z.eqb_spec c 92); [lia|].
    destruct (c <? 128) eqn:E'; [|lia]. rewrite IH; [reflexivity|now inversion Hb|lia].
  - destruct (utf8_head r Hr H1) as (b & k & Eu & Hbk). pose proof (decode_char r s Hr) as D.
    pose proof (skipn_char r s) as K. apply Forall_app in Hb as [_ Hb]. pose proof (utf8_char_len r) as L.
    rewrite app_length in Hf. rewrite Eu in *. cbn [app length] in *.
    destruct f; [lia|]. cbn [unquote_loop].
    destruct (Z.eqb_spec b 34); [lia|]. destruct (Z.eqb_spec b 10); [lia|]. destruct (Z.eqb_spec b 92); [lia|].
    destruct (b <? 128) eqn:E'; [lia|].
    rewrite D, K, encode_rune_spec by exact Hr. rewrite IH; [now rewrite Eu|exact Hb|lia].
  - destruct f; [cbn in Hf; lia|]. cbn [unquote_loop length] in *.
    destruct (Z.eqb_spec b 34); [lia|]. destruct (Z.eqb_spec b 10); [lia|]. destruct (Z.eqb_spec b 92); [lia|].
    destruct (b <? 128) eqn:E'; [lia|].
    apply decode_bad in Hbad; [|exact Hb]. rewrite Hbad. cbn [skipn]. rewrite IH; [reflexivity|now inversion Hb|lia].
  - destruct f; [cbn in Hf; lia|]. cbn [length] in Hf. change (c :: t) with ([c] ++ t).
    apply loop_escape with s; [now apply escape_complete|]. apply IH; [|lia].
    inversion_clear Hb as [|? ? _ H0]; now inversion H0.
  - destruct f; [cbn in Hf; lia|]. cbn [length] in Hf. rewrite app_length in Hf. change (v :: t) with ([v] ++ t).
    apply loop_escape with s.
    + unfold go_unescape. cbn [Z.eqb Pos.eqb]. now rewrite (hexn_complete _ _ _ Hu).
    + apply IH; [|lia]. inversion_clear Hb as [|? ? _ H0]; inversion_clear H0 as [|? ? _ H3]. now apply Forall_app in H3 as [_ H3].
  - destruct f; [cbn in Hf; lia|]. cbn [length] in Hf. rewrite app_length in Hf.
    apply loop_escape with s.
    + unfold go_unescape. cbn [Z.eqb Pos.eqb orb]. rewrite (hexn_complete _ _ _ Hu), Z.mul_0_l, Z.add_0_l.
      rewrite (proj2 (valid_rune_spec v) Hv). now rewrite encode_rune_spec.
    + apply IH; [|lia]. inversion_clear Hb as [|? ? _ H0]; inversion_clear H0 as [|? ? _ H3]. now apply Forall_app in H3 as [_ H3].
  - destruct f; [cbn in Hf; lia|]. cbn [length] in Hf. rewrite app_length in Hf.
    apply loop_escape with s.
    + unfold go_unescape. cbn [Z.eqb Pos.eqb orb]. rewrite (hexn_complete _ _ _ Hu), Z.mul_0_l, Z.add_0_l.
      rewrite (proj2 (valid_rune_spec v) Hv). now rewrite encode_rune_spec.
    + apply IH; [|lia]. inversion_clear Hb as [|? ? _ H0]; inversion_clear H0 as [|? ? _ H3]. now apply Forall_app in H3 as [_ H3].
  - destruct f; [cbn in Hf; lia|]. cbn [length] in Hf. unfold octal in *.
    change ((a - 48) * 64 + (b - 48) * 8 + (c - 48) :: t) with ([(a - 48) * 64 + (b - 48) * 8 + (c - 48)] ++ t).
    apply loop_escape with s.
    + unfold go_unescape.
      repeat match goal with |- context [a =? ?k] => replace (a =? k) with false by lia; cbn [orb] end.
      replace ((48 <=? a) && (a <=? 55)) with true by lia.
      replace ((48 <=? b) && (b <=? 55) && (48 <=? c) && (c <=? 55)) with true by lia. cbv zeta.
      now replace (255 <? (a - 48) * 64 + (b - 48) * 8 + (c - 48)) with false by lia.
    + apply IH; [|lia]. inversion_clear Hb as [|? ? _ H0]; inversion_clear H0 as [|? ? _ H3].
      inversion_clear H3 as [|? ? _ H5]; now inversion_clear H5.
Qed.
Theorem unquote_exact s t : bytes_ok s -> (unquote s = Some t <-> quoted_text s t).
Proof.
  intro Hb. unfold unquote. split.
  - destruct (unquote_loop (length s) s) as [[t' [|? ?]]|] eqn:E; try discriminate. intro H.
    assert (t' = t) as -> by congruence. now apply unquote_sound with (length s).
  - intro H. rewrite (unquote_complete s t H Hb); [reflexivity|lia].
Qed.

(** * The scans *)

Lemma raw_app_chars u q : Forall (fun c => c <> 34 /\ c <> 92) u -> raw q -> raw (u ++ q).
Proof. induction 1 as [|c u [H1 H2] _ IH]; intro Hq; [exact Hq|]. cbn [app]. constructor; auto. Qed.
Lemma utf8_char_high r : scalar r -> 128 <= r -> Forall (fun c => c <> 34 /\ c <> 92) (utf8_char r).
Proof.
  intros Hs Hr. apply scalar_cases in Hs. unfold utf8_char. destruct (r <? 0x80) eqn:E; [lia|].
  destruct (r <? 0x800) eqn:E2; [|destruct (r <? 0x10000) eqn:E3]; repeat first [apply Forall_nil|apply Forall_cons]; lia.
Qed.
Lemma quoted_raw s t : quoted_text s t -> raw s.
Proof.
  induction 1 as [|c s t H1 H2 H3 H4 _ IH|r s t Hr H1 _ IH|b s t Hr Hbad _ IH|e c s t He _ IH|v u s t Hu _ IH
    |v u s t Hu Hv _ IH|v u s t Hu Hv _ IH|a b c s t Ha Hb Hc Hl _ IH].
  - constructor.
  - now constructor.
  - apply raw_app_chars; [now apply utf8_char_high|exact IH].
  - constructor; [lia|lia|exact IH].
  - now constructor.
  - apply raw_escape. apply digits16_range in Hu as (_ & _ & Hu). now apply raw_app_chars.
  - apply raw_escape. apply digits16_range in Hu as (_ & _ & Hu). now apply raw_app_chars.
  - apply raw_escape. apply digits16_range in Hu as (_ & _ & Hu). now apply raw_app_chars.
  - unfold octal in *. apply raw_escape. apply raw_char; [lia|lia|]. apply raw_char; [lia|lia|exact IH].
Qed.
Lemma scan_value_complete q rest : raw q -> scan_value (q ++ rest) = Some (q, rest).
Proof.
  induction 1 as [|c q H1 H2 _ IH|e q _ IH]; cbn [app scan_value].
  - reflexivity.
  - destruct (Z.eqb_spec c 34); [lia|]. destruct (Z.eqb_spec c 92); [lia|]. now rewrite IH.
  - cbn [Z.eqb Pos.eqb]. now rewrite IH.
Qed.
Lemma scan_value_sound n : forall s q rest, (length s <= n)%nat -> scan_value s = Some (q, rest) -> raw q /\ s = q ++ rest.
Proof.
  induction n as [|n IH]; intros [|c r] q rest Hn H; try discriminate; cbn [length] in Hn; [lia|].
  cbn [scan_value] in H. destruct (Z.eqb_spec c 34) as [->|N1]; [injection H as <- <-; split; [constructor|reflexivity]|].
  destruct (Z.eqb_spec c 92) as [->|N2].
  - destruct r as [|e r1]; [discriminate|]. destruct (scan_value r1) as [[a b]|] eqn:E; [|discriminate].
    injection H as <- <-. apply IH in E as [E ->]; [|cbn in Hn; lia]. split; [now constructor|reflexivity].
  - destruct (scan_value r) as [[a b]|] eqn:E; [|discriminate]. injection H as <- <-.
    apply IH in E as [E ->]; [|lia]. split; [now constructor|reflexivity].
Qed.
Lemma name_char_spec c : name_char c = true <-> 32 < c /\ c <> 58 /\ c <> 34 /\ c <> 127.
Proof. unfold name_char. lia. Qed.
Lemma scan_name_complete n rest : Forall (fun c => 32 < c /\ c <> 58 /\ c <> 34 /\ c <> 127) n ->
  match rest with c :: _ => name_char c = false | [] => True end -> scan_name (n ++ rest) = (n, rest).
Proof.
  induction 1 as [|c n Hc _ IH]; intro Hr; cbn [app].
  - destruct rest as [|c r]; [reflexivity|]. cbn [scan_name]. now rewrite Hr.
  - cbn [scan_name]. apply name_char_spec in Hc. rewrite Hc. now rewrite IH.
Qed.
Lemma scan_name_sound s : forall n rest, scan_name s = (n, rest) ->
  s = n ++ rest /\ Forall (fun c => 32 < c /\ c <> 58 /\ c <> 34 /\ c <> 127) n.
Proof.
  induction s as [|c s IH]; intros n rest H; cbn [scan_name] in H; [injection H as <- <-; split; [reflexivity|constructor]|].
  destruct (name_char c) eqn:E; [|injection H as <- <-; split; [reflexivity|constructor]].
  destruct (scan_name s) as [a b]. injection H as <- <-. destruct (IH a b eq_refl) as [-> Ha].
  split; [reflexivity|]. constructor; [now apply name_char_spec|exact Ha].
Qed.
Lemma same_text_spec a : forall b, same_text a b = true <-> a = b.
Proof.
  induction a as [|x a IH]; intros [|y b]; cbn [same_text]; try easy. rewrite andb_true_iff, IH.
  split; [intros [H ->]; f_equal; lia|intro H; injection H as -> ->; split; [lia|reflexivity]].
Qed.
Lemma skip_spec s : exists w, s = w ++ skip_sp s /\ Forall (eq 32) w.
Proof.
  induction s as [|c s (w & IH & Hw)]; [now exists []|]. cbn [skip_sp]. destruct (Z.eqb_spec c 32) as [->|].
  - exists (32 :: w). cbn [app]. split; [now f_equal|now constructor].
  - now exists [].
Qed.
Lemma skip_name s n : tag_name n -> skip_sp (n ++ s) = n ++ s.
Proof.
  intros [Hn Hf]. destruct n as [|c n]; [easy|]. inversion_clear Hf as [|? ? Hc _]. cbn [app skip_sp]. destruct (Z.eqb_spec c 32); [lia|reflexivity].
Qed.

Lemma loop_name f key n s : tag_name n ->
  tag_loop (S f) key (n ++ 58 :: 34 :: s) =
  match scan_value s with
  | Some (q, tag') => if same_text n key then unquote q else tag_loop f key tag'
  | None => None
  end.
Proof.
  intros Hn. cbn [tag_loop]. rewrite skip_name by exact Hn. destruct Hn as [Hn Hf].
  rewrite scan_name_complete; [|exact Hf|reflexivity]. destruct n; [easy|reflexivity].
Qed.
Lemma tag_complete key tag v : tag_says key tag v -> tag_name key -> bytes_ok tag -> forall f, (length tag <= f)%nat ->
  tag_loop f key tag = Some v.
Proof.
  intros H Hk. induction H as [t v H IH|q v rest Hq|n q rest v Hn Hne Hr H IH]; intros Hb f Hf.
  - cbn [length] in Hf. destruct f; [lia|]. change (tag_loop (S f) key (32 :: t)) with (tag_loop (S f) key t).
    apply IH; [now inversion Hb|lia].
  - rewrite !app_length in Hf. cbn [length] in Hf. destruct f; [lia|].
    change (key ++ [58; 34] ++ q ++ rest) with (key ++ 58 :: 34 :: q ++ rest) in *.
    rewrite loop_name by exact Hk.
    rewrite scan_value_complete by now apply quoted_raw in Hq. rewrite (proj2 (same_text_spec key key) eq_refl).
    apply unquote_exact; [|exact Hq]. apply Forall_app in Hb as [_ Hb]. inversion_clear Hb as [|? ? _ H0].
    inversion_clear H0 as [|? ? _ H1]. now apply Forall_app in H1 as [H1 _].
  - rewrite !app_length in Hf. cbn [length] in Hf. destruct f; [lia|].
    change (n ++ [58; 34] ++ q ++ rest) with (n ++ 58 :: 34 :: q ++ rest) in *.
    rewrite loop_name by exact Hn. rewrite scan_value_complete by exact Hr.
    destruct (same_text n key) eqn:E; [apply same_text_spec in E; easy|].
    apply IH; [|lia]. apply Forall_app in Hb as [_ Hb]. inversion_clear Hb as [|? ? _ H0].
    inversion_clear H0 as [|? ? _ H1]. now apply Forall_app in H1 as [_ H1].
Qed.
Lemma says_spaces key w t v : Forall (eq 32) w -> tag_says key t v -> tag_says key (w ++ t) v.
Proof. induction 1 as [|c w <- _ IH]; intro H; [exact H|]. cbn [app]. apply says_space. auto. Qed.
Lemma tag_sound f : forall key tag v, bytes_ok tag -> tag_loop f key tag = Some v -> tag_says key tag v.
Proof.
  induction f as [|f IH]; intros key tag v Hb H; [discriminate|]. cbn [tag_loop] in H.
  destruct (skip_spec tag) as (w & Et & Hw). set (t := skip_sp tag) in *. clearbody t. subst tag.
  apply says_spaces; [exact Hw|]. apply Forall_app in Hb as [_ Hb]. clear w Hw.
  destruct (scan_name t) as [n rest] eqn:En. apply scan_name_sound in En as [-> Hn].
  destruct n as [|c n]; [discriminate|]. destruct rest as [|a [|b r]]; try discriminate.
  destruct ((a =? 58) && (b =? 34)) eqn:Eab; [|discriminate]. assert (a = 58 /\ b = 34) as [-> ->] by lia.
  destruct (scan_value r) as [[q tag']|] eqn:Es; [|discriminate].
  apply (scan_value_sound (length r)) in Es as [Hq ->]; [|lia].
  assert (Hbq : bytes_ok q /\ bytes_ok tag').
  { apply Forall_app in Hb as [_ Hb]. inversion_clear Hb as [|? ? _ H0]. inversion_clear H0 as [|? ? _ H1].
    now apply Forall_app in H1. }
  change ((c :: n) ++ 58 :: 34 :: q ++ tag') with ((c :: n) ++ [58; 34] ++ q ++ tag').
  destruct (same_text (c :: n) key) eqn:E.
  - apply same_text_spec in E as <-. apply says_here. now apply unquote_exact.
  - apply says_later; [split; [discriminate|exact Hn]| |exact Hq|now apply IH].
    intros Ek. apply same_text_spec in Ek. congruence.
Qed.
Theorem lookup_exact key tag v : bytes_ok tag -> tag_name key -> (tag_lookup key tag = Some v <-> tag_says key tag v).
Proof.
  intros Hb Hk. unfold tag_lookup. split; [now apply tag_sound|]. intro H. apply tag_complete; auto.
Qed.
Theorem get_exact key tag v : bytes_ok tag -> tag_name key ->
  (tag_get key tag = v <-> tag_says key tag v \/ (forall v', ~ tag_says key tag v') /\ v = []).
Proof.
  intros Hb Hk. unfold tag_get. destruct (tag_lookup key tag) as [x|] eqn:E.
  - pose proof (proj1 (lookup_exact key tag x Hb Hk) E) as Hx. split.
    + intros ->. now left.
    + intros [H|[H _]]; [|now apply H in Hx]. apply lookup_exact in H; [congruence|assumption..].
  - assert (N : forall v', ~ tag_says key tag v').
    { intros v' H. apply lookup_exact in H; [congruence|assumption..]. }
    split; [intros <-; right; now split|]. intros [H|[_ ->]]; [now apply N in H|reflexivity].
Qed.

(** * Tags written by the convention *)

Lemma no_says_spaces key w v : tag_name key -> Forall (eq 32) w -> ~ tag_says key w v.
Proof.
  intros Hk Hw H. induction H as [t v H IH|q v rest Hq|n q rest v Hn Hne Hr H IH].
  - apply IH. now inversion Hw.
  - destruct Hk as [Hk Hf]. destruct key as [|c key]; [easy|]. inversion_clear Hw. inversion_clear Hf. lia.
  - destruct Hn as [Hk' Hf]. destruct n as [|c n]; [easy|]. inversion_clear Hw. inversion_clear Hf. lia.
Qed.
Lemma pairs_get key ps tag : tag_name key -> tag_pairs ps tag -> bytes_ok tag ->
  forall v, first_value key ps v -> tag_get key tag = v.
Proof.
  intros Hk H Hb v Hv. apply get_exact; [exact Hb|exact Hk|]. revert Hb v Hv.
  induction H as [w Hw|w n q v0 ps rest Hw Hn Hq H IH]; intros Hb v Hv.
  - destruct Hv as [(a & b & E & _)|[_ ->]]; [now destruct a|]. right. split; [|reflexivity]. intro v'. now apply no_says_spaces.
  - assert (Hb' : bytes_ok rest).
    { apply Forall_app in Hb as [_ Hb]. apply Forall_app in Hb as [_ Hb]. apply Forall_app in Hb as [_ Hb].
      now apply Forall_app in Hb as [_ Hb]. }
    destruct (list_eq_dec Z.eq_dec n key) as [->|Hne].
    + assert (v = v0) as ->.
      { destruct Hv as [([|p a] & b & E & Hf)|[Hf _]].
        - cbn [app] in E. now injection E.
        - cbn [app] in E. injection E as <- E. inversion_clear Hf. easy.
        - inversion_clear Hf. easy. }
      left. apply says_spaces; [exact Hw|]. now apply says_here.
    + assert (Hv' : first_value key ps v).
      { destruct Hv as [([|p a] & b & E & Hf)|[Hf ->]].
        - cbn [app] in E. injection E as -> _ _. easy.
        - cbn [app] in E. injection E as <- ->. left. exists a, b. split; [reflexivity|now inversion Hf].
        - right. split; [now inversion Hf|reflexivity]. }
      destruct (IH Hb' v Hv') as [K|[K ->]].
      * left. apply says_spaces; [exact Hw|]. apply says_later; auto. now apply quoted_raw in Hq.
      * right. split; [|reflexivity]. intros v' Hs. apply (K v'). apply lookup_exact in Hs; [|assumption..].
        apply lookup_exact; [assumption..|]. revert Hs. unfold tag_lookup.
        assert (Hl : (length rest <= length (w ++ n ++ [58%Z; 34%Z] ++ q ++ rest))%nat) by (rewrite !app_length; lia).
        intro Hs. apply tag_complete; [|assumption..|lia].
        apply tag_sound in Hs; [|exact Hb]. clear - Hs Hw Hn Hne Hq Hk Hb.
        assert (X : forall f, (length (w ++ n ++ [58%Z; 34%Z] ++ q ++ rest) <= f)%nat ->
          tag_loop f key (w ++ n ++ [58; 34] ++ q ++ rest) = Some v') by (intros; now apply tag_complete).
        set (f := S (length (w ++ n ++ [58%Z; 34%Z] ++ q ++ rest))) in *. specialize (X f ltac:(unfold f; lia)).
        assert (W : forall g w s, Forall (eq 32) w -> tag_loop g key (w ++ s) = tag_loop g key s).
        { clear. intros g w s Hw. induction Hw as [|c w <- _ IH]; [reflexivity|]. rewrite <- IH. destruct g; reflexivity. }
        rewrite W in X by exact Hw. unfold f in X. change (n ++ [58; 34] ++ q ++ rest) with (n ++ 58 :: 34 :: q ++ rest) in X.
        rewrite loop_name in X by exact Hn. rewrite scan_value_complete in X by now apply quoted_raw in Hq.
        destruct (same_text n key) eqn:E; [apply same_text_spec in E; easy|].
        apply tag_sound in X; [exact X|]. apply Forall_app in Hb as [_ Hb]. apply Forall_app in Hb as [_ Hb].
        apply Forall_app in Hb as [_ Hb]. now apply Forall_app in Hb as [_ Hb].
Qed.
(** Every value can be written. *)
Lemma hexd_of d : 0 <= d < 16 -> exists c, hexd c d /\ 0 <= c < 256.
Proof.
  intro H. destruct (Z_lt_ge_dec d 10); [exists (48 + d)|exists (87 + d)]; unfold hexd; lia.
Qed.
Lemma every_value v : bytes_ok v -> exists q, quoted_text q v /\ bytes_ok q.
Proof.
  induction 1 as [|b v Hb _ (q & IH & Hq)]; [exists [34]; split; [constructor|repeat constructor; unfold is_byte; lia]|].
  unfold is_byte in Hb. destruct (hexd_of (b / 16) ltac:(lia)) as (x & Hx & Bx).
  destruct (hexd_of (b mod 16) ltac:(lia)) as (y & Hy & By).
  exists (92 :: 120 :: [x; y] ++ q). split.
  - replace b with (b / 16 * 16 + b mod 16) by lia. apply qt_hex; [|exact IH].
    change [x; y] with ([x] ++ [y]). apply d16_snoc; [|exact Hy].
    change [x] with ([] ++ [x]). replace (b / 16) with (0 * 16 + b / 16) by lia. apply d16_snoc; [constructor|exact Hx].
  - repeat first [apply Forall_cons; [unfold is_byte; lia|]]. exact Hq.
Qed.
Lemma every_tag ps : Forall (fun p => tag_name (fst p) /\ bytes_ok (fst p) /\ bytes_ok (snd p)) ps ->
  exists tag, tag_pairs ps tag /\ bytes_ok tag.
Proof.
  induction 1 as [|[n v] ps (Hn & Hbn & Hbv) _ (tag & IH & Hb)]; [exists []; split; [now constructor|constructor]|].
  cbn [fst snd] in *. destruct (every_value v Hbv) as (q & Hq & Hbq).
  exists ([32] ++ n ++ [58; 34] ++ q ++ tag). split; [constructor; auto|].
  repeat (apply Forall_app; split); auto; repeat constructor; unfold is_byte; lia.
Qed.
