(** Facts about JSON texts (C45-C47, C54). *)
From Coq Require Import String Ascii.
From Verif Require Import Types DecPrim Text Tools U128 Utf8 Builtin Json TextFacts Spec NumFacts DecWire NumProps.
Notation length := Datatypes.length.

(** Characters that stand for themselves in a string literal. *)
Definition plain_char (c : Z) : Prop := 32 <= c < 128 /\ c <> 34 /\ c <> 92.

Lemma unquote_plain s : Forall plain_char s -> forall f, (length s < f)%nat ->
  json_unquote f (s ++ [34]) = Some s.
Proof.
  induction s as [|c s IH]; intros Hs f Hf; (destruct f as [|f]; [cbn in Hf; lia|]); [reflexivity|].
  inversion_clear Hs as [|? ? [Hc [Hq Hb]] Hs']. cbn [app json_unquote].
  replace (c =? 34) with false by lia. replace (c =? 92) with false by lia.
  replace (c <? 32) with false by lia. replace (c <? 128) with true by lia.
  rewrite IH; [reflexivity|exact Hs'|cbn in Hf; lia].
Qed.

Lemma json_skip_id s : (match s with c :: _ => json_space c = false | [] => True end) -> json_skip s = s.
Proof. destruct s as [|c s]; [reflexivity|]. intro H. cbn [json_skip]. now rewrite H. Qed.
Lemma json_trim_id s c d r : s = c :: r -> json_space c = false ->
  (exists r', s = r' ++ [d]) -> json_space d = false -> json_trim s = s.
Proof.
  intros -> Hc (r' & Hr') Hd. unfold json_trim. rewrite (json_skip_id (c :: r)) by exact Hc.
  rewrite Hr', rev_app_distr. cbn [rev app]. rewrite json_skip_id by exact Hd.
  change (d :: rev r') with ([d] ++ rev r'). now rewrite rev_app_distr, rev_involutive.
Qed.
Lemma trim_quoted s : json_trim (quoted s) = quoted s.
Proof. eapply (json_trim_id _ 34 34); [reflexivity..| |reflexivity]. exists (34 :: s). reflexivity. Qed.

Lemma string_plain old s : Forall plain_char s -> json_string old (quoted s) = Some s.
Proof.
  intro H. unfold json_string. rewrite trim_quoted. unfold quoted. cbn [app].
  apply unquote_plain; [exact H|]. rewrite app_length. cbn. lia.
Qed.

(** * Numbers *)

Lemma digit_plain c : digit c -> plain_char c. Proof. unfold digit, plain_char. lia. Qed.
Lemma digit_is c : digit c -> is_digit c = true. Proof. unfold digit, is_digit. lia. Qed.
Lemma digits_number_ok ds : Forall digit ds -> ds <> [] -> digits_number ds = Some (digits_val ds).
Proof.
  intros H Hne. unfold digits_number. destruct ds as [|c ds]; [easy|].
  replace (forallb is_digit (c :: ds)) with true; [reflexivity|]. symmetry. apply forallb_forall.
  rewrite Forall_forall in H. intros x Hx. now apply digit_is, H.
Qed.
Lemma natural_ok n ds : decimal n ds -> json_natural ds = Some n.
Proof.
  intros (Hd & Hv & Hne & Hz). rewrite <- Hv, <- digits_number_ok by assumption.
  destruct ds as [|c ds]; [easy|]. destruct (Z.eq_dec c 48) as [->|Hc].
  - now rewrite Hz by reflexivity.
  - unfold json_natural. destruct c as [|p|p]; try reflexivity.
    do 6 (destruct p as [p|p|]; try reflexivity). easy.
Qed.
Lemma digits_no_space ds : Forall digit ds -> ds <> [] -> json_trim ds = ds /\ is_null ds = false.
Proof.
  intros H Hne. split.
  - destruct ds as [|c ds]; [easy|]. destruct (exists_last Hne) as (r & d & E).
    eapply json_trim_id; [reflexivity| |eauto|].
    + inversion_clear H as [|? ? Hc _]. unfold digit, json_space in *. lia.
    + rewrite E, Forall_app in H. destruct H as [_ H]. inversion_clear H as [|? ? Hc _].
      unfold digit, json_space in *. lia.
  - destruct ds as [|c ds]; [easy|]. inversion_clear H as [|? ? Hc _]. unfold digit in Hc.
    unfold is_null. destruct c as [|p|p]; try reflexivity.
    do 7 (destruct p as [p|p|]; try reflexivity; try lia).
Qed.
Lemma neg_no_space ds : Forall digit ds -> ds <> [] -> json_trim (45 :: ds) = 45 :: ds.
Proof.
  intros H Hne. destruct (exists_last Hne) as (r & d & E). eapply json_trim_id; [reflexivity..| |].
  - rewrite E. exists (45 :: r). reflexivity.
  - rewrite E, Forall_app in H. destruct H as [_ H]. inversion_clear H as [|? ? Hc _].
    unfold digit, json_space in *. lia.
Qed.
Lemma head_digit {R} (c : Z) (a b : R) : digit c ->
  (match c with 45 => a | _ => b end) = b.
Proof. unfold digit. intro H. destruct c as [|p|p]; try reflexivity. do 6 (destruct p as [p|p|]; try reflexivity; try lia). Qed.

Lemma int64_text z : - 2 ^ 63 <= z < 2 ^ 63 -> json_int64 0 (itoa z) = Some z.
Proof.
  intro Hz. pose proof (itoa_spec z) as H. unfold integer in H. unfold json_int64. cbv zeta.
  destruct (z <? 0) eqn:E.
  - destruct H as (ds & -> & D). pose proof D as (Hd & Hv & Hne & _).
    rewrite neg_no_space by assumption. cbn [is_null]. rewrite (natural_ok (- z)) by assumption.
    replace (- z <=? 2 ^ 63) with true by lia. f_equal. lia.
  - pose proof H as (Hd & Hv & Hne & _). destruct (digits_no_space _ Hd Hne) as [-> ->].
    destruct (itoa z) as [|c ds] eqn:Es; [easy|]. rewrite head_digit by now inversion_clear Hd.
    rewrite (natural_ok z) by assumption. now replace (z <? 2 ^ 63) with true by lia.
Qed.
Lemma uint64_text z : 0 <= z < 2 ^ 64 -> json_uint64 0 (itoa z) = Some z.
Proof.
  intro Hz. pose proof (itoa_spec z) as H. unfold integer in H. unfold json_uint64. cbv zeta.
  destruct (z <? 0) eqn:E; [lia|].
  pose proof H as (Hd & Hv & Hne & _). destruct (digits_no_space _ Hd Hne) as [-> ->].
  rewrite (natural_ok z) by assumption. now replace (z <? 2 ^ 64) with true by lia.
Qed.
Lemma parse_uint_text z : 0 <= z < 2 ^ 64 -> parse_uint (itoa z) = Some z.
Proof.
  intro Hz. pose proof (itoa_spec z) as H. unfold integer in H. destruct (z <? 0) eqn:E; [lia|].
  destruct H as (Hd & Hv & Hne & _). unfold parse_uint. rewrite digits_number_ok by assumption. rewrite Hv.
  now replace (z <? 2 ^ 64) with true by lia.
Qed.
Lemma parse_int_text z : - 2 ^ 63 <= z < 2 ^ 63 -> parse_int (itoa z) = Some z.
Proof.
  intro Hz. pose proof (itoa_spec z) as H. unfold integer in H. destruct (z <? 0) eqn:E.
  - destruct H as (ds & -> & (Hd & Hv & Hne & _)). unfold parse_int, parse_uint.
    rewrite digits_number_ok by assumption. rewrite Hv. replace (- z <? 2 ^ 64) with true by lia.
    replace (- z <=? 2 ^ 63) with true by lia. f_equal. lia.
  - pose proof H as (Hd & Hv & Hne & _). pose proof (parse_uint_text z ltac:(lia)) as Hp.
    destruct (itoa z) as [|c ds]; [easy|]. inversion_clear Hd as [|? ? Hc _].
    unfold parse_int. rewrite (head_digit c) by exact Hc.
    assert (Hq : forall (a b : list Z), (match c with 43 => a | _ => b end) = b).
    { unfold digit in Hc. intros a b. destruct c as [|p|p]; try reflexivity. do 6 (destruct p as [p|p|]; try reflexivity; try lia). }
    rewrite Hq, Hp. now replace (z <? 2 ^ 63) with true by lia.
Qed.
Lemma itoa_plain z : Forall plain_char (itoa z).
Proof.
  pose proof (itoa_spec z) as H. unfold integer in H.
  assert (P : forall n ds, decimal n ds -> Forall plain_char ds).
  { intros n ds D. apply decimal_digits in D. eapply Forall_impl; [|exact D]. exact digit_plain. }
  destruct (z <? 0); [|eauto]. destruct H as (ds & -> & D). constructor; [unfold plain_char; lia|eauto].
Qed.
Lemma itoa_head z : exists c r, itoa z = c :: r /\ c <> 34.
Proof.
  pose proof (itoa_plain z) as H. pose proof (itoa_spec z) as S. destruct (itoa z) as [|c r].
  - unfold integer in S. destruct (z <? 0); [destruct S as (? & ? & _); discriminate|].
    destruct S as (_ & _ & ? & _). easy.
  - inversion_clear H as [|? ? Hc _]. exists c, r. split; [reflexivity|]. unfold plain_char in Hc. lia.
Qed.
Lemma head_quote {R} (c : Z) (a b : R) : c <> 34 -> (match c with 34 => a | _ => b end) = b.
Proof. intro H. destruct c as [|p|p]; try reflexivity. do 6 (destruct p as [p|p|]; try reflexivity; try lia). Qed.

Lemma int64_json_plain z : - 2 ^ 63 <= z < 2 ^ 63 -> int64_unmarshal_json (itoa z) = Ok z.
Proof.
  intro Hz. pose proof (int64_text z Hz) as H. destruct (itoa_head z) as (c & r & E & Hc). rewrite E in *.
  unfold int64_unmarshal_json. rewrite head_quote by exact Hc. now rewrite H.
Qed.
Lemma int64_json_quoted z : - 2 ^ 63 <= z < 2 ^ 63 -> int64_unmarshal_json (quoted (itoa z)) = Ok z.
Proof.
  intro Hz. change (int64_unmarshal_json (quoted (itoa z))) with
    (match json_string [] (quoted (itoa z)) with Some s => of_option (parse_int s) | None => Err EMsg end).
  rewrite string_plain by apply itoa_plain. now rewrite parse_int_text.
Qed.
Lemma uint64_json_plain z : 0 <= z < 2 ^ 64 -> uint64_unmarshal_json (itoa z) = Ok z.
Proof.
  intro Hz. pose proof (uint64_text z Hz) as H. destruct (itoa_head z) as (c & r & E & Hc). rewrite E in *.
  unfold uint64_unmarshal_json. rewrite head_quote by exact Hc. now rewrite H.
Qed.
Lemma uint64_json_quoted z : 0 <= z < 2 ^ 64 -> uint64_unmarshal_json (quoted (itoa z)) = Ok z.
Proof.
  intro Hz. change (uint64_unmarshal_json (quoted (itoa z))) with
    (match json_string [] (quoted (itoa z)) with Some s => of_option (parse_uint s) | None => Err EMsg end).
  rewrite string_plain by apply itoa_plain. now rewrite parse_uint_text.
Qed.

Lemma int64_json z : - 2 ^ 63 <= z < 2 ^ 63 -> int64_unmarshal_json (int64_marshal_json z) = Ok z.
Proof.
  intro Hz. unfold int64_marshal_json.
  destruct ((0xffffffff <? z) || (z <? -0xffffffff)); [now apply int64_json_quoted|now apply int64_json_plain].
Qed.
Lemma uint64_json z : 0 <= z < 2 ^ 64 -> uint64_unmarshal_json (uint64_marshal_json z) = Ok z.
Proof.
  intro Hz. unfold uint64_marshal_json.
  destruct (0xffffffff <? z); [now apply uint64_json_quoted|now apply uint64_json_plain].
Qed.
(** The texts. *)
Lemma int64_json_text z : exists s, integer z s /\
  int64_marshal_json z = if 2 ^ 32 - 1 <? Z.abs z then [34] ++ s ++ [34] else s.
Proof.
  exists (itoa z). split; [apply itoa_spec|]. unfold int64_marshal_json, quoted.
  replace ((0xffffffff <? z) || (z <? -0xffffffff)) with (2 ^ 32 - 1 <? Z.abs z) by lia. reflexivity.
Qed.
Lemma uint64_json_text z : 0 <= z -> exists s, decimal z s /\
  uint64_marshal_json z = if 2 ^ 32 - 1 <? z then [34] ++ s ++ [34] else s.
Proof.
  intro Hz. exists (itoa z). split; [|reflexivity]. pose proof (itoa_spec z) as H. unfold integer in H.
  now destruct (z <? 0) eqn:E; [lia|].
Qed.

(** What is accepted is in range, whatever the bytes. *)
Lemma digits_number_range s n : digits_number s = Some n -> 0 <= n.
Proof.
  unfold digits_number. destruct s as [|c s]; [discriminate|].
  destruct (forallb is_digit (c :: s)) eqn:E; [|discriminate]. intro H. injection H as <-.
  pose proof (digits_val_range (c :: s)) as R. apply R. apply Forall_forall. intros x Hx.
  apply (proj1 (forallb_forall _ _) E) in Hx. unfold is_digit in Hx. unfold digit. lia.
Qed.
Lemma json_natural_range s n : json_natural s = Some n -> 0 <= n.
Proof.
  intro H. assert (H' : digits_number s = Some n); [|now apply digits_number_range in H'].
  destruct s as [|c s]; [exact H|]. unfold json_natural in H. destruct c as [|p|p]; try exact H.
  do 6 (destruct p as [p|p|]; try exact H). destruct s; [exact H|discriminate].
Qed.
Ltac arg f G H := match type of H with context [f ?o] => exact (G o H) end.
Ltac arg0 f G H := match type of H with context [f 0 ?o] => exact (G o H) end.
Lemma parse_uint_range s n : parse_uint s = Some n -> 0 <= n < 2 ^ 64.
Proof.
  unfold parse_uint. destruct (digits_number s) eqn:E; [|discriminate]. apply digits_number_range in E.
  destruct (z <? 2 ^ 64) eqn:E'; [|discriminate]. intro H. injection H as <-. lia.
Qed.
Lemma parse_int_range s n : parse_int s = Some n -> - 2 ^ 63 <= n < 2 ^ 63.
Proof.
  assert (Hg : forall o, (match parse_uint o with Some n => if n <? 2 ^ 63 then Some n else None | None => None end) = Some n ->
    - 2 ^ 63 <= n < 2 ^ 63).
  { intro o. destruct (parse_uint o) eqn:E; [|discriminate]. apply parse_uint_range in E.
    destruct (z <? 2 ^ 63) eqn:E'; [|discriminate]. intro H. injection H as <-. lia. }
  assert (Hn : forall o, (match parse_uint o with Some n => if n <=? 2 ^ 63 then Some (- n) else None | None => None end) = Some n ->
    - 2 ^ 63 <= n < 2 ^ 63).
  { intro o. destruct (parse_uint o) eqn:E; [|discriminate]. apply parse_uint_range in E.
    destruct (z <=? 2 ^ 63) eqn:E'; [|discriminate]. intro H. injection H as <-. lia. }
  unfold parse_int. intro H. destruct s as [|c s]; [arg parse_uint Hg H|].
  destruct c as [|p|p]; try arg parse_uint Hg H.
  do 6 (destruct p as [p|p|]; try arg parse_uint Hg H). arg parse_uint Hn H.
Qed.
Lemma json_int64_range old data n : - 2 ^ 63 <= old < 2 ^ 63 -> json_int64 old data = Some n -> - 2 ^ 63 <= n < 2 ^ 63.
Proof.
  intro Ho. unfold json_int64. cbv zeta. destruct (is_null _); [intro H; injection H as <-; exact Ho|].
  assert (Hg : forall o, (match json_natural o with Some n => if n <? 2 ^ 63 then Some n else None | None => None end) = Some n ->
    - 2 ^ 63 <= n < 2 ^ 63).
  { intro o. destruct (json_natural o) eqn:E; [|discriminate]. apply json_natural_range in E.
    destruct (z <? 2 ^ 63) eqn:E'; [|discriminate]. intro H. injection H as <-. lia. }
  assert (Hn : forall o, (match json_natural o with Some n => if n <=? 2 ^ 63 then Some (- n) else None | None => None end) = Some n ->
    - 2 ^ 63 <= n < 2 ^ 63).
  { intro o. destruct (json_natural o) eqn:E; [|discriminate]. apply json_natural_range in E.
    destruct (z <=? 2 ^ 63) eqn:E'; [|discriminate]. intro H. injection H as <-. lia. }
  intro H. destruct (json_trim data) as [|c s]; [arg json_natural Hg H|].
  destruct c as [|p|p]; try arg json_natural Hg H.
  do 6 (destruct p as [p|p|]; try arg json_natural Hg H). arg json_natural Hn H.
Qed.
Lemma int64_json_range data z : int64_unmarshal_json data = Ok z -> - 2 ^ 63 <= z < 2 ^ 63.
Proof.
  assert (Hg : forall d, of_option (json_int64 0 d) = Ok z -> - 2 ^ 63 <= z < 2 ^ 63).
  { intro d. destruct (json_int64 0 d) eqn:E; [|discriminate]. apply json_int64_range in E; [|lia].
    intro H. injection H as <-. exact E. }
  unfold int64_unmarshal_json. destruct data as [|c s]; [discriminate|]. intro H.
  destruct c as [|p|p]; try arg0 json_int64 Hg H.
  do 6 (destruct p as [p|p|]; try arg0 json_int64 Hg H).
  destruct (json_string _ _); [|discriminate]. destruct (parse_int l) eqn:E; [|discriminate].
  injection H as <-. now apply parse_int_range in E.
Qed.
Lemma uint64_json_range data z : uint64_unmarshal_json data = Ok z -> 0 <= z < 2 ^ 64.
Proof.
  assert (Hg : forall d, of_option (json_uint64 0 d) = Ok z -> 0 <= z < 2 ^ 64).
  { intro d. unfold json_uint64. cbv zeta. destruct (is_null _); [intro H; injection H as <-; lia|].
    destruct (json_natural _) eqn:E; [|discriminate]. apply json_natural_range in E.
    destruct (z0 <? 2 ^ 64) eqn:E'; [|discriminate]. intro H. injection H as <-. lia. }
  unfold uint64_unmarshal_json. destruct data as [|c s]; [discriminate|]. intro H.
  destruct c as [|p|p]; try arg0 json_uint64 Hg H.
  do 6 (destruct p as [p|p|]; try arg0 json_uint64 Hg H).
  destruct (json_string _ _); [|discriminate]. destruct (parse_uint l) eqn:E; [|discriminate].
  injection H as <-. now apply parse_uint_range in E.
Qed.

(** * Hexadecimal *)

Definition hex_char (c : Z) : Prop := 48 <= c <= 57 \/ 97 <= c <= 102.
Lemma hex_digit_char d : 0 <= d < 16 -> hex_char (hex_digit d).
Proof. intro H. unfold hex_digit, hex_char. destruct (d <? 10) eqn:E; lia. Qed.
Lemma hex_val_digit d : 0 <= d < 16 -> hex_val (hex_digit d) = Some d.
Proof.
  intro H. unfold hex_digit, hex_val. destruct (d <? 10) eqn:E.
  - replace ((48 <=? 48 + d) && (48 + d <=? 57)) with true by lia. f_equal. lia.
  - replace ((48 <=? 87 + d) && (87 + d <=? 57)) with false by lia.
    replace ((97 <=? 87 + d) && (87 + d <=? 102)) with true by lia. f_equal. lia.
Qed.
Lemma hex_round bs : bytes_ok bs -> hex_decode (hex_encode bs) = Some bs.
Proof.
  induction bs as [|b bs IH]; intro H; [reflexivity|]. inversion_clear H as [|? ? Hb Hbs]. unfold is_byte in Hb.
  unfold hex_encode. cbn [flat_map app hex_decode]. rewrite !hex_val_digit by lia.
  fold (hex_encode bs). rewrite IH by exact Hbs. f_equal. f_equal. lia.
Qed.
Lemma hex_chars bs : bytes_ok bs -> Forall hex_char (hex_encode bs).
Proof.
  intro H. unfold hex_encode. apply Forall_flat_map. eapply Forall_impl; [|exact H].
  intros b Hb. unfold is_byte in Hb. repeat first [apply Forall_nil | apply Forall_cons]; apply hex_digit_char; lia.
Qed.
Lemma hex_length bs : zlen (hex_encode bs) = 2 * zlen bs.
Proof. unfold hex_encode. induction bs as [|b bs IH]; [reflexivity|]. cbn [flat_map app]. rewrite !zlen_cons, IH. lia. Qed.
(** Which bytes a pair of characters stands for. *)
Lemma hex_nth bs : bytes_ok bs -> forall i b, nth_error bs i = Some b ->
  exists x y, nth_error (hex_encode bs) (2 * i) = Some x /\ nth_error (hex_encode bs) (2 * i + 1) = Some y /\
    hex_val x = Some (b / 16) /\ hex_val y = Some (b mod 16).
Proof.
  induction bs as [|b bs IH]; intros H [|i] b' Hi; try discriminate; inversion_clear H as [|? ? Hb Hbs].
  - injection Hi as <-. unfold is_byte in Hb. do 2 eexists. split; [reflexivity|]. split; [reflexivity|].
    rewrite !hex_val_digit by lia. auto.
  - destruct (IH Hbs i b' Hi) as (x & y & Hx & Hy & H1). exists x, y.
    replace (2 * S i)%nat with (S (S (2 * i))) by lia.
    replace (S (S (2 * i)) + 1)%nat with (S (S (2 * i + 1))) by lia. auto.
Qed.
Lemma hexbytes_json bs : bytes_ok bs -> hexbytes_unmarshal_json (hexbytes_marshal_json bs) = Ok bs.
Proof.
  intro H. unfold hexbytes_unmarshal_json, hexbytes_marshal_json. rewrite string_plain.
  - now rewrite hex_round.
  - eapply Forall_impl; [|now apply hex_chars]. unfold hex_char, plain_char. lia.
Qed.
Lemma hexbytes_json_text bs : bytes_ok bs -> exists s, hexbytes_marshal_json bs = [34] ++ s ++ [34] /\
  zlen s = 2 * zlen bs /\ Forall hex_char s /\
  forall i b, nth_error bs i = Some b ->
    exists x y, nth_error s (2 * i) = Some x /\ nth_error s (2 * i + 1) = Some y /\
      hex_val x = Some (b / 16) /\ hex_val y = Some (b mod 16).
Proof.
  intro H. exists (hex_encode bs). split; [reflexivity|]. split; [apply hex_length|].
  split; [now apply hex_chars|now apply hex_nth].
Qed.
Lemma hex_val_range c x : hex_val c = Some x -> 0 <= x < 16.
Proof.
  unfold hex_val. destruct ((48 <=? c) && (c <=? 57)) eqn:E1; [intro H; injection H as <-; lia|].
  destruct ((97 <=? c) && (c <=? 102)) eqn:E2; [intro H; injection H as <-; lia|].
  destruct ((65 <=? c) && (c <=? 70)) eqn:E3; [intro H; injection H as <-; lia|discriminate].
Qed.
Lemma hex_decode_bytes : forall n s bs, (length s < n)%nat -> hex_decode s = Some bs -> bytes_ok bs /\ zlen s = 2 * zlen bs.
Proof.
  induction n as [|n IH]; intros s bs Hn H; [lia|]. destruct s as [|a [|b s]].
  - injection H as <-. split; [constructor|reflexivity].
  - discriminate.
  - cbn [hex_decode] in H. destruct (hex_val a) as [x|] eqn:Ea; [|discriminate].
    destruct (hex_val b) as [y|] eqn:Eb; [|discriminate].
    destruct (hex_decode s) as [l|] eqn:El; [|discriminate]. assert (bs = 16 * x + y :: l) as -> by congruence.
    apply hex_val_range in Ea, Eb. apply IH in El as [H1 H2]; [|cbn in Hn; lia].
    split; [constructor; [unfold is_byte; clear - Ea Eb; lia|exact H1]|]. rewrite !zlen_cons, H2. lia.
Qed.
Lemma hexbytes_json_bytes data bs : hexbytes_unmarshal_json data = Ok bs -> bytes_ok bs.
Proof.
  unfold hexbytes_unmarshal_json. destruct (json_string [] data) as [s|]; [|discriminate].
  destruct (hex_decode s) as [l|] eqn:E; [|discriminate]. intro H. injection H as <-.
  apply (hex_decode_bytes (S (length s)) s l); [lia|exact E].
Qed.

(** * 128 bits *)

Lemma big_scan_digits ds : Forall digit ds -> forall o p count acc, 0 <= count -> (ds <> [] \/ 0 < count) -> p <> PSep ->
  big_scan 10 o p false count acc ds = Some (fold_left (fun a c => 10 * a + (c - 48)) ds acc).
Proof.
  induction ds as [|c ds IH]; intros H o p count acc Hc Hne Hp.
  - cbn [big_scan fold_left]. destruct Hne as [Hne|Hne]; [easy|]. replace (count =? 0) with false by lia.
    now destruct p.
  - inversion_clear H as [|? ? Hd Hds]. cbn [big_scan fold_left].
    replace (c =? 95) with false by (unfold digit in Hd; lia).
    replace (big_digit c) with (c - 48) by (unfold big_digit; now rewrite digit_is).
    replace (c - 48 <? 10) with true by (unfold digit in Hd; lia).
    rewrite IH; [|exact Hds|lia|lia|easy]. f_equal. f_equal. lia.
Qed.
Lemma big_decimal n ds : decimal n ds -> big_set_string ds = Some n.
Proof.
  intros (Hd & Hv & Hne & Hz). destruct ds as [|c ds]; [easy|].
  assert (H0 : big_nat (c :: ds) = Some n).
  { destruct (Z.eq_dec c 48) as [->|Hc].
    - specialize (Hz eq_refl). injection Hz as ->. cbn. now rewrite <- Hv.
    - assert (Hs : big_nat (c :: ds) = big_scan 10 false PStart false 0 0 (c :: ds)).
      { unfold big_nat. destruct c as [|p|p]; try reflexivity. do 6 (destruct p as [p|p|]; try reflexivity). easy. }
      rewrite Hs, big_scan_digits; [f_equal; exact Hv|exact Hd|lia|now left|easy]. }
  inversion_clear Hd as [|? ? Hc _]. unfold digit in Hc. unfold big_set_string.
  destruct c as [|p|p]; try exact H0. do 6 (destruct p as [p|p|]; try exact H0; try lia).
Qed.

Lemma fixed_le_be n z : rev (put_uint BE n z) = put_uint LE n z.
Proof. rewrite !put_uint_fixed. rewrite fixed_rev. apply rev_involutive. Qed.

Lemma u128_json lo hi lo' hi' : 0 <= lo < 2 ^ 64 -> 0 <= hi < 2 ^ 64 ->
  u128_unmarshal_json lo' hi' LE (u128_marshal_json lo hi LE) = Ok (lo, hi).
Proof.
  intros Hlo Hhi. unfold u128_unmarshal_json, u128_marshal_json. unfold quoted at 1. cbn [app is_null].
  assert (Hn : forall (a b : outcome (Z * Z)) s, (match 34 :: s with [110; 117; 108; 108] => a | _ => b end) = b) by reflexivity.
  rewrite string_plain by apply itoa_plain. unfold u128_string.
  rewrite u128_bigint_spec by assumption. replace (hi * 2 ^ 64 + lo) with (lo + hi * 2 ^ 64) by lia.
  set (n := lo + hi * 2 ^ 64).
  assert (Hr : 0 <= n < 2 ^ 128) by (unfold n; nia).
  pose proof (itoa_spec n) as D. unfold integer in D. replace (n <? 0) with false in D by lia.
  assert (Hd : u128_json_decimal LE (itoa n) = Ok (lo, hi)).
  { unfold u128_json_decimal. rewrite (big_decimal n) by exact D. unfold fill_bytes16.
    replace (Z.abs n <? 2 ^ 128) with true by lia. rewrite (Z.abs_eq n) by lia.
    rewrite reverse_bytes_rev, fixed_le_be, put_uint_fixed.
    pose proof (keeps_read_uint128 Bin LE lo hi Hlo Hhi [] [] None) as K.
    replace (hi * 2 ^ 64 + lo) with n in K by (unfold n; lia). cbn [app] in K.
    rewrite app_nil_r in K. change (zlen []) with 0 in K. unfold new_decoder.
    exact (f_equal fst K). }
  destruct (itoa n) as [|c ds] eqn:Es; [destruct D as (_ & _ & ? & _); easy|].
  destruct D as (HD & _ & _ & Hz). cbn [hd] in Hz.
  destruct (Z.eq_dec c 48) as [->|Hc].
  - specialize (Hz eq_refl). injection Hz as ->. exact Hd.
  - destruct c as [|p|p]; try exact Hd. do 6 (destruct p as [p|p|]; try exact Hd). easy.
Qed.
Lemma u128_json_text lo hi o : 0 <= lo < 2 ^ 64 -> 0 <= hi < 2 ^ 64 ->
  exists ds, u128_marshal_json lo hi o = [34] ++ ds ++ [34] /\ decimal (lo + hi * 2 ^ 64) ds.
Proof.
  intros Hlo Hhi. exists (u128_string lo hi o). split; [reflexivity|]. unfold u128_string.
  rewrite u128_bigint_spec by assumption.
  replace (hi * 2 ^ 64 + lo) with (lo + hi * 2 ^ 64) by lia. pose proof (itoa_spec (lo + hi * 2 ^ 64)) as D. unfold integer in D.
  now replace (lo + hi * 2 ^ 64 <? 0) with false in D by lia.
Qed.
Lemma i128_json lo hi o : 0 <= lo < 2 ^ 64 -> 0 <= hi < 2 ^ 64 ->
  i128_unmarshal_json (u128_marshal_json lo hi o) = Ok (lo, hi).
Proof.
  intros Hlo Hhi. unfold i128_unmarshal_json. unfold u128_marshal_json at 1. rewrite trim_quoted.
  replace (u128_string lo hi o) with (u128_string lo hi LE).
  - now apply u128_json.
  - unfold u128_string. now rewrite !u128_bigint_spec.
Qed.

(** * Bool *)
Lemma bool_json b : bool_unmarshal_json (bool_marshal_json b) = Ok b.
Proof. now destruct b. Qed.
Lemma bool_json_number z : - 2 ^ 63 <= z < 2 ^ 63 -> bool_unmarshal_json (itoa z) = Ok (negb (z =? 0)).
Proof. intro Hz. unfold bool_unmarshal_json. now rewrite int64_text. Qed.

(** Texts that make UnmarshalJSON of 128-bit integers panic. *)
Lemma hex_val_some c : hex_char c -> exists x, hex_val c = Some x.
Proof.
  unfold hex_char, hex_val. intros [H|H].
  - replace ((48 <=? c) && (c <=? 57)) with true by lia. eauto.
  - replace ((48 <=? c) && (c <=? 57)) with false by lia.
    replace ((97 <=? c) && (c <=? 102)) with true by lia. eauto.
Qed.
Lemma hex_decode_some : forall n s, length s = (2 * n)%nat -> Forall hex_char s -> exists bs, hex_decode s = Some bs /\ length bs = n.
Proof.
  induction n as [|n IH]; intros s Hl H.
  - destruct s; [|discriminate]. exists []. auto.
  - destruct s as [|a [|b s]]; [cbn in Hl; lia..|]. inversion_clear H as [|? ? Ha H']. inversion_clear H' as [|? ? Hb Hs].
    destruct (hex_val_some a Ha) as [x Ex], (hex_val_some b Hb) as [y Ey].
    destruct (IH s) as (bs & E & L); [cbn in Hl; lia|exact Hs|].
    exists (16 * x + y :: bs). cbn [hex_decode]. rewrite Ex, Ey, E. cbn [length]. auto.
Qed.
Lemma u128_hex_panics lo hi o s : zlen s = 16 -> Forall hex_char s ->
  u128_unmarshal_json lo hi o (quoted (48 :: 120 :: s)) = Panic.
Proof.
  intros Hl H. unfold u128_unmarshal_json. replace (is_null (quoted (48 :: 120 :: s))) with false by reflexivity.
  rewrite string_plain.
  - unfold u128_json_hex. cbn [skipn]. rewrite Hl. cbn [Z.eqb negb Pos.eqb].
    destruct (hex_decode_some 8 s) as (bs & -> & L); [unfold zlen in Hl; lia|exact H|].
    do 8 (destruct bs as [|? bs]; [discriminate|]). destruct bs; [|discriminate]. reflexivity.
  - constructor; [unfold plain_char; lia|]. constructor; [unfold plain_char; lia|].
    eapply Forall_impl; [|exact H]. unfold hex_char, plain_char. lia.
Qed.
Lemma u128_large_panics lo hi o n ds : decimal n ds -> 2 ^ 128 <= n ->
  u128_unmarshal_json lo hi o (quoted ds) = Panic.
Proof.
  intros D Hn. unfold u128_unmarshal_json. replace (is_null (quoted ds)) with false by reflexivity.
  pose proof D as (Hd & Hv & Hne & Hz). rewrite string_plain by (eapply Forall_impl; [exact digit_plain|exact Hd]).
  assert (H : u128_json_decimal o ds = Panic).
  { unfold u128_json_decimal. rewrite (big_decimal n) by exact D. unfold fill_bytes16.
    now replace (Z.abs n <? 2 ^ 128) with false by lia. }
  destruct ds as [|c ds]; [easy|]. destruct (Z.eq_dec c 48) as [->|Hc].
  - specialize (Hz eq_refl). injection Hz as ->. cbn in Hv. lia.
  - destruct c as [|p|p]; try exact H. do 6 (destruct p as [p|p|]; try exact H). easy.
Qed.
(** Other results never panic. *)
Lemma of_option_total {A} (o : option A) : (exists x, of_option o = Ok x) \/ (exists e, of_option o = Err e).
Proof. destruct o; cbn; eauto. Qed.
Lemma int64_json_total data : (exists z, int64_unmarshal_json data = Ok z) \/ (exists e, int64_unmarshal_json data = Err e).
Proof.
  destruct data as [|c r]; [right; eexists; reflexivity|]. unfold int64_unmarshal_json.
  destruct (Z.eq_dec c 34) as [->|Hc].
  - destruct (json_string [] (34 :: r)); [apply of_option_total|eauto].
  - rewrite head_quote by exact Hc. apply of_option_total.
Qed.
Lemma uint64_json_total data : (exists z, uint64_unmarshal_json data = Ok z) \/ (exists e, uint64_unmarshal_json data = Err e).
Proof.
  destruct data as [|c r]; [right; eexists; reflexivity|]. unfold uint64_unmarshal_json.
  destruct (Z.eq_dec c 34) as [->|Hc].
  - destruct (json_string [] (34 :: r)); [apply of_option_total|eauto].
  - rewrite head_quote by exact Hc. apply of_option_total.
Qed.
Lemma hexbytes_json_total data : (exists z, hexbytes_unmarshal_json data = Ok z) \/ (exists e, hexbytes_unmarshal_json data = Err e).
Proof. unfold hexbytes_unmarshal_json. destruct (json_string [] data); [apply of_option_total|eauto]. Qed.

Lemma integer_fun z s : integer z s -> s = itoa z.
Proof.
  intro H. pose proof (itoa_spec z) as H'. unfold integer in *. destruct (z <? 0).
  - destruct H as (a & -> & Ha), H' as (b & -> & Hb). f_equal. eapply decimal_unique; eassumption.
  - eapply decimal_unique; eassumption.
Qed.
Lemma decimal_integer z s : decimal z s -> integer z s.
Proof.
  intros (H1 & H2 & H3 & H4). unfold integer. pose proof (digits_val_range s H1). destruct (z <? 0) eqn:E; [lia|].
  repeat split; assumption.
Qed.
Lemma int64_json_both z s : - 2 ^ 63 <= z < 2 ^ 63 -> integer z s ->
  int64_unmarshal_json s = Ok z /\ int64_unmarshal_json ([34] ++ s ++ [34]) = Ok z.
Proof. intros Hz H. apply integer_fun in H. subst s. split; [now apply int64_json_plain|now apply int64_json_quoted]. Qed.
Lemma uint64_json_both z s : 0 <= z < 2 ^ 64 -> decimal z s ->
  uint64_unmarshal_json s = Ok z /\ uint64_unmarshal_json ([34] ++ s ++ [34]) = Ok z.
Proof. intros Hz H. apply decimal_integer, integer_fun in H. subst s. split; [now apply uint64_json_plain|now apply uint64_json_quoted]. Qed.
Lemma int64_json_outcome data :
  (exists z, int64_unmarshal_json data = Ok z /\ - 2 ^ 63 <= z < 2 ^ 63) \/ (exists e, int64_unmarshal_json data = Err e).
Proof. destruct (int64_json_total data) as [[z H]|H]; [left|now right]. exists z. split; [exact H|now apply int64_json_range in H]. Qed.
Lemma uint64_json_outcome data :
  (exists z, uint64_unmarshal_json data = Ok z /\ 0 <= z < 2 ^ 64) \/ (exists e, uint64_unmarshal_json data = Err e).
Proof. destruct (uint64_json_total data) as [[z H]|H]; [left|now right]. exists z. split; [exact H|now apply uint64_json_range in H]. Qed.
Lemma hexbytes_json_outcome data :
  (exists bs, hexbytes_unmarshal_json data = Ok bs /\ bytes_ok bs) \/ (exists e, hexbytes_unmarshal_json data = Err e).
Proof. destruct (hexbytes_json_total data) as [[z H]|H]; [left|now right]. exists z. split; [exact H|now apply hexbytes_json_bytes in H]. Qed.

(** Numbers out of range. *)
Lemma int64_text_outside z : ~ - 2 ^ 63 <= z < 2 ^ 63 -> json_int64 0 (itoa z) = None.
Proof.
  intro Hz. pose proof (itoa_spec z) as H. unfold integer in H. unfold json_int64. cbv zeta.
  destruct (z <? 0) eqn:E.
  - destruct H as (ds & -> & D). pose proof D as (Hd & Hv & Hne & _).
    rewrite neg_no_space by assumption. cbn [is_null]. rewrite (natural_ok (- z)) by assumption.
    now replace (- z <=? 2 ^ 63) with false by lia.
  - pose proof H as (Hd & Hv & Hne & _). destruct (digits_no_space _ Hd Hne) as [-> ->].
    destruct (itoa z) as [|c ds] eqn:Es; [easy|]. rewrite head_digit by now inversion_clear Hd.
    rewrite (natural_ok z) by assumption. now replace (z <? 2 ^ 63) with false by lia.
Qed.
Lemma parse_int_outside z : ~ - 2 ^ 63 <= z < 2 ^ 63 -> parse_int (itoa z) = None.
Proof.
  intro Hz. pose proof (itoa_spec z) as H. unfold integer in H. destruct (z <? 0) eqn:E.
  - destruct H as (ds & -> & (Hd & Hv & Hne & _)). unfold parse_int, parse_uint.
    rewrite digits_number_ok by assumption. rewrite Hv. destruct (- z <? 2 ^ 64); [|reflexivity].
    now replace (- z <=? 2 ^ 63) with false by lia.
  - pose proof H as (Hd & Hv & Hne & _).
    destruct (itoa z) as [|c ds] eqn:Ez; [easy|]. inversion_clear Hd as [|? ? Hc Hds].
    unfold parse_int. rewrite (head_digit c) by exact Hc.
    assert (Hq : forall (a b : list Z), (match c with 43 => a | _ => b end) = b).
    { unfold digit in Hc. intros a b. destruct c as [|p|p]; try reflexivity. do 6 (destruct p as [p|p|]; try reflexivity; try lia). }
    rewrite Hq. unfold parse_uint. rewrite digits_number_ok by (easy || now constructor). rewrite Hv.
    destruct (z <? 2 ^ 64); [|reflexivity]. now replace (z <? 2 ^ 63) with false by lia.
Qed.
Lemma int64_json_outside z s : ~ - 2 ^ 63 <= z < 2 ^ 63 -> integer z s ->
  int64_unmarshal_json s = Err EMsg /\ int64_unmarshal_json ([34] ++ s ++ [34]) = Err EMsg.
Proof.
  intros Hz H. apply integer_fun in H. subst s. split.
  - pose proof (int64_text_outside z Hz) as H. destruct (itoa_head z) as (c & r & E & Hc). rewrite E in *.
    unfold int64_unmarshal_json. rewrite head_quote by exact Hc. now rewrite H.
  - change (int64_unmarshal_json ([34] ++ itoa z ++ [34])) with
    (match json_string [] (quoted (itoa z)) with Some s => of_option (parse_int s) | None => Err EMsg end).
    rewrite string_plain by apply itoa_plain. now rewrite parse_int_outside.
Qed.
Lemma bool_json_integer z s : - 2 ^ 63 <= z < 2 ^ 63 -> integer z s -> bool_unmarshal_json s = Ok (negb (z =? 0)).
Proof. intros Hz H. apply integer_fun in H. subst s. now apply bool_json_number. Qed.
Lemma json_bool_number z : json_bool false (itoa z) = None.
Proof.
  pose proof (itoa_spec z) as H. unfold integer in H.
  assert (K : exists c r, json_trim (itoa z) = c :: r /\ (digit c \/ c = 45)).
  { destruct (z <? 0).
    - destruct H as (ds & -> & (Hd & _ & Hne & _)). exists 45, ds. rewrite neg_no_space by assumption. auto.
    - destruct H as (Hd & _ & Hne & _). rewrite (proj1 (digits_no_space _ Hd Hne)).
      destruct (itoa z) as [|c ds]; [easy|]. exists c, ds. inversion_clear Hd as [|? ? Hc _]. auto. }
  destruct K as (c & r & E & Hc). unfold json_bool, is_null. rewrite E. unfold digit in Hc.
  destruct c as [|p|p]; try reflexivity. do 7 (destruct p as [p|p|]; try reflexivity; try lia).
Qed.
Lemma bool_json_outside z s : ~ - 2 ^ 63 <= z < 2 ^ 63 -> integer z s -> bool_unmarshal_json s = Err EMsg.
Proof.
  intros Hz H. apply integer_fun in H. subst s. unfold bool_unmarshal_json.
  rewrite int64_text_outside by exact Hz. now rewrite json_bool_number.
Qed.

(** What a hexadecimal character stands for, in words. *)
Definition hex_value (c d : Z) : Prop := (0 <= d < 10 /\ c = 48 + d) \/ (10 <= d < 16 /\ c = 97 + (d - 10)).
Lemma hexbytes_json_text' bs : bytes_ok bs -> exists s, hexbytes_marshal_json bs = [34] ++ s ++ [34] /\
  zlen s = 2 * zlen bs /\ Forall hex_char s /\
  forall i b, nth_error bs i = Some b ->
    exists x y, nth_error s (2 * i) = Some x /\ nth_error s (2 * i + 1) = Some y /\
      hex_value x (b / 16) /\ hex_value y (b mod 16).
Proof.
  intro H. destruct (hexbytes_json_text bs H) as (s & E & L & F & N). exists s. repeat split; try assumption.
  intros i b Hi. destruct (N i b Hi) as (x & y & Hx & Hy & Vx & Vy). exists x, y. repeat split; try assumption.
  - pose proof (Forall_forall hex_char s) as [Q _]. specialize (Q F x (nth_error_In _ _ Hx)). revert Vx.
    unfold hex_char in Q. unfold hex_val, hex_value. intro Vx.
    destruct ((48 <=? x) && (x <=? 57)) eqn:E1; [assert (x - 48 = b / 16) by congruence; lia|].
    destruct ((97 <=? x) && (x <=? 102)) eqn:E2; [assert (x - 87 = b / 16) by congruence; lia|lia].
  - pose proof (Forall_forall hex_char s) as [Q _]. specialize (Q F y (nth_error_In _ _ Hy)). revert Vy.
    unfold hex_char in Q. unfold hex_val, hex_value. intro Vy.
    destruct ((48 <=? y) && (y <=? 57)) eqn:E1; [assert (y - 48 = b mod 16) by congruence; lia|].
    destruct ((97 <=? y) && (y <=? 102)) eqn:E2; [assert (y - 87 = b mod 16) by congruence; lia|lia].
Qed.
