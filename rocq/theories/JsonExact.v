(** The JSON methods accept exactly the texts of JsonSpec.v. *)
From Verif Require Import Types DecPrim Text Tools U128 Utf8 Builtin Spec Utf8Facts NumFacts DecWire NumProps TextFacts Json JsonFacts JsonSpec.
From Coq Require Import Lia.
Notation length := Datatypes.length.

Lemma blank_space c : json_space c = true <-> blank c.
Proof. unfold json_space, blank. lia. Qed.

Lemma skip_split s : exists w, Forall blank w /\ s = w ++ json_skip s.
Proof.
  induction s as [|c s (w & Hw & IH)]; [exists []; auto|]. cbn [json_skip].
  destruct (json_space c) eqn:E.
  - exists (c :: w). split; [constructor; [now apply blank_space|exact Hw]|]. cbn [app]. now f_equal.
  - exists []. auto.
Qed.
Lemma skip_app w s : Forall blank w -> json_skip (w ++ s) = json_skip s.
Proof.
  induction 1 as [|c w Hc _ IH]; [reflexivity|]. cbn [app json_skip]. apply blank_space in Hc. now rewrite Hc.
Qed.
Lemma trim_padded s : padded (json_trim s) s.
Proof.
  unfold json_trim. destruct (skip_split s) as (w1 & H1 & E1).
  destruct (skip_split (rev (json_skip s))) as (w2 & H2 & E2).
  exists w1, (rev w2). split; [exact H1|]. split; [now apply Forall_rev|].
  rewrite E1 at 1. f_equal. rewrite <- rev_app_distr, <- E2. now rewrite rev_involutive.
Qed.
(** Texts that begin and end with something else. *)
Definition tight (s : list Z) : Prop :=
  exists c d r r', s = c :: r /\ s = r' ++ [d] /\ ~ blank c /\ ~ blank d.
Lemma not_blank c : ~ blank c -> json_space c = false.
Proof. intro H. destruct (json_space c) eqn:E; [|reflexivity]. now apply blank_space in E. Qed.
Lemma padded_trim s data : tight s -> padded s data -> json_trim data = s.
Proof.
  intros (c & d & r & r' & E1 & E2 & Hc & Hd) (w1 & w2 & H1 & H2 & ->). unfold json_trim.
  rewrite skip_app by exact H1. rewrite (json_skip_id (s ++ w2)) by (rewrite E1; cbn [app]; now apply not_blank).
  rewrite rev_app_distr, skip_app by now apply Forall_rev.
  rewrite json_skip_id; [apply rev_involutive|]. rewrite E2, rev_app_distr. now apply not_blank.
Qed.

Lemma hexd_val c d : hex_val c = Some d <-> hexd c d.
Proof.
  unfold hex_val, hexd.
  destruct ((48 <=? c) && (c <=? 57)) eqn:E1; [|destruct ((97 <=? c) && (c <=? 102)) eqn:E2;
    [|destruct ((65 <=? c) && (c <=? 70)) eqn:E3]].
  all: split; intro H; try (injection H as <-); try (f_equal); try lia; discriminate H.
Qed.
Lemma hex4_unit s n r : hex4 s = Some (n, r) <-> exists u, unit16 n u /\ s = u ++ r.
Proof.
  split.
  - destruct s as [|a [|b [|c [|d s]]]]; try discriminate. cbn [hex4].
    destruct (hex_val a) as [a'|] eqn:Ea; [|discriminate]. destruct (hex_val b) as [b'|] eqn:Eb; [|discriminate].
    destruct (hex_val c) as [c'|] eqn:Ec; [|discriminate]. destruct (hex_val d) as [d'|] eqn:Ed; [|discriminate].
    intro H. injection H as <- <-. apply hexd_val in Ea, Eb, Ec, Ed. exists [a; b; c; d]. split; [|reflexivity].
    exists a, b, c, d, a', b', c', d'. repeat split; try assumption. lia.
  - intros (u & (a & b & c & d & a' & b' & c' & d' & -> & Ha & Hb & Hc & Hd & ->) & ->).
    apply hexd_val in Ha, Hb, Hc, Hd. cbn [app hex4]. rewrite Ha, Hb, Hc, Hd. do 2 f_equal. lia.
Qed.
Lemma unit16_range n u : unit16 n u -> 0 <= n < 65536 /\ length u = 4%nat.
Proof.
  intros (a & b & c & d & a' & b' & c' & d' & -> & Ha & Hb & Hc & Hd & ->). unfold hexd in *. split; [lia|reflexivity].
Qed.
Lemma low_surrogate_spec s m r : low_surrogate s = Some (m, r) <->
  exists u, unit16 m u /\ low_surr m /\ s = 92 :: 117 :: u ++ r.
Proof.
  split.
  - intro H. assert (K : exists r1, s = 92 :: 117 :: r1 /\
      match hex4 r1 with
      | Some (n, r') => if (0xDC00 <=? n) && (n <? 0xE000) then Some (n, r') else None
      | None => None end = Some (m, r)).
    { destruct s as [|x [|y s]]; try discriminate.
      - unfold low_surrogate in H. destruct x as [|p|p]; try discriminate; do 7 (destruct p as [p|p|]; try discriminate).
      - unfold low_surrogate in H.
        destruct x as [|p|p]; try discriminate; do 7 (destruct p as [p|p|]; try discriminate).
        destruct y as [|p|p]; try discriminate; do 7 (destruct p as [p|p|]; try discriminate).
        now exists s. }
    destruct K as (r1 & -> & K). destruct (hex4 r1) as [[n r']|] eqn:E; [|discriminate].
    destruct ((0xDC00 <=? n) && (n <? 0xE000)) eqn:El; [|discriminate]. injection K as <- <-.
    apply hex4_unit in E as (u & Hu & ->). exists u. split; [exact Hu|]. split; [unfold low_surr; lia|reflexivity].
  - intros (u & Hu & Hl & ->). cbn [low_surrogate]. rewrite (proj2 (hex4_unit (u ++ r) m r)) by now exists u.
    unfold low_surr in Hl. destruct ((0xDC00 <=? m) && (m <? 0xE000)) eqn:El; [reflexivity|lia].
Qed.
Lemma escape_spec e c : json_escape e = Some c <-> escape e c.
Proof.
  unfold json_escape, escape. cbn [In]. split.
  - destruct ((e =? 34) || (e =? 92) || (e =? 47)) eqn:E1; [intro H; injection H as <-; assert (e = 34 \/ e = 92 \/ e = 47) as [->|[->| ->]] by lia; tauto|].
    destruct (Z.eqb_spec e 98) as [->|]; [intro H; injection H as <-; tauto|].
    destruct (Z.eqb_spec e 102) as [->|]; [intro H; injection H as <-; tauto|].
    destruct (Z.eqb_spec e 110) as [->|]; [intro H; injection H as <-; tauto|].
    destruct (Z.eqb_spec e 114) as [->|]; [intro H; injection H as <-; tauto|].
    destruct (Z.eqb_spec e 116) as [->|]; [intro H; injection H as <-; tauto|discriminate].
  - intros [H|[H|[H|[H|[H|[H|[H|[H|[]]]]]]]]]; injection H as <- <-; reflexivity.
Qed.

(** The two directions of json_unquote. *)
Lemma match117 {R} (x : Z) (a b : R) : x <> 117 -> (match x with 117 => a | _ => b end) = b.
Proof. intro H. destruct x as [|p|p]; try reflexivity. do 7 (destruct p as [p|p|]; try reflexivity; try lia). Qed.
Lemma escape_not_u e c : escape e c -> e <> 117.
Proof. intros H ->. apply escape_spec in H. discriminate H. Qed.

(** One step of the loop. *)
Lemma unquote_escape f e r1 : e <> 117 -> json_unquote (S f) (92 :: e :: r1) =
  match json_escape e with Some c' => option_map (cons c') (json_unquote f r1) | None => None end.
Proof.
  intro H. cbn [json_unquote Z.eqb Pos.eqb]. now rewrite match117.
Qed.

Lemma utf8_head r : scalar r -> 128 <= r -> exists b s, utf8_char r = b :: s /\ 128 <= b.
Proof.
  intros Hs Hr. apply scalar_cases in Hs. unfold utf8_char. destruct (r <? 0x80) eqn:E; [lia|].
  destruct (r <? 0x800); [|destruct (r <? 0x10000)]; do 2 eexists; (split; [reflexivity|]); lia.
Qed.
Lemma encode_error : encode_rune rune_error = replacement. Proof. reflexivity. Qed.

Lemma option_map_some {A B} (f : A -> B) o b : option_map f o = Some b -> exists a, o = Some a /\ b = f a.
Proof. destruct o as [a|]; [|discriminate]. intro H. inversion H. eauto. Qed.

Lemma unquote_sound : forall f s t, bytes_ok s -> json_unquote f s = Some t -> literal s t.
Proof.
  induction f as [|f IH]; intros s t Hb H; [discriminate|].
  destruct s as [|c r]; [discriminate|].
  assert (Hr : bytes_ok r) by (now inversion Hb).
  assert (Hc : 0 <= c < 256) by (inversion Hb; assumption).
  cbn [json_unquote] in H. destruct (Z.eqb_spec c 34) as [->|N34].
  { destruct r; [|discriminate]. injection H as <-. constructor. }
  destruct (Z.eqb_spec c 92) as [->|N92].
  { destruct r as [|e r1]; [discriminate|]. assert (Hr1 : bytes_ok r1) by (now inversion Hr).
    destruct (Z.eq_dec e 117) as [->|Ne].
    - destruct (hex4 r1) as [[n r2]|] eqn:E4; [|discriminate].
      apply hex4_unit in E4 as (u & Hu & ->). apply Forall_app in Hr1 as [_ Hr2].
      destruct (unit16_range n u Hu) as [Hn _].
      destruct ((0xD800 <=? n) && (n <? 0xE000)) eqn:Es.
      + destruct (n <? 0xDC00) eqn:Eh.
        * destruct (low_surrogate r2) as [[m r3]|] eqn:El.
          -- apply low_surrogate_spec in El as (u' & Hu' & Hm & ->).
             assert (Hr3 : bytes_ok r3) by (now inversion_clear Hr2 as [|? ? _ H2]; inversion_clear H2 as [|? ? _ H3]; apply Forall_app in H3 as [_ H3]).
             apply option_map_some in H as (t' & Et & ->).
             unfold low_surr in Hm.
             rewrite encode_rune_spec by (unfold scalar; lia).
             apply (lit_pair n u m u'); auto; unfold high_surr, low_surr; lia.
          -- apply option_map_some in H as (t' & Et & ->).
             rewrite encode_error. apply (lit_lone n u); auto; [unfold high_surr; lia|].
             intros _ m u' s' Hu' Hm ->. rewrite (proj2 (low_surrogate_spec _ m s')) in El by now exists u'. discriminate.
        * apply option_map_some in H as (t' & Et & ->).
          rewrite encode_error. apply (lit_lone n u); auto; [unfold low_surr; lia|]. unfold high_surr. lia.
      + apply option_map_some in H as (t' & Et & ->).
        rewrite encode_rune_spec by (unfold scalar; lia).
        apply (lit_u n u); auto; unfold high_surr, low_surr; lia.
    - rewrite match117 in H by exact Ne. destruct (json_escape e) as [c'|] eqn:Ee; [|discriminate].
      apply option_map_some in H as (t' & Et & ->).
      apply lit_escape; [now apply escape_spec|auto]. }
  destruct (c <? 32) eqn:E32; [discriminate|].
  destruct (c <? 128) eqn:E128.
  { apply option_map_some in H as (t' & Et & ->).
    constructor; auto. lia. }
  destruct (decode_cases c r Hb) as [(x & rest & Hx & E)|E].
  - rewrite E in H |- *. rewrite decode_char in H by exact Hx. rewrite skipn_char in H.
    assert (Hrest : bytes_ok rest) by (rewrite E in Hb; now apply Forall_app in Hb as [_ Hb]).
    apply option_map_some in H as (t' & Et & ->).
    rewrite encode_rune_spec by exact Hx. apply lit_char; auto.
    destruct (Z.lt_ge_cases x 128) as [Hlt|]; [|assumption].
    unfold utf8_char in E. destruct (x <? 0x80) eqn:Ex; [|lia]. cbn [app] in E. injection E as -> _. lia.
  - pose proof (proj2 (decode_bad c r Hb) E) as Hbad. rewrite E in H. cbn [skipn] in H.
    apply option_map_some in H as (t' & Et & ->).
    rewrite encode_error. apply lit_bad; auto. lia.
Qed.

Lemma unquote_complete s t : literal s t -> bytes_ok s -> forall f, (length s <= f)%nat -> json_unquote f s = Some t.
Proof.
  induction 1 as [|c s t H1 H2 H3 _ IH|r s t Hr H1 _ IH|b s t Hr Hbad _ IH|e c s t He _ IH|n u s t Hu H1 H2 _ IH
    |n u m u' s t Hu Hn Hu' Hm _ IH|n u s t Hu Hn Hno _ IH]; intros Hb f Hf.
  - destruct f; [cbn in Hf; lia|reflexivity].
  - destruct f; [cbn in Hf; lia|]. cbn [json_unquote length] in *.
    destruct (Z.eqb_spec c 34); [lia|]. destruct (Z.eqb_spec c 92); [lia|].
    destruct (c <? 32) eqn:E; [lia|]. destruct (c <? 128) eqn:E'; [|lia].
    rewrite IH; [reflexivity|now inversion Hb|lia].
  - destruct (utf8_head r Hr H1) as (b & k & Eu & Hbk). pose proof (decode_char r s Hr) as D.
    pose proof (skipn_char r s) as K. apply Forall_app in Hb as [_ Hb]. pose proof (utf8_char_len r) as L.
    rewrite app_length in Hf. rewrite Eu in *. cbn [app length] in *.
    destruct f; [lia|]. cbn [json_unquote].
    destruct (Z.eqb_spec b 34); [lia|]. destruct (Z.eqb_spec b 92); [lia|].
    destruct (b <? 32) eqn:E; [lia|]. destruct (b <? 128) eqn:E'; [lia|].
    rewrite D, K, encode_rune_spec by exact Hr. rewrite IH; [now rewrite Eu|exact Hb|lia].
  - destruct f; [cbn in Hf; lia|]. cbn [json_unquote length] in *.
    destruct (Z.eqb_spec b 34); [lia|]. destruct (Z.eqb_spec b 92); [lia|].
    destruct (b <? 32) eqn:E; [lia|]. destruct (b <? 128) eqn:E'; [lia|].
    apply decode_bad in Hbad; [|exact Hb]. rewrite Hbad. cbn [skipn]. rewrite IH; [reflexivity|now inversion Hb|lia].
  - destruct f; [cbn in Hf; lia|]. cbn [length] in Hf. rewrite unquote_escape by now apply escape_not_u in He.
    rewrite (proj2 (escape_spec e c) He).
    rewrite IH; [reflexivity|inversion_clear Hb as [|? ? _ H0]; now inversion H0|lia].
  - destruct f; [cbn in Hf; lia|]. cbn [length] in Hf. rewrite app_length in Hf. cbn [json_unquote Z.eqb Pos.eqb].
    rewrite (proj2 (hex4_unit (u ++ s) n s)) by now exists u. destruct (unit16_range n u Hu) as [Hn _].
    destruct ((0xD800 <=? n) && (n <? 0xE000)) eqn:Es; [unfold high_surr, low_surr in *; lia|].
    rewrite encode_rune_spec by (unfold scalar; lia).
    rewrite IH; [reflexivity| |lia]. inversion_clear Hb as [|? ? _ H0]; inversion_clear H0 as [|? ? _ H3].
    now apply Forall_app in H3 as [_ H3].
  - destruct f; [cbn in Hf; lia|]. cbn [length] in Hf. rewrite app_length in Hf. cbn [length] in Hf. rewrite app_length in Hf.
    cbn [json_unquote Z.eqb Pos.eqb].
    rewrite (proj2 (hex4_unit (u ++ 92 :: 117 :: u' ++ s) n (92 :: 117 :: u' ++ s))) by now exists u.
    unfold high_surr, low_surr in *.
    destruct ((0xD800 <=? n) && (n <? 0xE000)) eqn:Es; [|lia]. destruct (n <? 0xDC00) eqn:Eh; [|lia].
    rewrite (proj2 (low_surrogate_spec (92 :: 117 :: u' ++ s) m s)) by (exists u'; unfold low_surr; auto).
    rewrite encode_rune_spec by (unfold scalar; lia).
    rewrite IH; [reflexivity| |lia]. inversion_clear Hb as [|? ? _ H0]; inversion_clear H0 as [|? ? _ H3].
    apply Forall_app in H3 as [_ H3]. inversion_clear H3 as [|? ? _ H4]; inversion_clear H4 as [|? ? _ H5].
    now apply Forall_app in H5 as [_ H5].
  - destruct f; [cbn in Hf; lia|]. cbn [length] in Hf. rewrite app_length in Hf. cbn [json_unquote Z.eqb Pos.eqb].
    rewrite (proj2 (hex4_unit (u ++ s) n s)) by now exists u.
    assert (Hbs : bytes_ok s).
    { inversion_clear Hb as [|? ? _ H0]; inversion_clear H0 as [|? ? _ H3]. now apply Forall_app in H3 as [_ H3]. }
    destruct ((0xD800 <=? n) && (n <? 0xE000)) eqn:Es; [|unfold high_surr, low_surr in *; lia].
    replace (if n <? 0xDC00 then low_surrogate s else None) with (@None (Z * list Z)).
    + rewrite encode_error. rewrite IH; [reflexivity|exact Hbs|lia].
    + destruct (n <? 0xDC00) eqn:Eh; [|reflexivity]. destruct (low_surrogate s) as [[m r3]|] eqn:El; [|reflexivity].
      apply low_surrogate_spec in El as (u' & Hu' & Hm & E). exfalso. apply (Hno ltac:(unfold high_surr; lia) m u' r3); assumption.
Qed.

(** * Strings *)

Lemma literal_end s t : literal s t -> exists s', s = s' ++ [34].
Proof.
  induction 1 as [|c s t H1 H2 H3 _ (s' & IH)|r s t Hr H1 _ (s' & IH)|b s t Hr Hbad _ (s' & IH)|e c s t He _ (s' & IH)
    |n u s t Hu H1 H2 _ (s' & IH)|n u m u' s t Hu Hn Hu' Hm _ (s' & IH)|n u s t Hu Hn Hno _ (s' & IH)].
  1: now exists [].
  all: subst s.
  - now exists (c :: s').
  - exists (utf8_char r ++ s'). now rewrite app_assoc.
  - now exists (b :: s').
  - now exists (92 :: e :: s').
  - exists (92 :: 117 :: u ++ s'). cbn [app]. now rewrite app_assoc.
  - exists (92 :: 117 :: u ++ 92 :: 117 :: u' ++ s'). cbn [app]. rewrite <- app_assoc. cbn [app]. now rewrite app_assoc.
  - exists (92 :: 117 :: u ++ s'). cbn [app]. now rewrite app_assoc.
Qed.
Lemma literal_tight s t : literal s t -> tight (34 :: s).
Proof.
  intro H. destruct (literal_end s t H) as (s' & ->). exists 34, 34, (s' ++ [34]), (34 :: s').
  repeat split; unfold blank; lia.
Qed.
Lemma null_tight : tight [110; 117; 108; 108].
Proof. exists 110, 108, [117; 108; 108], [110; 117; 108]. repeat split; unfold blank; lia. Qed.
Lemma is_null_spec s : is_null s = true <-> s = [110; 117; 108; 108].
Proof.
  split; [|now intros ->]. unfold is_null.
  destruct s as [|a [|b [|c [|d [|e s]]]]]; intro H.
  all: try (destruct a as [|p|p]; try discriminate; do 7 (destruct p as [p|p|]; try discriminate)).
  all: try (destruct b as [|p|p]; try discriminate; do 7 (destruct p as [p|p|]; try discriminate)).
  all: try (destruct c as [|p|p]; try discriminate; do 7 (destruct p as [p|p|]; try discriminate)).
  all: try (destruct d as [|p|p]; try discriminate; do 7 (destruct p as [p|p|]; try discriminate)).
  all: try discriminate.
  reflexivity.
Qed.
Lemma padded_bytes s data : padded s data -> bytes_ok data -> bytes_ok s.
Proof. intros (w1 & w2 & _ & _ & ->) H. apply Forall_app in H as [_ H]. now apply Forall_app in H as [H _]. Qed.

Lemma json_string_exact old data t : bytes_ok data ->
  (json_string old data = Some t <-> json_str t data \/ json_nil data /\ t = old).
Proof.
  intro Hb. pose proof (trim_padded data) as Hp. pose proof (padded_bytes _ _ Hp Hb) as Ht.
  assert (Hq : forall c r, c <> 34 -> (match c :: r with 34 :: r => json_unquote (length r) r | s => if is_null s then Some old else None end)
    = if is_null (c :: r) then Some old else None).
  { intros c r H. destruct c as [|p|p]; try reflexivity. do 6 (destruct p as [p|p|]; try reflexivity; try lia). }
  split.
  - unfold json_string. destruct (json_trim data) as [|c r] eqn:E; [discriminate|].
    destruct (Z.eq_dec c 34) as [->|N].
    + intro H. left. exists r. split; [|exact Hp]. eapply unquote_sound; [|exact H]. now inversion Ht.
    + rewrite Hq by exact N. destruct (is_null (c :: r)) eqn:En; [|discriminate].
      intro H. right. apply is_null_spec in En. rewrite En in Hp. split; [exact Hp|congruence].
  - intros [(s & Hl & Hs)|(Hn & ->)]; unfold json_string.
    + rewrite (padded_trim _ _ (literal_tight s t Hl) Hs). apply unquote_complete; [exact Hl| |lia].
      apply padded_bytes in Hs; [now inversion Hs|exact Hb].
    + now rewrite (padded_trim _ _ null_tight Hn).
Qed.

(** * Numbers *)

Lemma is_digit_spec c : is_digit c = true <-> digit c.
Proof. unfold is_digit, digit. lia. Qed.
Lemma digits_number_exact s n : digits_number s = Some n <-> numeral n s.
Proof.
  split.
  - unfold digits_number. destruct s as [|c s]; [discriminate|].
    destruct (forallb is_digit (c :: s)) eqn:E; [|discriminate]. intro H.
    assert (Hn : fold_left (fun a c => 10 * a + (c - 48)) (c :: s) 0 = n) by congruence.
    split; [|split; [discriminate|exact Hn]]. apply Forall_forall. intros x Hx.
    apply is_digit_spec. now apply (proj1 (forallb_forall is_digit (c :: s)) E).
  - intros (Hd & Hne & <-). now apply digits_number_ok.
Qed.
Lemma natural_exact s n : json_natural s = Some n <-> decimal n s.
Proof.
  split; [|apply natural_ok]. intro H.
  assert (K : digits_number s = Some n /\ (hd 0 s = 48 -> s = [48])).
  { destruct s as [|c s]; [discriminate|]. destruct (Z.eq_dec c 48) as [->|N].
    - destruct s as [|c2 s]; [|discriminate]. split; [exact H|reflexivity].
    - split; [|cbn [hd]; lia]. unfold json_natural in H. destruct c as [|p|p]; try exact H.
      do 6 (destruct p as [p|p|]; try exact H). lia. }
  destruct K as [K1 K2]. apply digits_number_exact in K1 as (Hd & Hne & Hv). repeat split; auto.
Qed.
Lemma decimal_tight n ds : decimal n ds -> tight ds.
Proof.
  intros (Hd & _ & Hne & _). destruct ds as [|c r]; [easy|]. destruct (exists_last Hne) as (r' & d & E).
  exists c, d, r, r'. assert (Hc : digit c) by (now inversion Hd).
  assert (Hdd : digit d) by (rewrite E in Hd; apply Forall_app in Hd as [_ Hd]; now inversion Hd).
  unfold digit, blank in *. repeat split; auto; lia.
Qed.
Lemma decimal_minus_tight n ds : decimal n ds -> tight (45 :: ds).
Proof.
  intros (Hd & _ & Hne & _). destruct (exists_last Hne) as (r' & d & E).
  exists 45, d, ds, (45 :: r').
  assert (Hdd : digit d) by (rewrite E in Hd; apply Forall_app in Hd as [_ Hd]; now inversion Hd).
  unfold digit, blank in *. rewrite E. repeat split; auto; lia.
Qed.
Lemma decimal_not_null n ds : decimal n ds -> is_null ds = false.
Proof.
  intros (Hd & _ & Hne & _). destruct (is_null ds) eqn:E; [|reflexivity]. apply is_null_spec in E. subst ds.
  inversion_clear Hd as [|? ? H _]. unfold digit in H. lia.
Qed.
Lemma decimal_nonneg n ds : decimal n ds -> 0 <= n.
Proof. intros (Hd & <- & _). apply (digits_val_range ds Hd). Qed.
Lemma decimal_head n ds c r : decimal n ds -> ds = c :: r -> digit c.
Proof. intros (Hd & _) ->. now inversion Hd. Qed.

Lemma int64_text_exact old data z :
  json_int64 old data = Some z <->
  json_nil data /\ z = old \/ json_int z data /\ - 2 ^ 63 <= z < 2 ^ 63.
Proof.
  pose proof (trim_padded data) as Hp. split.
  - unfold json_int64. cbv zeta. destruct (is_null (json_trim data)) eqn:En.
    { intro H. left. apply is_null_spec in En. rewrite En in Hp. split; [exact Hp|congruence]. }
    intro H. right.
    assert (G : forall s, json_trim data = s ->
      (match json_natural s with Some n => if n <? 2 ^ 63 then Some n else None | None => None end) = Some z ->
      json_int z data /\ - 2 ^ 63 <= z < 2 ^ 63).
    { intros s Es Hs. destruct (json_natural s) as [n|] eqn:E; [|discriminate]. apply natural_exact in E.
      pose proof (decimal_nonneg _ _ E). destruct (n <? 2 ^ 63) eqn:El; [|discriminate].
      assert (n = z) as -> by congruence. split; [|lia]. exists s. rewrite Z.abs_eq by lia. split; [exact E|].
      left. split; [lia|]. now rewrite <- Es. }
    destruct (json_trim data) as [|c r] eqn:E; [now apply G with (s := [])|].
    destruct (Z.eq_dec c 45) as [->|N].
    + destruct (json_natural r) as [n|] eqn:En'; [|discriminate]. apply natural_exact in En'.
      pose proof (decimal_nonneg _ _ En'). destruct (n <=? 2 ^ 63) eqn:El; [|discriminate].
      assert (- n = z) as <- by congruence. split; [|lia]. exists r. rewrite Z.abs_opp, Z.abs_eq by lia.
      split; [exact En'|]. right. split; [lia|exact Hp].
    + apply G with (s := c :: r); [reflexivity|]. rewrite <- H.
      destruct c as [|p|p]; try reflexivity. do 6 (destruct p as [p|p|]; try reflexivity; try lia).
  - intros [(Hn & ->)|((ds & Hd & [(Hz & Hs)|(Hz & Hs)]) & Hr)]; unfold json_int64; cbv zeta.
    + now rewrite (padded_trim _ _ null_tight Hn).
    + rewrite (padded_trim _ _ (decimal_tight _ _ Hd) Hs). rewrite (decimal_not_null _ _ Hd).
      rewrite Z.abs_eq in Hd by lia. pose proof (natural_ok _ _ Hd) as Hok.
      destruct ds as [|c r]; [now destruct Hd as (_ & _ & ? & _)|].
      rewrite head_digit by now apply (decimal_head _ _ c r Hd). rewrite Hok.
      destruct (z <? 2 ^ 63) eqn:El; [reflexivity|lia].
    + rewrite (padded_trim _ _ (decimal_minus_tight _ _ Hd) Hs).
      replace (is_null (45 :: ds)) with false by reflexivity. rewrite (natural_ok _ _ Hd).
      destruct (Z.abs z <=? 2 ^ 63) eqn:El; [f_equal; lia|lia].
Qed.
Lemma uint64_text_exact old data z :
  json_uint64 old data = Some z <->
  json_nil data /\ z = old \/ (exists ds, decimal z ds /\ padded ds data) /\ 0 <= z < 2 ^ 64.
Proof.
  pose proof (trim_padded data) as Hp. split.
  - unfold json_uint64. cbv zeta. destruct (is_null (json_trim data)) eqn:En.
    { intro H. left. apply is_null_spec in En. rewrite En in Hp. split; [exact Hp|congruence]. }
    intro H. right. destruct (json_natural (json_trim data)) as [n|] eqn:E; [|discriminate]. apply natural_exact in E.
    pose proof (decimal_nonneg _ _ E). destruct (n <? 2 ^ 64) eqn:El; [|discriminate].
    assert (n = z) as -> by congruence. split; [|lia]. eauto.
  - intros [(Hn & ->)|((ds & Hd & Hs) & Hr)]; unfold json_uint64; cbv zeta.
    + now rewrite (padded_trim _ _ null_tight Hn).
    + rewrite (padded_trim _ _ (decimal_tight _ _ Hd) Hs). rewrite (decimal_not_null _ _ Hd), (natural_ok _ _ Hd).
      destruct (z <? 2 ^ 64) eqn:El; [reflexivity|lia].
Qed.

Lemma numeral_nonneg n ds : numeral n ds -> 0 <= n.
Proof. intros (Hd & _ & <-). apply (digits_val_range ds Hd). Qed.
Lemma parse_uint_exact s n : parse_uint s = Some n <-> numeral n s /\ n < 2 ^ 64.
Proof.
  unfold parse_uint. split.
  - destruct (digits_number s) as [k|] eqn:E; [|discriminate]. destruct (k <? 2 ^ 64) eqn:El; [|discriminate].
    intro H. assert (k = n) as -> by congruence. apply digits_number_exact in E. split; [exact E|lia].
  - intros (Hn & Hl). rewrite (proj2 (digits_number_exact s n) Hn). destruct (n <? 2 ^ 64) eqn:El; [reflexivity|lia].
Qed.
Lemma parse_int_exact s z : parse_int s = Some z <-> signed_numeral z s /\ - 2 ^ 63 <= z < 2 ^ 63.
Proof.
  assert (P : forall r, (match parse_uint r with Some n => if n <? 2 ^ 63 then Some n else None | None => None end) = Some z
    <-> numeral z r /\ z < 2 ^ 63).
  { intro r. split.
    - destruct (parse_uint r) as [n|] eqn:E; [|discriminate]. apply parse_uint_exact in E.
      destruct (n <? 2 ^ 63) eqn:El; [|discriminate]. intro H. assert (n = z) as -> by congruence. split; [apply E|lia].
    - intros (Hn & Hl). rewrite (proj2 (parse_uint_exact r z)) by (split; [exact Hn|lia]).
      destruct (z <? 2 ^ 63) eqn:El; [reflexivity|lia]. }
  assert (M : forall r, (match parse_uint r with Some n => if n <=? 2 ^ 63 then Some (- n) else None | None => None end) = Some z
    <-> numeral (- z) r /\ - z <= 2 ^ 63).
  { intro r. split.
    - destruct (parse_uint r) as [n|] eqn:E; [|discriminate]. apply parse_uint_exact in E.
      destruct (n <=? 2 ^ 63) eqn:El; [|discriminate]. intro H. assert (z = - n) as -> by congruence.
      rewrite Z.opp_involutive. split; [apply E|lia].
    - intros (Hn & Hl). rewrite (proj2 (parse_uint_exact r (- z))) by (split; [exact Hn|lia]).
      destruct (- z <=? 2 ^ 63) eqn:El; [f_equal; lia|lia]. }
  assert (H45 : parse_int s = match s with
     | 45 :: r => match parse_uint r with Some n => if n <=? 2 ^ 63 then Some (- n) else None | None => None end
     | 43 :: r => match parse_uint r with Some n => if n <? 2 ^ 63 then Some n else None | None => None end
     | _ => match parse_uint s with Some n => if n <? 2 ^ 63 then Some n else None | None => None end end).
  { unfold parse_int. destruct s as [|c s]; [reflexivity|]. destruct c as [|p|p]; try reflexivity.
    do 6 (destruct p as [p|p|]; try reflexivity). }
  rewrite H45. clear H45. unfold signed_numeral.
  assert (D : forall c r n, numeral n (c :: r) -> digit c) by (intros c r n (Hd & _); now inversion Hd).
  destruct s as [|c s].
  - rewrite P. split.
    + intros (Hn & Hl). pose proof (numeral_nonneg _ _ Hn). split; [now left|lia].
    + intros ([Hn|[(ds & E & _)|(ds & E & _)]] & Hl); [split; [exact Hn|lia]|discriminate..].
  - destruct (Z.eq_dec c 45) as [->|N45]; [|destruct (Z.eq_dec c 43) as [->|N43]].
    + rewrite M. split.
      * intros (Hn & Hl). pose proof (numeral_nonneg _ _ Hn). split; [right; right; eauto|lia].
      * intros ([Hn|[(ds & E & Hn)|(ds & E & Hn)]] & Hl).
        -- apply D in Hn. unfold digit in Hn. lia.
        -- discriminate.
        -- injection E as <-. split; [exact Hn|lia].
    + rewrite P. split.
      * intros (Hn & Hl). pose proof (numeral_nonneg _ _ Hn). split; [right; left; eauto|lia].
      * intros ([Hn|[(ds & E & Hn)|(ds & E & Hn)]] & Hl).
        -- apply D in Hn. unfold digit in Hn. lia.
        -- injection E as <-. split; [exact Hn|lia].
        -- discriminate.
    + match goal with |- ?L = _ <-> _ => assert (HL : L =
        (match parse_uint (c :: s) with Some n => if n <? 2 ^ 63 then Some n else None | None => None end)) end.
      { destruct c as [|p|p]; try reflexivity. do 6 (destruct p as [p|p|]; try reflexivity; try lia). }
      rewrite HL, P. split.
      * intros (Hn & Hl). pose proof (numeral_nonneg _ _ Hn). split; [now left|lia].
      * intros ([Hn|[(ds & E & Hn)|(ds & E & Hn)]] & Hl); [split; [exact Hn|lia]|congruence..].
Qed.

Lemma hex_decode_exact s bs : hex_decode s = Some bs <-> hex_text s bs.
Proof.
  split.
  - revert bs. remember (length s) as n eqn:En. revert s En. induction n as [n IH] using lt_wf_ind.
    intros s -> bs H. destruct s as [|a [|b s]]; [|discriminate|].
    + injection H as <-. constructor.
    + cbn [hex_decode] in H. destruct (hex_val a) as [x|] eqn:Ea; [|discriminate].
      destruct (hex_val b) as [y|] eqn:Eb; [|discriminate]. destruct (hex_decode s) as [l|] eqn:El; [|discriminate].
      assert (bs = 16 * x + y :: l) as -> by congruence.
      apply hexd_val in Ea, Eb. constructor; auto. apply (IH (length s)); auto. cbn. lia.
  - induction 1 as [|a b x y s bs Ha Hb _ IH]; [reflexivity|]. apply hexd_val in Ha, Hb. cbn [hex_decode].
    now rewrite Ha, Hb, IH.
Qed.

(** * Integer literals of math/big *)

Inductive rest (b : Z) : Z -> list Z -> Z -> Prop :=
| rest_nil n : rest b n [] n
| rest_dig n c d s m : base_digit b c d -> rest b (n * b + d) s m -> rest b n (c :: s) m
| rest_sep n c d s m : base_digit b c d -> rest b (n * b + d) s m -> rest b n (95 :: c :: s) m.

Lemma digit_big b c d : b <= 36 -> (base_digit b c d <-> big_digit c <? b = true /\ d = big_digit c).
Proof.
  intro Hb. unfold base_digit, big_digit, is_digit.
  destruct ((48 <=? c) && (c <=? 57)) eqn:E1; [|destruct ((97 <=? c) && (c <=? 122)) eqn:E2;
    [|destruct ((65 <=? c) && (c <=? 90)) eqn:E3]]; split; intro; lia.
Qed.
Lemma not_sep b c d : base_digit b c d -> c <> 95.
Proof. unfold base_digit. lia. Qed.

Lemma rest_app b n s m : rest b n s m -> forall s0, digits_of b n s0 -> digits_of b m (s0 ++ s).
Proof.
  induction 1 as [n|n c d s m Hc _ IH|n c d s m Hc _ IH]; intros s0 H0; [now rewrite app_nil_r|..].
  - change (c :: s) with ([c] ++ s). rewrite app_assoc. apply IH. now constructor.
  - change (95 :: c :: s) with ([95; c] ++ s). rewrite app_assoc. apply IH. now constructor.
Qed.
Lemma rest_trans b n s m : rest b n s m -> forall s' m', rest b m s' m' -> rest b n (s ++ s') m'.
Proof.
  induction 1 as [n|n c d s m Hc _ IH|n c d s m Hc _ IH]; intros s' m' H'; [exact H'|..]; cbn [app].
  - apply rest_dig with d; auto.
  - apply rest_sep with d; auto.
Qed.
Lemma digits_rest b m s : digits_of b m s <-> exists c d s', s = c :: s' /\ base_digit b c d /\ rest b d s' m.
Proof.
  split.
  - induction 1 as [c d Hc|n s c d _ (c0 & d0 & s' & -> & H0 & IH) Hc|n s c d _ (c0 & d0 & s' & -> & H0 & IH) Hc].
    + exists c, d, []. split; [reflexivity|split; [exact Hc|constructor]].
    + exists c0, d0, (s' ++ [c]). split; [reflexivity|split; [exact H0|]]. eapply rest_trans; [exact IH|].
      apply rest_dig with d; [exact Hc|constructor].
    + exists c0, d0, (s' ++ [95; c]). split; [reflexivity|split; [exact H0|]]. eapply rest_trans; [exact IH|].
      apply rest_sep with d; [exact Hc|constructor].
  - intros (c & d & s' & -> & Hc & Hr). apply (rest_app b d s' m Hr [c]). now constructor.
Qed.

Lemma scan_bad b o p k a s : big_scan b o p true k a s = None.
Proof.
  revert p k a. induction s as [|c s IH]; intros p k a; [reflexivity|]. cbn [big_scan orb].
  destruct (c =? 95); [apply IH|]. destruct (big_digit c <? b); [apply IH|reflexivity].
Qed.
Lemma scan_rest b o (Hb : b <= 36) : forall s k a m, 0 < k ->
  (big_scan b o PDigit false k a s = Some m <-> rest b a s m).
Proof.
  intro s. remember (length s) as n eqn:En. revert s En. induction n as [n IH] using lt_wf_ind.
  intros s -> k a m Hk. destruct s as [|c s]; cbn [big_scan orb].
  - destruct (Z.eqb_spec k 0); [lia|]. split; intro H; [|now inversion H].
    assert (a = m) as -> by congruence. constructor.
  - destruct (Z.eqb_spec c 95) as [->|N].
    + destruct s as [|c2 s]; cbn [big_scan orb].
      * split; intro H; [discriminate|]. inversion H; subst. now apply not_sep in H3.
      * destruct (Z.eqb_spec c2 95) as [->|N2].
        -- rewrite scan_bad. split; intro H; [discriminate|]. inversion H; subst; now apply not_sep in H3.
        -- split; intro H.
           ++ destruct (big_digit c2 <? b) eqn:E; [|discriminate]. apply rest_sep with (big_digit c2); [now apply digit_big|].
              apply (IH (length s)) with (k := k + 1); [cbn; lia|reflexivity|lia|exact H].
           ++ inversion H as [|? ? ? ? ? H3|? ? ? ? ? H3 H4]; subst; [now apply not_sep in H3|].
              apply digit_big in H3 as [E ->]; [|exact Hb]. rewrite E. apply (IH (length s)); [cbn; lia|reflexivity|lia|exact H4].
    + split; intro H.
      * destruct (big_digit c <? b) eqn:E; [|discriminate]. apply rest_dig with (big_digit c); [now apply digit_big|].
        apply (IH (length s)) with (k := k + 1); [cbn; lia|reflexivity|lia|exact H].
      * inversion H as [|? ? ? ? ? H3 H4|? ? ? ? ? H3 H4]; subst; [|lia].
        apply digit_big in H3 as [E ->]; [|exact Hb]. rewrite E. apply (IH (length s)); [cbn; lia|reflexivity|lia|exact H4].
Qed.
(** Without anything before: digits. *)
Lemma scan_start b (Hb : b <= 36) s m : big_scan b false PStart false 0 0 s = Some m <-> digits_of b m s.
Proof.
  rewrite digits_rest. destruct s as [|c s]; cbn [big_scan orb].
  - split; [discriminate|]. intros (c & d & s' & E & _). discriminate.
  - destruct (Z.eqb_spec c 95) as [->|N].
    + rewrite scan_bad. split; [discriminate|]. intros (c & d & s' & E & Hc & _). injection E as <- _.
      now apply not_sep in Hc.
    + split.
      * destruct (big_digit c <? b) eqn:E; [|discriminate]. intro H. apply scan_rest in H; [|exact Hb|lia].
        exists c, (big_digit c), s. split; [reflexivity|split; [now apply digit_big|exact H]].
      * intros (c0 & d & s' & E & Hc & Hr). injection E as <- <-. apply digit_big in Hc as [E ->]; [|exact Hb].
        rewrite E. now apply scan_rest.
Qed.
(** After a prefix. *)
Lemma scan_prefixed b o (Hb : b <= 36) s m : s <> [] \/ o = false ->
  (big_scan b o PDigit false 0 0 s = Some m <-> prefixed b m s).
Proof.
  intro Ho. unfold prefixed.
  assert (D : forall c s, c <> 95 -> (match big_digit c <? b with true => big_scan b o PDigit false (0 + 1) (0 * b + big_digit c) s | false => None end = Some m
    <-> digits_of b m (c :: s))).
  { intros c r N. rewrite digits_rest. split.
    - destruct (big_digit c <? b) eqn:E; [|discriminate]. intro H. apply scan_rest in H; [|exact Hb|lia].
      exists c, (big_digit c), r. split; [reflexivity|split; [now apply digit_big|exact H]].
    - intros (c0 & d & s' & E & Hc & Hr). injection E as <- <-. apply digit_big in Hc as [E ->]; [|exact Hb].
      rewrite E. now apply scan_rest. }
  destruct s as [|c s]; cbn [big_scan orb].
  - destruct Ho as [Ho|Ho]; [easy|]. subst o. cbn. split; [discriminate|]. rewrite digits_rest.
    intros [(c & d & s' & E & _)|(s' & E & _)]; discriminate.
  - destruct (Z.eqb_spec c 95) as [->|N].
    + assert (E0 : ~ digits_of b m (95 :: s)).
      { rewrite digits_rest. intros (c & d & s' & E & Hc & _). injection E as <- _. now apply not_sep in Hc. }
      destruct s as [|c2 s]; cbn [big_scan orb].
      * split; [discriminate|]. intros [H|(s' & E & H)]; [easy|]. injection E as <-.
        apply digits_rest in H as (c & d & s' & E & _). discriminate.
      * destruct (Z.eqb_spec c2 95) as [->|N2].
        -- rewrite scan_bad. split; [discriminate|]. intros [H|(s' & E & H)]; [easy|]. injection E as <-.
           apply digits_rest in H as (c & d & s' & E & Hc & _). injection E as <- _. now apply not_sep in Hc.
        -- rewrite (D c2 s N2). split; [right; eauto|]. intros [H|(s' & E & H)]; [easy|]. injection E as <-. exact H.
    + rewrite (D c s N). split; [now left|]. intros [H|(s' & E & H)]; [exact H|]. congruence.
Qed.

Lemma base10_head m s : digits_of 10 m s -> exists c r, s = c :: r /\ digit c.
Proof.
  rewrite digits_rest. intros (c & d & s' & -> & Hc & _). exists c, s'. split; [reflexivity|].
  unfold base_digit, digit in *. lia.
Qed.
Lemma big_nat_exact s m : big_nat s = Some m <-> go_natural m s.
Proof.
  unfold go_natural.
  assert (X : forall c r, c <> 48 -> big_nat (c :: r) = big_scan 10 false PStart false 0 0 (c :: r)).
  { intros c r N. destruct c as [|p|p]; try reflexivity. do 6 (destruct p as [p|p|]; try reflexivity; try lia). }
  destruct s as [|c r].
  - unfold big_nat. rewrite scan_start by lia. split; [intro H; right; left; split; [exact H|easy]|].
    intros [[E _]|[[H _]|[(s' & E & _)|(x & s' & E & _)]]]; try discriminate. exact H.
  - destruct (Z.eq_dec c 48) as [->|N].
    + unfold big_nat. destruct r as [|c r].
      * cbn. split.
        -- intro H. left. split; [reflexivity|congruence].
        -- intros [[_ ->]|[[_ H]|[(s' & E & H)|(x & s' & E & _)]]]; [reflexivity|now elim H| |discriminate].
           injection E as <-. destruct H as [H|(s' & E & _)]; [|discriminate]. apply digits_rest in H as (? & ? & ? & E & _). discriminate.
      * assert (P8 : forall x s', prefixed 8 m (x :: s') -> x = 95 \/ digit x).
        { intros x s' [H|(s2 & E & _)]; [|left; congruence]. right. apply digits_rest in H as (c0 & d & s2 & E & Hc & _).
          injection E as <- <-. unfold base_digit, digit in *. lia. }
        destruct ((c =? 98) || (c =? 66)) eqn:E2; [|destruct ((c =? 111) || (c =? 79)) eqn:E8;
          [|destruct ((c =? 120) || (c =? 88)) eqn:E16]].
        -- rewrite scan_prefixed by (lia || now right). split.
           ++ intro H. right. right. right. exists c, r. split; [reflexivity|]. left. split; [lia|exact H].
           ++ intros [[E _]|[[_ H]|[(s' & E & H)|(x & s' & E & H)]]]; [discriminate|now elim H| |].
              ** injection E as <-. apply P8 in H. unfold digit in H. lia.
              ** injection E as <- <-. destruct H as [[_ H]|[[H _]|[H _]]]; [exact H|lia..].
        -- rewrite scan_prefixed by (lia || now right). split.
           ++ intro H. right. right. right. exists c, r. split; [reflexivity|]. right. left. split; [lia|exact H].
           ++ intros [[E _]|[[_ H]|[(s' & E & H)|(x & s' & E & H)]]]; [discriminate|now elim H| |].
              ** injection E as <-. apply P8 in H. unfold digit in H. lia.
              ** injection E as <- <-. destruct H as [[H _]|[[_ H]|[H _]]]; [lia|exact H|lia].
        -- rewrite scan_prefixed by (lia || now right). split.
           ++ intro H. right. right. right. exists c, r. split; [reflexivity|]. right. right. split; [lia|exact H].
           ++ intros [[E _]|[[_ H]|[(s' & E & H)|(x & s' & E & H)]]]; [discriminate|now elim H| |].
              ** injection E as <-. apply P8 in H. unfold digit in H. lia.
              ** injection E as <- <-. destruct H as [[H _]|[[H _]|[_ H]]]; [lia|lia|exact H].
        -- rewrite scan_prefixed by (lia || now left). split.
           ++ intro H. right. right. left. exists (c :: r). split; [reflexivity|exact H].
           ++ intros [[E _]|[[_ H]|[(s' & E & H)|(x & s' & E & H)]]]; [discriminate|now elim H| |].
              ** injection E as <-. exact H.
              ** injection E as <- <-. destruct H as [[H _]|[[H _]|[H _]]]; lia.
    + rewrite X by assumption. rewrite scan_start by lia. split.
      * intro H. right. left. split; [exact H|exact N].
      * intros [[E _]|[[H _]|[(s' & E & _)|(x & s' & E & _)]]]; [congruence|exact H|congruence..].
Qed.
Lemma go_natural_head m s : go_natural m s -> exists c r, s = c :: r /\ digit c.
Proof.
  unfold digit. intros [[-> _]|[[H _]|[(s' & -> & _)|(x & s' & -> & _)]]].
  - do 2 eexists; split; [reflexivity|lia].
  - now apply base10_head in H.
  - do 2 eexists; split; [reflexivity|lia].
  - do 2 eexists; split; [reflexivity|lia].
Qed.
Lemma big_set_exact s z : big_set_string s = Some z <-> go_integer z s.
Proof.
  unfold go_integer.
  assert (E0 : big_set_string s = match s with 45 :: r => option_map Z.opp (big_nat r) | 43 :: r => big_nat r | _ => big_nat s end) by reflexivity.
  rewrite E0. clear E0. destruct s as [|c r].
  - rewrite big_nat_exact. split; [now left|]. intros [H|[(s' & E & _)|(s' & E & _)]]; [exact H|discriminate..].
  - destruct (Z.eq_dec c 45) as [->|N45]; [|destruct (Z.eq_dec c 43) as [->|N43]].
    + split.
      * destruct (big_nat r) as [n|] eqn:E; [|discriminate]. intro H. assert (z = - n) as -> by (cbn in H; congruence).
        right. right. exists r. rewrite Z.opp_involutive. split; [reflexivity|now apply big_nat_exact].
      * intros [H|[(s' & E & _)|(s' & E & H)]]; [|discriminate|].
        -- apply go_natural_head in H as (c & r' & E & Hd). injection E as <- _. unfold digit in Hd. lia.
        -- injection E as <-. apply big_nat_exact in H. rewrite H. cbn [option_map]. f_equal. lia.
    + rewrite big_nat_exact. split.
      * intro H. right. left. eauto.
      * intros [H|[(s' & E & H)|(s' & E & H)]]; [|congruence|discriminate].
        apply go_natural_head in H as (c & r' & E & Hd). injection E as <- _. unfold digit in Hd. lia.
    + match goal with |- ?L = _ <-> _ => assert (HL : L = big_nat (c :: r)) end.
      { destruct c as [|p|p]; try reflexivity. do 6 (destruct p as [p|p|]; try reflexivity; try lia). }
      rewrite HL, big_nat_exact. split; [now left|]. intros [H|[(s' & E & _)|(s' & E & _)]]; [exact H|congruence..].
Qed.

(** * The methods *)

Lemma of_option_ok {A} (o : option A) x : of_option o = Ok x <-> o = Some x.
Proof. destruct o; cbn; split; congruence. Qed.

(** A text that begins with a quote is neither null nor a number. *)
Lemma quote_start s r data : tight s -> padded s data -> data = 34 :: r -> exists r', s = 34 :: r'.
Proof.
  intros (c & d & r1 & r2 & E & _) (w1 & w2 & H1 & _ & E2) E3. destruct w1 as [|b w1].
  - rewrite E in E2 |- *. cbn [app] in E2. exists r1. congruence.
  - cbn [app] in E2. rewrite E3 in E2. injection E2 as <- _. inversion_clear H1 as [|? ? Hb _]. unfold blank in Hb. lia.
Qed.
Lemma quote_not_nil r data : data = 34 :: r -> ~ json_nil data.
Proof. intros E H. destruct (quote_start _ _ _ null_tight H E) as (r' & E'). discriminate. Qed.
Lemma quote_not_int r data z : data = 34 :: r -> ~ json_int z data.
Proof.
  intros E (ds & Hd & [(_ & H)|(_ & H)]).
  - destruct (quote_start _ _ _ (decimal_tight _ _ Hd) H E) as (r' & E'). pose proof (decimal_head _ _ _ _ Hd E') as D.
    unfold digit in D. lia.
  - destruct (quote_start _ _ _ (decimal_minus_tight _ _ Hd) H E) as (r' & E'). discriminate.
Qed.

Theorem int64_exact data z : bytes_ok data ->
  (int64_unmarshal_json data = Ok z <->
   - 2 ^ 63 <= z < 2 ^ 63 /\
   ((exists r s, data = 34 :: r /\ json_str s data /\ signed_numeral z s) \/
    (json_nil data /\ z = 0) \/ json_int z data)).
Proof.
  intro Hb. destruct data as [|c r].
  - split; [discriminate|]. assert (N : forall s, tight s -> ~ padded s []).
    { intros s (c & d & r & r' & -> & _) (w1 & w2 & _ & _ & E). destruct w1; discriminate. }
    intros [_ [(r & s & E & _)|[(H & _)|(ds & Hd & [(_ & H)|(_ & H)])]]]; [discriminate|exfalso..].
    + now apply (N _ null_tight).
    + now apply (N _ (decimal_tight _ _ Hd)).
    + now apply (N _ (decimal_minus_tight _ _ Hd)).
  - destruct (Z.eq_dec c 34) as [->|N].
    + change (int64_unmarshal_json (34 :: r)) with
        (match json_string [] (34 :: r) with Some s => of_option (parse_int s) | None => Err EMsg end).
      split.
      * destruct (json_string [] (34 :: r)) as [s|] eqn:E; [|discriminate]. rewrite of_option_ok, parse_int_exact.
        apply json_string_exact in E; [|exact Hb]. intros [Hn Hr]. split; [exact Hr|]. left. exists r, s.
        split; [reflexivity|]. split; [|exact Hn]. destruct E as [E|[E _]]; [exact E|]. now apply (quote_not_nil r) in E.
      * intros [Hr [(r' & s & _ & Hs & Hn)|[(H & _)|H]]].
        -- rewrite (proj2 (json_string_exact [] (34 :: r) s Hb)) by now left.
           apply of_option_ok, parse_int_exact. now split.
        -- now apply (quote_not_nil r) in H.
        -- now apply (quote_not_int r) in H.
    + assert (E0 : int64_unmarshal_json (c :: r) = of_option (json_int64 0 (c :: r))).
      { unfold int64_unmarshal_json. now rewrite head_quote. }
      rewrite E0, of_option_ok, int64_text_exact. split.
      * intros [(H & ->)|(H & Hr)]; [split; [lia|auto]|auto].
      * intros [Hr [(r' & s & E & _)|[(H & ->)|H]]]; [congruence|auto..].
Qed.

Theorem uint64_exact data z : bytes_ok data ->
  (uint64_unmarshal_json data = Ok z <->
   0 <= z < 2 ^ 64 /\
   ((exists r s, data = 34 :: r /\ json_str s data /\ numeral z s) \/
    (json_nil data /\ z = 0) \/ (exists ds, decimal z ds /\ padded ds data))).
Proof.
  intro Hb. destruct data as [|c r].
  - split; [discriminate|]. assert (N : forall s, tight s -> ~ padded s []).
    { intros s (c & d & r & r' & -> & _) (w1 & w2 & _ & _ & E). destruct w1; discriminate. }
    intros [_ [(r & s & E & _)|[(H & _)|(ds & Hd & H)]]]; [discriminate|exfalso..].
    + now apply (N _ null_tight).
    + now apply (N _ (decimal_tight _ _ Hd)).
  - destruct (Z.eq_dec c 34) as [->|N].
    + change (uint64_unmarshal_json (34 :: r)) with
        (match json_string [] (34 :: r) with Some s => of_option (parse_uint s) | None => Err EMsg end).
      split.
      * destruct (json_string [] (34 :: r)) as [s|] eqn:E; [|discriminate]. rewrite of_option_ok, parse_uint_exact.
        apply json_string_exact in E; [|exact Hb]. intros [Hn Hr]. pose proof (numeral_nonneg _ _ Hn).
        split; [lia|]. left. exists r, s.
        split; [reflexivity|]. split; [|exact Hn]. destruct E as [E|[E _]]; [exact E|]. now apply (quote_not_nil r) in E.
      * intros [Hr [(r' & s & _ & Hs & Hn)|[(H & _)|(ds & Hd & H)]]].
        -- rewrite (proj2 (json_string_exact [] (34 :: r) s Hb)) by now left.
           apply of_option_ok, parse_uint_exact. split; [exact Hn|lia].
        -- now apply (quote_not_nil r) in H.
        -- exfalso. destruct (quote_start _ _ _ (decimal_tight _ _ Hd) H eq_refl) as (r' & E').
           pose proof (decimal_head _ _ _ _ Hd E') as D. unfold digit in D. lia.
    + assert (E0 : uint64_unmarshal_json (c :: r) = of_option (json_uint64 0 (c :: r))).
      { unfold uint64_unmarshal_json. now rewrite head_quote. }
      rewrite E0, of_option_ok, uint64_text_exact. split.
      * intros [(H & ->)|(H & Hr)]; [split; [lia|auto]|auto].
      * intros [Hr [(r' & s & E & _)|[(H & ->)|H]]]; [congruence|auto..].
Qed.

Theorem hexbytes_exact data bs : bytes_ok data ->
  (hexbytes_unmarshal_json data = Ok bs <->
   (exists s, json_str s data /\ hex_text s bs) \/ json_nil data /\ bs = []).
Proof.
  intro Hb. unfold hexbytes_unmarshal_json. split.
  - destruct (json_string [] data) as [s|] eqn:E; [|discriminate]. rewrite of_option_ok, hex_decode_exact.
    intro H. apply json_string_exact in E as [E|[E ->]]; [eauto| |exact Hb]. right. split; [exact E|now inversion H].
  - intros [(s & Hs & H)|(Hn & ->)].
    + rewrite (proj2 (json_string_exact [] data s Hb)) by now left. now apply of_option_ok, hex_decode_exact.
    + now rewrite (proj2 (json_string_exact [] data [] Hb)) by (right; auto).
Qed.

Lemma true_tight : tight true_text.
Proof. exists 116, 101, [114; 117; 101], [116; 114; 117]. repeat split; unfold blank; lia. Qed.
Lemma false_tight : tight false_text.
Proof. exists 102, 101, [97; 108; 115; 101], [102; 97; 108; 115]. repeat split; unfold blank; lia. Qed.
Lemma json_bool_exact old data b :
  json_bool old data = Some b <->
  json_nil data /\ b = old \/ padded true_text data /\ b = true \/ padded false_text data /\ b = false.
Proof.
  pose proof (trim_padded data) as Hp. unfold json_bool. split.
  - intro H. destruct (list_eq_dec Z.eq_dec (json_trim data) true_text) as [E|N1];
      [|destruct (list_eq_dec Z.eq_dec (json_trim data) false_text) as [E|N2];
        [|destruct (is_null (json_trim data)) eqn:En]].
    + rewrite E in *. right. left. split; [exact Hp|]. cbn in H. congruence.
    + rewrite E in *. right. right. split; [exact Hp|]. cbn in H. congruence.
    + apply is_null_spec in En. rewrite En in *. left. split; [exact Hp|]. cbn in H. congruence.
    + exfalso. unfold true_text, false_text in *. destruct (json_trim data) as [|x1 [|x2 [|x3 [|x4 [|x5 [|x6 l]]]]]].
      all: rewrite ?En in H.
      all: try discriminate H.
      all: repeat match type of H with
             | context [match ?x with _ => _ end] => is_var x; destruct x; rewrite ?En in H; try discriminate H
             end.
      all: congruence.
  - intros [(H & ->)|[(H & ->)|(H & ->)]].
    + now rewrite (padded_trim _ _ null_tight H).
    + now rewrite (padded_trim _ _ true_tight H).
    + now rewrite (padded_trim _ _ false_tight H).
Qed.
Lemma decimal_first x ds s c r : decimal x ds -> s = ds -> s = c :: r -> digit c.
Proof. intros Hd E1 E2. apply (decimal_head x ds c r Hd). congruence. Qed.
Theorem bool_exact data b :
  bool_unmarshal_json data = Ok b <->
  (exists z, json_int z data /\ - 2 ^ 63 <= z < 2 ^ 63 /\ b = negb (z =? 0)) \/
  json_nil data /\ b = false \/ padded true_text data /\ b = true \/ padded false_text data /\ b = false.
Proof.
  unfold bool_unmarshal_json. destruct (json_int64 0 data) as [n|] eqn:E.
  - apply int64_text_exact in E. split.
    + intro H. assert (b = negb (n =? 0)) as -> by congruence. destruct E as [[E ->]|[E Hr]]; [auto|eauto].
    + intro H. f_equal. destruct E as [[E ->]|[E Hr]].
      * apply (padded_trim _ _ null_tight) in E.
        destruct H as [(z & (ds & Hd & [(_ & H)|(_ & H)]) & _)|[(_ & ->)|[(H & _)|(H & _)]]].
        -- apply (padded_trim _ _ (decimal_tight _ _ Hd)) in H. pose proof (decimal_first _ _ _ _ _ Hd H E) as D.
           unfold digit in D. lia.
        -- apply (padded_trim _ _ (decimal_minus_tight _ _ Hd)) in H. congruence.
        -- reflexivity.
        -- apply (padded_trim _ _ true_tight) in H. unfold true_text in H. congruence.
        -- apply (padded_trim _ _ false_tight) in H. unfold false_text in H. congruence.
      * assert (U : forall m, json_int m data -> m = n).
        { intros m Hm. destruct (Z.eq_dec m n) as [|Nm]; [assumption|exfalso]. clear H.
          destruct E as (d1 & D1 & E1), Hm as (d2 & D2 & E2).
          assert (T : forall x ds, decimal (Z.abs x) ds -> (0 <= x /\ padded ds data \/ x <= 0 /\ padded (45 :: ds) data) ->
            (0 <= x /\ json_trim data = ds) \/ (x <= 0 /\ json_trim data = 45 :: ds)).
          { intros x ds Dx [(P1 & P2)|(P1 & P2)].
            - left. split; [exact P1|]. now apply padded_trim; [apply (decimal_tight _ _ Dx)|].
            - right. split; [exact P1|]. now apply padded_trim; [apply (decimal_minus_tight _ _ Dx)|]. }
          assert (V : forall x y ds, decimal x ds -> decimal y ds -> x = y).
          { intros x y ds (_ & <- & _) (_ & <- & _). reflexivity. }
          assert (M : forall x ds, decimal x (45 :: ds) -> False).
          { intros x ds Dx. pose proof (decimal_head _ _ _ _ Dx eq_refl) as D. unfold digit in D. lia. }
          apply T in E1; [|exact D1]. apply T in E2; [|exact D2].
          destruct E1 as [(S1 & E1)|(S1 & E1)], E2 as [(S2 & E2)|(S2 & E2)].
          - assert (d1 = d2) as -> by congruence. pose proof (V _ _ _ D1 D2). lia.
          - assert (d1 = 45 :: d2) as -> by congruence. now apply M in D1.
          - assert (d2 = 45 :: d1) as -> by congruence. now apply M in D2.
          - assert (d1 = d2) as -> by congruence. pose proof (V _ _ _ D1 D2). lia. }
        destruct H as [(z & Hz & _ & ->)|[(H & _)|[(H & _)|(H & _)]]].
        -- now rewrite (U z Hz).
        -- exfalso.
           pose proof (proj2 (int64_text_exact (n + 1) data n) (or_intror (conj E Hr))) as X2.
           pose proof (proj2 (int64_text_exact (n + 1) data (n + 1)) (or_introl (conj H eq_refl))) as X3.
           rewrite X2 in X3. injection X3. lia.
        -- exfalso. apply (padded_trim _ _ true_tight) in H.
           unfold true_text, false_text in H. destruct E as (ds & Hd & [(_ & E)|(_ & E)]).
           ++ apply (padded_trim _ _ (decimal_tight _ _ Hd)) in E. pose proof (decimal_first _ _ _ _ _ Hd E H) as D.
              unfold digit in D. lia.
           ++ apply (padded_trim _ _ (decimal_minus_tight _ _ Hd)) in E. congruence.
        -- exfalso. apply (padded_trim _ _ false_tight) in H.
           unfold true_text, false_text in H. destruct E as (ds & Hd & [(_ & E)|(_ & E)]).
           ++ apply (padded_trim _ _ (decimal_tight _ _ Hd)) in E. pose proof (decimal_first _ _ _ _ _ Hd E H) as D.
              unfold digit in D. lia.
           ++ apply (padded_trim _ _ (decimal_minus_tight _ _ Hd)) in E. congruence.
  - rewrite of_option_ok, json_bool_exact. split; [tauto|]. intros [(z & Hz & Hr & _)|H]; [|tauto].
    exfalso. rewrite (proj2 (int64_text_exact 0 data z)) in E by (right; now split). discriminate.
Qed.

(** 128-bit integers. *)
Lemma starts_hex_dec s : {hex_prefix s} + {~ hex_prefix s}.
Proof.
  destruct s as [|a [|c r]].
  - right. intros (c & r & E & _). discriminate.
  - right. intros (c & r & E & _). discriminate.
  - destruct (Z.eq_dec a 48) as [->|N]; [|right; intros (c' & r' & E & _); congruence].
    destruct (Z.eq_dec c 120) as [->|N1]; [left; exists 120, r; auto|].
    destruct (Z.eq_dec c 88) as [->|N2]; [left; exists 88, r; auto|].
    right. intros (c' & r' & E & Hc). injection E as <- <-. lia.
Qed.
Lemma u128_dispatch o s : match s with 48 :: 120 :: _ | 48 :: 88 :: _ => u128_json_hex o s | _ => u128_json_decimal o s end =
  if starts_hex_dec s then u128_json_hex o s else u128_json_decimal o s.
Proof.
  destruct (starts_hex_dec s) as [(c & r & -> & [-> | ->])|N]; [reflexivity..|].
  destruct s as [|a [|c r]].
  - reflexivity.
  - destruct a as [|p|p]; try reflexivity. do 6 (destruct p as [p|p|]; try reflexivity).
  - assert (K : a <> 48 \/ c <> 120 /\ c <> 88).
    { destruct (Z.eq_dec a 48) as [->|]; [right|now left]. split; intros ->; apply N; [exists 120, r|exists 88, r]; auto. }
    destruct a as [|p|p]; try reflexivity. do 6 (destruct p as [p|p|]; try reflexivity).
    destruct c as [|p|p]; try reflexivity. do 7 (destruct p as [p|p|]; try reflexivity; try lia).
Qed.

Lemma read_u128_bytes o bs : bytes_ok bs -> length bs = 16%nat ->
  exists a b, fst (read_uint128 o (new_decoder Bin bs)) = Ok (a, b) /\ 0 <= a < 2 ^ 64 /\ 0 <= b < 2 ^ 64 /\
    fixed o 16 (a + b * 2 ^ 64) = bs.
Proof.
  intros Hb Hl. pose proof (get_uint_range o bs Hb) as Hr. pose proof (fixed_get o bs Hb) as Hf. rewrite Hl in Hf.
  unfold zlen in Hr. rewrite Hl in Hr. change (256 ^ Z.of_nat 16) with (2 ^ 128) in Hr.
  set (n := get_uint o bs) in *. exists (n mod 2 ^ 64), (n / 2 ^ 64).
  assert (H1 : 0 <= n mod 2 ^ 64 < 2 ^ 64) by (apply Z.mod_pos_bound; lia).
  assert (H2 : 0 <= n / 2 ^ 64 < 2 ^ 64).
  { split; [apply Z.div_pos; lia|]. apply Z.div_lt_upper_bound; lia. }
  assert (H3 : n mod 2 ^ 64 + n / 2 ^ 64 * 2 ^ 64 = n) by (pose proof (Z.div_mod n (2 ^ 64)); lia).
  rewrite H3. split; [|auto].
  pose proof (keeps_read_uint128 Bin o _ _ H1 H2 [] [] None) as K.
  rewrite Z.add_comm, H3, Hf in K. cbn [app] in K. rewrite app_nil_r in K. change (zlen []) with 0 in K.
  unfold new_decoder. exact (f_equal fst K).
Qed.
Lemma fixed_inj16 o x y : 0 <= x < 2 ^ 128 -> 0 <= y < 2 ^ 128 -> fixed o 16 x = fixed o 16 y -> x = y.
Proof.
  intros Hx Hy H. apply (f_equal (get_uint o)) in H. rewrite !get_fixed in H.
  change (256 ^ Z.of_nat 16) with (2 ^ 128) in H. rewrite !Z.mod_small in H by assumption. exact H.
Qed.

Lemma u128_decimal_exact o s r : u128_json_decimal o s = r <->
  (exists z a b, go_integer z s /\ Z.abs z < 2 ^ 128 /\ u128_as o a b (Z.abs z) /\ r = Ok (a, b)) \/
  (exists z, go_integer z s /\ 2 ^ 128 <= Z.abs z /\ r = Panic) \/
  ((forall z, ~ go_integer z s) /\ r = Err EMsg).
Proof.
  assert (U : forall z z', go_integer z s -> go_integer z' s -> z = z').
  { intros z z' H H'. apply big_set_exact in H, H'. congruence. }
  unfold u128_json_decimal. destruct (big_set_string s) as [z|] eqn:E.
  - apply big_set_exact in E. unfold fill_bytes16. destruct (Z.abs z <? 2 ^ 128) eqn:El.
    + rewrite reverse_bytes_rev, fixed_le_be, put_uint_fixed.
      destruct (read_u128_bytes o (fixed LE 16 (Z.abs z))) as (a & b & Er & Ha & Hb & Ef); [apply fixed_ok|apply fixed_length|].
      rewrite Er. split.
      * intros <-. left. exists z, a, b. split; [exact E|]. split; [lia|]. repeat split; try lia; exact Ef.
      * intros [(z' & a' & b' & Hz & Hl & (Ha' & Hb' & Hu) & ->)|[(z' & Hz & Hl & _)|(Hn & _)]].
        -- rewrite (U z' z Hz E) in Hu. rewrite <- Ef in Hu. apply fixed_inj16 in Hu; [|nia..]. do 2 f_equal; lia.
        -- rewrite (U z' z Hz E) in Hl. lia.
        -- now apply Hn in E.
    + split.
      * intros <-. right. left. exists z. split; [exact E|]. split; [lia|reflexivity].
      * intros [(z' & a' & b' & Hz & Hl & _)|[(z' & Hz & Hl & ->)|(Hn & _)]].
        -- rewrite (U z' z Hz E) in Hl. lia.
        -- reflexivity.
        -- now apply Hn in E.
  - assert (N : forall z, ~ go_integer z s) by (intros z Hz; apply big_set_exact in Hz; congruence). split.
    + intros <-. right. right. auto.
    + intros [(z' & a' & b' & Hz & _)|[(z' & Hz & _)|(_ & ->)]]; [now apply N in Hz..|reflexivity].
Qed.

Lemma hex_text_some s : (exists bs, hex_text s bs) <-> Forall (fun c => exists d, hexd c d) s /\ Z.even (zlen s) = true.
Proof.
  split.
  - intros (bs & H). induction H as [|a b x y s bs Ha Hb _ (IH1 & IH2)]; [split; [constructor|reflexivity]|].
    split; [constructor; [eauto|constructor; eauto]|]. rewrite !zlen_cons. replace (1 + (1 + zlen s)) with (zlen s + 2) by lia.
    now rewrite Z.even_add, IH2.
  - intros [H1 H2]. remember (length s) as n eqn:En. revert s En H1 H2. induction n as [n IH] using lt_wf_ind.
    intros s -> H1 H2. destruct s as [|a [|b s]]; [exists []; constructor|discriminate|].
    inversion_clear H1 as [|? ? (x & Hx) H1']. inversion_clear H1' as [|? ? (y & Hy) H1].
    destruct (IH (length s)) with (s := s) as (bs & Hbs); [cbn; lia|reflexivity|exact H1| |].
    + rewrite !zlen_cons in H2. replace (1 + (1 + zlen s)) with (zlen s + 2) in H2 by lia. rewrite Z.even_add in H2.
      now destruct (Z.even (zlen s)).
    + exists (16 * x + y :: bs). now constructor.
Qed.
Lemma u128_hex_exact o c r : u128_json_hex o (48 :: c :: r) =
  if (zlen r =? 16) && forallb (fun c => match hex_val c with Some _ => true | None => false end) r then Panic else Err EMsg.
Proof.
  unfold u128_json_hex. cbn [skipn]. cbv zeta. destruct (Z.eqb_spec (zlen r) 16) as [L|]; cbn [negb andb]; [|reflexivity].
  destruct (hex_decode r) as [data|] eqn:E.
  - destruct (hex_decode_bytes (S (length r)) r data ltac:(lia) E) as (_ & L2).
    assert (L3 : length data = 8%nat) by (unfold zlen in *; lia).
    apply hex_decode_exact in E. destruct (proj1 (hex_text_some r) (ex_intro _ _ E)) as [Hf _].
    replace (forallb _ r) with true.
    + do 8 (destruct data as [|? data]; [discriminate|]). destruct data; [|discriminate]. reflexivity.
    + symmetry. apply forallb_forall. intros x Hx. destruct (proj1 (Forall_forall _ _) Hf x Hx) as (d & Hd).
      apply hexd_val in Hd. now rewrite Hd.
  - destruct (forallb _ r) eqn:F; [|reflexivity]. exfalso.
    destruct (proj2 (hex_text_some r)) as (bs & Hbs).
    + split; [|now rewrite L]. apply Forall_forall. intros x Hx.
      pose proof (proj1 (forallb_forall _ r) F x Hx) as Fx. cbn in Fx. destruct (hex_val x) as [d|] eqn:Ed; [|discriminate].
      exists d. now apply hexd_val.
    + apply hex_decode_exact in Hbs. congruence.
Qed.

Lemma json_str_unique s s' data : bytes_ok data -> json_str s data -> json_str s' data -> s = s'.
Proof.
  intros Hb H H'.
  pose proof (proj2 (json_string_exact [] data s Hb) (or_introl H)).
  pose proof (proj2 (json_string_exact [] data s' Hb) (or_introl H')). congruence.
Qed.
Lemma hexd_all s : forallb (fun c => match hex_val c with Some _ => true | None => false end) s = true <->
  Forall (fun c => exists d, hexd c d) s.
Proof.
  rewrite forallb_forall, Forall_forall. split; intros H x Hx; specialize (H x Hx).
  - destruct (hex_val x) as [d|] eqn:E; [|discriminate]. exists d. now apply hexd_val.
  - destruct H as (d & Hd). apply hexd_val in Hd. now rewrite Hd.
Qed.
Theorem u128_exact lo hi o data : bytes_ok data ->
  u128_outcome lo hi o data (u128_unmarshal_json lo hi o data).
Proof.
  intro Hb. unfold u128_unmarshal_json. destruct (is_null data) eqn:En.
  { constructor. now apply is_null_spec. }
  assert (Nn : data <> [110; 117; 108; 108]) by (intros ->; discriminate).
  destruct (json_string [] data) as [s|] eqn:E.
  - rewrite u128_dispatch. apply json_string_exact in E; [|exact Hb].
    destruct E as [E|[E ->]].
    + destruct (starts_hex_dec s) as [(c & r & -> & Hc)|Nh].
      * rewrite u128_hex_exact. destruct (Z.eqb_spec (zlen r) 16) as [L|L];
          [destruct (forallb _ r) eqn:F|]; cbn [andb].
        -- apply hexd_all in F. now apply u128_hex with r c.
        -- apply u128_bad; [exact Nn|..].
           ++ intros s' Hs' N. rewrite <- (json_str_unique _ _ _ Hb E Hs') in N. elim N. now exists c, r.
           ++ intros s' x Hs' _ _ F'. pose proof (json_str_unique _ _ _ Hb E Hs') as X. injection X as <- <-.
              apply hexd_all in F'. congruence.
        -- apply u128_bad; [exact Nn|..].
           ++ intros s' Hs' N. rewrite <- (json_str_unique _ _ _ Hb E Hs') in N. elim N. now exists c, r.
           ++ intros s' x Hs' _ L'. pose proof (json_str_unique _ _ _ Hb E Hs') as X. injection X as <- <-. easy.
      * destruct (proj1 (u128_decimal_exact o s _) eq_refl) as [(z & a & b & Hz & Hl & Hu & ->)|[(z & Hz & Hl & ->)|(Hz & ->)]].
        -- now apply u128_number with s z.
        -- now apply u128_large with s z.
        -- apply u128_bad; [exact Nn|..].
           ++ intros s' Hs' _. now rewrite <- (json_str_unique _ _ _ Hb E Hs').
           ++ intros s' x Hs' Hx _ _. apply Nh. rewrite (json_str_unique _ _ _ Hb E Hs'). now exists x, s'.
    + assert (Ns : forall s, ~ json_str s data).
      { intros s (l & Hl & Hs). apply (padded_trim _ _ (literal_tight l s Hl)) in Hs. apply (padded_trim _ _ null_tight) in E. congruence. }
      destruct (starts_hex_dec []) as [(c & r & X & _)|_]; [discriminate|]. change (u128_json_decimal o []) with (@Err (Z * Z) EMsg).
      apply u128_bad; [exact Nn|..].
      * intros s Hs. now apply Ns in Hs.
      * intros s x Hs. now apply Ns in Hs.
  - assert (Ns : forall s, ~ json_str s data).
    { intros s Hs. rewrite (proj2 (json_string_exact [] data s Hb)) in E by now left. discriminate. }
    apply u128_bad; [exact Nn|..].
    + intros s Hs. now apply Ns in Hs.
    + intros s x Hs. now apply Ns in Hs.
Qed.

Lemma u128_outcome_unique lo hi o data r r' : bytes_ok data ->
  u128_outcome lo hi o data r -> u128_outcome lo hi o data r' -> r = r'.
Proof.
  intros Hb H H'.
  assert (N : forall s, data = [110; 117; 108; 108] -> ~ json_str s data).
  { intros s -> (l & Hl & Hs). apply (padded_trim _ _ (literal_tight l s Hl)) in Hs. discriminate. }
  assert (U : forall s z z', go_integer z s -> go_integer z' s -> z = z').
  { intros s z z' G G'. apply big_set_exact in G, G'. congruence. }
  assert (A : forall a b a' b' n, u128_as o a b n -> u128_as o a' b' n -> (a, b) = (a', b')).
  { intros a b a' b' n (H1 & H2 & H3) (H4 & H5 & H6). rewrite <- H6 in H3. apply fixed_inj16 in H3; [|nia..]. f_equal; lia. }
  assert (X : forall s x, (x = 120 \/ x = 88) -> hex_prefix (48 :: x :: s)) by (intros s x Hx; now exists x, s).
  destruct H as [E|s z a b Hs Hh Hz Hl Hu|s z Hs Hh Hz Hl|s x Hs Hx Hl Hf|E Ha Hf];
  destruct H' as [E'|s' z' a' b' Hs' Hh' Hz' Hl' Hu'|s' z' Hs' Hh' Hz' Hl'|s' x' Hs' Hx' Hl' Hf'|E' Ha' Hf'].
  all: try reflexivity.
  all: try (exfalso; now apply (N _ E) in Hs').
  all: try (exfalso; now apply (N _ E') in Hs).
  all: try contradiction.
  all: try (pose proof (json_str_unique _ _ _ Hb Hs Hs') as Es; try subst s').
  all: try (exfalso; rewrite (U _ _ _ Hz Hz') in *; lia).
  all: try (exfalso; apply Hh; rewrite ?Es; now apply X).
  all: try (exfalso; apply Hh'; rewrite <- ?Es; now apply X).
  all: try (exfalso; now apply (Ha _ Hs' Hh' _ Hz')).
  all: try (exfalso; now apply (Ha' _ Hs Hh _ Hz)).
  all: try (exfalso; now apply (Hf _ _ Hs' Hx' Hl' Hf')).
  all: try (exfalso; now apply (Hf' _ _ Hs Hx Hl Hf)).
  rewrite (U _ _ _ Hz Hz') in Hu. f_equal. now apply A with (Z.abs z').
Qed.
