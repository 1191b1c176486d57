(** strings.TrimSpace: white space of Unicode around a text. *)
From Coq Require Import String Ascii.
From Verif Require Import Base Tags Utf8Facts.
Notation length := Datatypes.length.
Local Open Scope string_scope.
Local Open Scope list_scope.

(** Bytes as a string. *)
Definition bytes_text (s : list Z) : string :=
  fold_right (fun b r => String (ascii_of_nat (Z.to_nat b)) r) EmptyString s.
(** The runes with the property White_Space. *)
Definition white_runes : list Z :=
  [0x09; 0x0A; 0x0B; 0x0C; 0x0D; 0x20; 0x85; 0xA0; 0x1680;
   0x2000; 0x2001; 0x2002; 0x2003; 0x2004; 0x2005; 0x2006; 0x2007; 0x2008; 0x2009; 0x200A;
   0x2028; 0x2029; 0x202F; 0x205F; 0x3000].
Definition white_text (r : Z) : string := bytes_text (utf8_char r).
Inductive white : string -> Prop :=
| white_nil : white ""
| white_cons r s : In r white_runes -> white s -> white (white_text r ++ s)%string.

Lemma byte_char a n : byte_of a = Z.of_nat n -> a = ascii_of_nat n.
Proof. unfold byte_of. intro H. rewrite <- (ascii_nat_embedding a). f_equal. lia. Qed.
Ltac chars := repeat match goal with
  | H : byte_of ?a = Z.of_nat _ |- _ => apply byte_char in H; subst a
  end.
Lemma space1_white a : space1 a = true -> exists r, In r white_runes /\ white_text r = String a "".
Proof.
  unfold space1. intro H.
  assert (K : byte_of a = Z.of_nat 32 \/ byte_of a = Z.of_nat 9 \/ byte_of a = Z.of_nat 10 \/ byte_of a = Z.of_nat 11 \/
    byte_of a = Z.of_nat 12 \/ byte_of a = Z.of_nat 13) by (cbn; lia).
  destruct K as [K|[K|[K|[K|[K|K]]]]]; chars;
    [exists 32|exists 9|exists 10|exists 11|exists 12|exists 13]; (split; [cbn; tauto|reflexivity]).
Qed.
Lemma space2_white a b : space2 a b = true -> exists r, In r white_runes /\ white_text r = String a (String b "").
Proof.
  unfold space2. intro H. assert (Ha : byte_of a = Z.of_nat 0xC2) by (cbn; lia).
  assert (K : byte_of b = Z.of_nat 0x85 \/ byte_of b = Z.of_nat 0xA0) by (cbn; lia). clear H.
  destruct K as [K|K]; chars; [exists 0x85|exists 0xA0]; (split; [cbn; tauto|reflexivity]).
Qed.
Lemma space3_white a b c : space3 a b c = true -> exists r, In r white_runes /\ white_text r = String a (String b (String c "")).
Proof.
  unfold space3. intro H. rewrite !orb_true_iff in H. destruct H as [[[H|H]|H]|H].
  - assert (byte_of a = Z.of_nat 0xE1) by (cbn; lia). assert (byte_of b = Z.of_nat 0x9A) by (cbn; lia).
    assert (byte_of c = Z.of_nat 0x80) by (cbn; lia). clear H. chars. exists 0x1680. split; [cbn; tauto|reflexivity].
  - assert (Ha : byte_of a = Z.of_nat 0xE2) by (cbn; lia). assert (Hb : byte_of b = Z.of_nat 0x80) by (cbn; lia).
    assert (Hc : exists n, byte_of c = Z.of_nat n /\ In (0x2000 + Z.of_nat n - 0x80) white_runes /\ (0x80 <= n < 0xC0)%nat).
    { exists (Z.to_nat (byte_of c)). rewrite Z2Nat.id by lia. split; [reflexivity|]. split; [|lia].
      remember (byte_of c) as x eqn:Ex. clear Ex Ha Hb.
      assert (K : 0x80 <= x <= 0x8A \/ x = 0xA8 \/ x = 0xA9 \/ x = 0xAF) by lia. clear H.
      destruct K as [K|[->|[->| ->]]]; [|cbn; tauto..].
      assert (In x [0x80; 0x81; 0x82; 0x83; 0x84; 0x85; 0x86; 0x87; 0x88; 0x89; 0x8A]) as I by (cbn; lia).
      revert I. cbn [In]. intros I. repeat (destruct I as [<-|I]; [cbn; tauto|]). destruct I. }
    destruct Hc as (n & Hn & Hi & Hr). clear H. chars. eexists. split; [exact Hi|].
    clear Hi. do 0x80 (destruct n as [|n]; [lia|]). do 0x40 (destruct n as [|n]; [reflexivity|]). lia.
  - assert (byte_of a = Z.of_nat 0xE2) by (cbn; lia). assert (byte_of b = Z.of_nat 0x81) by (cbn; lia).
    assert (byte_of c = Z.of_nat 0x9F) by (cbn; lia). clear H. chars. exists 0x205F. split; [cbn; tauto|reflexivity].
  - assert (byte_of a = Z.of_nat 0xE3) by (cbn; lia). assert (byte_of b = Z.of_nat 0x80) by (cbn; lia).
    assert (byte_of c = Z.of_nat 0x80) by (cbn; lia). clear H. chars. exists 0x3000. split; [cbn; tauto|reflexivity].
Qed.

Lemma app_s_assoc a b c : ((a ++ b) ++ c = a ++ (b ++ c))%string.
Proof. induction a as [|x a IH]; cbn; [reflexivity|now rewrite IH]. Qed.
Lemma app_s_nil a : (a ++ "" = a)%string.
Proof. induction a as [|x a IH]; cbn; [reflexivity|now rewrite IH]. Qed.
Lemma white_app a b : white a -> white b -> white (a ++ b)%string.
Proof. induction 1 as [|r s Hr _ IH]; intro Hb; [exact Hb|]. rewrite app_s_assoc. constructor; auto. Qed.
Lemma white_unit r : In r white_runes -> white (white_text r).
Proof. intro H. rewrite <- (app_s_nil (white_text r)). constructor; [exact H|constructor]. Qed.

Lemma trim_left_sound n : forall s, (String.length s <= n)%nat -> exists w, white w /\ s = (w ++ trim_left s)%string.
Proof.
  induction n as [|n IH]; intros s Hn.
  { destruct s; [|cbn in Hn; lia]. exists "". split; [constructor|reflexivity]. }
  assert (Z0 : exists w, white w /\ s = (w ++ s)%string) by (exists ""; split; [constructor|reflexivity]).
  destruct s as [|a r]; [exact Z0|]. cbn [trim_left String.length] in *.
  destruct (space1 a) eqn:E1.
  { destruct (IH r ltac:(lia)) as (w & Hw & E). destruct (space1_white a E1) as (x & Hx & Ex).
    exists (white_text x ++ w)%string. split; [now constructor|]. rewrite Ex. cbn. now f_equal. }
  destruct r as [|b r1]; [exact Z0|]. cbn [String.length] in *. destruct (space2 a b) eqn:E2.
  { destruct (IH r1 ltac:(lia)) as (w & Hw & E). destruct (space2_white a b E2) as (x & Hx & Ex).
    exists (white_text x ++ w)%string. split; [now constructor|]. rewrite Ex. cbn. now do 2 f_equal. }
  destruct r1 as [|c r2]; [exact Z0|]. cbn [String.length] in *. destruct (space3 a b c) eqn:E3; [|exact Z0].
  destruct (IH r2 ltac:(lia)) as (w & Hw & E). destruct (space3_white a b c E3) as (x & Hx & Ex).
  exists (white_text x ++ w)%string. split; [now constructor|]. rewrite Ex. cbn. now do 3 f_equal.
Qed.
Lemma trim_left_unit r s : In r white_runes -> trim_left (white_text r ++ s) = trim_left s.
Proof. cbn [In white_runes]. intro H. repeat (destruct H as [<-|H]; [reflexivity|]). destruct H. Qed.
Lemma trim_left_white w s : white w -> trim_left (w ++ s) = trim_left s.
Proof. induction 1 as [|r w Hr _ IH]; [reflexivity|]. rewrite app_s_assoc, trim_left_unit by exact Hr. exact IH. Qed.

Definition reversed (s : string) : string := rev_string s "".
Lemma rev_string_acc s : forall acc, rev_string s acc = (reversed s ++ acc)%string.
Proof.
  unfold reversed. induction s as [|c s IH]; intro acc; [reflexivity|]. cbn [rev_string].
  rewrite IH. rewrite (IH (String c "")). now rewrite app_s_assoc.
Qed.
Lemma reversed_app a b : reversed (a ++ b) = (reversed b ++ reversed a)%string.
Proof.
  induction a as [|c a IH]; [cbn; now rewrite app_s_nil|]. cbn [String.append]. unfold reversed in *. cbn [rev_string].
  rewrite rev_string_acc. rewrite (rev_string_acc a). unfold reversed. rewrite IH. now rewrite app_s_assoc.
Qed.
Lemma reversed_twice s : reversed (reversed s) = s.
Proof.
  induction s as [|c s IH]; [reflexivity|]. change (String c s) with (String c "" ++ s)%string at 1.
  rewrite reversed_app, reversed_app, IH. reflexivity.
Qed.

Lemma trim_right_sound n : forall s, (String.length s <= n)%nat -> exists w, white w /\ s = (reversed w ++ trim_right s)%string.
Proof.
  induction n as [|n IH]; intros s Hn.
  { destruct s; [|cbn in Hn; lia]. exists "". split; [constructor|reflexivity]. }
  assert (Z0 : exists w, white w /\ s = (reversed w ++ s)%string) by (exists ""; split; [constructor|reflexivity]).
  destruct s as [|a r]; [exact Z0|]. cbn [trim_right String.length] in *.
  assert (G : forall x r', In x white_runes -> (String.length r' <= n)%nat -> String a r = (reversed (white_text x) ++ r')%string ->
    exists w, white w /\ String a r = (reversed w ++ trim_right r')%string).
  { intros x r' Hx Hl E. destruct (IH r' Hl) as (w & Hw & E'). exists (w ++ white_text x)%string.
    split; [apply white_app; [exact Hw|now apply white_unit]|]. rewrite reversed_app, app_s_assoc, <- E'. exact E. }
  destruct (space1 a) eqn:E1.
  { destruct (space1_white a E1) as (x & Hx & Ex). apply (G x); [exact Hx|lia|now rewrite Ex]. }
  destruct r as [|b r1]; [exact Z0|]. cbn [String.length] in *. destruct (space2 b a) eqn:E2.
  { destruct (space2_white b a E2) as (x & Hx & Ex). apply (G x); [exact Hx|lia|now rewrite Ex]. }
  destruct r1 as [|c r2]; [exact Z0|]. cbn [String.length] in *. destruct (space3 c b a) eqn:E3; [|exact Z0].
  destruct (space3_white c b a E3) as (x & Hx & Ex). apply (G x); [exact Hx|lia|now rewrite Ex].
Qed.
Lemma trim_right_unit r s : In r white_runes -> trim_right (reversed (white_text r) ++ s) = trim_right s.
Proof. cbn [In white_runes]. intro H. repeat (destruct H as [<-|H]; [reflexivity|]). destruct H. Qed.
Lemma trim_right_white w : white w -> forall s, trim_right (reversed w ++ s) = trim_right s.
Proof.
  induction 1 as [|r w Hr _ IH]; intro s; [reflexivity|]. rewrite reversed_app, app_s_assoc, IH.
  now apply trim_right_unit.
Qed.

Definition says_true (s : string) : Prop := exists a b, white a /\ white b /\ s = (a ++ "true" ++ b)%string.
Theorem trim_true s : trim_space s = "true" <-> says_true s.
Proof.
  unfold trim_space. fold (reversed (trim_left s)). cbv zeta. split.
  - intro H. destruct (trim_left_sound _ s (Nat.le_refl _)) as (a & Ha & Ea).
    set (t := trim_left s) in *. clearbody t.
    destruct (trim_right_sound _ (reversed t) (Nat.le_refl _)) as (b & Hb & Eb).
    change (rev_string (trim_right (reversed t)) "") with (reversed (trim_right (reversed t))) in H.
    apply (f_equal reversed) in Eb. rewrite reversed_twice, reversed_app, reversed_twice, H in Eb.
    exists a, b. split; [exact Ha|]. split; [exact Hb|]. now rewrite Ea, Eb.
  - intros (a & b & Ha & Hb & ->). rewrite trim_left_white by exact Ha.
    change (trim_left ("true" ++ b)) with ("true" ++ b)%string. rewrite reversed_app, trim_right_white by exact Hb.
    reflexivity.
Qed.
