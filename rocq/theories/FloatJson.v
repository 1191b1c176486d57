(** JSONFloat64: the accepted JSON texts, a text for every number, and the
    limits of exponents. *)
From Coq Require Import String.
From Verif Require Import Base Num Types Text Json NumFacts Utf8Facts TextFacts JsonFacts JsonSpec JsonExact FloatSpec FloatFacts
  ParseFloat FloatRound FloatExact.
From Coq Require Import Lia.
Notation length := Datatypes.length.

(** ** Numbers of JSON *)

Lemma skip_digits_split s : exists ds, Forall digit ds /\ s = ds ++ skip_digits s /\ not_digit_first (skip_digits s).
Proof.
  induction s as [|c s (ds & H1 & H2 & H3)]; [exists []; repeat split; constructor|]. cbn [skip_digits].
  destruct (is_digit c) eqn:E.
  - apply is_digit_spec in E. exists (c :: ds). repeat split; [now constructor|cbn [app]; now rewrite <- H2|exact H3].
  - exists []. repeat split; [constructor|]. cbn. rewrite <- is_digit_spec. congruence.
Qed.
Lemma skip_digits_app ds r : Forall digit ds -> not_digit_first r -> skip_digits (ds ++ r) = r.
Proof.
  intros Hd Hr. induction Hd as [|c ds Hc _ IH]; cbn [app].
  - destruct r as [|c r]; [reflexivity|]. cbn [skip_digits]. cbn in Hr. rewrite <- is_digit_spec in Hr.
    now destruct (is_digit c).
  - cbn [skip_digits]. apply is_digit_spec in Hc. now rewrite Hc.
Qed.
Lemma some_digits (c : Z) r : is_digit c = true -> exists ds, Forall digit ds /\ ds <> [] /\ c :: r = ds ++ skip_digits r /\
  not_digit_first (skip_digits r).
Proof.
  intro H. apply is_digit_spec in H. destruct (skip_digits_split r) as (ds & H1 & H2 & H3).
  exists (c :: ds). repeat split; [now constructor|discriminate|cbn [app]; now rewrite <- H2|exact H3].
Qed.
Lemma exp_ok_exact s : json_exp_ok s = true <-> json_exp s.
Proof.
  destruct s as [|c r]; cbn [json_exp_ok]; [split; [now left|reflexivity]|]. rewrite andb_true_iff. split.
  - intros [Hc H]. right. destruct (strip_sign_spec r) as (neg & u & E & Hs & _). rewrite E in H. cbn [snd] in H.
    destruct u as [|c1 r1]; [discriminate|]. apply andb_true_iff in H as [H1 H2].
    destruct (some_digits c1 r1 H1) as (ds & D1 & D2 & D3 & _).
    assert (skip_digits r1 = []) as E0 by (destruct (skip_digits r1); [reflexivity|]; rewrite zlen_cons in H2; pose proof (zlen_nonneg l); lia).
    rewrite E0, app_nil_r in D3. exists c, ds. split; [lia|]. split; [exact D1|]. split; [exact D2|].
    rewrite <- D3. destruct Hs as [(_ & [->| ->])|(_ & ->)]; auto.
  - intros [E|(c' & ds & Hc & D1 & D2 & E)]; [discriminate|].
    assert (G : snd (strip_sign r) = ds /\ c = c').
    { destruct ds as [|d ds]; [easy|]. inversion_clear D1 as [|? ? Hd _]. unfold digit in Hd.
      destruct E as [E|[E|E]]; injection E as -> ->; [|split; reflexivity..].
      destruct (strip_sign_spec (d :: ds)) as (neg & u & Es & _ & Uq). rewrite Es.
      destruct (Uq false (d :: ds)) as [_ <-]; [left; auto|cbn; lia|cbn; lia|auto]. }
    destruct G as [-> ->]. split; [lia|]. destruct ds as [|d ds]; [easy|]. inversion_clear D1 as [|? ? Hd D].
    rewrite (proj2 (is_digit_spec d) Hd). rewrite <- (app_nil_r ds), skip_digits_app by easy. reflexivity.
Qed.
Lemma exp_no_digit e : json_exp e -> not_digit_first e.
Proof. intros [->|(c & ds & Hc & _ & _ & [->|[->| ->]])]; cbn; unfold digit; lia. Qed.
Lemma frac_ok_exact s : json_frac_ok s = true <-> exists f e, json_frac f /\ json_exp e /\ s = f ++ e.
Proof.
  destruct s as [|c r]; cbn [json_frac_ok].
  { split; [|reflexivity]. intros _. exists [], []. repeat split; now left. }
  destruct (Z.eqb_spec c 46) as [->|N].
  - split.
    + destruct r as [|c1 r1]; [discriminate|]. rewrite andb_true_iff, exp_ok_exact. intros [H1 H2].
      destruct (some_digits c1 r1 H1) as (ds & D1 & D2 & D3 & _). exists (46 :: ds), (skip_digits r1).
      split; [right; eauto|]. split; [exact H2|]. now rewrite D3.
    + intros (f & e & [->|(ds & D1 & D2 & ->)] & He & E).
      { destruct He as [->|(c & ds & Hc & _ & _ & He)]; [discriminate|]. cbn [app] in E. subst e.
        destruct He as [He|[He|He]]; injection He; lia. }
      cbn [app] in E. injection E as ->. destruct ds as [|d ds]; [easy|]. cbn [app]. inversion_clear D1 as [|? ? Hd D].
      rewrite (proj2 (is_digit_spec d) Hd), skip_digits_app; [now apply exp_ok_exact|exact D|now apply exp_no_digit].
  - rewrite exp_ok_exact. split.
    + intro H. exists [], (c :: r). split; [now left|]. auto.
    + intros (f & e & [->|(ds & _ & _ & ->)] & He & E); [now rewrite E|]. injection E. lia.
Qed.
Lemma frac_no_digit f e : json_frac f -> json_exp e -> not_digit_first (f ++ e).
Proof. intros [->|(ds & _ & _ & ->)] He; [now apply exp_no_digit|]. cbn. unfold digit. lia. Qed.
Lemma head45 {A} (f : list Z -> A) s : f (match s with 45 :: r => r | _ => s end) =
  match s with c :: r => if c =? 45 then f r else f s | [] => f s end.
Proof.
  destruct s as [|c r]; [reflexivity|]. destruct (Z.eqb_spec c 45) as [->|N]; [reflexivity|].
  destruct c as [|p|p]; try reflexivity. do 6 (destruct p as [p|p|]; try reflexivity). lia.
Qed.
Definition unsigned_ok (s : list Z) : bool :=
  match s with
  | c :: r => if c =? 48 then json_frac_ok r else is_digit c && json_frac_ok (skip_digits r)
  | [] => false
  end.
Lemma unsigned_exact s : unsigned_ok s = true <-> exists n i f e, decimal n i /\ json_frac f /\ json_exp e /\ s = i ++ f ++ e.
Proof.
  destruct s as [|c r]; cbn [unsigned_ok].
  { split; [discriminate|]. intros (n & i & f & e & (_ & _ & H & _) & _ & _ & E). destruct i; [easy|discriminate]. }
  destruct (Z.eqb_spec c 48) as [->|N].
  - rewrite frac_ok_exact. split.
    + intros (f & e & Hf & He & ->). exists 0, [48], f, e. repeat split; auto; [|discriminate]. repeat constructor; easy.
    + intros (n & i & f & e & (D & _ & Hne & Z0) & Hf & He & E). destruct i as [|d i]; [easy|].
      cbn [app] in E. injection E as <- ->. cbn [hd] in Z0. specialize (Z0 eq_refl). assert (i = []) as -> by congruence.
      exists f, e. auto.
  - rewrite andb_true_iff, frac_ok_exact. split.
    + intros [H1 (f & e & Hf & He & E)]. destruct (some_digits c r H1) as (ds & D1 & D2 & D3 & _).
      exists (digits_val ds), ds, f, e. rewrite <- E. repeat split; auto. intro H.
      destruct ds as [|d ds]; [easy|]. cbn [app] in D3. cbn [hd] in H. injection D3. lia.
    + intros (n & i & f & e & (D & _ & Hne & Z0) & Hf & He & E). destruct i as [|d i]; [easy|].
      cbn [app] in E. injection E as <- ->. inversion_clear D as [|? ? Hd D']. split; [now apply is_digit_spec|].
      rewrite skip_digits_app; [|exact D'|now apply frac_no_digit]. exists f, e. auto.
Qed.
Lemma number_ok_exact s : json_number_ok s = true <-> json_num s.
Proof.
  assert (E : json_number_ok s = match s with c :: r => if c =? 45 then unsigned_ok r else unsigned_ok s | [] => unsigned_ok s end).
  { rewrite <- (head45 unsigned_ok). reflexivity. }
  rewrite E. clear E. unfold json_num. destruct s as [|c r].
  { split; [discriminate|]. intros (n & i & f & e & (_ & _ & H & _) & _ & _ & [E|E]); [|discriminate]. destruct i; [easy|discriminate]. }
  destruct (Z.eqb_spec c 45) as [->|N]; rewrite unsigned_exact; split.
  - intros (n & i & f & e & H1 & H2 & H3 & ->). exists n, i, f, e. auto.
  - intros (n & i & f & e & H1 & H2 & H3 & [E|E]); [|injection E as ->; exists n, i, f, e; auto].
    exfalso. destruct i as [|d i]; [now destruct H1 as (_ & _ & H & _)|]. cbn [app] in E. injection E as <- _.
    pose proof (decimal_head _ _ _ _ H1 eq_refl) as D. unfold digit in D. lia.
  - intros (n & i & f & e & H1 & H2 & H3 & ->). exists n, i, f, e. auto.
  - intros (n & i & f & e & H1 & H2 & H3 & [->|E]); [exists n, i, f, e; auto|]. congruence.
Qed.
Lemma json_num_tight s : json_num s -> tight s /\ (exists c r, s = c :: r /\ (digit c \/ c = 45)).
Proof.
  intros (n & i & f & e & H1 & H2 & H3 & E).
  assert (T : exists c d r r', i ++ f ++ e = c :: r /\ i ++ f ++ e = r' ++ [d] /\ digit c /\ digit d).
  { assert (L : forall (x ds : list Z), Forall digit ds -> ds <> [] -> exists r' d, x ++ ds = r' ++ [d] /\ digit d).
    { intros x ds D Hne. destruct (exists_last Hne) as (r' & d & ->). apply Forall_app in D as [_ D].
      exists (x ++ r'), d. split; [now rewrite app_assoc|now inversion D]. }
    assert (Le : exists r' d, i ++ f ++ e = r' ++ [d] /\ digit d).
    { destruct H3 as [->|(c & ds & _ & D & Hne & E3)].
      - rewrite app_nil_r. destruct H2 as [->|(ds & D & Hne & ->)].
        + rewrite app_nil_r. destruct H1 as (D & _ & Hne & _). destruct (L [] i D Hne) as (r' & d & Er & Hd). exists r', d. auto.
        + change (46 :: ds) with ([46] ++ ds). rewrite app_assoc. now apply L.
      - destruct E3 as [->|[->| ->]]; [change (c :: ds) with ([c] ++ ds)|change (c :: 43 :: ds) with ([c; 43] ++ ds)
          |change (c :: 45 :: ds) with ([c; 45] ++ ds)]; rewrite !app_assoc; now apply L. }
    destruct Le as (r' & d & Er & Hd). destruct i as [|c i]; [now destruct H1 as (_ & _ & H & _)|].
    exists c, d, (i ++ f ++ e), r'. split; [reflexivity|]. split; [exact Er|]. split; [|exact Hd].
    now apply (decimal_head _ _ _ i H1). }
  destruct T as (c & d & r & r' & E1 & E2 & Hc & Hd). unfold digit in *. destruct E as [->| ->].
  - split; [exists c, d, r, r'; unfold blank; repeat split; auto; lia|]. exists c, r. auto.
  - split; [|exists 45, (i ++ f ++ e); auto]. exists 45, d, (i ++ f ++ e), (45 :: r'). unfold blank.
    split; [reflexivity|]. split; [cbn [app]; now rewrite E2|]. split; lia.
Qed.
Lemma json_num_not_null s : json_num s -> is_null s = false.
Proof.
  intro H. apply json_num_tight in H as [_ (c & r & -> & Hc)]. destruct (is_null (c :: r)) eqn:E; [|reflexivity].
  apply is_null_spec in E. injection E as -> _. unfold digit in Hc. lia.
Qed.
Lemma json_float_exact old data b : json_float64 old data = Some b <->
  json_nil data /\ b = old \/ exists s, json_num s /\ padded s data /\ parse_float s = Some b.
Proof.
  unfold json_float64. pose proof (trim_padded data) as P. split.
  - destruct (is_null (json_trim data)) eqn:E.
    + intro H. left. apply is_null_spec in E. rewrite E in P. split; [exact P|congruence].
    + destruct (json_number_ok (json_trim data)) eqn:N; [|discriminate]. intro H. right. exists (json_trim data).
      apply number_ok_exact in N. auto.
  - intros [[H ->]|(s & H1 & H2 & H3)].
    + rewrite (padded_trim _ _ null_tight H). reflexivity.
    + pose proof (json_num_tight s H1) as [T _]. rewrite (padded_trim _ _ T H2), json_num_not_null by exact H1.
      apply number_ok_exact in H1. now rewrite H1.
Qed.

(** ** Quoted texts *)

Definition ascii_text (s : list Z) : Prop := Forall (fun c => c < 128) s.
Lemma digits_ascii b n s : b <= 16 -> digits_of b n s -> ascii_text s.
Proof.
  intro Hb. unfold ascii_text.
  induction 1 as [c d Hc|n s c d _ IH Hc|n s c d _ IH Hc]; rewrite ?Forall_app; repeat split; auto; repeat constructor;
    unfold base_digit in Hc; lia.
Qed.
Lemma whole_ascii hex n i : whole_of hex n i -> ascii_text i.
Proof.
  unfold whole_of. destruct hex; [|apply digits_ascii; lia]. intros [H|(s' & -> & H)]; [|constructor; [lia|]];
    apply digits_ascii in H; auto; lia.
Qed.
Lemma mantissa_ascii hex m k s : mantissa (bas hex) (whole_of hex) m k s -> ascii_text s.
Proof.
  assert (B : bas hex <= 16) by (destruct hex; cbn; lia). unfold ascii_text.
  destruct 1 as [n i H|n i H|n i f fs H Hf|f fs Hf]; try apply whole_ascii in H; try (apply digits_ascii in Hf; [|exact B]);
    rewrite ?Forall_app; repeat split; auto; repeat constructor; auto; lia.
Qed.
Lemma exponent_ascii hex x t : exponent_of hex x t -> ascii_text t.
Proof.
  unfold exponent_of, exponent, ascii_text. intro H.
  assert (G : exists c ds, c < 128 /\ ascii_text ds /\ (t = c :: ds \/ t = c :: 43 :: ds \/ t = c :: 45 :: ds)).
  { destruct hex; destruct H as (c & ds & Hc & [[D H]|[D H]]); apply digits_ascii in D; try lia; exists c, ds;
      (split; [lia|]); (split; [exact D|]); intuition. }
  destruct G as (c & ds & Hc & D & [->|[->| ->]]); repeat constructor; auto; lia.
Qed.
Lemma read_ascii hex m k e u : text_read hex m k e u -> (hex = true -> is_x (hd 0 (tl u)) = true) -> ascii_text u.
Proof.
  intros (s & t & Hm & He & Eu) Hx. apply mantissa_ascii in Hm.
  assert (Ht : ascii_text t).
  { destruct He as [(x & He & _)|(_ & -> & _)]; [now apply exponent_ascii in He|constructor]. }
  destruct hex.
  - specialize (Hx eq_refl). remember (hd 0 (tl u)) as c eqn:Ec. clear Ec. subst u.
    constructor; [lia|]. constructor; [unfold is_x in Hx; lia|]. apply Forall_app. auto.
  - subst u. apply Forall_app. auto.
Qed.
Lemma signed_ascii neg u s : signed neg u s -> ascii_text u -> ascii_text s.
Proof. intros [(_ & [->| ->])|(_ & ->)] H; auto; constructor; auto; lia. Qed.
Lemma spelled_ascii p s : ascii_text p -> spelled p s -> ascii_text s.
Proof. intros Hp H. induction H as [|a c p s H1 _ IH]; [constructor|]. inversion_clear Hp. constructor; [lia|now apply IH]. Qed.
Lemma special_ascii s b : fl_special s = Some b -> ascii_text s.
Proof.
  rewrite special_spec. intros [[H _]|(neg & u & Hs & Hu & _)].
  - apply spelled_ascii in H; [exact H|]. repeat constructor; lia.
  - apply (signed_ascii neg u s Hs). destruct Hu as [Hu|Hu]; apply spelled_ascii in Hu; auto; repeat constructor; lia.
Qed.
Lemma parse_ascii s b : parse_float s = Some b -> ascii_text s.
Proof.
  rewrite parse_read. intros [H|(neg & u & hex & m & k & e & Hs & Ht & Hx & _)]; [now apply special_ascii with b|].
  apply (signed_ascii neg u s Hs). now apply read_ascii with hex m k e.
Qed.
Lemma value_ascii s b : float_value s b -> ascii_text s.
Proof.
  rewrite float_value_cases, <- value_special. intros [H|(neg & u & m & B & p & n & d & a & Hs & Hn & _)]; [now apply special_ascii with b|].
  apply (signed_ascii neg u s Hs). destruct (number_cases _ _ _ _ Hn) as (hex & k & x & ms & t & Hm & _ & _ & He & Eu & Hx).
  assert (Ht : exists e, text_read hex m k e u).
  { destruct He as [He|(-> & -> & ->)].
    - destruct (exponent_parse _ _ _ He) as (e & Hc & Fe). exists e, ms, t. split; [exact Hm|]. split; [left; eauto|exact Eu].
    - exists 0, ms, []. split; [exact Hm|]. split; [right; auto|exact Eu]. }
  destruct Ht as [e Ht]. now apply read_ascii with hex m k e.
Qed.
Lemma utf8_ascii n : ascii_text (utf8_char n) -> zlen (utf8_char n) <= 1.
Proof.
  unfold utf8_char, ascii_text. intro H. destruct (Z.ltb_spec n 128); [cbn; lia|]. exfalso.
  assert (P : forall k, 0 < k -> 0 <= n / k) by (intros k Hk; apply Z.div_pos; lia).
  pose proof (P 64 eq_refl). pose proof (P 4096 eq_refl). pose proof (P 262144 eq_refl).
  destruct (n <? 0x800); [|destruct (n <? 0x10000)]; apply Forall_inv in H; lia.
Qed.
Lemma literal_short s t : literal s t -> ascii_text t -> zlen t <= zlen s.
Proof.
  assert (R : ascii_text replacement -> False).
  { intro H. inversion H as [|? ? H1 _]. cbv in H1. discriminate. }
  induction 1 as [|c s t _ _ _ _ IH|r s t _ _ _ IH|b s t _ _ _ IH|e c s t _ _ IH|n u s t Hu _ _ _ IH|n u m u' s t Hu _ Hu' _ _ IH|n u s t Hu _ _ _ IH];
    intro A; unfold ascii_text in A; rewrite ?Forall_app in A; rewrite ?zlen_app, ?zlen_cons, ?zlen_app, ?zlen_cons, ?zlen_app.
  - cbn. lia.
  - inversion_clear A. specialize (IH H0). lia.
  - destruct A as [_ A]. specialize (IH A). lia.
  - destruct A as [A _]. destruct (R A).
  - inversion_clear A. specialize (IH H0). lia.
  - destruct A as [A1 A2]. specialize (IH A2). apply utf8_ascii in A1. pose proof (zlen_nonneg u). lia.
  - destruct A as [A1 A2]. specialize (IH A2). apply utf8_ascii in A1. pose proof (zlen_nonneg u). pose proof (zlen_nonneg u'). lia.
  - destruct A as [A _]. destruct (R A).
Qed.
Lemma padded_len s data : padded s data -> zlen s <= zlen data.
Proof. intros (w1 & w2 & _ & _ & ->). rewrite !zlen_app. pose proof (zlen_nonneg w1). pose proof (zlen_nonneg w2). lia. Qed.
Lemma string_short t data : json_str t data -> ascii_text t -> zlen t < zlen data.
Proof.
  intros (s & Hl & Hp) A. apply padded_len in Hp. rewrite zlen_cons in Hp. pose proof (literal_short s t Hl A). lia.
Qed.

Theorem jsonfloat_exact data b : bytes_ok data -> zlen data < 2000 ->
  (jsonfloat64_unmarshal_json data = Ok b <->
   (exists r s, data = 34 :: r /\ json_str s data /\ float_value s b) \/
   (json_nil data /\ b = 0) \/ (exists s, json_num s /\ padded s data /\ float_value s b)).
Proof.
  intros Hb HL.
  assert (Num : (exists s, json_num s /\ padded s data /\ parse_float s = Some b) <->
                (exists s, json_num s /\ padded s data /\ float_value s b)).
  { split; intros (s & H1 & H2 & H3); exists s; (split; [exact H1|]); (split; [exact H2|]);
      apply parse_float_exact; auto; apply padded_len in H2; lia. }
  destruct data as [|c r].
  - split; [discriminate|]. assert (N : forall s, tight s -> ~ padded s []).
    { intros s (c & d & r & r' & -> & _) (w1 & w2 & _ & _ & E). destruct w1; discriminate. }
    intros [(r & s & E & _)|[(H & _)|(s & H1 & H2 & _)]]; [discriminate|exfalso..].
    + now apply (N _ null_tight).
    + now apply (N _ (proj1 (json_num_tight _ H1))).
  - destruct (Z.eq_dec c 34) as [->|N].
    + change (jsonfloat64_unmarshal_json (34 :: r)) with
        (match json_string [] (34 :: r) with Some s => of_option (parse_float s) | None => Err EMsg end).
      split.
      * destruct (json_string [] (34 :: r)) as [s|] eqn:E; [|discriminate]. rewrite of_option_ok. intro P.
        apply json_string_exact in E; [|exact Hb]. left. exists r, s. split; [reflexivity|].
        assert (E' : json_str s (34 :: r)) by (destruct E as [E|[E _]]; [exact E|]; now apply (quote_not_nil r) in E).
        split; [exact E'|]. apply parse_float_exact; [|exact P]. pose proof (string_short _ _ E' (parse_ascii _ _ P)). lia.
      * intros [(r' & s & _ & Hs & Hn)|[(H & _)|(s & H1 & H2 & _)]].
        -- rewrite (proj2 (json_string_exact [] (34 :: r) s Hb)) by now left.
           apply of_option_ok, parse_float_exact; [|exact Hn]. pose proof (string_short _ _ Hs (value_ascii _ _ Hn)). lia.
        -- now apply (quote_not_nil r) in H.
        -- exfalso. destruct (json_num_tight s H1) as [T (c & r2 & E2 & Hc)].
           destruct (quote_start _ _ _ T H2 eq_refl) as (r' & E'). rewrite E' in E2. injection E2 as <- _. unfold digit in Hc. lia.
    + assert (E0 : jsonfloat64_unmarshal_json (c :: r) = of_option (json_float64 0 (c :: r))).
      { unfold jsonfloat64_unmarshal_json. now rewrite head_quote. }
      rewrite E0, of_option_ok, json_float_exact, Num. split.
      * intros [H|H]; auto.
      * intros [(r' & s & E & _)|[H|H]]; [congruence|auto..].
Qed.

(** ** Every number has a text *)

Lemma run_digits ds : Forall digit ds -> ds <> [] -> digits_of 10 (digits_val ds) ds.
Proof.
  induction ds as [|c ds IH] using rev_ind; [easy|]. intros D _. apply Forall_app in D as [D Dc]. apply Forall_inv in Dc.
  rewrite digits_val_app. change (zlen [c]) with 1. change (digits_val [c]) with (c - 48). rewrite Z.pow_1_r.
  assert (B : base_digit 10 c (c - 48)) by (unfold digit in Dc; unfold base_digit; lia).
  destruct ds as [|c0 ds].
  - cbn [app]. change (digits_val [] * 10 + (c - 48)) with (c - 48). now constructor.
  - constructor 2; [apply IH; [exact D|discriminate]|exact B].
Qed.
Lemma nearest_exact a d : 0 <= a < infinity64 -> 0 < d -> nearest (d * float_units F64 a) d a.
Proof.
  intros Ha Hd. split; [lia|]. intros b Hb N. left. rewrite Z.sub_diag. change (Z.abs 0) with 0. apply Z.abs_pos.
  pose proof inf_lt. rewrite !float_units_pos by lia. assert (units 52 a <> units 52 b); [|nia].
  destruct (Z.lt_total a b) as [L|[E|L]]; [|lia|].
  - pose proof (units_lt 52 a b ltac:(lia) ltac:(lia) L). lia.
  - pose proof (units_lt 52 b a ltac:(lia) ltac:(lia) L). lia.
Qed.
Ltac all_digits := vm_compute str; repeat (apply Forall_cons; [unfold digit; lia|]); apply Forall_nil.
Definition exact_text (b : Z) : list Z :=
  (if b <? 2 ^ 63 then [] else [45]) ++ itoa (float_units F64 (b mod 2 ^ 63) * 5 ^ 1074) ++ str "e-1074".
Lemma exact_exponent : exponent_of false (- 1074) (str "e-1074").
Proof.
  exists 101, (str "1074"). split; [now left|]. right. split; [|reflexivity].
  change (- - 1074) with (digits_val (str "1074")). apply run_digits; [|discriminate]. all_digits.
Qed.
Lemma exact_text_reads b : 0 <= b < 2 ^ 64 -> b mod 2 ^ 63 < infinity64 ->
  json_num (exact_text b) /\ float_value (exact_text b) b /\ parse_float (exact_text b) = Some b.
Proof.
  intros Hb Hf. unfold exact_text. set (a := b mod 2 ^ 63) in *.
  assert (Ha : 0 <= a < 2 ^ 63) by (apply Z.mod_pos_bound; lia).
  assert (U : 0 <= float_units F64 a) by (rewrite float_units_pos by lia; apply units_nonneg; lia).
  set (n := float_units F64 a * 5 ^ 1074). assert (P5 : 0 < 5 ^ 1074) by (apply Z.pow_pos_nonneg; lia).
  assert (Hn : 0 <= n) by (unfold n; nia).
  assert (Di : decimal n (itoa n)).
  { pose proof (itoa_spec n) as I. unfold integer in I. destruct (Z.ltb_spec n 0); [lia|exact I]. }
  set (neg := negb (b <? 2 ^ 63)). set (u := itoa n ++ str "e-1074").
  assert (Eb : b = sign_bit neg + a).
  { unfold neg, sign_bit, a. destruct (Z.ltb_spec b (2 ^ 63)); cbn [negb].
    - rewrite Z.mod_small; lia.
    - rewrite (Z.mod_eq b (2 ^ 63)) by lia. assert (b / 2 ^ 63 = 1); [|lia]. symmetry. apply Z.div_unique with (b - 2 ^ 63); lia. }
  assert (Hs : signed neg u ((if b <? 2 ^ 63 then [] else [45]) ++ u)).
  { unfold neg, signed. destruct (b <? 2 ^ 63); cbn [negb app]; auto. }
  assert (Hm : mantissa 10 (digits_of 10) n 0 (itoa n)).
  { constructor. destruct Di as (D & E & Ne & _). rewrite <- E at 1. now apply run_digits. }
  assert (Hu : in_units n 10 (- 1074) (10 ^ 1074 * float_units F64 a) (10 ^ 1074)).
  { right. split; [lia|]. split; [|reflexivity]. unfold n. change 10 with (5 * 2). rewrite Z.pow_mul_l. ring. }
  assert (Nr : nearest (10 ^ 1074 * float_units F64 a) (10 ^ 1074) a).
  { apply nearest_exact; [lia|]. apply Z.pow_pos_nonneg; lia. }
  split; [|split].
  - exists n, (itoa n), [], (str "e-1074"). split; [exact Di|]. split; [now left|].
    split; [|destruct (b <? 2 ^ 63); auto]. right. exists 101, (str "1074"). split; [now left|].
    split; [all_digits|]. split; [discriminate|]. right. right. reflexivity.
  - rewrite Eb at 2. apply fv_number with u n 10 (- 1074) (10 ^ 1074 * float_units F64 a) (10 ^ 1074); auto.
    exact (num_exp n 0 (itoa n) (- 1074) (str "e-1074") Hm exact_exponent).
  - apply parse_read. right. exists neg, u, false, n, 0, (- 1074). split; [exact Hs|]. split.
    + exists (itoa n), (str "e-1074"). split; [exact Hm|]. split; [|reflexivity]. left. exists (- 1074).
      split; [exact exact_exponent|]. split; [|reflexivity]. right. split; [lia|]. left. lia.
    + split; [discriminate|]. apply value_exact; [exact Hn|].
      exists (10 ^ 1074 * float_units F64 a), (10 ^ 1074), a. auto.
Qed.
Lemma jsonfloat_num s : json_num s -> jsonfloat64_unmarshal_json s = of_option (parse_float s).
Proof.
  intro H. assert (E : json_float64 0 s = parse_float s).
  { destruct (json_num_tight s H) as [T _]. unfold json_float64. rewrite (padded_trim s s T).
    - rewrite json_num_not_null by exact H. apply number_ok_exact in H. now rewrite H.
    - exists [], []. rewrite app_nil_r. repeat constructor. }
  rewrite <- E. destruct (json_num_tight s H) as [_ (c & r & -> & Hc)]. unfold jsonfloat64_unmarshal_json.
  rewrite head_quote; [reflexivity|]. unfold digit in Hc. lia.
Qed.
Theorem every_float b : 0 <= b < 2 ^ 64 -> b mod 2 ^ 63 < infinity64 ->
  exists s, json_num s /\ float_value s b /\ jsonfloat64_unmarshal_json s = Ok b.
Proof.
  intros Hb Hf. destruct (exact_text_reads b Hb Hf) as (H1 & H2 & H3). exists (exact_text b).
  split; [exact H1|]. split; [exact H2|]. now rewrite jsonfloat_num, H3.
Qed.

(** ** Long texts with large exponents *)

(** 0.00...01e200000, with 200000 digits after the point. *)
Definition long_one : list Z := 48 :: 46 :: repeat 48 (Z.to_nat 199999) ++ 49 :: str "e200000".
Lemma zeros_digits k : digits_of 10 1 (repeat 48 k ++ [49]).
Proof.
  rewrite <- (app_nil_r [49]) at 1. assert (R : forall k, rest 10 0 (repeat 48 k ++ [49]) 1).
  { induction k0 as [|k0 IH]; cbn [repeat app].
    - apply rest_dig with 1; [unfold base_digit; lia|]. constructor.
    - apply rest_dig with 0; [unfold base_digit; lia|]. exact IH. }
  rewrite app_nil_r. apply digits_rest. destruct k as [|k]; cbn [repeat app].
  - exists 49, 1, []. split; [reflexivity|]. split; [unfold base_digit; lia|constructor].
  - exists 48, 0, (repeat 48 k ++ [49]). split; [reflexivity|]. split; [unfold base_digit; lia|apply R].
Qed.
Lemma zeros_count k : digit_count (repeat 48 k ++ [49]) = Z.of_nat k + 1.
Proof.
  induction k as [|k IH]; [reflexivity|]. cbn [repeat app]. rewrite count_cons by lia. rewrite IH. lia.
Qed.
Lemma long_mantissa : mantissa 10 (digits_of 10) 1 200000 (48 :: 46 :: repeat 48 (Z.to_nat 199999) ++ [49]).
Proof.
  pose proof (zeros_count (Z.to_nat 199999)) as C. rewrite Z2Nat.id in C by lia. change (199999 + 1) with 200000 in C.
  assert (W : digits_of 10 0 [48]) by (constructor; unfold base_digit; lia).
  pose proof (mant_both 10 (digits_of 10) 0 [48] 1 _ W (zeros_digits (Z.to_nat 199999))) as M.
  rewrite C, Z.mul_0_l in M. exact M.
Qed.
Lemma long_exponent : exponent_of false 200000 (str "e200000").
Proof.
  exists 101, (str "200000"). split; [now left|]. left. split; [|left; reflexivity].
  change 200000 with (digits_val (str "200000")). apply run_digits; [|discriminate]. all_digits.
Qed.
Lemma long_text : long_one = (48 :: 46 :: repeat 48 (Z.to_nat 199999) ++ [49]) ++ str "e200000".
Proof. unfold long_one. cbn [app]. rewrite <- app_assoc. reflexivity. Qed.
Lemma long_json : json_num long_one.
Proof.
  exists 0, [48], (46 :: repeat 48 (Z.to_nat 199999) ++ [49]), (str "e200000").
  split; [repeat split; [all_digits|discriminate]|]. split.
  - right. exists (repeat 48 (Z.to_nat 199999) ++ [49]). split; [|split; [|reflexivity]].
    + apply Forall_app. split; [|all_digits]. apply Forall_forall. intros x Hx.
      apply repeat_spec in Hx. unfold digit. lia.
    + intro E. now apply app_eq_nil in E as [_ E].
  - split; [|left; rewrite long_text; reflexivity]. right. exists 101, (str "200000"). split; [now left|].
    split; [all_digits|]. split; [discriminate|]. now left.
Qed.
Theorem long_exponent_reads : json_num long_one /\ float_value long_one 0x3FF0000000000000 /\
  jsonfloat64_unmarshal_json long_one = Ok 0.
Proof.
  split; [exact long_json|]. assert (Sg : signed false long_one long_one) by (left; auto). split.
  - apply (fv_number long_one false long_one 1 10 0 (2 ^ 1074) 1 0x3FF0000000000000); [exact Sg|..].
    + rewrite long_text. exact (num_exp 1 200000 _ 200000 _ long_mantissa long_exponent).
    + left. split; [lia|]. split; [|reflexivity]. now rewrite Z.pow_0_r, !Z.mul_1_l.
    + apply round_exact; [apply Z.pow_nonneg; lia|lia|]. split; [vm_compute; reflexivity|reflexivity].
    + reflexivity.
  - rewrite jsonfloat_num by exact long_json. apply of_option_ok, parse_read. right.
    exists false, long_one, false, 1, 200000, 20000. split; [exact Sg|]. split.
    + exists (48 :: 46 :: repeat 48 (Z.to_nat 199999) ++ [49]), (str "e200000"). split; [exact long_mantissa|].
      split; [|exact long_text]. left. exists 200000. split; [exact long_exponent|]. split; [|reflexivity].
      left. split; [lia|]. right. exists 1. split; [lia|]. split; [lia|reflexivity].
    + split; [discriminate|]. unfold fl_value. change (20000 - 200000) with (- 180000).
      rewrite pattern_tiny; [reflexivity|lia| |lia]. split; [lia|]. change 1 with (2 ^ 0) at 1. apply Z.pow_lt_mono_r; lia.
Qed.
