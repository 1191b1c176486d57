(** Facts about /repo/heck.go on ASCII strings (C41, C42). *)
From Coq Require Import String.
From Verif Require Import Base Text Utf8 Spec NumFacts Utf8Facts Heck.
Notation length := Datatypes.length.

(** * What the functions should do, on ASCII *)

Definition upper_char (c : Z) : bool := (65 <=? c) && (c <=? 90).
Definition lower_char (c : Z) : bool := (97 <=? c) && (c <=? 122).
Definition digit_char (c : Z) : bool := (48 <=? c) && (c <=? 57).
Definition alnum (c : Z) : bool := upper_char c || lower_char c || digit_char c.
Definition lower_of (c : Z) : Z := if upper_char c then c + 32 else c.
Definition upper_of (c : Z) : Z := if lower_char c then c - 32 else c.
Definition ascii (s : list Z) : Prop := Forall (fun c => 0 <= c < 128) s.

(** The maximal runs of letters and digits of a text. *)
Fixpoint runs_from (cur s : list Z) : list (list Z) :=
  match s with
  | [] => match cur with [] => [] | _ => [cur] end
  | c :: r => if alnum c then runs_from (cur ++ [c]) r
              else match cur with [] => runs_from [] r | _ => cur :: runs_from [] r end
  end.
Definition runs (s : list Z) : list (list Z) := runs_from [] s.

(** A new word starts inside such a run, between [before] and [c], if [c] is an
    upper case letter and the last letter before it is lower case, or it is
    upper case and the letter behind [c] is lower case. *)
Definition last_letter (before : list Z) : option Z :=
  find (fun c => upper_char c || lower_char c) (rev before).
Definition starts (before : list Z) (c : Z) (after : list Z) : bool :=
  upper_char c &&
  match last_letter before with
  | None => false
  | Some x => lower_char x || match after with d :: _ => lower_char d | [] => false end
  end.
Fixpoint humps_from (before cur w : list Z) : list (list Z) :=
  match w with
  | [] => [cur]
  | c :: r => if starts before c r then cur :: humps_from (before ++ [c]) [c] r
              else humps_from (before ++ [c]) (cur ++ [c]) r
  end.
Definition humps (w : list Z) : list (list Z) := humps_from [] [] w.

(** The words of a text. *)
Definition text_words (s : list Z) : list (list Z) := flat_map humps (runs s).
Definition capital (w : list Z) : list Z :=
  match w with [] => [] | c :: r => upper_of c :: map lower_of r end.

(** * ASCII strings *)

Lemma runes_ascii s : ascii s -> runes s = s.
Proof.
  induction s as [|c s IH]; intro H; [reflexivity|]. inversion_clear H as [|? ? Hc Hs].
  unfold runes. cbn [length runes_aux]. unfold decode_rune. replace (c <? 128) with true by lia.
  cbn [skipn]. rewrite runes_fuel by lia. now rewrite IH.
Qed.
Lemma encode_ascii c : 0 <= c < 128 -> encode_rune c = [c].
Proof.
  intro H. unfold encode_rune.
  replace ((c <? 0) || (0x10FFFF <? c) || ((0xD800 <=? c) && (c <=? 0xDFFF))) with false by lia.
  now replace (c <=? 0x7F) with true by lia.
Qed.
Lemma is_upper_ascii u c : 0 <= c < 128 -> is_upper u c = upper_char c.
Proof. intro H. unfold is_upper. now replace (c <? 128) with true by lia. Qed.
Lemma is_lower_ascii u c : 0 <= c < 128 -> is_lower u c = lower_char c.
Proof. intro H. unfold is_lower. now replace (c <? 128) with true by lia. Qed.
Lemma is_alnum_ascii u c : 0 <= c < 128 -> is_letter u c || is_digit_rune u c = alnum c.
Proof. intro H. unfold is_letter, is_digit_rune. now replace (c <? 128) with true by lia. Qed.
Lemma to_lower_ascii u c : 0 <= c < 128 -> to_lower u c = lower_of c.
Proof. intro H. unfold to_lower. now replace (c <? 128) with true by lia. Qed.
Lemma to_upper_ascii u c : 0 <= c < 128 -> to_upper u c = upper_of c.
Proof. intro H. unfold to_upper. now replace (c <? 128) with true by lia. Qed.
Lemma lower_of_range c : 0 <= c < 128 -> 0 <= lower_of c < 128.
Proof. intro H. unfold lower_of, upper_char. destruct (65 <=? c) eqn:E1, (c <=? 90) eqn:E2; cbn [andb]; lia. Qed.
Lemma upper_of_range c : 0 <= c < 128 -> 0 <= upper_of c < 128.
Proof. intro H. unfold upper_of, lower_char. destruct (97 <=? c) eqn:E1, (c <=? 122) eqn:E2; cbn [andb]; lia. Qed.

Lemma strings_lower_ascii u s : ascii s -> strings_lower u s = map lower_of s.
Proof.
  intro H. unfold strings_lower. rewrite runes_ascii by exact H. induction H as [|c s Hc Hs IH]; [reflexivity|].
  cbn [flat_map map]. rewrite IH, to_lower_ascii by exact Hc. now rewrite encode_ascii by now apply lower_of_range.
Qed.
Lemma strings_upper_ascii u s : ascii s -> strings_upper u s = map upper_of s.
Proof.
  intro H. unfold strings_upper. rewrite runes_ascii by exact H. induction H as [|c s Hc Hs IH]; [reflexivity|].
  cbn [flat_map map]. rewrite IH, to_upper_ascii by exact Hc. now rewrite encode_ascii by now apply upper_of_range.
Qed.
Lemma lowercase_ascii u s : ascii s -> lowercase u s = map lower_of s.
Proof.
  intro H. unfold lowercase. rewrite runes_ascii by exact H. induction H as [|c s Hc Hs IH]; [reflexivity|].
  cbn [lowercase_runes map]. replace (c =? 931) with false by lia. cbn [andb].
  rewrite IH, encode_ascii by exact Hc. rewrite strings_lower_ascii; [reflexivity|]. now constructor.
Qed.
Lemma capitalize_ascii u s : ascii s -> capitalize u s = capital s.
Proof.
  intro H. unfold capitalize. rewrite runes_ascii by exact H. destruct H as [|c s Hc Hs]; [reflexivity|].
  rewrite encode_ascii by exact Hc. rewrite strings_upper_ascii by (constructor; [exact Hc|constructor]).
  cbn [map app skipn capital]. f_equal. rewrite lowercase_ascii by exact Hs. now destruct s.
Qed.

Lemma fields_ascii u s : ascii s -> forall f cur, (length s <= f)%nat ->
  fields_func f (fun r => negb (is_letter u r || is_digit_rune u r)) cur s = runs_from cur s.
Proof.
  induction s as [|c s IH]; intros H f cur Hf; [now destruct f|].
  inversion_clear H as [|? ? Hc Hs]. destruct f as [|f]; [cbn in Hf; lia|]. cbn in Hf.
  cbn [fields_func runs_from]. unfold decode_rune. replace (c <? 128) with true by lia.
  rewrite is_alnum_ascii by exact Hc. cbn [skipn firstn].
  destruct (alnum c); cbn [negb]; rewrite !IH by (assumption || lia); reflexivity.
Qed.
Lemma words_ascii u s : ascii s -> split_into_words u s = runs s.
Proof. intro H. unfold split_into_words. now apply fields_ascii. Qed.

Definition alnums (w : list Z) : Prop := Forall (fun c => alnum c = true) w.
Lemma alnum_ascii w : alnums w -> ascii w.
Proof. apply Forall_impl. intros c. unfold alnum, upper_char, lower_char, digit_char. lia. Qed.
Lemma runs_from_ok s : forall cur, alnums cur -> Forall (fun w => alnums w /\ w <> []) (runs_from cur s).
Proof.
  induction s as [|c s IH]; intros cur Hc; cbn [runs_from].
  - destruct cur; constructor; [now split|constructor].
  - destruct (alnum c) eqn:E.
    + apply IH. apply Forall_app. split; [exact Hc|]. constructor; [exact E|constructor].
    + destruct cur; [apply IH; constructor|]. constructor; [now split|apply IH; constructor].
Qed.
Lemma runs_concat s : forall cur, concat (runs_from cur s) = cur ++ filter alnum s.
Proof.
  induction s as [|c s IH]; intro cur; cbn [runs_from filter].
  - destruct cur; cbn [concat]; now rewrite ?app_nil_r.
  - destruct (alnum c); [rewrite IH; now rewrite <- app_assoc|].
    destruct cur; [now rewrite IH|]. cbn [concat]. now rewrite IH.
Qed.

(** * The loop cuts runs into words *)

Fixpoint render (W : list Z -> list Z) (B : list Z) (first : bool) (ps : list (list Z)) : list Z :=
  match ps with
  | [] => []
  | p :: r => (if first then [] else B) ++ W p ++ render W B false r
  end.

Definition matches (m : word_mode) (before : list Z) : Prop :=
  match m with
  | MBoundary => last_letter before = None
  | MLowercase => exists x, last_letter before = Some x /\ lower_char x = true
  | MUppercase => exists x, last_letter before = Some x /\ upper_char x = true
  end.
Lemma last_letter_snoc a c :
  last_letter (a ++ [c]) = if upper_char c || lower_char c then Some c else last_letter a.
Proof. unfold last_letter. rewrite rev_app_distr. reflexivity. Qed.
Lemma not_both c : upper_char c = true -> lower_char c = false.
Proof. unfold upper_char, lower_char. lia. Qed.
Lemma matches_next u m a c : 0 <= c < 128 -> matches m a \/ lower_char c = true -> matches (next_mode u m c) (a ++ [c]).
Proof.
  intros Hc H. unfold next_mode. rewrite is_lower_ascii, is_upper_ascii by exact Hc.
  destruct (lower_char c) eqn:El.
  - exists c. rewrite last_letter_snoc, El, orb_true_r. auto.
  - destruct (upper_char c) eqn:Eu.
    + exists c. rewrite last_letter_snoc, Eu. auto.
    + destruct H as [H|H]; [|discriminate]. destruct m; unfold matches in *; rewrite last_letter_snoc, El, Eu; exact H.
Qed.
Lemma matches_lower m a : matches m a ->
  is_lower_mode m = match last_letter a with Some x => lower_char x | None => false end.
Proof.
  destruct m; cbn; [intros ->; reflexivity|..]; intros (x & -> & Hx); [now rewrite Hx|]. now rewrite not_both.
Qed.
Lemma letter_last a x : last_letter a = Some x -> upper_char x || lower_char x = true.
Proof. unfold last_letter. intro H. now apply find_some in H. Qed.
Lemma matches_upper m a : matches m a ->
  is_upper_mode m = match last_letter a with Some x => upper_char x | None => false end.
Proof.
  destruct m; cbn; [intros ->; reflexivity|..]; intros (x & -> & Hx); [|now rewrite Hx].
  destruct (upper_char x) eqn:E; [|reflexivity]. apply not_both in E. congruence.
Qed.

(** No word starts at [rs] because of a lower case letter before. *)
Definition settled (before rs : list Z) : Prop :=
  match rs, last_letter before with
  | c :: _, Some x => lower_char x && upper_char c = false
  | _, _ => True
  end.

Lemma sub_app pre cur rs a b : a = zlen pre -> b = zlen (pre ++ cur) -> sub (pre ++ cur ++ rs) a b = cur.
Proof.
  intros -> ->. unfold sub. rewrite zlen_app. unfold zlen.
  replace (Z.to_nat (Z.of_nat (length pre) + Z.of_nat (length cur) - Z.of_nat (length pre))) with (length cur) by lia.
  rewrite Nat2Z.id. rewrite skipn_app, skipn_all, Nat.sub_diag. cbn [app skipn].
  rewrite firstn_app, firstn_all, Nat.sub_diag. cbn [firstn]. now rewrite app_nil_r.
Qed.
Lemma skip_app (pre r : list Z) a : a = zlen pre -> skipn (Z.to_nat a) (pre ++ r) = r.
Proof. intros ->. unfold zlen. rewrite Nat2Z.id, skipn_app, skipn_all, Nat.sub_diag. reflexivity. Qed.

Lemma word_loop_step u W B word c next rest i init mode first :
  word_loop u W B word (c :: next :: rest) i init mode first =
  if c =? 95 then
    word_loop u W B word (next :: rest) (i + 1) (if init =? i then init + 1 else init) mode first
  else
    let sep := if first then [] else B in
    let nm := next_mode u mode c in
    if (next =? 95) || (is_lower_mode nm && is_upper u next) then
      let '(f, out) := word_loop u W B word (next :: rest) (i + 1) (i + 1) MBoundary false in
      (f, sep ++ W (sub word init (i + 1)) ++ out)
    else if is_upper_mode mode && is_upper u c && is_lower u next then
      let '(f, out) := word_loop u W B word (next :: rest) (i + 1) i MBoundary false in
      (f, sep ++ W (sub word init i) ++ out)
    else word_loop u W B word (next :: rest) (i + 1) init nm first.
Proof. reflexivity. Qed.
Lemma word_loop_cuts u W B rs : alnums rs -> rs <> [] ->
  (* no word starts here because of the mode *)
  (forall pre cur m first, matches m (pre ++ cur) \/ lower_char (hd 0 rs) = true -> settled (pre ++ cur) rs ->
     word_loop u W B (pre ++ cur ++ rs) rs (zlen (pre ++ cur)) (zlen pre) m first =
     (false, render W B first (humps_from (pre ++ cur) cur rs))) /\
  (* a word has just been started here *)
  (forall pre first, upper_char (hd 0 rs) = true ->
     word_loop u W B (pre ++ rs) rs (zlen pre) (zlen pre) MBoundary first =
     (false, render W B first (humps_from (pre ++ [hd 0 rs]) [hd 0 rs] (tl rs)))).
Proof.
  induction rs as [|c rest IH]; intros Ha Hne; [easy|]. inversion_clear Ha as [|? ? Hc Hr].
  assert (Hasc : 0 <= c < 128) by (revert Hc; unfold alnum, upper_char, lower_char, digit_char; lia).
  assert (Hu : (c =? 95) = false) by (revert Hc; unfold alnum, upper_char, lower_char, digit_char; lia).
  destruct rest as [|next rest].
  - split.
    + intros pre cur m first Hm Hs. cbn [word_loop]. rewrite Hu. rewrite skip_app by reflexivity.
      cbn [humps_from]. replace (starts (pre ++ cur) c []) with false.
      * cbn [render]. now rewrite app_nil_r.
      * unfold starts. unfold settled in Hs. destruct (last_letter (pre ++ cur)); [|now rewrite andb_false_r].
        rewrite orb_false_r. now rewrite andb_comm, Hs.
    + intros pre first Hup. cbn [word_loop]. rewrite Hu. rewrite skip_app by reflexivity.
      cbn [hd tl humps_from render]. now rewrite app_nil_r.
  - assert (Hn : alnum next = true) by now inversion_clear Hr.
    assert (Hnasc : 0 <= next < 128) by (revert Hn; unfold alnum, upper_char, lower_char, digit_char; lia).
    assert (Hnu : (next =? 95) = false) by (revert Hn; unfold alnum, upper_char, lower_char, digit_char; lia).
    destruct (IH Hr ltac:(easy)) as [IH1 IH2]. clear IH. split.
    + intros pre cur m first Hm Hs. cbn [hd] in Hm.
      pose proof (matches_next u m (pre ++ cur) c Hasc Hm) as Hm'.
      assert (Ei : forall a : list Z, zlen a + 1 = zlen (a ++ [c])) by (intro a; rewrite zlen_app; reflexivity).
      assert (Ew : pre ++ cur ++ c :: next :: rest = (pre ++ cur ++ [c]) ++ next :: rest)
        by (rewrite <- !app_assoc; reflexivity).
      rewrite word_loop_step. cbv zeta. rewrite Hu, Hnu. cbn [orb].
      rewrite (matches_lower _ _ Hm'). rewrite is_upper_ascii by exact Hnasc.
      change (humps_from (pre ++ cur) cur (c :: next :: rest)) with
        (if starts (pre ++ cur) c (next :: rest) then cur :: humps_from ((pre ++ cur) ++ [c]) [c] (next :: rest)
         else humps_from ((pre ++ cur) ++ [c]) (cur ++ [c]) (next :: rest)).
      match goal with |- (if ?b then _ else _) = _ => destruct b eqn:EA end.
      * (* a word starts at [next] *)
        apply andb_prop in EA as [EA1 EA2].
        destruct (last_letter ((pre ++ cur) ++ [c])) as [x|] eqn:Ex; [|discriminate].
        assert (Hcu : upper_char c = false).
        { rewrite last_letter_snoc in Ex. destruct (upper_char c) eqn:E; [|reflexivity].
          cbn [orb] in Ex. injection Ex as <-. rewrite not_both in EA1 by exact E. discriminate. }
        assert (Est : starts (pre ++ cur) c (next :: rest) = false) by (unfold starts; now rewrite Hcu).
        rewrite Est.
        change (humps_from ((pre ++ cur) ++ [c]) (cur ++ [c]) (next :: rest)) with
          (if starts ((pre ++ cur) ++ [c]) next rest
           then (cur ++ [c]) :: humps_from (((pre ++ cur) ++ [c]) ++ [next]) [next] rest
           else humps_from (((pre ++ cur) ++ [c]) ++ [next]) ((cur ++ [c]) ++ [next]) rest).
        assert (Est' : starts ((pre ++ cur) ++ [c]) next rest = true) by (unfold starts; now rewrite EA2, Ex, EA1).
        rewrite Est'.
        replace (sub (pre ++ cur ++ c :: next :: rest) (zlen pre) (zlen (pre ++ cur) + 1)) with (cur ++ [c]).
        2: { rewrite Ei, Ew. rewrite <- (app_assoc pre). symmetry. apply sub_app; [reflexivity|].
             now rewrite <- app_assoc. }
        rewrite Ei, Ew. rewrite (app_assoc pre cur [c]).
        rewrite (IH2 ((pre ++ cur) ++ [c]) false EA2). reflexivity.
      * rewrite (is_upper_ascii u c) by exact Hasc. rewrite (is_lower_ascii u next) by exact Hnasc.
        assert (EB : is_upper_mode m && upper_char c && lower_char next = starts (pre ++ cur) c (next :: rest)).
        { unfold starts. destruct (upper_char c) eqn:E; [|now rewrite andb_false_r].
          destruct Hm as [Hm|Hm]; [|rewrite not_both in Hm by exact E; discriminate].
          rewrite (matches_upper _ _ Hm). unfold settled in Hs. cbn [andb]. rewrite andb_true_r.
          destruct (last_letter (pre ++ cur)) as [x|] eqn:Ex; [|reflexivity].
          rewrite E, andb_true_r in Hs. rewrite Hs. apply letter_last in Ex. rewrite Hs, orb_false_r in Ex.
          now rewrite Ex. }
        rewrite EB. destruct (starts (pre ++ cur) c (next :: rest)) eqn:Est.
        -- (* a word starts at [c] *)
           apply andb_prop in EB as [EB EB3]. apply andb_prop in EB as [EB1 EB2].
           replace (sub (pre ++ cur ++ c :: next :: rest) (zlen pre) (zlen (pre ++ cur))) with cur
             by (symmetry; now apply sub_app).
           pose proof (IH1 (pre ++ cur) [c] MBoundary false) as K. cbn [hd] in K.
           rewrite <- !app_assoc in K. cbn [app] in K. rewrite Ei. rewrite <- !app_assoc. rewrite K.
           ++ reflexivity.
           ++ now right.
           ++ unfold settled. rewrite !app_assoc, last_letter_snoc, EB2. cbn [orb].
              now rewrite not_both.
        -- pose proof (IH1 pre (cur ++ [c]) (next_mode u m c) first) as K.
           rewrite <- !app_assoc in K. cbn [app] in K. rewrite Ei. rewrite <- !app_assoc. rewrite K.
           ++ reflexivity.
           ++ left. now rewrite app_assoc.
           ++ unfold settled. rewrite app_assoc. destruct (last_letter ((pre ++ cur) ++ [c])); [exact EA|exact I].
    + intros pre first Hup. cbn [hd tl] in *. rewrite word_loop_step. cbv zeta. rewrite Hu, Hnu. cbn [orb].
      unfold next_mode. rewrite is_lower_ascii, is_upper_ascii, not_both by assumption. rewrite Hup.
      cbn [is_lower_mode is_upper_mode andb].
      pose proof (IH1 pre [c] MUppercase first) as K. cbn [hd app] in K.
      replace (zlen pre + 1) with (zlen (pre ++ [c])) by (rewrite zlen_app; reflexivity). rewrite K.
      * reflexivity.
      * left. exists c. rewrite last_letter_snoc, Hup. auto.
      * unfold settled. rewrite last_letter_snoc, Hup. cbn [orb]. now rewrite not_both.
Qed.

Lemma render_app W B ps qs first : ps <> [] -> render W B first (ps ++ qs) = render W B first ps ++ render W B false qs.
Proof.
  intro H. destruct ps as [|p ps]; [easy|]. clear H. cbn [app render]. rewrite <- !app_assoc. f_equal. f_equal.
  induction ps as [|q ps IH]; [reflexivity|]. cbn [app render]. rewrite IH. now rewrite <- !app_assoc.
Qed.
Lemma humps_nonempty a cur w : humps_from a cur w <> [].
Proof. revert a cur. induction w as [|c w IH]; intros a cur; cbn [humps_from]; [easy|]. destruct (starts a c w); [easy|apply IH]. Qed.
Lemma words_loop_cuts u W B ws : Forall (fun w => alnums w /\ w <> []) ws -> forall first,
  words_loop u W B ws first = render W B first (flat_map humps ws).
Proof.
  induction 1 as [|w ws [Hw Hne] Hws IH]; intro first; [reflexivity|]. cbn [words_loop flat_map].
  rewrite runes_ascii by now apply alnum_ascii.
  destruct (word_loop_cuts u W B w Hw Hne) as [K _]. specialize (K [] [] MBoundary first).
  cbn [app] in K. change (zlen []) with 0 in K. rewrite K.
  - rewrite IH. rewrite render_app by apply humps_nonempty. reflexivity.
  - now left.
  - unfold settled. now destruct w.
Qed.
Lemma render_join W B ps : render W B true ps = join B (map W ps).
Proof.
  assert (H : forall ps p, render W B false (p :: ps) = B ++ join B (map W (p :: ps))).
  { clear ps. induction ps as [|q ps IH]; intro p.
    - cbn [render map join]. now rewrite app_nil_r.
    - change (render W B false (p :: q :: ps)) with (B ++ W p ++ render W B false (q :: ps)). now rewrite IH. }
  destruct ps as [|p [|q ps]]; [reflexivity|cbn [render map join app]; now rewrite app_nil_r|].
  change (render W B true (p :: q :: ps)) with (W p ++ render W B false (q :: ps)). now rewrite H.
Qed.

Lemma join_ext B f g ps : Forall (fun p : list Z => f p = g p) ps -> join B (map f ps) = join B (map g ps).
Proof. intro H. f_equal. now apply map_ext_Forall. Qed.

Lemma humps_concat w : forall a cur, concat (humps_from a cur w) = cur ++ w.
Proof.
  induction w as [|c w IH]; intros a cur; cbn [humps_from]; [cbn [concat]; now rewrite !app_nil_r|].
  destruct (starts a c w); cbn [concat]; rewrite IH; [reflexivity|now rewrite <- app_assoc].
Qed.
Lemma humps_ok w : forall a cur, alnums w -> alnums cur -> (cur <> [] \/ (a = [] /\ w <> [])) ->
  Forall (fun p => alnums p /\ p <> []) (humps_from a cur w).
Proof.
  induction w as [|c w IH]; intros a cur Hw Hc Hne; cbn [humps_from].
  - constructor; [|constructor]. split; [exact Hc|]. destruct Hne as [H|[_ H]]; easy.
  - inversion_clear Hw as [|? ? H1 H2]. destruct (starts a c w) eqn:E.
    + constructor.
      * split; [exact Hc|]. destruct Hne as [H|[-> _]]; [exact H|]. unfold starts in E. cbn in E. now rewrite andb_false_r in E.
      * apply IH; [exact H2|now constructor|now left].
    + apply IH; [exact H2| |left; now destruct cur]. apply Forall_app. split; [exact Hc|now constructor].
Qed.
Lemma text_words_ok s : Forall (fun p => alnums p /\ p <> []) (text_words s).
Proof.
  unfold text_words. apply Forall_flat_map. eapply Forall_impl; [|apply (runs_from_ok s []); constructor].
  intros w [Hw Hne]. apply humps_ok; [exact Hw|constructor|now right].
Qed.
Lemma text_words_concat s : concat (text_words s) = filter alnum s.
Proof.
  unfold text_words. transitivity (concat (runs s)); [|apply runs_concat].
  induction (runs s) as [|w ws IH]; [reflexivity|]. cbn [flat_map concat]. rewrite concat_app, IH.
  unfold humps. now rewrite humps_concat.
Qed.

Lemma snake_words u s : ascii s -> to_rust_snake_case u s = join [95] (map (map lower_of) (text_words s)).
Proof.
  intro H. unfold to_rust_snake_case, transform. rewrite words_ascii by exact H.
  rewrite words_loop_cuts by (apply runs_from_ok; constructor). rewrite render_join. fold (text_words s).
  apply join_ext. eapply Forall_impl; [|apply text_words_ok]. intros p [Hp _]. now apply strings_lower_ascii, alnum_ascii.
Qed.
Lemma pascal_words u s : ascii s -> to_pascal_case u s = concat (map capital (text_words s)).
Proof.
  intro H. unfold to_pascal_case, transform. rewrite words_ascii by exact H.
  rewrite words_loop_cuts by (apply runs_from_ok; constructor). rewrite render_join. fold (text_words s).
  transitivity (join [] (map capital (text_words s))).
  - apply join_ext. eapply Forall_impl; [|apply text_words_ok]. intros p [Hp _]. now apply capitalize_ascii, alnum_ascii.
  - induction (text_words s) as [|p [|q ps] IH]; [reflexivity|cbn; now rewrite app_nil_r|].
    change (join [] (map capital (p :: q :: ps))) with (capital p ++ [] ++ join [] (map capital (q :: ps))).
    now rewrite IH.
Qed.

(** * Consequences *)

Definition snake_char (c : Z) : Prop := lower_char c = true \/ digit_char c = true.
Lemma lower_snake c : alnum c = true -> snake_char (lower_of c).
Proof. unfold alnum, snake_char, lower_of, upper_char, lower_char, digit_char. intro H.
  destruct ((65 <=? c) && (c <=? 90)) eqn:E; lia. Qed.
Lemma snake_not_sep c : snake_char c -> c <> 95.
Proof. unfold snake_char, lower_char, digit_char. lia. Qed.

(** Words joined by underscores. *)
Definition snake_words_ok (ws : list (list Z)) : Prop := Forall (fun w => Forall snake_char w /\ w <> []) ws.
Lemma lower_words_ok s : snake_words_ok (map (map lower_of) (text_words s)).
Proof.
  unfold snake_words_ok. rewrite Forall_map. eapply Forall_impl; [|apply text_words_ok].
  intros p [Hp Hne]. split; [|now destruct p]. rewrite Forall_map. eapply Forall_impl; [|exact Hp]. exact lower_snake.
Qed.
Lemma join_chars ws : snake_words_ok ws -> Forall (fun c => snake_char c \/ c = 95) (join [95] ws).
Proof.
  induction 1 as [|w ws [Hw Hne] Hws IH]; [constructor|].
  assert (H : Forall (fun c => snake_char c \/ c = 95) w) by (eapply Forall_impl; [|exact Hw]; auto).
  destruct ws as [|x ws]; [exact H|]. change (join [95] (w :: x :: ws)) with (w ++ [95] ++ join [95] (x :: ws)).
  apply Forall_app. split; [exact H|]. cbn [app]. constructor; [now right|exact IH].
Qed.
Lemma filter_all (f : Z -> bool) w : Forall (fun c => f c = true) w -> filter f w = w.
Proof. induction 1 as [|c w Hc Hw IH]; [reflexivity|]. cbn [filter]. now rewrite Hc, IH. Qed.
Lemma join_letters ws : snake_words_ok ws -> filter (fun c => negb (c =? 95)) (join [95] ws) = concat ws.
Proof.
  assert (Hf : forall w, Forall snake_char w -> filter (fun c => negb (c =? 95)) w = w).
  { intros w Hw. apply filter_all. eapply Forall_impl; [|exact Hw]. intros c Hc. apply snake_not_sep in Hc. lia. }
  induction 1 as [|w ws [Hw Hne] Hws IH]; [reflexivity|]. destruct ws as [|x ws].
  - cbn [join concat]. now rewrite Hf, app_nil_r.
  - change (join [95] (w :: x :: ws)) with (w ++ [95] ++ join [95] (x :: ws)). rewrite !filter_app, IH, Hf by exact Hw.
    reflexivity.
Qed.
Lemma join_hd ws : snake_words_ok ws -> match join [95] ws with [] => True | c :: _ => c <> 95 end.
Proof.
  destruct 1 as [|w ws [Hw Hne] Hws]; [exact I|]. destruct w as [|c w]; [easy|].
  inversion_clear Hw as [|? ? Hc _]. apply snake_not_sep in Hc. destruct ws; exact Hc.
Qed.
Lemma join_no_double ws : snake_words_ok ws -> forall a b, join [95] ws <> a ++ [95; 95] ++ b /\ join [95] ws <> a ++ [95].
Proof.
  induction 1 as [|w ws [Hw Hne] Hws IH]; intros a b; [split; destruct a; easy|].
  destruct ws as [|x ws].
  - cbn [join]. split; intro E; rewrite E in Hw; apply Forall_app in Hw as [_ Hw]; inversion_clear Hw as [|? ? Hc _];
      now apply snake_not_sep in Hc.
  - change (join [95] (w :: x :: ws)) with (w ++ [95] ++ join [95] (x :: ws)).
    pose proof (join_hd _ Hws) as Hd.
    assert (Hj : join [95] (x :: ws) <> []).
    { intro E. destruct (Forall_inv Hws) as [_ Hx]. destruct x; [easy|]. destruct ws; discriminate. }
    set (J := join [95] (x :: ws)) in *. clearbody J. split; intro E.
    + revert a E. induction w as [|c w IHw]; [easy|]. intros a E. destruct a as [|y a].
      * injection E as Ec _. inversion_clear Hw as [|? ? Hc _]. now apply snake_not_sep in Hc.
      * injection E as _ E. inversion_clear Hw as [|? ? _ Hw']. destruct w as [|d w].
        -- cbn [app] in E. destruct a as [|z a].
           ++ injection E as E. rewrite E in Hd. easy.
           ++ injection E as _ E. exact (proj1 (IH a b) E).
        -- apply (IHw Hw' ltac:(easy) a). exact E.
    + revert a E. induction w as [|c w IHw]; [easy|]. intros a E. destruct a as [|y a].
      * injection E as Ec _. inversion_clear Hw as [|? ? Hc _]. now apply snake_not_sep in Hc.
      * injection E as _ E. inversion_clear Hw as [|? ? _ Hw']. destruct w as [|d w].
        -- cbn [app] in E. destruct a as [|z a].
           ++ injection E as E. easy.
           ++ injection E as _ E. exact (proj2 (IH a b) E).
        -- apply (IHw Hw' ltac:(easy) a). exact E.
Qed.

(** Idempotence: the words of words joined by underscores. *)
Lemma snake_alnum c : snake_char c -> alnum c = true.
Proof. unfold snake_char, alnum, lower_char, digit_char. lia. Qed.
Lemma snake_no_upper c : snake_char c -> upper_char c = false.
Proof. unfold snake_char, upper_char, lower_char, digit_char. lia. Qed.
Lemma runs_word w r cur : Forall snake_char w -> runs_from cur (w ++ r) = runs_from (cur ++ w) r.
Proof.
  intro H. revert cur. induction H as [|c w Hc Hw IH]; intro cur; [now rewrite app_nil_r|].
  cbn [app runs_from]. rewrite snake_alnum by exact Hc. rewrite IH. now rewrite <- app_assoc.
Qed.
Lemma runs_join ws : snake_words_ok ws -> runs (join [95] ws) = ws.
Proof.
  unfold runs. induction 1 as [|w ws [Hw Hne] Hws IH]; [reflexivity|]. destruct ws as [|x ws].
  - cbn [join]. rewrite <- (app_nil_r w) at 1. rewrite runs_word by exact Hw. cbn [app runs_from]. now destruct w.
  - change (join [95] (w :: x :: ws)) with (w ++ [95] ++ join [95] (x :: ws)).
    rewrite runs_word by exact Hw. cbn [app runs_from alnum upper_char lower_char digit_char Z.leb Z.compare Pos.compare Pos.compare_cont andb orb].
    rewrite IH. now destruct w.
Qed.
Lemma humps_snake w : Forall snake_char w -> forall a cur, humps_from a cur w = [cur ++ w].
Proof.
  induction 1 as [|c w Hc Hw IH]; intros a cur; cbn [humps_from]; [now rewrite app_nil_r|].
  unfold starts. rewrite snake_no_upper by exact Hc. cbn [andb]. rewrite IH. now rewrite <- app_assoc.
Qed.
Lemma lower_of_snake c : snake_char c -> lower_of c = c.
Proof. intro H. unfold lower_of. now rewrite snake_no_upper. Qed.
Lemma text_words_join ws : snake_words_ok ws -> text_words (join [95] ws) = ws.
Proof.
  intro H. unfold text_words. rewrite runs_join by exact H. induction H as [|w ws [Hw _] Hws IH]; [reflexivity|].
  cbn [flat_map]. rewrite IH. unfold humps. now rewrite humps_snake.
Qed.
Lemma lower_words_id ws : snake_words_ok ws -> map (map lower_of) ws = ws.
Proof.
  induction 1 as [|w ws [Hw _] Hws IH]; [reflexivity|]. cbn [map]. rewrite IH. f_equal.
  induction Hw as [|c w Hc Hw IH']; [reflexivity|]. cbn [map]. now rewrite IH', lower_of_snake.
Qed.
Lemma snake_ascii ws : snake_words_ok ws -> ascii (join [95] ws).
Proof.
  intro H. eapply Forall_impl; [|now apply join_chars]. intros c.
  unfold snake_char, lower_char, digit_char. lia.
Qed.
Lemma snake_idempotent u s : ascii s -> to_rust_snake_case u (to_rust_snake_case u s) = to_rust_snake_case u s.
Proof.
  intro H. rewrite (snake_words u s) by exact H. pose proof (lower_words_ok s) as K.
  rewrite snake_words by now apply snake_ascii. rewrite text_words_join by exact K. now rewrite lower_words_id.
Qed.
Lemma snake_chars u s : ascii s -> Forall (fun c => lower_char c = true \/ digit_char c = true \/ c = 95) (to_rust_snake_case u s).
Proof.
  intro H. rewrite snake_words by exact H. eapply Forall_impl; [|apply join_chars, lower_words_ok].
  intros c [[Hc|Hc]|Hc]; auto.
Qed.
Lemma snake_separators u s a b : ascii s ->
  to_rust_snake_case u s <> [95] ++ b /\ to_rust_snake_case u s <> a ++ [95] /\ to_rust_snake_case u s <> a ++ [95; 95] ++ b.
Proof.
  intro H. rewrite snake_words by exact H. pose proof (lower_words_ok s) as K.
  destruct (join_no_double _ K a b) as [H1 H2]. split; [|now split].
  apply join_hd in K. intro E. rewrite E in K. now apply K.
Qed.
Lemma map_concat (f : Z -> Z) l : map f (concat l) = concat (map (map f) l).
Proof. induction l as [|x l IH]; [reflexivity|]. cbn [concat map]. now rewrite map_app, IH. Qed.
Lemma snake_letters u s : ascii s ->
  filter (fun c => negb (c =? 95)) (to_rust_snake_case u s) = map lower_of (filter alnum s).
Proof.
  intro H. rewrite snake_words by exact H. rewrite join_letters by apply lower_words_ok.
  rewrite <- map_concat. now rewrite text_words_concat.
Qed.
Lemma lower_upper c : lower_of (upper_of c) = lower_of c.
Proof.
  unfold lower_of, upper_of, upper_char, lower_char. destruct ((97 <=? c) && (c <=? 122)) eqn:E; [|reflexivity].
  replace ((65 <=? c - 32) && (c - 32 <=? 90)) with true by lia.
  replace ((65 <=? c) && (c <=? 90)) with false by lia. lia.
Qed.
Lemma lower_lower c : lower_of (lower_of c) = lower_of c.
Proof.
  unfold lower_of, upper_char. destruct ((65 <=? c) && (c <=? 90)) eqn:E; [|now rewrite E].
  now replace ((65 <=? c + 32) && (c + 32 <=? 90)) with false by lia.
Qed.
Lemma capital_lower p : map lower_of (capital p) = map lower_of p.
Proof.
  destruct p as [|c p]; [reflexivity|]. cbn [capital map]. rewrite lower_upper. f_equal. rewrite map_map.
  apply map_ext. exact lower_lower.
Qed.
Lemma pascal_letters u s : ascii s -> map lower_of (to_pascal_case u s) = map lower_of (filter alnum s).
Proof.
  intro H. rewrite pascal_words by exact H. rewrite map_concat, map_map.
  rewrite <- text_words_concat, map_concat. f_equal. apply map_ext. exact capital_lower.
Qed.
Lemma upper_of_alnum c : alnum c = true -> alnum (upper_of c) = true.
Proof. unfold alnum, upper_of, upper_char, lower_char, digit_char. intro H. destruct ((97 <=? c) && (c <=? 122)) eqn:E; lia. Qed.
Lemma lower_of_alnum c : alnum c = true -> alnum (lower_of c) = true.
Proof. unfold alnum, lower_of, upper_char, lower_char, digit_char. intro H. destruct ((65 <=? c) && (c <=? 90)) eqn:E; lia. Qed.
Lemma pascal_chars u s : ascii s -> Forall (fun c => alnum c = true) (to_pascal_case u s).
Proof.
  intro H. rewrite pascal_words by exact H. pose proof (text_words_ok s) as K.
  induction K as [|p ps [Hp _] Hps IH]; [constructor|]. cbn [map concat]. apply Forall_app. split; [|exact IH].
  destruct Hp as [|c p Hc Hp]; [constructor|]. cbn [capital]. constructor; [now apply upper_of_alnum|].
  rewrite Forall_map. eapply Forall_impl; [|exact Hp]. exact lower_of_alnum.
Qed.
(** Snake case of words that are capitalised is the one of the words, for
    names whose words start with letters followed by a lower case letter. *)
Lemma hd_pascal u s : ascii s -> match to_pascal_case u s with [] => True | c :: _ => lower_char c = false end.
Proof.
  intro H. rewrite pascal_words by exact H. pose proof (text_words_ok s) as K. destruct K as [|p ps [Hp Hne] _]; [exact I|].
  destruct p as [|c p]; [easy|]. cbn [map concat capital app]. unfold upper_of.
  destruct (lower_char c) eqn:E; [|exact E]. revert E. unfold lower_char. lia.
Qed.
