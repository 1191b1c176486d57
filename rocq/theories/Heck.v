(** /repo/heck.go: ToPascalCase, ToRustSnakeCase.  Strings are lists of bytes. *)
From Coq Require Import String.
From Verif Require Import Base Text Utf8.
Notation length := Datatypes.length.

(** The tables of package unicode for the runes above 127 are a parameter. *)
Record unicode : Type := mkUC {
  uc_letter : Z -> bool; uc_digit : Z -> bool; uc_upper : Z -> bool; uc_lower : Z -> bool;
  uc_to_upper : Z -> Z; uc_to_lower : Z -> Z }.

(** unicode.IsUpper, IsLower, IsLetter, IsDigit, ToUpper, ToLower. *)
Definition is_upper (u : unicode) (c : Z) : bool :=
  if c <? 128 then (65 <=? c) && (c <=? 90) else uc_upper u c.
Definition is_lower (u : unicode) (c : Z) : bool :=
  if c <? 128 then (97 <=? c) && (c <=? 122) else uc_lower u c.
Definition is_letter (u : unicode) (c : Z) : bool :=
  if c <? 128 then ((65 <=? c) && (c <=? 90)) || ((97 <=? c) && (c <=? 122)) else uc_letter u c.
Definition is_digit_rune (u : unicode) (c : Z) : bool :=
  if c <? 128 then (48 <=? c) && (c <=? 57) else uc_digit u c.
Definition to_upper (u : unicode) (c : Z) : Z :=
  if c <? 128 then (if (97 <=? c) && (c <=? 122) then c - 32 else c) else uc_to_upper u c.
Definition to_lower (u : unicode) (c : Z) : Z :=
  if c <? 128 then (if (65 <=? c) && (c <=? 90) then c + 32 else c) else uc_to_lower u c.

(** strings.ToUpper, strings.ToLower: rune by rune; invalid bytes become
    RuneError. *)
Definition strings_upper (u : unicode) (s : list Z) : list Z :=
  flat_map (fun r => encode_rune (to_upper u r)) (runes s).
Definition strings_lower (u : unicode) (s : list Z) : list Z :=
  flat_map (fun r => encode_rune (to_lower u r)) (runes s).

(** strings.FieldsFunc: the maximal substrings of runes not satisfying [f];
    [cur]: the bytes since start. *)
Fixpoint fields_func (fuel : nat) (f : Z -> bool) (cur s : list Z) : list (list Z) :=
  match fuel, s with
  | S k, _ :: _ =>
      let '(r, n) := decode_rune s in
      if f r then
        match cur with
        | [] => fields_func k f [] (skipn n s)
        | _ => cur :: fields_func k f [] (skipn n s)
        end
      else fields_func k f (cur ++ firstn n s) (skipn n s)
  | _, _ => match cur with [] => [] | _ => [cur] end
  end.

(** splitIntoWords, /repo/heck.go:237-242. *)
Definition split_into_words (u : unicode) (s : list Z) : list (list Z) :=
  fields_func (length s) (fun r => negb (is_letter u r || is_digit_rune u r)) [] s.

(** _WordMode, /repo/heck.go:244-254. *)
Inductive word_mode : Type := MBoundary | MLowercase | MUppercase.

(** next_mode, /repo/heck.go:50-58, 283-291. *)
Definition next_mode (u : unicode) (mode : word_mode) (c : Z) : word_mode :=
  if is_lower u c then MLowercase else if is_upper u c then MUppercase else mode.
Definition is_lower_mode (m : word_mode) : bool := match m with MLowercase => true | _ => false end.
Definition is_upper_mode (m : word_mode) : bool := match m with MUppercase => true | _ => false end.

(** word[a:b] on bytes (the callers pass indices of runes). *)
Definition sub (word : list Z) (a b : Z) : list Z := firstn (Z.to_nat (b - a)) (skipn (Z.to_nat a) word).

(** The loop over the runes of a word, /repo/heck.go:35-111 (in transform) and
    268-344 (in ToRustSnakeCase, with WriteRune('_') and ToLower inlined):
    [rs] are the runes from index [i] on, the result is first_word and what
    was written. *)
Fixpoint word_loop (u : unicode) (with_word : list Z -> list Z) (boundary word rs : list Z)
    (i init : Z) (mode : word_mode) (first_word : bool) : bool * list Z :=
  match rs with
  | [] => (first_word, [])
  | c :: rest =>
      if c =? 95 then
        word_loop u with_word boundary word rest (i + 1) (if init =? i then init + 1 else init) mode first_word
      else
        let sep := if first_word then [] else boundary in
        match rest with
        | next :: _ =>
            let nm := next_mode u mode c in
            if (next =? 95) || (is_lower_mode nm && is_upper u next) then
              let '(f, out) := word_loop u with_word boundary word rest (i + 1) (i + 1) MBoundary false in
              (f, sep ++ with_word (sub word init (i + 1)) ++ out)
            else if is_upper_mode mode && is_upper u c && is_lower u next then
              let '(f, out) := word_loop u with_word boundary word rest (i + 1) i MBoundary false in
              (f, sep ++ with_word (sub word init i) ++ out)
            else word_loop u with_word boundary word rest (i + 1) init nm first_word
        | [] => (false, sep ++ with_word (skipn (Z.to_nat init) word))
        end
  end.
(** The loop over the words. *)
Fixpoint words_loop (u : unicode) (with_word : list Z -> list Z) (boundary : list Z)
    (words : list (list Z)) (first_word : bool) : list Z :=
  match words with
  | [] => []
  | w :: ws =>
      let '(f, out) := word_loop u with_word boundary w (runes w) 0 0 MBoundary first_word in
      out ++ words_loop u with_word boundary ws f
  end.

(** transform, /repo/heck.go:21-115. *)
Definition transform (u : unicode) (s : list Z) (with_word : list Z -> list Z) (boundary : list Z) : list Z :=
  words_loop u with_word boundary (split_into_words u s) true.

(** lowercase, /repo/heck.go:152-162: a final capital sigma (U+03A3) becomes U+03C2.
    (PeekNext is 0 also before a NUL.) *)
Fixpoint lowercase_runes (u : unicode) (rs : list Z) : list Z :=
  match rs with
  | [] => []
  | c :: rest =>
      (if (c =? 0x3A3) && (hd 0 rest =? 0) then encode_rune 0x3C2 else strings_lower u (encode_rune c)) ++
      lowercase_runes u rest
  end.
Definition lowercase (u : unicode) (s : list Z) : list Z := lowercase_runes u (runes s).

(** capitalize, /repo/heck.go:129-137: the rest starts at BYTE 1. *)
Definition capitalize (u : unicode) (s : list Z) : list Z :=
  match runes s with
  | [] => []
  | c :: rest =>
      strings_upper u (encode_rune c) ++
      match rest with [] => [] | _ => lowercase u (skipn 1 s) end
  end.

(** ToPascalCase, /repo/heck.go:13-19. *)
Definition to_pascal_case (u : unicode) (s : list Z) : list Z := transform u s (capitalize u) [].

(** ToRustSnakeCase, /repo/heck.go:258-348: the same loops as transform.
    ToSnakeForSighash, 164-166. *)
Definition to_rust_snake_case (u : unicode) (s : list Z) : list Z := transform u s (strings_lower u) [95].
Definition to_snake_for_sighash (u : unicode) (s : list Z) : list Z := to_rust_snake_case u s.

(** * Samples *)

(** The table of the runes below 256. *)
Definition latin1 : unicode := mkUC
  (fun c => (c =? 0xAA) || (c =? 0xB5) || (c =? 0xBA) ||
            ((0xC0 <=? c) && (c <=? 0xFF) && negb (c =? 0xD7) && negb (c =? 0xF7)))
  (fun _ => false)
  (fun c => (0xC0 <=? c) && (c <=? 0xDE) && negb (c =? 0xD7))
  (fun c => (c =? 0xB5) || ((0xDF <=? c) && (c <=? 0xFF) && negb (c =? 0xF7)))
  (fun c => if c =? 0xB5 then 0x39C else if c =? 0xFF then 0x178
            else if (0xE0 <=? c) && (c <=? 0xFE) && negb (c =? 0xF7) then c - 32 else c)
  (fun c => if (0xC0 <=? c) && (c <=? 0xDE) && negb (c =? 0xD7) then c + 32 else c).

Definition heck_pascal (s : string) := to_pascal_case latin1 (str s).
Definition heck_snake (s : string) := to_rust_snake_case latin1 (str s).
Definition bytes_eqb (a b : list Z) : bool := if list_eq_dec Z.eq_dec a b then true else false.
(** The ASCII cases of /repo/heck_test.go:15-67. *)
Example heck_sample_1 : forallb (fun p => bytes_eqb (heck_pascal (fst p)) (str (snd p))) [
  ("hello1World", "Hello1World");
  ("Hello1World", "Hello1World");
  ("foo", "Foo");
  ("foo-bar", "FooBar");
  ("foo-bar-baz", "FooBarBaz");
  ("foo--bar", "FooBar");
  ("--foo-bar", "FooBar");
  ("--foo--bar", "FooBar");
  ("FOO-BAR", "FooBar");
  ("-foo-bar-", "FooBar");
  ("--foo--bar--", "FooBar");
  ("foo-1", "Foo1");
  ("foo.bar", "FooBar");
  ("foo..bar", "FooBar");
  ("..foo..bar..", "FooBar");
  ("foo_bar", "FooBar");
  ("__foo__bar__", "FooBar");
  ("foo bar", "FooBar");
  ("  foo  bar  ", "FooBar");
  ("-", "");
  (" - ", "");
  ("fooBar", "FooBar");
  ("fooBar-baz", "FooBarBaz");
  ("fooBarBaz-bazzy", "FooBarBazBazzy");
  ("FBBazzy", "FbBazzy");
  ("F", "F");
  ("FooBar", "FooBar");
  ("Foo", "Foo");
  ("FOO", "Foo");
  ("--", "");
  ("", "");
  ("--__--_--_", "");
  ("foo bar?", "FooBar");
  ("foo bar!", "FooBar");
  ("foo bar$", "FooBar");
  ("foo-bar#", "FooBar");
  ("XMLHttpRequest", "XmlHttpRequest");
  ("AjaxXMLHttpRequest", "AjaxXmlHttpRequest");
  ("Ajax-XMLHttpRequest", "AjaxXmlHttpRequest");
  ("Hello11World", "Hello11World");
  ("hello1", "Hello1");
  ("Hello1", "Hello1");
  ("h1W", "H1W");
  ("1hello", "1hello");
  ("1Hello", "1hello");
  ("hello1world", "Hello1world");
  ("mGridCol6@md", "MGridCol6Md");
  ("A::a", "AA")]%string = true.
Proof. vm_compute. reflexivity. Qed.
(** The ASCII cases of /repo/sighash_test.go:126-183. *)
Example heck_sample_2 : forallb (fun p => bytes_eqb (heck_snake (fst p)) (str (snd p))) [
  ("", "");
  ("_id", "id");
  ("test", "test");
  ("test string", "test_string");
  ("Test String", "test_string");
  ("TestV2", "test_v2");
  ("version 1.2.10", "version_1_2_10");
  ("version 1.21.0", "version_1_21_0");
  ("doSomething2", "do_something2");
  ("CamelCase", "camel_case");
  ("This is Human case.", "this_is_human_case");
  ("MixedUP CamelCase, with some Spaces", "mixed_up_camel_case_with_some_spaces");
  ("mixed_up_ snake_case with some _spaces", "mixed_up_snake_case_with_some_spaces");
  ("kebab-case", "kebab_case");
  ("SHOUTY_SNAKE_CASE", "shouty_snake_case");
  ("snake_case", "snake_case");
  ("this-contains_ ALLKinds OfWord_Boundaries", "this_contains_all_kinds_of_word_boundaries");
  ("XMLHttpRequest", "xml_http_request");
  ("FIELD_NAME11", "field_name11");
  ("99BOTTLES", "99bottles");
  ("FieldNamE11", "field_nam_e11");
  ("abc123def456", "abc123def456");
  ("abc123DEF456", "abc123_def456");
  ("abc123Def456", "abc123_def456");
  ("abc123DEf456", "abc123_d_ef456");
  ("ABC123def456", "abc123def456");
  ("ABC123DEF456", "abc123def456");
  ("ABC123Def456", "abc123_def456");
  ("ABC123DEf456", "abc123d_ef456");
  ("ABC123dEEf456FOO", "abc123d_e_ef456_foo");
  ("abcDEF", "abc_def");
  ("ABcDE", "a_bc_de")]%string = true.
Proof. vm_compute. reflexivity. Qed.
(** "FOE-BAR" with a grave accent on the E, /repo/heck_test.go:32. *)
Example heck_sample_3 :
  to_pascal_case latin1 [70; 79; 0xC3; 0x88; 45; 66; 65; 82] = [70; 111; 0xC3; 0xA8; 66; 97; 114].
Proof. vm_compute. reflexivity. Qed.
