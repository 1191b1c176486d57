(** /repo/heck.go once more, function by function and statement by statement:
    readers with an index, strings.Builder as the bytes written so far, and
    index and slice expressions that may panic ([None]).  Heck.v has the same
    with structural recursion; GoHeckFacts.v proves that they agree. *)
From Verif Require Import Base Utf8 Heck.
Notation length := Datatypes.length.

Notation "x <-? m ;; k" := (match m with Some x => k | None => None end)
  (at level 100, m at next level, right associativity).

(** runes[i]; s[a:b]; s[a:]. *)
Definition at_index (l : list Z) (i : Z) : option Z :=
  if (0 <=? i) && (i <? zlen l) then nth_error l (Z.to_nat i) else None.
Definition str_slice (s : list Z) (a b : Z) : option (list Z) :=
  if (0 <=? a) && (a <=? b) && (b <=? zlen s)
  then Some (firstn (Z.to_nat (b - a)) (skipn (Z.to_nat a) s)) else None.
Definition str_from (s : list Z) (a : Z) : option (list Z) := str_slice s a (zlen s).

(** type reader, /repo/heck.go:168-171. *)
Record reader : Type := mkReader { rd_runes : list Z; rd_index : Z }.
(** splitStringByRune, 173-180, with iterateStringAsRunes, 182-189 (the callback
    never stops). *)
Definition split_string_by_rune (s : list Z) : list Z := fold_left (fun res r => res ++ [r]) (runes s) [].
(** newReader, 191-196. *)
Definition new_reader (s : list Z) : reader := mkReader (split_string_by_rune s) (-1).
(** This, 198-200; HasNext, 202-204; Next, 206-212; Peek, 214-219; PeekNext,
    221-226; Move, 228-234. *)
Definition rd_this (r : reader) : option (Z * Z) :=
  c <-? at_index (rd_runes r) (rd_index r) ;; Some (rd_index r, c).
Definition rd_has_next (r : reader) : bool := rd_index r <? zlen (rd_runes r) - 1.
Definition rd_next (r : reader) : option (Z * Z * reader) :=
  if rd_has_next r then
    let r := mkReader (rd_runes r) (rd_index r + 1) in
    c <-? at_index (rd_runes r) (rd_index r) ;; Some (rd_index r, c, r)
  else Some (-1, 0, r).
Definition rd_peek (r : reader) : option (Z * Z) :=
  if rd_has_next r then
    c <-? at_index (rd_runes r) (rd_index r + 1) ;; Some (rd_index r + 1, c)
  else Some (-1, 0).
Definition rd_peek_next (r : reader) : option Z :=
  if rd_has_next r then at_index (rd_runes r) (rd_index r + 1) else Some 0.
Definition rd_move (r : reader) : bool * reader :=
  if rd_has_next r then (true, mkReader (rd_runes r) (rd_index r + 1)) else (false, r).

(** lowercase, 152-162.  [fuel]: more than the number of runes. *)
Fixpoint go_lower_loop (u : unicode) (fuel : nat) (chars : reader) (f : list Z) : option (list Z) :=
  match fuel with
  | O => None
  | S k =>
      let '(ok, chars) := rd_move chars in
      if ok then
        p <-? rd_this chars ;;
        let c := snd p in
        n <-? rd_peek_next chars ;;
        if (c =? 0x3A3) && (n =? 0) then go_lower_loop u k chars (f ++ encode_rune 0x3C2)
        else go_lower_loop u k chars (f ++ strings_lower u (encode_rune c))
      else Some f
  end.
Definition go_lowercase (u : unicode) (s f : list Z) : option (list Z) :=
  go_lower_loop u (S (length s)) (new_reader s) f.
(** capitalize, 129-137. *)
Definition go_capitalize (u : unicode) (s f : list Z) : option (list Z) :=
  p <-? rd_next (new_reader s) ;;
  let '(i, c, chars) := p in
  if negb (i =? -1) then
    let f := f ++ strings_upper u (encode_rune c) in
    q <-? rd_next chars ;;
    let '(i, _, _) := q in
    if negb (i =? -1) then t <-? str_from s i ;; go_lowercase u t f else Some f
  else Some f.

(** The function literal, 50-58 and 283-291. *)
Definition go_next_mode (u : unicode) (mode : word_mode) (c : Z) : word_mode :=
  if is_lower u c then MLowercase else if is_upper u c then MUppercase else mode.
Definition mode_eqb (a b : word_mode) : bool :=
  match a, b with
  | MBoundary, MBoundary | MLowercase, MLowercase | MUppercase, MUppercase => true
  | _, _ => false
  end.

(** transform, 21-115: the inner loop, 35-111.  The result is first_word and the
    builder. *)
Fixpoint go_transform_word (u : unicode) (with_word : list Z -> list Z -> option (list Z))
    (boundary : list Z -> list Z) (word : list Z) (fuel : nat) (char_indices : reader) (init : Z)
    (mode : word_mode) (first_word : bool) (builder : list Z) : option (bool * list Z) :=
  match fuel with
  | O => None
  | S k =>
      let '(ok, char_indices) := rd_move char_indices in
      if ok then
        p <-? rd_this char_indices ;;
        let '(i, c) := p in
        if c =? 95 then
          let init := if init =? i then init + 1 else init in
          go_transform_word u with_word boundary word k char_indices init mode first_word builder
        else
          q <-? rd_peek char_indices ;;
          let '(next_i, next) := q in
          if negb (next_i =? -1) then
            let next_mode := go_next_mode u mode c in
            if (next =? 95) || (mode_eqb next_mode MLowercase && is_upper u next) then
              let builder := if negb first_word then boundary builder else builder in
              w <-? str_slice word init next_i ;;
              builder <-? with_word w builder ;;
              go_transform_word u with_word boundary word k char_indices next_i MBoundary false builder
            else if mode_eqb mode MUppercase && is_upper u c && is_lower u next then
              let '(builder, first_word) :=
                if negb first_word then (boundary builder, first_word) else (builder, false) in
              w <-? str_slice word init i ;;
              builder <-? with_word w builder ;;
              go_transform_word u with_word boundary word k char_indices i MBoundary first_word builder
            else
              go_transform_word u with_word boundary word k char_indices init next_mode first_word builder
          else
            let '(builder, first_word) :=
              if negb first_word then (boundary builder, first_word) else (builder, false) in
            w <-? str_from word init ;;
            builder <-? with_word w builder ;;
            Some (first_word, builder)
      else Some (first_word, builder)
  end.
Fixpoint go_transform_words (u : unicode) (with_word : list Z -> list Z -> option (list Z))
    (boundary : list Z -> list Z) (words : list (list Z)) (first_word : bool) (builder : list Z) : option (list Z) :=
  match words with
  | [] => Some builder
  | word :: words =>
      r <-? go_transform_word u with_word boundary word (S (length word)) (new_reader word) 0 MBoundary first_word builder ;;
      go_transform_words u with_word boundary words (fst r) (snd r)
  end.
Definition go_transform (u : unicode) (s : list Z) (with_word : list Z -> list Z -> option (list Z))
    (boundary : list Z -> list Z) : option (list Z) :=
  go_transform_words u with_word boundary (split_into_words u s) true [].

(** ToPascalCase, 13-19. *)
Definition go_to_pascal_case (u : unicode) (s : list Z) : option (list Z) :=
  go_transform u s (go_capitalize u) (fun b => b).

(** ToRustSnakeCase, 258-348: the inner loop, 268-344. *)
Fixpoint go_snake_word (u : unicode) (word : list Z) (fuel : nat) (char_indices : reader) (init : Z)
    (mode : word_mode) (first_word : bool) (builder : list Z) : option (bool * list Z) :=
  match fuel with
  | O => None
  | S k =>
      let '(ok, char_indices) := rd_move char_indices in
      if ok then
        p <-? rd_this char_indices ;;
        let '(i, c) := p in
        if c =? 95 then
          let init := if init =? i then init + 1 else init in
          go_snake_word u word k char_indices init mode first_word builder
        else
          q <-? rd_peek char_indices ;;
          let '(next_i, next) := q in
          if negb (next_i =? -1) then
            let next_mode := go_next_mode u mode c in
            if (next =? 95) || (mode_eqb next_mode MLowercase && is_upper u next) then
              let builder := if negb first_word then builder ++ encode_rune 95 else builder in
              w <-? str_slice word init next_i ;;
              go_snake_word u word k char_indices next_i MBoundary false (builder ++ strings_lower u w)
            else if mode_eqb mode MUppercase && is_upper u c && is_lower u next then
              let '(builder, first_word) :=
                if negb first_word then (builder ++ encode_rune 95, first_word) else (builder, false) in
              w <-? str_slice word init i ;;
              go_snake_word u word k char_indices i MBoundary first_word (builder ++ strings_lower u w)
            else
              go_snake_word u word k char_indices init next_mode first_word builder
          else
            let '(builder, first_word) :=
              if negb first_word then (builder ++ encode_rune 95, first_word) else (builder, false) in
            w <-? str_from word init ;;
            Some (first_word, builder ++ strings_lower u w)
      else Some (first_word, builder)
  end.
Fixpoint go_snake_words (u : unicode) (words : list (list Z)) (first_word : bool) (builder : list Z) : option (list Z) :=
  match words with
  | [] => Some builder
  | word :: words =>
      r <-? go_snake_word u word (S (length word)) (new_reader word) 0 MBoundary first_word builder ;;
      go_snake_words u words (fst r) (snd r)
  end.
Definition go_to_rust_snake_case (u : unicode) (s : list Z) : option (list Z) :=
  go_snake_words u (split_into_words u s) true [].
(** ToSnakeForSighash, 164-166. *)
Definition go_to_snake_for_sighash (u : unicode) (s : list Z) : option (list Z) := go_to_rust_snake_case u s.
