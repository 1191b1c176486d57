(** Struct tags as texts: reflect.StructTag.Get and strconv.Unquote, which
    /repo/tags-parser.go:50, 73, 76 calls.  (Standard library, written from
    reflect/type.go and strconv/quote.go; version of Go with
    !utf8.ValidRune(v) in UnquoteChar.) *)
From Verif Require Import Base Tags Types Text Utf8.
Notation length := Datatypes.length.

(** [n] hexadecimal digits at the front. *)
Fixpoint hexn (n : nat) (acc : Z) (s : list Z) : option (Z * list Z) :=
  match n with
  | O => Some (acc, s)
  | S m => match s with
           | c :: r => match hex_val c with Some d => hexn m (acc * 16 + d) r | None => None end
           | [] => None
           end
  end.
Definition valid_rune (r : Z) : bool :=
  ((0 <=? r) && (r <? 0xD800)) || ((0xE000 <=? r) && (r <=? 0x10FFFF)).

(** strconv.UnquoteChar with a double quote, behind a backslash: the bytes that
    are appended and the rest. *)
Definition go_unescape (c : Z) (s : list Z) : option (list Z * list Z) :=
  if c =? 97 then Some ([7], s)
  else if c =? 98 then Some ([8], s)
  else if c =? 102 then Some ([12], s)
  else if c =? 110 then Some ([10], s)
  else if c =? 114 then Some ([13], s)
  else if c =? 116 then Some ([9], s)
  else if c =? 118 then Some ([11], s)
  else if c =? 120 then match hexn 2 0 s with Some (v, r) => Some ([v], r) | None => None end
  else if (c =? 117) || (c =? 85) then
    match hexn (if c =? 117 then 4 else 8) 0 s with
    | Some (v, r) => if valid_rune v then Some (encode_rune v, r) else None
    | None => None
    end
  else if (48 <=? c) && (c <=? 55) then
    match s with
    | x :: y :: r =>
        if (48 <=? x) && (x <=? 55) && (48 <=? y) && (y <=? 55) then
          let v := (c - 48) * 64 + (x - 48) * 8 + (y - 48) in
          if 255 <? v then None else Some ([v], r)
        else None
    | _ => None
    end
  else if (c =? 92) || (c =? 34) then Some ([c], s)
  else None.
(** The loop of strconv.unquote behind the opening quote: the text and what
    follows the closing quote.  (Texts without backslash, newline and
    ill-formed UTF-8 are returned as they are, which is the same.)
    [fuel]: at least the length of [s]. *)
Fixpoint unquote_loop (fuel : nat) (s : list Z) : option (list Z * list Z) :=
  match fuel, s with
  | S f, c :: r =>
      if c =? 34 then Some ([], r)
      else if c =? 10 then None
      else if c =? 92 then
        match r with
        | e :: r1 =>
            match go_unescape e r1 with
            | Some (b, r2) => match unquote_loop f r2 with Some (t, rem) => Some (b ++ t, rem) | None => None end
            | None => None
            end
        | [] => None
        end
      else if c <? 128 then match unquote_loop f r with Some (t, rem) => Some (c :: t, rem) | None => None end
      else let '(n, k) := decode_rune s in
           match unquote_loop f (skipn k s) with Some (t, rem) => Some (encode_rune n ++ t, rem) | None => None end
  | _, _ => None
  end.
(** strconv.Unquote of a text in double quotes, without the opening one. *)
Definition unquote (s : list Z) : option (list Z) :=
  match unquote_loop (length s) s with Some (t, []) => Some t | _ => None end.

(** The scans of StructTag.Lookup: a name, ... *)
Definition name_char (c : Z) : bool := (32 <? c) && negb (c =? 58) && negb (c =? 34) && negb (c =? 127).
Fixpoint scan_name (s : list Z) : list Z * list Z :=
  match s with
  | c :: r => if name_char c then let '(a, b) := scan_name r in (c :: a, b) else ([], s)
  | [] => ([], [])
  end.
(** ... and a value behind the opening quote, with the closing one. *)
Fixpoint scan_value (s : list Z) : option (list Z * list Z) :=
  match s with
  | [] => None
  | c :: r =>
      if c =? 34 then Some ([34], r)
      else if c =? 92 then
        match r with
        | e :: r1 => match scan_value r1 with Some (a, b) => Some (c :: e :: a, b) | None => None end
        | [] => None
        end
      else match scan_value r with Some (a, b) => Some (c :: a, b) | None => None end
  end.
Fixpoint same_text (a b : list Z) : bool :=
  match a, b with
  | [], [] => true
  | x :: a', y :: b' => (x =? y) && same_text a' b'
  | _, _ => false
  end.
Fixpoint skip_sp (s : list Z) : list Z :=
  match s with c :: r => if c =? 32 then skip_sp r else s | [] => [] end.

(** StructTag.Lookup.  [fuel]: at least the length of the tag. *)
Fixpoint tag_loop (fuel : nat) (key tag : list Z) : option (list Z) :=
  match fuel with
  | O => None
  | S f =>
      let '(name, rest) := scan_name (skip_sp tag) in
      match name, rest with
      | _ :: _, a :: b :: r =>
          if (a =? 58) && (b =? 34) then
            match scan_value r with
            | Some (q, tag') => if same_text name key then unquote q else tag_loop f key tag'
            | None => None
            end
          else None
      | _, _ => None
      end
  end.
Definition tag_lookup (key tag : list Z) : option (list Z) := tag_loop (length tag) key tag.
(** StructTag.Get. *)
Definition tag_get (key tag : list Z) : list Z :=
  match tag_lookup key tag with Some v => v | None => [] end.

(** Bytes as a string. *)
Definition text_of (s : list Z) : string :=
  fold_right (fun b r => String (ascii_of_nat (Z.to_nat b)) r) EmptyString s.
(** What parseFieldTag gets from a tag, /repo/tags-parser.go:50, 73, 76. *)
Definition rawtag_of (tag : list Z) : rawtag :=
  mkTag (text_of (tag_get (str "bin") tag)) (text_of (tag_get (str "borsh_skip") tag))
    (text_of (tag_get (str "borsh_enum") tag)).

Example rawtag_sample :
  rawtag_of (str "json:""a"" bin:""sizeof=\x41 big"" bin:""little"" borsh_skip:"" true""") =
    mkTag "sizeof=A big" " true" "" /\
  rawtag_of (str "bin: ""big""") = mkTag "" "" "" /\
  rawtag_of (str "json:""a\q"" bin:""big""") = mkTag "big" "" "" /\
  rawtag_of (str "json:""a,bin:""big""") = mkTag "" "" "".
Proof. vm_compute. auto. Qed.
