(** Model of /repo/tags-parser.go and of the option record of
    /repo/tags-options.go. *)
From Coq Require Export String Ascii.
From Verif Require Import Base Num.
(* List.length, not String.length *)
Notation length := Datatypes.length.

(** A struct tag, reduced to what the library asks for: the results of
    tag.Get("bin"), tag.Get("borsh_skip") and tag.Get("borsh_enum"). *)
Record rawtag : Type := mkTag {
  tg_bin : string;
  tg_borsh_skip : string;
  tg_borsh_enum : string }.

(** fieldTag, /repo/tags-parser.go:26-35. *)
Record field_tag : Type := mkFT {
  ft_sizeof : string;            (* "" = none *)
  ft_skip : bool;
  ft_order : order;
  ft_option : bool;
  ft_coption : bool;
  ft_ext : bool;                 (* BinaryExtension *)
  ft_enum : bool }.              (* IsBorshEnum *)

(** strings.Split(s, " "): the words between single spaces. *)
Fixpoint split_sp (s : string) : list string :=
  match s with
  | EmptyString => [EmptyString]
  | String c r =>
      if Ascii.eqb c " " then EmptyString :: split_sp r
      else match split_sp r with
           | [] => [String c EmptyString]        (* unreachable *)
           | w :: ws => String c w :: ws
           end
  end.

(** If [s] starts with [p], what follows.  (strings.HasPrefix; for
    p = "sizeof=" the rest is strings.SplitN(s, "=", 2)[1].) *)
Fixpoint strip_prefix (p s : string) : option string :=
  match p, s with
  | EmptyString, _ => Some s
  | String a p', String b s' =>
      if Ascii.eqb a b then strip_prefix p' s' else None
  | String _ _, EmptyString => None
  end.

(** unicode.IsSpace of a rune of one, two or three bytes in UTF-8: the ASCII
    spaces; U+0085, U+00A0; U+1680, U+2000-U+200A, U+2028, U+2029, U+202F,
    U+205F, U+3000. *)
Definition byte_of (c : ascii) : Z := Z.of_nat (nat_of_ascii c).
Definition space1 (a : ascii) : bool :=
  (byte_of a =? 32) || ((9 <=? byte_of a) && (byte_of a <=? 13)).
Definition space2 (a b : ascii) : bool :=
  (byte_of a =? 0xC2) && ((byte_of b =? 0x85) || (byte_of b =? 0xA0)).
Definition space3 (a b c : ascii) : bool :=
  ((byte_of a =? 0xE1) && (byte_of b =? 0x9A) && (byte_of c =? 0x80)) ||
  ((byte_of a =? 0xE2) && (byte_of b =? 0x80) &&
     (((0x80 <=? byte_of c) && (byte_of c <=? 0x8A)) || (byte_of c =? 0xA8) || (byte_of c =? 0xA9) || (byte_of c =? 0xAF))) ||
  ((byte_of a =? 0xE2) && (byte_of b =? 0x81) && (byte_of c =? 0x9F)) ||
  ((byte_of a =? 0xE3) && (byte_of b =? 0x80) && (byte_of c =? 0x80)).
(** strings.TrimSpace: white space is taken off in front ... *)
Fixpoint trim_left (s : string) : string :=
  match s with
  | String a r =>
      if space1 a then trim_left r
      else match r with
           | String b r1 =>
               if space2 a b then trim_left r1
               else match r1 with
                    | String c r2 => if space3 a b c then trim_left r2 else s
                    | EmptyString => s
                    end
           | EmptyString => s
           end
  | EmptyString => EmptyString
  end.
(** ... and at the end; here the text is in reverse. *)
Fixpoint trim_right (s : string) : string :=
  match s with
  | String a r =>
      if space1 a then trim_right r
      else match r with
           | String b r1 =>
               if space2 b a then trim_right r1
               else match r1 with
                    | String c r2 => if space3 c b a then trim_right r2 else s
                    | EmptyString => s
                    end
           | EmptyString => s
           end
  | EmptyString => EmptyString
  end.
Fixpoint rev_string (s acc : string) : string :=
  match s with
  | EmptyString => acc
  | String c r => rev_string r (String c acc)
  end.
Definition trim_space (s : string) : string :=
  let t := trim_left s in
  rev_string (trim_right (rev_string t EmptyString)) EmptyString.

(** Body of the loop of parseFieldTag, /repo/tags-parser.go:51-70. *)
Definition tag_word (t : field_tag) (s : string) : field_tag :=
  match strip_prefix "sizeof=" s with
  | Some n =>
      mkFT n (ft_skip t) (ft_order t) (ft_option t) (ft_coption t) (ft_ext t) (ft_enum t)
  | None =>
    if String.eqb s "big" then
      mkFT (ft_sizeof t) (ft_skip t) BE (ft_option t) (ft_coption t) (ft_ext t) (ft_enum t)
    else if String.eqb s "little" then
      mkFT (ft_sizeof t) (ft_skip t) LE (ft_option t) (ft_coption t) (ft_ext t) (ft_enum t)
    else if String.eqb s "optional" || String.eqb s "option" then
      mkFT (ft_sizeof t) (ft_skip t) (ft_order t) true (ft_coption t) (ft_ext t) (ft_enum t)
    else if String.eqb s "coption" then
      mkFT (ft_sizeof t) (ft_skip t) (ft_order t) (ft_option t) true (ft_ext t) (ft_enum t)
    else if String.eqb s "binary_extension" then
      mkFT (ft_sizeof t) (ft_skip t) (ft_order t) (ft_option t) (ft_coption t) true (ft_enum t)
    else if String.eqb s "-" || String.eqb s "skip" then
      mkFT (ft_sizeof t) true (ft_order t) (ft_option t) (ft_coption t) (ft_ext t) (ft_enum t)
    else if String.eqb s "enum" then
      mkFT (ft_sizeof t) (ft_skip t) (ft_order t) (ft_option t) (ft_coption t) (ft_ext t) true
    else t
  end.

Definition ft0 : field_tag := mkFT EmptyString false LE false false false false.

(** parseFieldTag, /repo/tags-parser.go:46-80. *)
Definition parse_field_tag (tag : rawtag) : field_tag :=
  let t := fold_left tag_word (split_sp (tg_bin tag)) ft0 in
  let t := if String.eqb (trim_space (tg_borsh_skip tag)) "true"
           then mkFT (ft_sizeof t) true (ft_order t) (ft_option t) (ft_coption t) (ft_ext t) (ft_enum t)
           else t in
  if String.eqb (trim_space (tg_borsh_enum tag)) "true"
  then mkFT (ft_sizeof t) (ft_skip t) (ft_order t) (ft_option t) (ft_coption t) (ft_ext t) true
  else t.

(** option, /repo/tags-options.go:22-27. *)
Record fopt : Type := mkOpt {
  o_opt : bool;                  (* is_OptionalField *)
  o_copt : bool;                 (* is_COptionalField *)
  o_size : option Z;             (* SizeOfSlice *)
  o_order : order }.             (* Order *)

(** newDefaultOption, /repo/tags-options.go:36-41. *)
Definition opt0 : fopt := mkOpt false false None LE.
