(** Specification of struct tags: the convention of reflect.StructTag, with Go
    string literals, and white space, as grammars. *)
From Coq Require Import String.
From Verif Require Import Base Tags Types Text StructTag Utf8Facts JsonSpec.
Notation length := Datatypes.length.

(** [digits16 n v s]: [n] hexadecimal digits for the number [v]. *)
Inductive digits16 : nat -> Z -> list Z -> Prop :=
| d16_nil : digits16 0 0 []
| d16_snoc n v s c d : digits16 n v s -> hexd c d -> digits16 (S n) (v * 16 + d) (s ++ [c]).

(** Escapes of one character. *)
Definition go_escape (e c : Z) : Prop :=
  In (e, c) [(97, 7); (98, 8); (102, 12); (110, 10); (114, 13); (116, 9); (118, 11); (92, 92); (34, 34)].
Definition octal (c : Z) : Prop := 48 <= c <= 55.

(** [quoted_text s t]: [s], a Go string literal without its opening quote, is
    the text [t]. *)
Inductive quoted_text : list Z -> list Z -> Prop :=
| qt_end : quoted_text [34] []
| qt_ascii c s t : 0 <= c < 128 -> c <> 34 -> c <> 92 -> c <> 10 -> quoted_text s t -> quoted_text (c :: s) (c :: t)
| qt_char r s t : scalar r -> 128 <= r -> quoted_text s t -> quoted_text (utf8_char r ++ s) (utf8_char r ++ t)
| qt_bad b s t : 128 <= b < 256 -> bad_start (b :: s) -> quoted_text s t -> quoted_text (b :: s) (replacement ++ t)
| qt_escape e c s t : go_escape e c -> quoted_text s t -> quoted_text (92 :: e :: s) (c :: t)
| qt_hex v u s t : digits16 2 v u -> quoted_text s t -> quoted_text (92 :: 120 :: u ++ s) (v :: t)
| qt_rune4 v u s t : digits16 4 v u -> scalar v -> quoted_text s t -> quoted_text (92 :: 117 :: u ++ s) (utf8_char v ++ t)
| qt_rune8 v u s t : digits16 8 v u -> scalar v -> quoted_text s t -> quoted_text (92 :: 85 :: u ++ s) (utf8_char v ++ t)
| qt_octal a b c s t : octal a -> octal b -> octal c -> (a - 48) * 64 + (b - 48) * 8 + (c - 48) < 256 ->
    quoted_text s t -> quoted_text (92 :: a :: b :: c :: s) ((a - 48) * 64 + (b - 48) * 8 + (c - 48) :: t).

(** Up to the first quote without a backslash before it. *)
Inductive raw : list Z -> Prop :=
| raw_end : raw [34]
| raw_char c q : c <> 34 -> c <> 92 -> raw q -> raw (c :: q)
| raw_escape e q : raw q -> raw (92 :: e :: q).

Definition tag_name (n : list Z) : Prop :=
  n <> [] /\ Forall (fun c => 32 < c /\ c <> 58 /\ c <> 34 /\ c <> 127) n.
(** [tag_says key tag v]: the tag consists of pairs key:"value", optionally with
    spaces before them, and the first one with [key] has the value [v]; what
    follows it does not matter, and the values of other keys need not be valid
    literals. *)
Inductive tag_says (key : list Z) : list Z -> list Z -> Prop :=
| says_space t v : tag_says key t v -> tag_says key (32 :: t) v
| says_here q v rest : quoted_text q v -> tag_says key (key ++ [58; 34] ++ q ++ rest) v
| says_later name q rest v : tag_name name -> name <> key -> raw q -> tag_says key rest v ->
    tag_says key (name ++ [58; 34] ++ q ++ rest) v.

(** A conventional tag with the given pairs. *)
Inductive tag_pairs : list (list Z * list Z) -> list Z -> Prop :=
| tp_nil w : Forall (eq 32) w -> tag_pairs [] w
| tp_cons w n q v ps rest : Forall (eq 32) w -> tag_name n -> quoted_text q v -> tag_pairs ps rest ->
    tag_pairs ((n, v) :: ps) (w ++ n ++ [58; 34] ++ q ++ rest).
(** The first value with a key, or nothing. *)
Definition first_value (key : list Z) (ps : list (list Z * list Z)) (v : list Z) : Prop :=
  (exists a b, ps = a ++ (key, v) :: b /\ Forall (fun p => fst p <> key) a) \/
  Forall (fun p => fst p <> key) ps /\ v = [].
