(** Struct tags as texts (C58); white space in them (C33). *)
From Coq Require Import String.
From Verif Require Import Base Tags Types Text EncPrim Enc Builtin Utf8 StructTag Utf8Facts JsonSpec TagSpec TagText TrimFacts TagFacts.
Notation length := Datatypes.length.

(** ** C33 *)

(** TrimSpace(value) == "true": the value is true between runes of white space. *)
Theorem C33_true : forall s, trim_space s = "true"%string <-> says_true s.
Proof. exact trim_true. Qed.
Print Assumptions C33_true.
Example C33_true_sample :
  trim_space (text_of ([9; 0xC2; 0xA0] ++ str "true" ++ [0xE3; 0x80; 0x80; 10])) = "true"%string /\
  says_true (text_of ([9; 0xC2; 0xA0] ++ str "true" ++ [0xE3; 0x80; 0x80; 10])) /\
  trim_space (text_of (str "true" ++ [0xE2; 0x80; 0x8B])) <> "true"%string.
Proof.
  assert (H : trim_space (text_of ([9; 0xC2; 0xA0] ++ str "true" ++ [0xE3; 0x80; 0x80; 10])) = "true"%string) by reflexivity.
  split; [exact H|]. split; [now apply trim_true|]. discriminate.
Qed.

(** ** C58 *)

(** strconv.Unquote of a literal in double quotes (without the first). *)
Theorem C58_unquote : forall s t, bytes_ok s -> (unquote s = Some t <-> quoted_text s t).
Proof. exact unquote_exact. Qed.
Print Assumptions C58_unquote.
(** StructTag.Get, for every text. *)
Theorem C58_get : forall key tag v, bytes_ok tag -> tag_name key ->
  (tag_get key tag = v <-> tag_says key tag v \/ (forall v', ~ tag_says key tag v') /\ v = []).
Proof. exact get_exact. Qed.
Print Assumptions C58_get.
(** What a field gets from a tag written by the convention: the first values of
    the three keys; other keys make no difference. *)
Theorem C58_conventional : forall ps tag b s e, tag_pairs ps tag -> bytes_ok tag ->
  first_value (str "bin") ps b -> first_value (str "borsh_skip") ps s -> first_value (str "borsh_enum") ps e ->
  rawtag_of tag = mkTag (text_of b) (text_of s) (text_of e).
Proof.
  assert (N1 : tag_name (str "bin")) by (split; [discriminate|cbn; repeat (apply Forall_cons; [lia|]); apply Forall_nil]).
  assert (N2 : tag_name (str "borsh_skip")) by (split; [discriminate|cbn; repeat (apply Forall_cons; [lia|]); apply Forall_nil]).
  assert (N3 : tag_name (str "borsh_enum")) by (split; [discriminate|cbn; repeat (apply Forall_cons; [lia|]); apply Forall_nil]).
  intros ps tag b s e Hp Hb H1 H2 H3. unfold rawtag_of.
  now rewrite (pairs_get _ ps tag N1 Hp Hb b H1), (pairs_get _ ps tag N2 Hp Hb s H2), (pairs_get _ ps tag N3 Hp Hb e H3).
Qed.
Print Assumptions C58_conventional.
(** Every list of pairs can be written. *)
Theorem C58_expressible : forall ps, Forall (fun p => tag_name (fst p) /\ bytes_ok (fst p) /\ bytes_ok (snd p)) ps ->
  exists tag, tag_pairs ps tag /\ bytes_ok tag.
Proof. exact every_tag. Qed.
Print Assumptions C58_expressible.

(** A tag with another key, an escape, a second bin and borsh_skip; the field is
    big endian. *)
Definition c58_tag : list Z := str "json:""a,omitempty"" bin:""sizeof=\x41 big"" bin:""little"" borsh_skip:""  true""".
Example C58_sample :
  parse_field_tag (rawtag_of c58_tag) = mkFT "A" true BE false false false false /\
  snd (marshal Bin (TStruct [(mkF "X" true (rawtag_of (str "bin:""big""")), TUint UPlain W16)]) (VStruct [VNum 1])) = [0; 1] /\
  unquote (str "\x41\101\u00e9""") = Some [65; 65; 0xC3; 0xA9].
Proof. vm_compute. auto. Qed.
(** A tag that is not written by the convention is ignored from the mistake on,
    without an error: the field is silently little endian. *)
Theorem C58_mistakes_refuted : exists tag tag', tag = str "bin: ""big""" /\ tag' = str "json:""a"", bin:""big""" /\
  parse_field_tag (rawtag_of tag) = parse_field_tag (rawtag_of []) /\
  parse_field_tag (rawtag_of tag') = parse_field_tag (rawtag_of []).
Proof. do 2 eexists. split; [reflexivity|]. split; [reflexivity|]. vm_compute. auto. Qed.
Print Assumptions C58_mistakes_refuted.
