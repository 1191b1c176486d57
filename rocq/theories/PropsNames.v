(** Names: sighashes and the two cases: C40-C42. *)
From Coq Require Import String.
From Verif Require Import Base Types Text Utf8 DecPrim Num NumFacts Heck HeckFacts Sha256 ShaSpec ShaFacts Sighash NameFacts.
Notation length := Datatypes.length.

(** ** C40 *)

Theorem C40_first_bytes : forall ns name, exists rest,
  sha256 (ns ++ [58] ++ name) = sighash ns name ++ rest /\
  length (sighash ns name) = 8%nat /\ length rest = 24%nat /\ bytes_ok (sighash ns name).
Proof. exact sighash_prefix. Qed.
Print Assumptions C40_first_bytes.
(** The hash is SHA-256 as FIPS 180-4 describes it (ShaSpec.v), which
    determines it. *)
Theorem C40_sha256 : forall m d, bytes_ok m -> (is_sha256 m d <-> d = sha256 m).
Proof. exact sha256_iff. Qed.
Print Assumptions C40_sha256.
Theorem C40_sighash : forall ns name, bytes_ok ns -> bytes_ok name ->
  exists d, is_sha256 (ns ++ [58] ++ name) d /\ sighash ns name = firstn 8 d.
Proof. exact sighash_is. Qed.
Print Assumptions C40_sighash.
Theorem C40_type_id : forall ns name, sighash_type_id ns name = sighash ns name.
Proof. exact sighash_type_id_same. Qed.
Print Assumptions C40_type_id.
(** Instructions with the same words have the same sighash, whatever Unicode
    tables are used; in particular the name and its snake case. *)
Theorem C40_instruction_words : forall u u' a b, ascii a -> ascii b ->
  map (map lower_of) (text_words a) = map (map lower_of) (text_words b) ->
  sighash_instruction u a = sighash_instruction u' b.
Proof. exact instruction_words. Qed.
Print Assumptions C40_instruction_words.
Theorem C40_instruction_snake : forall u name, ascii name ->
  sighash_instruction u (to_rust_snake_case u name) = sighash_instruction u name.
Proof. exact instruction_snake. Qed.
Print Assumptions C40_instruction_snake.
(** What is hashed determines the namespace and the name, if the namespace has
    no colon, as the three of the library. *)
Theorem C40_preimage : forall ns name ns' name', ~ In 58 ns -> ~ In 58 ns' ->
  ns ++ [58] ++ name = ns' ++ [58] ++ name' -> ns = ns' /\ name = name'.
Proof. exact preimage_inj. Qed.
Print Assumptions C40_preimage.
Theorem C40_namespaces : Forall (fun ns => ~ In 58 ns) [state_namespace; global_namespace; account_namespace].
Proof. exact no_colons. Qed.
Print Assumptions C40_namespaces.
Example C40_sample :
  sighash (str "account") (str "Counter") = [255; 176; 4; 245; 188; 253; 124; 25] /\
  sighash state_namespace (str "new") = [162; 234; 162; 24; 168; 43; 50; 226] /\
  sighash_instruction latin1 (str "initializeTwo") = sighash_instruction latin1 (str "Initialize two") /\
  sighash_instruction latin1 (str "initializeTwo") <> sighash_instruction latin1 (str "initialize2").
Proof. repeat split; vm_compute; try reflexivity. discriminate. Qed.
(** Otherwise namespaces can collide. *)
Theorem C40_namespace_refuted : exists ns name ns' name', ns <> ns' /\ sighash ns name = sighash ns' name'.
Proof.
  exists (str "a:b"), (str "c"), (str "a"), (str "b:c"). split; [discriminate|]. vm_compute. reflexivity.
Qed.
Print Assumptions C40_namespace_refuted.
(** For account names this fails: Pascal case is not idempotent. *)
Theorem C40_account_refuted : exists name, ascii name /\
  forall u, sighash_account u (to_pascal_case u name) <> sighash_account u name.
Proof.
  exists (str "a-b"). split; [repeat constructor; easy|]. intro u. vm_compute. discriminate.
Qed.
Print Assumptions C40_account_refuted.

(** ** C41 *)

(** [text_words]: runs of letters and digits, cut before an upper case letter
    whose last letter before it is lower case, or upper case with a lower case
    letter behind. *)
Theorem C41_words : forall u s, ascii s ->
  to_rust_snake_case u s = join [95] (map (map lower_of) (text_words s)).
Proof. exact snake_words. Qed.
Print Assumptions C41_words.
Theorem C41_characters : forall u s, ascii s ->
  Forall (fun c => lower_char c = true \/ digit_char c = true \/ c = 95) (to_rust_snake_case u s).
Proof. exact snake_chars. Qed.
Print Assumptions C41_characters.
Theorem C41_single_underscores : forall u s a b, ascii s ->
  to_rust_snake_case u s <> [95] ++ b /\
  to_rust_snake_case u s <> a ++ [95] /\
  to_rust_snake_case u s <> a ++ [95; 95] ++ b.
Proof. exact snake_separators. Qed.
Print Assumptions C41_single_underscores.
Theorem C41_letters : forall u s, ascii s ->
  filter (fun c => negb (c =? 95)) (to_rust_snake_case u s) = map lower_of (filter alnum s).
Proof. exact snake_letters. Qed.
Print Assumptions C41_letters.
Theorem C41_idempotent : forall u s, ascii s ->
  to_rust_snake_case u (to_rust_snake_case u s) = to_rust_snake_case u s.
Proof. exact snake_idempotent. Qed.
Print Assumptions C41_idempotent.
Theorem C41_sighash : forall u s, ascii s -> to_snake_for_sighash u s = to_rust_snake_case u s.
Proof. exact snake_for_sighash. Qed.
Print Assumptions C41_sighash.
Example C41_sample :
  text_words (str "getHTTPResponse2Code-x") = map str ["get"; "HTTP"; "Response2"; "Code"; "x"]%string /\
  to_rust_snake_case latin1 (str "getHTTPResponse2Code-x") = str "get_http_response2_code_x" /\
  to_rust_snake_case latin1 (str "--__--") = [].
Proof. repeat split; vm_compute; reflexivity. Qed.
(** Behind a letter that is not ASCII words are cut at wrong bytes, and even
    letters are damaged: the rune count is used as a byte index.  The input is
    f, o, i with grave accent, B, a, r: the correct result foi_bar (with the
    accent) keeps the letters. *)
Theorem C41_letters_refuted : exists s, runes s = [102; 111; 0xEC; 66; 97; 114] /\
  to_rust_snake_case latin1 s <> [102; 111; 0xC3; 0xAC; 95; 98; 97; 114] /\
  In 0xFFFD (runes (to_rust_snake_case latin1 s)).
Proof.
  exists [102; 111; 0xC3; 0xAC; 66; 97; 114]. split; [vm_compute; reflexivity|]. split; vm_compute; [discriminate|tauto].
Qed.
Print Assumptions C41_letters_refuted.

(** ** C42 *)

Theorem C42_words : forall u s, ascii s -> to_pascal_case u s = List.concat (map capital (text_words s)).
Proof. exact pascal_words. Qed.
Print Assumptions C42_words.
Theorem C42_characters : forall u s, ascii s -> Forall (fun c => alnum c = true) (to_pascal_case u s).
Proof. exact pascal_chars. Qed.
Print Assumptions C42_characters.
Theorem C42_letters : forall u s, ascii s ->
  map lower_of (to_pascal_case u s) = map lower_of (filter alnum s).
Proof. exact pascal_letters. Qed.
Print Assumptions C42_letters.
Theorem C42_first : forall u s, ascii s ->
  match to_pascal_case u s with [] => True | c :: _ => lower_char c = false end.
Proof. exact hd_pascal. Qed.
Print Assumptions C42_first.
(** Both cases see the same words. *)
Theorem C42_snake_first : forall u s, ascii s -> to_pascal_case u (to_rust_snake_case u s) = to_pascal_case u s.
Proof. exact pascal_snake. Qed.
Print Assumptions C42_snake_first.
Example C42_sample :
  to_pascal_case latin1 (str "getHTTPResponse2Code-x") = str "GetHttpResponse2CodeX" /\
  to_pascal_case latin1 (str "1hello") = str "1hello".
Proof. split; vm_compute; reflexivity. Qed.
Theorem C42_idempotent_refuted : exists s, ascii s /\
  forall u, to_pascal_case u (to_pascal_case u s) <> to_pascal_case u s.
Proof.
  exists (str "a-b"). split; [repeat constructor; easy|]. intro u. vm_compute. discriminate.
Qed.
Print Assumptions C42_idempotent_refuted.
Theorem C42_letters_refuted : exists s, runes s = [102; 111; 0xEC; 66; 97; 114] /\
  to_pascal_case latin1 s <> [70; 111; 0xC3; 0xAC; 66; 97; 114] /\
  In 0xFFFD (runes (to_pascal_case latin1 s)).
Proof.
  exists [102; 111; 0xC3; 0xAC; 66; 97; 114]. split; [vm_compute; reflexivity|]. split; vm_compute; [discriminate|tauto].
Qed.
Print Assumptions C42_letters_refuted.
