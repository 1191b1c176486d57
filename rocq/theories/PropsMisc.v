(** Case conversion of any bytes, encoding numbers: C65, C66. *)
From Coq Require Import String.
From Verif Require Import Base Num Types Text Utf8 Utf8Facts DecPrim Dec Builtin Ops Heck GoHeck GoHeckFacts Encodings EncodingFacts.
Notation length := Datatypes.length.

(** ** C65 *)

(** GoHeck.v: the functions of heck.go with their readers, indices and slices;
    [Some]: no index or slice expression is out of range. *)
Theorem C65_pascal : forall u s, go_to_pascal_case u s = Some (to_pascal_case u s).
Proof. exact go_pascal_eq. Qed.
Print Assumptions C65_pascal.
Theorem C65_snake : forall u s, go_to_rust_snake_case u s = Some (to_rust_snake_case u s).
Proof. exact go_snake_eq. Qed.
Print Assumptions C65_snake.
(** Also when the text is not UTF-8, and whatever the Unicode tables are, the
    results are. *)
Theorem C65_utf8 : forall u s, exists p q, go_to_pascal_case u s = Some p /\ go_to_rust_snake_case u s = Some q /\
  utf8 p /\ utf8 q.
Proof.
  intros u s. exists (to_pascal_case u s), (to_rust_snake_case u s).
  split; [exact (go_pascal_eq u s)|]. split; [exact (go_snake_eq u s)|]. exact (cases_utf8 u s).
Qed.
Print Assumptions C65_utf8.
(** Slicing by the index of a rune instead of its first byte cuts "é" in two. *)
Example C65_sample :
  go_to_rust_snake_case latin1 (str "HTTPServer" ++ [255; 45] ++ str "b2") = Some (str "http_server_b2") /\
  go_to_pascal_case latin1 (str "xml_httpRequest") = Some (str "XmlHttpRequest") /\
  go_to_rust_snake_case latin1 ([0xC3; 0xA9] ++ str "A") = Some ([0xEF; 0xBF; 0xBD] ++ [95] ++ [0xEF; 0xBF; 0xBD] ++ str "a").
Proof. vm_compute. auto. Qed.

(** ** C66 *)

(** The numbers 0, 1, 2: the model with the three encodings is the model with
    numbers, for every sequence of calls. *)
Theorem C66_valid : forall ops s,
  raw_runs ops (as_raw s) = let '(results, s') := dops_run ops s in (results, as_raw s').
Proof. exact raw_valid_runs. Qed.
Print Assumptions C66_valid.
(** Other numbers are refused by the constructors; String is empty. *)
Theorem C66_constructors : forall e,
  (no_encoding e -> (forall data, new_decoder_with_encoding data e = Panic) /\
                    (forall w, new_encoder_with_encoding w e = Panic) /\ encoding_string e = []) /\
  (forall E, e = number E ->
     (forall data, new_decoder_with_encoding data e = Ok (as_raw (new_decoder E data))) /\
     (forall w, new_encoder_with_encoding w e = Ok (new_encoder E w)) /\ encoding_string e <> []).
Proof. exact constructors. Qed.
Print Assumptions C66_constructors.
(** The constructors with the encoding in their names. *)
Theorem C66_shortcuts : forall data w,
  new_bin_decoder data = Ok (as_raw (new_decoder Bin data)) /\
  new_borsh_decoder data = Ok (as_raw (new_decoder Borsh data)) /\
  new_compact_u16_decoder data = Ok (as_raw (new_decoder CompactU16 data)) /\
  new_bin_encoder w = Ok (new_encoder Bin w) /\ new_borsh_encoder w = Ok (new_encoder Borsh w) /\
  new_compact_u16_encoder w = Ok (new_encoder CompactU16 w).
Proof. repeat split. Qed.
Print Assumptions C66_shortcuts.
Theorem C66_names : forall e e', encoding_string e = encoding_string e' -> e = e' \/ no_encoding e /\ no_encoding e'.
Proof. exact names. Qed.
Print Assumptions C66_names.
(** SetEncoding takes them.  Then Decode and the methods that read a length panic
    before they read anything, ... *)
Theorem C66_panic : forall op r, no_encoding (w_enc r) -> needs_length op = true -> raw_run op r = (Panic, r).
Proof. exact raw_invalid_panic. Qed.
Print Assumptions C66_panic.
(** ... and all others do what they do with Bin. *)
Theorem C66_bin : forall op r, no_encoding (w_enc r) -> needs_length op = false ->
  (forall E, op <> OpSetEncoding E) ->
  let '(o, s) := dop_run op (mkD (w_data r) (w_pos r) (w_cur r) Bin) in
  raw_run op r = (o, mkRaw (d_data s) (d_pos s) (d_cur s) (w_enc r)).
Proof. exact raw_invalid_bin. Qed.
Print Assumptions C66_bin.
(** So a program that does not need lengths cannot tell it from Bin. *)
Theorem C66_detour : forall e, no_encoding e -> forall ops,
  Forall (fun op => needs_length op = false /\ forall E, op <> OpSetEncoding E) ops -> forall d p c,
  let '(os, s) := dops_run ops (mkD d p c Bin) in
  raw_runs ops (mkRaw d p c e) = (os, mkRaw (d_data s) (d_pos s) (d_cur s) e) /\ d_enc s = Bin.
Proof. exact raw_detour. Qed.
Print Assumptions C66_detour.
Example C66_sample : forall e, no_encoding e ->
  raw_runs [OpReadByte; OpReadString; OpReadFloat F32 LE; OpDecode TBool (VBool false); OpSetEncoding Bin; OpReadString]
    (mkRaw [1; 0; 0; 192; 127; 2; 104; 105] 0 None e) =
    ([Ok (RNum 1); Panic; Ok (RNum 0x7fc00000); Panic; Ok RUnit; Ok (RBytes (str "hi"))],
     mkRaw [1; 0; 0; 192; 127; 2; 104; 105] 8 None 0) .
Proof.
  intros e N. cbn [raw_runs].
  change (raw_run OpReadByte ?r) with ((Ok (RNum 1), mkRaw [1; 0; 0; 192; 127; 2; 104; 105] 1 None e)).
  cbv beta iota. rewrite (raw_invalid_panic OpReadString) by (exact N || reflexivity).
  pose proof (raw_invalid_bin (OpReadFloat F32 LE) (mkRaw [1; 0; 0; 192; 127; 2; 104; 105] 1 None e) N eq_refl ltac:(discriminate)) as F.
  match type of F with let '(_, _) := ?x in _ => let y := eval vm_compute in x in change x with y in F end.
  cbn [d_data d_pos d_cur w_enc] in F. cbv beta iota. rewrite F. cbv beta iota.
  rewrite (raw_invalid_panic (OpDecode TBool (VBool false))) by (exact N || reflexivity).
  vm_compute. reflexivity.
Qed.
