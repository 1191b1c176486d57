(** Facts about sighashes and names (C40-C42). *)
From Coq Require Import String.
From Verif Require Import Base Types Text DecPrim Num NumFacts Heck HeckFacts Sha256 ShaSpec ShaFacts Sighash VariantFacts.
Notation length := Datatypes.length.

Lemma sighash_prefix ns name : exists rest,
  sha256 (ns ++ [58] ++ name) = sighash ns name ++ rest /\
  length (sighash ns name) = 8%nat /\ length rest = 24%nat /\ bytes_ok (sighash ns name).
Proof.
  exists (skipn 8 (sha256 (ns ++ [58] ++ name))). unfold sighash. cbv zeta. change (str ":") with [58].
  set (h := sha256 (ns ++ [58] ++ name)). assert (L : length h = 32%nat) by apply sha256_length.
  assert (K : bytes_ok h) by apply sha256_ok. rewrite <- (firstn_skipn 8 h) in K. apply Forall_app in K as [K _].
  split; [|split; [|split]].
  - symmetry. apply firstn_skipn.
  - rewrite firstn_length, L. reflexivity.
  - rewrite skipn_length, L. reflexivity.
  - exact K.
Qed.
Lemma sighash_type_id_same ns name : sighash_type_id ns name = sighash ns name.
Proof.
  destruct (sighash_prefix ns name) as (? & _ & L & _). now apply type_id_full.
Qed.
Lemma snake_for_sighash u s : ascii s -> to_snake_for_sighash u s = to_rust_snake_case u s.
Proof. reflexivity. Qed.
Lemma instruction_words u u' a b : ascii a -> ascii b ->
  map (map lower_of) (text_words a) = map (map lower_of) (text_words b) ->
  sighash_instruction u a = sighash_instruction u' b.
Proof.
  intros Ha Hb H. unfold sighash_instruction. rewrite !snake_for_sighash by assumption.
  rewrite !snake_words by assumption. now rewrite H.
Qed.
Lemma snake_is_ascii u s : ascii s -> ascii (to_rust_snake_case u s).
Proof. intro H. rewrite snake_words by exact H. apply snake_ascii, lower_words_ok. Qed.
Lemma instruction_snake u name : ascii name ->
  sighash_instruction u (to_rust_snake_case u name) = sighash_instruction u name.
Proof.
  intro H. unfold sighash_instruction. rewrite !snake_for_sighash by (try apply snake_is_ascii; exact H).
  now rewrite snake_idempotent.
Qed.
Lemma preimage_inj ns : forall name ns' name', ~ In 58 ns -> ~ In 58 ns' ->
  ns ++ [58] ++ name = ns' ++ [58] ++ name' -> ns = ns' /\ name = name'.
Proof.
  induction ns as [|c ns IH]; intros name [|c' ns'] name' H1 H2 H; cbn [app] in H.
  - now injection H.
  - exfalso. apply H2. left. congruence.
  - exfalso. apply H1. left. congruence.
  - injection H as -> H. destruct (IH name ns' name') as [-> ->]; [|..|easy].
    + intro K. apply H1. now right.
    + intro K. apply H2. now right.
    + exact H.
Qed.
Lemma no_colons : Forall (fun ns => ~ In 58 ns) [state_namespace; global_namespace; account_namespace].
Proof. repeat constructor; vm_compute; intros H; repeat (destruct H as [H|H]; [discriminate|]); exact H. Qed.
Lemma capital_map_lower p : capital (map lower_of p) = capital p.
Proof.
  destruct p as [|c p]; [reflexivity|]. cbn [map capital]. f_equal.
  - unfold lower_of, upper_of, upper_char, lower_char. destruct ((65 <=? c) && (c <=? 90)) eqn:E; [|reflexivity].
    replace ((97 <=? c + 32) && (c + 32 <=? 122)) with true by lia.
    replace ((97 <=? c) && (c <=? 122)) with false by lia. lia.
  - rewrite map_map. apply map_ext. exact lower_lower.
Qed.
Lemma pascal_snake u s : ascii s -> to_pascal_case u (to_rust_snake_case u s) = to_pascal_case u s.
Proof.
  intro H. rewrite pascal_words by now apply snake_is_ascii. rewrite snake_words, pascal_words by exact H.
  rewrite text_words_join by apply lower_words_ok. rewrite map_map. f_equal. apply map_ext. exact capital_map_lower.
Qed.

Lemma sighash_is ns name : bytes_ok ns -> bytes_ok name ->
  exists d, is_sha256 (ns ++ [58] ++ name) d /\ sighash ns name = firstn 8 d.
Proof.
  intros A B. exists (sha256 (ns ++ [58] ++ name)). split; [|reflexivity].
  apply sha256_is. apply Forall_app. split; [exact A|]. constructor; [unfold is_byte; lia|exact B].
Qed.
