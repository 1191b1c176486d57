(** C70: types that mention each other. *)
From Coq Require Import String.
From Verif Require Import Types EncPrim DecPrim Enc Dec Builtin Spec EncFacts DecWire DecWithin DecLocal GoEncFacts RecSpec RecFacts RecEnc RecEnds RecEncEnds RoundTrip Check RoundTripProps ManySpec ManyEnc ManyDec.
Notation length := Datatypes.length.

(** Decoding ends if more bytes have to be read to get to a cut than there are.
    Cutting the type later changes nothing then. *)
Theorem C70_many_decode : forall t t' k old s, behind (d_enc s) k False t -> all_codecs codec_within t ->
  inside s -> fits t old -> remaining_of s < k -> deeper true t t' ->
  fst (decode t old s) <> Deep /\ decode t' old s = decode t old s.
Proof.
  intros t t' k old s Hb Hc Hi Hf Hk Hd. assert (H : fst (decode t old s) <> Deep) by (eapply far_decode_ends; eauto). split; [exact H|].
  unfold decode, decode_target, bind, d_get_enc in *. symmetry.
  destruct (le_dec_val (d_enc s) t true t' (DStart opt0) old old Hd (or_intror eq_refl) s); [contradiction|assumption].
Qed.
Print Assumptions C70_many_decode.

(** Encoding a value ends if the cuts are further below than the value is deep. *)
Theorem C70_many_encode : forall t t' n v s, beyond (e_enc s) n t -> all_codecs codec_ends t -> (depth v < n)%nat ->
  deeper true t t' -> fst (encode t v s) <> Deep /\ encode t' v s = encode t v s.
Proof.
  intros t t' n v s Hb Hc Hv Hd. assert (H : fst (encode t v s) <> Deep) by (eapply far_encode_ends; eauto). split; [exact H|].
  unfold encode, bind, e_get_enc in *. symmetry. destruct (le_enc_val (e_enc s) t true t' (EFull opt0) v Hd s); [contradiction|assumption].
Qed.
Print Assumptions C70_many_encode.

(** What an unrolling can write is written and read by the deeper ones. *)
Theorem C70_many_round_trip : forall E t t' v, ok E t None LE v -> deeper true t t' ->
  exists b c, marshal E t' v = (Ok tt, b) /\
    decode t' (zero_val t') (new_decoder E b) = (Ok (back E t None LE (zero_val t) v), mkD b (zlen b) c E) /\
    (canon E t None LE v -> unmarshal E t' (zero_val t') b = Ok v).
Proof.
  intros E t t' v Ho Hdeep. destruct (round_trip E t v Ho) as (b & c & Hm & Hd & Hc). exists b, c.
  assert (Hz : zero_val t' = zero_val t) by (symmetry; eapply deeper_zero_head; [|exact Hdeep]; intros ->; destruct Ho).
  split; [|split].
  - unfold marshal in *. assert (H : encode t' v (new_encoder E buffer) = encode t v (new_encoder E buffer)); [|now rewrite H].
    unfold encode, bind, e_get_enc in *. symmetry.
    destruct (le_enc_val (e_enc (new_encoder E buffer)) t true t' (EFull opt0) v Hdeep (new_encoder E buffer)) as [H|H]; [|exact H].
    exfalso. destruct (enc_val _ t _ v _) as [r s]. cbn [fst] in H. congruence.
  - rewrite Hz. unfold decode, decode_target, bind, d_get_enc in *.
    destruct (le_dec_val (d_enc (new_decoder E b)) t true t' (DStart opt0) (zero_val t) (zero_val t) Hdeep (or_intror eq_refl) (new_decoder E b)) as [H|H];
      [rewrite Hd in H; discriminate H|now rewrite <- H].
  - intro Hcan. specialize (Hc Hcan). unfold unmarshal in *. rewrite Hz. unfold decode, decode_target, bind, d_get_enc in *.
    destruct (le_dec_val (d_enc (new_decoder E b)) t true t' (DStart opt0) (zero_val t) (zero_val t) Hdeep (or_intror eq_refl) (new_decoder E b)) as [H|H];
      [rewrite Hc in H; discriminate H|now rewrite <- H].
Qed.
Print Assumptions C70_many_round_trip.

(** ** Sample *)

(** type Dir struct { Name string; Files []File }
    type File struct { Size uint16; Parent *Dir } *)
Fixpoint dir (n : nat) : ty :=
  match n with
  | O => TDeep
  | S n => TStruct [(mkF "Name" true notag, TString); (mkF "Files" true notag, TSlice (file n))]
  end
with file (n : nat) : ty :=
  match n with
  | O => TDeep
  | S n => TStruct [(mkF "Size" true notag, TUint UPlain W16); (mkF "Parent" true notag, TPtr (dir n))]
  end.

Lemma dir_deeper n : forall g m, (n <= m)%nat ->
  ((g = true \/ (0 < n)%nat) -> deeper g (dir n) (dir m)) /\ ((g = true \/ (0 < n)%nat) -> deeper g (file n) (file m)).
Proof.
  induction n as [|n IH]; intros g m Hm.
  - split; (intros [->|H]; [|lia]); destruct m; cbn; auto.
  - destruct m as [|m]; [lia|]. destruct (IH true m) as [H1 H2]; [lia|].
    split; intros _; cbn [dir file deeper]; repeat split; auto.
Qed.
Lemma dir_beyond E n : forall k, (k <= n)%nat -> beyond E k (dir n) /\ beyond E k (file n).
Proof.
  induction n as [|n IH]; intros k Hk; [replace k with O by lia; easy|].
  split; cbn [dir file beyond].
  - split; [exact I|]. split; [|exact I]. apply IH. lia.
  - split; [exact I|]. split; [|exact I]. split; [apply IH; lia|]. intros _ Hl _.
    assert (Hz : depth (zero_val (dir n)) = 2%nat) by (destruct n; [lia|reflexivity]). rewrite Hz.
    destruct (Nat.eq_dec n 2) as [->|Hn]; [cbn; intuition lia|]. apply IH. lia.
Qed.
Lemma dir_behind E n : forall k, k <= Z.of_nat n -> behind E k False (dir n) /\ behind E k False (file n).
Proof.
  induction n as [|n IH]; intros k Hk; [split; cbn; lia|].
  assert (Hno : forall nm fs, nm <> EmptyString -> Forall (fun ht : fhdr * ty => f_tag (fst ht) = notag) fs ->
    ~ Exists (fun ht => ft_sizeof (parse_field_tag (f_tag (fst ht))) = nm) fs).
  { intros nm fs Hnm Hfs Hx. apply Exists_exists in Hx. destruct Hx as (ht & Hin & Heq). rewrite Forall_forall in Hfs.
    rewrite (Hfs _ Hin) in Heq. now apply Hnm. }
  assert (Hfl : flagged_field E (parse_field_tag notag) = false) by (now destruct E).
  split; cbn [dir file]; apply behind_struct; (replace (enum_struct E _) with false by (now destruct E)); cbn [behind_fields behind f_tag].
  - rewrite !Hfl. split; [exact I|]. split; [discriminate|].
    left. split; [|split; [discriminate|now left]]. split; [apply IH; lia|]. intro H. exfalso. revert H. apply Hno; [discriminate|]. repeat constructor.
  - rewrite !Hfl. split; [exact I|]. split; [discriminate|].
    right. split.
    + split; [reflexivity|]. split; [reflexivity|]. right. split; [exact I|now left].
    + split; [|split; [discriminate|now left]]. cbn [f_name].
      assert (H : behind E (k - 1) False (dir n)) by (apply IH; lia). eapply behind_mono; [reflexivity| |exact H].
      apply Hno; [discriminate|]. repeat constructor.
Qed.

(** Whatever the bytes are, some unrolling decodes them, and all deeper ones
    do the same. *)
Example C70_many_sample_ends : forall E data, exists n, forall n', (n <= n')%nat ->
  unmarshal E (dir n') (VStruct [VStr []; VSlice None]) data = unmarshal E (dir n) (VStruct [VStr []; VSlice None]) data /\
  unmarshal E (dir n) (VStruct [VStr []; VSlice None]) data <> Deep.
Proof.
  intros E data. exists (S (length data)). intros n' Hn.
  destruct (C70_many_decode (dir (S (length data))) (dir n') (Z.of_nat (S (length data))) (VStruct [VStr []; VSlice None]) (new_decoder E data)) as [H1 H2].
  - apply dir_behind. lia.
  - generalize (S (length data)). clear. intro n. enough (H : all_codecs codec_within (dir n) /\ all_codecs codec_within (file n)) by apply H.
    induction n as [|n IH]; [easy|]. cbn [dir file]. split; apply all_codecs_struct; repeat constructor; apply IH.
  - unfold inside, zlen. cbn. lia.
  - exact (fits_zero (dir (S (length data)))).
  - open_rem. cbn [d_data d_pos new_decoder]. unfold zlen. lia.
  - apply dir_deeper; [lia|now left].
  - unfold unmarshal. rewrite H2. auto.
Qed.
Definition home : val := VStruct [VStr [97]; VSlice (Some [VStruct [VNum 5; VPtr None]; VStruct [VNum 6; VPtr (Some (VStruct [VStr [98; 99]; VSlice None]))]])].
(** Borsh writes an empty Dir for the nil Parent. *)
Example C70_many_sample : depth home = 6%nat /\ forall n, (7 <= n)%nat ->
  map (fun E => marshal E (dir n) home) [Bin; CompactU16; Borsh] =
  [ (Ok tt, [1; 0; 0; 0; 0; 0; 0; 0; 97; 2; 5; 0; 6; 0; 2; 0; 0; 0; 0; 0; 0; 0; 98; 99; 0]);
    (Ok tt, [1; 97; 2; 5; 0; 6; 0; 2; 98; 99; 0]);
    (Ok tt, [1; 0; 0; 0; 97; 2; 0; 0; 0; 5; 0; 0; 0; 0; 0; 0; 0; 0; 0; 6; 0; 2; 0; 0; 0; 98; 99; 0; 0; 0; 0]) ].
Proof.
  split; [reflexivity|]. intros n Hn.
  assert (H : forall E, marshal E (dir n) home = marshal E (dir 7) home).
  { intro E. unfold marshal. destruct (C70_many_encode (dir 7) (dir n) 7 home (new_encoder E buffer)) as [_ ->]; [|..|reflexivity].
    - apply dir_beyond. lia.
    - cbn. auto 20.
    - cbn. lia.
    - apply dir_deeper; [lia|now left]. }
  cbn [map]. rewrite !H. vm_compute. reflexivity.
Qed.
