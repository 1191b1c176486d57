(** C70. *)
From Coq Require Import String.
From Verif Require Import Types EncPrim DecPrim Enc Dec Builtin Spec EncFacts DecWithin DecLocal GoEncFacts RecSpec RecFacts RecEnc RecEnds RecEncEnds RoundTrip Check RoundTripProps.
Notation length := Datatypes.length.

(** * C70: recursive types *)

(** Unrolling a type further changes nothing unless the cut was reached. *)
Theorem C70_decode_cut : forall t t' old s, deeper true t t' ->
  fst (decode t old s) <> Deep -> decode t' old s = decode t old s.
Proof.
  intros t t' old s Hd Hn. unfold decode, decode_target, bind, d_get_enc in *. symmetry.
  destruct (le_dec_val (d_enc s) t true t' (DStart opt0) old old Hd (or_intror eq_refl) s); [contradiction|assumption].
Qed.
Print Assumptions C70_decode_cut.

Theorem C70_encode_cut : forall t t' v s, deeper true t t' ->
  fst (encode t v s) <> Deep -> encode t' v s = encode t v s.
Proof.
  intros t t' v s Hd Hn. unfold encode, bind, e_get_enc in *. symmetry.
  destruct (le_enc_val (e_enc s) t true t' (EFull opt0) v Hd s); [contradiction|assumption].
Qed.
Print Assumptions C70_encode_cut.

(** Decoding a recursive type ends if it reads a byte before each mention of
    itself: then the number of bytes left bounds how deep it goes. *)
Theorem C70_decode_ends : forall E F old s n n',
  heavy F -> guarded true F -> solid E F -> all_codecs codec_within F -> paid E False False F ->
  d_enc s = E -> inside s -> fits (unroll F n) old ->
  remaining_of s + 1 < Z.of_nat n -> (n <= n')%nat ->
  fst (decode (unroll F n) old s) <> Deep /\ decode (unroll F n') old s = decode (unroll F n) old s.
Proof.
  intros E F old s n n' Hh Hg Hs Hc Hp He Hi Hf Hr Hn.
  assert (Hd : fst (decode (unroll F n) old s) <> Deep) by (eapply decode_ends; eauto).
  split; [exact Hd|]. apply C70_decode_cut; [|exact Hd]. now apply unroll_deeper.
Qed.
Print Assumptions C70_decode_ends.

(** Encoding a value ends, in Borsh if no nil pointer without a flag leads
    back to the type. *)
Theorem C70_encode_ends : forall F v s n n',
  heavy F -> guarded false F -> (e_enc s = Borsh -> sheltered F) -> all_codecs codec_ends F ->
  (depth v < n)%nat -> (n <= n')%nat ->
  fst (encode (unroll F n) v s) <> Deep /\ encode (unroll F n') v s = encode (unroll F n) v s.
Proof.
  intros F v s n n' Hh Hg Hs Hc Hv Hn.
  assert (Hd : fst (encode (unroll F n) v s) <> Deep) by now apply encode_ends.
  split; [exact Hd|]. apply C70_encode_cut; [|exact Hd]. apply unroll_deeper; auto. now apply guarded_mono.
Qed.
Print Assumptions C70_encode_ends.

(** Round trips: a value that an unrolling can write is written by all deeper
    ones, and read back by them. *)
Theorem C70_round_trip : forall E F v n n', heavy F -> guarded false F -> ok E (unroll F n) None LE v -> (n <= n')%nat ->
  exists b c, marshal E (unroll F n') v = (Ok tt, b) /\
    decode (unroll F n') (zero_val (unroll F n')) (new_decoder E b) =
      (Ok (back E (unroll F n) None LE (zero_val (unroll F n)) v), mkD b (zlen b) c E) /\
    (canon E (unroll F n) None LE v -> unmarshal E (unroll F n') (zero_val (unroll F n')) b = Ok v).
Proof.
  intros E F v n n' Hh Hg Ho Hn. destruct (round_trip E (unroll F n) v Ho) as (b & c & Hm & Hd & Hc). exists b, c.
  assert (Hdeep : deeper true (unroll F n) (unroll F n')) by (apply unroll_deeper; auto; now apply guarded_mono).
  assert (Hz : zero_val (unroll F n') = zero_val (unroll F n)).
  { destruct n as [|n]; [destruct Ho|]. destruct n' as [|n']; [lia|]. now apply zero_plug. }
  split; [|split].
  - unfold marshal in *. rewrite (C70_encode_cut (unroll F n)); [exact Hm|exact Hdeep|].
    destruct (encode (unroll F n) v (new_encoder E buffer)) as [r s]. cbn [fst]. congruence.
  - rewrite Hz. rewrite (C70_decode_cut (unroll F n)); [exact Hd|exact Hdeep|]. rewrite Hd. discriminate.
  - intro Hcan. specialize (Hc Hcan). unfold unmarshal in *. rewrite Hz.
    rewrite (C70_decode_cut (unroll F n)); [exact Hc|exact Hdeep|]. rewrite Hc. discriminate.
Qed.
Print Assumptions C70_round_trip.

(** Without the condition on Borsh: a list that ends in a nil pointer without
    a flag.  Every unrolling is exhausted, after more and more zero bytes:
    the Go call does not return. *)
Theorem C70_borsh_nil : forall n z, is_byte z ->
  marshal Borsh (unroll chain n) (VStruct [VNum z; VPtr None]) =
  (Deep, match n with O => [] | S n' => z :: repeat 0 n' end).
Proof.
  intros n z Hz. unfold marshal, encode, bind, e_get_enc. cbn [e_enc new_encoder].
  destruct (chain_deep n z (new_encoder Borsh buffer) eq_refl) as (s' & H1 & H2). rewrite H1. f_equal. rewrite H2.
  cbn [e_acc new_encoder app]. unfold is_byte in Hz. destruct n; [reflexivity|]. now rewrite Z.mod_small by lia.
Qed.
Print Assumptions C70_borsh_nil.

(** Without [paid]: a type that reads nothing before it mentions itself. *)
Theorem C70_hollow : forall E n data, unmarshal E (unroll hollow n) (zero_val (unroll hollow n)) data = Deep.
Proof.
  intros E n data. unfold unmarshal, decode, decode_target, bind, d_get_enc. cbn [d_enc new_decoder].
  rewrite DecEq.dec_start_eq. replace (o_opt opt0 || _) with false by (now destruct E). unfold bind, d_set_cur. apply hollow_deep.
Qed.
Print Assumptions C70_hollow.

(** ** Samples *)

(** type Node struct { V uint8; Next *Node `bin:"optional"`; Kids []Node } *)
Definition node : ty := TStruct
  [ (mkF "V" true notag, TUint UPlain W8);
    (mkF "Next" true (mkTag "optional" "" ""), TPtr TDeep);
    (mkF "Kids" true notag, TSlice TDeep) ].
Definition leaf (z : Z) : val := VStruct [VNum z; VPtr None; VSlice None].
Definition grown : val :=
  VStruct [VNum 1; VPtr (Some (VStruct [VNum 2; VPtr None; VSlice (Some [leaf 3; leaf 4])])); VSlice (Some [leaf 5])].

Lemma node_heavy : heavy node. Proof. exact I. Qed.
Lemma node_guarded g : guarded g node. Proof. cbn. auto. Qed.
Lemma node_sheltered : sheltered node. Proof. vm_compute. auto. Qed.
Lemma node_solid E : solid E node.
Proof.
  right. left. split; [reflexivity|]. split; [reflexivity|]. right. split; [exact I|now left].
Qed.
Lemma node_paid E : paid E False False node.
Proof.
  apply paid_struct. replace (enum_struct E _) with false by (now destruct E).
  assert (H : solid_field E [ (mkF "V" true notag, TUint UPlain W8);
    (mkF "Next" true (mkTag "optional" "" ""), TPtr TDeep);
    (mkF "Kids" true notag, TSlice TDeep) ] (mkF "V" true notag) (TUint UPlain W8) (solid E (TUint UPlain W8))).
  { split; [reflexivity|]. split; [reflexivity|]. right. split; [exact I|now left]. }
  assert (Hn : forall nm, nm <> EmptyString -> ~ Exists (fun ht : fhdr * ty => ft_sizeof (parse_field_tag (f_tag (fst ht))) = nm)
    [ (mkF "V" true notag, TUint UPlain W8);
    (mkF "Next" true (mkTag "optional" "" ""), TPtr TDeep);
    (mkF "Kids" true notag, TSlice TDeep) ]).
  { intros nm Hnm Hx. apply Exists_exists in Hx. destruct Hx as (ht & Hin & Heq).
    destruct Hin as [<-|[<-|[<-|[]]]]; now apply Hnm. }
  cbn [paid_fields paid]. split; [exact I|]. split; [split|split; [|exact I]].
  - now right.
  - now apply Hn.
  - split; [|easy]. left. left. left. now right.
Qed.

Example C70_sample_ends : forall E data, exists n, forall n', (n <= n')%nat ->
  unmarshal E (unroll node n') (leaf 0) data = unmarshal E (unroll node n) (leaf 0) data /\
  unmarshal E (unroll node n) (leaf 0) data <> Deep.
Proof.
  intros E data. exists (S (S (S (length data)))). intros n' Hn.
  assert (Hi : inside (new_decoder E data)) by (unfold inside, zlen; cbn; lia).
  destruct (C70_decode_ends E node (leaf 0) (new_decoder E data) (S (S (S (length data)))) n'
    node_heavy (node_guarded true) (node_solid E)) as [H1 H2]; auto.
  - cbn; auto.
  - apply node_paid.
  - cbn [unroll]. exact (DecWire.fits_zero (unroll node (S (S (S (length data)))))).
  - open_rem. cbn [d_data d_pos new_decoder]. unfold zlen. lia.
  - unfold unmarshal. rewrite H2. auto.
Qed.
Example C70_sample_encode :
  map (fun E => marshal E (unroll node 9) grown) [Bin; CompactU16; Borsh] =
  [ (Ok tt, [1; 1;0;0;0; 2; 0;0;0;0; 2; 3; 0;0;0;0; 0; 4; 0;0;0;0; 0; 1; 5; 0;0;0;0; 0]);
    (Ok tt, [1; 1; 2; 0; 2; 3; 0; 0; 4; 0; 0; 1; 5; 0; 0]);
    (Ok tt, [1; 1; 2; 0; 2;0;0;0; 3; 0; 0;0;0;0; 4; 0; 0;0;0;0; 1;0;0;0; 5; 0; 0;0;0;0]) ].
Proof. vm_compute. reflexivity. Qed.
Example C70_sample_depth : depth grown = 6%nat.
Proof. reflexivity. Qed.
(** The value ends later than the unrolling: the cut is reached. *)
Example C70_sample_cut :
  fst (marshal Borsh (unroll node 2) grown) = Deep /\ fst (marshal Borsh (unroll node 3) grown) = Ok tt /\
  unmarshal Borsh (unroll node 3) (leaf 0) (snd (marshal Borsh (unroll node 9) grown)) = Ok grown.
Proof. vm_compute. auto. Qed.
(** It comes back from every unrolling that is deep enough. *)
Example C70_sample_round_trip : forall n, (3 <= n)%nat -> exists b, marshal Borsh (unroll node n) grown = (Ok tt, b) /\
  unmarshal Borsh (unroll node n) (zero_val (unroll node n)) b = Ok grown.
Proof.
  intros n Hn. destruct (C70_round_trip Borsh node grown 3 n node_heavy (node_guarded false)) as (b & c & H1 & H2 & H3);
    [apply okb_ok; vm_compute; reflexivity|exact Hn|].
  exists b. split; [exact H1|]. unfold unmarshal. rewrite H2. cbn [fst]. vm_compute. reflexivity.
Qed.
