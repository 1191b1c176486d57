(** C71. *)
From Coq Require Import String.
From Verif Require Import Types EncPrim DecPrim Enc Dec Builtin Spec NumFacts EncFacts EncProps DecWithin DecLocal Cost CostSpec CostFacts CostBound CostReach.

(** * C71: the work of decoding *)

(** The counting decoder is the decoder. *)
Theorem C71_same : forall cc E t v data,
  prog (pdec cc E t (DStart opt0) v) (new_decoder E data) = decode t v (new_decoder E data).
Proof. intros. rewrite decode_run. apply same_dec. Qed.
Print Assumptions C71_same.

(** What a method costs is counted once, next to the call of the decoder and the
    call of the method. *)
Theorem C71_method : forall cc E c u f v data, c_unmarshal c = Some f ->
  work cc E (TCodec c u) v data = 2 + cc c v (mkD data 0 (Some LE) E).
Proof. intros cc E c u f v data H. unfold work. cbn -[Z.add]. rewrite H, andb_false_r. cbn -[Z.add]. lia. Qed.
Print Assumptions C71_method.

(** If the elements of slices and the entries of maps take up room in the input,
    the work is proportional to the bytes used up. *)
Theorem C71_linear : forall cc kc E t v data, (forall c, 0 <= kc c) ->
  fed E true t -> all_codecs codec_within t -> all_codecs (codec_cheap cc kc) t -> fits t v ->
  work cc E t v data <= toll kc t * (1 + used (decode t v (new_decoder E data)) (new_decoder E data)) /\
  0 <= used (decode t v (new_decoder E data)) (new_decoder E data) <= zlen data.
Proof.
  intros cc kc E t v data Hk Hf Hw Hc Hv. split; [now apply work_linear|].
  pose proof (zlen_nonneg data) as Hn.
  pose proof (used_le (decode t v) (new_decoder E data) (within_decode t v Hw)) as Hu.
  (unfold inside, new_decoder in *; open_rem). cbn [d_data d_pos] in *. lia.
Qed.
Print Assumptions C71_linear.

(** Elements of slices that take up no room cost a factor of the length. *)
Theorem C71_quadratic : forall cc kc E t v data, (forall c, 0 <= kc c) ->
  fed E false t -> all_codecs codec_within t -> all_codecs (codec_cheap cc kc) t -> fits t v ->
  work cc E t v data <= toll kc t * (1 + (1 + zlen data) * used (decode t v (new_decoder E data)) (new_decoder E data)).
Proof. exact work_quadratic. Qed.
Print Assumptions C71_quadratic.

(** They do cost it: `[][]struct{}`, at most [6 n + 5] bytes, [n * n] rounds. *)
Theorem C71_quadratic_reached : forall cc E n, 0 < n <= count_max E ->
  exists data vs s', zlen data <= 6 * n + 5 /\
    decode (TSlice (TSlice (TStruct []))) (VSlice None) (new_decoder E data) = (Ok (VSlice (Some vs)), s') /\
    zlen vs = n /\
    n * n <= work cc E (TSlice (TSlice (TStruct []))) (VSlice None) data.
Proof.
  intros cc E n Hn. destruct (thick_work cc E n Hn) as (Hw & vs & s' & Hd & Hl).
  exists (thick E n), vs, s'. split; [apply thick_len; lia|]. auto.
Qed.
Print Assumptions C71_quadratic_reached.

(** Maps whose keys and values take up no room: five bytes, as many rounds as
    they say (the map loops do not look at what is left). *)
Theorem C71_map_refuted : forall cc E n, 0 < n <= count_max E ->
  exists data es s', zlen data <= 5 /\
    decode (TMap (TStruct []) (TStruct [])) (VMap None) (new_decoder E data) = (Ok (VMap (Some es)), s') /\
    n <= work cc E (TMap (TStruct []) (TStruct [])) (VMap None) data.
Proof.
  intros cc E n Hn. destruct (map_count_work cc E n Hn) as (Hw & es & s' & Hd).
  exists (count E n), es, s'. split; [apply count_len; lia|]. auto.
Qed.
Print Assumptions C71_map_refuted.

(** The methods of the library cost a unit for each byte. *)
Theorem C71_library : Forall (all_codecs (codec_cheap byte_cost (fun _ => 1))) library_types.
Proof. exact library_cheap. Qed.
Print Assumptions C71_library.

(** ** Cases *)

Definition packet : ty := TStruct
  [ (mkF "Len" true (mkTag "sizeof=Items" "" ""), TUint UPlain W16);
    (mkF "Items" true notag, TSlice (TInt false W16));
    (mkF "Name" true notag, TPtr TString);
    (mkF "Index" true notag, TMap TString (TUint UPlain W8)) ].
Example packet_fed : fed Borsh true packet /\ all_codecs codec_within packet /\
  (forall cc kc, all_codecs (codec_cheap cc kc) packet).
Proof. split; [cbn; tauto|]. split; [cbn; tauto|]. intros cc kc. cbn. tauto. Qed.
Example packet_toll : toll (fun _ => 0) packet = 235.
Proof. reflexivity. Qed.
Definition packet_data : list Z := [2;0; 1;0;255;255; 2;0;0;0;104;105; 1;0;0;0; 1;0;0;0;97; 7].
Example packet_work :
  fst (decode packet (zero_val packet) (new_decoder Borsh packet_data)) =
    Ok (VStruct [VNum 2; VSlice (Some [VNum 1; VNum (-1)]); VPtr (Some (VStr [104; 105])); VMap (Some [(VStr [97], VNum 7)])]) /\
  work (fun _ _ _ => 0) Borsh packet (zero_val packet) packet_data = 39.
Proof. split; reflexivity. Qed.
(** A length of four billion in eight bytes: refused at once. *)
Example huge_slice_work :
  work (fun _ _ _ => 0) Borsh (TSlice (TStruct [])) (VSlice None) [255;255;255;255;0;0;0;0] = 4.
Proof. reflexivity. Qed.
(** Methods: one for the call and what the method itself costs. *)
Example methods_work :
  work (fun _ _ _ => 0) Borsh (TSlice HexBytes) (VSlice None) [2;0;0;0; 1;0;0;0;7; 0;0;0;0] = 14 /\
  work (fun _ _ _ => 5) Borsh (TSlice HexBytes) (VSlice None) [2;0;0;0; 1;0;0;0;7; 0;0;0;0] = 14 + 2 * 5.
Proof. split; reflexivity. Qed.
Example thick_case : work (fun _ _ _ => 0) Borsh (TSlice (TSlice (TStruct []))) (VSlice None) (thick Borsh 20) = 2144.
Proof. reflexivity. Qed.
