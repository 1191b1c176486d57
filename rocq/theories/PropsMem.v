(** C83. *)
From Coq Require Import String.
From Verif Require Import Types DecPrim Enc Dec Utf8 Builtin Spec NumFacts EncFacts EncProps DecWithin DecLocal DecBound DecWire Cost CostSpec CostFacts CostBound CostReach MemSpec MemFacts MemLib.

(** * C83: what a decoded value takes up *)

(** No more than the variable did and the work of decoding pays for. *)
Theorem C83_paid : forall cc E t v data x s',
  all_codecs codec_within t -> all_codecs (codec_modest cc) t -> fits t v ->
  decode t v (new_decoder E data) = (Ok x, s') -> slots x <= slots v + work cc E t v data.
Proof. exact slots_paid. Qed.
Print Assumptions C83_paid.

(** If the elements of slices and the entries of maps take up room in the input,
    the value is in proportion to the bytes used up. *)
Theorem C83_linear : forall cc kc E t v data x s', (forall c, 0 <= kc c) ->
  fed E true t -> all_codecs codec_within t -> all_codecs (codec_cheap cc kc) t -> all_codecs (codec_modest cc) t -> fits t v ->
  decode t v (new_decoder E data) = (Ok x, s') -> slots x <= slots v + toll kc t * (1 + d_pos s').
Proof.
  intros cc kc E t v data x s' Hk Hf Hw Hc Hm Hv Hd. pose proof (slots_paid cc E t v data x s' Hw Hm Hv Hd).
  pose proof (work_linear cc kc E t v data Hk Hf Hw Hc Hv) as H1. rewrite Hd in H1. unfold used in H1.
  cbn [fst snd new_decoder d_pos] in H1. rewrite Z.sub_0_r in H1. lia.
Qed.
Print Assumptions C83_linear.

(** Elements of slices that take up no room cost a factor of the length. *)
Theorem C83_quadratic : forall cc kc E t v data x s', (forall c, 0 <= kc c) ->
  fed E false t -> all_codecs codec_within t -> all_codecs (codec_cheap cc kc) t -> all_codecs (codec_modest cc) t -> fits t v ->
  decode t v (new_decoder E data) = (Ok x, s') -> slots x <= slots v + toll kc t * (1 + (1 + zlen data) * d_pos s').
Proof.
  intros cc kc E t v data x s' Hk Hf Hw Hc Hm Hv Hd. pose proof (slots_paid cc E t v data x s' Hw Hm Hv Hd).
  pose proof (work_quadratic cc kc E t v data Hk Hf Hw Hc Hv) as H1. rewrite Hd in H1. unfold used in H1.
  cbn [fst snd new_decoder d_pos] in H1. rewrite Z.sub_0_r in H1. lia.
Qed.
Print Assumptions C83_quadratic.

(** They do cost it: `[][]*struct{}`, at most [6 n + 5] bytes, [n * n] pointers. *)
Theorem C83_quadratic_reached : forall E n, 0 < n <= count_max E ->
  exists data x s', zlen data <= 6 * n + 5 /\
    decode (TSlice (TSlice (TPtr (TStruct [])))) (VSlice None) (new_decoder E data) = (Ok x, s') /\ n * n <= slots x.
Proof.
  intros E n Hn. destruct (thick_slots E n Hn) as (x & s' & Hd & Hx).
  exists (thick E n), x, s'. split; [apply thick_len; lia|]. auto.
Qed.
Print Assumptions C83_quadratic_reached.

(** The methods of the library give three units for each byte. *)
Theorem C83_library :
  Forall (fun t => all_codecs (codec_modest (fun c v s => 3 * byte_cost c v s)) t /\
                   all_codecs (codec_cheap (fun c v s => 3 * byte_cost c v s) (fun _ => 3)) t) library_types.
Proof.
  pose proof library_modest as H1. pose proof library_cheap as H2. rewrite Forall_forall in *. intros t Ht.
  split; [exact (H1 t Ht)|]. eapply all_codecs_impl; [|exact (H2 t Ht)]. exact thrice_cheap.
Qed.
Print Assumptions C83_library.

(** ** Cases *)

Definition packet2 : ty := TStruct
  [ (mkF "Items" true notag, TSlice (TInt false W16));
    (mkF "Name" true notag, TPtr TString);
    (mkF "Index" true notag, TMap TString (TUint UPlain W8)) ].
Definition packet2_data : list Z := [2;0;0;0; 1;0;255;255; 2;0;0;0;104;105; 1;0;0;0; 1;0;0;0;97; 7].
Example packet2_slots : exists x s',
  decode packet2 (zero_val packet2) (new_decoder Borsh packet2_data) = (Ok x, s') /\
  slots (zero_val packet2) = 4 /\ slots x = 12 /\ work (fun _ _ _ => 0) Borsh packet2 (zero_val packet2) packet2_data = 36.
Proof. eexists _, _. split; [vm_compute; reflexivity|]. repeat split; vm_compute; reflexivity. Qed.
Example packet2_linear : fed Borsh true packet2 /\ all_codecs codec_within packet2 /\
  (forall cc kc, all_codecs (codec_cheap cc kc) packet2) /\ (forall cc, all_codecs (codec_modest cc) packet2) /\ fits packet2 (zero_val packet2).
Proof.
  split; [cbn; tauto|]. split; [cbn; tauto|]. split; [intros; cbn; tauto|]. split; [intros; cbn; tauto|]. apply fits_zero.
Qed.
(** The factor 3: bytes that are not UTF-8. *)
Example safe_slots : exists x s',
  decode SafeString (VStr []) (new_decoder Bin [4; 255; 255; 255; 255]) = (Ok x, s') /\ slots x = 13.
Proof. eexists _, _. split; [vm_compute; reflexivity|]. reflexivity. Qed.
Example thick_slots_ex : exists x s',
  decode (TSlice (TSlice (TPtr (TStruct [])))) (VSlice None) (new_decoder Bin (thick Bin 20)) = (Ok x, s') /\
  zlen (thick Bin 20) = 41 /\ slots x = 821.
Proof. eexists _, _. split; [vm_compute; reflexivity|]. split; reflexivity. Qed.
