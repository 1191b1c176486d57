(** Unexported variants of Borsh enums (C78). *)
From Verif Require Import Types EncPrim DecPrim Enc Dec Builtin Spec NumFacts TyInd EncFacts EncWire
  DecWire RoundTrip DecEq EncProps DecProps DecWithin DecSafe FieldFacts EnumFacts SealedSpec.

(** * Encoder *)
Lemma hidden_emits rec fs : forall vs c, forallb (fun ht => negb (lends (fst ht)) && lendless (snd ht)) fs = true ->
  fits_fields fits fs vs -> emits Borsh c (enc_fields Borsh rec (hide fs) vs []) [] c.
Proof.
  induction fs as [|[h t] fs IH]; intros [|v vs] c Hl Hf; try easy.
  - apply emits_ret.
  - cbn [forallb] in Hl. apply andb_prop in Hl as [H1 H2]. apply andb_prop in H1 as [H1 _]. destruct Hf as [_ Hf].
    cbn [hide map enc_fields fst snd f_tag f_exported negb]. fold (hide fs). cbv zeta. unfold lends in H1. cbn [fst] in H1.
    destruct (ft_skip _); [now apply IH|]. cbn [negb andb] in H1.
    destruct (ft_sizeof _); [|discriminate]. cbn [String.eqb]. now apply IH.
Qed.
Lemma lendless_field fs h t : lendless (TStruct fs) = true -> In (h, t) fs -> lendless t = true.
Proof. cbn [lendless]. intros H Hin. rewrite forallb_forall in H. specialize (H _ Hin). now apply andb_prop in H as [_ H]. Qed.

Lemma sealed_emits t : forall v b c, fits t v -> lendless t = true -> shown t v = Some b ->
  emits Borsh c (enc_sealed t v) b c.
Proof.
  induction t as [t IH] using ty_strong_ind. intros v b c Hf Hl Hb.
  destruct t as [|un w|nm w|f| |sg| | |t|n t|t|t1 t2|fs|cd t|]; cbn [enc_sealed].
  - destruct Hf as (x & ->). injection Hb as <-. apply emits_write_bool.
  - destruct Hf as (x & -> & _). injection Hb as <-. apply (emits_write_int Borsh).
  - destruct Hf as (x & -> & _). injection Hb as <-. apply (emits_write_int Borsh).
  - destruct Hf as (x & -> & _). cbn [shown] in Hb. destruct (f_isnan f x) eqn:En; [discriminate|]. injection Hb as <-.
    rewrite <- (quiet_notnan f x En) at 2. now apply emits_write_float.
  - destruct Hf as (x & -> & _). cbn [shown] in Hb. destruct (Z.leb_spec (zlen x) (text_max Borsh)); [|discriminate]. injection Hb as <-.
    now apply (emits_write_str Borsh).
  - destruct Hf as (x & -> & _). injection Hb as <-. apply emits_ret.
  - rewrite Hf in *. injection Hb as <-. apply emits_ret.
  - destruct Hf as (x & ->). injection Hb as <-. apply emits_ret.
  - destruct Hf as (x & -> & _). injection Hb as <-. apply emits_ret.
  - destruct Hf as (x & -> & _). injection Hb as <-. apply emits_ret.
  - destruct Hf as (x & -> & _). injection Hb as <-. apply emits_ret.
  - destruct Hf as (x & -> & _). injection Hb as <-. apply emits_ret.
  - destruct Hf as (vs & -> & Hf). pose proof (EncWire.is_enum_spec Borsh fs) as He. cbn [is_borsh andb] in He. rewrite He.
    destruct (enum_struct Borsh fs) eqn:En.
    2: { replace b with (@nil Z). { apply hidden_emits; [exact Hl|exact Hf]. }
         cbn [shown] in Hb. destruct vs as [|[] vs]; try congruence. rewrite En in Hb. congruence. }
    assert (Hv0 : exists z r, vs = VNum z :: r /\ 0 <= z < 256).
    { destruct fs as [|[h0 t0] fs]; [discriminate|]. cbn [enum_struct] in En. destruct t0 as [|un w| | | | | | | | | | | | |]; try discriminate.
      destruct un; try discriminate. destruct w; try discriminate. destruct vs as [|v0 r]; [easy|]. destruct Hf as [(z & -> & Hz) _].
      now exists z, r. }
    destruct Hv0 as (z & r & -> & Hz). cbn [shown] in Hb. rewrite En in Hb.
    destruct (pick shown fs (VNum z :: r) (S (Z.to_nat z))) as [b'|] eqn:Ep; [|discriminate]. injection Hb as <-.
    change (z :: b') with ([z] ++ b'). eapply emits_bind.
    { pose proof (emits_write_byte Borsh c z) as H. rewrite Z.mod_small in H by lia. exact H. }
    rewrite Z.mod_small by lia. clear En Hz He.
    assert (IH' : forall h a, In (h, a) fs -> forall a1, (ty_size a1 <= ty_size a)%nat -> lendless a1 = true -> forall v b c, fits a1 v ->
      shown a1 v = Some b -> emits Borsh c (enc_sealed a1 v) b c).
    { intros h a Hin a1 Hs Hl1 v b c1 Hf1 Hb1. apply IH; auto. pose proof (ty_size_field fs h a Hin). lia. }
    assert (Hlf : forall h a, In (h, a) fs -> lendless a = true) by (intros h a; now apply lendless_field).
    clear IH Hl. revert Ep Hf. generalize (VNum z :: r) as us. generalize (S (Z.to_nat z)) as n.
    induction fs as [|[h t] fs IHf]; intros n [|v us] Ep Hf; try easy; try (now destruct n).
    destruct Hf as [Hv Hf]. cbn [snd] in Hv. destruct n as [|n]; cbn [nth_field].
    2: { apply IHf; auto.
         - intros h1 a Hin. apply (IH' h1). now right.
         - intros h1 a Hin. apply (Hlf h1). now right.
         - cbn [pick] in Ep. destruct t; try exact Ep. destruct v; try exact Ep. destruct p; exact Ep. }
    pose proof (IH' h t (or_introl eq_refl)) as Hi. specialize (Hlf h t (or_introl eq_refl)). cbn [pick] in Ep.
    destruct t; try (apply Hi; auto; fail).
    destruct Hv as (p & -> & Hx). destruct p as [x|]; [|injection Ep as <-; apply emits_ret].
    apply Hi; auto. cbn. lia.
  - cbn [lendless shown fits] in *. apply IH; auto.
  - discriminate.
Qed.

Lemma fits_nth fs : forall vs n h t v, fits_fields fits fs vs -> nth_error fs n = Some (h, t) -> nth_error vs n = Some v -> fits t v.
Proof.
  induction fs as [|[h0 t0] fs IH]; intros [|v0 vs] [|n] h t v Hf H1 H2; try easy; destruct Hf as [Hv Hf]; cbn in H1, H2.
  - injection H1 as _ <-. now injection H2 as <-.
  - eauto.
Qed.

Lemma marshal_sealed fs z vs h t v b :
  enum_struct Borsh fs = true -> 0 <= z < 256 ->
  nth_error fs (S (Z.to_nat z)) = Some (h, t) -> f_exported h = false ->
  nth_error vs (Z.to_nat z) = Some v -> fits t v -> lendless t = true -> shown_variant t v = Some b ->
  marshal Borsh (TStruct fs) (VStruct (VNum z :: vs)) = (Ok tt, z :: b).
Proof.
  intros Hen Hz Hf Hex Hv Hfit Hl Hb. unfold marshal, encode. unfold bind at 1. unfold e_get_enc.
  cbn [new_encoder e_enc enc_val]. rewrite EncWire.is_enum_spec, Hen.
  cbv zeta. cbn [opt0 o_order o_opt o_copt is_borsh andb]. unfold bind at 1, e_set_cur.
  rewrite (Z.mod_small z 256) by lia.
  rewrite (nth_field_at _ _ _ fs (VNum z :: vs) (S (Z.to_nat z)) h t v Hf Hv), Hex. cbn [negb].
  assert (He : emits Borsh (Some LE) (write_byte z ;;; sealed_payload t v) ([z] ++ b) (Some LE)).
  { eapply emits_bind.
    { pose proof (emits_write_byte Borsh (Some LE) z) as H. rewrite Z.mod_small in H by lia. exact H. }
    unfold sealed_payload. destruct t; try (apply sealed_emits; auto; fail).
    destruct Hfit as (p & -> & Hx). destruct p as [x|]; [|injection Hb as <-; apply emits_ret]. apply sealed_emits; auto. }
  destruct (emits_buffer _ _ _ _ _ He 0 [] []) as (cs & _ & Hm). cbn [new_encoder e_enc e_w e_count e_hist e_acc]. unfold buffer in *. rewrite Hm. reflexivity.
Qed.

(** * Decoder *)
Lemma dec_variant_sealed rec fs : forall ps n h t p s, nth_error fs n = Some (h, t) -> f_exported h = false ->
  nth_error ps n = Some p ->
  dec_variant rec fs ps n s = (d_set_cur LE ;;; dec_sealed t p ;;; ret ps) s.
Proof.
  induction fs as [|[h0 t0] fs IH]; intros [|p0 ps] [|n] h t p s Hf Hex Hp; try discriminate.
  - cbn in Hf, Hp. injection Hf as -> ->. injection Hp as ->. cbn [dec_variant]. rewrite Hex. reflexivity.
  - cbn [dec_variant nth_error] in *. unfold fmap at 1. unfold bind at 1. rewrite (IH _ _ _ _ _ _ Hf Hex Hp).
    unfold bind, d_set_cur, ret. cbn. destruct (dec_sealed t p _) as [[]]; reflexivity.
Qed.
Lemma decode_sealed fs h0 n h t p0 p ps c pre post :
  enum_struct Borsh fs = true -> hd_error fs = Some (h0, BorshEnum) -> f_exported h0 = true ->
  0 <= n < 256 ->
  nth_error fs (S (Z.to_nat n)) = Some (h, t) -> f_exported h = false -> nth_error ps (Z.to_nat n) = Some p ->
  decode (TStruct fs) (VStruct (p0 :: ps)) (at_bytes Borsh c pre [n] post) =
  fmap (fun _ => VStruct (VNum n :: ps)) (dec_sealed t p) (past_bytes Borsh (Some LE) pre [n] post).
Proof.
  intros Hen Hhd Hex0 Hn Hf Hex Hp. rewrite decode_enum_eq by easy.
  unfold dec_struct. rewrite EncWire.is_enum_spec, Hen. destruct fs as [|[h1 t1] fs]; [discriminate|].
  injection Hhd as -> _.
  change (dat_le (at_bytes Borsh c pre [n] post)) with (mkD (pre ++ [n] ++ post) (zlen pre) (Some LE) Borsh).
  unfold bind at 1. rewrite (keeps_read_byte Borsh n pre post (Some LE)). rewrite Hex0. cbn [negb].
  cbn [nth_error] in Hf. unfold bind at 1. rewrite (dec_variant_sealed _ fs ps (Z.to_nat n) h t p _ Hf Hex Hp).
  unfold past_bytes, fmap, bind, ret, d_set_cur. cbn.
  destruct (dec_sealed t p _) as [[]]; reflexivity.
Qed.

Lemma hidden_reads rec fs : forall ps seen s, inside s -> extensions_last fs seen = true -> length ps = length fs ->
  exists s', dec_fields Borsh rec (hide fs) ps [] seen s = (Ok ps, s') /\ s' = s.
Proof.
  induction fs as [|[h t] fs IH]; intros [|p ps] seen s Hs He Hl; try discriminate; [now exists s|].
  injection Hl as Hl. cbn [extensions_last] in He. cbn [hide map dec_fields fst snd f_tag f_exported negb]. fold (hide fs). cbv zeta in *.
  assert (Hk : forall sn, extensions_last fs sn = true -> fmap (cons p) (dec_fields Borsh rec (hide fs) ps [] sn) s = (Ok (p :: ps), s)).
  { intros sn Hsn. destruct (IH ps sn s Hs Hsn Hl) as (s1 & H1 & ->). unfold fmap, bind. now rewrite H1. }
  exists s. split; [|reflexivity]. destruct (ft_skip _); [now apply Hk|].
  apply andb_prop in He as [He1 He2]. destruct (ft_ext (parse_field_tag (f_tag h))) eqn:Ee; cbn [negb andb orb] in *.
  - rewrite orb_true_r in *. unfold d_rest, d_get, slice_from, bind at 1 2. unfold inside in Hs.
    replace ((0 <=? d_pos s) && (d_pos s <=? zlen (d_data s))) with true by (symmetry; apply andb_true_intro; split; apply Z.leb_le; lia).
    cbn [ret]. destruct (skipn _ _); now apply Hk.
  - rewrite orb_false_r in *. destruct seen; [discriminate|]. now apply Hk.
Qed.
Lemma record_reads t : forall fs p s, inside s -> record t = Some fs -> extensions_last fs false = true -> fits t p ->
  dec_sealed t p s = (Ok tt, s).
Proof.
  induction t; intros fs0 p s Hs Hr He Hf; try discriminate.
  - cbn [record] in Hr. destruct (enum_struct Borsh fs) eqn:En; [discriminate|]. injection Hr as <-.
    destruct Hf as (vs & -> & Hf). cbn [dec_sealed]. pose proof (EncWire.is_enum_spec Borsh fs) as H1. cbn [is_borsh andb] in H1. rewrite H1, En.
    destruct (hidden_reads (fun _ _ p => ret p) fs vs false s Hs He) as (s' & H2 & ->).
    { clear - Hf. revert vs Hf. induction fs as [|[? ?] fs IH]; intros [|v vs] Hf; try easy. destruct Hf as [_ Hf]. cbn. now rewrite IH. }
    unfold bind. now rewrite H2.
  - cbn [record dec_sealed fits] in *. eauto.
Qed.

(** Numbers: a panic, whatever follows. *)
Lemma hopeless_panics {A} (Q : A -> Prop) (m : DM A) s : safe false false Q m -> calm false s -> fst (hopeless m s) = Panic.
Proof.
  intros H Hs. unfold hopeless, then_panic, bind. destruct (H s Hs) as [_ H1]. destruct (m s) as [[] s1]; cbn in *; easy.
Qed.
Lemma number_panics t : forall p s, number (under t) = true -> calm false s -> fst (dec_sealed t p s) = Panic.
Proof.
  induction t; intros p s Hn Hs; try discriminate; cbn [dec_sealed].
  - eapply hopeless_panics; [apply safe_bool|exact Hs].
  - eapply hopeless_panics; [apply safe_uintw|exact Hs].
  - eapply hopeless_panics; [apply safe_intw|exact Hs].
  - eapply hopeless_panics; [apply safe_float|exact Hs].
  - now apply IHt.
Qed.
Lemma stores_never t : forall p s x s', stores t = true -> dec_sealed t p s <> (Ok x, s').
Proof.
  induction t; intros p s x s' Hn; try discriminate; cbn [dec_sealed]; try apply hopeless_never; try apply then_panic_never.
  - cbn [stores] in Hn. pose proof (EncWire.is_enum_spec Borsh fs) as H1. cbn [is_borsh andb] in H1. rewrite H1, Hn.
    destruct p; try discriminate. apply then_panic_never.
  - now apply IHt.
Qed.

(** * The statements of C78 *)
Lemma struct_not_written fs z vs h t v r : enum_struct Borsh fs = true -> 0 <= z < 256 ->
  nth_error fs (S (Z.to_nat z)) = Some (h, t) -> f_exported h = false ->
  nth_error vs (Z.to_nat z) = Some v -> fits t v -> lendless t = true ->
  record (match t with TPtr t' => t' | _ => t end) = Some r ->
  marshal Borsh (TStruct fs) (VStruct (VNum z :: vs)) = (Ok tt, [z]).
Proof.
  intros He Hz Hf Hex Hv Hfit Hl Hr. eapply marshal_sealed; eauto.
  assert (Hs : forall t v, record t = Some r -> fits t v -> shown t v = Some []).
  { clear. intros t. induction t; intros v Hr Hf; try discriminate.
    - cbn [record] in Hr. destruct (enum_struct Borsh fs) eqn:En; [discriminate|]. destruct Hf as (vs & -> & _).
      cbn [shown]. destruct vs as [|[] vs]; try reflexivity. now rewrite En.
    - cbn [shown]. now apply IHt. }
  destruct t; try (apply Hs; auto; fail). destruct Hfit as (p & -> & Hx). destruct p as [x|]; [|reflexivity]. apply Hs; auto.
Qed.
Lemma unmarshal_at E t p data c : unmarshal E t p data = fst (decode t p (at_bytes E c [] data [])).
Proof.
  unfold unmarshal, decode, decode_target, bind, d_get_enc, new_decoder, at_bytes, fmap, ret. cbn [d_enc app zlen length]. rewrite app_nil_r.
  f_equal. apply dec_start_cur. reflexivity.
Qed.
Lemma unmarshal_sealed fs h0 n h t p0 p ps data :
  enum_struct Borsh fs = true -> hd_error fs = Some (h0, BorshEnum) -> f_exported h0 = true ->
  0 <= n < 256 ->
  nth_error fs (S (Z.to_nat n)) = Some (h, t) -> f_exported h = false -> nth_error ps (Z.to_nat n) = Some p ->
  unmarshal Borsh (TStruct fs) (VStruct (p0 :: ps)) (n :: data) =
  fst (fmap (fun _ => VStruct (VNum n :: ps)) (dec_sealed t p) (past_bytes Borsh (Some LE) [] [n] data)).
Proof.
  intros. rewrite <- (decode_sealed fs h0 n h t p0 p ps None [] data) by assumption.
  rewrite (unmarshal_at _ _ _ _ None). unfold at_bytes. cbn [app]. now rewrite app_nil_r.
Qed.
Lemma struct_read fs h0 n h t p0 p ps r data :
  enum_struct Borsh fs = true -> hd_error fs = Some (h0, BorshEnum) -> f_exported h0 = true -> 0 <= n < 256 ->
  nth_error fs (S (Z.to_nat n)) = Some (h, t) -> f_exported h = false -> nth_error ps (Z.to_nat n) = Some p ->
  fits t p -> record t = Some r -> extensions_last r false = true ->
  unmarshal Borsh (TStruct fs) (VStruct (p0 :: ps)) (n :: data) = Ok (VStruct (VNum n :: ps)).
Proof.
  intros H1 H2 H3 H4 H5 H6 H7 H8 H9 H10. rewrite (unmarshal_sealed fs h0 n h t p0 p ps data) by assumption.
  unfold fmap, bind. erewrite record_reads; eauto. unfold inside, past_bytes. cbn [d_pos d_data app]. unfold zlen. cbn [length]. lia.
Qed.
Lemma kept fs n h t p0 p ps data x : enum_struct Borsh fs = true -> hd 0 data = n -> 0 <= n < 256 ->
  nth_error fs (S (Z.to_nat n)) = Some (h, t) -> f_exported h = false -> nth_error ps (Z.to_nat n) = Some p ->
  unmarshal Borsh (TStruct fs) (VStruct (p0 :: ps)) data = Ok x -> x = VStruct (VNum n :: ps).
Proof.
  intros H1 H2 H4 H5 H6 H7 H. destruct data as [|b data].
  - rewrite (unmarshal_at _ _ _ _ None), decode_enum_eq in H by easy. unfold dec_struct in H. rewrite EncWire.is_enum_spec, H1 in H. discriminate.
  - cbn [hd] in H2. subst b. destruct fs as [|[h0 t0] fs]; [discriminate|].
    assert (Ht0 : t0 = BorshEnum).
    { cbn in H1. destruct t0 as [|un w| | | | | | | | | | | | |]; try discriminate. destruct un; try discriminate. destruct w; try discriminate. reflexivity. }
    subst t0. destruct (f_exported h0) eqn:E0.
    + rewrite (unmarshal_sealed _ h0 n h t p0 p ps data) in H by easy.
      unfold fmap, bind, ret in H. destruct (dec_sealed t p _) as [[]]; try discriminate. now injection H.
    + rewrite (unmarshal_at _ _ _ _ None), decode_enum_eq in H by easy. unfold dec_struct in H. rewrite EncWire.is_enum_spec, H1 in H.
      unfold bind in H. destruct (read_byte _) as [[]]; try discriminate. rewrite E0 in H. discriminate.
Qed.
Lemma numbers_panic fs h0 n h t p0 p ps data :
  enum_struct Borsh fs = true -> hd_error fs = Some (h0, BorshEnum) -> f_exported h0 = true -> 0 <= n < 256 -> bytes_ok data ->
  nth_error fs (S (Z.to_nat n)) = Some (h, t) -> f_exported h = false -> nth_error ps (Z.to_nat n) = Some p ->
  number (under t) = true ->
  unmarshal Borsh (TStruct fs) (VStruct (p0 :: ps)) (n :: data) = Panic.
Proof.
  intros H1 H2 H3 H4 Hb H5 H6 H7 H8. rewrite (unmarshal_sealed fs h0 n h t p0 p ps data) by assumption.
  unfold fmap, bind. match goal with |- context [dec_sealed t p ?s] => pose proof (number_panics t p s H8) as Hp; destruct (dec_sealed t p s) as [r s1] end.
  cbn [fst] in Hp. rewrite Hp; [reflexivity|]. split; [|split; [|discriminate]].
  - unfold DecWithin.inside, past_bytes. cbn [d_pos d_data app]. unfold zlen. cbn [length]. lia.
  - unfold past_bytes. cbn [d_data app]. now constructor.
Qed.
Lemma nil_pointer_panics fs h0 n h t p0 ps data :
  enum_struct Borsh fs = true -> hd_error fs = Some (h0, BorshEnum) -> f_exported h0 = true -> 0 <= n < 256 ->
  nth_error fs (S (Z.to_nat n)) = Some (h, TPtr t) -> f_exported h = false -> nth_error ps (Z.to_nat n) = Some (VPtr None) ->
  unmarshal Borsh (TStruct fs) (VStruct (p0 :: ps)) (n :: data) = Panic.
Proof. intros. rewrite (unmarshal_sealed fs h0 n h (TPtr t) p0 (VPtr None) ps data) by assumption. reflexivity. Qed.
Lemma stores_fail fs n h t p0 p ps data x : enum_struct Borsh fs = true -> hd 0 data = n -> 0 <= n < 256 ->
  nth_error fs (S (Z.to_nat n)) = Some (h, t) -> f_exported h = false -> nth_error ps (Z.to_nat n) = Some p ->
  stores t = true -> unmarshal Borsh (TStruct fs) (VStruct (p0 :: ps)) data <> Ok x.
Proof.
  intros H1 H2 H4 H5 H6 H7 Hst H. destruct data as [|b data].
  - rewrite (unmarshal_at _ _ _ _ None), decode_enum_eq in H by easy. unfold dec_struct in H. rewrite EncWire.is_enum_spec, H1 in H. discriminate.
  - cbn [hd] in H2. subst b. destruct fs as [|[h0 t0] fs]; [discriminate|].
    assert (Ht0 : t0 = BorshEnum).
    { cbn in H1. destruct t0 as [|un w| | | | | | | | | | | | |]; try discriminate. destruct un; try discriminate. destruct w; try discriminate. reflexivity. }
    subst t0. destruct (f_exported h0) eqn:E0.
    + rewrite (unmarshal_sealed _ h0 n h t p0 p ps data) in H by easy.
      unfold fmap, bind, ret in H. destruct (dec_sealed t p _) as [[]] eqn:Ed; try discriminate. now apply stores_never in Ed.
    + rewrite (unmarshal_at _ _ _ _ None), decode_enum_eq in H by easy. unfold dec_struct in H. rewrite EncWire.is_enum_spec, H1 in H.
      unfold bind in H. destruct (read_byte _) as [[]]; try discriminate. rewrite E0 in H. discriminate.
Qed.
