(** Types that mention each other: encoding a value ends. *)
From Coq Require Import String.
From Verif Require Import Types EncPrim DecPrim Enc Dec DecEq Builtin Spec TyInd EncFacts DecWire DecWithin DecSafe DecLocal GoEncFacts RecSpec RecFacts RecEnc RecEnds RecEncEnds MapFacts ManySpec.
Notation length := Datatypes.length.

Definition beyond_field (E : encoding) (n : nat) (en : bool) (h : fhdr) (t : ty) : Prop :=
  match t with
  | TPtr t' => beyond E (Nat.pred (Nat.pred n)) t' /\
      (en || flagged_field Borsh (parse_field_tag (f_tag h)) = false -> (2 < n)%nat -> E = Borsh -> beyond E (S (depth (zero_val t'))) t')
  | _ => beyond E (Nat.pred n) t
  end.
Lemma beyond_struct E n fs : beyond E n (TStruct fs) <-> Forall (fun ht => beyond_field E n (is_enum fs) (fst ht) (snd ht)) fs.
Proof.
  cbn [beyond]. generalize (is_enum fs) as en. intro en. induction fs as [|[h t] fs IH]; split; intro H; [constructor|exact I| |].
  - destruct H. constructor; [|apply IH]; assumption.
  - inversion_clear H. split; [|apply IH]; assumption.
Qed.

Lemma beyond_mono E t : forall n n', (n' <= n)%nat -> beyond E n t -> beyond E n' t.
Proof.
  induction t as [t IH] using ty_strong_ind. intros n n' Hn Hb.
  destruct t as [|un w|nm w|f| |sg| | |t|k t|t|t1 t2|fs|c t|]; cbn [beyond] in *; auto.
  - destruct Hb as [H1 H2]. split; [refine (IH t _ _ _ _ H1); [cbn; lia|lia]|]. intros Hl HE. apply H2; auto. lia.
  - refine (IH t _ _ _ _ Hb); [cbn; lia|lia].
  - refine (IH t _ _ _ _ Hb); [cbn; lia|lia].
  - destruct Hb as [H1 H2]. split; [refine (IH t1 _ _ _ _ H1); [cbn; lia|lia]|refine (IH t2 _ _ _ _ H2); [cbn; lia|lia]].
  - change (beyond E n (TStruct fs)) in Hb. change (beyond E n' (TStruct fs)). apply beyond_struct in Hb. apply beyond_struct.
    rewrite Forall_forall in *. intros [h a] Hin. specialize (Hb _ Hin). cbn [fst snd] in *. pose proof (ty_size_field fs h a Hin) as Hs.
    assert (Hp : beyond E (Nat.pred n) a -> beyond E (Nat.pred n') a) by (apply IH; [exact Hs|lia]).
    destruct a; try (apply Hp; exact Hb). cbn [beyond_field] in *. destruct Hb as [H1 H2].
    split; [refine (IH a _ _ _ _ H1); [cbn in *; lia|lia]|]. intros Hf Hl HE. apply H2; auto. lia.
  - refine (IH t _ _ _ _ Hb); [cbn; lia|lia].
  - lia.
Qed.

Lemma far_value_ends E t : forall n m v, beyond E n t -> all_codecs codec_ends t -> (depth v < n)%nat -> nodeep (enc_val E t m v).
Proof.
  induction t as [t IH] using ty_strong_ind. intros n m v Hb Hc Hd.
  assert (Hst : forall fs vs, t = TStruct fs -> v = VStruct vs -> nodeep (enc_struct E fs vs)).
  { intros fs vs -> ->. apply beyond_struct in Hb. apply all_codecs_struct in Hc. rewrite Forall_forall in Hb, Hc.
    cbn [depth] in Hd.
    assert (Hvs : forall x, In x vs -> (depth x < Nat.pred n)%nat) by (intros x Hx; pose proof (depth_in x vs Hx); lia).
    unfold enc_struct. destruct (is_borsh E && is_enum fs) eqn:Een.
    - apply andb_prop in Een. destruct Een as [Eb Een]. assert (HE : E = Borsh) by (now destruct E).
      destruct vs as [|[]]; try solve [nodeep]. apply nodeep_bind; [nodeep|]. intros _. apply nth_field_end; [exact HE| |].
      + intros h a v Hin Hv Hnp. pose proof (Hb _ Hin) as Hf. cbn [fst snd] in Hf.
        refine (IH a (ty_size_field _ _ _ Hin) (Nat.pred n) _ _ _ (Hc _ Hin) (Hvs _ Hv)).
        destruct a; try exact Hf. now destruct (Hnp a).
      + intros h a x Hin Hv. pose proof (Hb _ Hin) as Hf. cbn [fst snd beyond_field] in Hf. destruct Hf as [Hf _].
        pose proof (Hvs _ Hv) as Hx. cbn [depth] in Hx.
        refine (IH a _ _ _ _ Hf (Hc _ Hin) _); [|lia].
        pose proof (ty_size_field _ _ _ Hin) as Hsz. cbn [ty_size] in *. lia.
    - apply enc_fields_end. intros h a v sz Hin Hv. pose proof (Hvs _ Hv) as Hx. pose proof (Hb _ Hin) as Hf. cbn [fst snd] in Hf.
      assert (Hplain : beyond E (Nat.pred n) a -> nodeep (enc_val E a (EFull (field_opt E (parse_field_tag (f_tag h)) (f_name h) sz)) v)).
      { intro Hs. exact (IH a (ty_size_field _ _ _ Hin) _ _ _ Hs (Hc _ Hin) Hx). }
      destruct a as [|un w|nm w|f| |sg| | |a1|k a1|a1|t1 t2|fs1|c a1|]; try (apply Hplain; exact Hf).
      cbn [beyond_field] in Hf. destruct Hf as [Hf1 Hf2].
      destruct (nodeep_dec E) as [HE|HE]; [|apply Hplain; split; [exact Hf1|intros; contradiction]].
      assert (Een' : is_enum fs = false) by (rewrite HE in Een; exact Een). rewrite Een' in Hf2. cbn [orb] in Hf2.
      destruct (flagged_field Borsh _) eqn:Efl; [|apply Hplain; split; [exact Hf1|intro Hn; apply Hf2; [reflexivity|lia]]].
      (* a flagged pointer: nothing is written for nil *)
      rewrite enc_full_eq. apply nodeep_bind; [easy|]. intros _.
      assert (Hz : is_zero v = true -> nodeep (flags E (field_opt E (parse_field_tag (f_tag h)) (f_name h) sz) v
        (enc_core E (TPtr a1) (field_opt E (parse_field_tag (f_tag h)) (f_name h) sz) v))).
      { intro Hz. unfold flags. rewrite Hz. subst E. unfold flagged_field in Efl. cbn [is_borsh andb] in Efl.
        cbn [is_borsh andb field_opt o_opt o_copt]. cbv zeta.
        destruct (ft_option _); [nodeep|]. cbn [orb] in Efl. rewrite Efl. nodeep. }
      destruct (is_zero v) eqn:Ezv; [auto|]. apply nodeep_flags. cbn [enc_core].
      destruct (ptr_codec a1) as [[c f]|] eqn:Ep.
      + pose proof (Hc _ Hin) as Hc1. cbn [snd all_codecs] in Hc1. destruct a1; try discriminate. destruct Hc1 as [[Hc1 Hc2] _].
        unfold ptr_codec in Ep. cbn [codec_of] in Ep. destruct (c_marshal c0) as [g1|] eqn:Eg; [|discriminate].
        assert (c0 = c /\ g1 = f) as [-> ->] by (split; congruence).
        destruct v; try solve [nodeep]. destruct p; [intro s; now apply Hc1|]. subst E. nodeep.
      + destruct v as [| | | |[x|]| | | | | |]; try solve [nodeep]; try discriminate. subst E. cbn [depth] in Hx.
        refine (IH a1 _ _ _ _ Hf1 (Hc _ Hin) _); [|lia].
        pose proof (ty_size_field _ _ _ Hin) as Hsz. cbn [ty_size] in *. lia. }
  destruct m as [o|].
  - rewrite enc_full_eq. apply nodeep_bind; [easy|]. intros _. apply nodeep_flags.
    destruct t as [|un w|nm w|f| |sg| | |t|k t|t|t1 t2|fs|c t|]; cbn [enc_core]; try (now nodeep).
    + destruct (ptr_codec t) as [[c f]|] eqn:Ep.
      * destruct t; try discriminate. destruct Hc as [[Hc1 Hc2] _]. unfold ptr_codec in Ep. cbn [codec_of] in Ep.
        destruct (c_marshal c0) as [g1|] eqn:Eg; [|discriminate].
        assert (c0 = c /\ g1 = f) as [-> ->] by (split; congruence).
        destruct v; try solve [nodeep]. destruct p; [intro s; now apply Hc1|]. destruct E; try solve [nodeep];
          (destruct (c_byval c); [nodeep|exact Hc2]).
      * destruct Hb as [Hb1 Hb2]. destruct v as [| | | |[x|]| | | | | |]; try solve [nodeep].
        -- cbn [depth] in Hd.
           assert (Ht : forall m, nodeep (enc_val E t m x)) by (intro m; refine (IH t _ _ _ _ Hb1 Hc _); [cbn; lia|lia]).
           destruct E; apply Ht.
        -- destruct E; try solve [nodeep]. cbn [depth] in Hd. refine (IH t _ _ _ _ (Hb2 Hd eq_refl) Hc _); [cbn; lia|lia].
    + destruct v; try solve [nodeep]. destruct (uint_kind t); [nodeep|]. apply nodeep_each. intros x Hx.
      apply depth_in in Hx. cbn [depth beyond] in *. refine (IH t _ _ _ _ Hb Hc _); [cbn; lia|lia].
    + destruct v as [| | | | | |[l|]| | | |]; try solve [nodeep]; cbv zeta.
      * apply nodeep_bind; [nodeep|intros _]. destruct (uint_kind t); [nodeep|].
        apply nodeep_bind; [|intros _; nodeep]. apply nodeep_each. intros x Hx.
        assert (Hx' : In x l) by (rewrite <- (firstn_skipn (Z.to_nat (match o_size o with Some n => n | None => zlen l end)) l); apply in_or_app; now left).
        apply depth_in in Hx'. cbn [depth beyond] in *. refine (IH t _ _ _ _ Hb Hc _); [cbn; lia|lia].
      * apply nodeep_bind; [nodeep|intros _]. destruct (uint_kind t); [nodeep|].
        apply nodeep_bind; [|intros _; nodeep]. rewrite firstn_nil. nodeep.
    + destruct v as [| | | | | | |om| | |]; try solve [nodeep]. destruct Hb as [Hb1 Hb2], Hc as [Hc1 Hc2]. cbv zeta.
      set (m := match om with Some m => m | None => [] end).
      assert (Hm : forall e, In e m -> (depth (fst e) < Nat.pred n)%nat /\ (depth (snd e) < Nat.pred n)%nat).
      { intros e He. destruct om as [l|]; [|destruct He]. pose proof (depth_entry e l He). cbn [depth] in Hd. lia. }
      destruct (ordered_keys E t1 _) as [ks|] eqn:Eo; [|unfold unsortable; destruct t1; nodeep]. apply nodeep_bind; [nodeep|]. intros _.
      apply nodeep_each. intros kk Hkk. destruct (negb _); [nodeep|].
      assert (Hk : (depth kk < Nat.pred n)%nat).
      { apply (ordered_in E t1 _ _ Eo) in Hkk. apply in_map_iff in Hkk. destruct Hkk as (e & <- & He). now apply Hm. }
      apply nodeep_bind; [refine (IH t1 _ _ _ _ Hb1 Hc1 Hk); cbn; lia|]. intros _.
      destruct (map_index t1 m kk) as [x|] eqn:Ex; [|nodeep]. destruct (negb _); [nodeep|].
      assert (Hx : (depth x < Nat.pred n)%nat).
      { unfold map_index in Ex. destruct (find _ m) as [e|] eqn:Ef; [|discriminate]. apply find_some in Ef.
        assert (snd e = x) as <- by congruence. now apply Hm. }
      refine (IH t2 _ _ _ _ Hb2 Hc2 Hx). cbn; lia.
    + destruct v; try solve [nodeep]. now apply Hst.
    + destruct Hc as [[Hc1 _] Hc2]. cbn [beyond] in Hb.
      destruct (c_marshal c) as [f|] eqn:Em; [destruct (c_byval c)|].
      * intro s. now apply Hc1.
      * refine (IH t _ _ _ _ Hb Hc2 Hd); cbn; lia.
      * refine (IH t _ _ _ _ Hb Hc2 Hd); cbn; lia.
    + cbn [beyond] in Hb. lia.
  - destruct t as [|un w|nm w|f| |sg| | |t|k t|t|t1 t2|fs|c t|]; rewrite enc_payload_eq; try (now nodeep).
    + destruct v; try solve [nodeep]. now apply Hst.
    + destruct Hc as [_ Hc]. cbn [beyond] in Hb. refine (IH t _ _ _ _ Hb Hc Hd); cbn; lia.
    + cbn [beyond] in Hb. lia.
Qed.

Theorem far_encode_ends t n v s : beyond (e_enc s) n t -> all_codecs codec_ends t -> (depth v < n)%nat -> fst (encode t v s) <> Deep.
Proof. intros Hb Hc Hd. unfold encode, bind, e_get_enc. exact (far_value_ends (e_enc s) t n _ v Hb Hc Hd s). Qed.
