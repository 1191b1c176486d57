(** Proofs for C89, the encoder.  The structure is that of [scripted] in
    EncFacts.v. *)
From Verif Require Import Types EncPrim Enc Builtin Spec TyInd EncFacts EncProps ErrSpec.

(** Errors with a name are those of the writer. *)
Definition frank {A} (m : EM A) : Prop :=
  forall s e s' x, m s = (Err e, s') -> err_is e x -> sentinel x -> exists n, x = EWriter n.
Definition codec_frank (c : codec) (_ : ty) : Prop :=
  (forall f v, c_marshal c = Some f -> frank (f v)) /\ frank (c_marshal_nil c).

Lemma frank_ret {A} (a : A) : frank (ret a).
Proof. discriminate. Qed.
Lemma frank_msg {A} : frank (@fail est A EMsg).
Proof. intros s e s' x [= <- _] [<-|[]] []. Qed.
Lemma frank_panic {A} : frank (@panic est A).
Proof. discriminate. Qed.
Lemma frank_stuck {A} : frank (@stuck est A).
Proof. discriminate. Qed.
Lemma frank_deep {A} : frank (@deep est A).
Proof. discriminate. Qed.
Lemma frank_to_writer b : frank (to_writer b).
Proof.
  intros s e s' x H Hx Hs. unfold to_writer in H. cbv zeta in H. destruct (e_w s _) as [[k n]|]; [|discriminate].
  injection H as <- _. destruct Hx as [<-|[]]. now exists n.
Qed.
Lemma frank_set_cur o : frank (e_set_cur o).
Proof. discriminate. Qed.
Lemma frank_get_enc : frank e_get_enc.
Proof. discriminate. Qed.
Lemma frank_get_cur : frank e_get_cur.
Proof. discriminate. Qed.
Lemma frank_bind {A B} (m : EM A) (k : A -> EM B) : frank m -> (forall a, frank (k a)) -> frank (bind m k).
Proof.
  intros Hm Hk s e s' x H. unfold bind in H. destruct (m s) as [[a|e'| | |] s1] eqn:Em; try discriminate.
  - exact (Hk a s1 e s' x H).
  - injection H as <- <-. exact (Hm s e' s1 x Em).
Qed.
Lemma frank_map_err {A} (m : EM A) : frank m -> frank (map_err EWrap m).
Proof.
  intros Hm s e s' x H Hx Hs. unfold map_err in H. destruct (m s) as [[a|e'| | |] s1] eqn:Em; try discriminate.
  injection H as <- <-. destruct Hx as [<-|Hx]; [destruct Hs|]. exact (Hm s e' s1 x Em Hx Hs).
Qed.
Create HintDb frank.
#[global] Hint Resolve frank_ret frank_msg frank_panic frank_stuck frank_deep
  frank_to_writer frank_set_cur frank_get_enc frank_get_cur : frank.

Ltac frank :=
  repeat first
    [ solve [auto with frank]
    | apply frank_bind; [|intro]
    | apply frank_map_err
    | match goal with |- frank (match ?x with _ => _ end) => destruct x end
    | match goal with |- frank (if ?x then _ else _) => destruct x end ].

Lemma frank_write_uint n z o : frank (write_uint n z o).
Proof. unfold write_uint. frank. Qed.
Lemma frank_write_byte z : frank (write_byte z).
Proof. unfold write_byte. frank. Qed.
Lemma frank_write_uvarint z : frank (write_uvarint z).
Proof. unfold write_uvarint. frank. Qed.
Lemma frank_write_varint z : frank (write_varint z).
Proof. unfold write_varint. frank. Qed.
Lemma frank_write_compact_u16 z : frank (write_compact_u16 z).
Proof. unfold write_compact_u16. frank. Qed.
Lemma frank_write_bytes_nolen b : frank (write_bytes_nolen b).
Proof. unfold write_bytes_nolen. frank. Qed.
#[global] Hint Resolve frank_write_uint frank_write_byte frank_write_uvarint
  frank_write_varint frank_write_compact_u16 frank_write_bytes_nolen : frank.
Lemma frank_write_length z : frank (write_length z).
Proof. unfold write_length. frank. Qed.
#[global] Hint Resolve frank_write_length : frank.
Lemma frank_write_bytes b : frank (write_bytes b).
Proof. unfold write_bytes. frank. Qed.
Lemma frank_write_bool b : frank (write_bool b).
Proof. unfold write_bool. frank. Qed.
Lemma frank_write_coption b : frank (write_coption b).
Proof. unfold write_coption. frank. Qed.
Lemma frank_write_float f b o : frank (write_float f b o).
Proof. unfold write_float. frank. Qed.
#[global] Hint Resolve frank_write_bytes frank_write_bool frank_write_coption
  frank_write_float : frank.
Lemma frank_write_string s : frank (write_string s).
Proof. unfold write_string. frank. Qed.
Lemma frank_write_rust_string s : frank (write_rust_string s).
Proof. unfold write_rust_string. frank. Qed.
Lemma frank_write_uint128 lo hi o : frank (write_uint128 lo hi o).
Proof. unfold write_uint128. frank. Qed.
Lemma frank_write_uints w l vs : frank (write_uints w l vs).
Proof. unfold write_uints. frank. Qed.
#[global] Hint Resolve frank_write_string frank_write_rust_string
  frank_write_uint128 frank_write_uints : frank.
Lemma frank_write_flag E b : frank (write_flag E b).
Proof. unfold write_flag. frank. Qed.
Lemma frank_write_count E b : frank (write_count E b).
Proof. unfold write_count. frank. Qed.
Lemma frank_write_str E b : frank (write_str E b).
Proof. unfold write_str. frank. Qed.
Lemma frank_write_int E w z o : frank (write_int E w z o).
Proof. unfold write_int. frank. Qed.
#[global] Hint Resolve frank_write_flag frank_write_count frank_write_str
  frank_write_int : frank.
Lemma frank_each {A} (f : A -> EM unit) l :
  (forall a, frank (f a)) -> frank (each f l).
Proof. intro Hf. induction l as [|a l IH]; cbn [each]; frank. Qed.
Lemma frank_enc_map kt vt f g m ks :
  (forall a, frank (f a)) -> (forall a, frank (g a)) ->
  frank (enc_map kt vt f g m ks).
Proof. intros Hf Hg. unfold enc_map. apply frank_each. intro. frank. Qed.

Lemma frank_enc_fields E rec fs : forall vs sizes,
  Forall (fun ht => forall o v, frank (rec (snd ht) o v)) fs ->
  frank (enc_fields E rec fs vs sizes).
Proof.
  induction fs as [|[h t] fs IH]; intros vs sizes H; cbn [enc_fields].
  - frank.
  - destruct vs as [|v vs]; [frank|]. inversion_clear H as [|? ? H1 H2].
    destruct (ft_skip _); [now apply IH|].
    destruct (if String.eqb (ft_sizeof _) "" then _ else _) as [sizes'|]; [|frank].
    destruct (negb (f_exported h)); [now apply IH|].
    apply frank_bind; [|intro; now apply IH]. apply frank_map_err. apply H1.
Qed.

Lemma frank_nth_field (f : fhdr -> ty -> val -> EM unit) d b fs : forall vs n,
  Forall (fun ht => forall h v, frank (f h (snd ht) v)) fs ->
  frank d -> frank b ->
  frank (nth_field f d b fs vs n).
Proof.
  induction fs as [|[h t] fs IH]; intros vs n H Hd Hb; cbn [nth_field];
    destruct vs as [|v vs]; auto.
  inversion_clear H as [|? ? H1 H2]. destruct n; [apply H1|]. now apply IH.
Qed.

Lemma frank_sealed t : forall v, frank (enc_sealed t v).
Proof.
  induction t as [t IH] using ty_strong_ind. intro v. destruct t; cbn [enc_sealed]; try solve [frank].
  - destruct v; try solve [frank]. destruct (is_enum fs).
    + destruct l as [|[] l]; try solve [frank]. apply frank_bind; [frank|]. intros _.
      apply frank_nth_field; [|frank|frank]. apply Forall_forall. intros [h0 t'] Hin h v'. cbn [snd].
      pose proof (ty_size_field _ _ _ Hin) as Hs.
      destruct t'; try (apply IH; exact Hs). destruct v'; try solve [frank]. destruct p; [|frank].
      apply IH. cbn [ty_size] in *. lia.
    + apply frank_enc_fields. apply Forall_forall. intros. frank.
Qed.
Lemma frank_payload t v : frank (sealed_payload t v).
Proof.
  destruct t; try apply frank_sealed. cbn [sealed_payload]. destruct v; try solve [frank].
  destruct p; [apply frank_sealed|frank].
Qed.

Lemma frank_enc_val t : all_codecs codec_frank t ->
  forall E m v, frank (enc_val E t m v).
Proof.
  induction t as [t IH] using ty_strong_ind. intros Hc E m v.
  assert (Hrest : forall o (core : EM unit), frank core ->
    frank (e_set_cur (o_order o) ;;;
      let rest :=
        if is_borsh E && o_copt o then
          if is_zero v then write_coption false else write_coption true ;;; core
        else core in
      if o_opt o then
        if is_zero v then write_flag E false else write_flag E true ;;; rest
      else rest)).
  { intros o core Hcore. cbv zeta. frank. }
  destruct t; cbn [enc_val];
  lazymatch goal with
  | |- frank (match m with EFull _ => _ | EPayload => ?core end) =>
      assert (Hcore : frank core); [|destruct m as [o|]; [apply Hrest, Hcore|exact Hcore]]
  | _ => idtac
  end; try solve [frank].
  - (* pointer *)
    cbn [all_codecs] in Hc.
    assert (IHt : forall m v, frank (enc_val E t m v)).
    { intros. apply IH; [cbn; lia|exact Hc]. }
    destruct m as [o|]; [|frank].
    destruct (codec_of t) as [c|] eqn:Ec.
    + destruct t; try discriminate. inversion Ec; subst. destruct Hc as [[Hf Hn] _].
      destruct (c_marshal c) as [f|] eqn:Ef; [specialize (Hf f)|]; frank.
    + frank.
  - (* array *)
    assert (IHt : forall m v, frank (enc_val E t m v)).
    { intros. apply IH; [cbn; lia|exact Hc]. }
    frank. apply frank_each. auto.
  - (* slice *)
    assert (IHt : forall m v, frank (enc_val E t m v)).
    { intros. apply IH; [cbn; lia|exact Hc]. }
    cbv zeta. frank; apply frank_each; auto.
  - (* map *)
    destruct Hc as [Hc1 Hc2].
    assert (IH1 : forall m v, frank (enc_val E t1 m v)).
    { intros. apply IH; [cbn; lia|exact Hc1]. }
    assert (IH2 : forall m v, frank (enc_val E t2 m v)).
    { intros. apply IH; [cbn; lia|exact Hc2]. }
    cbv zeta. unfold unsortable. destruct t1; frank; apply frank_enc_map; auto.
  - (* struct *)
    apply all_codecs_struct in Hc.
    assert (IHf : forall h t', In (h, t') fs -> forall m v, frank (enc_val E t' m v)).
    { intros h t' Hin m' v'. apply IH; [now apply (ty_size_field _ h)|].
      rewrite Forall_forall in Hc. exact (Hc _ Hin). }
    destruct v; try solve [frank].
    destruct (is_borsh E && is_enum fs).
    + destruct l as [|[] l]; try solve [frank].
      apply frank_bind; [frank|]. intros _.
      apply frank_nth_field; [|frank|frank].
      apply Forall_forall. intros [h0 t'] Hin h v'. cbn [snd].
      destruct (negb (f_exported h)); [apply frank_payload|].
      pose proof (IHf _ _ Hin) as IHt'.
      destruct t'; try apply IHt'.
      destruct v'; try solve [frank]. destruct p; [|frank].
      apply IH.
      * pose proof (ty_size_field _ _ _ Hin). cbn [ty_size] in *. lia.
      * rewrite Forall_forall in Hc. exact (Hc _ Hin).
    + apply frank_enc_fields. apply Forall_forall. intros [h t'] Hin o' v'.
      cbn [snd]. now apply (IHf h).
  - (* codec *)
    destruct Hc as [[Hf _] Hc].
    assert (IHt : forall m v, frank (enc_val E t m v)).
    { intros. apply IH; [cbn; lia|exact Hc]. }
    destruct m as [o|]; [|apply IHt].
    destruct (c_marshal c) as [f|] eqn:Ef; [|apply IHt].
    destruct (c_byval c); [|apply IHt]. now apply Hf.
Qed.

Lemma frank_encode t v : all_codecs codec_frank t -> frank (encode t v).
Proof.
  intro H. unfold encode. apply frank_bind; [frank|]. intro E.
  now apply frank_enc_val.
Qed.

Lemma frank_e_cur_order : frank e_cur_order.
Proof. unfold e_cur_order. frank. Qed.
#[global] Hint Resolve frank_e_cur_order : frank.
Lemma frank_num f v : (forall z, frank (f z)) -> frank (with_num f v).
Proof. intro H. unfold with_num. destruct v; frank. Qed.
Lemma simple_frank m u t : (forall v, frank (m v)) -> codec_frank (simple_codec m u) t.
Proof. intro H. split; [intros f v [= <-]; apply H|]. cbn. frank. Qed.
Lemma frank_u128 v : frank (u128_marshal v).
Proof. unfold u128_marshal. frank. Qed.
#[global] Hint Resolve frank_u128 : frank.
Lemma library_frank : Forall (all_codecs codec_frank) library_types.
Proof.
  repeat constructor; cbn [all_codecs]; repeat split;
    try (intros f v [= <-]); try (apply frank_num; intro); try (apply (@frank_panic unit)); try (apply (frank_ret tt)); frank.
Qed.
